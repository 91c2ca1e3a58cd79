(** Facts about the operations of DoubleModel.v: exactness where the result is representable,
    and bounds on the relative error otherwise. *)
From Coq Require Import NArith ZArith Reals Lia Lra Bool.
From Flocq Require Import Core.
From Flocq Require Import BinarySingleNaN.
From Flocq Require Import Relative.
From Verif Require Import DoubleModel.
Open Scope R_scope.

Definition rnd (x : R) : R := round radix2 (SpecFloat.fexp 53 1024) ZnearestE x.
Definition val (x : binary_float 53 1024) : R := B2R x.

(** Half a unit in the last place, relatively. *)
Definition eps : R := bpow radix2 (-53).

Lemma eps_val : eps = / 9007199254740992.
Proof. unfold eps. simpl. reflexivity. Qed.

Lemma fexp_FLT : forall e, SpecFloat.fexp 53 1024 e = FLT_exp (-1074) 53 e.
Proof. intros e. reflexivity. Qed.

#[global] Instance vfexp : Valid_exp (SpecFloat.fexp 53 1024).
Proof. apply (fexp_correct 53 1024 prec53). Qed.

Lemma rnd_le x y : x <= y -> rnd x <= rnd y.
Proof. apply round_le; typeclasses eauto. Qed.

Lemma rnd_0 : rnd 0 = 0.
Proof. apply round_0; typeclasses eauto. Qed.

(** Representable integers: at most 53 bits. *)
Lemma generic_Z z : (Z.abs z <= 2 ^ 53)%Z -> generic_format radix2 (SpecFloat.fexp 53 1024) (IZR z).
Proof.
  intros H. destruct (Z.eq_dec z 0) as [->|Hz]; [apply generic_format_0|].
  destruct (Z.eq_dec (Z.abs z) (2 ^ 53)) as [E|E].
  - assert (IZR z = F2R (Float radix2 (Z.sgn z) 53)) as ->.
    { unfold F2R. simpl Fnum. simpl Fexp.
      assert (z = Z.sgn z * 2 ^ 53)%Z as H1 by lia. rewrite H1 at 1. rewrite mult_IZR. f_equal. }
    apply generic_format_F2R. intros _. simpl.
    unfold cexp. 
    assert (Hs : F2R (Float radix2 (Z.sgn z) 53) = IZR z).
    { unfold F2R. simpl Fnum. simpl Fexp.
      assert (z = Z.sgn z * 2 ^ 53)%Z as H1 by lia. rewrite H1 at 2. rewrite mult_IZR. f_equal. }
    rewrite Hs.
    assert (mag radix2 (IZR z) = 54%Z :> Z) as ->.
    { apply mag_unique. rewrite <- abs_IZR, E. simpl. split; lra. }
    unfold SpecFloat.fexp, SpecFloat.emin. lia.
  - replace (IZR z) with (F2R (Float radix2 z 0)) by (unfold F2R; simpl; ring).
    apply generic_format_F2R. intros _. unfold cexp.
    replace (F2R (Float radix2 z 0)) with (IZR z) by (unfold F2R; simpl; ring).
    assert ((mag radix2 (IZR z) <= 53)%Z).
    { apply mag_le_bpow; [apply IZR_neq; auto|]. rewrite <- abs_IZR.
      change (bpow radix2 53) with (IZR (2 ^ 53)). apply IZR_lt. lia. }
    unfold SpecFloat.fexp, SpecFloat.emin. lia.
Qed.

Lemma rnd_Z z : (Z.abs z <= 2 ^ 53)%Z -> rnd (IZR z) = IZR z.
Proof. intros H. apply round_generic; [typeclasses eauto|]. apply generic_Z; auto. Qed.

Lemma rnd_bpow e : (-1074 <= e)%Z -> rnd (bpow radix2 e) = bpow radix2 e.
Proof.
  intros H. apply round_generic; [typeclasses eauto|]. apply generic_format_bpow.
  unfold SpecFloat.fexp, SpecFloat.emin. lia.
Qed.

(** Relative error of rounding away from the subnormal range. *)
Lemma rnd_err x : bpow radix2 (-1000) <= Rabs x -> Rabs (rnd x - x) <= eps * Rabs x.
Proof.
  intros H. unfold rnd, eps.
  pose proof (relative_error_N_FLT radix2 (-1074) 53 prec53 (fun n => negb (Z.even n)) x) as E.
  assert (bpow radix2 (-1074 + 53 - 1) <= Rabs x) as Hx.
  { eapply Rle_trans; [|exact H]. apply bpow_le. lia. }
  specialize (E Hx).
  replace (bpow radix2 (-53)) with (/ 2 * bpow radix2 (-53 + 1)).
  - exact E.
  - replace (-53 + 1)%Z with (1 + -53)%Z by lia. rewrite bpow_plus. simpl (bpow radix2 1). lra.
Qed.

Lemma rnd_err0 x : x = 0 \/ bpow radix2 (-1000) <= Rabs x -> Rabs (rnd x - x) <= eps * Rabs x.
Proof.
  intros [->|H]; [|apply rnd_err; auto]. rewrite rnd_0, Rminus_0_r, Rabs_R0. lra.
Qed.

Lemma rnd_small x b : (-1074 <= b <= 1023)%Z -> Rabs x <= bpow radix2 b -> Rabs (rnd x) <= bpow radix2 b.
Proof.
  intros Hb H. unfold rnd. apply abs_round_le_generic; auto; try typeclasses eauto.
  apply generic_format_bpow. unfold SpecFloat.fexp, SpecFloat.emin. lia.
Qed.

Lemma no_overflow x b : (-1074 <= b <= 1023)%Z -> Rabs x <= bpow radix2 b ->
  Rlt_bool (Rabs (rnd x)) (bpow radix2 1024) = true.
Proof.
  intros Hb H. apply Rlt_bool_true. eapply Rle_lt_trans; [apply (rnd_small x b); auto|].
  apply bpow_lt. lia.
Qed.

Lemma of_Z_ok z : (Z.abs z <= 2 ^ 1000)%Z -> is_finite (of_Z z) = true /\ val (of_Z z) = rnd (IZR z).
Proof.
  intros H. pose proof (binary_normalize_correct 53 1024 prec53 emax1024 mode_NE z 0 false) as E.
  cbv zeta in E. replace (F2R (Float radix2 z 0)) with (IZR z) in E by (unfold F2R; simpl; ring).
  change (round radix2 (SpecFloat.fexp 53 1024) (round_mode mode_NE) (IZR z)) with (rnd (IZR z)) in E.
  rewrite (no_overflow _ 1000) in E; [|lia|].
  - destruct E as (E1 & E2 & _). split; auto.
  - rewrite <- abs_IZR. change (bpow radix2 1000) with (IZR (2 ^ 1000)). apply IZR_le. auto.
Qed.

Lemma of_Z_exact z : (Z.abs z <= 2 ^ 53)%Z -> is_finite (of_Z z) = true /\ val (of_Z z) = IZR z.
Proof.
  intros H. destruct (of_Z_ok z) as [E1 E2].
  - eapply Z.le_trans; [exact H|]. apply Z.pow_le_mono_r; lia.
  - split; auto. rewrite E2. apply rnd_Z. auto.
Qed.

Lemma dmul_ok x y b : (-1074 <= b <= 1023)%Z -> is_finite x = true -> is_finite y = true ->
  Rabs (val x * val y) <= bpow radix2 b ->
  is_finite (dmul x y) = true /\ val (dmul x y) = rnd (val x * val y).
Proof.
  intros Hb Fx Fy H. pose proof (Bmult_correct 53 1024 prec53 emax1024 mode_NE x y) as E.
  change (round radix2 (SpecFloat.fexp 53 1024) (round_mode mode_NE) (B2R x * B2R y)) with (rnd (val x * val y)) in E.
  rewrite (no_overflow _ b) in E; auto. destruct E as (E1 & E2 & _).
  unfold dmul, val. rewrite E2, Fx, Fy. auto.
Qed.

Lemma ddiv_ok x y b : (-1074 <= b <= 1023)%Z -> is_finite x = true -> val y <> 0 ->
  Rabs (val x / val y) <= bpow radix2 b ->
  is_finite (ddiv x y) = true /\ val (ddiv x y) = rnd (val x / val y).
Proof.
  intros Hb Fx Hy H. pose proof (Bdiv_correct 53 1024 prec53 emax1024 mode_NE x y Hy) as E.
  change (round radix2 (SpecFloat.fexp 53 1024) (round_mode mode_NE) (B2R x / B2R y)) with (rnd (val x / val y)) in E.
  rewrite (no_overflow _ b) in E; auto. destruct E as (E1 & E2 & _).
  unfold ddiv, val. rewrite E2, Fx. auto.
Qed.

Lemma trunc_ok x : Btrunc x = Ztrunc (val x).
Proof.
  unfold val. apply eq_IZR. rewrite (Btrunc_correct 53 1024 emax1024 x).
  unfold round, scaled_mantissa, cexp, F2R, FIX_exp. simpl. rewrite !Rmult_1_r. reflexivity.
Qed.

(** Truncation of a number in range. *)
Lemma to_u64_ok x : is_finite x = true -> 0 <= val x < IZR (2 ^ 64) ->
  to_u64 x = Some (Z.to_N (Zfloor (val x))).
Proof.
  intros F H. unfold to_u64. rewrite F, trunc_ok, Ztrunc_floor by lra.
  assert (0 <= Zfloor (val x))%Z by (apply Zfloor_lub; simpl; lra).
  assert (Zfloor (val x) < 2 ^ 64)%Z.
  { apply lt_IZR. eapply Rle_lt_trans; [apply Zfloor_lb|lra]. }
  rewrite (proj2 (Z.leb_le 0 _)) by auto. rewrite (proj2 (Z.ltb_lt _ _)) by auto. reflexivity.
Qed.

Lemma dlt_ok x y : is_finite x = true -> is_finite y = true -> dlt x y = true <-> val x < val y.
Proof.
  intros Fx Fy. unfold dlt, val. rewrite (Bltb_correct 53 1024 x y Fx Fy).
  destruct (Rlt_bool_spec (B2R x) (B2R y)); intuition (try discriminate; lra).
Qed.
Lemma dle_ok x y : is_finite x = true -> is_finite y = true -> dle x y = true <-> val x <= val y.
Proof.
  intros Fx Fy. unfold dle, val. rewrite (Bleb_correct 53 1024 x y Fx Fy).
  destruct (Rle_bool_spec (B2R x) (B2R y)); intuition (try discriminate; lra).
Qed.

Lemma dsub_ok x y b : (-1074 <= b <= 1023)%Z -> is_finite x = true -> is_finite y = true ->
  Rabs (val x - val y) <= bpow radix2 b ->
  is_finite (dsub x y) = true /\ val (dsub x y) = rnd (val x - val y).
Proof.
  intros Hb Fx Fy H. pose proof (Bminus_correct 53 1024 prec53 emax1024 mode_NE x y Fx Fy) as E.
  change (round radix2 (SpecFloat.fexp 53 1024) (round_mode mode_NE) (B2R x - B2R y)) with (rnd (val x - val y)) in E.
  rewrite (no_overflow _ b) in E; auto. destruct E as (E1 & E2 & _). auto.
Qed.
