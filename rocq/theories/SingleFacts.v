(** Facts about the operations of SingleModel.v that the bounds on fuel fees need. *)
From Coq Require Import NArith ZArith Reals Lia Lra Bool.
From Flocq Require Import Core.
From Flocq Require Import BinarySingleNaN.
From Flocq Require Import Relative.
From Verif Require Import SingleModel.
Open Scope R_scope.

Definition srnd (x : R) : R := round radix2 (SpecFloat.fexp 24 128) ZnearestE x.
Definition sval (x : binary_float 24 128) : R := B2R x.
Definition seps : R := bpow radix2 (-24).

Lemma seps_val : seps = / 16777216.
Proof. unfold seps. simpl. reflexivity. Qed.

#[global] Instance svfexp : Valid_exp (SpecFloat.fexp 24 128).
Proof. apply (fexp_correct 24 128 prec24). Qed.

Lemma srnd_le x y : x <= y -> srnd x <= srnd y.
Proof. apply round_le; typeclasses eauto. Qed.

Lemma srnd_0 : srnd 0 = 0.
Proof. apply round_0; typeclasses eauto. Qed.

Lemma srnd_pos x : 0 <= x -> 0 <= srnd x.
Proof. intros H. rewrite <- srnd_0. apply srnd_le. auto. Qed.

(** Representable integers: at most 24 bits. *)
Lemma s_generic_Z z : (Z.abs z < 2 ^ 24)%Z -> generic_format radix2 (SpecFloat.fexp 24 128) (IZR z).
Proof.
  intros H. destruct (Z.eq_dec z 0) as [->|Hz]; [apply generic_format_0|].
  replace (IZR z) with (F2R (Float radix2 z 0)) by (unfold F2R; simpl; ring).
  apply generic_format_F2R. intros _. unfold cexp.
  replace (F2R (Float radix2 z 0)) with (IZR z) by (unfold F2R; simpl; ring).
  assert ((mag radix2 (IZR z) <= 24)%Z).
  { apply mag_le_bpow; [apply IZR_neq; auto|]. rewrite <- abs_IZR.
    change (bpow radix2 24) with (IZR (2 ^ 24)). apply IZR_lt. lia. }
  unfold SpecFloat.fexp, SpecFloat.emin. lia.
Qed.

Lemma srnd_Z z : (Z.abs z < 2 ^ 24)%Z -> srnd (IZR z) = IZR z.
Proof. intros H. apply round_generic; [typeclasses eauto|]. apply s_generic_Z; auto. Qed.

Lemma srnd_err x : bpow radix2 (-120) <= Rabs x -> Rabs (srnd x - x) <= seps * Rabs x.
Proof.
  intros H. unfold srnd, seps.
  pose proof (relative_error_N_FLT radix2 (-149) 24 prec24 (fun n => negb (Z.even n)) x) as E.
  assert (bpow radix2 (-149 + 24 - 1) <= Rabs x) as Hx.
  { eapply Rle_trans; [|exact H]. apply bpow_le. lia. }
  specialize (E Hx).
  replace (bpow radix2 (-24)) with (/ 2 * bpow radix2 (-24 + 1)).
  - exact E.
  - replace (-24 + 1)%Z with (1 + -24)%Z by lia. rewrite bpow_plus. simpl (bpow radix2 1). lra.
Qed.

(** Rounding raises an amount of at least one by at most the relative error. *)
Lemma srnd_up x : 1 <= x -> srnd x <= x * (1 + seps).
Proof.
  intros H. pose proof (srnd_err x) as E. rewrite (Rabs_right x) in E by lra.
  assert (bpow radix2 (-120) <= x) as Hb.
  { apply Rle_trans with 1; auto. change 1 with (bpow radix2 0). apply bpow_le. lia. }
  specialize (E Hb). apply Rabs_le_inv in E. lra.
Qed.

Lemma s_no_overflow x : Rabs x <= bpow radix2 100 ->
  Rlt_bool (Rabs (srnd x)) (bpow radix2 128) = true.
Proof.
  intros H. apply Rlt_bool_true. apply Rle_lt_trans with (bpow radix2 100); [|apply bpow_lt; lia].
  unfold srnd. apply abs_round_le_generic; auto; try typeclasses eauto.
  apply generic_format_bpow. unfold SpecFloat.fexp, SpecFloat.emin. lia.
Qed.

Lemma s_big x : Rabs x <= 2 ^ 64 -> Rabs x <= bpow radix2 100.
Proof.
  intros H. eapply Rle_trans; [exact H|]. replace (2 ^ 64) with (bpow radix2 64) by (simpl; lra).
  apply bpow_le. lia.
Qed.

Lemma s_of_N_ok n : (n < 2 ^ 64)%N ->
  is_finite (s_of_N n) = true /\ sval (s_of_N n) = srnd (IZR (Z.of_N n)).
Proof.
  intros H. pose proof (binary_normalize_correct 24 128 prec24 emax128 mode_NE (Z.of_N n) 0 false) as E.
  cbv zeta in E.
  replace (F2R (Float radix2 (Z.of_N n) 0)) with (IZR (Z.of_N n)) in E by (unfold F2R; simpl; ring).
  change (round radix2 (SpecFloat.fexp 24 128) (round_mode mode_NE) (IZR (Z.of_N n)))
    with (srnd (IZR (Z.of_N n))) in E.
  rewrite s_no_overflow in E.
  - destruct E as (E1 & E2 & _). split; auto.
  - apply s_big. rewrite <- abs_IZR. replace (2 ^ 64) with (IZR (2 ^ 64)) by (simpl; lra).
    apply IZR_le. lia.
Qed.

Lemma s_of_N_exact n : (n < 2 ^ 24)%N ->
  is_finite (s_of_N n) = true /\ sval (s_of_N n) = IZR (Z.of_N n).
Proof.
  intros H. destruct (s_of_N_ok n) as [E1 E2]; [lia|]. split; auto. rewrite E2. apply srnd_Z. lia.
Qed.

Lemma smul_ok x y : is_finite x = true -> is_finite y = true -> Rabs (sval x * sval y) <= 2 ^ 64 ->
  is_finite (smul x y) = true /\ sval (smul x y) = srnd (sval x * sval y).
Proof.
  intros Fx Fy H. pose proof (Bmult_correct 24 128 prec24 emax128 mode_NE x y) as E.
  change (round radix2 (SpecFloat.fexp 24 128) (round_mode mode_NE) (B2R x * B2R y))
    with (srnd (sval x * sval y)) in E.
  rewrite s_no_overflow in E by (apply s_big; auto). destruct E as (E1 & E2 & _).
  unfold smul, sval. rewrite E2, Fx, Fy. auto.
Qed.

Lemma sdiv_ok x y : is_finite x = true -> sval y <> 0 -> Rabs (sval x / sval y) <= 2 ^ 64 ->
  is_finite (sdiv x y) = true /\ sval (sdiv x y) = srnd (sval x / sval y).
Proof.
  intros Fx Hy H. pose proof (Bdiv_correct 24 128 prec24 emax128 mode_NE x y Hy) as E.
  change (round radix2 (SpecFloat.fexp 24 128) (round_mode mode_NE) (B2R x / B2R y))
    with (srnd (sval x / sval y)) in E.
  rewrite s_no_overflow in E by (apply s_big; auto). destruct E as (E1 & E2 & _).
  unfold sdiv, sval. rewrite E2, Fx. auto.
Qed.

Lemma sceil_ok x : is_finite x = true ->
  is_finite (sceil x) = true /\ sval (sceil x) = IZR (Zceil (sval x)).
Proof.
  intros F. destruct (Bnearbyint_correct 24 128 emax128 mode_UP x) as (E1 & E2 & _).
  unfold sceil, sval. rewrite E1, E2. split; auto.
  unfold round, scaled_mantissa, cexp, F2R, FIX_exp. simpl. rewrite !Rmult_1_r. reflexivity.
Qed.

Lemma s_trunc_ok x : Btrunc x = Ztrunc (sval x).
Proof.
  unfold sval. apply eq_IZR. rewrite (Btrunc_correct 24 128 emax128 x).
  unfold round, scaled_mantissa, cexp, F2R, FIX_exp. simpl. rewrite !Rmult_1_r. reflexivity.
Qed.

Lemma s_to_u64_ok x : is_finite x = true -> 0 <= sval x < IZR (2 ^ 64) ->
  exists v, s_to_u64 x = Some v /\ IZR (Z.of_N v) <= sval x.
Proof.
  intros F H. unfold s_to_u64. rewrite F, s_trunc_ok, Ztrunc_floor by lra.
  assert (0 <= Zfloor (sval x))%Z by (apply Zfloor_lub; simpl; lra).
  assert (Zfloor (sval x) < 2 ^ 64)%Z.
  { apply lt_IZR. eapply Rle_lt_trans; [apply Zfloor_lb|lra]. }
  rewrite (proj2 (Z.leb_le 0 _)) by auto. rewrite (proj2 (Z.ltb_lt _ _)) by auto.
  eexists. split; [reflexivity|]. rewrite Z2N.id by auto. apply Zfloor_lb.
Qed.
