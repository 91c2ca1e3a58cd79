(** Floating point in the arithmetic of positions: bounds on relative errors. *)
From Coq Require Import Bool NArith ZArith Reals Lra Lia.
From Flocq Require Import Core BinarySingleNaN.
From Verif Require Import Prelude DoubleModel DoubleFacts CdpModel.
Open Scope R_scope.

Definition RN (n : N) : R := IZR (Z.of_N n).

Lemma RN_lt a b : (a < b)%N <-> RN a < RN b.
Proof. unfold RN. split; intros H; [apply IZR_lt; lia | apply lt_IZR in H; lia]. Qed.
Lemma RN_le a b : (a <= b)%N <-> RN a <= RN b.
Proof. unfold RN. split; intros H; [apply IZR_le; lia | apply le_IZR in H; lia]. Qed.
Lemma RN_mul a b : RN (a * b) = RN a * RN b.
Proof. unfold RN. now rewrite N2Z.inj_mul, mult_IZR. Qed.
Lemma RN_add a b : RN (a + b) = RN a + RN b.
Proof. unfold RN. now rewrite N2Z.inj_add, plus_IZR. Qed.
Lemma RN_pos a : 0 <= RN a.
Proof. unfold RN. apply IZR_le. lia. Qed.
Lemma RN_pos1 a : (a <> 0)%N -> 1 <= RN a.
Proof. intros. unfold RN. apply IZR_le. lia. Qed.

Lemma of_N_ok n : (n < two64)%N ->
  is_finite (of_N n) = true /\ val (of_N n) = rnd (RN n) /\ 0 <= val (of_N n) <= IZR (2 ^ 64).
Proof.
  intros H. unfold of_N. destruct (of_Z_ok (Z.of_N n)) as (F & V).
  { unfold two64 in H. assert (Z.of_N n <= 2 ^ 64)%Z by lia.
    assert (2 ^ 64 <= 2 ^ 1000)%Z by (apply Z.pow_le_mono_r; lia). lia. }
  split; [exact F|]. split; [exact V|]. rewrite V. split.
  - rewrite <- rnd_0. apply rnd_le. apply RN_pos.
  - change (IZR (2 ^ 64)) with (bpow radix2 64). rewrite <- (rnd_bpow 64) by lia. apply rnd_le.
    change (bpow radix2 64) with (IZR (2 ^ 64)). apply IZR_le. unfold two64 in H. lia.
Qed.

Lemma of_N_exact n : (n <= 9007199254740992)%N -> is_finite (of_N n) = true /\ val (of_N n) = RN n.
Proof. intros H. unfold of_N. apply of_Z_exact. lia. Qed.

(** ** Relative errors *)

(** [x] is [r] up to [n] roundings. *)
Definition approx (x : double) (r : R) (n : nat) : Prop :=
  is_finite x = true /\ r * (1 - eps) ^ n <= val x <= r * (1 + eps) ^ n.

Lemma eps_small : 0 < eps < / 1000000.
Proof. rewrite eps_val. lra. Qed.

Lemma lo_pow n : 0 < (1 - eps) ^ n <= 1.
Proof.
  pose proof eps_small as E. split; [apply pow_lt; lra|].
  rewrite <- (pow1 n) at 2. apply pow_incr. lra.
Qed.
Lemma hi_pow n : 1 <= (1 + eps) ^ n.
Proof. pose proof eps_small. apply pow_R1_Rle. lra. Qed.
Lemma hi_pow_small n : (n <= 20)%nat -> (1 + eps) ^ n <= 2.
Proof.
  intros H. pose proof eps_small. apply Rle_trans with ((1 + eps) ^ 20); [apply Rle_pow; [lra | exact H]|].
  apply Rle_trans with ((1 + / 1000000) ^ 20); [apply pow_incr; lra|]. lra.
Qed.
Lemma lo_pow_half n : (n <= 20)%nat -> / 2 <= (1 - eps) ^ n.
Proof.
  intros H. pose proof eps_small.
  apply Rle_trans with ((1 - eps) ^ 20).
  - apply Rle_trans with ((1 - / 1000000) ^ 20); [lra | apply pow_incr; lra].
  - replace 20%nat with (n + (20 - n))%nat by lia. rewrite pow_add.
    pose proof (lo_pow n). pose proof (lo_pow (20 - n)). nra.
Qed.

Definition mid (r : R) : Prop := bpow radix2 (-300) <= r <= bpow radix2 300.

Lemma mid_pos r : mid r -> 0 < r.
Proof. intros (H & _). eapply Rlt_le_trans; [apply bpow_gt_0 | exact H]. Qed.

Lemma approx_round r y n :
  mid r -> (n <= 20)%nat -> r * (1 - eps) ^ n <= y <= r * (1 + eps) ^ n ->
  r * (1 - eps) ^ (S n) <= rnd y <= r * (1 + eps) ^ (S n) /\ Rabs y <= bpow radix2 1000.
Proof.
  intros M Hn (A & B). pose proof (mid_pos _ M) as P. destruct M as (M1 & M2).
  pose proof (lo_pow n) as L. pose proof (lo_pow_half n Hn) as L2.
  pose proof (hi_pow n) as U. pose proof (hi_pow_small n Hn) as U2.
  assert (Y : 0 < y) by nra. rewrite Rabs_pos_eq by lra.
  assert (R2 : r * / 2 <= y <= r * 2) by (split; nra).
  assert (Yl : bpow radix2 (-1000) <= y).
  { apply Rle_trans with (bpow radix2 (-300) * / 2); [|nra].
    change (/ 2) with (bpow radix2 (-1)). rewrite <- bpow_plus. apply bpow_le. lia. }
  assert (Yu : y <= bpow radix2 1000).
  { apply Rle_trans with (bpow radix2 300 * 2); [nra|].
    change 2 with (bpow radix2 1). rewrite <- bpow_plus. apply bpow_le. lia. }
  split; [|exact Yu].
  pose proof (rnd_err y) as E. rewrite (Rabs_pos_eq y) in E by lra. specialize (E Yl).
  pose proof eps_small as Es. apply Rabs_le_inv in E. cbn [pow].
  split.
  - apply Rle_trans with (y * (1 - eps)); [|lra]. rewrite <- Rmult_assoc, (Rmult_comm r), Rmult_assoc, Rmult_comm.
    apply Rmult_le_compat_r; lra.
  - apply Rle_trans with (y * (1 + eps)); [lra|]. rewrite <- (Rmult_assoc r), (Rmult_comm r), Rmult_assoc, (Rmult_comm (1 + eps)).
    apply Rmult_le_compat_r; lra.
Qed.

Lemma approx_of_N n : (n <> 0)%N -> (n < two64)%N -> approx (of_N n) (RN n) 1.
Proof.
  intros Z H. destruct (of_N_ok n H) as (F & V & _). split; [exact F|]. rewrite V.
  apply (approx_round (RN n) (RN n) 0); [|lia | simpl; lra].
  pose proof (RN_pos1 n Z). split.
  - apply Rle_trans with 1; [|assumption]. change 1 with (bpow radix2 0). apply bpow_le. lia.
  - apply Rle_trans with (bpow radix2 64); [|apply bpow_le; lia].
    change (bpow radix2 64) with (IZR (2 ^ 64)). apply IZR_le. unfold two64 in H. lia.
Qed.

Lemma approx_exact n : (n <= 9007199254740992)%N -> approx (of_N n) (RN n) 0.
Proof. intros H. destruct (of_N_exact n H) as (F & V). split; [exact F|]. rewrite V. simpl. lra. Qed.

Lemma approx_weaken x r n m : 0 <= r -> (n <= m)%nat -> approx x r n -> approx x r m.
Proof.
  intros P H (F & A & B). split; [exact F|]. pose proof eps_small as E.
  assert ((1 - eps) ^ m <= (1 - eps) ^ n).
  { replace m with (n + (m - n))%nat by lia. rewrite pow_add. pose proof (lo_pow n). pose proof (lo_pow (m - n)). nra. }
  assert ((1 + eps) ^ n <= (1 + eps) ^ m) by (apply Rle_pow; [lra | exact H]).
  split; nra.
Qed.

Lemma approx_mul x y r s n m :
  approx x r n -> approx y s m -> 0 <= r -> 0 <= s -> mid (r * s) -> (n + m <= 20)%nat ->
  approx (dmul x y) (r * s) (S (n + m)).
Proof.
  intros (Fx & A1 & A2) (Fy & B1 & B2) Pr Ps M H.
  pose proof (lo_pow n) as L1. pose proof (lo_pow m) as L2. pose proof (hi_pow n) as U1. pose proof (hi_pow m) as U2.
  assert (I : r * s * (1 - eps) ^ (n + m) <= val x * val y <= r * s * (1 + eps) ^ (n + m)).
  { rewrite !pow_add. split.
    - replace (r * s * ((1 - eps) ^ n * (1 - eps) ^ m)) with ((r * (1 - eps) ^ n) * (s * (1 - eps) ^ m)) by ring.
      apply Rmult_le_compat; try assumption; apply Rmult_le_pos; lra.
    - replace (r * s * ((1 + eps) ^ n * (1 + eps) ^ m)) with ((r * (1 + eps) ^ n) * (s * (1 + eps) ^ m)) by ring.
      apply Rmult_le_compat; try assumption.
      + apply Rle_trans with (r * (1 - eps) ^ n); [apply Rmult_le_pos; lra | assumption].
      + apply Rle_trans with (s * (1 - eps) ^ m); [apply Rmult_le_pos; lra | assumption]. }
  destruct (approx_round (r * s) (val x * val y) (n + m) M H I) as (J & K).
  destruct (dmul_ok x y 1000 ltac:(lia) Fx Fy K) as (F & V). split; [exact F|]. rewrite V. exact J.
Qed.

Lemma inv_lo n : / (1 + eps) ^ n >= (1 - eps) ^ n.
Proof.
  pose proof eps_small as E. apply Rle_ge. rewrite <- pow_inv. apply pow_incr. split; [lra|].
  apply Rmult_le_reg_r with (1 + eps); [lra|]. rewrite Rinv_l by lra. nra.
Qed.
Lemma inv_hi n : / (1 - eps) ^ n <= (1 + eps) ^ (2 * n).
Proof.
  pose proof eps_small as E. rewrite <- pow_inv, pow_mult. apply pow_incr. split.
  - apply Rlt_le, Rinv_0_lt_compat. lra.
  - apply Rmult_le_reg_r with (1 - eps); [lra|]. rewrite Rinv_l by lra. simpl. nra.
Qed.

Lemma approx_div x y r s n m :
  approx x r n -> approx y s m -> 0 <= r -> 0 < s -> mid (r / s) -> (n + 2 * m <= 20)%nat ->
  approx (ddiv x y) (r / s) (S (n + 2 * m)).
Proof.
  intros (Fx & A1 & A2) (Fy & B1 & B2) Pr Ps M H.
  pose proof (lo_pow n) as L1. pose proof (lo_pow m) as L2. pose proof (hi_pow n) as U1. pose proof (hi_pow m) as U2.
  assert (Py : 0 < val y) by (apply Rlt_le_trans with (s * (1 - eps) ^ m); [apply Rmult_lt_0_compat; lra | assumption]).
  assert (Px : 0 <= val x) by (apply Rle_trans with (r * (1 - eps) ^ n); [apply Rmult_le_pos; lra | assumption]).
  assert (I : r / s * (1 - eps) ^ (n + 2 * m) <= val x / val y <= r / s * (1 + eps) ^ (n + 2 * m)).
  { rewrite !pow_add. unfold Rdiv. split.
    - apply Rle_trans with ((r * (1 - eps) ^ n) * (/ (s * (1 + eps) ^ m))).
      + rewrite Rinv_mult. replace (r * / s * ((1 - eps) ^ n * (1 - eps) ^ (2 * m)))
          with ((r * (1 - eps) ^ n * / s) * (1 - eps) ^ (2 * m)) by ring.
        rewrite <- Rmult_assoc. apply Rmult_le_compat_l.
        * apply Rmult_le_pos; [apply Rmult_le_pos; lra | apply Rlt_le, Rinv_0_lt_compat; lra].
        * apply Rle_trans with ((1 - eps) ^ m); [|apply Rge_le, inv_lo].
          replace (2 * m)%nat with (m + m)%nat by lia. rewrite pow_add. nra.
      + apply Rmult_le_compat; [apply Rmult_le_pos; lra | apply Rlt_le, Rinv_0_lt_compat, Rmult_lt_0_compat; lra | assumption |].
        apply Rinv_le_contravar; assumption.
    - apply Rle_trans with ((r * (1 + eps) ^ n) * (/ (s * (1 - eps) ^ m))).
      + apply Rmult_le_compat; [assumption | apply Rlt_le, Rinv_0_lt_compat; assumption | assumption |].
        apply Rinv_le_contravar; [apply Rmult_lt_0_compat; lra | assumption].
      + rewrite Rinv_mult. replace (r * / s * ((1 + eps) ^ n * (1 + eps) ^ (2 * m)))
          with ((r * (1 + eps) ^ n * / s) * (1 + eps) ^ (2 * m)) by ring.
        rewrite <- Rmult_assoc. apply Rmult_le_compat_l.
        * apply Rmult_le_pos; [apply Rmult_le_pos; lra | apply Rlt_le, Rinv_0_lt_compat; lra].
        * apply inv_hi. }
  destruct (approx_round (r / s) (val x / val y) (n + 2 * m) M H I) as (J & K).
  destruct (ddiv_ok x y 1000 ltac:(lia) Fx ltac:(lra) K) as (F & V). split; [exact F|]. rewrite V. exact J.
Qed.

(** ** Conversion back *)

Lemma cast_lt junk x : (cast junk x < two64)%N.
Proof.
  unfold cast. destruct (to_u64 x) as [n|] eqn:E; [|apply N.mod_lt; discriminate].
  unfold to_u64 in E. destruct (is_finite x); [|discriminate].
  destruct ((0 <=? Btrunc x) && (Btrunc x <? 2 ^ 64))%Z eqn:B; [|discriminate].
  injection E as <-. apply andb_true_iff in B as (B1 & B2). unfold two64. lia.
Qed.

Lemma cast_ok junk x : is_finite x = true -> 0 <= val x < IZR (2 ^ 64) ->
  RN (cast junk x) <= val x < RN (cast junk x) + 1.
Proof.
  intros F H. unfold cast. rewrite (to_u64_ok x F H). unfold RN.
  assert (0 <= Zfloor (val x))%Z by (apply Zfloor_lub; simpl; lra).
  rewrite Z2N.id by assumption. split; [apply Zfloor_lb | apply Zfloor_ub].
Qed.

(** Whatever does not fit is at least 2^64. *)
Lemma cast_spec junk x : is_finite x = true -> 0 <= val x ->
  IZR (2 ^ 64) <= val x \/ RN (cast junk x) <= val x < RN (cast junk x) + 1.
Proof.
  intros F H. destruct (Rlt_or_le (val x) (IZR (2 ^ 64))) as [L|L]; [|left; assumption].
  right. apply cast_ok; auto.
Qed.

(** ** Parts *)

Lemma part_bound junk x q k b :
  (x < two64)%N -> (q < two64)%N -> (k < two64)%N -> (k <> 0)%N ->
  (-1000 <= b <= 64)%Z -> RN x <= bpow radix2 b -> (b < 64)%Z ->
  dlt (ddiv (of_N q) (of_N k)) (of_N 1) = true ->
  RN (part_of junk x (ddiv (of_N q) (of_N k))) <= bpow radix2 b.
Proof.
  intros Hx Hq Hk Zk Hb Lx Lb R. unfold part_of.
  destruct (of_N_ok x Hx) as (Fx & Vx & Px). destruct (of_N_ok q Hq) as (Fq & Vq & Pq).
  destruct (approx_of_N k Zk Hk) as (Fk & Ak & _).
  assert (Pk : 0 < val (of_N k)).
  { eapply Rlt_le_trans; [|exact Ak]. pose proof (RN_pos1 k Zk). pose proof (lo_pow 1). apply Rmult_lt_0_compat; lra. }
  assert (K1 : 1 <= val (of_N k)).
  { destruct (of_N_ok k Hk) as (_ & -> & _). rewrite <- (rnd_Z 1) by (cbn; lia). apply rnd_le, RN_pos1, Zk. }
  assert (Q : 0 <= val (of_N q) / val (of_N k) <= bpow radix2 64).
  { split; [apply Rmult_le_pos; [lra | apply Rlt_le, Rinv_0_lt_compat; lra]|].
    change (bpow radix2 64) with (IZR (2 ^ 64)).
    apply Rmult_le_reg_r with (val (of_N k)); [lra|]. unfold Rdiv. rewrite Rmult_assoc, Rinv_l by lra. nra. }
  destruct (ddiv_ok (of_N q) (of_N k) 64 ltac:(lia) Fq ltac:(lra)) as (Fr & Vr).
  { rewrite Rabs_pos_eq by lra. lra. }
  destruct (of_N_exact 1 ltac:(lia)) as (F1 & V1).
  apply (dlt_ok _ _ Fr F1) in R. rewrite V1 in R. unfold RN in R. cbn [Z.of_N] in R.
  assert (P0 : 0 <= val (ddiv (of_N q) (of_N k))) by (rewrite Vr, <- rnd_0; apply rnd_le; lra).
  set (r := ddiv (of_N q) (of_N k)) in *.
  assert (Xb : val (of_N x) <= bpow radix2 b).
  { rewrite Vx, <- (rnd_bpow b) by lia. apply rnd_le. exact Lx. }
  assert (M : 0 <= val (of_N x) * val r <= bpow radix2 b) by (split; nra).
  destruct (dmul_ok (of_N x) r b ltac:(lia) Fx Fr) as (Fm & Vm).
  { rewrite Rabs_pos_eq by lra. lra. }
  assert (W : 0 <= val (dmul (of_N x) r) <= bpow radix2 b).
  { rewrite Vm. split; [rewrite <- rnd_0; apply rnd_le; lra|]. rewrite <- (rnd_bpow b) by lia. apply rnd_le. lra. }
  assert (B64 : bpow radix2 b < IZR (2 ^ 64)).
  { change (IZR (2 ^ 64)) with (bpow radix2 64). apply bpow_lt. lia. }
  pose proof (cast_ok junk _ Fm ltac:(split; lra)). lra.
Qed.
