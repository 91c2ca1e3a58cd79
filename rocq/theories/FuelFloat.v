(** Bounds on the fees that FuelModel.v computes in [float] and on the rates it computes in
    [double]. *)
From Coq Require Import NArith ZArith Reals Lia Lra Bool List.
From Coq Require Import ZifyBool ZifyNat ZifyN.
From Flocq Require Import Core.
From Flocq Require Import BinarySingleNaN.
From Verif Require Import Prelude DexModel DoubleModel DoubleFacts SingleModel SingleFacts FuelModel.
Import ListNotations.
Open Scope R_scope.

Lemma hundred : is_finite (s_of_N 100) = true /\ sval (s_of_N 100) = 100.
Proof. destruct (s_of_N_exact 100) as [A B]; [reflexivity|]. split; auto. Qed.

Lemma abs_pos x : 0 <= x -> Rabs x = x.
Proof. intros H. apply Rabs_right. lra. Qed.

Lemma IZR64 : IZR (2 ^ 64) = 18446744073709551616.
Proof. reflexivity. Qed.
Lemma pow64 : 2 ^ 64 = 18446744073709551616.
Proof. lra. Qed.

(** The rounded quotient by a hundred stays below the next whole number. *)
Lemma hundredth fuel K : (fuel <= 100 * K)%N -> (K <= 6005625)%N ->
  is_finite (sdiv (s_of_N fuel) (s_of_N 100)) = true /\
  0 <= sval (sdiv (s_of_N fuel) (s_of_N 100)) <= IZR (Z.of_N (K + 1)).
Proof.
  intros H HK. destruct hundred as [F1 V1].
  destruct (s_of_N_ok fuel) as [F2 V2]; [lia|].
  assert (0 <= IZR (Z.of_N fuel) <= 100 * IZR (Z.of_N K)) as Hf.
  { split; [apply IZR_le; lia|]. rewrite <- mult_IZR. apply IZR_le. lia. }
  assert (0 <= IZR (Z.of_N K) <= 6005625) as Hk by (split; apply IZR_le; lia).
  assert (0 <= sval (s_of_N fuel) <= 100 * IZR (Z.of_N K) + 100) as Ha.
  { rewrite V2. split; [apply srnd_pos; lra|].
    destruct (Rle_or_lt 1 (IZR (Z.of_N fuel))) as [H1|H1].
    - pose proof (srnd_up _ H1) as E. rewrite seps_val in E. lra.
    - replace (Z.of_N fuel) with 0%Z.
      + rewrite srnd_0. lra.
      + assert (Z.of_N fuel < 1)%Z by (apply lt_IZR; lra). lia. }
  set (a := sval (s_of_N fuel)) in *.
  assert (0 <= a / 100 <= IZR (Z.of_N K) + 1) as Hq by lra.
  destruct (sdiv_ok (s_of_N fuel) (s_of_N 100)) as [F3 V3]; auto; rewrite ?V1; fold a; try lra.
  { rewrite abs_pos by lra. rewrite pow64. lra. }
  split; auto. rewrite V3, V1. fold a. split; [apply srnd_pos; lra|].
  rewrite <- (srnd_Z (Z.of_N (K + 1))) by lia. apply srnd_le.
  replace (Z.of_N (K + 1)) with (Z.of_N K + 1)%Z by lia. rewrite plus_IZR. lra.
Qed.

(** The fee for fuel of at most [K] hundreds: at most that of one hundred more, up to a rounding. *)
Lemma base_fee_bound rate fuel K : (fuel <= 100 * K)%N -> (K <= 6005625)%N -> (rate < 2 ^ 24)%N ->
  exists f, base_fuel_fee rate fuel = Done f /\ (f * 2 ^ 24 <= (K + 1) * rate * (2 ^ 24 + 1))%N.
Proof.
  intros H HK HR. unfold base_fuel_fee.
  destruct ((fuel =? 0) || (rate =? 0))%N eqn:Z0.
  { exists 0%N. split; auto. lia. }
  destruct (hundredth fuel K H HK) as [F1 V1].
  destruct (sceil_ok _ F1) as [F2 V2].
  destruct (s_of_N_exact rate) as [F3 V3]; [lia|].
  set (b := sval (sdiv (s_of_N fuel) (s_of_N 100))) in *.
  assert (0 <= Zceil b <= Z.of_N (K + 1))%Z as Hc.
  { split; [|apply Zceil_glb; tauto].
    apply le_IZR. eapply Rle_trans; [apply V1|]. apply Zceil_ub. }
  assert (0 <= IZR (Zceil b) <= IZR (Z.of_N (K + 1))) as Hc' by (split; apply IZR_le; lia).
  assert (1 <= IZR (Z.of_N rate) <= 16777216) as Hr by (split; apply IZR_le; lia).
  assert (IZR (Z.of_N (K + 1)) <= 6005626) as HK' by (apply IZR_le; lia).
  set (c := IZR (Zceil b)) in *. set (r := IZR (Z.of_N rate)) in *. set (k := IZR (Z.of_N (K + 1))) in *.
  assert (0 <= c * r <= k * r) as Hcr.
  { split; [apply Rmult_le_pos; lra|]. apply Rmult_le_compat_r; lra. }
  assert (k * r <= 6005626 * 16777216) as Hkr by (apply Rmult_le_compat; lra).
  destruct (smul_ok (sceil (sdiv (s_of_N fuel) (s_of_N 100))) (s_of_N rate)) as [F4 V4]; auto.
  { rewrite V2, V3. fold c r. rewrite abs_pos by lra. rewrite pow64. lra. }
  rewrite V2, V3 in V4. fold c r in V4.
  assert (0 <= srnd (c * r) <= k * r * (1 + seps)) as Hs.
  { split; [apply srnd_pos; lra|].
    destruct (Rle_or_lt 1 (c * r)) as [H1|H1].
    - eapply Rle_trans; [apply srnd_up; auto|]. apply Rmult_le_compat_r; [|lra].
      rewrite seps_val. lra.
    - assert (c * r = 0) as ->.
      { assert (Zceil b * Z.of_N rate < 1)%Z.
        { apply lt_IZR. rewrite mult_IZR. exact H1. }
        unfold c, r. rewrite <- mult_IZR. f_equal. nia. }
      rewrite srnd_0. apply Rmult_le_pos; [lra|]. rewrite seps_val. lra. }
  destruct (s_to_u64_ok (smul (sceil (sdiv (s_of_N fuel) (s_of_N 100))) (s_of_N rate))) as (f & E & L); auto.
  { rewrite V4, IZR64. rewrite seps_val in Hs. lra. }
  exists f. rewrite E. split; auto. rewrite V4 in L.
  assert (IZR (Z.of_N f) * 16777216 <= k * r * 16777217) as L2.
  { rewrite seps_val in Hs. lra. }
  assert (Z.of_N f * 16777216 <= Z.of_N (K + 1) * Z.of_N rate * 16777217)%Z as L3.
  { apply le_IZR. rewrite !mult_IZR. exact L2. }
  lia.
Qed.

(** The fee for the size of a contract is below the least fee for deploying one. *)
Lemma deploy_fee_small rate size : (size <= 65645)%N -> (rate <= 25000)%N ->
  exists f, s_to_u64 (smul (sdiv (s_of_N size) (s_of_N 100)) (s_of_N rate)) = Some f /\ (f <= coin)%N.
Proof.
  intros H HR.
  destruct (hundredth size 657) as [F1 V1]; [lia|lia|].
  destruct (s_of_N_exact rate) as [F3 V3]; [lia|].
  set (b := sval (sdiv (s_of_N size) (s_of_N 100))) in *.
  assert (0 <= IZR (Z.of_N rate) <= 25000) as Hr by (split; apply IZR_le; lia).
  set (r := IZR (Z.of_N rate)) in *.
  change (Z.of_N (657 + 1)) with 658%Z in V1.
  assert (0 <= b * r <= 658 * 25000) as Hbr.
  { split; [apply Rmult_le_pos; lra|]. apply Rmult_le_compat; lra. }
  destruct (smul_ok (sdiv (s_of_N size) (s_of_N 100)) (s_of_N rate)) as [F4 V4]; auto.
  { rewrite V3. fold b r. rewrite abs_pos by lra. rewrite pow64. lra. }
  rewrite V3 in V4. fold b r in V4.
  assert (0 <= srnd (b * r) <= 16450000) as Hs.
  { split; [apply srnd_pos; lra|]. rewrite <- (srnd_Z 16450000) by reflexivity.
    apply srnd_le. lra. }
  destruct (s_to_u64_ok (smul (sdiv (s_of_N size) (s_of_N 100)) (s_of_N rate))) as (f & E & L); auto.
  { rewrite V4, IZR64. lra. }
  exists f. split; auto. rewrite V4 in L.
  assert (Z.of_N f <= 16450000)%Z by (apply le_IZR; lra). unfold coin. lia.
Qed.

(** ** Rates *)

Lemma of_N_exact n : (n <= 2 ^ 53)%N -> is_finite (of_N n) = true /\ val (of_N n) = IZR (Z.of_N n).
Proof. intros H. apply of_Z_exact. lia. Qed.

(** 0.9 and 1.1 as doubles lie above the fractions, by less than a part in 2^52. *)
Lemma nine_tenths : is_finite (ddiv (of_Z 9) (of_Z 10)) = true /\
  9 / 10 <= val (ddiv (of_Z 9) (of_Z 10)) <= 9 / 10 * (1 + / 4503599627370496).
Proof.
  split; [vm_compute; reflexivity|].
  assert (val (ddiv (of_Z 9) (of_Z 10)) = 8106479329266893 * / 9007199254740992) as ->; [|lra].
  unfold val. rewrite <- (SF2R_B2SF 53 1024).
  replace (B2SF (ddiv (of_Z 9) (of_Z 10))) with (SpecFloat.S754_finite false 8106479329266893 (-53))
    by (vm_compute; reflexivity).
  unfold SF2R, F2R. simpl. lra.
Qed.

Lemma eleven_tenths : is_finite (ddiv (of_Z 11) (of_Z 10)) = true /\
  11 / 10 <= val (ddiv (of_Z 11) (of_Z 10)) <= 11 / 10 * (1 + / 4503599627370496).
Proof.
  split; [vm_compute; reflexivity|].
  assert (val (ddiv (of_Z 11) (of_Z 10)) = 4953959590107546 * / 4503599627370496) as ->; [|lra].
  unfold val. rewrite <- (SF2R_B2SF 53 1024).
  replace (B2SF (ddiv (of_Z 11) (of_Z 10))) with (SpecFloat.S754_finite false 4953959590107546 (-52))
    by (vm_compute; reflexivity).
  unfold SF2R, F2R. simpl. lra.
Qed.

(** A rate times such a constant, truncated, is the whole part of the exact product. *)
Lemma scaled_by d num r : (0 < num <= 11)%Z -> is_finite d = true ->
  IZR num / 10 <= val d <= IZR num / 10 * (1 + / 4503599627370496) ->
  (r < 2 ^ 31)%N ->
  to_u64 (dmul (of_N r) d) = Some (r * Z.to_N num / 10)%N.
Proof.
  intros Hn F V Hr. destruct (of_N_exact r) as [F1 V1]; [lia|].
  assert (0 <= IZR (Z.of_N r) <= 2147483648) as HR by (split; apply IZR_le; lia).
  assert (1 <= IZR num <= 11) as HN by (split; apply IZR_le; lia).
  set (x := IZR (Z.of_N r)) in *. set (n := IZR num) in *.
  set (q := (Z.of_N r * num / 10)%Z).
  assert (IZR q <= x * (n / 10) /\ x * (n / 10) <= IZR q + 9 / 10) as [Q1 Q2].
  { pose proof (Z.mul_div_le (Z.of_N r * num) 10). pose proof (Z.mul_succ_div_gt (Z.of_N r * num) 10).
    fold q in H, H0.
    assert (10 * IZR q <= x * n).
    { unfold x, n. rewrite <- !mult_IZR. apply IZR_le. lia. }
    assert (x * n <= 10 * IZR q + 9).
    { unfold x, n. rewrite <- !mult_IZR, <- plus_IZR. apply IZR_le. lia. }
    lra. }
  assert (0 <= IZR q) as Q0.
  { apply IZR_le. unfold q. apply Z.div_pos; lia. }
  assert (x * (n / 10) <= 2147483648 * (11 / 10)) as Q3 by (apply Rmult_le_compat; lra).
  assert (x * (n / 10) <= x * val d) as P1 by (apply Rmult_le_compat_l; lra).
  assert (x * val d <= x * (n / 10) * (1 + / 4503599627370496)) as P2.
  { rewrite Rmult_assoc. apply Rmult_le_compat_l; lra. }
  assert (x * val d <= IZR q + 91 / 100) as P3 by lra.
  destruct (dmul_ok (of_N r) d 40) as [F2 V2]; auto; try lia.
  { rewrite V1. fold x. rewrite Rabs_right by lra. simpl. lra. }
  rewrite V1 in V2. fold x in V2.
  assert (Z.abs q <= 2 ^ 53)%Z as QB.
  { rewrite Z.abs_eq by (apply le_IZR; auto). apply le_IZR.
    apply Rle_trans with (x * (n / 10)); auto. eapply Rle_trans; [exact Q3|]. simpl. lra. }
  assert (IZR q <= val (dmul (of_N r) d)) as L1.
  { rewrite V2. rewrite <- (rnd_Z q) by auto. apply rnd_le. lra. }
  assert (val (dmul (of_N r) d) < IZR q + 1) as L2.
  { rewrite V2.
    assert (x * val d = 0 \/ bpow radix2 (-1000) <= Rabs (x * val d)) as Hc.
    { destruct (Z.eq_dec (Z.of_N r) 0) as [E0|E0].
      - left. unfold x. rewrite E0. lra.
      - right. assert (1 <= x) by (apply IZR_le; lia).
        assert (1 * (1 / 10) <= x * val d) by (apply Rmult_le_compat; lra).
        rewrite Rabs_right by lra. apply Rle_trans with (bpow radix2 (-4)); [apply bpow_le; lia|].
        simpl. lra. }
    pose proof (rnd_err0 _ Hc) as E. rewrite (Rabs_right (x * val d)) in E by lra.
    apply Rabs_le_inv in E. rewrite eps_val in E. lra. }
  rewrite to_u64_ok; auto.
  - f_equal. replace (Zfloor (val (dmul (of_N r) d))) with q.
    + unfold q. lia.
    + symmetry. apply Zfloor_imp. rewrite plus_IZR. split; auto.
  - rewrite IZR64. lra.
Qed.

Lemma scaled_down r : (r < 2 ^ 31)%N -> scaled r 9 = Done (r * 9 / 10)%N.
Proof.
  intros H. unfold scaled. destruct nine_tenths as [F V].
  rewrite (scaled_by _ 9 r); auto; [|lia]. change (Z.to_N 9) with 9%N.
  assert (r * 9 / 10 <= r)%N by (apply N.div_le_upper_bound; lia).
  rewrite (proj2 (N.ltb_lt _ _)); auto. unfold two32. lia.
Qed.

Lemma scaled_up r : (r < 2 ^ 31)%N -> scaled r 11 = Done (r * 11 / 10)%N.
Proof.
  intros H. unfold scaled. destruct eleven_tenths as [F V].
  rewrite (scaled_by _ 11 r); auto; [|lia]. change (Z.to_N 11) with 11%N.
  assert (r * 11 / 10 <= 2 * r)%N by (apply N.div_le_upper_bound; lia).
  rewrite (proj2 (N.ltb_lt _ _)); auto. unfold two32. lia.
Qed.

(** The marks are whole numbers. *)
Lemma low_mark_val : low_mark = of_Z 450421875.
Proof. apply B2SF_inj. vm_compute. reflexivity. Qed.
Lemma high_mark_val : high_mark = of_Z 510478125.
Proof. apply B2SF_inj. vm_compute. reflexivity. Qed.

Lemma below_low a : (a < 2 ^ 53)%N -> dlt (of_N a) low_mark = (a <? 450421875)%N.
Proof.
  intros H. rewrite low_mark_val. destruct (of_N_exact a) as [F V]; [lia|].
  destruct (of_Z_exact 450421875) as [F2 V2]; [vm_compute; discriminate|].
  pose proof (dlt_ok _ _ F F2) as E. rewrite V, V2 in E.
  destruct (dlt (of_N a) (of_Z 450421875)); symmetry.
  - apply N.ltb_lt. assert (Z.of_N a < 450421875)%Z by (apply lt_IZR; tauto). lia.
  - apply N.ltb_ge. apply N.nlt_ge. intros L.
    assert (IZR (Z.of_N a) < 450421875) by (apply IZR_lt; lia). intuition discriminate.
Qed.

Lemma above_high a : (a < 2 ^ 53)%N -> dlt high_mark (of_N a) = (510478125 <? a)%N.
Proof.
  intros H. rewrite high_mark_val. destruct (of_N_exact a) as [F V]; [lia|].
  destruct (of_Z_exact 510478125) as [F2 V2]; [vm_compute; discriminate|].
  pose proof (dlt_ok _ _ F2 F) as E. rewrite V, V2 in E.
  destruct (dlt (of_Z 510478125) (of_N a)); symmetry.
  - apply N.ltb_lt. assert (510478125 < Z.of_N a)%Z by (apply lt_IZR; tauto). lia.
  - apply N.ltb_ge. apply N.nlt_ge. intros L.
    assert (510478125 < IZR (Z.of_N a)) by (apply IZR_lt; lia). intuition discriminate.
Qed.
