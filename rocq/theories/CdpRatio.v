(** Proofs about positions: how accurate the ratios and the closing terms are. *)
From Coq Require Import String List Bool NArith ZArith Reals Lra Lia.
From Coq Require Import ZifyBool ZifyNat ZifyN.
From Flocq Require Import Core BinarySingleNaN.
From Verif Require Import Prelude DexModel DexProofs DoubleModel DoubleFacts CdpModel CdpDouble.
Open Scope R_scope.

(** ** Sizes *)

Definition btw (r : R) (z : Z) : Prop := bpow radix2 (- z) <= r <= bpow radix2 z.

Lemma btw_pos r z : btw r z -> 0 < r.
Proof. intros (H & _). eapply Rlt_le_trans; [apply bpow_gt_0 | exact H]. Qed.
Lemma btw_mid r z : btw r z -> (z <= 300)%Z -> mid r.
Proof.
  intros (A & B) H. split.
  - eapply Rle_trans; [|exact A]. apply bpow_le. lia.
  - eapply Rle_trans; [exact B|]. apply bpow_le. lia.
Qed.
Lemma btw_mul r s a b : btw r a -> btw s b -> btw (r * s) (a + b).
Proof.
  intros A B. pose proof (btw_pos _ _ A). pose proof (btw_pos _ _ B). destruct A as (A1 & A2), B as (B1 & B2). split.
  - replace (- (a + b))%Z with (- a + - b)%Z by lia. rewrite bpow_plus. apply Rmult_le_compat; auto; apply bpow_ge_0.
  - rewrite bpow_plus. apply Rmult_le_compat; auto; lra.
Qed.
Lemma btw_inv r a : btw r a -> btw (/ r) a.
Proof.
  intros A. pose proof (btw_pos _ _ A). destruct A as (A1 & A2). split.
  - rewrite bpow_opp. apply Rinv_le_contravar; assumption.
  - replace (bpow radix2 a) with (/ bpow radix2 (- a)) by (rewrite bpow_opp, Rinv_inv; reflexivity).
    apply Rinv_le_contravar; [apply bpow_gt_0 | assumption].
Qed.
Lemma btw_div r s a b : btw r a -> btw s b -> btw (r / s) (a + b).
Proof. intros A B. apply btw_mul; [exact A | now apply btw_inv]. Qed.
Lemma btw_RN n : (n <> 0)%N -> (n < two64)%N -> btw (RN n) 64.
Proof.
  intros Z H. split.
  - apply Rle_trans with 1; [|apply RN_pos1, Z]. change 1 with (bpow radix2 0). apply bpow_le. lia.
  - change (bpow radix2 64) with (IZR (2 ^ 64)). apply IZR_le. unfold two64 in H. lia.
Qed.

Lemma hi_lin n : (n <= 20)%nat -> (1 + eps) ^ n <= 1 + 2 * INR n * eps.
Proof.
  pose proof eps_small as E. induction n as [|n IH]; intros H; [simpl; lra|].
  specialize (IH ltac:(lia)). rewrite S_INR. cbn [pow].
  assert (0 <= INR n <= 20) by (split; [apply pos_INR | apply Rle_trans with (INR 20); [apply le_INR; lia | simpl; lra]]).
  apply Rle_trans with ((1 + eps) * (1 + 2 * INR n * eps)); [apply Rmult_le_compat_l; lra|].
  assert (2 * INR n * eps * eps <= eps) by nra. nra.
Qed.
Lemma lo_lin n : (n <= 20)%nat -> 1 - INR n * eps <= (1 - eps) ^ n.
Proof.
  pose proof eps_small as E. induction n as [|n IH]; intros H; [simpl; lra|].
  specialize (IH ltac:(lia)). rewrite S_INR. cbn [pow].
  assert (0 <= INR n <= 20) by (split; [apply pos_INR | apply Rle_trans with (INR 20); [apply le_INR; lia | simpl; lra]]).
  apply Rle_trans with ((1 - eps) * (1 - INR n * eps)); [nra | apply Rmult_le_compat_l; lra].
Qed.

(** ** Ratios *)

Lemma boost_exact : approx (of_N RATIO_BOOST) 10000 0.
Proof. apply (approx_exact RATIO_BOOST). unfold RATIO_BOOST. lia. Qed.
Lemma price_boost_exact : approx (of_N PRICE_BOOST) 100000000 0.
Proof. apply (approx_exact PRICE_BOOST). unfold PRICE_BOOST. lia. Qed.
Lemma btw_1e4 : btw 10000 14.
Proof. unfold btw. change (- (14))%Z with (-14)%Z. change (bpow radix2 (-14)) with (/ 16384). change (bpow radix2 14) with 16384. lra. Qed.
Lemma btw_1e8 : btw 100000000 27.
Proof. unfold btw. change (- (27))%Z with (-27)%Z. change (bpow radix2 (-27)) with (/ 134217728). change (bpow radix2 27) with 134217728. lra. Qed.

Lemma calc_ratio_approx a s p :
  (a <> 0)%N -> (s <> 0)%N -> (p <> 0)%N -> (a < two64)%N -> (s < two64)%N -> (p < two64)%N ->
  approx (dmul (ddiv (ddiv (dmul (of_N a) (of_N p)) (of_N PRICE_BOOST)) (of_N s)) (of_N RATIO_BOOST))
    (RN a * RN p / 100000000 / RN s * 10000) 8.
Proof.
  intros Za Zs Zp Ha Hs Hp.
  pose proof (btw_RN a Za Ha) as Ba. pose proof (btw_RN s Zs Hs) as Bs. pose proof (btw_RN p Zp Hp) as Bp.
  pose proof (approx_of_N a Za Ha) as Aa. pose proof (approx_of_N s Zs Hs) as As. pose proof (approx_of_N p Zp Hp) as Ap.
  pose proof (btw_pos _ _ Ba). pose proof (btw_pos _ _ Bs). pose proof (btw_pos _ _ Bp).
  pose proof (btw_mul _ _ _ _ Ba Bp) as B1.
  pose proof (approx_mul _ _ _ _ _ _ Aa Ap ltac:(lra) ltac:(lra) (btw_mid _ _ B1 ltac:(lia)) ltac:(lia)) as A1.
  pose proof (btw_div _ _ _ _ B1 btw_1e8) as B2.
  pose proof (approx_div _ _ _ _ _ _ A1 price_boost_exact (Rlt_le _ _ (btw_pos _ _ B1)) ltac:(lra) (btw_mid _ _ B2 ltac:(lia)) ltac:(lia)) as A2.
  pose proof (btw_div _ _ _ _ B2 Bs) as B3.
  pose proof (approx_div _ _ _ _ _ _ A2 As (Rlt_le _ _ (btw_pos _ _ B2)) ltac:(lra) (btw_mid _ _ B3 ltac:(lia)) ltac:(lia)) as A3.
  pose proof (btw_mul _ _ _ _ B3 btw_1e4) as B4.
  exact (approx_mul _ _ _ _ _ _ A3 boost_exact (Rlt_le _ _ (btw_pos _ _ B3)) ltac:(lra) (btw_mid _ _ B4 ltac:(lia)) ltac:(lia)).
Qed.

Lemma base_approx c :
  c_staked c <> 0%N -> c_owed c <> 0%N -> (c_staked c < two64)%N -> (c_owed c < two64)%N ->
  ratio_base c = ddiv (of_N (c_staked c)) (of_N (c_owed c)) /\
  approx (ratio_base c) (RN (c_staked c) / RN (c_owed c)) 4 /\ btw (RN (c_staked c) / RN (c_owed c)) 128.
Proof.
  intros Zs Zo Hs Ho.
  pose proof (btw_RN _ Zs Hs) as Bs. pose proof (btw_RN _ Zo Ho) as Bo.
  assert (E : ratio_base c = ddiv (of_N (c_staked c)) (of_N (c_owed c))).
  { unfold ratio_base. replace (c_staked c =? 0)%N with false by lia. now replace (c_owed c =? 0)%N with false by lia. }
  split; [exact E|]. pose proof (btw_div _ _ _ _ Bs Bo) as B. split; [|exact B]. rewrite E.
  exact (approx_div _ _ _ _ _ _ (approx_of_N _ Zs Hs) (approx_of_N _ Zo Ho) (Rlt_le _ _ (btw_pos _ _ Bs)) (btw_pos _ _ Bo) (btw_mid _ _ B ltac:(lia)) ltac:(lia)).
Qed.

Lemma price_approx p : (p <> 0)%N -> (p < two64)%N ->
  approx (ddiv (of_N p) (of_N PRICE_BOOST)) (RN p / 100000000) 2 /\ btw (RN p / 100000000) 91.
Proof.
  intros Zp Hp. pose proof (btw_RN _ Zp Hp) as Bp. pose proof (btw_div _ _ _ _ Bp btw_1e8) as B. split; [|exact B].
  exact (approx_div _ _ _ _ _ _ (approx_of_N _ Zp Hp) price_boost_exact (Rlt_le _ _ (btw_pos _ _ Bp)) ltac:(lra) (btw_mid _ _ B ltac:(lia)) ltac:(lia)).
Qed.

Lemma of_N_max : is_finite (of_N MAX64) = true /\ val (of_N MAX64) = IZR (2 ^ 64).
Proof.
  destruct (of_N_ok MAX64) as (F & V & _); [unfold MAX64, two64; lia|]. split; [exact F|]. rewrite V.
  apply Rle_antisym.
  - change (IZR (2 ^ 64)) with (bpow radix2 64). rewrite <- (rnd_bpow 64) by lia. apply rnd_le.
    change (bpow radix2 64) with (IZR (2 ^ 64)). apply IZR_le. unfold MAX64, two64. lia.
  - assert (E : B2SF (of_N MAX64) = B2SF (of_Z (2 ^ 64))) by (vm_compute; reflexivity).
    rewrite <- V. unfold val. rewrite <- SF2R_B2SF, E, SF2R_B2SF. fold (val (of_Z (2 ^ 64))). destruct (of_Z_ok (2 ^ 64)) as (_ & ->); [vm_compute; discriminate|].
    change (IZR (2 ^ 64)) with (bpow radix2 64). rewrite rnd_bpow by lia. lra.
Qed.

Definition cdp_double (c : cdp) (p : N) : double :=
  dmul (dmul (ddiv (of_N p) (of_N PRICE_BOOST)) (ratio_base c)) (of_N RATIO_BOOST).

Lemma cdp_double_approx c p :
  c_staked c <> 0%N -> c_owed c <> 0%N -> (c_staked c < two64)%N -> (c_owed c < two64)%N -> (p <> 0)%N -> (p < two64)%N ->
  approx (cdp_double c p) (RN p / 100000000 * (RN (c_staked c) / RN (c_owed c)) * 10000) 8.
Proof.
  intros Zs Zo Hs Ho Zp Hp.
  destruct (base_approx c Zs Zo Hs Ho) as (_ & Ab & Bb). destruct (price_approx p Zp Hp) as (Ap & Bp).
  pose proof (btw_mul _ _ _ _ Bp Bb) as B1.
  pose proof (approx_mul _ _ _ _ _ _ Ap Ab (Rlt_le _ _ (btw_pos _ _ Bp)) (Rlt_le _ _ (btw_pos _ _ Bb)) (btw_mid _ _ B1 ltac:(lia)) ltac:(lia)) as A1.
  pose proof (btw_mul _ _ _ _ B1 btw_1e4) as B2.
  exact (approx_mul _ _ _ _ _ _ A1 boost_exact (Rlt_le _ _ (btw_pos _ _ B1)) ltac:(lra) (btw_mid _ _ B2 ltac:(lia)) ltac:(lia)).
Qed.

(** A ratio of at least [x] by the program is one of at least [x] up to 2^-49. *)
Lemma at_least junk X r n x :
  approx X r n -> 0 <= r -> (n <= 8)%nat -> (x <= cast junk X)%N ->
  (x < two64)%N -> RN x <= r * (1 + / 562949953421312).
Proof.
  intros (F & A & B) P Hn H Hx.
  assert (V : 0 <= val X).
  { eapply Rle_trans; [|exact A]. apply Rmult_le_pos; [exact P|]. pose proof (lo_pow n). lra. }
  assert (L : RN x <= val X).
  { destruct (cast_spec junk X F V) as [K|(K & _)].
    - eapply Rle_trans; [|exact K]. apply IZR_le. unfold two64 in Hx. lia.
    - eapply Rle_trans; [|exact K]. apply RN_le, H. }
  pose proof (hi_lin n ltac:(lia)) as Hl.
  assert (0 <= INR n <= 8) by (split; [apply pos_INR | apply Rle_trans with (INR 8); [apply le_INR; lia | simpl; lra]]).
  assert (2 * INR n * eps <= / 562949953421312) by (rewrite eps_val; lra).
  eapply Rle_trans; [exact L|]. eapply Rle_trans; [exact B|]. apply Rmult_le_compat_l; lra.
Qed.

Lemma ratio_ints (m a s x p : N) (t : R) :
  (s <> 0)%N -> t = RN a * RN p / RN s / 10000 -> RN x <= t * (1 + / 562949953421312) ->
  (562949953421312 * x * 10000 * s <= 562949953421313 * a * p)%N.
Proof.
  intros Zs -> H. apply RN_le. rewrite !RN_mul. pose proof (RN_pos1 s Zs) as Ps.
  change (RN 562949953421312) with 562949953421312. change (RN 562949953421313) with 562949953421313. change (RN 10000) with 10000.
  apply Rmult_le_compat_r with (r := 562949953421312 * 10000 * RN s) in H; [|apply Rmult_le_pos; lra].
  replace (RN a * RN p / RN s / 10000 * (1 + / 562949953421312) * (562949953421312 * 10000 * RN s))
    with (562949953421313 * RN a * RN p) in H by (field; lra). lra.
Qed.

(** Staking: what the program accepts as a ratio of at least [x]. *)
Lemma calc_ratio_sound junk a s p x :
  (s <> 0)%N -> (a <> 0)%N -> (p <> 0)%N -> (a < two64)%N -> (s < two64)%N -> (p < two64)%N -> (x < two64)%N ->
  (x <= calc_ratio junk a s p)%N ->
  (562949953421312 * x * 10000 * s <= 562949953421313 * a * p)%N.
Proof.
  intros Zs Za Zp Ha Hs Hp Hx H. unfold calc_ratio in H. replace (s =? 0)%N with false in H by lia.
  pose proof (calc_ratio_approx a s p Za Zs Zp Ha Hs Hp) as A.
  pose proof (RN_pos1 s Zs). pose proof (RN_pos a). pose proof (RN_pos p).
  apply (ratio_ints 0 a s x p (RN a * RN p / 100000000 / RN s * 10000)); [exact Zs | field; lra |].
  apply (at_least junk _ _ 8 x A); auto.
  apply Rmult_le_pos; [|lra]. apply Rmult_le_pos; [|apply Rlt_le, Rinv_0_lt_compat; lra].
  apply Rmult_le_pos; [nra | lra].
Qed.

Lemma base_below c : c_staked c <> 0%N -> c_owed c <> 0%N -> (c_staked c < two63)%N -> (c_owed c < two64)%N ->
  dlt (ratio_base c) (of_N MAX64) = true.
Proof.
  intros Zs Zo Hs Ho.
  destruct (base_approx c Zs Zo ltac:(unfold two63, two64 in *; lia) Ho) as (_ & (F & _ & B) & _).
  destruct of_N_max as (Fm & Vm). apply (dlt_ok _ _ F Fm). rewrite Vm.
  eapply Rle_lt_trans; [exact B|].
  pose proof (RN_pos1 _ Zo). pose proof (RN_pos1 _ Zs). pose proof (hi_lin 4 ltac:(lia)) as Hl. simpl INR in Hl.
  pose proof eps_small.
  assert (RN (c_staked c) / RN (c_owed c) <= RN (c_staked c)).
  { apply Rmult_le_reg_r with (RN (c_owed c)); [lra|]. unfold Rdiv. rewrite Rmult_assoc, Rinv_l by lra. nra. }
  assert (RN (c_staked c) <= IZR (2 ^ 63)) by (apply IZR_le; unfold two63 in Hs; lia).
  assert (0 <= RN (c_staked c) / RN (c_owed c)) by (apply Rmult_le_pos; [lra | apply Rlt_le, Rinv_0_lt_compat; lra]).
  change (IZR (2 ^ 63)) with 9223372036854775808 in *. change (IZR (2 ^ 64)) with 18446744073709551616.
  apply Rle_lt_trans with (9223372036854775808 * (1 + / 2)); [pose proof (hi_pow 4); apply Rmult_le_compat; lra | lra].
Qed.

Lemma cdp_ratio_unfold junk c p :
  c_staked c <> 0%N -> c_owed c <> 0%N -> (c_staked c < two63)%N -> (c_owed c < two64)%N ->
  cdp_ratio junk c p = cast junk (cdp_double c p).
Proof.
  intros Zs Zo Hs Ho. unfold cdp_ratio. cbv zeta. now rewrite (base_below c Zs Zo Hs Ho).
Qed.

Lemma cdp_ratio_zero junk c p :
  c_staked c = 0%N -> (p <> 0)%N -> (p < two64)%N -> cdp_ratio junk c p = 0%N.
Proof.
  intros Zs Zp Hp. unfold cdp_ratio, ratio_base. rewrite Zs. change (0 =? 0)%N with true. cbn [negb andb orb]. cbv zeta.
  change (dlt (of_N 0) (of_N MAX64)) with true. cbn [negb andb].
  destruct (price_approx p Zp Hp) as ((F & _) & B).
  destruct (of_N_exact 0 ltac:(lia)) as (F0 & V0). change (RN 0) with 0 in V0.
  destruct (dmul_ok (ddiv (of_N p) (of_N PRICE_BOOST)) (of_N 0) 0 ltac:(lia) F F0) as (F1 & V1).
  { rewrite V0, Rmult_0_r, Rabs_R0. apply bpow_ge_0. }
  rewrite V0, Rmult_0_r, rnd_0 in V1.
  destruct boost_exact as (Fb & _).
  destruct (dmul_ok _ (of_N RATIO_BOOST) 0 ltac:(lia) F1 Fb) as (F2 & V2).
  { rewrite V1, Rmult_0_l, Rabs_R0. apply bpow_ge_0. }
  rewrite V1, Rmult_0_l, rnd_0 in V2.
  pose proof (cast_ok junk _ F2 ltac:(rewrite V2; change (IZR (2 ^ 64)) with 18446744073709551616; lra)) as C. rewrite V2 in C.
  set (z := cast junk _) in *. apply N.le_0_r. apply RN_le. change (RN 0) with 0. lra.
Qed.

Lemma cdp_ratio_sound junk c p x :
  c_owed c <> 0%N -> (p <> 0)%N -> (c_staked c < two63)%N -> (c_owed c < two64)%N -> (p < two64)%N -> (x < two64)%N ->
  (x <= cdp_ratio junk c p)%N ->
  (562949953421312 * x * 10000 * c_owed c <= 562949953421313 * c_staked c * p)%N.
Proof.
  intros Zo Zp Hs Ho Hp Hx H. destruct (N.eq_dec (c_staked c) 0) as [Zs|Zs].
  - rewrite (cdp_ratio_zero junk c p Zs Zp Hp) in H. assert (x = 0)%N by lia. subst x. lia.
  - rewrite (cdp_ratio_unfold junk c p Zs Zo Hs Ho) in H.
    pose proof (cdp_double_approx c p Zs Zo ltac:(unfold two63, two64 in *; lia) Ho Zp Hp) as A.
    pose proof (RN_pos1 _ Zo). pose proof (RN_pos (c_staked c)). pose proof (RN_pos p).
    apply (ratio_ints 0 (c_staked c) (c_owed c) x p (RN p / 100000000 * (RN (c_staked c) / RN (c_owed c)) * 10000)); [exact Zo | field; lra |].
    apply (at_least junk _ _ 8 x A); auto.
    apply Rmult_le_pos; [|lra]. apply Rmult_le_pos; [lra|]. apply Rmult_le_pos; [lra | apply Rlt_le, Rinv_0_lt_compat; lra].
Qed.

(** ** The list by ratio *)

Lemma number_approx c :
  c_staked c <> 0%N -> c_owed c <> 0%N -> (c_staked c < two64)%N -> (c_owed c < two64)%N ->
  approx (dmul (ratio_base c) (of_N PRICE_BOOST)) (RN (c_staked c) / RN (c_owed c) * 100000000) 5.
Proof.
  intros Zs Zo Hs Ho. destruct (base_approx c Zs Zo Hs Ho) as (_ & Ab & Bb).
  pose proof (btw_mul _ _ _ _ Bb btw_1e8) as B1.
  exact (approx_mul _ _ _ _ _ _ Ab price_boost_exact (Rlt_le _ _ (btw_pos _ _ Bb)) ltac:(lra) (btw_mid _ _ B1 ltac:(lia)) ltac:(lia)).
Qed.

Lemma bound_approx r p : (r <> 0)%N -> (r < two64)%N -> (p <> 0)%N -> (p < two64)%N ->
  approx (ratio_bound r p) (RN r / 10000 / (RN p / 100000000) * 100000000) 8.
Proof.
  intros Zr Hr Zp Hp. destruct (price_approx p Zp Hp) as (Ap & Bp).
  pose proof (btw_RN _ Zr Hr) as Br. pose proof (btw_div _ _ _ _ Br btw_1e4) as B1.
  pose proof (approx_div _ _ _ _ _ _ (approx_of_N _ Zr Hr) boost_exact (Rlt_le _ _ (btw_pos _ _ Br)) ltac:(lra) (btw_mid _ _ B1 ltac:(lia)) ltac:(lia)) as A1.
  pose proof (btw_div _ _ _ _ B1 Bp) as B2.
  pose proof (approx_div _ _ _ _ _ _ A1 Ap (Rlt_le _ _ (btw_pos _ _ B1)) (btw_pos _ _ Bp) (btw_mid _ _ B2 ltac:(lia)) ltac:(lia)) as A2.
  pose proof (btw_mul _ _ _ _ B2 btw_1e8) as B3.
  exact (approx_mul _ _ _ _ _ _ A2 price_boost_exact (Rlt_le _ _ (btw_pos _ _ B2)) ltac:(lra) (btw_mid _ _ B3 ltac:(lia)) ltac:(lia)).
Qed.

Lemma approx_lo X r n : approx X r n -> 0 <= r -> (n <= 8)%nat -> r * (1 - / 562949953421312) <= val X.
Proof.
  intros (_ & A & _) P Hn. pose proof (lo_lin n ltac:(lia)) as L.
  assert (0 <= INR n <= 8) by (split; [apply pos_INR | apply Rle_trans with (INR 8); [apply le_INR; lia | simpl; lra]]).
  assert (INR n * eps <= / 562949953421312) by (rewrite eps_val; lra).
  eapply Rle_trans; [|exact A]. apply Rmult_le_compat_l; lra.
Qed.
Lemma approx_hi X r n : approx X r n -> 0 <= r -> (n <= 8)%nat -> val X <= r * (1 + / 562949953421312).
Proof.
  intros (_ & _ & B) P Hn. pose proof (hi_lin n ltac:(lia)) as L.
  assert (0 <= INR n <= 8) by (split; [apply pos_INR | apply Rle_trans with (INR 8); [apply le_INR; lia | simpl; lra]]).
  assert (2 * INR n * eps <= / 562949953421312) by (rewrite eps_val; lra).
  eapply Rle_trans; [exact B|]. apply Rmult_le_compat_l; lra.
Qed.

(** The number in the index. *)
Lemma number_value junk c :
  c_staked c <> 0%N -> c_owed c <> 0%N -> (c_staked c < two64)%N -> (c_owed c < two64)%N ->
  (100000000 * c_staked c < two63 * c_owed c)%N -> (2 * c_owed c <= 100000000 * c_staked c)%N ->
  exists x, RN (ratio_number junk c) <= x < RN (ratio_number junk c) + 1 /\
    RN (c_staked c) / RN (c_owed c) * 100000000 * (1 - / 562949953421312) <= x /\
    x <= RN (c_staked c) / RN (c_owed c) * 100000000 * (1 + / 562949953421312).
Proof.
  intros Zs Zo Hs Ho Hb Hl. pose proof (number_approx c Zs Zo Hs Ho) as A.
  pose proof (RN_pos1 _ Zo) as Po. pose proof (RN_pos1 _ Zs) as Ps.
  assert (Rr : RN (c_staked c) / RN (c_owed c) = RN (c_staked c) / RN (c_owed c) * 100000000 / 100000000) by (field; lra).
  set (X := dmul (ratio_base c) (of_N PRICE_BOOST)) in *.
  set (r := RN (c_staked c) / RN (c_owed c) * 100000000) in *.
  assert (R2 : 2 <= r).
  { unfold r. apply Rmult_le_reg_r with (RN (c_owed c)); [lra|].
    replace (RN (c_staked c) / RN (c_owed c) * 100000000 * RN (c_owed c)) with (100000000 * RN (c_staked c)) by (field; lra).
    apply RN_le in Hl. rewrite !RN_mul in Hl. exact Hl. }
  assert (Rb : r <= 9223372036854775808).
  { unfold r. apply Rmult_le_reg_r with (RN (c_owed c)); [lra|].
    replace (RN (c_staked c) / RN (c_owed c) * 100000000 * RN (c_owed c)) with (100000000 * RN (c_staked c)) by (field; lra).
    apply Rlt_le. apply RN_lt in Hb. rewrite !RN_mul in Hb. exact Hb. }
  pose proof (approx_lo X r 5 A ltac:(lra) ltac:(lia)) as L. pose proof (approx_hi X r 5 A ltac:(lra) ltac:(lia)) as U.
  assert (F : is_finite X = true) by apply A.
  assert (V1 : 1 <= val X) by lra.
  pose proof (cast_ok junk X F ltac:(change (IZR (2 ^ 64)) with 18446744073709551616; lra)) as C.
  assert (E : ratio_number junk c = cast junk X).
  { unfold ratio_number. fold X. cbv zeta.
    destruct (dlt (of_N (cast junk X)) (ratio_base c)) eqn:D; [|reflexivity]. exfalso.
    destruct (of_N_ok (cast junk X) (cast_lt junk X)) as (Fc & Vc & _).
    destruct (base_approx c Zs Zo Hs Ho) as (_ & Ab & Bb). assert (Fb : is_finite (ratio_base c) = true) by apply Ab.
    apply (dlt_ok _ _ Fc Fb) in D. rewrite Vc in D.
    pose proof (approx_hi _ _ _ Ab (Rlt_le _ _ (btw_pos _ _ Bb)) ltac:(lia)) as Ub. rewrite Rr in Ub.
    assert (N1 : 1 <= RN (cast junk X)).
    { apply RN_pos1. intros Z. rewrite Z in C. change (RN 0) with 0 in C. lra. }
    assert (Lc : RN (cast junk X) / 2 <= rnd (RN (cast junk X))).
    { pose proof (rnd_err (RN (cast junk X))) as Er. rewrite (Rabs_pos_eq (RN (cast junk X))) in Er by lra.
      assert (bpow radix2 (-1000) <= RN (cast junk X)).
      { apply Rle_trans with 1; [|exact N1]. change 1 with (bpow radix2 0). apply bpow_le. lia. }
      specialize (Er H). apply Rabs_le_inv in Er. pose proof eps_small. nra. }
    lra. }
  rewrite E. exists (val X). split; [exact C|]. split; assumption.
Qed.

Lemma bound_value junk r p :
  (r <> 0)%N -> (r <= 1000000)%N -> (p <> 0)%N -> (p < two64)%N ->
  exists y, RN (cast junk (ratio_bound r p)) <= y < RN (cast junk (ratio_bound r p)) + 1 /\
    RN r * 1000000000000 / RN p * (1 - / 562949953421312) <= y /\
    y <= RN r * 1000000000000 / RN p * (1 + / 562949953421312).
Proof.
  intros Zr Hr Zp Hp. pose proof (bound_approx r p Zr ltac:(unfold two64; lia) Zp Hp) as A.
  pose proof (RN_pos1 _ Zr) as Pr. pose proof (RN_pos1 _ Zp) as Pp.
  assert (E : RN r / 10000 / (RN p / 100000000) * 100000000 = RN r * 1000000000000 / RN p) by (field; lra).
  rewrite E in A. set (t := RN r * 1000000000000 / RN p) in *. set (X := ratio_bound r p) in *.
  assert (T0 : 0 < t).
  { unfold t. apply Rmult_lt_0_compat; [lra | apply Rinv_0_lt_compat; lra]. }
  assert (Tb : t <= 1000000000000000000).
  { unfold t. apply Rmult_le_reg_r with (RN p); [lra|].
    replace (RN r * 1000000000000 / RN p * RN p) with (RN r * 1000000000000) by (field; lra).
    apply RN_le in Hr. change (RN 1000000) with 1000000 in Hr. nra. }
  pose proof (approx_lo X t 8 A ltac:(lra) ltac:(lia)) as L. pose proof (approx_hi X t 8 A ltac:(lra) ltac:(lia)) as U.
  assert (F : is_finite X = true) by apply A.
  exists (val X). split; [|split; assumption].
  apply cast_ok; [exact F|]. change (IZR (2 ^ 64)) with 18446744073709551616. lra.
Qed.

Lemma listed_accurate junk c r p :
  c_staked c <> 0%N -> c_owed c <> 0%N -> (c_staked c < two64)%N -> (c_owed c < two64)%N ->
  (100000000 * c_staked c < two63 * c_owed c)%N -> (2 * c_owed c <= 100000000 * c_staked c)%N ->
  (r <> 0)%N -> (r <= 1000000)%N -> (p <> 0)%N -> (p < two64)%N ->
  (ratio_number junk c <= cast junk (ratio_bound r p))%N ->
  (562949953421311 * (c_staked c * p * 100000000) <
     562949953421313 * (r * c_owed c * 1000000000000) + 562949953421312 * (c_owed c * p))%N.
Proof.
  intros Zs Zo Hs Ho Hb Hl Zr Hr Zp Hp H.
  destruct (number_value junk c Zs Zo Hs Ho Hb Hl) as (x & X1 & X2 & X3).
  destruct (bound_value junk r p Zr Hr Zp Hp) as (y & Y1 & Y2 & Y3).
  apply RN_le in H. apply RN_lt. rewrite !RN_add, !RN_mul.
  change (RN 562949953421311) with 562949953421311. change (RN 562949953421312) with 562949953421312.
  change (RN 562949953421313) with 562949953421313. change (RN 100000000) with 100000000.
  change (RN 1000000000000) with 1000000000000.
  pose proof (RN_pos1 _ Zo) as Po. pose proof (RN_pos1 _ Zp) as Pp. pose proof (RN_pos1 _ Zs) as Ps. pose proof (RN_pos1 _ Zr) as Pr.
  assert (K : RN (c_staked c) / RN (c_owed c) * 100000000 * (1 - / 562949953421312) < RN r * 1000000000000 / RN p * (1 + / 562949953421312) + 1) by lra.
  clear - K Po Pp Ps Pr.
  apply Rmult_lt_compat_r with (r := RN (c_owed c) * RN p * 562949953421312) in K; [|apply Rmult_lt_0_compat; nra].
  replace (RN (c_staked c) / RN (c_owed c) * 100000000 * (1 - / 562949953421312) * (RN (c_owed c) * RN p * 562949953421312))
    with (562949953421311 * (RN (c_staked c) * RN p * 100000000)) in K by (field; lra).
  replace ((RN r * 1000000000000 / RN p * (1 + / 562949953421312) + 1) * (RN (c_owed c) * RN p * 562949953421312))
    with (562949953421313 * (RN r * RN (c_owed c) * 1000000000000) + 562949953421312 * (RN (c_owed c) * RN p)) in K by (field; lra).
  exact K.
Qed.

Lemma unlisted_accurate junk c r p :
  c_staked c <> 0%N -> c_owed c <> 0%N -> (c_staked c < two64)%N -> (c_owed c < two64)%N ->
  (100000000 * c_staked c < two63 * c_owed c)%N -> (2 * c_owed c <= 100000000 * c_staked c)%N ->
  (r <> 0)%N -> (r <= 1000000)%N -> (p <> 0)%N -> (p < two64)%N ->
  ~ (ratio_number junk c <= cast junk (ratio_bound r p))%N ->
  (562949953421311 * (r * c_owed c * 10000) < 562949953421313 * (c_staked c * p))%N.
Proof.
  intros Zs Zo Hs Ho Hb Hl Zr Hr Zp Hp H.
  destruct (number_value junk c Zs Zo Hs Ho Hb Hl) as (x & X1 & X2 & X3).
  destruct (bound_value junk r p Zr Hr Zp Hp) as (y & Y1 & Y2 & Y3).
  assert (H' : (cast junk (ratio_bound r p) + 1 <= ratio_number junk c)%N) by lia.
  apply RN_le in H'. rewrite RN_add in H'. change (RN 1) with 1 in H'. apply RN_lt. rewrite !RN_mul.
  change (RN 562949953421311) with 562949953421311.
  change (RN 562949953421313) with 562949953421313. change (RN 10000) with 10000.
  pose proof (RN_pos1 _ Zo) as Po. pose proof (RN_pos1 _ Zp) as Pp. pose proof (RN_pos1 _ Zs) as Ps. pose proof (RN_pos1 _ Zr) as Pr.
  assert (K : RN r * 1000000000000 / RN p * (1 - / 562949953421312) < RN (c_staked c) / RN (c_owed c) * 100000000 * (1 + / 562949953421312)) by lra.
  clear - K Po Pp Ps Pr.
  apply Rmult_lt_compat_r with (r := RN (c_owed c) * RN p * 562949953421312 * / 100000000) in K;
    [|apply Rmult_lt_0_compat; [|lra]; apply Rmult_lt_0_compat; nra].
  replace (RN (c_staked c) / RN (c_owed c) * 100000000 * (1 + / 562949953421312) * (RN (c_owed c) * RN p * 562949953421312 * / 100000000))
    with (562949953421313 * (RN (c_staked c) * RN p)) in K by (field; lra).
  replace (RN r * 1000000000000 / RN p * (1 - / 562949953421312) * (RN (c_owed c) * RN p * 562949953421312 * / 100000000))
    with (562949953421311 * (RN r * RN (c_owed c) * 10000)) in K by (field; lra).
  exact K.
Qed.

(** ** The terms of closing *)

Lemma terms_cover junk e c price k :
  let p := pair_of c in
  (c_owed c < 1152921504606846976)%N -> (c_staked c < two63)%N -> (price <> 0)%N -> (price < two64)%N ->
  (c_staked c * price < two63 * 10000 * c_owed c)%N ->
  (e_param e p PNonReturn <= 100000)%N -> (e_param e p PDiscount <= 10000)%N ->
  (100000000 < e_param e p PNonReturn * e_param e p PDiscount)%N ->
  (100000000 < (e_param e p PForce + 1) * e_param e p PDiscount)%N ->
  closing_terms junk e c price = Done k ->
  (c_owed c <= k_scoins k)%N.
Proof.
  intros p Ho Hs Zp Hp Hf Hn Hd Hnd Hfd H. fold p in H. unfold closing_terms in H. cbv zeta in H. fold p in H.
  step H as u G. clear u G.
  assert (Zo : c_owed c <> 0%N) by (intros Z; rewrite Z in Hf; lia).
  assert (Ho64 : (c_owed c < two64)%N) by (unfold two64; lia).
  set (NR := e_param e p PNonReturn) in *. set (D := e_param e p PDiscount) in *. set (F := e_param e p PForce) in *.
  assert (Zd : D <> 0%N) by lia. assert (Zn : NR <> 0%N) by lia.
  pose proof (btw_RN _ Zo Ho64) as Bo. pose proof (btw_RN D Zd ltac:(unfold two64; lia)) as Bd.
  pose proof (btw_RN NR Zn ltac:(unfold two64; lia)) as Bn.
  pose proof (approx_exact D ltac:(lia)) as Ad. pose proof (approx_exact NR ltac:(lia)) as An.
  pose proof (RN_pos1 _ Zo) as Po. pose proof (RN_pos1 _ Zd) as Pd. pose proof (RN_pos1 _ Zn) as Pn.
  assert (Do : RN (c_owed c) <= 1152921504606846976) by (change 1152921504606846976 with (RN 1152921504606846976); apply RN_le; lia).
  assert (Dd : RN D <= 10000) by (change 10000 with (RN 10000); apply RN_le; lia).
  assert (Dn : RN NR <= 100000) by (change 100000 with (RN 100000); apply RN_le; lia).
  destruct (NR <? cdp_ratio junk c price)%N eqn:C1.
  - step H as u G. clear u G. injection H as <-. cbn [k_scoins]. clear C1.
    pose proof (btw_mul _ _ _ _ Bo Bn) as B1.
    pose proof (approx_mul _ _ _ _ _ _ (approx_of_N _ Zo Ho64) An ltac:(lra) ltac:(lra) (btw_mid _ _ B1 ltac:(lia)) ltac:(lia)) as A1.
    pose proof (btw_div _ _ _ _ B1 btw_1e4) as B2.
    pose proof (approx_div _ _ _ _ _ _ A1 boost_exact (Rlt_le _ _ (btw_pos _ _ B1)) ltac:(lra) (btw_mid _ _ B2 ltac:(lia)) ltac:(lia)) as A2.
    pose proof (btw_mul _ _ _ _ B2 Bd) as B3.
    pose proof (approx_mul _ _ _ _ _ _ A2 Ad (Rlt_le _ _ (btw_pos _ _ B2)) ltac:(lra) (btw_mid _ _ B3 ltac:(lia)) ltac:(lia)) as A3.
    pose proof (btw_div _ _ _ _ B3 btw_1e4) as B4.
    pose proof (approx_div _ _ _ _ _ _ A3 boost_exact (Rlt_le _ _ (btw_pos _ _ B3)) ltac:(lra) (btw_mid _ _ B4 ltac:(lia)) ltac:(lia)) as A4.
    set (X := ddiv _ _) in A4 |- *. set (r := RN (c_owed c) * RN NR / 10000 * RN D / 10000) in *.
    pose proof (approx_lo X r _ A4 (Rlt_le _ _ (btw_pos _ _ B4)) ltac:(lia)) as L.
    pose proof (approx_hi X r _ A4 (Rlt_le _ _ (btw_pos _ _ B4)) ltac:(lia)) as U.
    assert (F0 : is_finite X = true) by apply A4.
    assert (E : r = RN (c_owed c) * (RN NR * RN D / 100000000)) by (unfold r; field).
    assert (K : 1 + / 100000000 <= RN NR * RN D / 100000000 <= 10).
    { assert (W : (100000001 <= NR * D)%N) by lia. apply RN_le in W. rewrite RN_mul in W. change (RN 100000001) with 100000001 in W.
      split; [lra|]. assert (RN NR * RN D <= 100000 * 10000) by (apply Rmult_le_compat; lra). lra. }
    assert (K1 : RN (c_owed c) * (1 + / 100000000) <= r <= RN (c_owed c) * 10) by (rewrite E; split; apply Rmult_le_compat_l; lra).
    clearbody r. clear - L U K1 F0 Po Do.
    pose proof (cast_ok junk X F0 ltac:(change (IZR (2 ^ 64)) with 18446744073709551616; lra)) as C.
    enough (RN (c_owed c) < RN (cast junk X + 1)) by (apply RN_lt in H; lia). rewrite RN_add. change (RN 1) with 1. lra.
  - destruct (F <? cdp_ratio junk c price)%N eqn:C2; injection H as <-; cbn [k_scoins]; [|lia].
    assert (Zs : c_staked c <> 0%N) by (intros Z; rewrite (cdp_ratio_zero junk c price Z Zp Hp) in C2; lia).
    assert (Hs64 : (c_staked c < two64)%N) by (unfold two63, two64 in *; lia).
    pose proof (RN_pos1 _ Zs) as Ps. pose proof (RN_pos1 _ Zp) as Pp.
    assert (Q1 : (562949953421312 * (F + 1) * 10000 * c_owed c <= 562949953421313 * c_staked c * price)%N).
    { destruct (N.lt_ge_cases (F + 1) two64) as [Fl|Fg].
      - apply (cdp_ratio_sound junk); auto. lia.
      - exfalso. rewrite (cdp_ratio_unfold junk c price Zs Zo Hs Ho64) in C2. pose proof (cast_lt junk (cdp_double c price)). lia. }
    (* the ratio is what it should be, so it is small *)
    assert (Q2 : RN (c_staked c) * RN price <= 10001 * 100000 * RN (c_owed c)).
    { rewrite (cdp_ratio_unfold junk c price Zs Zo Hs Ho64) in C1.
      pose proof (cdp_double_approx c price Zs Zo Hs64 Ho64 Zp Hp) as A.
      assert (E : RN price / 100000000 * (RN (c_staked c) / RN (c_owed c)) * 10000 = RN (c_staked c) * RN price / (10000 * RN (c_owed c))) by (field; lra).
      rewrite E in A. set (t := RN (c_staked c) * RN price / (10000 * RN (c_owed c))) in *.
      assert (T0 : 0 <= t) by (unfold t; apply Rmult_le_pos; [apply Rmult_le_pos; lra | apply Rlt_le, Rinv_0_lt_compat; lra]).
      assert (Tm : t * (10000 * RN (c_owed c)) = RN (c_staked c) * RN price) by (unfold t; field; lra).
      assert (Tb : t <= 9223372036854775808).
      { apply RN_lt in Hf. rewrite !RN_mul, <- Tm in Hf. change (RN two63) with 9223372036854775808 in Hf. change (RN 10000) with 10000 in Hf.
        apply Rmult_le_reg_r with (10000 * RN (c_owed c)); lra. }
      pose proof (approx_lo _ _ _ A T0 ltac:(lia)) as L. pose proof (approx_hi _ _ _ A T0 ltac:(lia)) as U.
      assert (F0 : is_finite (cdp_double c price) = true) by apply A.
      assert (Q : (cast junk (cdp_double c price) <= NR)%N) by lia. apply RN_le in Q.
      clearbody t. clear - Q L U F0 T0 Tb Tm Dn Po.
      pose proof (cast_ok junk _ F0 ltac:(change (IZR (2 ^ 64)) with 18446744073709551616; lra)) as C.
      rewrite <- Tm. assert (t <= 100002) by lra.
      assert (t * (10000 * RN (c_owed c)) <= 100002 * (10000 * RN (c_owed c))) by (apply Rmult_le_compat_r; lra). lra. }
    pose proof (btw_RN _ Zs Hs64) as Bs. destruct (price_approx price Zp Hp) as (Ap & Bp).
    pose proof (btw_mul _ _ _ _ Bs Bp) as B1.
    pose proof (approx_mul _ _ _ _ _ _ (approx_of_N _ Zs Hs64) Ap ltac:(lra) (Rlt_le _ _ (btw_pos _ _ Bp)) (btw_mid _ _ B1 ltac:(lia)) ltac:(lia)) as A1.
    pose proof (btw_mul _ _ _ _ B1 Bd) as B2.
    pose proof (approx_mul _ _ _ _ _ _ A1 Ad (Rlt_le _ _ (btw_pos _ _ B1)) ltac:(lra) (btw_mid _ _ B2 ltac:(lia)) ltac:(lia)) as A2.
    pose proof (btw_div _ _ _ _ B2 btw_1e4) as B3.
    pose proof (approx_div _ _ _ _ _ _ A2 boost_exact (Rlt_le _ _ (btw_pos _ _ B2)) ltac:(lra) (btw_mid _ _ B3 ltac:(lia)) ltac:(lia)) as A3.
    set (X := ddiv _ _) in A3 |- *. set (r := RN (c_staked c) * (RN price / 100000000) * RN D / 10000) in *.
    pose proof (approx_lo X r _ A3 (Rlt_le _ _ (btw_pos _ _ B3)) ltac:(lia)) as L.
    pose proof (approx_hi X r _ A3 (Rlt_le _ _ (btw_pos _ _ B3)) ltac:(lia)) as U.
    assert (F0 : is_finite X = true) by apply A3.
    assert (E : r = RN (c_staked c) * RN price * RN D / 1000000000000) by (unfold r; field).
    apply RN_le in Q1. rewrite !RN_mul in Q1.
    change (RN 562949953421312) with 562949953421312 in Q1. change (RN 562949953421313) with 562949953421313 in Q1. change (RN 10000) with 10000 in Q1.
    assert (W : (100000001 <= (F + 1) * D)%N) by lia. apply RN_le in W. rewrite RN_mul in W. change (RN 100000001) with 100000001 in W.
    set (sp := RN (c_staked c) * RN price) in *. set (f := RN (F + 1)) in *. set (o := RN (c_owed c)) in *. set (d := RN D) in *.
    replace (562949953421313 * RN (c_staked c) * RN price) with (562949953421313 * sp) in Q1 by (unfold sp; ring).
    assert (f0 : 0 <= f) by apply RN_pos. assert (s0 : 0 <= sp) by (unfold sp; apply Rmult_le_pos; lra).
    clearbody r sp f. 
    assert (R1 : o * (1 + / 1000000000) <= r).
    { assert (S1 : 562949953421312 * (f * d) * 10000 * o <= 562949953421313 * (sp * d)).
      { replace (562949953421312 * (f * d) * 10000 * o) with (562949953421312 * f * 10000 * o * d) by ring.
        replace (562949953421313 * (sp * d)) with (562949953421313 * sp * d) by ring. apply Rmult_le_compat_r; lra. }
      assert (S2 : 562949953421312 * 100000001 * 10000 * o <= 562949953421312 * (f * d) * 10000 * o) by (apply Rmult_le_compat_r; lra).
      rewrite E. clear - S1 S2 Po. lra. }
    assert (R2 : r <= o * 11).
    { assert (sp * d <= 10001 * 100000 * o * 10000) by (apply Rmult_le_compat; lra). rewrite E. clear - H Po. lra. }
    clear - L U R1 R2 F0 Po Do.
    pose proof (cast_ok junk X F0 ltac:(change (IZR (2 ^ 64)) with 18446744073709551616; lra)) as C.
    enough (RN (c_owed c) < RN (cast junk X + 1)) by (apply RN_lt in H; lia). rewrite RN_add. change (RN 1) with 1. fold o. lra.
Qed.

(** A part of the debt for a part of the price is not more than what is paid. *)
Lemma part_covered junk o q k :
  (q <> 0)%N -> (q < 4503599627370496)%N -> (o <= k)%N -> (q < k)%N -> (k < two64)%N ->
  (part_of junk o (ddiv (of_N q) (of_N k)) <= q)%N.
Proof.
  intros Zq Hq Hok Hqk Hk. unfold part_of.
  destruct (of_N_ok o ltac:(lia)) as (Fo & Vo & Po). destruct (of_N_ok k Hk) as (Fk & Vk & Pk).
  destruct (of_N_exact q ltac:(lia)) as (Fq & Vq).
  pose proof (RN_pos1 q Zq) as Pq. assert (Zk : (k <> 0)%N) by lia. pose proof (RN_pos1 k Zk) as Pk1.
  assert (K1 : 1 <= val (of_N k)).
  { rewrite Vk, <- (rnd_Z 1) by (cbn; lia). apply rnd_le, Pk1. }
  assert (K2 : val (of_N k) <= bpow radix2 64).
  { rewrite Vk, <- (rnd_bpow 64) by lia. apply rnd_le. change (bpow radix2 64) with (IZR (2 ^ 64)). apply IZR_le. unfold two64 in Hk. lia. }
  assert (Ok : val (of_N o) <= val (of_N k)) by (rewrite Vo, Vk; apply rnd_le, RN_le, Hok).
  assert (Q2 : RN q <= 4503599627370495) by (change 4503599627370495 with (RN 4503599627370495); apply RN_le; lia).
  set (r0 := RN q / val (of_N k)).
  assert (R0 : r0 * val (of_N k) = RN q) by (unfold r0; field; lra).
  assert (R1 : bpow radix2 (-64) <= r0 <= bpow radix2 64).
  { split.
    - unfold r0. change (bpow radix2 (-64)) with (bpow radix2 (- (64))). rewrite bpow_opp. rewrite <- (Rmult_1_l (/ bpow radix2 64)). apply Rmult_le_compat; [lra | | lra |].
      + apply Rlt_le, Rinv_0_lt_compat, bpow_gt_0.
      + apply Rinv_le_contravar; lra.
    - apply Rmult_le_reg_r with (val (of_N k)); [lra|]. rewrite R0. change (bpow radix2 64) with 18446744073709551616. nra. }
  pose proof (bpow_gt_0 radix2 (-64)) as B64.
  destruct (ddiv_ok (of_N q) (of_N k) 64 ltac:(lia) Fq ltac:(lra)) as (Fr & Vr).
  { rewrite Vq. fold r0. rewrite Rabs_pos_eq by lra. lra. }
  rewrite Vq in Vr. fold r0 in Vr. set (r := ddiv (of_N q) (of_N k)) in *.
  pose proof eps_small as Ep.
  assert (R2 : 0 <= val r <= r0 * (1 + eps)).
  { rewrite Vr. split; [rewrite <- rnd_0; apply rnd_le; lra|].
    pose proof (rnd_err r0) as Er. rewrite (Rabs_pos_eq r0) in Er by lra.
    assert (L : bpow radix2 (-1000) <= r0) by (eapply Rle_trans; [|apply R1]; apply bpow_le; lia).
    specialize (Er L). apply Rabs_le_inv in Er. lra. }
  assert (M : 0 <= val (of_N o) * val r <= RN q * (1 + eps)).
  { split; [apply Rmult_le_pos; lra|].
    apply Rle_trans with (val (of_N k) * (r0 * (1 + eps))); [apply Rmult_le_compat; lra|].
    rewrite <- R0. lra. }
  assert (M2 : RN q * (1 + eps) <= bpow radix2 64) by (change (bpow radix2 64) with 18446744073709551616; nra).
  destruct (dmul_ok (of_N o) r 64 ltac:(lia) Fo Fr) as (Fm & Vm).
  { rewrite Rabs_pos_eq by lra. lra. }
  set (y := RN q * (1 + eps)) in *.
  assert (Y : rnd y <= y * (1 + eps)).
  { pose proof (rnd_err y) as Er. assert (1 <= y) by (unfold y; nra). rewrite (Rabs_pos_eq y) in Er by lra.
    assert (L : bpow radix2 (-1000) <= y) by (apply Rle_trans with 1; [change 1 with (bpow radix2 0); apply bpow_le; lia | lra]).
    specialize (Er L). apply Rabs_le_inv in Er. lra. }
  assert (W : 0 <= val (dmul (of_N o) r) < RN q + 1).
  { rewrite Vm. split; [rewrite <- rnd_0; apply rnd_le; lra|].
    apply Rle_lt_trans with (rnd y); [apply rnd_le; lra|]. eapply Rle_lt_trans; [exact Y|].
    unfold y. clear - Q2 Pq. rewrite eps_val. lra. }
  pose proof (cast_ok junk _ Fm ltac:(change (IZR (2 ^ 64)) with 18446744073709551616; lra)) as C.
  enough (RN (cast junk (dmul (of_N o) r)) < RN (q + 1)) by (apply RN_lt in H; lia).
  rewrite RN_add. change (RN 1) with 1. lra.
Qed.

(** ** The bound of the list, and positions without debt *)

Lemma bound_small junk r p :
  (r <> 0)%N -> (r <= 1000000)%N -> (p <> 0)%N -> (p < two64)%N ->
  (cast junk (ratio_bound r p) < 2000000000000000000)%N.
Proof.
  intros Zr Hr Zp Hp. destruct (bound_value junk r p Zr Hr Zp Hp) as (y & Y1 & _ & Y3).
  apply RN_lt. change (RN 2000000000000000000) with 2000000000000000000.
  pose proof (RN_pos1 _ Zr) as Pr. pose proof (RN_pos1 _ Zp) as Pp.
  assert (Tb : RN r * 1000000000000 / RN p <= 1000000000000000000).
  { apply Rmult_le_reg_r with (RN p); [lra|].
    replace (RN r * 1000000000000 / RN p * RN p) with (RN r * 1000000000000) by (field; lra).
    apply RN_le in Hr. change (RN 1000000) with 1000000 in Hr. nra. }
  lra.
Qed.

Lemma no_debt_number junk c : c_owed c = 0%N -> c_staked c <> 0%N -> (two63 <= ratio_number junk c)%N.
Proof.
  intros O S. unfold ratio_number. cbv zeta.
  assert (E : ratio_base c = of_N MAX64).
  { unfold ratio_base. rewrite O. now replace (c_staked c =? 0)%N with false by lia. }
  rewrite E. set (b := cast junk (dmul (of_N MAX64) (of_N PRICE_BOOST))).
  destruct (dlt (of_N b) (of_N MAX64)) eqn:D; [unfold MAX64, two63, two64; lia|].
  destruct of_N_max as (Fm & Vm).
  destruct (of_N_ok b (cast_lt junk _)) as (Fb & Vb & _).
  apply N.le_ngt. intros L. enough (dlt (of_N b) (of_N MAX64) = true) by congruence.
  apply (dlt_ok _ _ Fb Fm). rewrite Vm, Vb. apply Rle_lt_trans with (bpow radix2 63).
  - rewrite <- (rnd_bpow 63) by lia. apply rnd_le. change (bpow radix2 63) with (RN two63). apply RN_le. lia.
  - change (IZR (2 ^ 64)) with (bpow radix2 64). apply bpow_lt. lia.
Qed.

(** The order of the index is the order of the ratios, up to rounding. *)
Lemma order_accurate junk c d :
  c_staked c <> 0%N -> c_owed c <> 0%N -> (c_staked c < two64)%N -> (c_owed c < two64)%N ->
  (100000000 * c_staked c < two63 * c_owed c)%N -> (2 * c_owed c <= 100000000 * c_staked c)%N ->
  c_staked d <> 0%N -> c_owed d <> 0%N -> (c_staked d < two64)%N -> (c_owed d < two64)%N ->
  (100000000 * c_staked d < two63 * c_owed d)%N -> (2 * c_owed d <= 100000000 * c_staked d)%N ->
  (ratio_number junk c <= ratio_number junk d)%N ->
  (562949953421311 * (c_staked c * c_owed d * 100000000) <
     562949953421313 * (c_staked d * c_owed c * 100000000) + 562949953421312 * (c_owed c * c_owed d))%N.
Proof.
  intros A1 A2 A3 A4 A5 A6 B1 B2 B3 B4 B5 B6 H.
  destruct (number_value junk c A1 A2 A3 A4 A5 A6) as (x & X1 & X2 & X3).
  destruct (number_value junk d B1 B2 B3 B4 B5 B6) as (y & Y1 & Y2 & Y3).
  apply RN_le in H. apply RN_lt. rewrite !RN_add, !RN_mul.
  change (RN 562949953421311) with 562949953421311. change (RN 562949953421312) with 562949953421312.
  change (RN 562949953421313) with 562949953421313. change (RN 100000000) with 100000000.
  pose proof (RN_pos1 _ A1) as P1. pose proof (RN_pos1 _ A2) as P2. pose proof (RN_pos1 _ B1) as P3. pose proof (RN_pos1 _ B2) as P4.
  assert (K : RN (c_staked c) / RN (c_owed c) * 100000000 * (1 - / 562949953421312) <
              RN (c_staked d) / RN (c_owed d) * 100000000 * (1 + / 562949953421312) + 1) by lra.
  clear - K P1 P2 P3 P4.
  apply Rmult_lt_compat_r with (r := RN (c_owed c) * RN (c_owed d) * 562949953421312) in K; [|apply Rmult_lt_0_compat; nra].
  replace (RN (c_staked c) / RN (c_owed c) * 100000000 * (1 - / 562949953421312) * (RN (c_owed c) * RN (c_owed d) * 562949953421312))
    with (562949953421311 * (RN (c_staked c) * RN (c_owed d) * 100000000)) in K by (field; lra).
  replace ((RN (c_staked d) / RN (c_owed d) * 100000000 * (1 + / 562949953421312) + 1) * (RN (c_owed c) * RN (c_owed d) * 562949953421312))
    with (562949953421313 * (RN (c_staked d) * RN (c_owed c) * 100000000) + 562949953421312 * (RN (c_owed c) * RN (c_owed d))) in K by (field; lra).
  exact K.
Qed.
