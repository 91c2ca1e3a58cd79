(** Proofs about the candidates for a block: though their comparison is not an order, filling the set
    in the sequence of the hashes puts them in the right one. *)
From Coq Require Import List Bool NArith ZArith Reals Lia Lra Sorted Permutation.
From Coq Require Import ZifyBool ZifyN.
From Flocq Require Import Core BinarySingleNaN.
From Verif Require Import Prelude PreludeFacts DoubleModel DoubleFacts OrderModel OrderSpec OrderProofs.
Import ListNotations.

(** A true order: price feeds above the rest, then the fee rate, then the hash. *)
Definition top (a : cand) : bool := dle (of_Z 2000) (q_prio a).
Definition tl (a b : cand) : bool :=
  if Bool.eqb (top a) (top b)
  then dlt (q_fee a) (q_fee b) || (negb (dlt (q_fee b) (q_fee a)) && N.ltb (q_hash a) (q_hash b))
  else top b.

Section Values.
  Local Open Scope R_scope.

  Lemma of_Z_val z : (Z.abs z <= 2 ^ 53)%Z -> is_finite (of_Z z) = true /\ val (of_Z z) = IZR z.
  Proof. apply of_Z_exact. Qed.

  Lemma rnd_int z : (Z.abs z <= 2 ^ 53)%Z -> rnd (IZR z) = IZR z.
  Proof. apply rnd_Z. Qed.

  Lemma size_val s : (0 < s < 2 ^ 32)%N ->
    is_finite (of_N s) = true /\ val (of_N s) = IZR (Z.of_N s) /\ 1 <= IZR (Z.of_N s) <= 4294967296.
  Proof.
    intros H. unfold of_N. destruct (of_Z_exact (Z.of_N s)) as [H1 H2]; [lia|].
    split; [auto|split; [auto|]]. split.
    - change 1 with (IZR 1). apply IZR_le. lia.
    - change 4294967296 with (IZR 4294967296). apply IZR_le. lia.
  Qed.

  Lemma prio_val x : sane x -> is_finite (prio_of x) = true /\
    (if t_feed x then val (prio_of x) = 20000 else 0 <= val (prio_of x) <= 1000).
  Proof.
    intros (_ & _ & Hs). unfold prio_of. destruct (t_feed x).
    - destruct (of_Z_exact 20000) as [H1 H2]; [lia|]. auto.
    - destruct (size_val _ Hs) as (F & V & B). destruct (of_Z_exact 1000) as [H1 H2]; [lia|].
      assert (Hd : 0 <= 1000 / IZR (Z.of_N (t_size x)) <= 1000).
      { split.
        - apply Rmult_le_pos; [lra|]. left. apply Rinv_0_lt_compat. lra.
        - apply Rmult_le_reg_r with (IZR (Z.of_N (t_size x))); [lra|].
          unfold Rdiv. rewrite Rmult_assoc, Rinv_l by lra. nra. }
      destruct (ddiv_ok (of_Z 1000) (of_N (t_size x)) 10) as [F2 V2]; auto.
      + lia.
      + rewrite V. lra.
      + rewrite H2, V. rewrite Rabs_pos_eq by lra. simpl (bpow radix2 10). lra.
      + split; auto. rewrite V2, H2, V. split.
        * rewrite <- rnd_0. apply rnd_le. lra.
        * rewrite <- (rnd_int 1000) at 2 by lia. apply rnd_le. lra.
  Qed.

  Lemma near_val a b : is_finite a = true -> is_finite b = true -> Rabs (val a - val b) <= 30000 ->
    dle (dabs (dsub a b)) (of_Z 1000) = true <-> Rabs (rnd (val a - val b)) <= 1000.
  Proof.
    intros Fa Fb H. destruct (dsub_ok a b 20) as [F V]; auto; [lia| |].
    - simpl (bpow radix2 20). lra.
    - destruct (of_Z_exact 1000) as [F1 V1]; [lia|].
      assert (F2 : is_finite (dabs (dsub a b)) = true).
      { unfold dabs. rewrite is_finite_Babs. auto. }
      rewrite (dle_ok _ _ F2 F1). rewrite V1. unfold dabs, val. rewrite B2R_Babs.
      fold (val (dsub a b)). rewrite V. tauto.
  Qed.

  Lemma top_val x : sane x -> top (cand_of x) = t_feed x.
  Proof.
    intros H. destruct (prio_val x H) as [F V]. unfold top, cand_of; simpl.
    destruct (of_Z_exact 2000) as [F1 V1]; [lia|].
    apply eq_true_iff_eq. rewrite (dle_ok _ _ F1 F), V1.
    destruct (t_feed x); split; intros; try lra; auto; discriminate.
  Qed.

  Lemma near_prio x y : sane x -> sane y ->
    dle (dabs (dsub (prio_of x) (prio_of y))) (of_Z 1000) = Bool.eqb (t_feed x) (t_feed y).
  Proof.
    intros Hx Hy. destruct (prio_val x Hx) as [Fx Vx], (prio_val y Hy) as [Fy Vy].
    assert (Hn : Rabs (val (prio_of x) - val (prio_of y)) <= 30000).
    { apply Rabs_le. destruct (t_feed x), (t_feed y); lra. }
    assert (G : forall d, -1000 <= d <= 1000 -> Rabs (rnd d) <= 1000).
    { intros d Hd. apply Rabs_le. split.
      - apply Rle_trans with (rnd (IZR (-1000))); [rewrite rnd_int by lia; lra|]. apply rnd_le. lra.
      - apply Rle_trans with (rnd (IZR 1000)); [|rewrite rnd_int by lia; lra]. apply rnd_le. lra. }
    apply eq_true_iff_eq. rewrite (near_val _ _ Fx Fy Hn).
    destruct (t_feed x), (t_feed y); simpl; split; intros; auto; try discriminate.
    - apply G. lra.
    - assert (19000 <= rnd (val (prio_of x) - val (prio_of y))).
      { rewrite <- (rnd_int 19000) by lia. apply rnd_le. lra. }
      rewrite Rabs_pos_eq in H by lra. lra.
    - assert (rnd (val (prio_of x) - val (prio_of y)) <= -19000).
      { rewrite <- (rnd_int (-19000)) by lia. apply rnd_le. lra. }
      rewrite Rabs_left in H by lra. lra.
    - apply G. lra.
  Qed.

  Lemma far_prio x y : sane x -> sane y -> t_feed x <> t_feed y ->
    dlt (prio_of x) (prio_of y) = t_feed y.
  Proof.
    intros Hx Hy Hn. destruct (prio_val x Hx) as [Fx Vx], (prio_val y Hy) as [Fy Vy].
    apply eq_true_iff_eq. rewrite (dlt_ok _ _ Fx Fy).
    destruct (t_feed x), (t_feed y); try congruence; split; intros; try lra; auto; discriminate.
  Qed.

  (** The comparison of the code, on the transactions of a pool. *)
  Lemma cand_lt_val x y : sane x -> sane y ->
    cand_lt (cand_of x) (cand_of y) =
      if Bool.eqb (t_feed x) (t_feed y)
      then dlt (rate_of x) (rate_of y) || N.ltb (t_hash x) (t_hash y)
      else t_feed y.
  Proof.
    intros Hx Hy. unfold cand_lt, cand_of; simpl. rewrite near_prio by auto.
    destruct (Bool.eqb (t_feed x) (t_feed y)) eqn:E.
    - destruct (dlt (rate_of x) (rate_of y)); auto.
    - apply far_prio; auto. intros H. rewrite H, eqb_reflx in E. discriminate.
  Qed.

  Lemma tl_val x y : sane x -> sane y ->
    tl (cand_of x) (cand_of y) =
      if Bool.eqb (t_feed x) (t_feed y)
      then dlt (rate_of x) (rate_of y) ||
           (negb (dlt (rate_of y) (rate_of x)) && N.ltb (t_hash x) (t_hash y))
      else t_feed y.
  Proof. intros Hx Hy. unfold tl. rewrite !top_val by auto. reflexivity. Qed.

  (** The rates are numbers, near to the exact ones. *)
  Definition exact (n s : Z) : R := IZR n / IZR s * 1000.
  Definition off (x y : R) : Prop := x * (1 - eps) <= y <= x * (1 + eps).

  Lemma off_rnd x : x = 0 \/ bpow radix2 (-1000) <= x -> off x (rnd x).
  Proof.
    intros H. assert (Hx : 0 <= x) by (destruct H as [->|H]; [lra|]; pose proof (bpow_ge_0 radix2 (-1000)); lra).
    pose proof (rnd_err0 x) as E. rewrite (Rabs_pos_eq x) in E by auto. specialize (E H).
    apply Rabs_le_inv in E. unfold off. lra.
  Qed.

  Lemma rate_val x : sane x -> is_finite (rate_of x) = true /\
    exact (Z.of_N (sub64 (t_fee x) (t_fuel x))) (Z.of_N (t_size x)) * (1 - eps) ^ 3 <= val (rate_of x) <=
    exact (Z.of_N (sub64 (t_fee x) (t_fuel x))) (Z.of_N (t_size x)) * (1 + eps) ^ 3.
  Proof.
    intros (_ & _ & Hs). destruct (size_val _ Hs) as (Fs & Vs & Bs).
    unfold rate_of, exact. set (n := sub64 (t_fee x) (t_fuel x)).
    assert (Hn : (n < two64)%N) by (unfold n, sub64; apply N.mod_lt; discriminate).
    clearbody n. set (s := t_size x) in *. clearbody s. unfold two64 in Hn.
    assert (Hns : n = 0%N \/ (1 <= n)%N) by lia.
    set (rn := IZR (Z.of_N n)).
    assert (Brn : rn = 0 \/ 1 <= rn).
    { destruct Hns as [->|H]; [left; reflexivity|right]. unfold rn. change 1 with (IZR 1). apply IZR_le. lia. }
    assert (Brn2 : 0 <= rn <= 18446744073709551616).
    { split; [destruct Brn; lra|]. unfold rn. change 18446744073709551616 with (IZR 18446744073709551616).
      apply IZR_le. lia. }
    set (rs := IZR (Z.of_N s)) in *.
    assert (He : 0 < eps < / 1000) by (rewrite eps_val; lra).
    assert (Hb : bpow radix2 (-1000) <= / 1000000000000).
    { apply Rle_trans with (bpow radix2 (-60)); [apply bpow_le; lia|]. simpl. lra. }
    destruct (of_Z_ok (Z.of_N n)) as [Fn Vn].
    { rewrite Z.abs_eq by lia. apply Z.le_trans with (2 ^ 64)%Z; [lia|]. apply Z.pow_le_mono_r; lia. }
    fold rn in Vn. change (of_Z (Z.of_N n)) with (of_N n) in *.
    assert (O1 : off rn (rnd rn)) by (apply off_rnd; destruct Brn; [auto|right; lra]).
    destruct O1 as [O1a O1b].
    set (v1 := rnd rn) in *.
    assert (B1 : 0 <= v1 <= 36893488147419103232) by (split; nra).
    assert (Z1 : v1 = 0 \/ / 2 <= v1).
    { destruct Brn as [H|H]; [left|right].
      - unfold v1. rewrite H. apply rnd_0.
      - nra. }
    (* the quotient *)
    set (i := / rs).
    assert (Hi : / 4294967296 <= i <= 1).
    { unfold i. split.
      - apply Rinv_le_contravar; lra.
      - rewrite <- Rinv_1. apply Rinv_le_contravar; lra. }
    destruct (ddiv_ok (of_N n) (of_N s) 65) as [Fd Vd]; auto.
    { lia. }
    { rewrite Vs. lra. }
    { rewrite Vn, Vs. unfold Rdiv. fold i. fold v1. rewrite Rabs_pos_eq by nra.
      simpl (bpow radix2 65). nra. }
    rewrite Vn, Vs in Vd. unfold Rdiv in Vd. fold i in Vd.
    set (q := v1 * i) in *.
    assert (Bq : 0 <= q <= 36893488147419103232) by (unfold q; split; nra).
    assert (Zq : q = 0 \/ / 10000000000 <= q).
    { unfold q. destruct Z1 as [->|H]; [left; ring|right]. nra. }
    assert (O2 : off q (rnd q)) by (apply off_rnd; destruct Zq; [auto|right; lra]).
    destruct O2 as [O2a O2b].
    set (v2 := rnd q) in *.
    assert (B2 : 0 <= v2 <= 2 * 36893488147419103232) by (split; nra).
    assert (Z2 : v2 = 0 \/ / 20000000000 <= v2).
    { destruct Zq as [H|H]; [left|right].
      - unfold v2. rewrite H. apply rnd_0.
      - nra. }
    destruct (of_Z_exact 1000) as [F1 V1]; [lia|].
    destruct (dmul_ok (ddiv (of_N n) (of_N s)) (of_Z 1000) 100) as [Fm Vm]; auto.
    { lia. }
    { rewrite Vd, V1. rewrite Rabs_pos_eq by nra. simpl (bpow radix2 100). nra. }
    rewrite Vd, V1 in Vm.
    assert (O3 : off (v2 * 1000) (rnd (v2 * 1000))).
    { apply off_rnd. destruct Z2 as [H|H]; [left; rewrite H; ring|right; lra]. }
    destruct O3 as [O3a O3b].
    split; [auto|]. rewrite Vm. set (v3 := rnd (v2 * 1000)) in *.
    unfold Rdiv. fold i.
    assert (C1a : rn * i * (1 - eps) <= q) by (unfold q; nra).
    assert (C1b : q <= rn * i * (1 + eps)) by (unfold q; nra).
    assert (C2a : rn * i * (1 - eps) ^ 2 <= v2).
    { apply Rle_trans with (q * (1 - eps)); [|auto]. nra. }
    assert (C2b : v2 <= rn * i * (1 + eps) ^ 2).
    { apply Rle_trans with (q * (1 + eps)); [auto|]. nra. }
    set (e := rn * i) in *. clearbody e.
    assert (P1 : 0 <= 1 - eps) by lra. assert (P2 : 0 <= 1 + eps) by lra.
    split.
    - apply Rle_trans with (v2 * 1000 * (1 - eps)); [|auto].
      replace (e * 1000 * (1 - eps) ^ 3) with (e * (1 - eps) ^ 2 * 1000 * (1 - eps)) by ring.
      apply Rmult_le_compat_r; auto. lra.
    - apply Rle_trans with (v2 * 1000 * (1 + eps)); [auto|].
      replace (e * 1000 * (1 + eps) ^ 3) with (e * (1 + eps) ^ 2 * 1000 * (1 + eps)) by ring.
      apply Rmult_le_compat_r; auto. lra.
  Qed.

  Lemma eps_ratio : (1 + eps) ^ 3 * 1125899906842624 <= (1 - eps) ^ 3 * 1125899906842625.
  Proof. rewrite eps_val. simpl. lra. Qed.

  (** Not less in floating point is not much less in truth. *)
  Lemma rate_le a b : sane a -> sane b -> (t_fuel a <= t_fee a)%N -> (t_fuel b <= t_fee b)%N ->
    dlt (rate_of a) (rate_of b) = false ->
    (net b * Z.of_N (t_size a) * 2 ^ 50 <= net a * Z.of_N (t_size b) * (2 ^ 50 + 1))%Z.
  Proof.
    intros Ha Hb Fa Fb H. destruct (rate_val a Ha) as [Ra [La Ua]], (rate_val b Hb) as [Rb [Lb Ub]].
    assert (Hv : val (rate_of b) <= val (rate_of a)).
    { destruct (Rle_lt_dec (val (rate_of b)) (val (rate_of a))); auto. exfalso.
      assert (dlt (rate_of a) (rate_of b) = true) by (apply dlt_ok; auto). congruence. }
    destruct Ha as (Ha1 & Ha2 & Hsa), Hb as (Hb1 & Hb2 & Hsb).
    assert (Na : Z.of_N (sub64 (t_fee a) (t_fuel a)) = net a).
    { unfold net. rewrite sub64_small by lia. lia. }
    assert (Nb : Z.of_N (sub64 (t_fee b) (t_fuel b)) = net b).
    { unfold net. rewrite sub64_small by lia. lia. }
    rewrite Na in Ua. rewrite Nb in Lb.
    destruct (size_val _ Hsa) as (_ & _ & Bsa), (size_val _ Hsb) as (_ & _ & Bsb).
    assert (Pa : 0 <= IZR (net a)) by (apply IZR_le; unfold net; lia).
    assert (Pb : 0 <= IZR (net b)) by (apply IZR_le; unfold net; lia).
    apply le_IZR. rewrite !mult_IZR, plus_IZR. change (IZR (2 ^ 50)) with 1125899906842624.
    unfold exact in *.
    set (na := IZR (net a)) in *. set (nb := IZR (net b)) in *.
    set (sa := IZR (Z.of_N (t_size a))) in *. set (sb := IZR (Z.of_N (t_size b))) in *.
    clearbody na nb sa sb. clear - Bsa Bsb Pa Pb Lb Ua Hv.
    assert (E : nb / sb * 1000 * (1 - eps) ^ 3 <= na / sa * 1000 * (1 + eps) ^ 3) by lra.
    pose proof eps_ratio as Q. 
    assert (Hp : 0 < (1 - eps) ^ 3) by (apply pow_lt; rewrite eps_val; lra).
    set (u := (1 - eps) ^ 3) in *. set (w := (1 + eps) ^ 3) in *. clearbody u w.
    assert (E2 : nb * sa * u <= na * sb * w).
    { apply Rmult_le_compat_r with (r := sa * sb) in E; [|nra].
      replace (nb / sb * 1000 * u * (sa * sb)) with (1000 * (nb * sa * u)) in E by (field; lra).
      replace (na / sa * 1000 * w * (sa * sb)) with (1000 * (na * sb * w)) in E by (field; lra).
      lra. }
    assert (Pas : 0 <= na * sb) by nra.
    apply Rmult_le_reg_r with u; auto.
    apply Rle_trans with (na * sb * w * 1125899906842624); [nra|].
    replace (1125899906842624 + 1) with 1125899906842625 by lra. nra.
  Qed.
End Values.

Lemma dlt_irr a : is_finite a = true -> dlt a a = false.
Proof.
  intros F. destruct (dlt a a) eqn:E; auto. apply (dlt_ok a a F F) in E. lra.
Qed.
Lemma dlt_asym a b : is_finite a = true -> is_finite b = true -> dlt a b = true -> dlt b a = false.
Proof.
  intros Fa Fb H. destruct (dlt b a) eqn:E; auto. apply (dlt_ok a b Fa Fb) in H.
  apply (dlt_ok b a Fb Fa) in E. lra.
Qed.
Lemma dlt_tr a b c : is_finite a = true -> is_finite b = true -> is_finite c = true ->
  dlt b a = false -> dlt c b = false -> dlt c a = false.
Proof.
  intros Fa Fb Fc H1 H2. destruct (dlt c a) eqn:E; auto. apply (dlt_ok c a Fc Fa) in E.
  destruct (Rlt_le_dec (val b) (val a)) as [L|L].
  - apply (dlt_ok b a Fb Fa) in L. congruence.
  - assert (L2 : (val c < val b)%R) by lra. apply (dlt_ok c b Fc Fb) in L2. congruence.
Qed.

Section Pool.
  Variable l : list poolt.
  Hypothesis l_sane : Forall sane l.
  Hypothesis l_hash : forall x y, In x l -> In y l -> t_hash x = t_hash y -> x = y.

  Definition of_pool (c : cand) : Prop := exists x, In x l /\ c = cand_of x.

  Lemma sane_in x : In x l -> sane x.
  Proof. intros H. rewrite Forall_forall in l_sane. auto. Qed.
  Lemma rate_fin x : In x l -> is_finite (rate_of x) = true.
  Proof. intros H. apply rate_val. apply sane_in. auto. Qed.

  Lemma tl_irr a : of_pool a -> tl a a = false.
  Proof.
    intros (x & Hx & ->). rewrite tl_val by (apply sane_in; auto). rewrite eqb_reflx.
    rewrite dlt_irr, N.ltb_irrefl by (apply rate_fin; auto). reflexivity.
  Qed.

  Lemma tl_tot a b : of_pool a -> of_pool b -> tl a b = false -> tl b a = false -> a = b.
  Proof.
    intros (x & Hx & ->) (y & Hy & ->). rewrite !tl_val by (apply sane_in; auto).
    rewrite (eqb_sym (t_feed y)). destruct (Bool.eqb (t_feed x) (t_feed y)) eqn:E.
    - intros H1 H2. apply orb_false_iff in H1 as [H1 H3]. apply orb_false_iff in H2 as [H2 H4].
      rewrite H1, H2 in *. simpl in *. f_equal. apply l_hash; auto. lia.
    - intros H1 H2. rewrite H1, H2 in E. discriminate.
  Qed.

  Lemma tl_tr a b c : of_pool a -> of_pool b -> of_pool c -> tl a b = true -> tl b c = true -> tl a c = true.
  Proof.
    intros (x & Hx & ->) (y & Hy & ->) (z & Hz & ->). rewrite !tl_val by (apply sane_in; auto).
    pose proof (rate_fin x Hx) as Fx. pose proof (rate_fin y Hy) as Fy. pose proof (rate_fin z Hz) as Fz.
    destruct (t_feed x), (t_feed y), (t_feed z); simpl; try discriminate; auto;
    intros H1 H2; apply orb_true_iff in H1; apply orb_true_iff in H2; apply orb_true_iff;
    (assert (N1 : dlt (rate_of y) (rate_of x) = false) by
      (destruct H1 as [H1|H1]; [apply dlt_asym; auto|apply andb_true_iff in H1 as [H1 _]; apply negb_true_iff; auto]));
    (assert (N2 : dlt (rate_of z) (rate_of y) = false) by
      (destruct H2 as [H2|H2]; [apply dlt_asym; auto|apply andb_true_iff in H2 as [H2 _]; apply negb_true_iff; auto]));
    (destruct (dlt (rate_of x) (rate_of z)) eqn:E; [left; reflexivity|right]);
    rewrite (dlt_tr (rate_of x) (rate_of y) (rate_of z)) by auto; simpl;
    (assert (M1 : dlt (rate_of x) (rate_of y) = false) by
      (destruct (dlt (rate_of x) (rate_of y)) eqn:D; auto;
       rewrite <- E; symmetry; apply dlt_ok; auto;
       apply (dlt_ok _ _ Fx Fy) in D;
       destruct (Rlt_le_dec (val (rate_of z)) (val (rate_of y))) as [L|L]; [|lra];
       apply (dlt_ok _ _ Fz Fy) in L; congruence));
    (assert (M2 : dlt (rate_of y) (rate_of z) = false) by
      (destruct (dlt (rate_of y) (rate_of z)) eqn:D; auto;
       rewrite <- E; symmetry; apply dlt_ok; auto;
       apply (dlt_ok _ _ Fy Fz) in D;
       destruct (Rlt_le_dec (val (rate_of y)) (val (rate_of x))) as [L|L]; [|lra];
       apply (dlt_ok _ _ Fy Fx) in L; congruence));
    rewrite M1 in H1; rewrite M2 in H2; destruct H1 as [H1|H1]; try discriminate;
    destruct H2 as [H2|H2]; try discriminate;
    apply andb_true_iff in H1 as [_ H1]; apply andb_true_iff in H2 as [_ H2]; lia.
  Qed.

  (** Against transactions of smaller hash the code's comparison is that order. *)
  Lemma cand_down x y : In x l -> In y l -> (t_hash y < t_hash x)%N ->
    cand_lt (cand_of x) (cand_of y) = tl (cand_of x) (cand_of y).
  Proof.
    intros Hx Hy H. rewrite cand_lt_val, tl_val by (apply sane_in; auto).
    destruct (Bool.eqb (t_feed x) (t_feed y)); auto.
    replace (t_hash x <? t_hash y)%N with false by lia. rewrite andb_false_r. auto.
  Qed.
  Lemma cand_up x y : In x l -> In y l -> (t_hash y < t_hash x)%N ->
    tl (cand_of x) (cand_of y) = false -> cand_lt (cand_of y) (cand_of x) = true.
  Proof.
    intros Hx Hy H. rewrite cand_lt_val, tl_val by (apply sane_in; auto). rewrite (eqb_sym (t_feed y)).
    destruct (Bool.eqb (t_feed x) (t_feed y)) eqn:E.
    - intros _. replace (t_hash y <? t_hash x)%N with true by lia. apply orb_true_r.
    - intros Hf. rewrite Hf in E. destruct (t_feed x); auto.
  Qed.

  Variable C : Type.
  Variable red : C.
  Variable rotate : tree cand poolt C -> tree cand poolt C.
  Hypothesis rotate_keeps : forall t, entries (rotate t) = entries t.

  (** A set under construction: its entries are transactions of the pool, of smaller hash than [h]. *)
  Definition below (h : N) (t : tree cand poolt C) : Prop :=
    forall e, In e (entries t) -> In (snd e) l /\ fst e = cand_of (snd e) /\ (t_hash (snd e) < h)%N.

  Lemma below_node h c a k v r : below h (Node c a k v r) ->
    below h a /\ below h r /\ In v l /\ k = cand_of v /\ (t_hash v < h)%N.
  Proof.
    intros H. split; [|split].
    - intros e He. apply H. simpl. apply in_or_app. auto.
    - intros e He. apply H. simpl. apply in_or_app. simpl. auto.
    - apply (H (k, v)). simpl. apply in_or_app. simpl. auto.
  Qed.

  Lemma place_same x t : In x l -> below (t_hash x) t ->
    place cand_lt red t (cand_of x) x = place tl red t (cand_of x) x.
  Proof.
    intros Hx. induction t as [|c a IHa k v r IHr]; intros B; simpl; auto.
    apply below_node in B as (Ba & Br & Hv & -> & Hh).
    rewrite cand_down by auto. rewrite IHa, IHr by auto. auto.
  Qed.
  Lemma before_same x t j : In x l -> below (t_hash x) t ->
    before cand_lt t (cand_of x) j = before tl t (cand_of x) j.
  Proof.
    intros Hx. revert j. induction t as [|c a IHa k v r IHr]; intros j B; simpl; auto.
    apply below_node in B as (Ba & Br & Hv & -> & Hh).
    rewrite cand_down by auto. rewrite IHa, IHr by auto. auto.
  Qed.

  Lemma emplace_cand x t : In x l -> below (t_hash x) t -> fine tl of_pool t ->
    exists t', emplace cand_lt red rotate t (cand_of x) x = Some t' /\
      fine tl of_pool t' /\ Permutation (x :: map snd (entries t)) (map snd (entries t')) /\
      forall e, In e (entries t') -> e = (cand_of x, x) \/ In e (entries t).
  Proof.
    intros Hx B F.
    assert (U : of_pool (cand_of x)) by (exists x; auto).
    assert (Hn : forall e, In e (entries t) -> fst e <> cand_of x).
    { intros e He Hc. destruct (B e He) as (H1 & H2 & H3). rewrite H2 in Hc.
      assert (t_hash (snd e) = t_hash x) by (apply (f_equal q_hash) in Hc; auto). lia. }
    exists (settle rotate (place cand_lt red t (cand_of x) x)).
    assert (E : entries (settle rotate (place cand_lt red t (cand_of x) x)) =
                ins tl (entries t) (cand_of x) x).
    { unfold settle. rewrite place_same by auto.
      rewrite <- (place_ok tl_tr red _ x F U). destruct (Nat.leb _ 2); auto. }
    split; [|split; [|split]].
    - unfold emplace. rewrite before_same by auto.
      destruct (before_in tl t (cand_of x) None) as [->|(a & b & -> & H2 & H3)]; auto.
      destruct (B _ H2) as (I1 & I2 & I3). simpl in *. subst a. rewrite cand_up; auto.
    - unfold fine. rewrite E. apply (ins_order tl_tr tl_tot); auto.
    - rewrite E. clear. induction (entries t) as [|e es IH]; simpl; auto.
      destruct (tl (cand_of x) (fst e)); simpl; auto. rewrite perm_swap. auto.
    - intros e. rewrite E. apply ins_in.
  Qed.

  Lemma gather_ok xs : forall t, incl xs l -> by_hash xs -> fine tl of_pool t ->
    (forall x, In x xs -> below (t_hash x) t) ->
    fine tl of_pool (gather red rotate xs t) /\
    Permutation (xs ++ map snd (entries t)) (map snd (entries (gather red rotate xs t))) /\
    (forall e, In e (entries (gather red rotate xs t)) -> In e (entries t) \/ fst e = cand_of (snd e)).
  Proof.
    induction xs as [|x xs IH]; intros t I S F B; simpl.
    - auto.
    - inversion S; subst.
      destruct (emplace_cand x t (I x (or_introl eq_refl)) (B x (or_introl eq_refl)) F)
        as (t' & -> & F' & P & Q).
      destruct (IH t') as (F2 & P2 & Q2); auto.
      + intros y Hy. apply I. simpl. auto.
      + intros y Hy e He. destruct (Q e He) as [->|He2].
        * simpl. split; [apply I; simpl; auto|split; [auto|]].
          rewrite Forall_forall in H2. auto.
        * apply (B y); simpl; auto.
      + split; [auto|split].
        * rewrite <- P2, <- P. rewrite Permutation_middle. auto.
        * intros e He. destruct (Q2 e He) as [He2|]; auto. destruct (Q e He2) as [->|]; auto.
  Qed.
End Pool.

Lemma hash_unique l : by_hash l -> forall x y, In x l -> In y l -> t_hash x = t_hash y -> x = y.
Proof.
  induction 1 as [|a l H IH F]; simpl; [tauto|]. rewrite Forall_forall in F.
  intros x y [->|Hx] [->|Hy] E; auto.
  - specialize (F y Hy). lia.
  - specialize (F x Hx). lia.
Qed.

Lemma sorted_app {A} (R : A -> A -> Prop) a b : StronglySorted R (a ++ b) <->
  StronglySorted R a /\ StronglySorted R b /\ forall x y, In x a -> In y b -> R x y.
Proof.
  induction a as [|e a IH]; simpl.
  - split; [intros H; split; [constructor|split; [auto|tauto]]|tauto].
  - split.
    + intros H. inversion H; subst. apply Forall_app in H3 as [H3 H4]. apply IH in H2 as (I1 & I2 & I3).
      split; [constructor; auto|split; [auto|]]. rewrite Forall_forall in H4.
      intros x y [->|Hx] Hy; auto.
    + intros (H1 & H2 & H3). inversion H1; subst. constructor.
      * apply IH. auto.
      * apply Forall_app. split; auto. apply Forall_forall. auto.
Qed.
Lemma sorted_rev {A} (R : A -> A -> Prop) l : StronglySorted R l ->
  StronglySorted (fun x y => R y x) (rev l).
Proof.
  induction 1 as [|a l H IH F]; simpl; [constructor|]. apply sorted_app.
  rewrite Forall_forall in F. split; [auto|split; [repeat constructor|]].
  intros x y Hx [->|[]]. apply F. apply in_rev. auto.
Qed.
Lemma sorted_map {A B} (f : A -> B) (R : B -> B -> Prop) l :
  StronglySorted (fun x y => R (f x) (f y)) l -> StronglySorted R (map f l).
Proof.
  induction 1 as [|a l H IH F]; simpl; constructor; auto.
  apply Forall_forall. intros y Hy. apply in_map_iff in Hy as (z & <- & Hz).
  rewrite Forall_forall in F. auto.
Qed.
Lemma sorted_impl {A} (P : A -> Prop) (R Q : A -> A -> Prop) l : Forall P l ->
  (forall x y, P x -> P y -> R x y -> Q x y) -> StronglySorted R l -> StronglySorted Q l.
Proof.
  intros HP H S. induction S as [|a l S IH F]; constructor; inversion HP; subst; auto.
  rewrite Forall_forall in *. auto.
Qed.

Lemma taken_ok C (red : C) rotate l : (forall t, entries (rotate t) = entries t) ->
  by_hash l -> Forall sane l ->
  Permutation l (taken red rotate l) /\
  StronglySorted (fun a b => tl (cand_of b) (cand_of a) = true) (taken red rotate l).
Proof.
  intros Hr Hb Hs.
  destruct (gather_ok l Hs (hash_unique l Hb) C red rotate Hr l Leaf) as (F & P & Q).
  - apply incl_refl.
  - auto.
  - apply fine_leaf.
  - intros x _ e [].
  - simpl in P. rewrite app_nil_r in P. unfold taken. split.
    + eapply Permutation_trans; [exact P|apply Permutation_rev].
    + apply (sorted_rev (fun a b => tl (cand_of a) (cand_of b) = true)).
      apply sorted_map. destruct F as [_ S].
      eapply (sorted_impl (fun e => fst e = cand_of (snd e))); [| |exact S].
      * apply Forall_forall. intros e He. destruct (Q e He) as [[]|]; auto.
      * intros x y Hx Hy. cbn beta. rewrite Hx, Hy. auto.
Qed.

Lemma tl_precede a b : sane a -> sane b -> (t_fuel a <= t_fee a)%N -> (t_fuel b <= t_fee b)%N ->
  tl (cand_of b) (cand_of a) = true -> may_precede a b.
Proof.
  intros Ha Hb Fa Fb. rewrite tl_val by auto. intros H. split.
  - intros E. rewrite E in H. destruct (t_feed a); auto.
  - intros E. rewrite E, eqb_reflx in H. apply rate_le; auto.
    pose proof (proj1 (rate_val a Ha)) as Ra. pose proof (proj1 (rate_val b Hb)) as Rb.
    apply orb_true_iff in H as [H|H]; [apply dlt_asym; auto|].
    apply andb_true_iff in H as [H _]. apply negb_true_iff; auto.
Qed.

(** A new entry goes to a cut of the entries: all those before it are below it and it is not below
    them, it is below all those after it. *)
Section Cut.
  Variables K V C : Type.
  Variable lt : K -> K -> bool.
  Variable red : C.
  Variable rotate : tree K V C -> tree K V C.
  Hypothesis rotate_keeps : forall t, entries (rotate t) = entries t.

  Lemma place_cut (k : K) (v : V) (t : tree K V C) : forall a b, entries t = a ++ b ->
    Forall (fun e => lt k (fst e) = false) a -> Forall (fun e => lt k (fst e) = true) b ->
    entries (place lt red t k v) = a ++ (k, v) :: b.
  Proof.
    induction t as [|c l IHl k' v' r IHr]; intros a b E Fa Fb; simpl in *.
    - symmetry in E. apply app_eq_nil in E as [-> ->]. reflexivity.
    - rewrite Forall_forall in Fa, Fb. destruct (lt k k') eqn:D; simpl.
      + assert (Hb : exists b1, entries l = a ++ b1 /\ b = b1 ++ (k', v') :: entries r).
        { assert (~ In (k', v') a) by (intros H; apply Fa in H; simpl in H; congruence).
          clear - E H. revert a E H. induction (entries l) as [|e es IH]; intros a E H; simpl in E.
          - destruct a as [|e a]; simpl in E; [exists []; auto|]. injection E as <- E. destruct H. simpl. auto.
          - destruct a as [|e' a]; simpl in E.
            + exists (e :: es). auto.
            + injection E as <- E. destruct (IH a E) as (b1 & -> & ->); [simpl in H; tauto|]. exists b1. auto. }
        destruct Hb as (b1 & E1 & ->).
        rewrite (IHl a b1); auto.
        * rewrite <- app_assoc. reflexivity.
        * apply Forall_forall; auto.
        * apply Forall_forall. intros e He. apply Fb. apply in_or_app. auto.
      + assert (Ha : exists a1, entries r = a1 ++ b /\ a = entries l ++ (k', v') :: a1).
        { assert (~ In (k', v') b) by (intros H; apply Fb in H; simpl in H; congruence).
          clear - E H. revert a E. induction (entries l) as [|e es IH]; intros a E; simpl in E.
          - destruct a as [|e a]; simpl in E; [rewrite <- E in H; destruct H; simpl; auto|].
            injection E as <- E. exists a. auto.
          - destruct a as [|e' a]; simpl in E.
            + rewrite <- E in H. destruct H. right. apply in_or_app. simpl. auto.
            + injection E as <- E. destruct (IH a E) as (a1 & -> & ->). exists a1. auto. }
        destruct Ha as (a1 & E1 & ->).
        rewrite (IHr a1 b); auto.
        * rewrite <- app_assoc. reflexivity.
        * apply Forall_forall. intros e He. apply Fa. apply in_or_app. simpl. auto.
        * apply Forall_forall; auto.
  Qed.

  Lemma emplace_cut (k : K) (v : V) (t : tree K V C) a b : entries t = a ++ b ->
    Forall (fun e => lt k (fst e) = false /\ lt (fst e) k = true) a -> Forall (fun e => lt k (fst e) = true) b ->
    exists t', emplace lt red rotate t k v = Some t' /\ entries t' = a ++ (k, v) :: b.
  Proof.
    intros E Fa Fb. exists (settle rotate (place lt red t k v)). split.
    - unfold emplace. destruct (before_in lt t k None) as [->|(j & w & -> & H2 & H3)]; auto.
      rewrite E in H2. apply in_app_or in H2 as [H2|H2].
      + rewrite Forall_forall in Fa. apply Fa in H2 as [_ H2]. simpl in H2. rewrite H2. auto.
      + rewrite Forall_forall in Fb. apply Fb in H2. simpl in *. congruence.
    - unfold settle. rewrite <- (place_cut k v t a b E); auto.
      + destruct (Nat.leb _ 2); auto.
      + eapply Forall_impl; [|exact Fa]. simpl. tauto.
  Qed.
End Cut.

(** Cuts of a sorted list. *)
Lemma cut_at {A} (R : A -> A -> Prop) (p : A -> bool) l : StronglySorted R l ->
  (forall x y, In x l -> In y l -> R x y -> p y = true -> p x = true) ->
  exists a b, l = a ++ b /\ Forall (fun x => p x = true) a /\ Forall (fun x => p x = false) b.
Proof.
  induction 1 as [|e l S IH F]; intros H.
  - exists [], []. auto.
  - destruct (p e) eqn:E.
    + destruct IH as (a & b & -> & Fa & Fb).
      * intros x y Hx Hy. apply H; simpl; auto.
      * exists (e :: a), b. auto.
    + exists [], (e :: l). split; [auto|split; [auto|]]. constructor; auto.
      apply Forall_forall. intros y Hy. destruct (p y) eqn:D; auto. rewrite <- E. symmetry.
      rewrite Forall_forall in F. apply (H e y); simpl; auto.
Qed.

Section Special.
  Local Open Scope R_scope.
  Lemma zero_val : is_finite (of_Z 0) = true /\ val (of_Z 0) = 0.
  Proof. apply (of_Z_exact 0). lia. Qed.

  (** The median is above plain transactions and below price feeds, whatever the fees. *)
  Lemma median_lt m x : sane x ->
    cand_lt (median_cand m) (cand_of x) = t_feed x /\ cand_lt (cand_of x) (median_cand m) = negb (t_feed x).
  Proof.
    intros Hx. destruct (prio_val x Hx) as [Fx Vx]. destruct (of_Z_exact 10000) as [Fm Vm]; [lia|].
    unfold cand_lt, cand_of, median_cand; cbn [q_prio q_fee q_hash].
    assert (N1 : Rabs (val (of_Z 10000) - val (prio_of x)) <= 30000).
    { apply Rabs_le. rewrite Vm. destruct (t_feed x); lra. }
    assert (N2 : Rabs (val (prio_of x) - val (of_Z 10000)) <= 30000) by (rewrite Rabs_minus_sym; auto).
    assert (B : 9000 <= Rabs (val (of_Z 10000) - val (prio_of x))).
    { rewrite Vm. destruct (t_feed x); [rewrite Rabs_left|rewrite Rabs_pos_eq]; lra. }
    assert (Q : forall d, 9000 <= Rabs d -> 1000 < Rabs (rnd d)).
    { intros d Hd. apply Rlt_le_trans with 9000; [lra|].
      destruct (Rle_lt_dec 0 d) as [P|P].
      - rewrite Rabs_pos_eq in Hd by lra. apply Rle_trans with (rnd d); [|apply Rle_abs].
        rewrite <- (rnd_int 9000) by lia. apply rnd_le. lra.
      - rewrite Rabs_left in Hd by lra. apply Rle_trans with (- rnd d).
        + assert (rnd d <= -9000); [|lra].
          rewrite <- (rnd_int (-9000)) by lia. apply rnd_le. lra.
        + rewrite <- Rabs_Ropp. apply Rle_abs. }
    destruct (dle (dabs (dsub (of_Z 10000) (prio_of x))) (of_Z 1000)) eqn:D1.
    { apply (near_val _ _ Fm Fx N1) in D1. specialize (Q _ B). lra. }
    destruct (dle (dabs (dsub (prio_of x) (of_Z 10000))) (of_Z 1000)) eqn:D2.
    { apply (near_val _ _ Fx Fm N2) in D2. rewrite Rabs_minus_sym in B. specialize (Q _ B). lra. }
    split; apply eq_true_iff_eq.
    - rewrite (dlt_ok _ _ Fm Fx), Vm. destruct (t_feed x); split; intros; try lra; auto; discriminate.
    - rewrite (dlt_ok _ _ Fx Fm), Vm. destruct (t_feed x); simpl; split; intros; try lra; auto; discriminate.
  Qed.

  Lemma near_z a b z : is_finite a = true -> is_finite b = true -> (0 <= z <= 1000)%Z ->
    - IZR z <= val a - val b <= IZR z -> dle (dabs (dsub a b)) (of_Z 1000) = true.
  Proof.
    intros Fa Fb Hz H. assert (IZR z <= 1000) by (apply IZR_le; lia).
    apply near_val; auto.
    - apply Rabs_le. lra.
    - apply Rabs_le. split.
      + apply Rle_trans with (rnd (IZR (-1000))); [rewrite rnd_int by lia; lra|]. apply rnd_le. lra.
      + apply Rle_trans with (rnd (IZR 1000)); [|rewrite rnd_int by lia; lra]. apply rnd_le. lra.
  Qed.

  (** The settlement counts as a plain transaction without fee. *)
  Lemma settle_lt s x : sane x ->
    cand_lt (settle_cand s) (cand_of x) = (if t_feed x then true else dlt (of_Z 0) (rate_of x) || N.ltb (t_hash s) (t_hash x)) /\
    cand_lt (cand_of x) (settle_cand s) = (if t_feed x then false else dlt (rate_of x) (of_Z 0) || N.ltb (t_hash x) (t_hash s)).
  Proof.
    intros Hx. destruct (prio_val x Hx) as [Fx Vx]. destruct (of_Z_exact 1000) as [Fm Vm]; [lia|].
    unfold cand_lt, cand_of, settle_cand; cbn [q_prio q_fee q_hash].
    destruct (t_feed x).
    - assert (N1 : Rabs (val (of_Z 1000) - val (prio_of x)) <= 30000) by (apply Rabs_le; rewrite Vm; lra).
      assert (N2 : Rabs (val (prio_of x) - val (of_Z 1000)) <= 30000) by (rewrite Rabs_minus_sym; auto).
      destruct (dle (dabs (dsub (of_Z 1000) (prio_of x))) (of_Z 1000)) eqn:D1.
      { apply (near_val _ _ Fm Fx N1) in D1. rewrite Vm, Vx in D1.
        replace (1000 - 20000) with (IZR (-19000)) in D1 by lra. rewrite (rnd_int (-19000)) in D1 by lia.
        rewrite Rabs_left in D1 by lra. lra. }
      destruct (dle (dabs (dsub (prio_of x) (of_Z 1000))) (of_Z 1000)) eqn:D2.
      { apply (near_val _ _ Fx Fm N2) in D2. rewrite Vm, Vx in D2.
        replace (20000 - 1000) with (IZR 19000) in D2 by lra. rewrite (rnd_int 19000) in D2 by lia.
        rewrite Rabs_pos_eq in D2 by lra. lra. }
      split; apply eq_true_iff_eq.
      + rewrite (dlt_ok _ _ Fm Fx), Vm. split; intros; [auto|lra].
      + rewrite (dlt_ok _ _ Fx Fm), Vm. split; intros; [lra|discriminate].
    - rewrite (near_z (of_Z 1000) (prio_of x) 1000), (near_z (prio_of x) (of_Z 1000) 1000) by (auto; try lia; rewrite Vm; lra).
      destruct (dlt (of_Z 0) (rate_of x)), (dlt (rate_of x) (of_Z 0)); auto.
  Qed.

  Lemma settle_median s m : cand_lt (settle_cand s) (median_cand m) = true.
  Proof.
    destruct (of_Z_exact 1000) as [Fs Vs]; [lia|]. destruct (of_Z_exact 10000) as [Fm Vm]; [lia|].
    unfold cand_lt, settle_cand, median_cand; cbn [q_prio q_fee q_hash].
    destruct (dle (dabs (dsub (of_Z 1000) (of_Z 10000))) (of_Z 1000)) eqn:D.
    - apply near_val in D; auto; [|rewrite Vs, Vm; apply Rabs_le; lra].
      rewrite Vs, Vm in D. replace (1000 - 10000) with (IZR (-9000)) in D by lra.
      rewrite (rnd_int (-9000)) in D by lia. rewrite Rabs_left in D by lra. lra.
    - apply dlt_ok; auto. rewrite Vs, Vm. lra.
  Qed.

  (** The rate of a transaction is zero only if the fuel takes the whole fee. *)
  Lemma rate_zero x : sane x -> dlt (of_Z 0) (rate_of x) = negb (t_fee x =? t_fuel x)%N /\ dlt (rate_of x) (of_Z 0) = false.
  Proof.
    intros Hx. destruct (rate_val x Hx) as [F [L U]]. destruct zero_val as [F0 V0].
    destruct Hx as (H1 & H2 & Hs). destruct (size_val _ Hs) as (_ & _ & Bs).
    assert (He : 0 < eps < / 1000) by (rewrite eps_val; lra).
    assert (P : 0 < (1 - eps) ^ 3) by (apply pow_lt; lra).
    unfold exact in *. set (rs := IZR (Z.of_N (t_size x))) in *.
    assert (Pi : 0 < / rs) by (apply Rinv_0_lt_compat; lra).
    set (n := sub64 (t_fee x) (t_fuel x)) in *.
    assert (Hn : n = 0%N <-> t_fee x = t_fuel x).
    { unfold n, sub64, two64 in *. split; intros E.
      - destruct (N.le_gt_cases (t_fuel x) (t_fee x)).
        + replace (t_fee x + 18446744073709551616 - t_fuel x)%N with (t_fee x - t_fuel x + 1 * 18446744073709551616)%N in E by lia.
          rewrite N.mod_add, N.mod_small in E by lia. lia.
        + rewrite N.mod_small in E by lia. lia.
      - rewrite E. replace (t_fuel x + 18446744073709551616 - t_fuel x)%N with 18446744073709551616%N by lia.
        apply N.mod_same. lia. }
    assert (Pn : 0 <= IZR (Z.of_N n)) by (apply IZR_le; lia).
    unfold Rdiv in *. split.
    - apply eq_true_iff_eq. rewrite (dlt_ok _ _ F0 F), V0, negb_true_iff, N.eqb_neq, <- Hn. split.
      + intros H E. rewrite E in U. simpl in U. lra.
      + intros E. assert (1 <= IZR (Z.of_N n)) by (apply IZR_le; lia).
        apply Rlt_le_trans with (2 := L). apply Rmult_lt_0_compat; auto. apply Rmult_lt_0_compat; [|lra].
        apply Rmult_lt_0_compat; auto. lra.
    - destruct (dlt (rate_of x) (of_Z 0)) eqn:D; auto. apply (dlt_ok _ _ F F0) in D. rewrite V0 in D.
      assert (0 <= IZR (Z.of_N n) * / rs * 1000 * (1 - eps) ^ 3); [|lra].
      apply Rmult_le_pos; [|lra]. apply Rmult_le_pos; [|lra]. apply Rmult_le_pos; lra.
  Qed.
End Special.

Lemma collect_ok C (red : C) rotate l m s : (forall t, entries (rotate t) = entries t) ->
  by_hash l -> Forall sane l -> (forall x, s = Some x -> ~ In (t_hash x) (map t_hash l)) ->
  exists a b z, taken red rotate l = a ++ b ++ z /\
    Forall (fun x => t_feed x = true) a /\ Forall (fun x => t_feed x = false) (b ++ z) /\
    Forall (fun x => t_fee x = t_fuel x) z /\
    looked_at red rotate l m s = a ++ m :: b ++ match s with Some x => [x] | None => [] end ++ z.
Proof.
  intros Hr Hb Hs Hh. destruct (taken_ok C red rotate l Hr Hb Hs) as [P S].
  assert (Q : forall e, In e (entries (gather red rotate l Leaf)) -> fst e = cand_of (snd e) /\ sane (snd e) /\ In (snd e) l).
  { intros e He. destruct (gather_ok l Hs (hash_unique l Hb) C red rotate Hr l Leaf) as (_ & P2 & Q); auto.
    - apply incl_refl.
    - apply fine_leaf.
    - intros x _ e0 [].
    - destruct (Q e He) as [[]|E]. split; auto. simpl in P2. rewrite app_nil_r in P2.
      assert (I : In (snd e) l) by (apply (Permutation_in _ (Permutation_sym P2)); apply in_map; auto).
      rewrite Forall_forall in Hs. auto. }
  assert (S2 : StronglySorted (fun e f => tl (fst e) (fst f) = true) (entries (gather red rotate l Leaf))).
  { destruct (gather_ok l Hs (hash_unique l Hb) C red rotate Hr l Leaf) as ((_ & S2) & _); auto.
    - apply incl_refl.
    - apply fine_leaf.
    - intros x _ e0 []. }
  unfold looked_at, collect, taken. clear S P.
  set (g := gather red rotate l Leaf) in *. clearbody g.
  destruct (cut_at _ (fun e => negb (t_feed (snd e))) _ S2) as (es & fs & E & Fe & Ff).
  { intros x y Hx Hy T. destruct (Q x Hx) as (-> & Sx & _) in T. destruct (Q y Hy) as (-> & Sy & _) in T.
    rewrite tl_val in T by auto. destruct (t_feed (snd x)), (t_feed (snd y)); simpl in *; auto. }
  rewrite Forall_forall in Fe, Ff.
  assert (Qe : forall e, In e es -> fst e = cand_of (snd e) /\ sane (snd e) /\ In (snd e) l /\ t_feed (snd e) = false).
  { intros e He. destruct (Q e) as (H1 & H2 & H3); [rewrite E; apply in_or_app; auto|].
    apply Fe in He. apply negb_true_iff in He. auto. }
  assert (Qf : forall e, In e fs -> fst e = cand_of (snd e) /\ sane (snd e) /\ t_feed (snd e) = true).
  { intros e He. destruct (Q e) as (H1 & H2 & H3); [rewrite E; apply in_or_app; auto|].
    apply Ff in He. apply negb_false_iff in He. auto. }
  destruct (emplace_cut cand poolt C cand_lt red rotate Hr (median_cand m) m g es fs E) as (g1 & E1 & E2).
  { apply Forall_forall. intros e He. destruct (Qe e He) as (-> & H2 & H3 & H4).
    destruct (median_lt m (snd e) H2) as [-> ->]. rewrite H4. auto. }
  { apply Forall_forall. intros e He. destruct (Qf e He) as (-> & H2 & H3).
    destruct (median_lt m (snd e) H2) as [-> _]. auto. }
  unfold add_cand. rewrite E1, E.
  destruct s as [s|].
  - specialize (Hh s eq_refl).
    assert (S3 : StronglySorted (fun e f => tl (fst e) (fst f) = true) es) by (rewrite E in S2; apply sorted_app in S2; tauto).
    destruct (cut_at _ (fun e => (t_fee (snd e) =? t_fuel (snd e))%N && (t_hash (snd e) <? t_hash s)%N) _ S3) as (zs & ps & E3 & Fz & Fp).
    { intros x y Hx Hy T. destruct (Qe x Hx) as (Ex & Sx & _ & Tx). destruct (Qe y Hy) as (Ey & Sy & _ & Ty).
      rewrite Ex, Ey, tl_val, Tx, Ty in T by auto. simpl in T. rewrite !andb_true_iff. intros [Z1 Z2].
      destruct (rate_zero _ Sx) as [Rx Rx2]. destruct (rate_zero _ Sy) as [Ry Ry2]. rewrite Z1 in Ry. simpl in Ry.
      pose proof (proj1 (rate_val _ Sx)) as Fx. pose proof (proj1 (rate_val _ Sy)) as Fy.
      destruct zero_val as [F0 _].
      assert (Nxy : dlt (rate_of (snd x)) (rate_of (snd y)) = false) by (eapply dlt_tr with (b := of_Z 0); eauto).
      assert (Nx : dlt (of_Z 0) (rate_of (snd x)) = false).
      { rewrite Nxy in T. simpl in T. apply andb_true_iff in T as [T _]. apply negb_true_iff in T.
        eapply dlt_tr with (b := rate_of (snd y)); eauto. }
      rewrite Nxy in T. simpl in T. apply andb_true_iff in T as [_ T].
      rewrite Rx in Nx. apply negb_false_iff in Nx. split; auto. lia. }
    rewrite Forall_forall in Fz, Fp.
    destruct (emplace_cut cand poolt C cand_lt red rotate Hr (settle_cand s) s g1 zs (ps ++ (median_cand m, m) :: fs)) as (g2 & E4 & E5).
    + rewrite E2, E3, <- app_assoc. reflexivity.
    + apply Forall_forall. intros e He. destruct (Qe e) as (-> & H2 & H3 & H4); [rewrite E3; apply in_or_app; auto|].
      destruct (settle_lt s (snd e) H2) as [-> ->]. rewrite H4. destruct (rate_zero _ H2) as [-> ->].
      specialize (Fz e He). apply andb_true_iff in Fz as [-> Z2]. simpl. split; [lia|auto].
    + apply Forall_forall. intros e He. apply in_app_or in He as [He|[<-|He]].
      * destruct (Qe e) as (-> & H2 & H3 & H4); [rewrite E3; apply in_or_app; auto|].
        destruct (settle_lt s (snd e) H2) as [-> _]. rewrite H4. destruct (rate_zero _ H2) as [-> _].
        specialize (Fp e He). destruct (t_fee (snd e) =? t_fuel (snd e))%N; simpl in *; auto.
        assert (t_hash (snd e) <> t_hash s) by (intros X; apply Hh; rewrite <- X; apply in_map; auto). lia.
      * apply settle_median.
      * destruct (Qf e He) as (-> & H2 & H3). destruct (settle_lt s (snd e) H2) as [-> _]. rewrite H3. auto.
    + rewrite E4, E5, E3. exists (rev (map snd fs)), (rev (map snd ps)), (rev (map snd zs)).
      rewrite !map_app, !rev_app_distr. simpl. rewrite !map_app, !rev_app_distr. simpl.
      rewrite <- ?app_assoc. simpl. rewrite <- ?app_assoc. simpl.
      split; [auto|split; [|split; [|split; [|auto]]]].
      * apply Forall_forall. intros x Hx. apply in_rev, in_map_iff in Hx as (e & <- & He). apply Qf; auto.
      * apply Forall_forall. intros x Hx. apply in_app_or in Hx as [Hx|Hx]; apply in_rev, in_map_iff in Hx as (e & <- & He);
          apply Qe; rewrite E3; apply in_or_app; auto.
      * apply Forall_forall. intros x Hx. apply in_rev, in_map_iff in Hx as (e & <- & He).
        specialize (Fz e He). apply andb_true_iff in Fz as [Fz _]. apply N.eqb_eq; auto.
  - exists (rev (map snd fs)), (rev (map snd es)), []. rewrite E2, !map_app, !rev_app_distr. simpl.
    rewrite <- !app_assoc. simpl. rewrite !app_nil_r.
    split; [auto|split; [|split; [|split; auto]]].
    + apply Forall_forall. intros x Hx. apply in_rev, in_map_iff in Hx as (e & <- & He). apply Qf; auto.
    + apply Forall_forall. intros x Hx. apply in_rev, in_map_iff in Hx as (e & <- & He). apply Qe; auto.
Qed.
