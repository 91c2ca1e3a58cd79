(** Proofs about positions: liquidation, interest, forced liquidation. *)
From Coq Require Import String List Bool NArith ZArith Lia Permutation.
From Coq Require Import ZifyBool ZifyNat ZifyN.
From Verif Require Import Prelude PreludeFacts AccountModel AccountSpec AccountProofs TxModel TxProofs
  DexModel DexSpec DexProofs DoubleModel CdpModel CdpSpec CdpProofs CdpDouble CdpInv CdpActions.
Import ListNotations.
Open Scope N_scope.

Lemma part_bound63 junk x q k :
  x < two63 -> q < two64 -> k < two64 -> k <> 0 ->
  dlt (ddiv (of_N q) (of_N k)) (of_N 1) = true ->
  part_of junk x (ddiv (of_N q) (of_N k)) <= two63.
Proof.
  intros Hx Hq Hk Zk R. apply RN_le.
  replace (RN two63) with (Raux.bpow Zaux.radix2 63) by reflexivity.
  apply part_bound; try assumption; try (unfold two63, two64 in *; lia).
  replace (Raux.bpow Zaux.radix2 63) with (RN two63) by reflexivity. apply RN_le. lia.
Qed.

(** A position is closed with all its collateral. *)
Lemma closing_done junk e c price k :
  closing_terms junk e c price = Done k ->
  k_liquidator k + k_owner k = c_staked c /\
  (c_owed c < two64 -> k_scoins k < two64 /\ (c_owed c <= k_scoins k -> k_penalty k = k_scoins k - c_owed c)).
Proof.
  unfold closing_terms. cbv zeta. intros H. step H as u G. clear u G.
  destruct (e_param e (pair_of c) PNonReturn <? cdp_ratio junk c price).
  - step H as u G. apply asserted_done, N.leb_le in G. injection H as <-. cbn [k_liquidator k_owner k_scoins k_penalty].
    split; [lia|]. intros O. pose proof (cast_lt junk (ddiv (dmul (ddiv (dmul (of_N (c_owed c)) (of_N (e_param e (pair_of c) PNonReturn))) (of_N RATIO_BOOST)) (of_N (e_param e (pair_of c) PDiscount))) (of_N RATIO_BOOST))) as L.
    split; [exact L|]. intros X. now apply sub64_small.
  - destruct (e_param e (pair_of c) PForce <? cdp_ratio junk c price); injection H as <-;
      cbn [k_liquidator k_owner k_scoins k_penalty]; (split; [lia|]; intros O; split).
    + apply cast_lt.
    + intros X. apply sub64_small; [exact X | apply cast_lt].
    + exact O.
    + intros _. lia.
Qed.

Section Close.
  Variable junk : double -> N.
  Notation in_step := (in_step junk).
  Notation cinv := (cinv junk).

  Lemma liquidate_ok P e st t st' :
    cinv P st -> pays_debt junk e st t -> liquidate junk e st t = Done st' ->
    cinv P st' /\ uncovered st' = uncovered st.
  Proof.
    intros I Pay H. unfold liquidate in H. step H as u1 G0. clear u1 G0.
    step H as a Ga. clear Ga. step H as u1 G1. clear u1 G1.
    step H as c Gc. apply need_done in Gc. step H as u2 G2. clear u2 G2. cbv zeta in H.
    step H as u3 G3. apply guard_done, N.leb_le in G3. step H as price Pr. step H as u4 G4. clear u3 u4 G4 a.
    step H as owner Ho. apply need_done, holder_done in Ho as (Ac & Ex). step H as k Hk.
    specialize (Pay _ _ _ Gc Pr Hk).
    destruct (open_of_get junk st _ _ (proj1 (proj2 I)) Gc) as (Op & Ei & _).
    destruct (proj1 (proj2 (proj2 I)) _ _ Gc) as (Q1 & Q2 & Q3 & Q4 & Q5 & Q6).
    destruct (closing_done _ _ _ _ _ Hk) as (Ks & Kt). destruct (Kt Q5) as (Kb & Kp). clear Kt.
    destruct (staked_pledged junk P st c owner I Op Ac) as (Lp & L63).
    assert (Lq : q_scoins t < two63).
    { rewrite free_of_lbal, Q1 in G3. destruct I as ((W & _ & Su) & _). specialize (Su "WUSD"%string).
      pose proof (lbal_le_supply (ledger_of st) (q_sender t) "WUSD" BFree W). unfold ledger_of in *. lia. }
    destruct (k_scoins k <=? q_scoins t) eqn:F.
    - (* closed *)
      apply N.leb_le in F. step H as st1 H1. step H as st2 H2. injection H as <-.
      apply hand_over_money in H1; [|assumption]. apply penalty_money in H2; [|assumption].
      destruct H2 as (qp & Mp & Np & Mip & Bup).
      destruct (hand_net (q_sender t) owner (c_bcoin c) (k_scoins k) (k_liquidator k) (k_owner k)) as (Nh & Mih & Buh).
      set (hm := hand_moves (q_sender t) owner (c_bcoin c) (k_scoins k) (k_liquidator k) (k_owner k)) in *.
      pose proof (money_trans _ _ _ _ _ H1 Mp) as M. rewrite (Kp Pay) in Mip.
      assert (Mi : forall s, mints s (hm ++ qp) = (if String.eqb (c_bcoin c) s then k_liquidator k else 0) +
                     (if String.eqb "WUSD" s then k_scoins k - c_owed c else 0)) by (intros; rewrite mints_app, Mih, Mip; reflexivity).
      assert (Bu : forall s, burns s (hm ++ qp) = (if String.eqb "WUSD" s then k_scoins k else 0) +
                     (if String.eqb (c_bcoin c) s then k_liquidator k else 0)) by (intros; rewrite burns_app, Buh, Bup; lia).
      destruct (change_step junk P st (erase_cdp junk st2 c c) (hm ++ qp) (Some c) None I) as (J & S & D).
      + apply (mo_reg _ _ _ M).
      + apply (mo_ran _ _ _ M).
      + apply erased_in_step; auto.
        * eapply in_step_money; [exact M | apply I].
        * apply (open_money _ _ _ _ M), Op.
        * split; [reflexivity|]; split; reflexivity.
      + intros f. rewrite cdps_of_erased, (mo_cdps _ _ _ M). apply (sums_erased junk st c f); [apply I | exact Op].
      + intros id d. rewrite cdps_of_erased, (mo_cdps _ _ _ M), (fget_del N.eqb N_eqb_ok).
        destruct (id =? c_id c); [discriminate | auto].
      + intros d X. discriminate.
      + intros x s. rewrite net_app, Nh, Np. cbn [ov]. rewrite (weight_known st owner c x s Ac).
        destruct ((x =? owner) && String.eqb s (c_bcoin c)); lia.
      + intros s. rewrite Mi. destruct I as ((_ & _ & Su) & _). specialize (Su s). unfold ledger_of in *.
        destruct (String.eqb (c_bcoin c) s) eqn:E1; destruct (String.eqb "WUSD" s) eqn:E2.
        * apply String.eqb_eq in E1, E2. congruence.
        * clear - Ks L63 Su. unfold two63, two64 in *. lia.
        * clear - F Lq Su. unfold two63, two64 in *. lia.
        * clear - Su. unfold two63, two64 in *. lia.
      + intros s. rewrite Mi, Bu. destruct I as ((_ & _ & Su) & _). specialize (Su s). unfold ledger_of in *.
        destruct (String.eqb (c_bcoin c) s); destruct (String.eqb "WUSD" s); clear - Su; lia.
      + split; [exact J|]. specialize (S "WUSD"%string). rewrite Mi, Bu in S.
        rewrite (proj2 (String.eqb_neq _ _) Q2) in S. change (String.eqb "WUSD" "WUSD") with true in S. cbv iota in S.
        cbn [ov] in D. unfold uncovered, wusd. clear - S D Pay. lia.
    - (* a part *)
      apply N.leb_gt in F. set (rate := ddiv (of_N (q_scoins t)) (of_N (k_scoins k))) in *.
      step H as u1 Rt. apply asserted_done in Rt. clear u1.
      set (b := part_of junk (k_liquidator k) rate) in *. set (o := part_of junk (k_owner k) rate) in *.
      set (s := part_of junk (c_owed c) rate) in *.
      assert (Bb : b <= two63) by (apply part_bound63; [clear - Ks L63 | clear - Lq | exact Kb | clear - F | exact Rt]; unfold two63, two64 in *; lia).
      step H as st1 H1. step H as u1 T1. step H as u2 T2. apply asserted_done, N.ltb_lt in T1, T2. clear u1 u2.
      step H as c' Hc. unfold take_out in Hc. step Hc as u1 T3. step Hc as u2 T4. clear u1 u2 T3 T4. injection Hc as <-.
      step H as u1 T3. clear u1 T3. step H as st2 H2. unfold update_cdp in H. step H as u1 T3. clear u1 T3. injection H as <-.
      set (c' := resized c (c_height c) (c_staked c - add64 b o) (c_owed c - s)) in *.
      apply hand_over_money in H1; [|assumption]. apply penalty_money in H2; [|assumption].
      destruct H2 as (qp & Mp & Np & Mip & Bup).
      destruct (hand_net (q_sender t) owner (c_bcoin c) (q_scoins t) b o) as (Nh & Mih & Buh).
      set (hm := hand_moves (q_sender t) owner (c_bcoin c) (q_scoins t) b o) in *.
      pose proof (money_trans _ _ _ _ _ H1 Mp) as M.
      rewrite (sub64_small (q_scoins t) s) in Mip by (try exact Pay; clear - Lq; unfold two63, two64 in *; lia).
      assert (Mi : forall x, mints x (hm ++ qp) = (if String.eqb (c_bcoin c) x then b else 0) +
                     (if String.eqb "WUSD" x then q_scoins t - s else 0)) by (intros; rewrite mints_app, Mih, Mip; reflexivity).
      assert (Bu : forall x, burns x (hm ++ qp) = (if String.eqb "WUSD" x then q_scoins t else 0) +
                     (if String.eqb (c_bcoin c) x then b else 0)) by (intros; rewrite burns_app, Buh, Bup; lia).
      assert (B1 : forall x, supply (ledger_of st) x + mints x (hm ++ qp) < two64).
      { intros x. rewrite Mi. destruct I as ((_ & _ & Su) & _). specialize (Su x). unfold ledger_of in *.
        destruct (String.eqb (c_bcoin c) x) eqn:E1; destruct (String.eqb "WUSD" x) eqn:E2.
        * apply String.eqb_eq in E1, E2. congruence.
        * clear - Bb Su. unfold two63, two64 in *. lia.
        * clear - Lq Su. unfold two63, two64 in *. lia.
        * clear - Su. unfold two63, two64 in *. lia. }
      assert (Lbo : b + o < two63).
      { destruct (ran_facts _ _ _ (mo_ran _ _ _ M) (proj1 (proj1 I)) B1) as (_ & _ & Dl).
        specialize (Dl owner (c_bcoin c) BPledged). rewrite net_app, Nh, Np, N.eqb_refl, String.eqb_refl in Dl. cbn [andb] in Dl.
        destruct I as ((W & _ & Su) & _). specialize (Su (c_bcoin c)).
        pose proof (lbal_le_supply (ledger_of st) owner (c_bcoin c) BPledged W). unfold ledger_of in *.
        clear - Dl Su H. lia. }
      assert (Ebo : add64 b o = b + o) by (apply add64_small; clear - Lbo; unfold two63, two64 in *; lia).
      assert (Sl : same_slot c c') by (split; [reflexivity|]; split; reflexivity).
      destruct (change_step junk P st (updated junk st2 c c') (hm ++ qp) (Some c) (Some c') I) as (J & S & D).
      + apply (mo_reg _ _ _ M).
      + apply (mo_ran _ _ _ M).
      + apply updated_in_step; auto.
        * eapply in_step_money; [exact M | apply I].
        * apply (open_money _ _ _ _ M), Op.
      + intros f. rewrite cdps_of_updated, (mo_cdps _ _ _ M). apply (sums_updated junk st c c' f); [apply I | exact Op | reflexivity].
      + intros id d. rewrite cdps_of_updated, (mo_cdps _ _ _ M), (fget_put N.eqb N_eqb_ok).
        destruct (id =? c_id c'); auto.
      + intros d X. injection X as <-. unfold good_cdp. cbn. conj; auto; clear - Q4 Q5; lia.
      + intros x y. rewrite net_app, Nh, Np. cbn [ov]. rewrite !(weight_known st owner _ x y) by exact Ac.
        cbn [c_bcoin c_staked c' resized]. rewrite Ebo in *.
        destruct ((x =? owner) && String.eqb y (c_bcoin c)); clear - T2; lia.
      + exact B1.
      + intros x. rewrite Mi, Bu. destruct I as ((_ & _ & Su) & _). specialize (Su x). unfold ledger_of in *.
        destruct (String.eqb (c_bcoin c) x); destruct (String.eqb "WUSD" x); clear - Su; lia.
      + split; [exact J|]. specialize (S "WUSD"%string). rewrite Mi, Bu in S.
        rewrite (proj2 (String.eqb_neq _ _) Q2) in S. change (String.eqb "WUSD" "WUSD") with true in S. cbv iota in S.
        cbn [ov c_owed c' resized] in D. unfold uncovered, wusd. clear - S D Pay T1. lia.
  Qed.
End Close.

Section Settle.
  Variable junk : double -> N.
  Variable interest : (string * string) -> N -> N -> N -> N.
  Variable interest_order : N -> N -> N.
  Notation in_step := (in_step junk).
  Notation cinv := (cinv junk).
  Notation due_on := (due_on interest).

  Lemma settle_one_ok P e st txid id st' :
    cinv P st -> wusd st + due_on e st id < two63 ->
    settle_one junk interest interest_order e st txid id = Done st' ->
    cinv P st' /\ uncovered st' = uncovered st /\ wusd st' = wusd st + due_on e st id /\
    (forall x, x <> id -> fget N.eqb (c_cdps st') x = fget N.eqb (c_cdps st) x) /\
    supply (ledger_of st') "WGRT" = supply (ledger_of st) "WGRT".
  Proof.
    intros I A H. unfold settle_one in H. step H as c Gc. apply need_done in Gc. cbv zeta in H.
    step H as price Pr. step H as u1 G1. clear Pr u1 G1. step H as u1 G1. clear u1 G1.
    step H as k Hk. apply need_done, holder_done in Hk as (Ac & Ex).
    set (i := interest_of interest (pair_of c) (c_owed c) (c_height c) (e_height e)) in *.
    assert (Du : due_on e st id = i) by (unfold CdpSpec.due_on; rewrite Gc; reflexivity).
    destruct (open_of_get junk st _ _ (proj1 (proj2 I)) Gc) as (Op & Ei & _).
    destruct (proj1 (proj2 (proj2 I)) _ _ Gc) as (Q1 & Q2 & Q3 & Q4 & Q5 & Q6).
    step H as st1 H1. step H as st2 H2. apply cop_money in H1. rewrite Q1 in H1.
    apply sell_interest_money in H2; [|assumption]. destruct H2 as (qb & Mb & Sb).
    destruct (interest_net _ _ _ Sb) as (Nb & Mib & Bub). clear Sb.
    step H as c' Hc. unfold add_stake in Hc. step Hc as u1 T1. step Hc as u2 T2. apply asserted_done, N.leb_le in T1, T2.
    clear u1 u2. injection Hc as <-.
    assert (Li : i < two64) by (clear - A Du; unfold two63, two64 in *; lia).
    destruct (no_wrap _ 0 Q4 ltac:(reflexivity) T1) as (E1 & L1). destruct (no_wrap _ _ Q5 Li T2) as (E2 & L2).
    rewrite E1, E2, N.add_0_r in H. set (c' := resized c (e_height e) (c_staked c) (c_owed c + i)) in *.
    unfold update_cdp in H. step H as u1 K. clear u1 K. injection H as <-.
    pose proof (money_trans _ _ _ _ _ H1 Mb) as M.
    set (qs := [mkReq k "WUSD" AddFree i None] ++ qb) in *.
    assert (W : forall s, mints s qs = if String.eqb "WUSD" s then i else 0).
    { intros s. unfold qs. rewrite mints_app, Mib. unfold mints. cbn [map nsum mint_of q_op q_other q_symbol q_amount]. lia. }
    assert (V : forall s, burns s qs = 0) by (intros s; unfold qs; rewrite burns_app, Bub; reflexivity).
    destruct (change_step junk P st (updated junk st2 c c') qs (Some c) (Some c') I) as (J & S & D).
    - apply (mo_reg _ _ _ M).
    - apply (mo_ran _ _ _ M).
    - apply updated_in_step; auto.
      + eapply in_step_money; [exact M | apply I].
      + apply (open_money _ _ _ _ M), Op.
      + split; [reflexivity|]; split; reflexivity.
    - intros f. rewrite cdps_of_updated, (mo_cdps _ _ _ M). apply (sums_updated junk st c c' f); [apply I | exact Op | reflexivity].
    - intros x d. rewrite cdps_of_updated, (mo_cdps _ _ _ M), (fget_put N.eqb N_eqb_ok).
      destruct (x =? c_id c'); auto.
    - intros d X. injection X as <-. unfold good_cdp. cbn. conj; auto.
    - intros x y. unfold qs. rewrite net_app, Nb. cbn [ov]. rewrite !(weight_known st k _ x y) by exact Ac.
      netcalc. cbn [c_bcoin c_staked c' resized]. lia.
    - intros s. rewrite W. destruct I as ((_ & _ & Su) & _). specialize (Su s). unfold wusd, ledger_of in *.
      destruct (String.eqb "WUSD" s) eqn:E; [apply String.eqb_eq in E; subst s|]; unfold two63, two64 in *; lia.
    - intros s. rewrite W. destruct I as ((_ & _ & Su) & _). specialize (Su s). unfold wusd, ledger_of in *.
      destruct (String.eqb "WUSD" s) eqn:E; [apply String.eqb_eq in E; subst s|]; lia.
    - pose proof (S "WUSD"%string) as Sw. pose proof (S "WGRT"%string) as Sg. rewrite W, V in Sw, Sg.
      change (String.eqb "WUSD" "WUSD") with true in Sw. change (String.eqb "WUSD" "WGRT") with false in Sg. cbv iota in Sw, Sg.
      cbn [ov c_owed c' resized] in D. unfold uncovered, wusd in *. rewrite Du. conj; [exact J | | | |].
      + clear - Sw D. lia.
      + clear - Sw. lia.
      + intros x X. rewrite cdps_of_updated, (mo_cdps _ _ _ M), (fget_put N.eqb N_eqb_ok).
        change (c_id c') with (c_id c). rewrite Ei. apply N.eqb_neq in X. now rewrite X.
      + clear - Sg. lia.
  Qed.

  Lemma settle_list_fresh e st txid seen ids st' :
    settle_list junk interest interest_order e st txid seen ids = Done st' ->
    NoDup ids /\ forall x, In x ids -> ~ In x seen.
  Proof.
    revert st seen. induction ids as [|id ids IH]; intros st seen H.
    - split; [constructor | intros x []].
    - cbn [settle_list] in H. step H as u G. apply guard_done, negb_true_iff in G. step H as st1 H1.
      destruct (IH _ _ H) as (N1 & N2). split.
      + constructor; [|assumption]. intros X. apply (N2 _ X). now left.
      + intros x [->|X] Y.
        * assert (E : existsb (N.eqb x) seen = true) by (apply existsb_exists; exists x; split; [assumption | apply N.eqb_refl]). congruence.
        * apply (N2 _ X). now right.
  Qed.

  Lemma settle_list_ok P e txid : forall ids st seen st',
    cinv P st -> NoDup ids -> wusd st + nsum (map (due_on e st) ids) < two63 ->
    settle_list junk interest interest_order e st txid seen ids = Done st' ->
    cinv P st' /\ uncovered st' = uncovered st /\ wusd st' = wusd st + nsum (map (due_on e st) ids).
  Proof.
    induction ids as [|id ids IH]; intros st seen st' I Nd A H.
    - cbn [settle_list] in H. injection H as <-. cbn. conj; auto. lia.
    - cbn [settle_list] in H. step H as u G. clear u G. step H as st1 H1. cbn [map nsum] in A.
      destruct (settle_one_ok P e st txid id st1 I) as (J & U & W & F & _); [lia | exact H1 |].
      inversion Nd as [|? ? Ni Nd2]; subst.
      assert (E : map (due_on e st1) ids = map (due_on e st) ids).
      { apply map_ext_in. intros x X. unfold CdpSpec.due_on. rewrite F; [reflexivity|]. congruence. }
      destruct (IH st1 (id :: seen) st' J Nd2) as (J2 & U2 & W2); [rewrite E, W; lia | exact H |].
      cbn [map nsum]. rewrite E in W2. conj; [exact J2 | congruence | lia].
  Qed.

  Lemma settle_ok P e st txid ids st' :
    cinv P st -> wusd st + nsum (map (due_on e st) ids) < two63 ->
    settle_interest junk interest interest_order e st txid ids = Done st' ->
    cinv P st' /\ uncovered st' = uncovered st.
  Proof.
    intros I A H. unfold settle_interest in H. step H as u G. clear u G.
    destruct (settle_list_fresh _ _ _ _ _ _ H) as (Nd & _).
    destruct (settle_list_ok P e txid ids st [] st' I Nd A H) as (J & U & _). auto.
  Qed.
End Settle.
