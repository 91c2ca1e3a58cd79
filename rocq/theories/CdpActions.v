(** Proofs about positions: each action. *)
From Coq Require Import String List Bool NArith ZArith Lia Permutation.
From Coq Require Import ZifyBool ZifyNat ZifyN.
From Verif Require Import Prelude PreludeFacts AccountModel AccountSpec AccountProofs TxModel TxProofs
  DexModel DexSpec DexProofs DoubleModel CdpModel CdpSpec CdpProofs CdpDouble CdpInv.
Import ListNotations.
Open Scope N_scope.

Ltac netcalc := unfold net, net1;
  cbn [fold_right q_who q_op q_other q_symbol q_amount credited debited internal at_place bucket_eqb];
  rewrite ?andb_false_r, ?andb_true_r.

Lemma coin_sum (a b : string) (x : N) : (if String.eqb a b then x else 0) <= x.
Proof. destruct (String.eqb a b); lia. Qed.

Lemma money_book a qs1 b qs2 c :
  d_reg (c_dex b) = d_reg (c_dex a) -> ran (ledger_of a) qs1 (ledger_of b) -> money b qs2 c ->
  d_reg (c_dex c) = d_reg (c_dex a) /\ ran (ledger_of a) (qs1 ++ qs2) (ledger_of c).
Proof.
  intros R M [R2 M2 _ _ _ _ _]. split; [congruence | eapply ran_app; eassumption].
Qed.

Section Actions.
  Variable junk : double -> N.
  Variable interest : (string * string) -> N -> N -> N -> N.
  Notation in_step := (in_step junk).
  Notation cinv := (cinv junk).

  Lemma open_money st qs st' c : money st qs st' -> is_open st' c <-> is_open st c.
  Proof. intros M. unfold is_open. now rewrite (mo_cdps _ _ _ M). Qed.

  (** ** Staking *)

  Lemma stake_open P e st t st' :
    cinv P st -> allowed junk interest st (CStake e t) -> s_cdp t = 0 ->
    stake junk interest e st t = Done st' ->
    cinv P st' /\ uncovered st' = uncovered st.
  Proof.
    intros I (A1 & A2 & A3 & A4 & A5) Z H. cbn [creates fst snd] in A1, A2. unfold stake in H.
    step H as a Ga. apply need_done in Ga. step H as u1 G1. apply guard_done, negb_true_iff in G1.
    step H as u2 G2. apply guard_done in G2. step H as price Pr. step H as u3 G3. clear u1 u2 u3 G3.
    step H as st1 H1. rewrite Z, N.eqb_refl in H1. step H as st2 H2. apply cop_money in H2, H.
    unfold open_cdp in H1. step H1 as u1 K1. step H1 as u2 K2. apply guard_done, negb_true_iff in K2.
    step H1 as u3 K3. step H1 as u4 K4. clear u1 u2 u3 u4 K1 K3 K4. injection H1 as <-.
    unfold check_stake in G2. apply andb_true_iff in G2 as (C1 & C2). apply String.eqb_eq in C1.
    apply negb_true_iff, orb_false_iff in C2 as (C2 & _). apply orb_false_iff in C2 as (C2 & C3).
    apply String.eqb_neq in C2, C3. destruct (A5 Z) as (A6 & A7). clear A5.
    pose proof (sender_account st _ _ (proj1 I) Ga G1) as Ac.
    set (c := mkCdp (s_id t) (a_regid a) (e_height e) (s_asset t) (s_scoin t) (s_amount t) (s_mint t)) in *.
    assert (Is : in_step (new_cdp junk st c)).
    { apply new_in_step; [apply I | exact A7 | exact A6 |]. unfold fmem in K2.
      destruct (fget user_eqb (c_user st) (c_owner c, pair_of c)) eqn:E; [|reflexivity].
      change (c_owner c, pair_of c) with (a_regid a, (s_asset t, s_scoin t)) in E. rewrite E in K2. discriminate. }
    pose proof (money_trans _ _ _ _ _ H2 H) as M. cbn [app] in M.
    assert (W : forall s, mints s [mkReq (s_sender t) (s_asset t) Pledge (s_amount t) None;
                                   mkReq (s_sender t) (s_scoin t) AddFree (s_mint t) None] =
                          if String.eqb "WUSD" s then s_mint t else 0).
    { intros s. unfold mints. cbn [map nsum mint_of q_op q_other q_symbol q_amount]. rewrite C1. lia. }
    destruct (change_step junk P st st' _ None (Some c) I (mo_reg _ _ _ M) (mo_ran _ _ _ M)) as (J & S & D).
    - eapply in_step_money; eassumption.
    - intros f. rewrite (mo_cdps _ _ _ M). apply (sums_new junk st c f); [apply I | exact A7].
    - intros id d Gd. rewrite (mo_cdps _ _ _ M) in Gd. change (c_cdps (new_cdp junk st c)) with (fput N.eqb (c_cdps st) (c_id c) c) in Gd.
      rewrite (fget_put N.eqb N_eqb_ok) in Gd. destruct (id =? c_id c); [left; exact Gd | right; exact Gd].
    - intros d X. injection X as <-. unfold good_cdp. cbn. conj; auto. exists (s_sender t).
      split; [exact Ac|]. unfold ledger_of. congruence.
    - intros k s. cbn [ov]. rewrite (weight_known st (s_sender t) c k s Ac). netcalc. cbn [c_bcoin c_staked c].
      destruct ((k =? s_sender t) && String.eqb s (s_asset t)); lia.
    - intros s. rewrite W. destruct I as ((_ & _ & Su) & _). specialize (Su s). unfold wusd, ledger_of in *.
      destruct (String.eqb "WUSD" s) eqn:E; [apply String.eqb_eq in E; subst s|]; unfold two63, two64 in *; lia.
    - intros s. rewrite W. destruct I as ((_ & _ & Su) & _). specialize (Su s). unfold wusd, ledger_of in *.
      destruct (String.eqb "WUSD" s) eqn:E; [apply String.eqb_eq in E; subst s|]; lia.
    - split; [exact J|]. specialize (S "WUSD"%string). rewrite W in S. change (String.eqb "WUSD" "WUSD") with true in S.
      cbn [burns map nsum burn_of q_op q_other] in S. unfold uncovered, wusd.
      cbn [ov c_owed c] in D. unfold burns in S. cbn [map nsum burn_of q_op q_other] in S. lia.
  Qed.

  Lemma stake_extend P e st t st' :
    cinv P st -> allowed junk interest st (CStake e t) -> s_cdp t <> 0 ->
    stake junk interest e st t = Done st' ->
    cinv P st' /\ uncovered st' = (uncovered st + Z.of_N (gift interest st (CStake e t)))%Z.
  Proof.
    intros I (A1 & A2 & A3 & A4 & _) Z H. cbn [creates fst snd] in A1, A2. unfold stake in H.
    step H as a Ga. apply need_done in Ga. step H as u1 G1. apply guard_done, negb_true_iff in G1.
    step H as u2 G2. apply guard_done in G2. step H as price Pr. step H as u3 G3. clear u1 u2 u3 G3.
    step H as st1 H1. apply N.eqb_neq in Z. rewrite Z in H1. apply N.eqb_neq in Z. step H as st2 H2. apply cop_money in H2, H.
    unfold check_stake in G2. apply andb_true_iff in G2 as (C1 & C2). apply String.eqb_eq in C1.
    apply negb_true_iff, orb_false_iff in C2 as (C2 & _). apply orb_false_iff in C2 as (C2 & C3).
    apply String.eqb_neq in C2, C3.
    pose proof (sender_account st _ _ (proj1 I) Ga G1) as Ac.
    unfold extend_cdp in H1. step H1 as c Gc. apply need_done in Gc.
    step H1 as u1 K1. apply guard_done, String.eqb_eq in K1. step H1 as u2 K2. apply guard_done, regid_eqb_ok in K2.
    step H1 as u3 K3. cbv zeta in H1. clear u1 u2 u3 K3.
    destruct (open_of_get junk st _ _ (proj1 (proj2 I)) Gc) as (Op & Ei & _).
    destruct (proj1 (proj2 (proj2 I)) _ _ Gc) as (Q1 & Q2 & Q3 & Q4 & Q5 & Q6).
    assert (Ep : (s_asset t, s_scoin t) = pair_of c) by (unfold pair_of; congruence).
    rewrite Ep in H1.
    set (i := interest_of interest (pair_of c) (c_owed c) (c_height c) (e_height e)) in *.
    assert (Du : due_on interest e st (s_cdp t) = i) by (unfold due_on; rewrite Gc; reflexivity).
    set (own := free_of st (s_sender t) (s_scoin t)) in *.
    set (g := if e_r3 e && (own <? i) then i - own else 0) in *.
    assert (Gg : gift interest st (CStake e t) = g).
    { unfold gift. rewrite Du, (proj2 (N.eqb_neq _ _) Z). cbn [negb]. rewrite andb_true_r. unfold g.
      unfold own. rewrite free_of_lbal, C1. destruct (e_r3 e); cbn [andb]; [|reflexivity].
      destruct (N.ltb_spec (lbal (ledger_of st) (s_sender t) "WUSD" BFree) i); lia. }
    assert (Lg : g <= i) by (unfold g; destruct (e_r3 e && (own <? i)); lia).
    step H1 as sa Ha.
    assert (Ma : exists qs, money st qs sa /\ (forall k s, net qs k s BPledged = 0%Z) /\
                 (forall s, mints s qs = if String.eqb "WUSD" s then g else 0) /\ (forall s, burns s qs = 0)).
    { destruct (e_r3 e && (own <? i)) eqn:Eg.
      - apply cop_money in Ha. eexists. conj; [exact Ha | | | reflexivity].
        + intros. netcalc. reflexivity.
        + intros s. unfold mints. cbn [map nsum mint_of q_op q_other q_symbol q_amount]. rewrite C1. lia.
      - injection Ha as <-. exists []. conj; [apply money_refl | reflexivity | | reflexivity].
        intros s. unfold g. destruct (String.eqb "WUSD" s); reflexivity. }
    destruct Ma as (qa & Ma & Na & Mia & Bua).
    step H1 as u1 K4. clear u1 K4. step H1 as sb Hb.
    apply sell_interest_money in Hb; [|assumption]. destruct Hb as (qb & Mb & Sb).
    destruct (interest_net _ _ _ Sb) as (Nb & Mib & Bub). clear Sb.
    step H1 as c' Hc. unfold add_stake in Hc. step Hc as u1 T1. step Hc as u2 T2. apply asserted_done, N.leb_le in T1, T2.
    clear u1 u2. injection Hc as <-.
    destruct (no_wrap _ _ Q4 A3 T1) as (E1 & L1). destruct (no_wrap _ _ Q5 A4 T2) as (E2 & L2).
    rewrite E1, E2 in H1. set (c' := resized c (e_height e) (c_staked c + s_amount t) (c_owed c + s_mint t)) in *.
    unfold update_cdp in H1. step H1 as u1 K5. clear u1 K5. injection H1 as <-.
    pose proof (money_trans _ _ _ _ _ Ma Mb) as Mab.
    pose proof (money_trans _ _ _ _ _ H2 H) as M. cbn [app] in M.
    assert (Is : in_step (updated junk sb c c')).
    { apply updated_in_step; auto.
      - eapply in_step_money; [exact Mab | apply I].
      - apply (open_money _ _ _ _ Mab), Op.
      - split; [reflexivity|]. split; reflexivity. }
    destruct (money_book st (qa ++ qb) (updated junk sb c c') _ st' (mo_reg _ _ _ Mab) (mo_ran _ _ _ Mab) M) as (R & Rn).
    assert (W : forall s, mints s ((qa ++ qb) ++ [mkReq (s_sender t) (s_asset t) Pledge (s_amount t) None;
                                   mkReq (s_sender t) (s_scoin t) AddFree (s_mint t) None]) =
                          if String.eqb "WUSD" s then g + s_mint t else 0).
    { intros s. rewrite !mints_app, Mia, Mib. unfold mints. cbn [map nsum mint_of q_op q_other q_symbol q_amount]. rewrite C1.
      destruct (String.eqb "WUSD" s); lia. }
    assert (V : forall s, burns s ((qa ++ qb) ++ [mkReq (s_sender t) (s_asset t) Pledge (s_amount t) None;
                                   mkReq (s_sender t) (s_scoin t) AddFree (s_mint t) None]) = 0).
    { intros s. rewrite !burns_app, Bua, Bub. reflexivity. }
    assert (Cd : c_cdps st' = fput N.eqb (c_cdps st) (c_id c') c').
    { rewrite (mo_cdps _ _ _ M), cdps_of_updated, (mo_cdps _ _ _ Mab). reflexivity. }
    assert (Ac' : account_of st (c_owner c) = Some (s_sender t)) by congruence.
    destruct (change_step junk P st st' _ (Some c) (Some c') I R Rn) as (J & S & D).
    - eapply in_step_money; eassumption.
    - intros f. rewrite Cd. apply (sums_updated junk st c c' f); [apply I | exact Op | reflexivity].
    - intros id d Gd. rewrite Cd, (fget_put N.eqb N_eqb_ok) in Gd. destruct (id =? c_id c'); auto.
    - intros d X. injection X as <-. unfold good_cdp. cbn. conj; auto.
    - intros k s. cbn [ov]. rewrite !(weight_known st (s_sender t) _ k s) by exact Ac'.
      rewrite !net_app, Na, Nb. netcalc. cbn [c_bcoin c_staked c' resized]. rewrite K1.
      destruct ((k =? s_sender t) && String.eqb s (c_bcoin c)); lia.
    - intros s. rewrite W. destruct I as ((_ & _ & Su) & _). specialize (Su s). unfold wusd, ledger_of in *.
      destruct (String.eqb "WUSD" s) eqn:E; [apply String.eqb_eq in E; subst s|]; unfold two63, two64 in *; lia.
    - intros s. rewrite W. destruct I as ((_ & _ & Su) & _). specialize (Su s). unfold wusd, ledger_of in *.
      destruct (String.eqb "WUSD" s) eqn:E; [apply String.eqb_eq in E; subst s|]; lia.
    - split; [exact J|]. specialize (S "WUSD"%string). rewrite W, V in S. change (String.eqb "WUSD" "WUSD") with true in S.
      cbn [ov c_owed c' resized] in D. unfold uncovered, wusd. rewrite Gg. cbv iota in S. clear - S D. lia.
  Qed.

  (** ** Redeeming *)

  Lemma redeem_ok P e st t st' :
    cinv P st -> redeem junk interest e st t = Done st' ->
    cinv P st' /\ uncovered st' = uncovered st.
  Proof.
    intros I H. unfold redeem in H. step H as u1 G0. clear u1 G0.
    step H as a Ga. apply need_done in Ga. step H as u1 G1. apply guard_done, negb_true_iff in G1.
    step H as c Gc. apply need_done in Gc. step H as u2 G2. apply guard_done, String.eqb_eq in G2.
    step H as u3 G3. apply guard_done, regid_eqb_ok in G3. cbv zeta in H. step H as price Pr. step H as u4 G4.
    step H as u5 G5. step H as st1 H1. step H as u6 G6. clear u1 u2 u3 u4 u5 u6 G4 G5 G6 Pr.
    pose proof (sender_account st _ _ (proj1 I) Ga G1) as Ac. rewrite G3 in Ac.
    destruct (open_of_get junk st _ _ (proj1 (proj2 I)) Gc) as (Op & Ei & _).
    destruct (proj1 (proj2 (proj2 I)) _ _ Gc) as (Q1 & Q2 & Q3 & Q4 & Q5 & Q6).
    apply sell_interest_money in H1; [|assumption]. destruct H1 as (qa & Ma & Sa).
    destruct (interest_net _ _ _ Sa) as (Na & Mia & Bua). clear Sa.
    set (b := N.min (r_assets t) (c_staked c)) in *. set (s := N.min (r_repay t) (c_owed c)) in *.
    assert (Lb : b <= c_staked c) by (unfold b; lia). assert (Ls : s <= c_owed c) by (unfold s; lia).
    step H as c' Hc. unfold take_out in Hc. step Hc as u1 T1. step Hc as u2 T2. clear u1 u2 T1 T2. injection Hc as <-.
    set (c' := resized c (e_height e) (c_staked c - b) (c_owed c - s)) in *.
    step H as st2 H2. step H as st3 H3. apply cop_money in H3, H.
    pose proof (money_trans _ _ _ _ _ H3 H) as M. cbn [app] in M. rewrite Q1 in M.
    assert (Book : in_step st2 /\ c_dex st2 = c_dex st1 /\
       exists new, (forall f, msum f (c_cdps st2) + ov f (Some c) = msum f (c_cdps st) + ov f new) /\
         (forall id d, fget N.eqb (c_cdps st2) id = Some d -> new = Some d \/ fget N.eqb (c_cdps st) id = Some d) /\
         (new = Some c' \/ (new = None /\ c_staked c' = 0 /\ c_owed c' = 0))).
    { assert (In1 : in_step st1) by (eapply in_step_money; [exact Ma | apply I]).
      assert (Op1 : is_open st1 c) by (apply (open_money _ _ _ _ Ma), Op).
      assert (Sl : same_slot c c') by (split; [reflexivity|]; split; reflexivity).
      destruct ((c_owed c' =? 0) && (c_staked c' =? 0)) eqn:E.
      - injection H2 as <-. split; [apply erased_in_step; auto|]. split; [reflexivity|]. exists None. conj.
        + intros f. rewrite cdps_of_erased, (mo_cdps _ _ _ Ma). apply (sums_erased junk st c f); [apply I | exact Op].
        + intros id d. rewrite cdps_of_erased, (mo_cdps _ _ _ Ma), (fget_del N.eqb N_eqb_ok).
          destruct (id =? c_id c'); [discriminate | auto].
        + right. apply andb_true_iff in E as (E1 & E2). apply N.eqb_eq in E1, E2. auto.
      - step H2 as u1 K. clear u1 K. unfold update_cdp in H2. step H2 as u1 K. clear u1 K. injection H2 as <-.
        split; [apply updated_in_step; auto|]. split; [reflexivity|]. exists (Some c'). conj; [| |auto].
        + intros f. rewrite cdps_of_updated, (mo_cdps _ _ _ Ma). apply (sums_updated junk st c c' f); [apply I | exact Op | reflexivity].
        + intros id d. rewrite cdps_of_updated, (mo_cdps _ _ _ Ma), (fget_put N.eqb N_eqb_ok).
          destruct (id =? c_id c'); auto. }
    destruct Book as (Is & Dx & new & Ms & Gs & Nw). clear H2.
    assert (R2 : d_reg (c_dex st2) = d_reg (c_dex st)) by (rewrite Dx; apply (mo_reg _ _ _ Ma)).
    assert (Rn2 : ran (ledger_of st) qa (ledger_of st2)) by (unfold ledger_of; rewrite Dx; apply (mo_ran _ _ _ Ma)).
    destruct (money_book st qa st2 _ st' R2 Rn2 M) as (R & Rn).
    assert (W : forall x, mints x (qa ++ [mkReq (r_sender t) "WUSD" SubFree s None;
                                          mkReq (r_sender t) (c_bcoin c) Unpledge b None]) = 0).
    { intros x. rewrite mints_app, Mia. reflexivity. }
    assert (V : burns "WUSD" (qa ++ [mkReq (r_sender t) "WUSD" SubFree s None;
                                     mkReq (r_sender t) (c_bcoin c) Unpledge b None]) = s).
    { rewrite burns_app, Bua. unfold burns. cbn [map nsum burn_of q_op q_other q_symbol q_amount].
      change (String.eqb "WUSD" "WUSD") with true. cbv iota. lia. }
    destruct (change_step junk P st st' _ (Some c) new I R Rn) as (J & S & D).
    - eapply in_step_money; eassumption.
    - intros f. rewrite (mo_cdps _ _ _ M). apply Ms.
    - intros id d Gd. rewrite (mo_cdps _ _ _ M) in Gd. apply Gs, Gd.
    - intros d X. destruct Nw as [Nw|(Nw & _)]; [|congruence]. assert (d = c') by congruence. subst d.
      unfold good_cdp. cbn. conj; auto; lia.
    - intros k x. rewrite net_app, Na. netcalc.
      assert (Wn : ov (weight st k x) new = if (k =? r_sender t) && String.eqb x (c_bcoin c) then c_staked c - b else 0).
      { destruct Nw as [->|(-> & Z1 & _)]; cbn [ov].
        - apply (weight_known st (r_sender t) c' k x Ac).
        - cbn [c_staked c' resized] in Z1. destruct ((k =? r_sender t) && String.eqb x (c_bcoin c)); lia. }
      rewrite Wn. cbn [ov]. rewrite (weight_known st (r_sender t) c k x Ac).
      destruct ((k =? r_sender t) && String.eqb x (c_bcoin c)); lia.
    - intros x. rewrite W. destruct I as ((_ & _ & Su) & _). specialize (Su x). unfold ledger_of in *.
      unfold two63, two64 in *; lia.
    - intros x. rewrite W. destruct I as ((_ & _ & Su) & _). specialize (Su x). unfold ledger_of in *. lia.
    - split; [exact J|]. specialize (S "WUSD"%string). rewrite W, V in S.
      assert (On : ov c_owed new = c_owed c - s).
      { destruct Nw as [->|(-> & _ & Z2)]; cbn [ov]; [reflexivity|]. cbn [c_owed c' resized] in Z2. lia. }
      rewrite On in D. cbn [ov] in D. unfold uncovered, wusd. clear - S D Ls. lia.
  Qed.
End Actions.
