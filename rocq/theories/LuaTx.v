(** Proofs about the whole transaction that calls a Lua contract (C80). *)
From Coq Require Import String List Bool NArith ZArith Lia.
From Coq Require Import ZifyBool ZifyNat ZifyN.
From Verif Require Import Prelude PreludeFacts AccountModel AccountSpec AccountProofs TxModel TxSpec
  TxProofs DexModel LuaModel LuaSpec LuaProofs.
Import ListNotations.
Open Scope N_scope.
Ltac Zify.zify_post_hook ::= Z.div_mod_to_equations.

Section LuaTx.
  Variable pk_keyid : N -> N.
  Variable addr_of : N -> list N.
  Variable key_of : list N -> N.
  Notation tinv := (tinv pk_keyid).
  Notation moved := (moved pk_keyid).
  Notation kept := (kept pk_keyid).

  Lemma register_acc st k p h i : t_acc (register_account st k p h i) = t_acc st.
  Proof. unfold register_account. destruct (fget N.eqb (t_mem st) k); reflexivity. Qed.

  Lemma register_nokey st k p h i : nokey st -> nokey (register_account st k p h i).
  Proof.
    intros [A B]. split; [rewrite register_acc; auto|]. unfold register_account.
    destruct (fget N.eqb (t_mem st) k) eqn:E; [|exact B]. cbn [t_mem]. unfold l_get in *.
    rewrite (fget_put N.eqb N_eqb_ok). destruct (0 =? k) eqn:E0; [|exact B].
    apply N.eqb_eq in E0. subst k. congruence.
  Qed.

  Lemma open_tx_ok h i u fs fee st k st4 :
    consistent pk_keyid (t_acc st) (t_reg st) -> NoDup (map fst (t_orders st)) ->
    (forall s, supply (t_acc st) s < two64) ->
    fget regid_eqb (t_reg st) (h, i) = None ->
    open_tx pk_keyid h i u fs fee st = Some (k, st4) ->
    tinv st4 /\ l_get (t_mem st4) k <> None /\ denotes pk_keyid (t_reg st) u = Some k /\
    t_acc st4 = t_acc st /\ t_orders st4 = t_orders st /\
    (forall r k, fget regid_eqb (t_reg st) r = Some k -> fget regid_eqb (t_reg st4) r = Some k) /\
    (forall s, supply (commit st4) s + fee_in fs fee s = supply (t_acc st) s) /\
    (forall k' s b, Z.of_N (lbal (commit st4) k' s b) = (Z.of_N (lbal (t_acc st) k' s b)
       - Z.of_N (at_place (Some (k, BFree)) fs fee k' s b))%Z) /\
    (l_get (t_acc st) 0 = None -> nokey st4 /\ k <> 0).
  Proof.
    intros [W G] No Hs Hfr H. unfold open_tx in H.
    set (st0 := mkTx (t_acc st) (t_reg st) [] None (t_orders st)) in H.
    assert (T0 : tinv st0).
    { constructor; simpl; auto. split; [constructor | discriminate]. discriminate. }
    destruct (get_account pk_keyid st0 u) as [[k1|] st1] eqn:G1; [|discriminate].
    destruct (get_account_kept _ _ _ _ _ T0 G1) as (K1 & V1 & M1 & D1).
    assert (Z1 : l_get (t_acc st) 0 = None -> nokey st1 /\ k1 <> 0).
    { intros Hz. destruct (get_account_nokey pk_keyid st0 u _ _ (conj Hz eq_refl) G1) as [A B].
      split; auto. congruence. }
    set (st2 := mkTx (t_acc st1) (t_reg st1) (t_mem st1) (Some k1) (t_orders st1)) in H.
    assert (T1 : tinv st1) by apply K1.
    assert (T2 : tinv st2) by (destruct T1; constructor; auto).
    assert (V2 : moved st1 st2 zero3 0).
    { apply same_lbal_moved; auto. }
    match type of H with context [if 0 <? fee then m_operate ?X _ _ _ _ _ else _] => set (st3 := X) in H end.
    assert (Hr1 : t_reg st1 = t_reg st) by apply K1.
    assert (Ha1 : t_acc st1 = t_acc st) by apply K1.
    assert (Ho1 : t_orders st1 = t_orders st) by apply K1.
    assert (V3 : moved st2 st3 zero3 0 /\ t_acc st3 = t_acc st /\ t_orders st3 = t_orders st /\
                 (nokey st2 -> nokey st3)).
    { subst st3. assert (Same : moved st2 st2 zero3 0 /\ t_acc st2 = t_acc st /\ t_orders st2 = t_orders st /\
                 (nokey st2 -> nokey st2)) by (split; [apply moved_refl; auto|auto]).
      destruct u as [r|k2|p|]; try exact Same.
      destruct (match fget N.eqb (t_mem st2) k1 with Some a => _ | None => _ end) eqn:E; [exact Same|].
      destruct (fget N.eqb (t_mem st2) k1) as [a|] eqn:Ea; [|exfalso; apply M1; exact Ea].
      apply negb_false_iff in E. simpl in D1. inversion D1 as [D1'].
      destruct (register_ok pk_keyid st2 k1 p h i a T2 Ea E D1') as (T3 & B3 & O3 & R3 & M3).
      { simpl. rewrite Hr1. auto. }
      rewrite D1' in *. split; [apply same_lbal_moved; auto|]. rewrite register_acc.
      split; [exact Ha1|]. split; [rewrite O3; exact Ho1|]. apply register_nokey. }
    destruct V3 as (V3 & Ha3 & Ho3 & N3).
    pose proof (moved_trans _ _ _ _ _ _ _ _ _ _ V1 V2 (fun _ _ _ => eq_refl) eq_refl) as W2.
    pose proof (moved_trans _ _ _ _ _ _ _ _ _ _ W2 V3 (fun _ _ _ => eq_refl) eq_refl) as W3.
    assert (T3 : tinv st3) by apply V3.
    assert (M3 : l_get (t_mem st3) k1 <> None) by (apply (mv_mem _ _ _ _ _ V3); exact M1).
    assert (C0 : commit st0 = t_acc st) by reflexivity.
    assert (B3 : forall k' s b, lbal (commit st3) k' s b = lbal (t_acc st) k' s b).
    { intros. pose proof (mv_bal _ _ _ _ _ W3 k' s b) as X. unfold zero3 in X. rewrite C0 in X. lia. }
    assert (S3 : forall s, supply (commit st3) s = supply (t_acc st) s).
    { intros. rewrite (mv_supply _ _ _ _ _ W3). now rewrite C0. }
    assert (R3 : forall r k, fget regid_eqb (t_reg st) r = Some k -> fget regid_eqb (t_reg st3) r = Some k)
      by (intros r k0 X; apply (mv_reg _ _ _ _ _ W3); exact X).
    assert (N4 : l_get (t_acc st) 0 = None -> nokey st3 /\ k1 <> 0).
    { intros Hz. destruct (Z1 Hz) as [A B]. split; auto. }
    destruct (0 <? fee) eqn:E0.
    - destruct (m_operate st3 k1 fs SubFree fee None) as [[|] st5] eqn:Hc; [|discriminate].
      inversion H; subst k1 st5; clear H.
      assert (HN : forall k0 : N, None = Some k0 -> l_get (t_mem st3) k0 <> None) by discriminate.
      pose proof (m_operate_kept _ _ _ _ _ _ _ _ _ T3 M3 HN Hc) as K4.
      destruct (m_operate_delta pk_keyid st3 k fs SubFree fee None st4 T3 M3 HN Hc) as (T4 & R4 & O4 & K5 & M4 & S4 & B4).
      { cbn [mint_of q_op]. rewrite S3. specialize (Hs fs). lia. }
      split; auto. split; auto. split; auto. split; [rewrite (kp_acc _ _ _ K4); auto|].
      split; [congruence|]. split; [rewrite R4; auto|]. split; [|split].
      + intros s. specialize (S4 s). unfold burn_of, mint_of in S4. cbn [q_op q_other q_symbol q_amount] in S4.
        unfold fee_in. rewrite <- S3. lia.
      + intros. rewrite B4, B3. cbn [debited credited]. rewrite at_none. lia.
      + intros Hz. destruct (N4 Hz) as [A B]. split; auto. exact (m_operate_nokey _ _ _ _ _ _ _ _ _ T3 A Hc).
    - inversion H; subst k1 st4; clear H. assert (fee = 0) by lia. subst fee.
      split; auto. split; auto. split; auto. split; auto. split; auto. split; auto. split; [|split; auto].
      + intros s. rewrite S3. unfold fee_in. destruct (String.eqb fs s); lia.
      + intros. rewrite B3. unfold at_place. destruct (_ && _); lia.
  Qed.

  Lemma filter_get (m : list (N * account)) k :
    fget N.eqb (filter (fun ka : N * account => negb (fst ka =? 0)) m) k =
    if k =? 0 then None else fget N.eqb m k.
  Proof.
    induction m as [|[k0 a0] m IH]; [simpl; now destruct (k =? 0)|].
    cbn [filter fst]. destruct (k0 =? 0) eqn:E0; cbn [negb fget].
    - rewrite IH. destruct (k =? 0) eqn:E; [reflexivity|]. destruct (k =? k0) eqn:E1; [lia|reflexivity].
    - rewrite IH. destruct (k =? k0) eqn:E1; [|reflexivity]. destruct (k =? 0) eqn:E; [lia|reflexivity].
  Qed.

  Lemma filter_nodup (f : N * account -> bool) m : NoDup (map fst m) -> NoDup (map fst (filter f m)).
  Proof.
    induction m as [|x m IH]; [auto|]. cbn [map filter]. intros H; inversion H; subst.
    destruct (f x); [|auto]. cbn [map]. constructor; auto. intros X. apply H2.
    apply in_map_iff in X as (y & Hy & Hi). apply filter_In in Hi as [Hi _]. rewrite <- Hy. apply in_map; auto.
  Qed.

  Lemma close_tx_ok st :
    tinv st -> l_get (t_acc st) 0 = None ->
    let st' := close_tx st in
    consistent pk_keyid (t_acc st') (t_reg st') /\ t_orders st' = t_orders st /\
    (forall r, fget regid_eqb (t_reg st') r = fget regid_eqb (t_reg st) r) /\
    l_get (t_acc st') 0 = None /\
    (forall k s b, lbal (t_acc st') k s b = if k =? 0 then 0 else lbal (commit st) k s b) /\
    (forall s, supply (t_acc st') s <= supply (commit st) s) /\
    (nokey st -> forall s, supply (t_acc st') s = supply (commit st) s).
  Proof.
    intros T Hz. cbv zeta. unfold close_tx.
    set (m := filter _ (t_mem st)).
    destruct (save_all (t_acc st) (t_reg st) m) as [acc reg] eqn:Sv. cbn [t_acc t_reg t_orders].
    assert (Nm : NoDup (map fst m)) by (apply filter_nodup, (ti_mem _ _ T)).
    assert (Hin : forall k a, In (k, a) m -> a_keyid a = k /\ (regid_empty (a_regid a) = false -> fget regid_eqb (t_reg st) (a_regid a) = Some k)).
    { intros k0 a0 H0. apply filter_In in H0 as [H0 _]. apply (in_fget N.eqb N_eqb_ok) in H0; [|apply T]. split.
      - apply (ti_mem _ st T); auto.
      - apply (ti_good_mem _ st T); auto. }
    assert (Ha : acc = fold_left (fun L (ka : N * account) => l_put L (fst ka) (snd ka)) m (t_acc st))
      by (eapply save_all_ok; [|exact Sv]; intros; apply Hin; auto).
    pose proof (save_all_reg _ _ _ _ _ Hin Sv) as Hreg.
    assert (Wa : ledger_wf acc).
    { subst acc. apply fold_put_wf; [apply T|]. intros; apply Hin; auto. }
    assert (Ga : forall k, l_get acc k = if k =? 0 then None else l_get (commit st) k).
    { intros k. subst acc. rewrite fold_put_get by auto. unfold m. rewrite filter_get.
      rewrite (commit_get _ _ _ T). destruct (k =? 0) eqn:E; [apply N.eqb_eq in E; subst; auto|].
      reflexivity. }
    assert (Gc : forall k a, l_get (commit st) k = Some a -> good_account pk_keyid (t_reg st) k a).
    { intros k a H. rewrite (commit_get _ _ _ T) in H. destruct (l_get (t_mem st) k) eqn:Em.
      - inversion H; subst. apply (ti_good_mem _ st T); auto.
      - apply (ti_good_acc _ st T); auto. }
    assert (Ba : forall k s b, lbal acc k s b = if k =? 0 then 0 else lbal (commit st) k s b).
    { intros. unfold lbal. rewrite Ga. destruct (k =? 0); reflexivity. }
    assert (Wc : ledger_wf (commit st)) by (eapply commit_wf; eauto).
    split. { split; auto. intros k a. rewrite Ga. destruct (k =? 0); [discriminate|]. intros H.
             destruct (Gc _ _ H) as [A B]. split; auto. intros Hn. rewrite Hreg. auto. }
    split; auto. split; auto. split. { rewrite Ga. reflexivity. } split; auto.
    assert (Eq : l_get (t_mem st) 0 = None -> forall s, supply acc s = supply (commit st) s).
    { intros Hm s. apply holding_supply; auto. intros k b. rewrite Ba. destruct (k =? 0) eqn:E; [|reflexivity].
      apply N.eqb_eq in E; subst. unfold lbal. rewrite (commit_get _ _ _ T), Hm, Hz. reflexivity. }
    split.
    - intros s. destruct (l_get (t_mem st) 0) as [a0|] eqn:Em.
      + assert (W0 : ledger_wf (l_put acc 0 a0)) by (apply lput_wf; auto; apply (ti_mem _ st T); auto).
        assert (Lq : leq (l_put acc 0 a0) (commit st)).
        { intros k. rewrite lget_put, Ga. destruct (k =? 0) eqn:E; [|reflexivity].
          apply N.eqb_eq in E; subst. now rewrite (commit_get _ _ _ T), Em. }
        rewrite <- (leq_supply _ _ s W0 Wc Lq). rewrite supply_put_new; auto; [lia|]. rewrite Ga. reflexivity.
      + rewrite Eq; auto. lia.
    - intros [_ Hm]. auto.
  Qed.

  (** What the call as a whole does to balances; [k] is the sender and [c] the contract. *)
  Lemma invoke_tx_ok h idx e i sc P st st' P' :
    consistent pk_keyid (t_acc st) (t_reg st) -> NoDup (map fst (t_orders st)) ->
    l_get (t_acc st) 0 = None ->
    (forall s, supply (t_acc st) s < two64) ->
    fget regid_eqb (t_reg st) (h, idx) = None ->
    i_fuel i <= i_fee i ->
    invoke_tx pk_keyid addr_of key_of h idx e i sc P st = Done (st', P') ->
    consistent pk_keyid (t_acc st') (t_reg st') /\ l_get (t_acc st') 0 = None /\
    t_orders st' = t_orders st /\
    (forall r k, fget regid_eqb (t_reg st) r = Some k -> fget regid_eqb (t_reg st') r = Some k) /\
    (forall s, supply (t_acc st') s + fee_in (i_fee_symbol i) (i_fee i) s <= supply (t_acc st) s + reserved i s) /\
    (forallb addressed (s_calls sc) = true -> forall s,
       supply (t_acc st') s + fee_in (i_fee_symbol i) (i_fee i) s = supply (t_acc st) s + reserved i s) /\
    exists k c, denotes pk_keyid (t_reg st) (i_uid i) = Some k /\
      denotes pk_keyid (t_reg st') (UReg (i_app i)) = Some c /\
      (forall k0 s b, b <> BFree -> lbal (t_acc st') k0 s b = lbal (t_acc st) k0 s b) /\
      (forall k0 s, k0 <> k -> k0 <> c -> lbal (t_acc st) k0 s BFree <= lbal (t_acc st') k0 s BFree) /\
      (existsb charges (s_calls sc) = false -> k <> c -> forall s,
         lbal (t_acc st) k s BFree <= lbal (t_acc st') k s BFree
           + fee_in (i_fee_symbol i) (i_fee i) s + fee_in (n_symbol e) (n_amount e) s) /\
      (existsb drains (s_calls sc) = false -> k <> c ->
         lbal (t_acc st) c WICC BFree + fee_in (n_symbol e) (n_amount e) WICC <=
         lbal (t_acc st') c WICC BFree + withdrawn (s_calls sc)).
  Proof.
    intros Co No Hz Hs Hfr Hfu H. unfold invoke_tx in H.
    destruct (open_tx pk_keyid h idx (i_uid i) (i_fee_symbol i) (i_fee i) st) as [[k st4]|] eqn:Eo; [|discriminate].
    cbn [need bind] in H.
    destruct (open_tx_ok _ _ _ _ _ _ _ _ Co No Hs Hfr Eo) as (T4 & M4 & Dk & A4 & O4 & R4 & S4 & B4 & Z4).
    destruct (Z4 Hz) as [K4 Hk0].
    destruct (invoke_body pk_keyid addr_of key_of e i sc P k st4) as [[st5 P5]| | |] eqn:Eb; try discriminate.
    cbn [bind] in H. inversion H; subst st' P5; clear H. unfold invoke_body in Eb.
    destruct (get_account pk_keyid st4 (UReg (i_app i))) as [[c|] st6] eqn:Gc; [|discriminate].
    destruct (get_account_kept _ _ _ _ _ T4 Gc) as (K6 & V6 & M6 & D6).
    destruct (get_account_nokey pk_keyid _ _ _ _ K4 Gc) as [N6 Hc0'].
    assert (Hc0 : c <> 0) by congruence.
    assert (T6 : tinv st6) by apply K6.
    assert (Mk6 : l_get (t_mem st6) k <> None) by (apply K6; auto).
    assert (Hb4 : forall s, supply (commit st4) s < two64) by (intros s; specialize (S4 s); specialize (Hs s); lia).
    assert (Hb6 : forall s, supply (commit st6) s < two64) by (intros s; rewrite (mv_supply _ _ _ _ _ V6); auto).
    set (mv := if i_universal i || (0 <? n_amount e) then _ else _) in Eb.
    assert (X : forall st7, mv = (true, st7) -> kept st6 st7 /\ nokey st7 /\ moved st6 st7
       (fun k0 s b => Z.of_N (at_place (Some (c, BFree)) (n_symbol e) (n_amount e) k0 s b)
                      - Z.of_N (at_place (Some (k, BFree)) (n_symbol e) (n_amount e) k0 s b))%Z 0).
    { intros st7. unfold mv. destruct (i_universal i || (0 <? n_amount e)) eqn:Eu.
      - intros Hm. assert (Ho : forall k0, Some c = Some k0 -> l_get (t_mem st6) k0 <> None) by (intros k0 E; inversion E; subst; auto).
        split; [exact (m_operate_kept _ _ _ _ _ _ _ _ _ T6 Mk6 Ho Hm)|]. split; [exact (m_operate_nokey _ _ _ _ _ _ _ _ _ T6 N6 Hm)|].
        exact (m_operate_moved pk_keyid st6 k (n_symbol e) SubFree (n_amount e) (Some c) st7 T6 Mk6 Ho Hm
          eq_refl (fun _ => eq_refl) (Hb6 _)).
      - intros Hm; inversion Hm; subst st7. split; [apply kept_refl; auto|]. split; auto.
        eapply moved_ext; [apply moved_refl; auto| |reflexivity].
        apply orb_false_iff in Eu as [_ Eu]. assert (E0 : n_amount e = 0) by lia. rewrite E0.
        intros k0 s b. unfold zero3, at_place. repeat match goal with |- context [if ?b then _ else _] => destruct b end; lia. }
    destruct mv as [[|] st7]; [|discriminate]. destruct (X _ eq_refl) as (K7 & N7 & V7). clear X.
    assert (T7 : tinv st7) by apply K7.
    destruct (execute_contract pk_keyid addr_of key_of k c e P sc st7) as [[st8 P8]| | |] eqn:Ex; try discriminate.
    cbn [bind] in Eb.
    assert (Hb7 : forall s, supply (commit st7) s < two64) by (intros s; rewrite (mv_supply _ _ _ _ _ V7); auto).
    destruct (execute_contract_ok _ _ _ _ _ _ _ _ _ _ _ T7 (kp_mem _ _ _ K7 _ Mk6) (kp_mem _ _ _ K7 _ M6) Hb7 Ex)
      as (K8 & N8 & D8 & burnt & S8 & Bu8 & B8 & F8 & Q8 & C8).
    assert (T8 : tinv st8) by apply K8.
    assert (B7 : forall k0 s b, Z.of_N (lbal (commit st7) k0 s b) = (Z.of_N (lbal (t_acc st) k0 s b)
       - Z.of_N (at_place (Some (k, BFree)) (i_fee_symbol i) (i_fee i) k0 s b)
       + Z.of_N (at_place (Some (c, BFree)) (n_symbol e) (n_amount e) k0 s b)
       - Z.of_N (at_place (Some (k, BFree)) (n_symbol e) (n_amount e) k0 s b))%Z).
    { intros k0 s b. rewrite (mv_bal _ _ _ _ _ V7), (mv_bal _ _ _ _ _ V6), B4. unfold zero3. lia. }
    assert (S7 : forall s, supply (commit st7) s + fee_in (i_fee_symbol i) (i_fee i) s = supply (t_acc st) s).
    { intros s. rewrite (mv_supply _ _ _ _ _ V7), (mv_supply _ _ _ _ _ V6). auto. }
    (* the reserve *)
    assert (R5 : P8 = P' /\ kept st8 st5 /\ (nokey st8 -> nokey st5) /\
      (forall s, supply (commit st5) s = supply (commit st8) s + reserved i s) /\
      exists E, (forall k0 s b, Z.of_N (lbal (commit st5) k0 s b) = (Z.of_N (lbal (commit st8) k0 s b) + E k0 s b)%Z) /\
         (forall k0 s b, (0 <= E k0 s b)%Z) /\ (forall k0 s b, b <> BFree -> E k0 s b = 0%Z)).
    { destruct (i_universal i && String.eqb (i_fee_symbol i) WUSD) eqn:Eu.
      - destruct (get_account pk_keyid st8 (UReg (i_reserve i))) as [[f|] st9] eqn:Gf; [|discriminate].
        destruct (get_account_kept _ _ _ _ _ T8 Gf) as (K9 & V9 & M9 & _).
        assert (T9 : tinv st9) by apply K9.
        destruct (m_operate st9 f WUSD AddFree (i_fuel i) None) as [[|] st10] eqn:Em; [|discriminate].
        inversion Eb; subst st10 P8; clear Eb. split; auto.
        assert (HN : forall k0 : N, None = Some k0 -> l_get (t_mem st9) k0 <> None) by discriminate.
        pose proof (m_operate_kept _ _ _ _ _ _ _ _ _ T9 M9 HN Em) as K10.
        apply andb_true_iff in Eu as [Eu1 Eu2].
        destruct (m_operate_delta pk_keyid st9 f WUSD AddFree (i_fuel i) None st5 T9 M9 HN Em) as (_ & _ & _ & _ & _ & S10 & B10).
        { rewrite (mv_supply _ _ _ _ _ V9). specialize (S8 WUSD). specialize (S7 WUSD). specialize (Hs WUSD).
          unfold fee_in in S7. rewrite Eu2 in S7. unfold mint_of. cbn [q_op q_other q_symbol q_amount].
          rewrite String.eqb_refl. clear - S8 S7 Hs Hfu. lia. }
        split; [eapply kept_trans; eauto|]. split.
        { intros Hn. eapply m_operate_nokey; [exact T9| |exact Em]. exact (proj1 (get_account_nokey _ _ _ _ _ Hn Gf)). }
        split.
        { intros s. specialize (S10 s). unfold burn_of, mint_of in S10. cbn [q_op q_other q_symbol q_amount] in S10.
          rewrite (mv_supply _ _ _ _ _ V9) in S10. unfold reserved. change "WUSD"%string with WUSD. rewrite Eu1, Eu2.
          cbn [andb]. rewrite (String.eqb_sym s WUSD). lia. }
        exists (fun k0 s b => Z.of_N (at_place (Some (f, BFree)) WUSD (i_fuel i) k0 s b)). split; [|split].
        + intros k0 s b. rewrite B10, (mv_bal _ _ _ _ _ V9). cbn [debited credited]. rewrite at_none. unfold zero3. lia.
        + intros. lia.
        + intros k0 s b Hn. unfold at_place. replace (bucket_eqb b BFree) with false by (destruct b; auto; congruence).
          now rewrite !andb_false_r.
      - inversion Eb; subst st8 P8. split; auto. split; [apply kept_refl; auto|]. split; auto. split.
        { intros s. unfold reserved. change "WUSD"%string with WUSD. rewrite Eu. cbn [andb]. lia. }
        exists zero3. unfold zero3. split; [intros; lia|]. split; intros; lia. }
    destruct R5 as (-> & K5 & N5 & S5 & E & B5 & E1 & E2).
    pose proof (kept_trans _ _ _ _ K6 K7) as K67. pose proof (kept_trans _ _ _ _ K67 K8) as K68.
    pose proof (kept_trans _ _ _ _ K68 K5) as K65.
    assert (T5 : tinv st5) by apply K5.
    assert (Hz5 : l_get (t_acc st5) 0 = None) by (rewrite (kp_acc _ _ _ K65), A4; auto).
    destruct (close_tx_ok st5 T5 Hz5) as (C1 & C2 & C3 & C4 & C5 & C6 & C7). cbv zeta in *.
    set (st' := close_tx st5) in *.
    assert (Rg : t_reg st5 = t_reg st4) by (apply K65).
    assert (Bal : forall k0 s b, k0 <> 0 -> Z.of_N (lbal (t_acc st') k0 s b) = (Z.of_N (lbal (t_acc st) k0 s b)
       - Z.of_N (at_place (Some (k, BFree)) (i_fee_symbol i) (i_fee i) k0 s b)
       + Z.of_N (at_place (Some (c, BFree)) (n_symbol e) (n_amount e) k0 s b)
       - Z.of_N (at_place (Some (k, BFree)) (n_symbol e) (n_amount e) k0 s b) + D8 k0 s b + E k0 s b)%Z).
    { intros k0 s b Hn. rewrite C5. replace (k0 =? 0) with false by (symmetry; apply N.eqb_neq; auto).
      rewrite B5, B8, B7. lia. }
    assert (Bal0 : forall s b, lbal (t_acc st') 0 s b = 0 /\ lbal (t_acc st) 0 s b = 0).
    { intros s b. split; [apply (C5 0)|]. unfold lbal. now rewrite Hz. }
    split; auto. split; auto. split; [rewrite C2, (kp_orders _ _ _ K65); auto|].
    split. { intros r k0 Hr. rewrite C3, Rg. auto. }
    split. { intros s. specialize (C6 s). specialize (S5 s). specialize (S8 s). specialize (S7 s). lia. }
    split. { intros Ha s. rewrite C7 by auto. specialize (S5 s). specialize (S8 s). specialize (S7 s).
             rewrite (Bu8 Ha s) in S8. lia. }
    assert (Np : forall kk s1 v k0 s b, b <> BFree -> at_place (Some (kk, BFree)) s1 v k0 s b = 0).
    { intros kk s1 v k0 s b Hn. unfold at_place. replace (bucket_eqb b BFree) with false by (destruct b; auto; congruence).
      now rewrite !andb_false_r. }
    assert (Nk : forall kk s1 v k0 s b, k0 <> kk -> at_place (Some (kk, BFree)) s1 v k0 s b = 0).
    { intros kk s1 v k0 s b Hn. unfold at_place. apply N.eqb_neq in Hn. now rewrite Hn. }
    assert (Sk : forall kk s1 v s, at_place (Some (kk, BFree)) s1 v kk s BFree = fee_in s1 v s).
    { intros kk s1 v s. unfold at_place, fee_in. rewrite N.eqb_refl, String.eqb_sym. cbn [andb bucket_eqb].
      now rewrite andb_true_r. }
    destruct F8 as [F81 F82].
    exists k, c. split; auto. split. { simpl. rewrite C3, Rg. exact D6. }
    split; [|split; [|split]].
    - intros k0 s b Hn. destruct (N.eq_dec k0 0) as [->|Hn0]; [destruct (Bal0 s b); congruence|].
      pose proof (Bal k0 s b Hn0) as B. rewrite !Np, F81, E2 in B by auto. lia.
    - intros k0 s Hk Hc. destruct (N.eq_dec k0 0) as [->|Hn0]; [destruct (Bal0 s BFree); lia|].
      pose proof (Bal k0 s BFree Hn0) as B. rewrite !Nk in B by auto. specialize (F82 k0 s Hk Hc).
      specialize (E1 k0 s BFree). lia.
    - intros Hch Hne s. pose proof (Bal k s BFree Hk0) as B. rewrite (Nk c) in B by auto. rewrite !Sk in B.
      specialize (C8 Hch Hne s). specialize (E1 k s BFree). lia.
    - intros Hd Hne. pose proof (Bal c WICC BFree Hc0) as B. rewrite !(Nk k) in B by auto. rewrite !Sk in B.
      specialize (Q8 Hd Hne). specialize (E1 c WICC BFree). lia.
  Qed.
End LuaTx.
