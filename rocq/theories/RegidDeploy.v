(** Balances after a deployment (C70). *)
From Coq Require Import String List Bool NArith ZArith Lia ZifyBool ZifyNat ZifyN.
From Verif Require Import Prelude PreludeFacts AccountModel AccountSpec AccountProofs TxModel TxSpec TxProofs DexModel
  RegidModel RegidSpec RegidProofs.
Import ListNotations.
Open Scope N_scope.

Section Deploy.
  Variable pk_keyid : N -> N.
  Variable address : regid -> N.
  Variable valid : N -> bool.
  Variable mint_height : N.
  Hypothesis Hno : no_collisions pk_keyid address.

  Notation tinv := (tinv pk_keyid).

  Lemma contract_ok st k r : tinv st -> l_get (t_mem st) k = None -> fget regid_eqb (t_reg st) r = None ->
    let st' := register_contract st k r in
    tinv st' /\
    (forall j s b, lbal (commit st') j s b = if j =? k then 0 else lbal (commit st) j s b) /\
    (forall s, supply (commit st') s + (match l_get (commit st) k with Some a => holding a s | None => 0 end)
               = supply (commit st) s) /\
    l_get (t_mem st') k <> None /\ t_orders st' = t_orders st /\
    t_reg st' = fput regid_eqb (t_reg st) r k.
  Proof.
    intros T Hk Hr. cbv zeta. unfold register_contract. unfold l_get in Hk. rewrite Hk.
    set (a := mkAccount k r None _ _ _ _ _). set (st' := mkTx _ _ _ _ _).
    assert (Good : forall k0 a0, good_account pk_keyid (t_reg st) k0 a0 ->
       good_account pk_keyid (fput regid_eqb (t_reg st) r k) k0 a0).
    { intros k0 a0 [G1 G2]. split; auto. intros Hn. specialize (G2 Hn).
      rewrite (fget_put_other regid_eqb regid_eqb_ok); auto. intros E. rewrite E in G2. congruence. }
    assert (T' : tinv st').
    { constructor; subst st'; simpl; try apply T.
      - apply lput_wf; [apply T | auto].
      - intros k0 a0 H. apply Good. apply (ti_good_acc _ st T); auto.
      - intros k0 a0. change (fput N.eqb (t_mem st) k a) with (l_put (t_mem st) k a).
        rewrite lget_put. destruct (k0 =? k) eqn:E.
        + apply N.eqb_eq in E; subst. intros X; inversion X; subst a0. split; simpl; [discriminate|].
          intros _. apply (fget_put_same regid_eqb regid_eqb_ok).
        + intros H. apply Good. apply (ti_good_mem _ st T); auto. }
    assert (G : forall j, l_get (commit st') j = l_get (l_put (commit st) k a) j).
    { intros j. rewrite (commit_get pk_keyid _ _ T'), lget_put. simpl.
      change (fput N.eqb (t_mem st) k a) with (l_put (t_mem st) k a). rewrite lget_put.
      destruct (j =? k); auto. rewrite (commit_get pk_keyid _ _ T). auto. }
    split; auto. split; [|split; [|split; [|split]]]; auto.
    - intros j s b. unfold lbal. rewrite G, lget_put. destruct (j =? k); auto. destruct b; reflexivity.
    - intros s. assert (W : ledger_wf (commit st)) by (apply (commit_wf pk_keyid); auto).
      assert (W2 : ledger_wf (l_put (commit st) k a)) by (apply lput_wf; auto).
      rewrite (leq_supply (commit st') (l_put (commit st) k a) s); auto; [|apply (commit_wf pk_keyid); auto].
      assert (Z : holding a s = 0) by reflexivity.
      destruct (l_get (commit st) k) as [b|] eqn:E.
      + pose proof (supply_put _ _ _ a s W E). lia.
      + pose proof (supply_put_new _ _ a s W E). lia.
    - simpl. change (fput N.eqb (t_mem st) k a) with (l_put (t_mem st) k a). rewrite lget_put, N.eqb_refl. discriminate.
  Qed.

  Lemma deploy_exact h i u fs fee fuel st st' :
    let q := position h i in
    sane pk_keyid address st -> NoDup (map fst (t_orders st)) -> owner_of st q = None ->
    (forall s, supply (t_acc st) s + fuel_in fuel s < two64) ->
    (forall f v, fuel = Some (f, v) -> f <> q) ->
    apply_tx pk_keyid address valid mint_height h i (TDeploy u fs fee fuel) st = Some st' ->
    exists k, denotes pk_keyid (t_reg st) u = Some k /\ k <> address q /\
      (forall j s b, lbal (t_acc st') j s b + at_place (Some (k, BFree)) fs fee j s b =
         (if j =? address q then 0 else lbal (t_acc st) j s b) + fuel_at st fuel j s b) /\
      (forall s, supply (t_acc st') s + fee_in fs fee s + held_at st (address q) s
         = supply (t_acc st) s + fuel_in fuel s).
  Proof.
    cbv zeta. unfold held_at. intros S No Hq Hs Hf H. set (q := position h i) in *.
    unfold apply_tx in H. fold q in H. destruct (check_tx _ _ _ _ _ _) eqn:Ec; [|discriminate].
    cbn [execute_tx check_tx] in *. unfold sender in Ec.
    set (st0 := mkTx (t_acc st) (t_reg st) [] None (t_orders st)) in *.
    assert (Good : forall k a, l_get (t_acc st) k = Some a -> good_account pk_keyid (t_reg st) k a).
    { intros k a Ha. split; [intros p; apply (s_keys _ _ _ S k a p Ha)|]. intros E. apply (s_back _ _ _ S).
      unfold id_of. rewrite Ha, E. auto. }
    assert (T0 : tinv st0).
    { constructor; simpl; auto. apply S. split; [constructor | discriminate]. discriminate. }
    unfold execute_full in H. fold st0 in H.
    destruct (get_account pk_keyid st0 u) as [[k|] st1] eqn:G; [|discriminate].
    destruct (get_account_some pk_keyid _ _ _ _ T0 G) as (T1 & X1 & M1 & D1).
    assert (Mem1 : t_mem st1 = match l_get (t_acc st) k with Some a => [(k, a)] | None => [] end).
    { revert G. unfold get_account. cbn [t_key st0 t_mem fget t_reg t_acc].
      destruct (get_key_id pk_keyid (t_reg st) u) as [k1|]; [|discriminate].
      destruct (l_get (t_acc st) k1) as [a1|] eqn:E; [|discriminate]. intros [= <- <-]. rewrite E. reflexivity. }
    destruct (l_get (t_acc st) k) as [a|] eqn:Ea; [|unfold l_get in M1; rewrite Mem1 in M1; exfalso; apply M1; auto].
    rewrite Mem1 in Ec. cbn [fget] in Ec. rewrite N.eqb_refl in Ec.
    apply andb_true_iff in Ec as [Eu Eo].
    assert (Nk : k <> address q).
    { unfold has_owner in Eo. destruct (a_pubkey a) as [p|] eqn:Ep; [|discriminate].
      intros E. apply (proj2 Hno p q). rewrite <- E. apply (s_keys _ _ _ S k a); auto. }
    destruct u as [r|?|?|]; try discriminate.
    set (st2 := mkTx (t_acc st1) (t_reg st1) (t_mem st1) (Some k) (t_orders st1)) in *.
    assert (T2 : tinv st2) by (destruct T1; constructor; auto).
    assert (L2 : leq (commit st2) (t_acc st)) by (apply X1).
    assert (R2 : t_reg st2 = t_reg st) by (apply X1).
    assert (O2 : t_orders st2 = t_orders st) by (apply X1).
    assert (W0 : ledger_wf (t_acc st)) by apply S.
    assert (S2 : forall s, supply (commit st2) s = supply (t_acc st) s).
    { intros. apply leq_supply; auto. apply (commit_wf pk_keyid); auto. }
    set (CH := if 0 <? fee then _ else _) in H.
    assert (A : forall st4, CH = (true, st4) ->
       tinv st4 /\ t_reg st4 = t_reg st /\ l_get (t_mem st4) (address q) = None /\
       leq (commit st4) (commit st4) /\
       l_get (t_acc st4) (address q) = l_get (t_acc st) (address q) /\
       (forall s, supply (commit st4) s + fee_in fs fee s = supply (t_acc st) s) /\
       (forall k' s b, lbal (commit st4) k' s b + at_place (Some (k, BFree)) fs fee k' s b = lbal (t_acc st) k' s b)).
    { assert (N2 : l_get (t_mem st2) (address q) = None).
      { change (t_mem st2) with (t_mem st1). rewrite Mem1. unfold l_get. simpl.
        replace (address q =? k) with false by lia. auto. }
      assert (Ac : l_get (t_acc st2) (address q) = l_get (t_acc st) (address q)).
      { pose proof (L2 (address q)) as X. rewrite (commit_get pk_keyid _ _ T2), N2 in X. auto. }
      intros st4. unfold CH. destruct (0 <? fee) eqn:E0.
      - intros Hc. destruct (m_operate_delta pk_keyid st2 k fs SubFree fee None st4 T2 M1) as (T4 & R4 & O4 & K4 & M4 & S4 & B4); auto.
        { discriminate. } { cbn [mint_of q_op]. rewrite S2. specialize (Hs fs). lia. }
        split; auto. split; [congruence|]. split; [|split; [intros j; auto|split; [|split]]].
        + unfold m_operate in Hc. destruct (l_operate (t_mem st2) k fs SubFree fee None) as [b m] eqn:El.
          inversion Hc; subst b st4. simpl. apply (l_operate_none _ _ _ _ _ _ _ _ (address q) El); auto.
        + unfold m_operate in Hc. destruct (l_operate (t_mem st2) k fs SubFree fee None) as [b m] eqn:El.
          inversion Hc; subst b st4. exact Ac.
        + intros s. specialize (S4 s). unfold burn_of, mint_of in S4. cbn [q_op q_other q_symbol q_amount] in S4.
          unfold fee_in. rewrite <- S2. lia.
        + intros k' s b. specialize (B4 k' s b). cbn [debited credited] in B4. rewrite at_none in B4.
          rewrite <- (leq_lbal _ _ k' s b L2). lia.
      - intros Hc; inversion Hc; subst st4. assert (fee = 0) by lia. subst fee.
        split; auto. split; auto. split; auto. split; [intros j; auto|]. split; auto. split.
        + intros s. rewrite S2. unfold fee_in. destruct (String.eqb fs s); lia.
        + intros. rewrite (leq_lbal _ _ k' s b L2). unfold at_place. destruct (_ && _); lia. }
    clearbody CH. destruct CH as [[|] st4]; [|discriminate].
    destruct (A st4 eq_refl) as (T4 & R4 & N4 & _ & Ac4 & S4 & B4). clear A.
    destruct (deploy_body pk_keyid address q fuel st4) as [st5|] eqn:Eb; [|discriminate].
    destruct (contract_ok st4 (address q) q T4 N4) as (T5 & B5 & S5 & M5 & O5 & R5).
    { rewrite R4. exact Hq. }
    assert (C4 : l_get (commit st4) (address q) = l_get (t_acc st) (address q)).
    { rewrite (commit_get pk_keyid _ _ T4), N4. auto. }
    rewrite C4 in S5.
    assert (Z : tinv st5 /\
      (forall j s b, lbal (commit st5) j s b = (if j =? address q then 0 else lbal (commit st4) j s b) + fuel_at st fuel j s b) /\
      (forall s, supply (commit st5) s + (match l_get (t_acc st) (address q) with Some a => holding a s | None => 0 end)
         = supply (commit st4) s + fuel_in fuel s)).
    { unfold deploy_body in Eb. set (stc := register_contract st4 (address q) q) in *. clearbody stc.
      destruct fuel as [[f v]|].
      - destruct (get_account pk_keyid stc (UReg f)) as [[j|] st6] eqn:G6; [|discriminate].
        destruct (get_account_some pk_keyid _ _ _ _ T5 G6) as (T6 & X6 & M6 & D6).
        assert (Dj : owner_of st f = Some j).
        { cbn [denotes] in D6. rewrite R5, R4 in D6.
          rewrite (fget_put_other regid_eqb regid_eqb_ok) in D6; auto. apply (Hf f v); auto. }
        destruct (m_operate st6 j WUSD AddFree v None) as [[|] st7] eqn:O7; [|discriminate].
        inversion Eb; subst st7.
        assert (S6 : forall s, supply (commit st6) s = supply (commit stc) s).
        { intros. apply leq_supply; try apply (commit_wf pk_keyid); auto. apply X6. }
        destruct (m_operate_delta pk_keyid st6 j WUSD AddFree v None st5 T6 M6) as (T7 & _ & _ & _ & _ & S7 & B7); auto.
        { discriminate. }
        { cbn [mint_of q_op q_other q_symbol q_amount]. rewrite S6. specialize (S5 WUSD). specialize (S4 WUSD).
          specialize (Hs WUSD). cbn [fuel_in] in Hs. rewrite String.eqb_refl in *.
          set (x := match l_get (t_acc st) (address q) with Some _ => _ | None => _ end) in *. clearbody x. lia. }
        split; auto. split.
        + intros j0 s b. specialize (B7 j0 s b). cbn [debited credited] in B7. rewrite at_none in B7.
          rewrite (leq_lbal _ _ j0 s b (proj1 X6)) in B7. rewrite B5 in B7. cbn [fuel_at]. rewrite Dj.
          set (x := if j0 =? address q then _ else _) in *. clearbody x. lia.
        + intros s. specialize (S7 s). rewrite S6 in S7. specialize (S5 s).
          unfold burn_of, mint_of in S7. cbn [q_op q_other q_symbol q_amount] in S7. cbn [fuel_in].
          set (x := match l_get (t_acc st) (address q) with Some _ => _ | None => _ end) in *. clearbody x. lia.
      - inversion Eb; subst st5. split; auto. split.
        + intros j s b. rewrite B5. cbn [fuel_at]. lia.
        + intros s. rewrite S5. cbn [fuel_in]. lia. }
    destruct Z as (T7 & B7 & S7).
    destruct (save_all (t_acc st5) (t_reg st5) (t_mem st5)) as [acc reg] eqn:Sv.
    inversion H; subst st'; clear H. cbn [t_acc].
    assert (Ha : acc = commit st5).
    { eapply save_all_ok; [|exact Sv]. intros k0 a0 H0. apply (in_fget N.eqb N_eqb_ok) in H0; [|apply T7].
      apply (ti_mem _ st5 T7); auto. }
    subst acc. exists k. split; auto. split; auto. split.
    - intros j s b. rewrite B7. specialize (B4 j s b). destruct (j =? address q) eqn:E; [|lia].
      assert (at_place (Some (k, BFree)) fs fee j s b = 0).
      { unfold at_place. apply N.eqb_eq in E. subst j. replace (address q =? k) with false by lia. auto. }
      lia.
    - intros s. specialize (S7 s). specialize (S4 s).
      set (x := match l_get (t_acc st) (address q) with Some _ => _ | None => _ end) in *. clearbody x. lia.
  Qed.
End Deploy.
