From Coq Require Import String List Bool NArith ZArith Lia.
From Coq Require Import ZifyBool ZifyNat ZifyN.
From Verif Require Import Prelude PreludeFacts AccountModel AccountSpec AccountProofs TxModel TxSpec.
Import ListNotations.
Open Scope N_scope.
Ltac Zify.zify_post_hook ::= Z.div_mod_to_equations.

Lemma regid_eqb_ok : forall a b, regid_eqb a b = true <-> a = b.
Proof. apply pair_eqb_ok; apply N_eqb_ok. Qed.

(** Ledgers with the same entries. *)
Definition leq (L1 L2 : list (N * account)) : Prop := forall k, l_get L1 k = l_get L2 k.

Lemma leq_refl L : leq L L.
Proof. intros k; auto. Qed.
Lemma leq_trans L1 L2 L3 : leq L1 L2 -> leq L2 L3 -> leq L1 L3.
Proof. intros A B k. rewrite A. apply B. Qed.
Lemma leq_sym L1 L2 : leq L1 L2 -> leq L2 L1.
Proof. intros A k. symmetry. apply A. Qed.

Lemma leq_put L1 L2 k a : leq L1 L2 -> leq (l_put L1 k a) (l_put L2 k a).
Proof. intros H k'. rewrite !lget_put. destruct (k' =? k); auto. Qed.

Lemma leq_lbal L1 L2 k s b : leq L1 L2 -> lbal L1 k s b = lbal L2 k s b.
Proof. intros H. unfold lbal. now rewrite H. Qed.

Lemma leq_supply L1 L2 s : ledger_wf L1 -> ledger_wf L2 -> leq L1 L2 -> supply L1 s = supply L2 s.
Proof.
  intros [N1 _] [N2 _] H. unfold supply. eapply (msum_ext N.eqb N_eqb_ok); auto.
  intros k. unfold fval. unfold leq, l_get in H. now rewrite H.
Qed.

(** Same holdings everywhere, possibly with additional empty accounts. *)
Lemma holding_supply L1 L2 s : ledger_wf L1 -> ledger_wf L2 ->
  (forall k b, lbal L1 k s b = lbal L2 k s b) -> supply L1 s = supply L2 s.
Proof.
  intros [N1 _] [N2 _] H. unfold supply. eapply (msum_ext N.eqb N_eqb_ok); auto.
  intros k. unfold fval. unfold lbal, l_get in H.
  pose proof (H k BFree) as A1. pose proof (H k BFrozen) as A2. pose proof (H k BStaked) as A3.
  pose proof (H k BVoted) as A4. pose proof (H k BPledged) as A5. unfold holding.
  destruct (fget N.eqb L1 k), (fget N.eqb L2 k); lia.
Qed.

Lemma leq_wf L1 L2 : leq L1 L2 -> NoDup (map fst L2) -> ledger_wf L1 -> ledger_wf L2.
Proof. intros H Hn [_ W]. split; auto. intros k a. rewrite <- H. apply W. Qed.

Lemma l_operate_leq L1 L2 who s o v other :
  leq L1 L2 ->
  fst (l_operate L1 who s o v other) = fst (l_operate L2 who s o v other) /\
  leq (snd (l_operate L1 who s o v other)) (snd (l_operate L2 who s o v other)).
Proof.
  intros H. unfold l_operate. rewrite <- (H who). destruct (l_get L1 who) as [a|]; [|simpl; auto].
  destruct other as [k|]; [|simpl; split; auto; apply leq_put; auto].
  destruct (k =? who); [simpl; split; auto; apply leq_put; auto|].
  rewrite <- (H k). destruct (l_get L1 k) as [p|]; [|simpl; auto].
  simpl. split; auto. destruct (peer' _); repeat apply leq_put; auto.
Qed.

Section TxProofs.
  Variable pk_keyid : N -> N.

  (** What would be stored if the transaction were saved now. *)
  Definition commit (st : txst) : list (N * account) :=
    fold_left (fun L ka => l_put L (fst ka) (snd ka)) (t_mem st) (t_acc st).

  Lemma fold_put_get : forall m L k, NoDup (map fst m) ->
    l_get (fold_left (fun L (ka : N * account) => l_put L (fst ka) (snd ka)) m L) k =
    match fget N.eqb m k with Some a => Some a | None => l_get L k end.
  Proof.
    induction m as [|[k0 a0] m IH]; intros L k Hn; simpl; auto.
    inversion Hn; subst. rewrite IH by auto. rewrite lget_put.
    destruct (k =? k0) eqn:E; auto. apply N.eqb_eq in E; subst.
    rewrite (proj2 (fget_none N.eqb N_eqb_ok m k0)); auto.
  Qed.

  Lemma fold_put_wf : forall m L, ledger_wf L -> (forall k a, In (k, a) m -> a_keyid a = k) ->
    ledger_wf (fold_left (fun L (ka : N * account) => l_put L (fst ka) (snd ka)) m L).
  Proof.
    induction m as [|[k0 a0] m IH]; intros L W H; simpl; auto.
    apply IH; [|intros; apply H; right; auto]. apply lput_wf; auto. apply H. left; auto.
  Qed.

  (** The invariant of a running transaction. *)
  Definition good_account (reg : list (regid * N)) (k : N) (a : account) : Prop :=
    (forall p, a_pubkey a = Some p -> pk_keyid p = k) /\
    (regid_empty (a_regid a) = false -> fget regid_eqb reg (a_regid a) = Some k).

  Record tinv (st : txst) : Prop := {
    ti_acc : ledger_wf (t_acc st);
    ti_mem : ledger_wf (t_mem st);
    ti_good_acc : forall k a, l_get (t_acc st) k = Some a -> good_account (t_reg st) k a;
    ti_good_mem : forall k a, l_get (t_mem st) k = Some a -> good_account (t_reg st) k a;
    ti_orders : NoDup (map fst (t_orders st)) }.

  Lemma commit_get st k : tinv st ->
    l_get (commit st) k = match l_get (t_mem st) k with Some a => Some a | None => l_get (t_acc st) k end.
  Proof. intros T. unfold commit. rewrite fold_put_get; auto. apply T. Qed.

  Lemma commit_wf st : tinv st -> ledger_wf (commit st).
  Proof.
    intros T. apply fold_put_wf. { apply T. }
    intros k a H. apply (in_fget N.eqb N_eqb_ok) in H; [|apply T]. apply (ti_mem st T); auto.
  Qed.

  (** Two states with the same account content, tables and orders. *)
  Definition extends (st st' : txst) : Prop :=
    leq (commit st') (commit st) /\ t_reg st' = t_reg st /\ t_orders st' = t_orders st /\
    t_key st' = t_key st /\
    (forall k, l_get (t_mem st) k <> None -> l_get (t_mem st') k <> None).

  Lemma get_account_some st u k st' :
    tinv st -> get_account pk_keyid st u = (Some k, st') ->
    tinv st' /\ extends st st' /\ l_get (t_mem st') k <> None /\
    denotes pk_keyid (t_reg st) u = Some k.
  Proof.
    intros T. unfold get_account.
    set (self := match t_key st with Some k => _ | None => None end).
    destruct self as [k0|] eqn:Es; subst self.
    - intros H; inversion H; subst. clear H.
      destruct (t_key st') as [k1|]; [|discriminate].
      destruct (fget N.eqb (t_mem st') k1) as [a|] eqn:Em; [|discriminate].
      destruct (_ && _) eqn:Eb; [|discriminate]. inversion Es; subst k1.
      apply andb_true_iff in Eb as [_ Eb].
      split; auto. split; [repeat split; auto|]. split.
      { unfold l_get; rewrite Em; discriminate. }
      destruct (ti_good_mem st' T k a Em) as [G1 G2].
      assert (Ka : a_keyid a = k) by (apply (ti_mem st' T); auto).
      unfold is_self_uid in Eb. destruct u; simpl.
      + apply andb_true_iff in Eb as [E1 E2]. apply regid_eqb_ok in E2. subst r.
        apply G2. destruct (regid_empty (a_regid a)); auto; discriminate.
      + apply N.eqb_eq in Eb. congruence.
      + destruct (a_pubkey a) as [q|]; [|discriminate]. apply N.eqb_eq in Eb; subst.
        f_equal. apply G1; auto.
      + discriminate.
    - intros H. assert (Hd : get_key_id pk_keyid (t_reg st) u = denotes pk_keyid (t_reg st) u)
        by (destruct u; auto).
      rewrite Hd in H. destruct (denotes pk_keyid (t_reg st) u) as [k1|] eqn:Ed; [|discriminate].
      destruct (fget N.eqb (t_mem st) k1) as [a|] eqn:Em.
      + inversion H; subst. split; auto. split; [repeat split; auto|]. split; auto.
        unfold l_get; rewrite Em; discriminate.
      + destruct (l_get (t_acc st) k1) as [a|] eqn:Ea; [|discriminate]. inversion H; subst; clear H.
        assert (T' : tinv (set_mem st (fput N.eqb (t_mem st) k a))).
        { constructor; simpl; try apply T.
          - apply lput_wf; [apply T|]. apply (ti_acc st T); auto.
          - intros k' a'. change (fput N.eqb (t_mem st) k a) with (l_put (t_mem st) k a).
            rewrite lget_put. destruct (k' =? k) eqn:E.
            + apply N.eqb_eq in E; subst. intros X; inversion X; subst. apply (ti_good_acc st T); auto.
            + apply (ti_good_mem st T). }
        split; auto. split.
        * split; [|repeat split; auto].
          -- intros k'. rewrite (commit_get _ _ T'), (commit_get _ _ T). simpl.
             change (fput N.eqb (t_mem st) k a) with (l_put (t_mem st) k a).
             rewrite lget_put. destruct (k' =? k) eqn:E; auto.
             apply N.eqb_eq in E; subst. unfold l_get at 1. rewrite Em. auto.
          -- simpl. intros k' Hk. change (fput N.eqb (t_mem st) k a) with (l_put (t_mem st) k a).
             rewrite lget_put. destruct (k' =? k); [discriminate | auto].
        * split; auto. simpl. change (fput N.eqb (t_mem st) k a) with (l_put (t_mem st) k a).
          rewrite lget_put, N.eqb_refl. discriminate.
  Qed.

  Lemma get_account_none st u st' :
    tinv st -> get_account pk_keyid st u = (None, st') ->
    st' = st /\ forall k, denotes pk_keyid (t_reg st) u = Some k -> l_get (commit st) k = None.
  Proof.
    intros T. unfold get_account.
    set (self := match t_key st with Some k => _ | None => None end).
    destruct self as [k0|]; [discriminate|].
    assert (Hd : get_key_id pk_keyid (t_reg st) u = denotes pk_keyid (t_reg st) u)
        by (destruct u; auto).
    rewrite Hd. destruct (denotes pk_keyid (t_reg st) u) as [k1|] eqn:Ed.
    2: { intros H; inversion H; subst. split; auto. discriminate. }
    destruct (fget N.eqb (t_mem st) k1) as [a|] eqn:Em; [discriminate|].
    destruct (l_get (t_acc st) k1) as [a|] eqn:Ea; [discriminate|].
    intros H; inversion H; subst. split; auto. intros k Hk; inversion Hk; subst.
    rewrite (commit_get _ _ T). unfold l_get at 1. rewrite Em. auto.
  Qed.

  Lemma new_mem_account_ok st k :
    tinv st -> l_get (commit st) k = None ->
    let st' := new_mem_account st k in
    tinv st' /\ (forall k' s b, lbal (commit st') k' s b = lbal (commit st) k' s b) /\
    l_get (t_mem st') k <> None /\ t_reg st' = t_reg st /\ t_orders st' = t_orders st /\
    (forall k, l_get (t_mem st) k <> None -> l_get (t_mem st') k <> None).
  Proof.
    intros T Hc. cbv zeta. unfold new_mem_account.
    assert (Hm : fget N.eqb (t_mem st) k = None).
    { rewrite (commit_get _ _ T) in Hc. unfold l_get in Hc at 1.
      destruct (fget N.eqb (t_mem st) k); congruence. }
    rewrite Hm.
    assert (T' : tinv (set_mem st (fput N.eqb (t_mem st) k (new_account k)))).
    { constructor; simpl; try apply T.
      - apply lput_wf; [apply T | auto].
      - intros k' a'. change (fput N.eqb (t_mem st) k (new_account k)) with (l_put (t_mem st) k (new_account k)).
        rewrite lget_put. destruct (k' =? k) eqn:E.
        + intros X; inversion X; subst. split; simpl; discriminate.
        + apply (ti_good_mem st T). }
    split; auto. split; [|split; [|repeat split; auto]].
    - intros k' s b. unfold lbal. rewrite (commit_get _ _ T'). simpl.
      change (fput N.eqb (t_mem st) k (new_account k)) with (l_put (t_mem st) k (new_account k)).
      rewrite lget_put. destruct (k' =? k) eqn:E.
      + apply N.eqb_eq in E; subst. rewrite Hc. destruct b; reflexivity.
      + rewrite (commit_get _ _ T). auto.
    - simpl. change (fput N.eqb (t_mem st) k (new_account k)) with (l_put (t_mem st) k (new_account k)).
      rewrite lget_put, N.eqb_refl. discriminate.
    - simpl. intros k' Hk. change (fput N.eqb (t_mem st) k (new_account k)) with (l_put (t_mem st) k (new_account k)).
      rewrite lget_put. destruct (k' =? k); [discriminate|auto].
  Qed.

  Lemma register_ok st k p h i a :
    tinv st -> l_get (t_mem st) k = Some a -> regid_empty (a_regid a) = true ->
    pk_keyid p = k -> fget regid_eqb (t_reg st) (h, i) = None ->
    let st' := register_account st k p h i in
    tinv st' /\ (forall k' s b, lbal (commit st') k' s b = lbal (commit st) k' s b) /\
    t_orders st' = t_orders st /\
    (forall r k', fget regid_eqb (t_reg st) r = Some k' -> fget regid_eqb (t_reg st') r = Some k') /\
    (forall k, l_get (t_mem st) k <> None -> l_get (t_mem st') k <> None).
  Proof.
    intros T Hm He Hp Hf. cbv zeta. unfold register_account.
    unfold l_get in Hm. rewrite Hm.
    assert (Ka : a_keyid a = k) by (apply (ti_mem st T); auto).
    set (a' := mkAccount _ _ _ _ _ _ _ _).
    assert (Good : forall k0 a0, good_account (t_reg st) k0 a0 ->
       good_account (fput regid_eqb (t_reg st) (h, i) (a_keyid a)) k0 a0).
    { intros k0 a0 [G1 G2]. split; auto. intros Hn. specialize (G2 Hn).
      rewrite (fget_put_other regid_eqb regid_eqb_ok); auto. intros E. rewrite E in G2. congruence. }
    set (st' := mkTx _ _ _ _ _).
    assert (T' : tinv st').
    { constructor; subst st'; simpl; try apply T.
      - apply lput_wf; [apply T | auto].
      - intros k0 a0 H. apply Good. apply (ti_good_acc st T); auto.
      - intros k0 a0. change (fput N.eqb (t_mem st) k a') with (l_put (t_mem st) k a').
        rewrite lget_put. destruct (k0 =? k) eqn:E.
        + apply N.eqb_eq in E; subst. intros X; inversion X; subst a0. split; simpl.
          * intros q Hq; inversion Hq; subst; auto.
          * intros _. rewrite (fget_put_same regid_eqb regid_eqb_ok). congruence.
        + intros H. apply Good. apply (ti_good_mem st T); auto. }
    split; auto. split; [|split; [|split]]; auto.
    - intros k' s b. unfold lbal. rewrite (commit_get _ _ T'), (commit_get _ _ T). simpl.
      change (fput N.eqb (t_mem st) k a') with (l_put (t_mem st) k a').
      rewrite lget_put. destruct (k' =? k) eqn:E; auto.
      apply N.eqb_eq in E; subst. unfold l_get at 1. rewrite Hm. reflexivity.
    - simpl. intros r k' Hr. rewrite (fget_put_other regid_eqb regid_eqb_ok); auto.
      intros E; subst; congruence.
    - simpl. intros k' Hk. change (fput N.eqb (t_mem st) k a') with (l_put (t_mem st) k a').
      rewrite lget_put. destruct (k' =? k); [discriminate|auto].
  Qed.

  (** C50: an operation on the in-memory objects is the operation on the ledger that would be
      stored. *)
  Lemma m_operate_commit st who s o v other :
    tinv st -> l_get (t_mem st) who <> None ->
    (forall k, other = Some k -> l_get (t_mem st) k <> None) ->
    let r := m_operate st who s o v other in
    tinv (snd r) /\
    fst r = fst (l_operate (commit st) who s o v other) /\
    leq (commit (snd r)) (snd (l_operate (commit st) who s o v other)) /\
    t_reg (snd r) = t_reg st /\ t_orders (snd r) = t_orders st /\ t_key (snd r) = t_key st /\
    (forall k, l_get (t_mem st) k <> None -> l_get (t_mem (snd r)) k <> None).
  Proof.
    intros T Hw Ho. cbv zeta. unfold m_operate.
    destruct (l_operate (t_mem st) who s o v other) as [b m'] eqn:E. simpl.
    assert (Wm : ledger_wf m') by (eapply l_operate_wf; [apply (ti_mem st T) | exact E]).
    assert (Hnone : forall k, l_get m' k = None <-> l_get (t_mem st) k = None)
      by (intros k; eapply l_operate_none; eauto).
    assert (Ident : forall k a', l_get m' k = Some a' -> exists a, l_get (t_mem st) k = Some a /\ same_identity a a').
    { intros k a' Hk. unfold l_operate in E. destruct (l_get (t_mem st) who) as [a|] eqn:Ga; [|congruence].
      assert (One : forall p, l_get (l_put (t_mem st) who (self' (operate_balance a s o v p))) k = Some a' ->
         exists a0, l_get (t_mem st) k = Some a0 /\ same_identity a0 a').
      { intros p. rewrite lget_put. destruct (k =? who) eqn:Ek.
        - apply N.eqb_eq in Ek; subst. intros X; inversion X; subst. exists a; split; auto. apply operate_identity.
        - intros X. exists a'; split; auto. apply same_identity_refl. }
      destruct other as [k2|]; [|inversion E; subst; eapply One; eauto].
      destruct (k2 =? who); [inversion E; subst; eapply One; eauto|].
      destruct (l_get (t_mem st) k2) as [p|] eqn:Gp; [|inversion E; subst; exists a'; split; auto; apply same_identity_refl].
      destruct (operate_identity_peer a s o v p) as (p' & Hp & Hi). rewrite Hp in E. inversion E; subst m'.
      rewrite lget_put in Hk. destruct (k =? k2) eqn:Ek2; [|eapply One; eauto].
      apply N.eqb_eq in Ek2; subst. inversion Hk; subst. exists p; auto. }
    assert (T' : tinv (set_mem st m')).
    { constructor; simpl; try apply T; auto.
      intros k a' Hk. destruct (Ident _ _ Hk) as (a & Ha & I1 & I2 & I3 & _).
      destruct (ti_good_mem st T k a Ha) as [G1 G2]. split; rewrite <- ?I2, <- ?I3; auto. }
    split; auto.
    assert (Hcw : forall k, l_get (t_mem st) k <> None -> l_get (commit st) k = l_get (t_mem st) k).
    { intros k Hk. rewrite (commit_get _ _ T). destruct (l_get (t_mem st) k); congruence. }
    assert (Main : b = fst (l_operate (commit st) who s o v other) /\
       leq (commit (set_mem st m')) (snd (l_operate (commit st) who s o v other))).
    { unfold l_operate in *. rewrite (Hcw who Hw).
      destruct (l_get (t_mem st) who) as [a|] eqn:Ga; [|congruence].
      assert (Step : forall m1 L1 k x, NoDup (map fst m1) ->
          leq (fold_left (fun L (ka : N * account) => l_put L (fst ka) (snd ka)) m1 (t_acc st)) L1 ->
          leq (fold_left (fun L (ka : N * account) => l_put L (fst ka) (snd ka)) (l_put m1 k x) (t_acc st)) (l_put L1 k x)).
      { intros m1 L1 k x Hn H k'. rewrite fold_put_get by (apply nodup_put; auto; apply N_eqb_ok).
        specialize (H k'). rewrite fold_put_get in H by auto. rewrite (lget_put L1), <- H.
        unfold l_put. rewrite (fget_put N.eqb N_eqb_ok). destruct (k' =? k); auto. }
      assert (N0 : NoDup (map fst (t_mem st))) by apply (ti_mem st T).
      destruct other as [k2|].
      - destruct (k2 =? who) eqn:Ek.
        + inversion E; subst. simpl. split; auto. apply Step; auto. apply leq_refl.
        + pose proof (Ho k2 eq_refl) as H2. rewrite (Hcw k2 H2).
          destruct (l_get (t_mem st) k2) as [p|] eqn:Gp; [|congruence].
          destruct (operate_identity_peer a s o v p) as (p' & Hp & _). rewrite Hp in *.
          inversion E; subst. simpl. split; auto. apply Step.
          * apply nodup_put; auto. apply N_eqb_ok.
          * apply Step; auto. apply leq_refl.
      - inversion E; subst. simpl. split; auto. apply Step; auto. apply leq_refl. }
    destruct Main as [M1 M2]. repeat split; auto.
    intros k Hk Hc. apply Hk. apply Hnone. exact Hc.
  Qed.

  (** The same as balance changes. *)
  Lemma m_operate_delta st who s o v other st' :
    tinv st -> l_get (t_mem st) who <> None ->
    (forall k, other = Some k -> l_get (t_mem st) k <> None) ->
    m_operate st who s o v other = (true, st') ->
    supply (commit st) s + mint_of s (mkReq who s o v other) < two64 ->
    tinv st' /\ t_reg st' = t_reg st /\ t_orders st' = t_orders st /\ t_key st' = t_key st /\
    (forall k, l_get (t_mem st) k <> None -> l_get (t_mem st') k <> None) /\
    (forall s', supply (commit st') s' + burn_of s' (mkReq who s o v other)
                = supply (commit st) s' + mint_of s' (mkReq who s o v other)) /\
    (forall k s' b,
      Z.of_N (lbal (commit st') k s' b) = (Z.of_N (lbal (commit st) k s' b)
        - Z.of_N (at_place (debited who o other) s v k s' b)
        + Z.of_N (at_place (credited who o other) s v k s' b))%Z).
  Proof.
    intros T Hw Ho Hm Hb.
    pose proof (m_operate_commit st who s o v other T Hw Ho) as H. cbv zeta in H. rewrite Hm in H.
    cbn [fst snd] in H. destruct H as (T' & Hf & Hl & Hr & Hor & Hk & Hmem).
    destruct (l_operate (commit st) who s o v other) as [b L'] eqn:E. cbn [fst snd] in Hf, Hl. subst b.
    assert (W : ledger_wf (commit st)) by (apply commit_wf; auto).
    assert (W' : ledger_wf (commit st')) by (apply commit_wf; auto).
    assert (WL : ledger_wf L') by (exact (l_operate_wf _ _ _ _ _ _ _ _ W E)).
    split; auto. split; auto. split; auto. split; auto. split; auto. split.
    - intros s'. rewrite (leq_supply _ _ s' W' WL Hl).
      apply (l_operate_supply (commit st) (mkReq who s o v other) L' s' W); auto.
      intros s0 Hs0. rewrite Hs0. exact Hb.
    - intros k s' b. rewrite (leq_lbal _ _ k s' b Hl).
      apply (l_operate_delta (commit st) who s o v other L' W E Hb).
  Qed.

  (** What one piece of a transaction did: balances changed by [D], supplies unchanged, orders
      worth [w] added. *)
  Record moved (st st' : txst) (D : N -> string -> bucket -> Z) (w : N) : Prop := {
    mv_inv : tinv st';
    mv_reg : forall r k, fget regid_eqb (t_reg st) r = Some k -> fget regid_eqb (t_reg st') r = Some k;
    mv_mem : forall k, l_get (t_mem st) k <> None -> l_get (t_mem st') k <> None;
    mv_supply : forall s, supply (commit st') s = supply (commit st) s;
    mv_bal : forall k s b, Z.of_N (lbal (commit st') k s b) = (Z.of_N (lbal (commit st) k s b) + D k s b)%Z;
    mv_orders : msum (fun v => v) (t_orders st') = msum (fun v => v) (t_orders st) + w }.

  Definition zero3 (_ : N) (_ : string) (_ : bucket) : Z := 0%Z.

  Lemma moved_refl st : tinv st -> moved st st zero3 0.
  Proof. intros T. constructor; auto; unfold zero3; intros; lia. Qed.

  Lemma moved_trans st1 st2 st3 D1 D2 D w1 w2 w :
    moved st1 st2 D1 w1 -> moved st2 st3 D2 w2 ->
    (forall k s b, D k s b = (D1 k s b + D2 k s b)%Z) -> w = w1 + w2 ->
    moved st1 st3 D w.
  Proof.
    intros [A1 A2 A3 A4 A5 A6] [B1 B2 B3 B4 B5 B6] HD ->. constructor; auto; intros.
    - now rewrite B4.
    - rewrite B5, A5, HD. lia.
    - rewrite B6, A6. lia.
  Qed.

  Lemma moved_ext st1 st2 D D' w w' :
    moved st1 st2 D w -> (forall k s b, D' k s b = D k s b) -> w' = w -> moved st1 st2 D' w'.
  Proof. intros [A1 A2 A3 A4 A5 A6] HD ->. constructor; auto. intros. rewrite A5, HD. lia. Qed.

  Lemma extends_moved st st' : tinv st -> tinv st' -> extends st st' -> moved st st' zero3 0.
  Proof.
    intros T T' (H1 & H2 & H3 & H4 & H5). constructor; auto.
    - now rewrite H2.
    - intros s. apply leq_supply; auto using commit_wf.
    - intros. rewrite (leq_lbal _ _ k s b H1). unfold zero3. lia.
    - rewrite H3. lia.
  Qed.

  Lemma same_lbal_moved st st' : tinv st -> tinv st' ->
    (forall k' s b, lbal (commit st') k' s b = lbal (commit st) k' s b) ->
    (forall r k, fget regid_eqb (t_reg st) r = Some k -> fget regid_eqb (t_reg st') r = Some k) ->
    (forall k, l_get (t_mem st) k <> None -> l_get (t_mem st') k <> None) ->
    t_orders st' = t_orders st -> moved st st' zero3 0.
  Proof.
    intros T T' Hl Hr Hm Ho. constructor; auto.
    - intros s. apply holding_supply; auto using commit_wf.
    - intros. rewrite Hl. unfold zero3. lia.
    - rewrite Ho. lia.
  Qed.

  Lemma m_operate_moved st who s o v other st' :
    tinv st -> l_get (t_mem st) who <> None ->
    (forall k, other = Some k -> l_get (t_mem st) k <> None) ->
    m_operate st who s o v other = (true, st') ->
    mint_of s (mkReq who s o v other) = 0 -> (forall s', burn_of s' (mkReq who s o v other) = 0) ->
    supply (commit st) s < two64 ->
    moved st st' (fun k s' b => (Z.of_N (at_place (credited who o other) s v k s' b)
        - Z.of_N (at_place (debited who o other) s v k s' b))%Z) 0.
  Proof.
    intros T Hw Ho Hm Hmi Hbu Hs.
    destruct (m_operate_delta st who s o v other st' T Hw Ho Hm) as (T' & Hr & Hor & Hk & Hme & Hsu & Hd).
    { rewrite Hmi. lia. }
    constructor; auto.
    - now rewrite Hr.
    - intros s'. specialize (Hsu s'). rewrite Hbu in Hsu.
      assert (mint_of s' (mkReq who s o v other) = 0).
      { revert Hmi. unfold mint_of. simpl. destruct o, other; auto.
        rewrite String.eqb_refl. intros ->. destruct (String.eqb s s'); auto. }
      lia.
    - intros. rewrite Hd. lia.
    - rewrite Hor. lia.
  Qed.

  Lemma denotes_mono reg reg' u k :
    (forall r k, fget regid_eqb reg r = Some k -> fget regid_eqb reg' r = Some k) ->
    denotes pk_keyid reg u = Some k -> denotes pk_keyid reg' u = Some k.
  Proof. intros H. destruct u; simpl; auto. Qed.

  Definition onto (reg : list (regid * N)) (u : uid) (k : N) (v : N) : N :=
    match denotes pk_keyid reg u with Some d => if k =? d then v else 0 | None => 0 end.

  (** The balance change of one transfer. *)
  Definition xfer_change (e : tenv) (reg : list (regid * N)) (sender : N) (x : xfer)
      (k : N) (s : string) (b : bucket) : Z :=
    match b with
    | BFree =>
        if String.eqb (x_symbol x) s
        then (Z.of_N (onto reg (x_to x) k (x_amount x - friction e x)%N)
              - (if (k =? sender)%N then Z.of_N (x_amount x) else 0))%Z
        else 0%Z
    | BFrozen =>
        if String.eqb "WUSD" s then Z.of_N (onto reg (UReg (e_fcoin e)) k (friction e x)) else 0%Z
    | _ => 0%Z
    end.

  Lemma friction_le e x : e_friction e <= 10000 -> friction e x <= x_amount x.
  Proof. intros H. unfold friction. destruct (String.eqb _ _); nia. Qed.

  Lemma friction_non e x : String.eqb (x_symbol x) "WUSD" = false -> friction e x = 0.
  Proof. intros H. unfold friction. now rewrite H. Qed.

  Lemma onto_zero reg u k : onto reg u k 0 = 0.
  Proof. unfold onto. destruct (denotes pk_keyid reg u); auto. destruct (k =? n); auto. Qed.

  Lemma create_order_moved st id v st' :
    tinv st -> create_order st id v = Some st' -> moved st st' zero3 v.
  Proof.
    intros T. unfold create_order. destruct (fmem N.eqb (t_orders st) id) eqn:E; [discriminate|].
    intros H; inversion H; subst; clear H.
    assert (Hn : NoDup (map fst (fput N.eqb (t_orders st) id v)))
      by (apply (nodup_put N.eqb N_eqb_ok), T).
    constructor; auto; simpl.
    - destruct T; constructor; auto.
    - intros. unfold zero3. change (commit _) with (commit st). lia.
    - pose proof (msum_put N.eqb N_eqb_ok (fun v => v) (t_orders st) id v (ti_orders st T)) as H.
      unfold fval in H. unfold fmem in E. destruct (fget N.eqb (t_orders st) id); [discriminate|]. lia.
  Qed.

  Definition friction_change (e : tenv) (reg : list (regid * N)) (sender fee : N)
      (k : N) (s : string) (b : bucket) : Z :=
    if String.eqb "WUSD" s then
      match b with
      | BFree => (- (if (k =? sender)%N then Z.of_N fee else 0))%Z
      | BFrozen => Z.of_N (onto reg (UReg (e_fcoin e)) k fee)
      | _ => 0%Z
      end
    else 0%Z.

  Lemma fee_step e sender i fee st st1 f st2 st3 st4 :
    tinv st -> l_get (t_mem st) sender <> None -> (forall s, supply (commit st) s < two64) ->
    get_account pk_keyid st (UReg (e_fcoin e)) = (Some f, st1) ->
    m_operate st1 sender WUSD SubFree fee (Some f) = (true, st2) ->
    m_operate st2 f WUSD Freeze fee None = (true, st3) ->
    create_order st3 (e_order_id e i) fee = Some st4 ->
    moved st st4 (friction_change e (t_reg st4) sender fee) fee.
  Proof.
    intros T Hm Hs G1 G2 G3 G4.
    destruct (get_account_some _ _ _ _ T G1) as (T1 & X1 & M1 & D1).
    pose proof (extends_moved _ _ T T1 X1) as V1.
    assert (V2 := m_operate_moved st1 sender WUSD SubFree fee (Some f) st2 T1
      (mv_mem _ _ _ _ V1 _ Hm)).
    specialize (V2 ltac:(intros k Hk; inversion Hk; subst; auto) G2 eq_refl
      ltac:(reflexivity) ltac:(rewrite (mv_supply _ _ _ _ V1); auto)).
    assert (T2 : tinv st2) by apply V2.
    assert (V3 := m_operate_moved st2 f WUSD Freeze fee None st3 T2 (mv_mem _ _ _ _ V2 _ M1)
      ltac:(discriminate) G3 eq_refl ltac:(reflexivity)
      ltac:(rewrite (mv_supply _ _ _ _ V2), (mv_supply _ _ _ _ V1); auto)).
    assert (T3 : tinv st3) by apply V3.
    pose proof (create_order_moved _ _ _ _ T3 G4) as V4.
    pose proof (moved_trans _ _ _ _ _ _ _ _ _ V1 V2 (fun _ _ _ => eq_refl) eq_refl) as W2.
    pose proof (moved_trans _ _ _ _ _ _ _ _ _ W2 V3 (fun _ _ _ => eq_refl) eq_refl) as W3.
    pose proof (moved_trans _ _ _ _ _ _ _ _ _ W3 V4 (fun _ _ _ => eq_refl) eq_refl) as W4.
    eapply moved_ext; [exact W4 | | lia].
    intros k s b. unfold friction_change, zero3, onto.
    rewrite (denotes_mono (t_reg st) (t_reg st4) (UReg (e_fcoin e)) f (mv_reg _ _ _ _ W4) D1).
    unfold WUSD. rewrite (String.eqb_sym "WUSD" s). cbn [credited debited internal at_place].
    destruct (String.eqb s "WUSD"); destruct b; simpl;
      destruct (k =? sender), (k =? f); simpl; lia.
  Qed.

  Lemma calc_friction e x c :
    e_friction e <= 10000 -> calc_amount_by_ratio (x_amount x) (e_friction e) ratio_boost = Some c ->
    String.eqb (x_symbol x) "WUSD" = true -> c = friction e x.
  Proof.
    unfold calc_amount_by_ratio, ratio_boost, friction. intros _ H Hs. rewrite Hs.
    destruct (two64 - 1 <? _); congruence.
  Qed.

  Lemma exec_xfer_ok e from_pub n sender i x st st' :
    tinv st -> l_get (t_mem st) sender <> None -> (forall s, supply (commit st) s < two64) ->
    e_friction e <= 10000 -> x_amount x < two64 ->
    (from_pub = false -> n = 1%nat -> fget regid_eqb (t_reg st) (e_height e, e_index e) = None) ->
    exec_xfer pk_keyid e from_pub n sender i x st = Some st' ->
    (exists d, denotes pk_keyid (t_reg st') (x_to x) = Some d) /\
    (0 < friction e x -> exists f, denotes pk_keyid (t_reg st') (UReg (e_fcoin e)) = Some f) /\
    moved st st' (xfer_change e (t_reg st') sender x) (friction e x).
  Proof.
    intros T Hm Hs Hf Ha Hfr H. unfold exec_xfer in H.
    set (AF := if String.eqb (x_symbol x) WUSD then _ else _) in H.
    assert (A : forall st1 actual, AF = Some (st1, actual) ->
      actual = x_amount x - friction e x /\ t_reg st1 = t_reg st /\
      (0 < friction e x -> exists f, denotes pk_keyid (t_reg st1) (UReg (e_fcoin e)) = Some f) /\
      moved st st1 (friction_change e (t_reg st1) sender (friction e x)) (friction e x)).
    { assert (Z0 : friction e x = 0 -> forall reg, moved st st (friction_change e reg sender (friction e x)) (friction e x)).
      { intros E0 reg. rewrite E0. eapply moved_ext; [apply moved_refl; auto| |reflexivity].
        intros k s b. unfold friction_change, zero3. rewrite onto_zero.
        destruct (String.eqb "WUSD" s), b, (k =? sender); auto. }
      intros st1 actual. unfold AF. destruct (String.eqb (x_symbol x) WUSD) eqn:Esym.
      - destruct (calc_amount_by_ratio _ _ _) as [c|] eqn:Ec; [|discriminate].
        apply calc_friction in Ec; auto. subst c.
        destruct (0 <? friction e x) eqn:E0.
        + destruct (get_account pk_keyid st (UReg (e_fcoin e))) as [[f|] sa] eqn:G1; [|discriminate].
          destruct (m_operate sa sender WUSD SubFree _ _) as [[|] sb] eqn:G2; [|discriminate].
          destruct (m_operate sb f WUSD Freeze _ None) as [[|] sc] eqn:G3; [|discriminate].
          destruct (create_order sc _ _) as [sd|] eqn:G4; [|discriminate].
          intros X; inversion X; subst; clear X.
          split. { rewrite sub64_small; auto. apply friction_le; auto. }
          pose proof (fee_step _ _ _ _ _ _ _ _ _ _ T Hm Hs G1 G2 G3 G4) as V.
          destruct (get_account_some _ _ _ _ T G1) as (T1 & X1 & M1 & D1).
          split.
          { destruct X1 as (_ & R1 & _). unfold create_order in G4.
            destruct (fmem _ _ _); [discriminate|]. inversion G4; subst; simpl.
            unfold m_operate in G2, G3. destruct (l_operate (t_mem sa) _ _ _ _ _).
            destruct (l_operate (t_mem sb) _ _ _ _ _). inversion G2; inversion G3; subst. auto. }
          split; [|exact V]. intros _. exists f. apply (denotes_mono (t_reg st)); auto. apply V.
        + intros X; inversion X; subst. assert (friction e x = 0) by lia.
          split; [lia|]. split; auto. split; [lia | apply Z0; auto].
      - intros X; inversion X; subst. pose proof (friction_non e x Esym) as E0.
        split; [lia|]. split; auto. split; [lia | apply Z0; auto]. }
    destruct AF as [[st1 actual]|]; [|discriminate].
    destruct (A _ _ eq_refl) as (Hact & Hr1 & Hfc & V1). clear A.
    set (DE := match get_account pk_keyid st1 (x_to x) with (Some d, st2) => _ | (None, st2) => _ end) in H.
    assert (T1 : tinv st1) by apply V1.
    assert (A : forall d st2, DE = Some (d, st2) ->
      denotes pk_keyid (t_reg st1) (x_to x) = Some d /\ t_reg st2 = t_reg st1 /\
      l_get (t_mem st2) d <> None /\ moved st1 st2 zero3 0).
    { intros d st2. unfold DE. destruct (get_account pk_keyid st1 (x_to x)) as [[d0|] s0] eqn:G.
      - intros X; inversion X; subst. destruct (get_account_some _ _ _ _ T1 G) as (T2 & X2 & M2 & D2).
        split; auto. split; [apply X2|]. split; auto. apply extends_moved; auto.
      - destruct (get_account_none _ _ _ T1 G) as [-> Hn].
        assert (K : forall k, denotes pk_keyid (t_reg st1) (x_to x) = Some k ->
          Some (k, new_mem_account st1 k) = Some (d, st2) ->
          denotes pk_keyid (t_reg st1) (x_to x) = Some d /\ t_reg st2 = t_reg st1 /\
          l_get (t_mem st2) d <> None /\ moved st1 st2 zero3 0).
        { intros k Hk X; inversion X; subst.
          destruct (new_mem_account_ok st1 d T1 (Hn _ Hk)) as (T2 & B2 & M2 & R2 & O2 & Q2).
          split; auto. split; auto. split; auto. apply same_lbal_moved; auto. now rewrite R2. }
        destruct (x_to x) as [r|k|p|]; try discriminate; apply K; auto. }
    destruct DE as [[d st2]|]; [|discriminate].
    destruct (A _ _ eq_refl) as (Hd & Hr2 & Hm2 & V2). clear A.
    match type of H with context [m_operate ?X sender _ SubFree _ _] => set (st3 := X) in H end.
    assert (T2 : tinv st2) by apply V2.
    assert (V3 : moved st2 st3 zero3 0).
    { subst st3. destruct (x_to x) as [r|k|p|]; try (apply moved_refl; auto).
      destruct (negb from_pub && Nat.eqb n 1 && negb _) eqn:E; [|apply moved_refl; auto].
      destruct (fget N.eqb (t_mem st2) d) as [a|] eqn:Ea; [|exfalso; apply Hm2; unfold l_get; now rewrite Ea].
      rewrite negb_involutive in E. apply andb_true_iff in E as [E E3]. apply andb_true_iff in E as [E1 E2].
      apply Nat.eqb_eq in E2. destruct from_pub; [discriminate|].
      simpl in Hd. inversion Hd as [Hd'].
      destruct (register_ok st2 d p (e_height e) (e_index e) a T2 Ea E3 Hd') as (T3 & B3 & O3 & R3 & M3).
      { rewrite Hr2, Hr1. auto. }
      rewrite Hd' in *. apply same_lbal_moved; auto. }
    destruct (m_operate st3 sender (x_symbol x) SubFree actual (Some d)) as [[|] st4] eqn:G; [|discriminate].
    inversion H; subst st4; clear H.
    pose proof (moved_trans _ _ _ _ _ _ _ _ _ V1 V2 (fun _ _ _ => eq_refl) eq_refl) as W2.
    pose proof (moved_trans _ _ _ _ _ _ _ _ _ W2 V3 (fun _ _ _ => eq_refl) eq_refl) as W3.
    assert (T3 : tinv st3) by apply V3.
    assert (V4 := m_operate_moved st3 sender (x_symbol x) SubFree actual (Some d) st' T3
      (mv_mem _ _ _ _ W3 _ Hm)).
    specialize (V4 ltac:(intros k Hk; inversion Hk; subst; apply (mv_mem _ _ _ _ V3); auto) G eq_refl
      ltac:(reflexivity) ltac:(rewrite (mv_supply _ _ _ _ W3); auto)).
    pose proof (moved_trans _ _ _ _ _ _ _ _ _ W3 V4 (fun _ _ _ => eq_refl) eq_refl) as W4.
    assert (R : forall r k, fget regid_eqb (t_reg st1) r = Some k -> fget regid_eqb (t_reg st') r = Some k).
    { intros r k Hk. apply (mv_reg _ _ _ _ V4), (mv_reg _ _ _ _ V3), (mv_reg _ _ _ _ V2); auto. }
    pose proof (denotes_mono _ (t_reg st') _ _ R Hd) as Hd'.
    split; [eauto|]. split.
    { intros E0. destruct (Hfc E0) as (f & Hff). exists f. eapply denotes_mono; eauto. }
    eapply moved_ext; [exact W4| |lia].
    intros k s b. unfold xfer_change, friction_change, zero3.
    assert (Ho : onto (t_reg st1) (UReg (e_fcoin e)) k (friction e x) = onto (t_reg st') (UReg (e_fcoin e)) k (friction e x)).
    { destruct (friction e x =? 0) eqn:E0.
      - apply N.eqb_eq in E0. rewrite E0, !onto_zero. auto.
      - destruct Hfc as (f & Hff); [lia|]. unfold onto. rewrite Hff.
        now rewrite (denotes_mono _ (t_reg st') _ _ R Hff). }
    assert (Ho2 : forall v, onto (t_reg st') (x_to x) k v = if k =? d then v else 0)
      by (intros v; unfold onto; rewrite Hd'; auto).
    rewrite Ho, Ho2. cbn [credited debited internal at_place]. pose proof (friction_le e x Hf) as Hfl. rewrite Hact.
    rewrite (String.eqb_sym (x_symbol x) s).
    destruct (String.eqb s (x_symbol x)) eqn:Es.
    - apply String.eqb_eq in Es; subst s. rewrite (String.eqb_sym "WUSD").
      destruct (String.eqb (x_symbol x) "WUSD") eqn:Ew.
      + destruct b; simpl; rewrite ?String.eqb_refl; destruct (k =? d), (k =? sender); simpl; try lia.
      + rewrite (friction_non e x Ew). destruct b; simpl; rewrite ?String.eqb_refl;
        destruct (k =? d), (k =? sender); simpl; try lia.
    - destruct (String.eqb "WUSD" s) eqn:Ew.
      + apply String.eqb_eq in Ew; subst s. rewrite String.eqb_sym in Es.
        rewrite (friction_non e x Es). rewrite onto_zero.
        destruct b; simpl; rewrite ?Es, ?andb_false_r; destruct (k =? d), (k =? sender); simpl; lia.
      + destruct b; simpl; rewrite ?Es, ?andb_false_r; destruct (k =? d), (k =? sender); simpl; lia.
  Qed.

  Lemma xfer_change_mono e reg reg' sender x k s b d :
    (forall r k, fget regid_eqb reg r = Some k -> fget regid_eqb reg' r = Some k) ->
    denotes pk_keyid reg (x_to x) = Some d ->
    (0 < friction e x -> exists f, denotes pk_keyid reg (UReg (e_fcoin e)) = Some f) ->
    xfer_change e reg' sender x k s b = xfer_change e reg sender x k s b.
  Proof.
    intros R Hd Hf. unfold xfer_change.
    assert (H1 : forall v, onto reg' (x_to x) k v = onto reg (x_to x) k v).
    { intros v. unfold onto. rewrite Hd, (denotes_mono _ _ _ _ R Hd). auto. }
    assert (H2 : onto reg' (UReg (e_fcoin e)) k (friction e x) = onto reg (UReg (e_fcoin e)) k (friction e x)).
    { destruct (friction e x =? 0) eqn:E0.
      - apply N.eqb_eq in E0. rewrite E0, !onto_zero. auto.
      - destruct Hf as (f & Hff); [lia|]. unfold onto. rewrite Hff.
        now rewrite (denotes_mono _ _ _ _ R Hff). }
    rewrite H1, H2. auto.
  Qed.

  Fixpoint xfers_change (e : tenv) (reg : list (regid * N)) (sender : N) (xs : list xfer)
      (k : N) (s : string) (b : bucket) : Z :=
    match xs with
    | [] => 0%Z
    | x :: xs' => (xfer_change e reg sender x k s b + xfers_change e reg sender xs' k s b)%Z
    end.

  Lemma exec_xfers_ok e from_pub n sender : e_friction e <= 10000 ->
    forall xs i st st',
    tinv st -> l_get (t_mem st) sender <> None -> (forall s, supply (commit st) s < two64) ->
    (forall x, In x xs -> x_amount x < two64) ->
    (n = 1%nat -> (List.length xs <= 1)%nat) ->
    (from_pub = false -> n = 1%nat -> xs <> [] -> fget regid_eqb (t_reg st) (e_height e, e_index e) = None) ->
    exec_xfers pk_keyid e from_pub n sender i xs st = Some st' ->
    (forall x, In x xs -> exists d, denotes pk_keyid (t_reg st') (x_to x) = Some d) /\
    moved st st' (xfers_change e (t_reg st') sender xs) (friction_total e xs).
  Proof.
    intros Hf. induction xs as [|x xs IH]; intros i st st' T Hm Hs Ha Hn Hfr H; simpl in H.
    - inversion H; subst. split; [simpl; tauto|]. apply moved_refl; auto.
    - destruct (exec_xfer pk_keyid e from_pub n sender i x st) as [st1|] eqn:E; [|discriminate].
      assert (H1 := exec_xfer_ok e from_pub n sender i x st st1 T Hm Hs Hf (Ha x (or_introl eq_refl))).
      destruct H1 as ((d & Hd) & Hfc & V1); auto. { intros A B. apply Hfr; auto. discriminate. }
      assert (T1 : tinv st1) by apply V1.
      destruct (IH (i + 1) st1 st' T1) as [K1 V2]; auto.
      + apply V1; auto.
      + intros s. rewrite (mv_supply _ _ _ _ V1). auto.
      + intros y Hy. apply Ha. right; auto.
      + intros E1. specialize (Hn E1). simpl in Hn. lia.
      + intros _ E1 Hx. specialize (Hn E1). simpl in Hn. destruct xs; [congruence | simpl in Hn; lia].
      + pose proof (mv_reg _ _ _ _ V2) as R. split.
        * intros y [->|Hy]; auto. exists d. eapply denotes_mono; eauto.
        * eapply moved_trans; [exact V1 | exact V2 | | reflexivity].
          intros k s b. simpl. f_equal. eapply xfer_change_mono; eauto.
  Qed.

  Lemma save_all_ok : forall m acc reg acc' reg',
    (forall k a, In (k, a) m -> a_keyid a = k) ->
    save_all acc reg m = (acc', reg') ->
    acc' = fold_left (fun L (ka : N * account) => l_put L (fst ka) (snd ka)) m acc.
  Proof.
    induction m as [|[k a] m IH]; intros acc reg acc' reg' Hk H; simpl in *.
    - congruence.
    - rewrite (Hk k a (or_introl eq_refl)) in H. eapply IH; [|exact H]. auto.
  Qed.

  Lemma save_all_reg : forall m acc reg acc' reg',
    (forall k a, In (k, a) m -> a_keyid a = k /\ (regid_empty (a_regid a) = false -> fget regid_eqb reg (a_regid a) = Some k)) ->
    save_all acc reg m = (acc', reg') ->
    forall r, fget regid_eqb reg' r = fget regid_eqb reg r.
  Proof.
    induction m as [|[k a] m IH]; intros acc reg acc' reg' Hk H r; simpl in *.
    - congruence.
    - destruct (Hk k a (or_introl eq_refl)) as [Ka Hr].
      destruct (regid_empty (a_regid a)) eqn:E.
      + eapply IH; [|exact H]. auto.
      + assert (X : forall r, fget regid_eqb (fput regid_eqb reg (a_regid a) (a_keyid a)) r = fget regid_eqb reg r).
        { intros r0. rewrite (fget_put regid_eqb regid_eqb_ok). destruct (regid_eqb r0 (a_regid a)) eqn:E2; auto.
          apply regid_eqb_ok in E2; subst r0. rewrite Hr; auto. congruence. }
        rewrite <- X. eapply IH; [|exact H]. intros k0 a0 H0. destruct (Hk k0 a0 (or_intror H0)).
        split; auto. rewrite X. auto.
  Qed.

  (** A transaction around a body that moves balances by [D] and adds orders worth [w]. *)
  Lemma execute_full_ok e u fs fee body st st' D w (P : list (regid * N) -> Prop) :
    consistent pk_keyid (t_acc st) (t_reg st) -> NoDup (map fst (t_orders st)) ->
    (forall s, supply (t_acc st) s < two64) ->
    fget regid_eqb (t_reg st) (e_height e, e_index e) = None ->
    (forall k st4 st5, body k st4 = Some st5 -> tinv st4 -> l_get (t_mem st4) k <> None ->
       (forall s, supply (commit st4) s < two64) ->
       (is_pub u = false -> fget regid_eqb (t_reg st4) (e_height e, e_index e) = None) ->
       moved st4 st5 (D (t_reg st5) k) w /\ P (t_reg st5)) ->
    (forall reg reg', (forall r, fget regid_eqb reg r = fget regid_eqb reg' r) -> P reg -> P reg') ->
    (forall reg reg' k k0 s b, (forall r, fget regid_eqb reg r = fget regid_eqb reg' r) -> D reg k k0 s b = D reg' k k0 s b) ->
    execute_full pk_keyid e u fs fee body st = Some st' ->
    consistent pk_keyid (t_acc st') (t_reg st') /\ P (t_reg st') /\
    (forall r k, fget regid_eqb (t_reg st) r = Some k -> fget regid_eqb (t_reg st') r = Some k) /\
    msum (fun v => v) (t_orders st') = msum (fun v => v) (t_orders st) + w /\
    (forall s, supply (t_acc st') s + fee_in fs fee s = supply (t_acc st) s) /\
    exists k, denotes pk_keyid (t_reg st) u = Some k /\
      (forall k' s b, Z.of_N (lbal (t_acc st') k' s b) = (Z.of_N (lbal (t_acc st) k' s b)
         - Z.of_N (at_place (Some (k, BFree)) fs fee k' s b) + D (t_reg st') k k' s b)%Z).
  Proof.
    intros [W G] No Hs Hfr Hbody HP HD H. unfold execute_full in H.
    set (st0 := mkTx (t_acc st) (t_reg st) [] None (t_orders st)) in H.
    assert (T0 : tinv st0).
    { constructor; simpl; auto. split; [constructor | discriminate]. discriminate. }
    destruct (get_account pk_keyid st0 u) as [[k|] st1] eqn:G1; [|discriminate].
    destruct (get_account_some _ _ _ _ T0 G1) as (T1 & X1 & M1 & D1).
    pose proof (extends_moved _ _ T0 T1 X1) as V1.
    set (st2 := mkTx (t_acc st1) (t_reg st1) (t_mem st1) (Some k) (t_orders st1)) in H.
    assert (T2 : tinv st2) by (destruct T1; constructor; auto).
    assert (V2 : moved st1 st2 zero3 0).
    { apply same_lbal_moved; auto. }
    match type of H with context [if 0 <? fee then m_operate ?X _ _ _ _ _ else _] => set (st3 := X) in H end.
    assert (Hr1 : t_reg st1 = t_reg st) by apply X1.
    assert (V3 : moved st2 st3 zero3 0).
    { subst st3. destruct u as [r|k1|p|]; try (apply moved_refl; auto).
      destruct (match fget N.eqb (t_mem st2) k with Some a => _ | None => _ end) eqn:E; [apply moved_refl; auto|].
      destruct (fget N.eqb (t_mem st2) k) as [a|] eqn:Ea; [|exfalso; apply M1; exact Ea].
      apply negb_false_iff in E. simpl in D1. inversion D1 as [D1'].
      destruct (register_ok st2 k p (e_height e) (e_index e) a T2 Ea E D1') as (T3 & B3 & O3 & R3 & M3).
      { simpl. rewrite Hr1. auto. }
      rewrite D1' in *. apply same_lbal_moved; auto. }
    assert (Hr3 : is_pub u = false -> fget regid_eqb (t_reg st3) (e_height e, e_index e) = None).
    { intros Hu. subst st3. destruct u; try discriminate; simpl; rewrite Hr1; auto. }
    pose proof (moved_trans _ _ _ _ _ _ _ _ _ V1 V2 (fun _ _ _ => eq_refl) eq_refl) as W2.
    pose proof (moved_trans _ _ _ _ _ _ _ _ _ W2 V3 (fun _ _ _ => eq_refl) eq_refl) as W3.
    assert (T3 : tinv st3) by apply V3.
    assert (M3 : l_get (t_mem st3) k <> None) by (apply (mv_mem _ _ _ _ V3); exact M1).
    assert (C0 : commit st0 = t_acc st) by reflexivity.
    assert (B3 : forall k' s b, lbal (commit st3) k' s b = lbal (t_acc st) k' s b).
    { intros. pose proof (mv_bal _ _ _ _ W3 k' s b) as X. unfold zero3 in X. rewrite C0 in X. lia. }
    assert (S3 : forall s, supply (commit st3) s = supply (t_acc st) s).
    { intros. rewrite (mv_supply _ _ _ _ W3). now rewrite C0. }
    set (CH := if 0 <? fee then _ else _) in H.
    assert (A : forall st4, CH = (true, st4) ->
       tinv st4 /\ t_reg st4 = t_reg st3 /\ t_orders st4 = t_orders st3 /\ l_get (t_mem st4) k <> None /\
       (forall s, supply (commit st4) s + fee_in fs fee s = supply (t_acc st) s) /\
       (forall k' s b, Z.of_N (lbal (commit st4) k' s b) = (Z.of_N (lbal (t_acc st) k' s b)
         - Z.of_N (at_place (Some (k, BFree)) fs fee k' s b))%Z)).
    { intros st4. unfold CH. destruct (0 <? fee) eqn:E0.
      - intros Hc. destruct (m_operate_delta st3 k fs SubFree fee None st4 T3 M3) as (T4 & R4 & O4 & K4 & M4 & S4 & B4); auto.
        { discriminate. } { cbn [mint_of q_op]. rewrite S3. specialize (Hs fs). lia. }
        split; auto. split; auto. split; auto. split; auto. split.
        + intros s. specialize (S4 s). unfold burn_of, mint_of in S4. cbn [q_op q_other q_symbol q_amount] in S4.
          unfold fee_in. rewrite <- S3. lia.
        + intros. rewrite B4, B3. cbn [debited credited]. rewrite at_none. lia.
      - intros Hc; inversion Hc; subst st4. assert (fee = 0) by lia. subst fee.
        split; auto. split; auto. split; auto. split; auto. split.
        + intros s. rewrite S3. unfold fee_in. destruct (String.eqb fs s); lia.
        + intros. rewrite B3. unfold at_place. destruct (_ && _); lia. }
    destruct CH as [[|] st4]; [|discriminate].
    destruct (A _ eq_refl) as (T4 & R4 & O4 & M4 & S4 & B4).
    destruct (body k st4) as [st5|] eqn:Hb; [|discriminate].
    assert (V5 := Hbody _ _ _ Hb T4 M4).
    specialize (V5 ltac:(intros s; specialize (S4 s); specialize (Hs s); lia) ltac:(rewrite R4; auto)).
    destruct V5 as [V5 P5]. assert (T5 : tinv st5) by apply V5.
    destruct (save_all (t_acc st5) (t_reg st5) (t_mem st5)) as [acc reg] eqn:Sv.
    inversion H; subst st'; clear H. cbn [t_acc t_reg t_orders].
    assert (Hin : forall k a, In (k, a) (t_mem st5) -> a_keyid a = k /\ (regid_empty (a_regid a) = false -> fget regid_eqb (t_reg st5) (a_regid a) = Some k)).
    { intros k0 a0 H0. apply (in_fget N.eqb N_eqb_ok) in H0; [|apply T5]. split.
      - apply (ti_mem st5 T5); auto.
      - apply (ti_good_mem st5 T5); auto. }
    assert (Ha : acc = commit st5) by (eapply save_all_ok; [|exact Sv]; intros; apply Hin; auto).
    pose proof (save_all_reg _ _ _ _ _ Hin Sv) as Hreg.
    subst acc. repeat split.
    - apply commit_wf; auto.
    - apply commit_wf; auto.
    - intros p. rewrite (commit_get _ _ T5) in H. destruct (l_get (t_mem st5) k0) eqn:Em.
      + inversion H; subst. apply (ti_good_mem st5 T5); auto.
      + apply (ti_good_acc st5 T5); auto.
    - intros Hn. rewrite Hreg. rewrite (commit_get _ _ T5) in H. destruct (l_get (t_mem st5) k0) eqn:Em.
      + inversion H; subst. apply (ti_good_mem st5 T5); auto.
      + apply (ti_good_acc st5 T5); auto.
    - eapply HP; [|exact P5]. auto.
    - intros r k0 Hk0. rewrite Hreg. apply (mv_reg _ _ _ _ V5). rewrite R4.
      apply (mv_reg _ _ _ _ W3). exact Hk0.
    - rewrite (mv_orders _ _ _ _ V5), O4, (mv_orders _ _ _ _ W3). simpl. lia.
    - intros s. rewrite (mv_supply _ _ _ _ V5). apply S4.
    - exists k. split; auto. intros. rewrite (mv_bal _ _ _ _ V5), B4.
      rewrite (HD reg (t_reg st5)); auto.
  Qed.

  Lemma xfers_sum e reg sender : e_friction e <= 10000 ->
    forall xs k s b, xfers_change e reg sender xs k s b =
    match b with
    | BFree => (Z.of_N (received pk_keyid e reg xs k s) - (if (k =? sender)%N then Z.of_N (sent xs s) else 0))%Z
    | BFrozen => if String.eqb "WUSD" s then Z.of_N (onto reg (UReg (e_fcoin e)) k (friction_total e xs)) else 0%Z
    | _ => 0%Z
    end.
  Proof.
    intros Hf. induction xs as [|x xs IH]; intros k s b.
    - unfold friction_total. cbn [map nsum fold_right]. rewrite onto_zero.
      destruct b; auto; cbn [xfers_change].
      + destruct (k =? sender); reflexivity.
      + destruct (String.eqb "WUSD" s); reflexivity.
    - cbn [xfers_change]. rewrite IH. pose proof (friction_le e x Hf). unfold xfer_change.
      destruct b; auto.
      + unfold received, sent. cbn [map nsum fold_right]. unfold goes_to, onto.
        destruct (String.eqb (x_symbol x) s); simpl; destruct (denotes pk_keyid reg (x_to x)) as [d|];
          try (destruct (k =? d)); destruct (k =? sender); lia.
      + destruct (String.eqb "WUSD" s); auto. unfold friction_total. cbn [map nsum fold_right].
        unfold onto. destruct (denotes _ _ _); try lia. destruct (k =? n); lia.
  Qed.

  Lemma coin_transfer_ok e tx st st' :
    consistent pk_keyid (t_acc st) (t_reg st) -> NoDup (map fst (t_orders st)) ->
    (forall s, supply (t_acc st) s < two64) ->
    fget regid_eqb (t_reg st) (e_height e, e_index e) = None ->
    e_friction e <= 10000 -> (forall x, In x (c_xfers tx) -> x_amount x < two64) ->
    exec_coin_transfer pk_keyid e tx st = Some st' ->
    consistent pk_keyid (t_acc st') (t_reg st') /\
    (forall x, In x (c_xfers tx) -> exists d, denotes pk_keyid (t_reg st') (x_to x) = Some d) /\
    (forall r k, fget regid_eqb (t_reg st) r = Some k -> fget regid_eqb (t_reg st') r = Some k) /\
    msum (fun v => v) (t_orders st') = msum (fun v => v) (t_orders st) + friction_total e (c_xfers tx) /\
    (forall s, supply (t_acc st') s + fee_in (c_fee_symbol tx) (c_fee tx) s = supply (t_acc st) s) /\
    exists k, denotes pk_keyid (t_reg st) (c_uid tx) = Some k /\
      forall k' s b, Z.of_N (lbal (t_acc st') k' s b) = (Z.of_N (lbal (t_acc st) k' s b) +
        match b with
        | BFree => Z.of_N (received pk_keyid e (t_reg st') (c_xfers tx) k' s)
             - (if (k' =? k)%N then Z.of_N (sent (c_xfers tx) s) + Z.of_N (fee_in (c_fee_symbol tx) (c_fee tx) s) else 0)
        | BFrozen => if String.eqb "WUSD" s
             then Z.of_N (match fget regid_eqb (t_reg st') (e_fcoin e) with
                          | Some f => if (k' =? f)%N then friction_total e (c_xfers tx) else 0%N
                          | None => 0%N end)
             else 0
        | _ => 0
        end)%Z.
  Proof.
    intros C No Hs Hfr Hf Ha H. unfold exec_coin_transfer in H.
    destruct (execute_full_ok e (c_uid tx) (c_fee_symbol tx) (c_fee tx)
      (fun k => exec_xfers pk_keyid e (is_pub (c_uid tx)) (List.length (c_xfers tx)) k 0 (c_xfers tx)) st st'
      (fun reg k => xfers_change e reg k (c_xfers tx)) (friction_total e (c_xfers tx))
      (fun reg => forall x, In x (c_xfers tx) -> exists d, denotes pk_keyid reg (x_to x) = Some d)
      C No Hs Hfr) with (4 := H) as (R1 & R0 & R2 & R3 & R4 & k & R5 & R6).
    - intros k st4 st5 Hb T4 M4 S4 F4.
      destruct (exec_xfers_ok e (is_pub (c_uid tx)) (List.length (c_xfers tx)) k Hf (c_xfers tx) 0 st4 st5 T4 M4 S4 Ha);
        auto. intros E. lia.
    - intros reg reg' E HP x Hx. destruct (HP x Hx) as (d & Hd). exists d. rewrite <- Hd.
      destruct (x_to x); simpl; auto.
    - intros reg reg' k k0 s b E. rewrite !xfers_sum by auto.
      assert (Ed : forall u, denotes pk_keyid reg u = denotes pk_keyid reg' u) by (destruct u; simpl; auto).
      destruct b; auto.
      + f_equal. f_equal. unfold received. f_equal. apply map_ext. intros x. unfold goes_to. now rewrite Ed.
      + unfold onto. now rewrite Ed.
    - split; auto. split; auto. split; auto. split; auto. split; auto. exists k. split; auto.
      intros. rewrite R6, xfers_sum by auto. unfold fee_in, onto. cbn [denotes].
      unfold at_place. rewrite (String.eqb_sym s).
      destruct b; cbn [bucket_eqb]; rewrite ?andb_false_r, ?andb_true_r; try lia.
      destruct (k' =? k), (String.eqb (c_fee_symbol tx) s); simpl; lia.
  Qed.

  Lemma base_transfer_ok e u fs fee to amount st st' :
    consistent pk_keyid (t_acc st) (t_reg st) -> NoDup (map fst (t_orders st)) ->
    (forall s, supply (t_acc st) s < two64) ->
    fget regid_eqb (t_reg st) (e_height e, e_index e) = None ->
    exec_base_transfer pk_keyid e u fs fee to amount st = Some st' ->
    consistent pk_keyid (t_acc st') (t_reg st') /\
    (forall s, supply (t_acc st') s + fee_in fs fee s = supply (t_acc st) s) /\
    exists k d, denotes pk_keyid (t_reg st) u = Some k /\ denotes pk_keyid (t_reg st') to = Some d /\
      forall k' s b, Z.of_N (lbal (t_acc st') k' s b) = (Z.of_N (lbal (t_acc st) k' s b)
        - Z.of_N (at_place (Some (k, BFree)) fs fee k' s b)
        - Z.of_N (at_place (Some (k, BFree)) "WICC" amount k' s b)
        + Z.of_N (at_place (Some (d, BFree)) "WICC" amount k' s b))%Z.
  Proof.
    intros C No Hs Hfr H. unfold exec_base_transfer in H.
    assert (Body : forall k st4 st5, exec_base_body pk_keyid to amount k st4 = Some st5 ->
       tinv st4 -> l_get (t_mem st4) k <> None -> (forall s, supply (commit st4) s < two64) ->
       exists d, denotes pk_keyid (t_reg st5) to = Some d /\
       moved st4 st5 (fun k' s b => (Z.of_N (onto (t_reg st5) to k' (if String.eqb s "WICC" && bucket_eqb b BFree then amount else 0))
          - Z.of_N (at_place (Some (k, BFree)) "WICC" amount k' s b))%Z) 0).
    { intros k st4 st5 Hb T M S. unfold exec_base_body in Hb.
      set (DE := match get_account pk_keyid st4 to with (Some d, st2) => _ | (None, st2) => _ end) in Hb.
      assert (A : forall d st2, DE = Some (d, st2) ->
        denotes pk_keyid (t_reg st4) to = Some d /\ l_get (t_mem st2) d <> None /\ moved st4 st2 zero3 0).
      { intros d st2. unfold DE. destruct (get_account pk_keyid st4 to) as [[d0|] s0] eqn:G.
        - intros X; inversion X; subst. destruct (get_account_some _ _ _ _ T G) as (T2 & X2 & M2 & D2).
          split; auto. split; auto. apply extends_moved; auto.
        - destruct (get_account_none _ _ _ T G) as [-> Hn]. destruct to; try discriminate.
          intros X; inversion X; subst.
          destruct (new_mem_account_ok st4 d T (Hn _ eq_refl)) as (T2 & B2 & M2 & R2 & O2 & Q2).
          split; auto. split; auto. apply same_lbal_moved; auto. now rewrite R2. }
      destruct DE as [[d st2]|]; [|discriminate].
      destruct (A _ _ eq_refl) as (Hd & Hm2 & V2). clear A.
      destruct (m_operate st2 k WICC SubFree amount (Some d)) as [[|] st3] eqn:G; [|discriminate].
      inversion Hb; subst st3.
      assert (T2 : tinv st2) by apply V2.
      assert (V4 := m_operate_moved st2 k WICC SubFree amount (Some d) st5 T2 (mv_mem _ _ _ _ V2 _ M)).
      specialize (V4 ltac:(intros k0 Hk; inversion Hk; subst; auto) G eq_refl
        ltac:(reflexivity) ltac:(rewrite (mv_supply _ _ _ _ V2); auto)).
      pose proof (moved_trans _ _ _ _ _ _ _ _ _ V2 V4 (fun _ _ _ => eq_refl) eq_refl) as W4.
      pose proof (denotes_mono _ (t_reg st5) _ _ (mv_reg _ _ _ _ W4) Hd) as Hd'.
      exists d. split; auto. eapply moved_ext; [exact W4 | | lia].
      intros k' s b. unfold onto. rewrite Hd'. unfold zero3, WICC. cbn [credited debited at_place].
      destruct (k' =? d); cbn [andb]; auto. }
    destruct (execute_full_ok e u fs fee (exec_base_body pk_keyid to amount) st st'
      (fun reg k k' s b => (Z.of_N (onto reg to k' (if String.eqb s "WICC" && bucket_eqb b BFree then amount else 0))
          - Z.of_N (at_place (Some (k, BFree)) "WICC" amount k' s b))%Z) 0
      (fun reg => exists d, denotes pk_keyid reg to = Some d)
      C No Hs Hfr) with (4 := H) as (R1 & (d & Hd) & R2 & R3 & R4 & k & R5 & R6).
    - intros k st4 st5 Hb T4 M4 S4 F4. destruct (Body _ _ _ Hb T4 M4 S4) as (d & Hd & V). eauto.
    - intros reg reg' E (d & Hd). exists d. rewrite <- Hd. destruct to; simpl; auto.
    - intros reg reg' k k0 s b E.
      assert (Ed : denotes pk_keyid reg to = denotes pk_keyid reg' to) by (destruct to; simpl; auto).
      unfold onto. now rewrite Ed.
    - split; auto. split; auto. exists k.
      exists d. split; auto. split; auto.
      intros. rewrite R6. unfold onto. rewrite Hd. cbn [at_place].
      destruct (k' =? d), (String.eqb s "WICC"), (bucket_eqb b BFree); cbn [andb]; lia.
  Qed.

  (** C50: a body of balance operations acts on the stored ledger. *)
  Definition as_ops (rs : list ureq) : list (uid * string * balance_op * N * option uid) :=
    map (fun r => (u_who r, u_symbol r, u_op r, u_amount r, u_other r)) rs.

  Lemma find_leq reg L1 L2 u : leq L1 L2 -> find pk_keyid reg L1 u = find pk_keyid reg L2 u.
  Proof. intros H. unfold find. destruct (denotes pk_keyid reg u); auto. now rewrite H. Qed.

  Definition same_result (o1 o2 : option (list (N * account))) : Prop :=
    match o1, o2 with Some a, Some b => leq a b | None, None => True | _, _ => False end.

  Lemma run_ledger_leq reg : forall rs L1 L2, leq L1 L2 ->
    same_result (run_ledger pk_keyid reg L1 rs) (run_ledger pk_keyid reg L2 rs).
  Proof.
    induction rs as [|r rs IH]; intros L1 L2 H; simpl; auto.
    rewrite (find_leq reg L1 L2 (u_who r) H).
    destruct (find pk_keyid reg L2 (u_who r)) as [k|]; simpl; auto.
    assert (E : option_map (find pk_keyid reg L1) (u_other r) = option_map (find pk_keyid reg L2) (u_other r)).
    { destruct (u_other r); simpl; auto. now rewrite (find_leq reg L1 L2 u H). }
    rewrite E. destruct (option_map (find pk_keyid reg L2) (u_other r)) as [[j|]|]; simpl; auto.
    - destruct (l_operate_leq L1 L2 k (u_symbol r) (u_op r) (u_amount r) (Some j) H) as [F G].
      destruct (l_operate L1 k _ _ _ _) as [b1 x1], (l_operate L2 k _ _ _ _) as [b2 x2].
      simpl in F, G. subst b2. destruct b1; simpl; auto.
    - destruct (l_operate_leq L1 L2 k (u_symbol r) (u_op r) (u_amount r) None H) as [F G].
      destruct (l_operate L1 k _ _ _ _) as [b1 x1], (l_operate L2 k _ _ _ _) as [b2 x2].
      simpl in F, G. subst b2. destruct b1; simpl; auto.
  Qed.

  Lemma get_account_find st u : tinv st ->
    fst (get_account pk_keyid st u) = find pk_keyid (t_reg st) (commit st) u.
  Proof.
    intros T. destruct (get_account pk_keyid st u) as [[k|] st1] eqn:G; simpl; unfold find.
    - destruct (get_account_some _ _ _ _ T G) as (T1 & (X & _) & M1 & D1). rewrite D1.
      rewrite <- (X k). rewrite (commit_get _ _ T1). destruct (l_get (t_mem st1) k); congruence.
    - destruct (get_account_none _ _ _ T G) as [_ H]. destruct (denotes pk_keyid (t_reg st) u) as [k|]; auto.
      rewrite H; auto.
  Qed.

  Lemma exec_ops_ledger : forall rs st, tinv st ->
    same_result (option_map commit (exec_ops pk_keyid (as_ops rs) st))
                (run_ledger pk_keyid (t_reg st) (commit st) rs) /\
    forall st', exec_ops pk_keyid (as_ops rs) st = Some st' -> tinv st' /\ t_reg st' = t_reg st.
  Proof.
    induction rs as [|r rs IH]; intros st T; simpl.
    - split; [apply leq_refl|]. intros st' H; inversion H; subst; auto.
    - rewrite <- (get_account_find st (u_who r) T).
      destruct (get_account pk_keyid st (u_who r)) as [[k|] st1] eqn:G; cbn [fst]; [|simpl; split; [auto | discriminate]].
      destruct (get_account_some _ _ _ _ T G) as (T1 & (X1 & R1 & _ & _ & Q1) & M1 & _).
      set (OP := match u_other r with None => Some (None, st1) | Some u => _ end).
      assert (Op : match OP with
        | None => option_map (find pk_keyid (t_reg st) (commit st)) (u_other r) = Some None
        | Some (j, st2) => tinv st2 /\ leq (commit st2) (commit st) /\ t_reg st2 = t_reg st /\
            l_get (t_mem st2) k <> None /\ (forall k2, j = Some k2 -> l_get (t_mem st2) k2 <> None) /\
            option_map (find pk_keyid (t_reg st) (commit st)) (u_other r) = option_map Some j
        end).
      { unfold OP. destruct (u_other r) as [u|]; simpl.
        - rewrite <- R1. rewrite <- (find_leq _ _ _ u X1). rewrite <- (get_account_find st1 u T1).
          destruct (get_account pk_keyid st1 u) as [[j|] st2] eqn:G2; simpl; auto.
          destruct (get_account_some _ _ _ _ T1 G2) as (T2 & (X2 & R2 & _ & _ & Q2) & M2 & _).
          split; auto. split; [eapply leq_trans; eauto|]. split; auto. split; auto. split; auto.
          intros k2 E; inversion E; subst; auto.
        - split; auto. split; auto. split; auto. split; auto. split; auto. discriminate. }
      destruct OP as [[j st2]|].
      2: { rewrite Op. simpl. split; [destruct (u_other r); auto|discriminate]. }
      destruct Op as (T2 & X2 & R2 & M2 & O2 & ->).
      pose proof (m_operate_commit st2 k (u_symbol r) (u_op r) (u_amount r) j T2 M2 O2) as MC.
      cbv zeta in MC. destruct MC as (T3 & F3 & L3 & R3 & _).
      destruct (l_operate_leq (commit st2) (commit st) k (u_symbol r) (u_op r) (u_amount r) j X2) as [F4 L4].
      assert (Ej : match option_map Some j with Some o => o | None => None end = j) by (destruct j; auto).
      assert (Shape : same_result
        (option_map commit (match m_operate st2 k (u_symbol r) (u_op r) (u_amount r) j with
          | (true, st3) => exec_ops pk_keyid (as_ops rs) st3 | (false, _) => None end))
        (match l_operate (commit st) k (u_symbol r) (u_op r) (u_amount r) j with
          | (true, L') => run_ledger pk_keyid (t_reg st) L' rs | (false, _) => None end) /\
        forall st', match m_operate st2 k (u_symbol r) (u_op r) (u_amount r) j with
          | (true, st3) => exec_ops pk_keyid (as_ops rs) st3 | (false, _) => None end = Some st' ->
          tinv st' /\ t_reg st' = t_reg st).
      { destruct (m_operate st2 k _ _ _ j) as [b st3]. cbn [fst snd] in *.
        destruct (l_operate (commit st2) k _ _ _ j) as [b2 x2]. destruct (l_operate (commit st) k _ _ _ j) as [b4 x4].
        cbn [fst snd] in *. subst b b2. destruct b4; [|simpl; split; [auto | discriminate]].
        destruct (IH st3 T3) as [I1 I2]. split.
        - assert (Y : leq (commit st3) x4) by (eapply leq_trans; eauto).
          pose proof (run_ledger_leq (t_reg st) rs _ _ Y) as Z0. rewrite R3, R2 in I1.
          destruct (option_map commit (exec_ops pk_keyid (as_ops rs) st3)),
            (run_ledger pk_keyid (t_reg st) (commit st3) rs), (run_ledger pk_keyid (t_reg st) x4 rs);
            simpl in *; try tauto. eapply leq_trans; eauto.
        - intros st' H. destruct (I2 _ H) as [A B]. split; auto. congruence. }
      destruct j as [j|]; simpl; exact Shape.
  Qed.

  Lemma find_reg_ext reg1 reg2 L u : (forall r, fget regid_eqb reg1 r = fget regid_eqb reg2 r) ->
    find pk_keyid reg1 L u = find pk_keyid reg2 L u.
  Proof. intros H. unfold find, denotes. destruct u; auto. rewrite H; auto. Qed.

  Lemma run_ledger_reg_ext reg1 reg2 : (forall r, fget regid_eqb reg1 r = fget regid_eqb reg2 r) ->
    forall rs L, run_ledger pk_keyid reg1 L rs = run_ledger pk_keyid reg2 L rs.
  Proof.
    intros H. induction rs as [|r rs IH]; intros L; simpl; auto.
    rewrite (find_reg_ext reg1 reg2 L (u_who r) H).
    destruct (find pk_keyid reg2 L (u_who r)); auto.
    assert (E : option_map (find pk_keyid reg1 L) (u_other r) = option_map (find pk_keyid reg2 L) (u_other r)).
    { destruct (u_other r); simpl; auto. f_equal. apply find_reg_ext; auto. }
    rewrite E. destruct (option_map (find pk_keyid reg2 L) (u_other r)) as [[o|]|]; auto.
    - destruct (l_operate L n (u_symbol r) (u_op r) (u_amount r) (Some o)) as [[|] ?]; auto.
    - destruct (l_operate L n (u_symbol r) (u_op r) (u_amount r) None) as [[|] ?]; auto.
  Qed.

  (** The state of the transaction just before its body runs. *)
  Lemma entered_ok e u st0 k st1 :
    tinv st0 -> t_mem st0 = [] -> fget regid_eqb (t_reg st0) (e_height e, e_index e) = None ->
    get_account pk_keyid st0 u = (Some k, st1) ->
    let st2 := mkTx (t_acc st1) (t_reg st1) (t_mem st1) (Some k) (t_orders st1) in
    let st3 :=
      match u with
      | UPub p =>
          if match fget N.eqb (t_mem st2) k with Some a => negb (regid_empty (a_regid a)) | None => false end
          then st2 else register_account st2 k p (e_height e) (e_index e)
      | _ => st2
      end in
    let '(reg', L') := entered pk_keyid (e_height e) (e_index e) u (t_reg st0) (t_acc st0) in
    tinv st3 /\ l_get (t_mem st3) k <> None /\ leq (commit st3) L' /\
    (forall r, fget regid_eqb (t_reg st3) r = fget regid_eqb reg' r) /\
    find pk_keyid reg' L' u = Some k.
  Proof.
    intros T0 M0 Hfr G1 st2 st3.
    destruct (get_account_some _ _ _ _ T0 G1) as (T1 & (X1 & R1 & _) & M1 & D1).
    assert (T2 : tinv st2) by (destruct T1; constructor; auto).
    assert (C0 : commit st0 = t_acc st0) by (unfold commit; rewrite M0; auto).
    pose proof (get_account_find st0 u T0) as Fd. rewrite G1 in Fd. cbn [fst] in Fd. rewrite C0 in Fd.
    assert (X2 : leq (commit st2) (t_acc st0)) by (rewrite <- C0; exact X1).
    assert (Base : st3 = st2 -> tinv st3 /\ l_get (t_mem st3) k <> None /\ leq (commit st3) (t_acc st0) /\
      (forall r, fget regid_eqb (t_reg st3) r = fget regid_eqb (t_reg st0) r) /\
      find pk_keyid (t_reg st0) (t_acc st0) u = Some k).
    { intros ->. split; auto. split; [exact M1|]. split; [exact X2|]. split; [|auto].
      intros r. simpl. rewrite R1. auto. }
    unfold entered. destruct u as [r|kk|p|]; try (apply Base; reflexivity).
    assert (Ek : pk_keyid p = k).
    { unfold find, denotes in Fd. destruct (l_get (t_acc st0) (pk_keyid p)); congruence. }
    subst k. destruct (l_get (t_mem st1) (pk_keyid p)) as [a|] eqn:Ma; [|congruence].
    assert (La : l_get (t_acc st0) (pk_keyid p) = Some a).
    { rewrite <- (X2 (pk_keyid p)). rewrite (commit_get _ _ T2). simpl. rewrite Ma. auto. }
    rewrite La. subst st3. cbn [t_mem st2] in *. unfold l_get in Ma. change (t_mem st2) with (t_mem st1) in *. rewrite Ma in *.
    destruct (regid_empty (a_regid a)) eqn:Er; simpl negb in *; cbv iota in *; [|apply Base; reflexivity].
    assert (Hfr2 : fget regid_eqb (t_reg st2) (e_height e, e_index e) = None) by (simpl; rewrite R1; auto).
    pose proof (register_ok st2 (pk_keyid p) p (e_height e) (e_index e) a T2 Ma Er eq_refl Hfr2) as RO.
    cbv zeta in RO. destruct RO as (T3 & _ & _ & _ & M3).
    assert (Ka : a_keyid a = pk_keyid p) by (apply (ti_mem st2 T2); auto).
    split; [exact T3|]. split; [apply M3; unfold l_get; simpl; rewrite Ma; discriminate|].
    assert (Em : register_account st2 (pk_keyid p) p (e_height e) (e_index e) =
      mkTx (t_acc st1) (fput regid_eqb (t_reg st1) (e_height e, e_index e) (a_keyid a))
        (fput N.eqb (t_mem st1) (pk_keyid p)
          (mkAccount (a_keyid a) (e_height e, e_index e) (Some p) (a_tokens a) (a_received_votes a)
             (a_last_vote_height a) (a_last_vote_epoch a) (a_perms a))) (Some (pk_keyid p)) (t_orders st1)).
    { unfold register_account, st2. simpl. rewrite Ma. reflexivity. }
    split; [|split].
    - intros k'. rewrite (commit_get _ _ T3). rewrite Em. simpl.
      match goal with |- context [fput N.eqb (t_mem st1) ?x ?y] =>
        change (fput N.eqb (t_mem st1) x y) with (l_put (t_mem st1) x y) end.
      rewrite !lget_put. destruct (k' =? pk_keyid p) eqn:E; auto.
      rewrite <- (X2 k'). rewrite (commit_get _ _ T2). reflexivity.
    - intros r. rewrite Em. simpl. destruct (regid_eqb r (e_height e, e_index e)) eqn:E.
      + apply regid_eqb_ok in E; subst. rewrite (fget_put_same regid_eqb regid_eqb_ok). congruence.
      + rewrite (fget_put_other regid_eqb regid_eqb_ok); [congruence|].
        intros E2. subst r. rewrite (proj2 (regid_eqb_ok _ _) eq_refl) in E; discriminate.
    - unfold find, denotes. rewrite lget_put, N.eqb_refl. reflexivity.
  Qed.

  Lemma ops_tx_ledger e u fs fee rs st :
    consistent pk_keyid (t_acc st) (t_reg st) -> NoDup (map fst (t_orders st)) ->
    fget regid_eqb (t_reg st) (e_height e, e_index e) = None ->
    same_result
      (option_map t_acc (execute_full pk_keyid e u fs fee (fun _ => exec_ops pk_keyid (as_ops rs)) st))
      (run_tx pk_keyid (e_height e) (e_index e) u fs fee rs (t_reg st) (t_acc st)).
  Proof.
    intros [W G] No Hfr. unfold execute_full, run_tx.
    set (st0 := mkTx (t_acc st) (t_reg st) [] None (t_orders st)).
    assert (T0 : tinv st0).
    { constructor; simpl; auto. split; [constructor | discriminate]. discriminate. }
    change (t_acc st) with (commit st0). change (t_reg st) with (t_reg st0).
    rewrite <- (get_account_find st0 u T0). change (commit st0) with (t_acc st0).
    destruct (get_account pk_keyid st0 u) as [[k|] st1] eqn:G1; simpl fst; cbv iota beta; [|simpl; auto].
    pose proof (entered_ok e u st0 k st1 T0 eq_refl Hfr G1) as EO. cbv zeta in EO.
    set (st2 := mkTx (t_acc st1) (t_reg st1) (t_mem st1) (Some k) (t_orders st1)) in *.
    set (st3 := match u with
      | UPub p =>
          if match fget N.eqb (t_mem st2) k with Some a => negb (regid_empty (a_regid a)) | None => false end
          then st2 else register_account st2 k p (e_height e) (e_index e)
      | _ => st2
      end) in *.
    cbv zeta.
    destruct (entered pk_keyid (e_height e) (e_index e) u (t_reg st0) (t_acc st0)) as [reg' L'].
    destruct EO as (T3 & M3 & X3 & R3 & F3).
    assert (Fin : forall st4 L4, tinv st4 -> leq (commit st4) L4 -> t_reg st4 = t_reg st3 ->
      same_result
        (option_map t_acc
          match exec_ops pk_keyid (as_ops rs) st4 with
          | Some st5 => let '(acc, reg) := save_all (t_acc st5) (t_reg st5) (t_mem st5) in
                        Some (mkTx acc reg (t_mem st5) (t_key st5) (t_orders st5))
          | None => None end)
        (run_ledger pk_keyid reg' L4 rs)).
    { intros st4 L4 T4 Y R4. destruct (exec_ops_ledger rs st4 T4) as [I1 I2].
      pose proof (run_ledger_leq (t_reg st4) rs _ _ Y) as Z0.
      rewrite <- (run_ledger_reg_ext (t_reg st4) reg') by (intros r; rewrite R4; apply R3).
      destruct (exec_ops pk_keyid (as_ops rs) st4) as [st5|]; simpl in *.
      - destruct (I2 _ eq_refl) as [T5 R5].
        destruct (save_all (t_acc st5) (t_reg st5) (t_mem st5)) as [acc reg] eqn:Sv. simpl.
        apply save_all_ok in Sv.
        2: { intros k0 a0 H0. apply (in_fget N.eqb N_eqb_ok) in H0; [|apply T5]. apply (ti_mem st5 T5); auto. }
        change (acc = commit st5) in Sv. subst acc.
        destruct (run_ledger pk_keyid (t_reg st4) (commit st4) rs), (run_ledger pk_keyid (t_reg st4) L4 rs);
          simpl in *; try tauto. eapply leq_trans; eauto.
      - destruct (run_ledger pk_keyid (t_reg st4) (commit st4) rs), (run_ledger pk_keyid (t_reg st4) L4 rs);
          simpl in *; tauto. }
    destruct (fee =? 0) eqn:Ef.
    { apply N.eqb_eq in Ef; subst. cbn [N.ltb N.compare app]. apply Fin; auto. }
    apply N.eqb_neq in Ef. rewrite (proj2 (N.ltb_lt 0 fee)) by lia.
    cbn [app run_ledger u_who u_other u_symbol u_op u_amount option_map]. rewrite F3.
    pose proof (m_operate_commit st3 k fs SubFree fee None T3 M3 ltac:(discriminate)) as MC.
    cbv zeta in MC. destruct MC as (T4 & F4 & L4 & R4 & _).
    destruct (l_operate_leq (commit st3) L' k fs SubFree fee None X3) as [F5 L5].
    destruct (m_operate st3 k fs SubFree fee None) as [b st4]. cbn [fst snd] in *.
    destruct (l_operate (commit st3) k _ _ _ None) as [b2 x2].
    destruct (l_operate L' k _ _ _ None) as [b4 x4].
    cbn [fst snd] in *. subst b b2. destruct b4; [|simpl; auto].
    apply Fin; auto. eapply leq_trans; eauto.
  Qed.
End TxProofs.
