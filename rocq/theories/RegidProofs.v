(** Proofs about registration ids. *)
From Coq Require Import String List Bool NArith Lia Arith.
From Coq Require Import ZifyBool ZifyNat ZifyN.
From Verif Require Import Prelude PreludeFacts AccountModel AccountSpec AccountProofs TxModel TxSpec
  TxProofs RegidModel RegidSpec.
Import ListNotations.
Open Scope N_scope.

(** What identifies an account. *)
Definition ident (a : account) : regid * option N := (a_regid a, a_pubkey a).

(** The account as the running transaction sees it. *)
Definition view (st : txst) (k : N) : option account :=
  match fget N.eqb (t_mem st) k with Some a => Some a | None => l_get (t_acc st) k end.

Definition iv (st : txst) (k : N) : option (regid * option N) := option_map ident (view st k).

Definition wf (st : txst) : Prop := ledger_wf (t_acc st) /\ ledger_wf (t_mem st).

Definition idv (st : txst) (k : N) : option regid :=
  match iv st k with Some (r, _) => if regid_empty r then None else Some r | None => None end.

(** The same accounts and ids. *)
Definition same (st st' : txst) : Prop := t_reg st' = t_reg st /\ forall k, iv st' k = iv st k.

Definition grows (r : regid) (st st' : txst) : Prop :=
  (forall k s, idv st k = Some s -> idv st' k = Some s) /\
  (forall s k, fget regid_eqb (t_reg st') s = Some k -> fget regid_eqb (t_reg st) s = Some k \/ s = r).

Definition free_id (r : regid) (st : txst) : Prop := fget regid_eqb (t_reg st) r = None.

Definition clear_mem (st : txst) : txst := mkTx (t_acc st) (t_reg st) [] None (t_orders st).

Lemma same_refl st : same st st.
Proof. split; auto. Qed.
Lemma same_trans a b c : same a b -> same b c -> same a c.
Proof. intros [H1 H2] [H3 H4]. split; [congruence|]. intros k. rewrite H4. auto. Qed.
Lemma grows_refl r st : grows r st st.
Proof. split; auto. Qed.
Lemma grows_trans r a b c : grows r a b -> grows r b c -> grows r a c.
Proof.
  intros [H1 H2] [H3 H4]. split; auto. intros s k H. destruct (H4 s k H); auto.
Qed.
Lemma same_idv a b k : same a b -> idv b k = idv a k.
Proof. intros [_ H]. unfold idv. rewrite H. auto. Qed.
Lemma same_grows r a b : same a b -> grows r a b.
Proof.
  intros S. split.
  - intros k s. rewrite (same_idv a b k S). auto.
  - intros s k. destruct S as [-> _]. auto.
Qed.
Lemma same_free r a b : same a b -> free_id r a -> free_id r b.
Proof. intros [H _]. unfold free_id. congruence. Qed.

Section Proofs.
  Variable pk_keyid : N -> N.
  Variable address : regid -> N.
  Variable valid : N -> bool.
  Variable mint_height : N.
  Hypothesis Hno : no_collisions pk_keyid address.

  Record inv (st : txst) : Prop := {
    i_wf : wf st;
    i_pub : forall k r p, iv st k = Some (r, Some p) -> pk_keyid p = k;
    i_reg : forall k r p, iv st k = Some (r, p) -> regid_empty r = false ->
      fget regid_eqb (t_reg st) r = Some k;
    i_own : forall r k, fget regid_eqb (t_reg st) r = Some k ->
      regid_empty r = false /\ exists p, iv st k = Some (r, p);
    i_bare : forall k r, iv st k = Some (r, None) -> regid_empty r = false -> k = address r }.

  Lemma inv_same st st' : inv st -> same st st' -> wf st' -> inv st'.
  Proof.
    intros I [R V] W. constructor; auto.
    - intros k r p. rewrite V. apply (i_pub st I).
    - intros k r p. rewrite V, R. apply (i_reg st I).
    - intros r k. rewrite R, V. apply (i_own st I).
    - intros k r. rewrite V. apply (i_bare st I).
  Qed.

  Lemma view_mem st m k : view (set_mem st m) k = match fget N.eqb m k with Some a => Some a | None => l_get (t_acc st) k end.
  Proof. reflexivity. Qed.

  (** Looking up an account. *)
  Lemma get_account_same st u o st' : wf st -> get_account pk_keyid st u = (o, st') ->
    wf st' /\ same st st' /\ t_key st' = t_key st /\ t_acc st' = t_acc st /\
    (forall k, o = Some k -> exists a, fget N.eqb (t_mem st') k = Some a) /\
    (forall k a, fget N.eqb (t_mem st) k = Some a -> fget N.eqb (t_mem st') k = Some a) /\
    (forall k a, fget N.eqb (t_mem st') k = Some a -> view st k = Some a).
  Proof.
    intros W. unfold get_account.
    set (self := match t_key st with Some k => _ | None => None end).
    destruct self as [k0|] eqn:Es; subst self.
    - intros [= <- <-]. split; auto. split; [apply same_refl|]. split; auto. split; auto. split; [|split; auto].
      + intros k [= <-]. destruct (t_key st) as [k1|]; [|discriminate].
        destruct (fget N.eqb (t_mem st) k1) as [a|] eqn:Em; [|discriminate].
        destruct (_ && _); [|discriminate]. inversion Es; subst. eauto.
      + intros k a H. unfold view. rewrite H. auto.
    - destruct (get_key_id pk_keyid (t_reg st) u) as [k|].
      2: { intros [= <- <-]. split; auto. split; [apply same_refl|]. do 2 (split; auto). split; [discriminate|].
           split; auto. intros k a H. unfold view. rewrite H. auto. }
      destruct (fget N.eqb (t_mem st) k) as [a|] eqn:Em.
      { intros [= <- <-]. split; auto. split; [apply same_refl|]. do 2 (split; auto). split.
        - intros k' [= <-]. eauto.
        - split; auto. intros k' a' H. unfold view. rewrite H. auto. }
      destruct (l_get (t_acc st) k) as [a|] eqn:Ea.
      + intros [= <- <-]. destruct W as [W1 W2].
        assert (X : forall k', view (set_mem st (fput N.eqb (t_mem st) k a)) k' = view st k').
        { intros k'. rewrite view_mem, (fget_put N.eqb N_eqb_ok). unfold view.
          destruct (k' =? k) eqn:E; auto. apply N.eqb_eq in E; subst. rewrite Em, Ea. auto. }
        split; [split; auto; apply (lput_wf (t_mem st) k a W2); apply W1; auto|].
        split; [split; auto; intros k'; unfold iv; rewrite X; auto|]. do 2 (split; auto). split; [|split].
        * intros k' [= <-]. simpl. exists a. apply (fget_put_same N.eqb N_eqb_ok).
        * intros k' a' H. simpl. rewrite (fget_put N.eqb N_eqb_ok). destruct (k' =? k) eqn:E; auto.
          apply N.eqb_eq in E; subst. congruence.
        * intros k' a' H. rewrite <- X, view_mem. simpl in H. rewrite H. auto.
      + intros [= <- <-]. split; auto. split; [apply same_refl|]. do 2 (split; auto). split; [discriminate|].
        split; auto. intros k' a' H. unfold view. rewrite H. auto.
  Qed.

  (** By public key one finds the account of its hash. *)
  Lemma get_account_pub st p o st' : inv st -> get_account pk_keyid st (UPub p) = (o, st') ->
    match o with Some k => k = pk_keyid p | None => iv st (pk_keyid p) = None /\ st' = st end.
  Proof.
    intros I. unfold get_account. cbn [get_key_id].
    set (self := match t_key st with Some k => _ | None => None end).
    destruct self as [k0|] eqn:Es; subst self.
    - intros [= <- <-]. destruct (t_key st) as [k1|]; [|discriminate].
      destruct (fget N.eqb (t_mem st) k1) as [a|] eqn:Em; [|discriminate].
      destruct (_ && _) eqn:Eb; [|discriminate]. inversion Es; subst k0.
      apply andb_true_iff in Eb as [_ Eb]. simpl in Eb.
      destruct (a_pubkey a) as [q|] eqn:Ep; [|discriminate]. apply N.eqb_eq in Eb; subst q.
      symmetry. apply (i_pub st I k1 (a_regid a) p). unfold iv, view. rewrite Em. simpl. unfold ident. congruence.
    - destruct (fget N.eqb (t_mem st) (pk_keyid p)) as [a|] eqn:Em; [intros [= <- <-]; auto|].
      destruct (l_get (t_acc st) (pk_keyid p)) as [a|] eqn:Ea; intros [= <- <-]; auto.
      split; auto. unfold iv, view. rewrite Em, Ea. auto.
  Qed.

  Lemma get_account_key st k o st' : wf st -> get_account pk_keyid st (UKey k) = (o, st') ->
    match o with Some k' => k' = k | None => iv st k = None /\ st' = st end.
  Proof.
    intros W. unfold get_account. cbn [get_key_id].
    set (self := match t_key st with Some k => _ | None => None end).
    destruct self as [k0|] eqn:Es; subst self.
    - intros [= <- <-]. destruct (t_key st) as [k1|]; [|discriminate].
      destruct (fget N.eqb (t_mem st) k1) as [a|] eqn:Em; [|discriminate].
      destruct (_ && _) eqn:Eb; [|discriminate]. inversion Es; subst k0.
      apply andb_true_iff in Eb as [_ Eb]. simpl in Eb. apply N.eqb_eq in Eb.
      rewrite <- Eb. symmetry. apply (proj2 W); auto.
    - destruct (fget N.eqb (t_mem st) k) as [a|] eqn:Em; [intros [= <- <-]; auto|].
      destruct (l_get (t_acc st) k) as [a|] eqn:Ea; intros [= <- <-]; auto.
      split; auto. unfold iv, view. rewrite Em, Ea. auto.
  Qed.

  Lemma ident_same a b : same_identity a b -> ident b = ident a.
  Proof. intros (H1 & H2 & H3 & _). unfold ident. congruence. Qed.

  (** Balance operations. *)
  Lemma put_ident L k a a' : ledger_wf L -> l_get L k = Some a -> same_identity a a' ->
    ledger_wf (l_put L k a') /\ forall j, option_map ident (l_get (l_put L k a') j) = option_map ident (l_get L j).
  Proof.
    intros W H S. split.
    - apply lput_wf; auto. destruct S as (S & _). rewrite <- S. apply W; auto.
    - intros j. rewrite lget_put. destruct (j =? k) eqn:E; auto. apply N.eqb_eq in E; subst.
      rewrite H. simpl. rewrite (ident_same a a'); auto.
  Qed.

  Lemma l_operate_ident L who s o v other : ledger_wf L ->
    ledger_wf (snd (l_operate L who s o v other)) /\
    forall j, option_map ident (l_get (snd (l_operate L who s o v other)) j) = option_map ident (l_get L j).
  Proof.
    intros W. unfold l_operate. destruct (l_get L who) as [a|] eqn:Ea; [|simpl; auto].
    destruct other as [k|].
    2: { apply (put_ident L who a); auto. apply operate_identity. }
    destruct (k =? who) eqn:E.
    { apply (put_ident L who a); auto. apply operate_identity. }
    destruct (l_get L k) as [b|] eqn:Eb; [|simpl; auto]. cbn [snd].
    destruct (put_ident L who a (self' (operate_balance a s o v (Peer b))) W Ea (operate_identity _ _ _ _ _)) as [W1 H1].
    destruct (peer' (operate_balance a s o v (Peer b))) as [| |b'] eqn:Ep; auto.
    destruct (operate_identity_peer a s o v b) as (b2 & Eb2 & Sb). rewrite Eb2 in Ep. inversion Ep; subst b'.
    destruct (put_ident (l_put L who (self' (operate_balance a s o v (Peer b)))) k b b2 W1) as [W2 H2]; auto.
    { rewrite lget_put, E. auto. }
    split; auto. intros j. rewrite H2, H1. auto.
  Qed.

  Lemma m_operate_same st who s o v other b st' : wf st -> m_operate st who s o v other = (b, st') ->
    wf st' /\ same st st' /\ t_key st' = t_key st /\ t_acc st' = t_acc st /\
    (forall k, fget N.eqb (t_mem st) k <> None -> fget N.eqb (t_mem st') k <> None) /\
    (forall k, fget N.eqb (t_mem st) k = None -> fget N.eqb (t_mem st') k = None).
  Proof.
    intros [W1 W2]. unfold m_operate.
    pose proof (l_operate_ident (t_mem st) who s o v other W2) as [W3 H].
    destruct (l_operate (t_mem st) who s o v other) as [b0 m]. cbn [snd] in *. intros [= <- <-].
    split; [split; auto|]. split; [split; auto|].
    - intros k. specialize (H k). unfold iv. rewrite view_mem. unfold view. unfold l_get in H at 1 2.
      destruct (fget N.eqb m k), (fget N.eqb (t_mem st) k); simpl in *; congruence.
    - do 2 (split; auto). split; intros k; specialize (H k); unfold l_get in H; simpl;
      destruct (fget N.eqb m k), (fget N.eqb (t_mem st) k); simpl in *; congruence.
  Qed.

  Lemma create_order_same st id v st' : wf st -> create_order st id v = Some st' ->
    wf st' /\ same st st' /\ t_key st' = t_key st /\ t_mem st' = t_mem st.
  Proof. unfold create_order. intros W. destruct (fmem _ _ _); [discriminate|]. intros [= <-]. split; auto. split; auto. split; auto. Qed.

  (** A new account. *)
  Lemma new_mem_inv st k : inv st -> iv st k = None ->
    inv (new_mem_account st k) /\ (forall r, grows r st (new_mem_account st k)) /\
    t_reg (new_mem_account st k) = t_reg st /\
    fget N.eqb (t_mem (new_mem_account st k)) k = Some (new_account k) /\
    (forall j, fget N.eqb (t_mem st) j <> None -> fget N.eqb (t_mem (new_mem_account st k)) j <> None).
  Proof.
    intros I H. unfold new_mem_account.
    assert (Em : fget N.eqb (t_mem st) k = None).
    { unfold iv, view in H. destruct (fget N.eqb (t_mem st) k); [discriminate|auto]. }
    rewrite Em. set (st' := set_mem st _).
    assert (V : forall j, iv st' j = if j =? k then Some ((0, 0), None) else iv st j).
    { intros j. unfold iv, st'. rewrite view_mem, (fget_put N.eqb N_eqb_ok). destruct (j =? k); auto. }
    split; [|split; [|split; [reflexivity|split]]].
    - constructor.
      + destruct (i_wf st I) as [W1 W2]. split; auto. apply (lput_wf (t_mem st) k (new_account k) W2); auto.
      + intros j r p. rewrite V. destruct (j =? k); [discriminate|]. apply (i_pub st I).
      + intros j r p. rewrite V. destruct (j =? k) eqn:E; [intros [= <- <-]; discriminate|]. apply (i_reg st I).
      + intros r j Hr. destruct (i_own st I r j Hr) as (Hn & p & Hp). split; auto. exists p. rewrite V.
        destruct (j =? k) eqn:E; auto. apply N.eqb_eq in E; subst. congruence.
      + intros j r. rewrite V. destruct (j =? k) eqn:E; [intros [= <-]; discriminate|]. apply (i_bare st I).
    - intros r. split; auto. intros j s. unfold idv. rewrite V. destruct (j =? k) eqn:E; auto.
      apply N.eqb_eq in E; subst. rewrite H. discriminate.
    - apply (fget_put_same N.eqb N_eqb_ok).
    - intros j Hj. unfold st'. simpl. rewrite (fget_put N.eqb N_eqb_ok). destruct (j =? k); auto. discriminate.
  Qed.

  (** Registration with a public key. *)
  Lemma register_inv st k p r a : inv st -> fget N.eqb (t_mem st) k = Some a ->
    regid_empty (a_regid a) = true -> pk_keyid p = k -> free_id r st -> regid_empty r = false ->
    let st' := register_account st k p (fst r) (snd r) in
    inv st' /\ grows r st st' /\ t_key st' = t_key st /\ t_acc st' = t_acc st /\
    (forall j, fget N.eqb (t_mem st) j <> None -> fget N.eqb (t_mem st') j <> None) /\
    idv st' k = Some r.
  Proof.
    intros I Hm He Hp Hf Hr. cbv zeta. unfold register_account. rewrite Hm.
    rewrite <- (surjective_pairing r). set (a' := mkAccount _ _ _ _ _ _ _ _). set (st' := mkTx _ _ _ _ _).
    assert (Ka : a_keyid a = k) by (apply (proj2 (i_wf st I)); auto).
    assert (Iv : iv st k = Some (a_regid a, a_pubkey a)) by (unfold iv, view; rewrite Hm; auto).
    assert (V : forall j, iv st' j = if j =? k then Some (r, Some p) else iv st j).
    { intros j. unfold iv, view, st'. cbn [t_mem t_acc]. rewrite (fget_put N.eqb N_eqb_ok). destruct (j =? k); auto. }
    assert (R : forall s, fget regid_eqb (t_reg st') s = if regid_eqb s r then Some k else fget regid_eqb (t_reg st) s).
    { intros s. unfold st'. cbn [t_reg]. rewrite (fget_put regid_eqb regid_eqb_ok). rewrite Ka. auto. }
    split; [|split; [|split; [reflexivity|split; [reflexivity|split]]]].
    - constructor.
      + destruct (i_wf st I) as [W1 W2]. split; auto. apply (lput_wf (t_mem st) k a' W2); auto.
      + intros j s q. rewrite V. destruct (j =? k) eqn:E; [|apply (i_pub st I)].
        intros [= <- <-]. apply N.eqb_eq in E. congruence.
      + intros j s q. rewrite V, R. destruct (j =? k) eqn:E.
        * intros [= <- <-] _. apply N.eqb_eq in E. subst j.
          replace (regid_eqb r r) with true by (symmetry; apply regid_eqb_ok; auto). auto.
        * intros X Y. pose proof (i_reg st I j s q X Y) as Z. destruct (regid_eqb s r) eqn:E2; auto.
          apply regid_eqb_ok in E2. subst s. unfold free_id in Hf. congruence.
      + intros s j. rewrite R. destruct (regid_eqb s r) eqn:E2.
        * apply regid_eqb_ok in E2. subst s. intros [= <-]. split; auto. exists (Some p). rewrite V, N.eqb_refl. auto.
        * intros X. destruct (i_own st I s j X) as (Hn & q & Hq). split; auto. exists q. rewrite V.
          destruct (j =? k) eqn:E; auto. apply N.eqb_eq in E. subst j. congruence.
      + intros j s. rewrite V. destruct (j =? k); [discriminate|apply (i_bare st I)].
    - split.
      + intros j s. unfold idv. rewrite V. destruct (j =? k) eqn:E; auto. apply N.eqb_eq in E. subst j.
        rewrite Iv, He. discriminate.
      + intros s j. rewrite R. destruct (regid_eqb s r) eqn:E2; auto. apply regid_eqb_ok in E2. auto.
    - intros j Hj. unfold st'. cbn [t_mem]. rewrite (fget_put N.eqb N_eqb_ok). destruct (j =? k); auto. discriminate.
    - unfold idv. rewrite V, N.eqb_refl, Hr. auto.
  Qed.

  (** Registration of a contract. *)
  Lemma contract_inv st r : inv st -> free_id r st -> regid_empty r = false ->
    fget N.eqb (t_mem st) (address r) = None ->
    let st' := register_contract st (address r) r in
    inv st' /\ grows r st st' /\ t_key st' = t_key st /\ t_acc st' = t_acc st /\
    idv st' (address r) = Some r /\
    (forall j, fget N.eqb (t_mem st) j <> None -> fget N.eqb (t_mem st') j <> None) /\
    fget N.eqb (t_mem st') (address r) <> None.
  Proof.
    intros I Hf Hr Hm. cbv zeta. unfold register_contract. rewrite Hm.
    set (a' := mkAccount _ _ _ _ _ _ _ _). set (st' := mkTx _ _ _ _ _). set (k := address r) in *.
    destruct Hno as [Hinj Hpk].
    assert (Un : forall s q, iv st k = Some (s, q) -> regid_empty s = true).
    { intros s q X. destruct (regid_empty s) eqn:E; auto. exfalso. destruct q as [p|].
      - apply (Hpk p r). apply (i_pub st I k s p X).
      - pose proof (i_bare st I k s X E) as Y. apply Hinj in Y. subst s.
        pose proof (i_reg st I k r None X E) as Z. unfold free_id in Hf. congruence. }
    assert (V : forall j, iv st' j = if j =? k then Some (r, None) else iv st j).
    { intros j. unfold iv, view, st'. cbn [t_mem t_acc]. rewrite (fget_put N.eqb N_eqb_ok). destruct (j =? k); auto. }
    assert (R : forall s, fget regid_eqb (t_reg st') s = if regid_eqb s r then Some k else fget regid_eqb (t_reg st) s).
    { intros s. unfold st'. cbn [t_reg]. rewrite (fget_put regid_eqb regid_eqb_ok). auto. }
    split; [|split; [|split; [reflexivity|split; [reflexivity|split; [|split]]]]].
    - constructor.
      + destruct (i_wf st I) as [W1 W2]. split; auto. apply (lput_wf (t_mem st) k a' W2); auto.
      + intros j s q. rewrite V. destruct (j =? k); [discriminate|apply (i_pub st I)].
      + intros j s q. rewrite V, R. destruct (j =? k) eqn:E.
        * intros [= <- <-] _. apply N.eqb_eq in E. subst j.
          replace (regid_eqb r r) with true by (symmetry; apply regid_eqb_ok; auto). auto.
        * intros X Y. pose proof (i_reg st I j s q X Y) as Z. destruct (regid_eqb s r) eqn:E2; auto.
          apply regid_eqb_ok in E2. subst s. unfold free_id in Hf. congruence.
      + intros s j. rewrite R. destruct (regid_eqb s r) eqn:E2.
        * apply regid_eqb_ok in E2. subst s. intros [= <-]. split; auto. exists None. rewrite V, N.eqb_refl. auto.
        * intros X. destruct (i_own st I s j X) as (Hn & q & Hq). split; auto. exists q. rewrite V.
          destruct (j =? k) eqn:E; auto. apply N.eqb_eq in E. subst j. rewrite (Un s q Hq) in Hn. discriminate.
      + intros j s. rewrite V. destruct (j =? k) eqn:E; [|apply (i_bare st I)].
        intros [= <-] _. apply N.eqb_eq in E. auto.
    - split.
      + intros j s. unfold idv. rewrite V. destruct (j =? k) eqn:E; auto. apply N.eqb_eq in E. subst j.
        destruct (iv st k) as [[s' q]|] eqn:E; [|discriminate]. rewrite (Un s' q eq_refl). discriminate.
      + intros s j. rewrite R. destruct (regid_eqb s r) eqn:E2; auto. apply regid_eqb_ok in E2. auto.
    - unfold idv. rewrite V, N.eqb_refl, Hr. auto.
    - intros j Hj. unfold st'. cbn [t_mem]. rewrite (fget_put N.eqb N_eqb_ok). destruct (j =? k); auto. discriminate.
    - unfold st'. cbn [t_mem]. rewrite (fget_put_same N.eqb N_eqb_ok). discriminate.
  Qed.

  (** Visits. *)
  Lemma exec_visit_inv v st st' : inv st -> exec_visit pk_keyid v st = Some st' ->
    inv st' /\ (forall r, grows r st st') /\ t_reg st' = t_reg st.
  Proof.
    intros I. unfold exec_visit. set (found := match get_account pk_keyid st (v_uid v) with (Some _, _) => _ | _ => _ end).
    assert (F : forall k st1, found = Some (k, st1) -> inv st1 /\ (forall r, grows r st st1) /\ t_reg st1 = t_reg st).
    { intros k st1. subst found. destruct (get_account pk_keyid st (v_uid v)) as [o st2] eqn:G.
      destruct (get_account_same st (v_uid v) o st2 (i_wf st I) G) as (W2 & S2 & _).
      destruct o as [k2|].
      - intros [= <- <-]. split; [apply (inv_same st); auto|]. split; [|apply S2]. intros r. apply same_grows; auto.
      - destruct (v_create v); [|discriminate]. destruct (v_uid v) as [r|k2|p|]; try discriminate.
        + intros [= <- <-]. destruct (get_account_key st k2 None st2 (i_wf st I) G) as [Hn ->].
          destruct (new_mem_inv st k2 I Hn) as (A & B & C & _). auto.
        + intros [= <- <-]. destruct (get_account_pub st p None st2 I G) as [Hn ->].
          destruct (new_mem_inv st (pk_keyid p) I Hn) as (A & B & C & _). auto. }
    destruct found as [[k st1]|]; [|discriminate]. destruct (F k st1 eq_refl) as (I1 & G1 & R1). clear F.
    destruct (fget N.eqb (t_mem st1) k) as [a|] eqn:Em; [|discriminate]. intros [= <-].
    set (st2 := set_mem st1 _).
    assert (S : same st1 st2).
    { split; auto. intros j. unfold iv, st2. rewrite view_mem, (fget_put N.eqb N_eqb_ok). unfold view.
      destruct (j =? k) eqn:E; auto. apply N.eqb_eq in E; subst. rewrite Em. auto. }
    split; [|split; auto].
    - apply (inv_same st1); auto. destruct (i_wf st1 I1) as [W1 W2]. split; auto.
      apply (lput_wf (t_mem st1) k _ W2). simpl. apply W2; auto.
    - intros r. apply (grows_trans r st st1); auto. apply same_grows; auto.
  Qed.

  Lemma exec_visits_inv : forall vs st st', inv st -> exec_visits pk_keyid vs st = Some st' ->
    inv st' /\ (forall r, grows r st st') /\ t_reg st' = t_reg st.
  Proof.
    induction vs as [|v vs IH]; intros st st' I; simpl.
    - intros [= <-]. split; auto. split; auto. intros; apply grows_refl.
    - destruct (exec_visit pk_keyid v st) as [st1|] eqn:E; [|discriminate]. intros H.
      destruct (exec_visit_inv v st st1 I E) as (I1 & G1 & R1).
      destruct (IH st1 st' I1 H) as (I2 & G2 & R2). split; auto. split; [|congruence].
      intros r. apply (grows_trans r st st1); auto.
  Qed.

  (** Saving. *)
  Lemma save_inv st acc reg : inv st -> save_all (t_acc st) (t_reg st) (t_mem st) = (acc, reg) ->
    forall m key orders,
    let st' := clear_mem (mkTx acc reg m key orders) in
    inv st' /\ (forall k, iv st' k = iv st k) /\
    (forall r, fget regid_eqb reg r = fget regid_eqb (t_reg st) r).
  Proof.
    intros I H m key orders. cbv zeta. destruct (i_wf st I) as [W1 W2].
    assert (K : forall k a, In (k, a) (t_mem st) -> fget N.eqb (t_mem st) k = Some a).
    { intros k a X. apply (in_fget N.eqb N_eqb_ok); auto. apply W2. }
    assert (Acc := save_all_ok (t_mem st) (t_acc st) (t_reg st) acc reg
                     (fun k a X => proj2 W2 k a (K k a X)) H).
    assert (Reg := save_all_reg (t_mem st) (t_acc st) (t_reg st) acc reg
                     (fun k a X => conj (proj2 W2 k a (K k a X))
                        (fun E => i_reg st I k (a_regid a) (a_pubkey a)
                           ltac:(unfold iv, view; rewrite (K k a X); reflexivity) E)) H).
    set (st' := clear_mem _).
    assert (V : forall k, iv st' k = iv st k).
    { intros k. unfold iv, view, st', clear_mem. cbn [t_mem t_acc fget]. rewrite Acc.
      rewrite fold_put_get by apply W2. auto. }
    split; [|split; auto]. constructor.
    - split; [|split; [constructor|discriminate]]. unfold st', clear_mem. cbn [t_acc]. rewrite Acc.
      apply fold_put_wf; auto. intros k a X. apply W2, K, X.
    - intros k r p. rewrite V. apply (i_pub st I).
    - intros k r p. rewrite V. unfold st', clear_mem. cbn [t_reg]. rewrite Reg. apply (i_reg st I).
    - intros r k. unfold st' at 1, clear_mem. cbn [t_reg]. rewrite Reg, V. apply (i_own st I).
    - intros k r. rewrite V. apply (i_bare st I).
  Qed.

  Lemma idv_iv st st' : (forall k, iv st' k = iv st k) -> forall k, idv st' k = idv st k.
  Proof. intros H k. unfold idv. rewrite H. auto. Qed.

  Lemma save_grows r st0 st acc reg m key orders : inv st ->
    save_all (t_acc st) (t_reg st) (t_mem st) = (acc, reg) -> grows r st0 st ->
    inv (clear_mem (mkTx acc reg m key orders)) /\ grows r st0 (clear_mem (mkTx acc reg m key orders)).
  Proof.
    intros I H [G1 G2]. destruct (save_inv st acc reg I H m key orders) as (I' & V & R). split; auto.
    split.
    - intros k s X. rewrite (idv_iv _ _ V). auto.
    - intros s k. unfold clear_mem. cbn [t_reg]. rewrite R. auto.
  Qed.

  (** A transaction with a sender. *)
  Lemma execute_full_inv r e u fs fee body st st' :
    inv (clear_mem st) -> regid_empty r = false ->
    ((e_height e, e_index e) = r /\ free_id r st) \/ (forall p, u = UPub p -> idv (clear_mem st) (pk_keyid p) <> None) ->
    (forall k st1 st2, inv st1 -> grows r (clear_mem st) st1 -> t_key st1 = Some k ->
       (is_pub u = false -> same (clear_mem st) st1 /\ t_acc st1 = t_acc st) ->
       (forall j a, fget N.eqb (t_mem st1) j = Some a -> j = k) -> fget N.eqb (t_mem st1) k <> None ->
       fst (get_account pk_keyid (clear_mem st) u) = Some k ->
       body k st1 = Some st2 -> inv st2 /\ grows r st1 st2) ->
    execute_full pk_keyid e u fs fee body st = Some st' ->
    inv (clear_mem st') /\ grows r (clear_mem st) (clear_mem st') /\
    (forall p, u = UPub p -> exists s, idv (clear_mem st') (pk_keyid p) = Some s) .
  Proof.
    intros I Hr Hfree Hbody. unfold execute_full.
    change (mkTx (t_acc st) (t_reg st) [] None (t_orders st)) with (clear_mem st).
    destruct (get_account pk_keyid (clear_mem st) u) as [[k|] st1] eqn:Gu; [|discriminate].
    destruct (get_account_same (clear_mem st) u (Some k) st1 (i_wf _ I) Gu) as (W1 & S1 & _ & Ac1 & Hk & _ & Hv).
    destruct (Hk k eq_refl) as (a & Ha).
    assert (Single : forall j b, fget N.eqb (t_mem st1) j = Some b -> j = k).
    { clear - Gu. unfold get_account in Gu. cbn [t_key clear_mem t_mem fget t_reg t_acc] in Gu.
      destruct (get_key_id pk_keyid (t_reg st) u) as [k1|]; [|discriminate].
      destruct (l_get (t_acc st) k1) as [a1|]; [|discriminate]. inversion Gu; subst. simpl.
      intros j b. destruct (j =? k) eqn:E; [|discriminate]. intros _. apply N.eqb_eq; auto. }
    set (st2 := mkTx (t_acc st1) (t_reg st1) (t_mem st1) (Some k) (t_orders st1)).
    assert (S2 : same (clear_mem st) st2) by (destruct S1; split; auto).
    assert (I2 : inv st2) by (apply (inv_same (clear_mem st)); auto).
    change (t_mem st2) with (t_mem st1). rewrite Ha.
    set (st3 := match u with UPub p => _ | _ => st2 end).
    assert (P3 : inv st3 /\ grows r (clear_mem st) st3 /\ t_key st3 = Some k /\ t_acc st3 = t_acc st /\
                 (is_pub u = false -> same (clear_mem st) st3) /\
                 (forall j b, fget N.eqb (t_mem st3) j = Some b -> j = k) /\
                 fget N.eqb (t_mem st3) k <> None /\
                 (forall p, u = UPub p -> exists s, idv st3 (pk_keyid p) = Some s)).
    { assert (Base : inv st2 /\ grows r (clear_mem st) st2 /\ t_key st2 = Some k /\ t_acc st2 = t_acc st /\
                     (is_pub u = false -> same (clear_mem st) st2) /\
                     (forall j b, fget N.eqb (t_mem st2) j = Some b -> j = k) /\ fget N.eqb (t_mem st2) k <> None).
      { split; [auto|]. split; [apply same_grows; auto|]. split; [reflexivity|]. split; [exact Ac1|]. split; [auto|].
        split; [exact Single|]. unfold st2. cbn [t_mem]. rewrite Ha. discriminate. }
      subst st3. destruct u as [s|j|p|]; try (destruct Base as (B1&B2&B3&B4&B5&B6&B7); repeat (split; [assumption|]); intros; discriminate).
      assert (Kp : k = pk_keyid p) by exact (get_account_pub (clear_mem st) p (Some k) st1 I Gu).
      destruct (regid_empty (a_regid a)) eqn:Ee; cbn [negb].
      - assert (Hf : (e_height e, e_index e) = r /\ free_id r st2).
        { destruct Hfree as [[X0 X]|X]; [split; auto; apply (same_free r (clear_mem st)); auto|]. exfalso. apply (X p eq_refl).
          unfold idv. rewrite <- (proj2 S1). unfold iv, view. rewrite <- Kp, Ha. simpl. rewrite Ee. auto. }
        destruct Hf as [Er Hf].
        replace (e_height e) with (fst r) by (rewrite <- Er; auto). replace (e_index e) with (snd r) by (rewrite <- Er; auto).
        destruct (register_inv st2 k p r a I2 Ha Ee (eq_sym Kp) Hf Hr) as (A & B & C & D & E & F).
        split; auto. split; [apply (grows_trans r _ st2); auto; apply same_grows; auto|].
        split; [rewrite C; reflexivity|]. split; [rewrite D; exact Ac1|]. split; [discriminate|]. split; [|split].
        + intros j b. unfold register_account. change (t_mem st2) with (t_mem st1). rewrite Ha. cbn [t_mem].
          rewrite (fget_put N.eqb N_eqb_ok). destruct (j =? k) eqn:X; [intros _; apply N.eqb_eq; auto|apply Single].
        + apply E. unfold st2. cbn [t_mem]. rewrite Ha. discriminate.
        + intros q [= <-]. rewrite <- Kp. eauto.
      - destruct Base as (B1&B2&B3&B4&B5&B6&B7); repeat (split; [assumption|]). intros q [= <-].
        exists (a_regid a). rewrite <- Kp. unfold idv, iv, view, st2. cbn [t_mem]. rewrite Ha. simpl. rewrite Ee. auto. }
    clearbody st3. destruct P3 as (I3 & G3 & K3 & A3 & Sp3 & M3 & N3 & U3).
    set (charged := if 0 <? fee then _ else _).
    assert (P4 : forall b st4, charged = (b, st4) -> wf st4 /\ same st3 st4 /\ t_key st4 = Some k /\ t_acc st4 = t_acc st /\
               (forall j x, fget N.eqb (t_mem st4) j = Some x -> j = k) /\ fget N.eqb (t_mem st4) k <> None).
    { intros b st4. subst charged. destruct (0 <? fee).
      - intros H. destruct (m_operate_same st3 k fs SubFree fee None b st4 (i_wf _ I3) H) as (A & B & C & D & E & F).
        split; auto. split; auto. split; [congruence|]. split; [congruence|]. split; auto.
        intros j x X. destruct (fget N.eqb (t_mem st3) j) as [y|] eqn:Y; [eapply M3; eauto|].
        rewrite (F j Y) in X. discriminate.
      - intros [= <- <-]. split; [apply I3|]. split; [apply same_refl|]. auto. }
    clearbody charged. destruct charged as [[|] st4]; [|discriminate].
    destruct (P4 true st4 eq_refl) as (W4 & S4 & K4 & A4 & M4 & N4). clear P4.
    assert (I4 : inv st4) by (apply (inv_same st3); auto).
    destruct (body k st4) as [st5|] eqn:Eb; [|discriminate].
    destruct (Hbody k st4 st5) as [I5 G5]; auto.
    { apply (grows_trans r _ st3); auto. apply same_grows; auto. }
    { intros Hu. split; auto. apply (same_trans _ st3); auto. }
    destruct (save_all (t_acc st5) (t_reg st5) (t_mem st5)) as [acc reg] eqn:Es. intros [= <-].
    assert (G : grows r (clear_mem st) st5).
    { apply (grows_trans r _ st3); auto. apply (grows_trans r _ st4); auto. apply same_grows; auto. }
    destruct (save_grows r (clear_mem st) st5 acc reg (t_mem st5) (t_key st5) (t_orders st5) I5 Es G) as [A B].
    split; auto. split; auto. intros p Hp. destruct (U3 p Hp) as (s & Hs). exists s.
    destruct (save_inv st5 acc reg I5 Es (t_mem st5) (t_key st5) (t_orders st5)) as (_ & V & _).
    rewrite (idv_iv _ _ V). apply (proj1 G5). apply (proj1 (same_grows r _ _ S4)). auto.
  Qed.

  (** The destination of a transfer. *)
  Lemma find_or_create_inv st u o st1 : inv st -> get_account pk_keyid st u = (o, st1) ->
    forall d st2,
    match o with
    | Some d => Some (d, st1)
    | None =>
        match u with
        | UKey k => Some (k, new_mem_account st1 k)
        | UPub p => Some (pk_keyid p, new_mem_account st1 (pk_keyid p))
        | _ => None
        end
    end = Some (d, st2) ->
    inv st2 /\ (forall r, grows r st st2) /\ t_reg st2 = t_reg st /\
    (exists a, fget N.eqb (t_mem st2) d = Some a) /\ (forall p, u = UPub p -> d = pk_keyid p).
  Proof.
    intros I G d st2. destruct (get_account_same st u o st1 (i_wf st I) G) as (W1 & S1 & _ & _ & Hk & _).
    destruct o as [k|].
    - intros [= <- <-]. split; [apply (inv_same st); auto|]. split; [intros; apply same_grows; auto|].
      split; [apply S1|]. split; [apply Hk; auto|]. intros p ->. exact (get_account_pub st p (Some k) st1 I G).
    - destruct u as [s|k|p|]; try discriminate; intros [= <- <-].
      + destruct (get_account_key st k None st1 (i_wf st I) G) as [Hn ->].
        destruct (new_mem_inv st k I Hn) as (A & B & C & D & _). repeat (split; [solve [eauto]|]). discriminate.
      + destruct (get_account_pub st p None st1 I G) as [Hn ->].
        destruct (new_mem_inv st (pk_keyid p) I Hn) as (A & B & C & D & _). repeat (split; [solve [eauto]|]).
        intros q [= <-]; auto.
  Qed.

  Lemma exec_xfer_inv r e from_pub n sender i x st st' : (e_height e, e_index e) = r ->
    regid_empty r = false -> inv st -> (from_pub = false -> n = 1%nat -> free_id r st) ->
    exec_xfer pk_keyid e from_pub n sender i x st = Some st' ->
    inv st' /\ grows r st st'.
  Proof.
    intros Er Hr I Hf. unfold exec_xfer.
    set (af := if String.eqb (x_symbol x) WUSD then _ else _).
    assert (A : forall st1 v, af = Some (st1, v) -> inv st1 /\ same st st1).
    { intros st1 v. subst af. destruct (String.eqb (x_symbol x) WUSD); [|intros [= <- <-]; split; auto; apply same_refl].
      destruct (calc_amount_by_ratio _ _ _) as [fee|]; [|discriminate].
      destruct (0 <? fee); [|intros [= <- <-]; split; auto; apply same_refl].
      destruct (get_account pk_keyid st (UReg (e_fcoin e))) as [[f|] s1] eqn:G; [|discriminate].
      destruct (get_account_same _ _ _ _ (i_wf st I) G) as (W1 & S1 & _).
      destruct (m_operate s1 sender WUSD SubFree fee (Some f)) as [[|] s2] eqn:O1; [|discriminate].
      destruct (m_operate_same _ _ _ _ _ _ _ _ W1 O1) as (W2 & S2 & _).
      destruct (m_operate s2 f WUSD Freeze fee None) as [[|] s3] eqn:O2; [|discriminate].
      destruct (m_operate_same _ _ _ _ _ _ _ _ W2 O2) as (W3 & S3 & _).
      destruct (create_order s3 (e_order_id e i) fee) as [s4|] eqn:O3; [|discriminate].
      destruct (create_order_same _ _ _ _ W3 O3) as (W4 & S4 & _). intros [= <- <-].
      assert (S : same st s4) by (apply (same_trans _ s1); auto; apply (same_trans _ s2); auto; apply (same_trans _ s3); auto).
      split; auto. apply (inv_same st); auto. }
    clearbody af. destruct af as [[st1 actual]|]; [|discriminate]. destruct (A st1 actual eq_refl) as [I1 S1]. clear A.
    destruct (get_account pk_keyid st1 (x_to x)) as [o st2] eqn:G.
    set (dest := match o with Some d => _ | None => _ end).
    assert (B := find_or_create_inv st1 (x_to x) o st2 I1 G).
    fold dest in B. clearbody dest. destruct dest as [[d st3]|]; [|discriminate].
    destruct (B d st3 eq_refl) as (I3 & G3 & R3 & (a & Ha) & Hd). clear B.
    rewrite Ha. set (st4 := match x_to x with UPub p => _ | _ => st3 end).
    assert (P4 : inv st4 /\ grows r st3 st4).
    { subst st4. destruct (x_to x) as [s|k|p|] eqn:Ex; try (split; [auto|apply grows_refl]).
      destruct (negb from_pub && Nat.eqb n 1 && negb (negb (regid_empty (a_regid a)))) eqn:E; [|split; [auto|apply grows_refl]].
      apply andb_true_iff in E as [E Ee]. apply andb_true_iff in E as [Ep En].
      apply negb_true_iff in Ee. apply negb_false_iff in Ee. apply negb_true_iff in Ep. apply Nat.eqb_eq in En.
      replace (e_height e) with (fst r) by (rewrite <- Er; auto). replace (e_index e) with (snd r) by (rewrite <- Er; auto).
      destruct (register_inv st3 d p r a I3 Ha Ee) as (X1 & X2 & _); auto.
      - symmetry. apply Hd; auto.
      - unfold free_id. rewrite R3. apply (same_free r st); auto. }
    clearbody st4. destruct P4 as [I4 G4].
    destruct (m_operate st4 sender (x_symbol x) SubFree actual (Some d)) as [[|] st5] eqn:O; [|discriminate].
    destruct (m_operate_same _ _ _ _ _ _ _ _ (i_wf _ I4) O) as (W5 & S5 & _). intros [= <-].
    split; [apply (inv_same st4); auto|].
    apply (grows_trans r _ st1); [apply same_grows; auto|]. apply (grows_trans r _ st3); auto.
    apply (grows_trans r _ st4); auto. apply same_grows; auto.
  Qed.

  Lemma exec_xfers_inv r e from_pub n sender : (e_height e, e_index e) = r -> regid_empty r = false ->
    forall xs i st st', inv st ->
    (from_pub = false -> n = 1%nat -> free_id r st /\ (List.length xs <= 1)%nat) ->
    exec_xfers pk_keyid e from_pub n sender i xs st = Some st' ->
    inv st' /\ grows r st st'.
  Proof.
    intros Er Hr. induction xs as [|x xs IH]; intros i st st' I Hf; simpl.
    - intros [= <-]. split; auto. apply grows_refl.
    - destruct (exec_xfer pk_keyid e from_pub n sender i x st) as [st1|] eqn:E; [|discriminate]. intros H.
      destruct (exec_xfer_inv r e from_pub n sender i x st st1 Er Hr I (fun a b => proj1 (Hf a b)) E) as [I1 G1].
      destruct xs as [|y ys].
      + simpl in H. inversion H; subst. auto.
      + destruct (IH (i + 1) st1 st' I1) as [I2 G2]; auto.
        * intros a b. destruct (Hf a b) as [_ L]. simpl in L. lia.
        * split; auto. apply (grows_trans r _ st1); auto.
  Qed.

  Lemma exec_base_inv r to amount sender st st' : inv st ->
    exec_base_body pk_keyid to amount sender st = Some st' -> inv st' /\ grows r st st'.
  Proof.
    intros I. unfold exec_base_body. destruct (get_account pk_keyid st to) as [o st1] eqn:G.
    set (dest := match o with Some d => _ | None => _ end).
    assert (B : forall d st2, dest = Some (d, st2) -> inv st2 /\ grows r st st2).
    { intros d st2 E. destruct (find_or_create_inv st to o st1 I G d st2) as (A & B & _).
      - subst dest. destruct o; auto. destruct to; auto. discriminate.
      - auto. }
    destruct dest as [[d st2]|]; [|discriminate]. destruct (B d st2 eq_refl) as [I2 G2].
    destruct (m_operate st2 sender WICC SubFree amount (Some d)) as [[|] st3] eqn:O; [|discriminate].
    destruct (m_operate_same _ _ _ _ _ _ _ _ (i_wf _ I2) O) as (W5 & S5 & _). intros [= <-].
    split; [apply (inv_same st2); auto|]. apply (grows_trans r _ st2); auto. apply same_grows; auto.
  Qed.

  Lemma deploy_inv r fuel st st' : inv st -> free_id r st -> regid_empty r = false ->
    fget N.eqb (t_mem st) (address r) = None ->
    deploy_body pk_keyid address r fuel st = Some st' ->
    inv st' /\ grows r st st' /\ idv st' (address r) = Some r.
  Proof.
    intros I Hf Hr Hm. unfold deploy_body.
    destruct (contract_inv st r I Hf Hr Hm) as (I1 & G1 & _ & _ & Id & _).
    set (st1 := register_contract st (address r) r) in *. clearbody st1.
    destruct fuel as [[f amount]|]; [|intros [= <-]; auto].
    destruct (get_account pk_keyid st1 (UReg f)) as [[k|] st2] eqn:G; [|discriminate].
    destruct (get_account_same _ _ _ _ (i_wf _ I1) G) as (W2 & S2 & _).
    destruct (m_operate st2 k WUSD AddFree amount None) as [[|] st3] eqn:O; [|discriminate].
    destruct (m_operate_same _ _ _ _ _ _ _ _ W2 O) as (W3 & S3 & _). intros [= <-].
    assert (S : same st1 st3) by (apply (same_trans _ st2); auto).
    split; [apply (inv_same st1); auto|]. split.
    - apply (grows_trans r _ st1); auto. apply same_grows; auto.
    - rewrite (same_idv _ _ _ S). auto.
  Qed.

  Lemma execute_system_inv r body st st' : inv (clear_mem st) ->
    (forall st1, body (clear_mem st) = Some st1 -> inv st1 /\ grows r (clear_mem st) st1) ->
    execute_system body st = Some st' ->
    inv (clear_mem st') /\ grows r (clear_mem st) (clear_mem st').
  Proof.
    intros I Hb. unfold execute_system. fold (clear_mem st).
    destruct (body (clear_mem st)) as [st1|] eqn:E; [|discriminate].
    destruct (Hb st1 eq_refl) as [I1 G1].
    destruct (save_all _ _ _) as [acc reg] eqn:Es. intros [= <-].
    apply (save_grows r (clear_mem st) st1); auto.
  Qed.

  Lemma mint_inv r u s amount st st' : inv st -> t_mem st = [] -> free_id r st -> regid_empty r = false ->
    mint_body pk_keyid address r u s amount st = Some st' -> inv st' /\ grows r st st'.
  Proof.
    intros I Hm Hf Hr. unfold mint_body. set (target := match u with UReg _ => _ | _ => _ end).
    assert (T : forall k st1, target = Some (k, st1) -> inv st1 /\ grows r st st1).
    { intros k st1. subst target. destruct u as [q|q|p|]; try discriminate.
      - set (st2 := match get_account pk_keyid st (UPub p) with (Some _, s) => s | (None, s) => new_mem_account s (pk_keyid p) end).
        assert (X : inv st2 /\ grows r st st2 /\ t_reg st2 = t_reg st).
        { subst st2. destruct (get_account pk_keyid st (UPub p)) as [[k1|] s1] eqn:G.
          - destruct (get_account_same _ _ _ _ (i_wf _ I) G) as (W1 & S1 & _).
            split; [apply (inv_same st); auto|]. split; [apply same_grows; auto|apply S1].
          - destruct (get_account_pub st p None s1 I G) as [Hn ->].
            destruct (new_mem_inv st (pk_keyid p) I Hn) as (A & B & C & _). auto. }
        clearbody st2. destruct X as (I2 & G2 & R2).
        destruct (fget N.eqb (t_mem st2) (pk_keyid p)) as [a|] eqn:Em; [|discriminate].
        unfold registered. destruct (regid_empty (a_regid a)) eqn:Ee; cbn [negb]; intros [= <- <-]; auto.
        destruct (register_inv st2 (pk_keyid p) p r a I2 Em Ee eq_refl) as (A & B & _); auto.
        { unfold free_id. rewrite R2. auto. }
        split; auto. apply (grows_trans r _ st2); auto.
      - intros [= <- <-]. destruct (contract_inv st r I Hf Hr) as (A & B & _); auto. rewrite Hm. auto. }
    destruct target as [[k st1]|]; [|discriminate]. destruct (T k st1 eq_refl) as [I1 G1].
    destruct (m_operate st1 k s AddFree amount None) as [[|] st2] eqn:O; [|discriminate].
    destruct (m_operate_same _ _ _ _ _ _ _ _ (i_wf _ I1) O) as (W3 & S3 & _). intros [= <-].
    split; [apply (inv_same st1); auto|]. apply (grows_trans r _ st1); auto. apply same_grows; auto.
  Qed.

  (** One transaction of a block. *)
  Lemma apply_tx_inv h i t st st' : inv (clear_mem st) -> free_id (position h i) st ->
    regid_empty (position h i) = false ->
    apply_tx pk_keyid address valid mint_height h i t st = Some st' ->
    inv (clear_mem st') /\ grows (position h i) (clear_mem st) (clear_mem st').
  Proof.
    intros I Hf Hr. unfold apply_tx. destruct (check_tx _ _ _ _ _ _) eqn:Ec; [|discriminate].
    set (r := position h i) in *. intros H. destruct t; cbn [execute_tx check_tx] in *.
    - destruct (execute_full_inv r (plain r) u fee_symbol fee (fun _ st => Some st) st st') as (A & B & _); auto.
      intros k st1 st2 I1 _ _ _ _ _ _ [= <-]. split; auto. apply grows_refl.
    - destruct (execute_full_inv r (plain r) u fee_symbol fee (exec_base_body pk_keyid to amount) st st') as (A & B & _); auto.
      intros k st1 st2 I1 _ _ _ _ _ _ E. apply (exec_base_inv r to amount k); auto.
    - destruct (execute_full_inv r (env_at r friction fcoin order_id) (c_uid c) (c_fee_symbol c) (c_fee c)
        (fun k => exec_xfers pk_keyid (env_at r friction fcoin order_id) (is_pub (c_uid c)) (List.length (c_xfers c)) k 0 (c_xfers c)) st st') as (A & B & _); auto.
      intros k st1 st2 I1 _ _ Hs _ _ _ E.
      refine (exec_xfers_inv r (env_at r friction fcoin order_id) (is_pub (c_uid c)) (List.length (c_xfers c)) k
                (eq_sym (surjective_pairing r)) Hr (c_xfers c) 0 st1 st2 I1 _ E).
      intros Hp Hn. split; [|lia]. apply (same_free r (clear_mem st)); auto. apply Hs; auto.
    - destruct (execute_full_inv r (plain r) u fee_symbol fee (fun _ => deploy_body pk_keyid address r fuel) st st') as (A & B & _); auto.
      intros k st1 st2 I1 _ _ Hs Hk Hk2 Hu E.
      destruct (sender pk_keyid st u) as [a|] eqn:Es; [|discriminate]. apply andb_true_iff in Ec as [Er Eo].
      assert (Hp : is_pub u = false) by (destruct u; auto; discriminate).
      destruct (Hs Hp) as [S1 A1].
      destruct (deploy_inv r fuel st1 st2 I1) as (X & Y & _); auto.
      { apply (same_free r (clear_mem st)); auto. }
      destruct (fget N.eqb (t_mem st1) (address r)) as [b|] eqn:Eb; auto. exfalso.
      pose proof (Hk _ _ Eb) as Ek. unfold sender in Es. fold (clear_mem st) in Es.
      destruct (get_account pk_keyid (clear_mem st) u) as [o s1] eqn:Gu. cbn [fst] in Hu. subst o.
      destruct (get_account_same _ _ _ _ (i_wf _ I) Gu) as (_ & S2 & _).
      unfold has_owner in Eo. destruct (a_pubkey a) as [p|] eqn:Ep; [|discriminate].
      apply (proj2 Hno p r). rewrite Ek. apply (i_pub (clear_mem st) I k (a_regid a) p).
      rewrite <- (proj2 S2). unfold iv, view. rewrite Es. simpl. unfold ident. congruence.
    - apply (execute_system_inv r (mint_body pk_keyid address r u symbol amount)); auto.
      intros st1 E. apply (mint_inv r u symbol amount (clear_mem st)); auto.
    - destruct (execute_full_inv r (plain r) u fee_symbol fee (fun _ => exec_visits pk_keyid vs) st st') as (A & B & _); auto.
      intros k st1 st2 I1 _ _ _ _ _ _ E. destruct (exec_visits_inv vs st1 st2 I1 E) as (X & Y & _). auto.
    - apply (execute_system_inv r (exec_visits pk_keyid vs)); auto.
      intros st1 E. destruct (exec_visits_inv vs (clear_mem st) st1 I E) as (X & Y & _). auto.
  Qed.

  (** All ids are below a position of a block. *)
  Definition below (h i : N) (st : txst) : Prop :=
    forall s k, fget regid_eqb (t_reg st) s = Some k -> fst s < h \/ fst s = h /\ snd s < i.

  Definition keeps (st st' : txst) : Prop := forall k s, idv (clear_mem st) k = Some s -> idv (clear_mem st') k = Some s.

  Lemma position_small h i : h < two32 -> i < two16 -> position h i = (h, i).
  Proof. intros H1 H2. unfold position. rewrite !N.mod_small; auto. Qed.

  Lemma apply_txs_inv h : 0 < h -> h < two32 -> forall ts i st st',
    inv (clear_mem st) -> below h i st -> i + N.of_nat (List.length ts) <= two16 ->
    apply_txs pk_keyid address valid mint_height h i ts st = Some st' ->
    inv (clear_mem st') /\ keeps st st' /\ below h (i + N.of_nat (List.length ts)) st' /\
    (forall s k, fget regid_eqb (t_reg st') s = Some k -> fget regid_eqb (t_reg st) s = Some k \/
       fst s = h /\ i <= snd s < i + N.of_nat (List.length ts)).
  Proof.
    intros H0 Hh. induction ts as [|t ts IH]; intros i st st' I B L; cbn [apply_txs].
    - intros [= <-]. split; auto. split; [intros k s; auto|]. cbn [List.length]. rewrite N.add_0_r. auto.
    - destruct (apply_tx _ _ _ _ h i t st) as [st1|] eqn:E; [|discriminate]. intros H.
      cbn [List.length] in L. rewrite Nat2N.inj_succ in L.
      assert (Hi : i < two16) by lia.
      pose proof (apply_tx_inv h i t st st1 I) as P. rewrite (position_small h i Hh Hi) in P.
      destruct P as [I1 [G1 G2]]; auto.
      { unfold free_id. destruct (fget regid_eqb (t_reg st) (h, i)) as [k|] eqn:X; auto. apply B in X. simpl in X. lia. }
      { unfold regid_empty. simpl. replace (h =? 0) with false by lia. auto. }
      destruct (IH (i + 1) st1 st' I1) as (I2 & K2 & B2 & N2); auto.
      { intros s k X. destruct (G2 s k X) as [Y| ->]; simpl; [|lia]. cbn [clear_mem t_reg] in Y. apply B in Y. lia. }
      { lia. }
      split; auto. split; [intros k s X; apply K2, G1, X|].
      cbn [List.length]. rewrite Nat2N.inj_succ. replace (i + N.succ (N.of_nat (List.length ts))) with (i + 1 + N.of_nat (List.length ts)) by lia.
      split; auto. intros s k X. destruct (N2 s k X) as [Y|Y]; [|right; lia].
      destruct (G2 s k Y) as [Z| ->]; [left; exact Z|right; simpl; lia].
  Qed.

  (** What a reward pays changes no id. *)
  Lemma add_coins_same k s v st st' : wf st -> add_coins k s v st = Some st' -> wf st' /\ same st st'.
  Proof.
    intros W. unfold add_coins. destruct (m_operate st k s AddFree v None) as [[|] st1] eqn:E; [|discriminate].
    intros [= <-]. destruct (m_operate_same _ _ _ _ _ _ _ _ W E) as (A & B & _). auto.
  Qed.
  Lemma add_fees_same k : forall fs st st', wf st -> add_fees k fs st = Some st' -> wf st' /\ same st st'.
  Proof.
    induction fs as [|[s v] fs IH]; intros st st' W; cbn [add_fees].
    - intros [= <-]. split; auto. apply same_refl.
    - destruct (_ || _); [|discriminate]. destruct (add_coins k s v st) as [st1|] eqn:E; [|discriminate].
      destruct (add_coins_same _ _ _ _ _ W E) as [W1 S1]. intros H. destruct (IH _ _ W1 H) as [W2 S2].
      split; auto. apply (same_trans _ st1); auto.
  Qed.
  Lemma pay_reward_same w k st st' : wf st -> pay_reward w k st = Some st' -> wf st' /\ same st st'.
  Proof.
    intros W. destruct w as [n|fs i]; cbn [pay_reward]; [apply add_coins_same; auto|].
    destruct (add_fees k fs st) as [st1|] eqn:E; [|discriminate]. intros H.
    destruct (add_fees_same _ _ _ _ W E) as [W1 S1]. destruct (add_coins_same _ _ _ _ _ W1 H) as [W2 S2].
    split; auto. apply (same_trans _ st1); auto.
  Qed.

  (** A reward whose account is registered changes no id. *)
  Lemma reward_inv r u paid st st' : inv (clear_mem st) -> regid_empty r = false ->
    (forall p, u = UPub p -> idv (clear_mem st) (pk_keyid p) <> None) ->
    execute_reward pk_keyid r u paid st = Some st' ->
    inv (clear_mem st') /\ keeps st st' /\
    (forall s k, fget regid_eqb (t_reg st') s = Some k -> fget regid_eqb (t_reg st) s = Some k).
  Proof.
    intros I Hr Hu H. unfold execute_reward in H.
    assert (P : forall r', regid_empty r' = false ->
       inv (clear_mem st') /\ grows r' (clear_mem st) (clear_mem st')).
    { intros r' Hr'. destruct (execute_full_inv r' (plain r) u WICC 0
        (fun k st => match paid with None => Some st | Some w => pay_reward w k st end) st st') as (A & B & _); auto.
      intros k st1 st2 I1 _ _ _ _ _ _ E. destruct paid as [w|].
      - destruct (pay_reward_same w k st1 st2 (i_wf _ I1) E) as [W2 S2]. split; [apply (inv_same st1); auto|].
        apply same_grows; auto.
      - inversion E; subst. split; auto. apply grows_refl. }
    destruct (P (1, 1) eq_refl) as [I' [G1 G2]]. destruct (P (2, 2) eq_refl) as [_ [_ G3]].
    split; auto. split; auto. intros s k X.
    destruct (G2 s k X) as [Y| ->]; [exact Y|]. destruct (G3 _ k X) as [Y|Y]; [exact Y|discriminate].
  Qed.

  (** Accounts changed without a transaction. *)
  Lemma stored_iv st u a : inv (clear_mem st) -> stored pk_keyid st u = Some a ->
    exists k, l_get (t_acc st) k = Some a /\ (forall p, u = UPub p -> k = pk_keyid p).
  Proof.
    intros I. unfold stored. destruct u as [r|k|p|]; try discriminate.
    - destruct (regid_empty r); [discriminate|]. destruct (fget regid_eqb (t_reg st) r) as [k|]; [|discriminate].
      intros H. exists k. split; auto. discriminate.
    - intros H. exists k. split; auto. discriminate.
    - intros H. exists (pk_keyid p). split; auto. intros q [= <-]; auto.
  Qed.

  Lemma changes_inv : forall cs st st', inv (clear_mem st) ->
    apply_changes pk_keyid cs st = Some st' ->
    inv (clear_mem st') /\ keeps st st' /\
    (forall s k, fget regid_eqb (t_reg st') s = Some k -> fget regid_eqb (t_reg st) s = Some k).
  Proof.
    induction cs as [|[u c] cs IH]; intros st st' I; cbn [apply_changes].
    - intros [= <-]. split; auto. split; [intros k s; auto|auto].
    - destruct (stored pk_keyid st u) as [a|] eqn:Es; [|discriminate].
      destruct (stored_iv st u a I Es) as (k & Hk & _).
      assert (Ka : a_keyid a = k) by (apply (proj1 (i_wf _ I)); auto).
      destruct (save_account (t_acc st) (t_reg st) (with_content a c)) as [acc reg] eqn:E.
      unfold save_account in E. cbn [with_content a_keyid a_regid] in E. inversion E; subst acc reg; clear E.
      set (st1 := mkTx _ _ _ _ _). intros H.
      assert (Ik : iv (clear_mem st) k = Some (a_regid a, a_pubkey a)).
      { unfold iv, view, clear_mem. cbn [t_mem t_acc fget]. rewrite Hk. auto. }
      assert (V : forall j, iv (clear_mem st1) j = iv (clear_mem st) j).
      { intros j. unfold iv, view, clear_mem, st1. cbn [t_mem t_acc fget]. rewrite lget_put, Ka.
        destruct (j =? k) eqn:E; auto. apply N.eqb_eq in E; subst j. rewrite Hk. auto. }
      assert (R : forall s, fget regid_eqb (t_reg st1) s = fget regid_eqb (t_reg st) s).
      { intros s. unfold st1. cbn [t_reg]. destruct (regid_empty (a_regid a)) eqn:E; auto.
        rewrite (fget_put regid_eqb regid_eqb_ok). destruct (regid_eqb s (a_regid a)) eqn:E2; auto.
        apply regid_eqb_ok in E2. subst s. rewrite Ka. symmetry.
        apply (i_reg _ I k (a_regid a) (a_pubkey a)); auto. }
      assert (I1 : inv (clear_mem st1)).
      { constructor.
        - split; [|split; [constructor|discriminate]]. unfold clear_mem, st1. cbn [t_acc].
          apply lput_wf; [apply (i_wf _ I)|reflexivity].
        - intros j r p. rewrite V. apply (i_pub _ I).
        - intros j r p. rewrite V. cbn [clear_mem t_reg]. rewrite R. apply (i_reg _ I).
        - intros r j. rewrite V. cbn [clear_mem t_reg]. rewrite R. apply (i_own _ I).
        - intros j r. rewrite V. apply (i_bare _ I). }
      destruct (IH st1 st' I1 H) as (A & B & C). split; auto. split.
      + intros j s X. apply B. rewrite (idv_iv _ _ V). auto.
      + intros s j X. rewrite <- R. auto.
  Qed.

  (** The account of a reward is registered once its block has been accepted. *)
  Definition settled (st : txst) (u : uid) : Prop :=
    forall p, u = UPub p -> idv (clear_mem st) (pk_keyid p) <> None.

  Lemma settled_keeps st st' u : keeps st st' -> settled st u -> settled st' u.
  Proof.
    intros K H p Hp. specialize (H p Hp). destruct (idv (clear_mem st) (pk_keyid p)) as [s|] eqn:E; [|congruence].
    rewrite (K _ _ E). discriminate.
  Qed.

  Lemma verify_settled b st : inv (clear_mem st) -> verify_reward pk_keyid b st = true -> settled st (b_reward b).
  Proof.
    intros I H p Hp. unfold verify_reward in H.
    destruct (stored pk_keyid st (UReg (b_producer b))) as [d|] eqn:Ed; [|discriminate].
    rewrite Hp in H. destruct (stored pk_keyid st (UPub p)) as [a|] eqn:Ea; [|discriminate].
    apply regid_eqb_ok in H. cbn [stored] in Ed, Ea.
    destruct (regid_empty (b_producer b)) eqn:Ee; [discriminate|].
    destruct (fget regid_eqb (t_reg st) (b_producer b)) as [k|] eqn:Ek; [|discriminate].
    destruct (i_own _ I _ _ Ek) as (_ & q & Hq).
    unfold iv, view, clear_mem in Hq. cbn [t_mem t_acc fget] in Hq. rewrite Ed in Hq. simpl in Hq. unfold ident in Hq.
    inversion Hq as [[X Y]]. unfold idv, iv, view, clear_mem. cbn [t_mem t_acc fget]. rewrite Ea. simpl.
    rewrite <- H, X, Ee. discriminate.
  Qed.

  Variable lenient : N -> bool.

  Lemma connect_inv h mature b st st' : 0 < h -> h < two32 -> N.of_nat (List.length (b_txs b)) < two16 ->
    inv (clear_mem st) -> below h 0 st ->
    (forall m, mature = Some m -> settled st (b_reward m)) ->
    connect_at pk_keyid address valid mint_height lenient h mature b st = Some st' ->
    inv (clear_mem st') /\ keeps st st' /\ below (h + 1) 0 st' /\ settled st' (b_reward b) /\
    (forall s k, fget regid_eqb (t_reg st') s = Some k -> fget regid_eqb (t_reg st) s = Some k \/
       fst s = h /\ 1 <= snd s <= N.of_nat (List.length (b_txs b))).
  Proof.
    intros H0 Hh Hl I B Hm. unfold connect_at.
    destruct (verify_reward pk_keyid b st) eqn:Ev; [|discriminate]. cbn [negb].
    pose proof (verify_settled b st I Ev) as Sb.
    destruct (apply_txs pk_keyid address valid mint_height h 1 (b_txs b) st) as [st1|] eqn:E1; [|discriminate].
    destruct (apply_txs_inv h H0 Hh (b_txs b) 1 st st1) as (I1 & K1 & B1 & N1); auto.
    { intros s k X. apply B in X. lia. }
    { lia. }
    destruct (amounts_right lenient h b); [|discriminate]. cbn [negb].
    destruct (execute_reward pk_keyid (position h 0) (b_reward b) None st1) as [st2|] eqn:E2; [|discriminate].
    assert (Ne : forall i, regid_empty (position h i) = false).
    { intros i. unfold regid_empty, position. cbn [fst snd]. rewrite N.mod_small by auto.
      replace (h =? 0) with false by lia. auto. }
    destruct (reward_inv _ _ _ st1 st2 I1 (Ne 0) (settled_keeps _ _ _ K1 Sb) E2) as (I2 & K2 & N2).
    destruct (apply_changes pk_keyid (b_changes b) st2) as [st3|] eqn:E3; [|discriminate].
    destruct (changes_inv _ _ _ I2 E3) as (I3 & K3 & N3).
    assert (K13 : keeps st st3) by (intros k s X; apply K3, K2, K1, X).
    assert (Fin : forall st4, inv (clear_mem st4) -> keeps st3 st4 ->
      (forall s k, fget regid_eqb (t_reg st4) s = Some k -> fget regid_eqb (t_reg st3) s = Some k) ->
      inv (clear_mem st4) /\ keeps st st4 /\ below (h + 1) 0 st4 /\ settled st4 (b_reward b) /\
      (forall s k, fget regid_eqb (t_reg st4) s = Some k -> fget regid_eqb (t_reg st) s = Some k \/
         fst s = h /\ 1 <= snd s <= N.of_nat (List.length (b_txs b)))).
    { intros st4 I4 K4 N4. split; auto. split; [intros k s X; apply K4, K13, X|]. split; [|split].
      - intros s k X. apply N4, N3, N2, B1 in X. lia.
      - apply (settled_keeps st); auto. intros k s X. apply K4, K13, X.
      - intros s k X. apply N4, N3, N2, N1 in X. destruct X as [X|X]; auto. right. lia. }
    destruct mature as [m|]; [|intros [= <-]; apply Fin; auto; intros k s; auto].
    intros E4. destruct (reward_inv _ _ _ st3 st' I3 (Ne mature_index) (settled_keeps _ _ _ K13 (Hm m eq_refl)) E4) as (I4 & K4 & N4).
    apply Fin; auto.
  Qed.

  (** Chains. *)
  Fixpoint grown (g : txst) (ch : list (block * txst)) : Prop :=
    match ch with
    | [] => True
    | (b, st) :: ch =>
        grown g ch /\
        connect_at pk_keyid address valid mint_height lenient (height_of ch + 1) (due ch) b (tip g ch) = Some st
    end.

  Lemma step_grown g ch e : grown g ch -> grown g (step pk_keyid address valid mint_height lenient g ch e).
  Proof.
    intros G. destruct e as [b|]; cbn [step].
    - destruct (connect_at _ _ _ _ _ _ _ _ _) as [st|] eqn:E; auto. split; auto.
    - destruct ch as [|[b st] ch]; auto. apply G.
  Qed.

  Lemma run_grown g es : forall ch, grown g ch -> grown g (run pk_keyid address valid mint_height lenient g es ch).
  Proof. induction es as [|e es IH]; intros ch G; simpl; auto. apply IH, step_grown, G. Qed.

  Lemma sane_inv g : sane pk_keyid address g -> inv (clear_mem g).
  Proof.
    intros S. assert (V : forall k, iv (clear_mem g) k = option_map ident (l_get (t_acc g) k)) by reflexivity.
    assert (Id : forall k r p, iv (clear_mem g) k = Some (r, p) -> regid_empty r = false -> id_of g k = Some r).
    { intros k r p. rewrite V. unfold id_of. destruct (l_get (t_acc g) k) as [a|]; [|discriminate].
      simpl. unfold ident. intros [= <- <-] ->. auto. }
    constructor.
    - split; [apply S|]. split; [constructor|discriminate].
    - intros k r p. rewrite V. destruct (l_get (t_acc g) k) as [a|] eqn:E; [|discriminate].
      simpl. unfold ident. intros [= <- H]. apply (s_keys _ _ g S k a); auto.
    - intros k r p H E. cbn [clear_mem t_reg]. apply (s_back _ _ g S). apply (Id k r p); auto.
    - intros r k H. cbn [clear_mem t_reg] in H. apply (s_back _ _ g S) in H. unfold id_of in H. rewrite V.
      destruct (l_get (t_acc g) k) as [a|] eqn:E; [|discriminate].
      destruct (regid_empty (a_regid a)) eqn:Ee; [discriminate|]. inversion H; subst. split; auto.
      simpl. exists (a_pubkey a). auto.
    - intros k r H E. pose proof (Id k r None H E) as X. rewrite V in H.
      destruct (l_get (t_acc g) k) as [a|] eqn:Ea; [|discriminate]. simpl in H. unfold ident in H. inversion H as [[H1 H2]].
      apply (s_bare _ _ g S k a); auto; congruence.
  Qed.

  Lemma start_inv g : start pk_keyid address g -> inv (clear_mem g) /\ below 1 0 g.
  Proof.
    intros [S G]. split; [apply sane_inv; auto|].
    intros s k H. apply (s_back _ _ g S) in H. apply G in H. lia.
  Qed.

  Lemma grown_inv g : start pk_keyid address g -> forall ch, grown g ch -> fits ch ->
    inv (clear_mem (tip g ch)) /\ below (height_of ch + 1) 0 (tip g ch) /\
    (forall b st, In (b, st) ch -> settled (tip g ch) (b_reward b)).
  Proof.
    intros S. induction ch as [|[b st] ch IH]; intros G F; cbn [tip].
    - destruct (start_inv g S). split; auto. split; auto. intros b st [].
    - destruct G as [G E]. destruct F as [F1 F2].
      assert (Hh : height_of ((b, st) :: ch) = height_of ch + 1) by (unfold height_of; cbn [List.length]; lia).
      rewrite Hh in *.
      destruct IH as (I & B & Hs); auto.
      { split; [lia|]. intros b0 s0 X. apply (F2 b0 s0). right; auto. }
      destruct (connect_inv (height_of ch + 1) (due ch) b (tip g ch) st) as (I' & K & B' & Sb & _); auto; try lia.
      { apply (F2 b st). left; auto. }
      { intros m Hm. unfold due in Hm. destruct (nth_error ch (maturity - 1)) as [[m' s']|] eqn:En; [|discriminate].
        inversion Hm; subst m'. apply (Hs m s'). apply (nth_error_In _ _ En). }
      split; auto. split; auto. intros b0 s0 [X|X]; [inversion X; subst; auto|].
      apply (settled_keeps (tip g ch)); eauto.
  Qed.

  Lemma fits_app c1 c2 : fits (c1 ++ c2) -> fits c2.
  Proof.
    intros [F1 F2]. split.
    - unfold height_of in *. rewrite app_length in F1. lia.
    - intros b st X. apply (F2 b st). apply in_or_app. auto.
  Qed.

  Lemma grown_app g c1 : forall c2, grown g (c1 ++ c2) -> grown g c2.
  Proof. induction c1 as [|[b st] c1 IH]; intros c2; simpl; auto. intros [G _]. auto. Qed.

  Lemma id_idv st k : id_of st k = idv (clear_mem st) k.
  Proof.
    unfold id_of, idv, iv, view, clear_mem. cbn [t_mem t_acc fget]. destruct (l_get (t_acc st) k) as [a|]; auto.
  Qed.

  Lemma grown_keeps g : start pk_keyid address g -> forall c1 c2, grown g (c1 ++ c2) -> fits (c1 ++ c2) ->
    keeps_ids (tip g c2) (tip g (c1 ++ c2)).
  Proof.
    intros S. induction c1 as [|[b st] c1 IH]; intros c2 G F.
    - intros k r; auto.
    - cbn [app] in *. destruct G as [G E]. pose proof F as F0. destruct F0 as [F1 F2].
      assert (Fc : fits (c1 ++ c2)) by (apply (fits_app [(b, st)]); exact F).
      destruct (grown_inv g S (c1 ++ c2) G Fc) as (I & B & Hs).
      assert (Hh : height_of ((b, st) :: (c1 ++ c2)) = height_of (c1 ++ c2) + 1) by (unfold height_of; cbn [List.length]; lia).
      rewrite Hh in *.
      destruct (connect_inv (height_of (c1 ++ c2) + 1) (due (c1 ++ c2)) b (tip g (c1 ++ c2)) st) as (_ & K & _); auto; try lia.
      { apply (F2 b st). left; auto. }
      { intros m Hm. unfold due in Hm. destruct (nth_error (c1 ++ c2) (maturity - 1)) as [[m' s']|] eqn:En; [|discriminate].
        inversion Hm; subst m'. apply (Hs m s'). apply (nth_error_In _ _ En). }
      intros k r X. apply (IH c2 G Fc) in X. rewrite id_idv in *. cbn [tip]. apply K. auto.
  Qed.

  Lemma inv_back st : inv (clear_mem st) -> leads_back st.
  Proof.
    intros I k r. unfold owner_of. rewrite id_idv. split.
    - intros H. destruct (i_own _ I r k H) as (E & p & Hp). unfold idv. rewrite Hp, E. auto.
    - unfold idv. destruct (iv (clear_mem st) k) as [[s p]|] eqn:E; [|discriminate].
      destruct (regid_empty s) eqn:Es; [discriminate|]. intros [= <-]. apply (i_reg _ I k s p E Es).
  Qed.

  Lemma inv_sane st : inv (clear_mem st) -> sane pk_keyid address st.
  Proof.
    intros I. constructor.
    - apply (i_wf _ I).
    - apply inv_back; auto.
    - intros k a p Ha Hp. apply (i_pub _ I k (a_regid a) p). unfold iv, view, clear_mem. cbn [t_mem t_acc fget].
      rewrite Ha. simpl. unfold ident. congruence.
    - intros k a r Ha Hp Hi. apply (i_bare _ I k r).
      + unfold id_of in Hi. rewrite Ha in Hi. destruct (regid_empty (a_regid a)); [discriminate|]. inversion Hi.
        unfold iv, view, clear_mem. cbn [t_mem t_acc fget]. rewrite Ha. simpl. unfold ident. congruence.
      + unfold id_of in Hi. rewrite Ha in Hi. destruct (regid_empty (a_regid a)) eqn:E; [discriminate|]. congruence.
  Qed.

  Lemma back_unique st : leads_back st -> unique_ids st.
  Proof. intros B k1 k2 r H1 H2. apply B in H1, H2. congruence. Qed.

  (** New ids on a chain. *)
  Lemma grown_new g b st ch : start pk_keyid address g -> grown g ((b, st) :: ch) -> fits ((b, st) :: ch) ->
    forall k r, id_of st k = Some r ->
    id_of (tip g ch) k = Some r \/ fst r = height_of ch + 1 /\ 1 <= snd r <= N.of_nat (List.length (b_txs b)).
  Proof.
    intros S [G E] F k r Hk. pose proof F as F0. destruct F0 as [F1 F2].
    assert (Fc : fits ch) by (apply (fits_app [(b, st)]); exact F).
    destruct (grown_inv g S ch G Fc) as (I & B & Hs).
    assert (Hh : height_of ((b, st) :: ch) = height_of ch + 1) by (unfold height_of; cbn [List.length]; lia).
    rewrite Hh in *.
    destruct (connect_inv (height_of ch + 1) (due ch) b (tip g ch) st) as (I' & _ & _ & _ & X); auto; try lia.
    { apply (F2 b st). left; auto. }
    { intros m Hm. unfold due in Hm. destruct (nth_error ch (maturity - 1)) as [[m' s']|] eqn:En; [|discriminate].
      inversion Hm; subst m'. apply (Hs m s'). apply (nth_error_In _ _ En). }
    apply (inv_back st I') in Hk. apply X in Hk. destruct Hk as [Hk|Hk]; auto. left. apply (inv_back _ I). auto.
  Qed.

  (** What a transaction achieves for its sender. *)
  Lemma sender_registered h i t st st' p : inv (clear_mem st) -> free_id (position h i) st ->
    regid_empty (position h i) = false ->
    (exists fs fee, t = TRegister (UPub p) fs fee) \/ (exists fs fee to v, t = TBase (UPub p) fs fee to v) \/
    (exists c f r o, t = TCoin c f r o /\ c_uid c = UPub p) \/ (exists fs fee vs, t = TOther (UPub p) fs fee vs) ->
    apply_tx pk_keyid address valid mint_height h i t st = Some st' ->
    id_of st' (pk_keyid p) = match id_of st (pk_keyid p) with Some r => Some r | None => Some (position h i) end.
  Proof.
    intros I Hf Hr Ht H. destruct (apply_tx_inv h i t st st' I Hf Hr H) as [I' [G1 G2]].
    assert (Some_ : exists s, idv (clear_mem st') (pk_keyid p) = Some s).
    { unfold apply_tx in H. destruct (check_tx _ _ _ _ _ _) eqn:Ec; [|discriminate].
      destruct Ht as [(fs & fee & ->)|[(fs & fee & to & v & ->)|[(c & f & r & o & -> & Hc)|(fs & fee & vs & ->)]]];
        cbn [execute_tx] in H; set (q := position h i) in *.
      - destruct (execute_full_inv q (plain q) (UPub p) fs fee (fun _ st => Some st) st st') as (_ & _ & X); auto.
        intros k st1 st2 I1 _ _ _ _ _ _ [= <-]. split; auto. apply grows_refl.
      - destruct (execute_full_inv q (plain q) (UPub p) fs fee (exec_base_body pk_keyid to v) st st') as (_ & _ & X); auto.
        intros k st1 st2 I1 _ _ _ _ _ _ E. apply (exec_base_inv q to v k); auto.
      - destruct (execute_full_inv q (env_at q f r o) (c_uid c) (c_fee_symbol c) (c_fee c)
          (fun k => exec_xfers pk_keyid (env_at q f r o) (is_pub (c_uid c)) (List.length (c_xfers c)) k 0 (c_xfers c)) st st') as (_ & _ & X); auto.
        intros k st1 st2 I1 _ _ Hs _ _ _ E.
        refine (exec_xfers_inv q (env_at q f r o) (is_pub (c_uid c)) (List.length (c_xfers c)) k
                (eq_sym (surjective_pairing q)) Hr (c_xfers c) 0 st1 st2 I1 _ E).
        rewrite Hc. discriminate.
      - destruct (execute_full_inv q (plain q) (UPub p) fs fee (fun _ => exec_visits pk_keyid vs) st st') as (_ & _ & X); auto.
        intros k st1 st2 I1 _ _ _ _ _ _ E. destruct (exec_visits_inv vs st1 st2 I1 E) as (X & Y & _). auto. }
    rewrite !id_idv. destruct (idv (clear_mem st) (pk_keyid p)) as [r|] eqn:E; [apply G1; auto|].
    destruct Some_ as (s & Hs). rewrite Hs. f_equal.
    assert (O : fget regid_eqb (t_reg st') s = Some (pk_keyid p)).
    { apply (inv_back st' I'). rewrite id_idv. auto. }
    destruct (G2 s _ O) as [X|X]; auto. cbn [clear_mem t_reg] in X.
    apply (inv_back st I) in X. rewrite id_idv in X. congruence.
  Qed.

  Lemma deployed_registered h i u fs fee fuel st st' : inv (clear_mem st) -> free_id (position h i) st ->
    regid_empty (position h i) = false ->
    apply_tx pk_keyid address valid mint_height h i (TDeploy u fs fee fuel) st = Some st' ->
    id_of st' (address (position h i)) = Some (position h i) /\
    (forall k, k <> address (position h i) -> id_of st' k = id_of st k).
  Proof.
    intros I Hf Hr H. destruct (apply_tx_inv h i _ st st' I Hf Hr H) as [I' [G1 G2]].
    set (q := position h i) in *.
    assert (Z : id_of st' (address q) = Some q).
    { unfold apply_tx in H. destruct (check_tx _ _ _ _ _ _) eqn:Ec; [|discriminate]. fold q in H.
      cbn [execute_tx check_tx] in *.
      destruct (sender pk_keyid st u) as [a|] eqn:Es; [|discriminate]. apply andb_true_iff in Ec as [Er Eo].
      unfold execute_full in H. change (mkTx (t_acc st) (t_reg st) [] None (t_orders st)) with (clear_mem st) in *.
      unfold sender in Es. fold (clear_mem st) in Es.
      destruct u as [r|?|?|]; try discriminate.
      destruct (get_account pk_keyid (clear_mem st) (UReg r)) as [[k|] st1] eqn:G; [|discriminate].
      destruct (get_account_same _ _ _ _ (i_wf _ I) G) as (W1 & S1 & K1 & A1 & _ & _ & V1).
      assert (Mk : forall j b, fget N.eqb (t_mem st1) j = Some b -> j = k).
      { clear - G. unfold get_account in G. cbn [t_key clear_mem t_mem fget t_reg t_acc] in G.
        destruct (get_key_id pk_keyid (t_reg st) (UReg r)) as [k1|]; [|discriminate].
        destruct (l_get (t_acc st) k1) as [a1|]; [|discriminate]. inversion G; subst. simpl.
        intros j b. destruct (j =? k) eqn:E; [|discriminate]. intros _. apply N.eqb_eq; auto. }
      set (st2 := mkTx (t_acc st1) (t_reg st1) (t_mem st1) (Some k) (t_orders st1)) in *.
      assert (I2 : inv st2) by (apply (inv_same (clear_mem st)); auto; destruct S1; split; auto).
      set (charged := if 0 <? fee then _ else _) in H.
      assert (C : forall b st4, charged = (b, st4) -> wf st4 /\ same st2 st4 /\
                (forall j, fget N.eqb (t_mem st2) j = None -> fget N.eqb (t_mem st4) j = None)).
      { intros b st4. subst charged. destruct (0 <? fee).
        - intros O. destruct (m_operate_same _ _ _ _ _ _ _ _ (i_wf _ I2) O) as (A & B & _ & _ & _ & F). auto.
        - intros [= <- <-]. split; [apply I2|]. split; [apply same_refl|auto]. }
      clearbody charged. destruct charged as [[|] st4]; [|discriminate]. destruct (C true st4 eq_refl) as (W4 & S4 & M4).
      destruct (deploy_body pk_keyid address q fuel st4) as [st5|] eqn:Eb; [|discriminate].
      destruct (save_all (t_acc st5) (t_reg st5) (t_mem st5)) as [acc reg] eqn:Esv.
      assert (I4 : inv st4) by (apply (inv_same st2); auto).
      destruct (deploy_inv q fuel st4 st5 I4) as (I5 & _ & Id); auto.
      { apply (same_free q st2); auto. apply (same_free q (clear_mem st)); auto. }
      { apply M4. change (t_mem st2) with (t_mem st1).
        destruct (fget N.eqb (t_mem st1) (address q)) as [b|] eqn:Ek; auto. exfalso.
        pose proof (Mk _ _ Ek) as X. unfold has_owner in Eo. destruct (a_pubkey a) as [p|] eqn:Ep; [|discriminate].
        apply (proj2 Hno p q). rewrite X. apply (i_pub (clear_mem st) I k (a_regid a) p).
        unfold iv. rewrite (V1 k a Es). simpl. unfold ident. congruence. }
      inversion H; subst st'. rewrite id_idv.
      destruct (save_inv st5 acc reg I5 Esv (t_mem st5) (t_key st5) (t_orders st5)) as (_ & V & _).
      rewrite (idv_iv _ _ V). auto. }
    split; auto. intros k Hk. rewrite !id_idv. destruct (idv (clear_mem st) k) as [s|] eqn:E; [apply G1; auto|].
    destruct (idv (clear_mem st') k) as [s|] eqn:E2; auto. rewrite <- id_idv in E2. rewrite <- id_idv in E.
    pose proof (proj2 (inv_back st' I' k s) E2) as O. destruct (G2 s k O) as [X|X].
    - pose proof (proj1 (inv_back st I k s) X). congruence.
    - subst s. pose proof (proj2 (inv_back st' I' _ _) Z). congruence.
  Qed.

  (** The genesis block. *)
  Lemma save_new st k p j c : inv (clear_mem st) -> l_get (t_acc st) k = None -> pk_keyid p = k ->
    regid_empty j = false -> free_id j st ->
    let st' := save st (with_content (mkAccount k j (Some p) [] 0 0 0 0) c) in
    inv (clear_mem st') /\
    (forall s, fget regid_eqb (t_reg st') s = if regid_eqb s j then Some k else fget regid_eqb (t_reg st) s) /\
    (forall i, i <> k -> l_get (t_acc st') i = l_get (t_acc st) i).
  Proof.
    intros I Hk Hp Hj Hf. cbv zeta. unfold save, save_account. cbn [with_content a_keyid a_regid]. rewrite Hj.
    set (a := with_content _ c). set (st' := mkTx _ _ _ _ _).
    assert (V : forall i, iv (clear_mem st') i = if i =? k then Some (j, Some p) else iv (clear_mem st) i).
    { intros i. unfold iv, view, clear_mem, st'. cbn [t_mem t_acc fget]. rewrite lget_put. destruct (i =? k); auto. }
    assert (R : forall s, fget regid_eqb (t_reg st') s = if regid_eqb s j then Some k else fget regid_eqb (t_reg st) s).
    { intros s. unfold st'. cbn [t_reg]. apply (fget_put regid_eqb regid_eqb_ok). }
    assert (Nk : iv (clear_mem st) k = None) by (unfold iv, view, clear_mem; cbn [t_mem t_acc fget]; rewrite Hk; auto).
    split; [|split; auto].
    - constructor.
      + split; [|split; [constructor|discriminate]]. unfold clear_mem, st'. cbn [t_acc].
        apply lput_wf; [apply (i_wf _ I)|auto].
      + intros i s q. rewrite V. destruct (i =? k) eqn:E; [|apply (i_pub _ I)]. intros [= <- <-].
        apply N.eqb_eq in E. congruence.
      + intros i s q. rewrite V. cbn [clear_mem t_reg]. rewrite R. destruct (i =? k) eqn:E.
        * intros [= <- <-] _. apply N.eqb_eq in E. subst i.
          replace (regid_eqb j j) with true by (symmetry; apply regid_eqb_ok; auto). auto.
        * intros X Y. pose proof (i_reg _ I i s q X Y) as Z. destruct (regid_eqb s j) eqn:E2; auto.
          apply regid_eqb_ok in E2. subst s. unfold free_id in Hf. cbn [clear_mem t_reg] in Z. congruence.
      + intros s i. cbn [clear_mem t_reg]. rewrite R. destruct (regid_eqb s j) eqn:E2.
        * apply regid_eqb_ok in E2. subst s. intros [= <-]. split; auto. exists (Some p). rewrite V, N.eqb_refl. auto.
        * intros X. destruct (i_own _ I s i X) as (Hn & q & Hq). split; auto. exists q. rewrite V.
          destruct (i =? k) eqn:E; auto. apply N.eqb_eq in E. subst i. congruence.
      + intros i s. rewrite V. destruct (i =? k); [discriminate|apply (i_bare _ I)].
    - intros i Hi. unfold st'. cbn [t_acc]. rewrite lget_put. replace (i =? k) with false by lia. auto.
  Qed.

  Lemma candidates_inv r : forall cs j st st', inv (clear_mem st) -> below 0 j st -> 0 < j ->
    j + N.of_nat (List.length cs) <= two16 ->
    (forall u c, In (u, c) cs -> u = UReg r \/ exists p, u = UPub p) ->
    genesis_candidates pk_keyid (UReg r) j cs st = Some st' ->
    inv (clear_mem st') /\ below 0 two16 st' /\
    (forall k a, l_get (t_acc st) k = Some a -> l_get (t_acc st') k = Some a).
  Proof.
    induction cs as [|[u c] cs IH]; intros j st st' I B Hj L Hc; cbn [genesis_candidates].
    - intros [= <-]. split; auto. split; auto. intros s k X. apply B in X. cbn [List.length] in L. lia.
    - cbn [List.length] in L. rewrite Nat2N.inj_succ in L.
      assert (Hc' : forall u c, In (u, c) cs -> u = UReg r \/ exists p, u = UPub p) by (intros u0 c0 X; apply (Hc u0 c0); right; auto).
      destruct (Hc u c (or_introl eq_refl)) as [-> | (p & ->)].
      { cbn [uid_eqb]. replace (regid_eqb r r) with true by (symmetry; apply regid_eqb_ok; auto).
        intros H. apply (IH j st st'); auto. lia. }
      cbn [uid_eqb stored]. destruct (l_get (t_acc st) (pk_keyid p)) as [a|] eqn:Ea; [discriminate|].
      rewrite position_small by (unfold two32; lia).
      destruct (save_new st (pk_keyid p) p (0, j) c I Ea eq_refl) as (I1 & R1 & A1).
      { unfold regid_empty. cbn [fst snd]. replace (j =? 0) with false by lia. auto. }
      { unfold free_id. destruct (fget regid_eqb (t_reg st) (0, j)) as [k|] eqn:X; auto. apply B in X. cbn [fst snd] in X. lia. }
      set (st1 := save st _) in *. clearbody st1. intros H.
      destruct (IH (j + 1) st1 st' I1) as (I2 & B2 & A2); auto; try lia.
      { intros s k. rewrite R1. destruct (regid_eqb s (0, j)) eqn:E.
        - apply regid_eqb_ok in E. subst s. cbn [fst snd]. lia.
        - intros X. apply B in X. lia. }
      split; auto. split; auto. intros k a Ha. apply A2. rewrite A1; auto. congruence.
  Qed.

  Lemma resave_inv st k a c : inv (clear_mem st) -> l_get (t_acc st) k = Some a ->
    inv (clear_mem (save st (with_content a c))) /\
    (forall s, fget regid_eqb (t_reg (save st (with_content a c))) s = fget regid_eqb (t_reg st) s).
  Proof.
    intros I Ha. assert (E : apply_changes pk_keyid [(UKey k, c)] st = Some (save st (with_content a c))).
    { cbn [apply_changes stored]. rewrite Ha. unfold save.
      destruct (save_account (t_acc st) (t_reg st) (with_content a c)) as [x y] eqn:E. auto. }
    destruct (changes_inv _ _ _ I E) as (I' & K & R). split; auto.
    intros s. destruct (fget regid_eqb (t_reg st) s) as [j|] eqn:Ej.
    - apply (inv_back st I) in Ej. rewrite id_idv in Ej. apply K in Ej. rewrite <- id_idv in Ej.
      apply (inv_back _ I') in Ej. exact Ej.
    - destruct (fget regid_eqb (t_reg (save st (with_content a c))) s) as [j|] eqn:E2; auto. apply R in E2. congruence.
  Qed.

  Lemma genesis_start p c r cs c' g :
    (forall u c, In (u, c) cs -> u = UReg r \/ exists p, u = UPub p) ->
    2 + N.of_nat (List.length cs) <= two16 ->
    genesis pk_keyid [GReward p c; GVote r cs c'] = Some g -> start pk_keyid address g.
  Proof.
    intros Hc L. unfold genesis. cbn [genesis_from genesis_tx]. cbn [N.leb N.compare Pos.compare Pos.compare_cont].
    set (st0 := mkTx [] [] [] None []).
    assert (I0 : inv (clear_mem st0)).
    { constructor; try (intros; discriminate). split; split; try constructor; discriminate. }
    rewrite position_small by (unfold two32, two16; lia).
    destruct (save_new st0 (pk_keyid p) p (0, 1) c I0 eq_refl eq_refl eq_refl eq_refl) as (I1 & R1 & _).
    set (st1 := save st0 _) in *. clearbody st1.
    change (1 + 1) with 2. cbn [genesis_tx].
    destruct (stored pk_keyid st1 (UReg r)) as [a|] eqn:Es; [|discriminate].
    destruct (stored_iv st1 (UReg r) a I1 Es) as (k & Ha & _).
    destruct (genesis_candidates pk_keyid (UReg r) 2 cs st1) as [st2|] eqn:Ec; [|discriminate].
    intros [= <-].
    destruct (candidates_inv r cs 2 st1 st2 I1) as (I2 & B2 & A2); auto; try lia.
    { intros s j. rewrite R1. destruct (regid_eqb s (0, 1)) eqn:E; [|discriminate].
      apply regid_eqb_ok in E. subst s. cbn [fst snd]. lia. }
    destruct (resave_inv st2 k a c' I2 (A2 k a Ha)) as (I3 & R3). split.
    - apply inv_sane; auto.
    - intros j s X. apply (inv_back _ I3) in X. unfold owner_of in X. rewrite R3 in X. apply B2 in X. lia.
  Qed.
End Proofs.
