(** Facts about accounts for the proofs about universal transactions (C85-C94). *)
From Coq Require Import String List Bool NArith ZArith Lia.
From Coq Require Import ZifyBool ZifyNat ZifyN.
From Verif Require Import Prelude PreludeFacts AccountModel AccountSpec AccountProofs TxModel TxSpec
  TxProofs FeeModel FeeSpec FeeProofs DexModel DexProofs RegidModel RegidDeploy LuaModel LuaProofs.
Import ListNotations.
Open Scope N_scope.

Section WasmTx.
  Variable pk_keyid : N -> N.
  Notation tinv := (tinv pk_keyid).

  (** What a piece of execution did to the accounts: no new ones, no registration id changed,
      balances changed by [D] and supplies by [S]. *)
  Record tmv (st st' : txst) (D : N -> string -> bucket -> Z) (S : string -> Z) : Prop := {
    tm_inv : tinv st';
    tm_zero : nokey st';
    tm_acc : t_acc st' = t_acc st;
    tm_reg : t_reg st' = t_reg st;
    tm_orders : t_orders st' = t_orders st;
    tm_mem : forall k, l_get (t_mem st) k <> None -> l_get (t_mem st') k <> None;
    tm_ids : forall k, option_map a_regid (l_get (commit st') k) = option_map a_regid (l_get (commit st) k);
    tm_bal : forall k s b, Z.of_N (lbal (commit st') k s b) = (Z.of_N (lbal (commit st) k s b) + D k s b)%Z;
    tm_sup : forall s, Z.of_N (supply (commit st') s) = (Z.of_N (supply (commit st) s) + S s)%Z }.

  Definition zeroS (_ : string) : Z := 0%Z.

  Lemma tmv_refl st : tinv st -> nokey st -> tmv st st zero3 zeroS.
  Proof. intros T K. constructor; auto; unfold zero3, zeroS; intros; lia. Qed.

  Lemma tmv_trans a b c D1 S1 D2 S2 D S :
    tmv a b D1 S1 -> tmv b c D2 S2 ->
    (forall k s x, D k s x = (D1 k s x + D2 k s x)%Z) -> (forall s, S s = (S1 s + S2 s)%Z) ->
    tmv a c D S.
  Proof.
    intros [A1 A2 A3 A4 A5 A6 A7 A8 A9] [B1 B2 B3 B4 B5 B6 B7 B8 B9] HD HS. constructor; auto; try congruence.
    - intros k s x. rewrite B8, A8, HD. lia.
    - intros s. rewrite B9, A9, HS. lia.
  Qed.

  Lemma ids_leq L L' : leq L' L -> forall k, option_map a_regid (l_get L' k) = option_map a_regid (l_get L k).
  Proof. intros H k. now rewrite H. Qed.

  Lemma account_tmv st u k st' :
    tinv st -> nokey st -> get_account pk_keyid st u = (Some k, st') ->
    tmv st st' zero3 zeroS /\ l_get (t_mem st') k <> None /\
    denotes pk_keyid (t_reg st) u = Some k /\ k <> 0.
  Proof.
    intros T K G. destruct (get_account_kept pk_keyid _ _ _ _ T G) as (Kp & V & M & Dn).
    destruct (get_account_some pk_keyid _ _ _ _ T G) as (_ & X & _ & _).
    destruct (get_account_nokey pk_keyid _ _ _ _ K G) as [K' Hk].
    split; [|split; [auto|split; [auto|congruence]]].
    constructor; auto; try apply Kp.
    - apply ids_leq, X.
    - intros. rewrite (mv_bal _ _ _ _ _ V). reflexivity.
    - intros. rewrite (mv_supply _ _ _ _ _ V). unfold zeroS. lia.
  Qed.

  Definition chg (d c : option (N * bucket)) (sym : string) (v : N) (k : N) (s : string) (b : bucket) : Z :=
    (Z.of_N (at_place c sym v k s b) - Z.of_N (at_place d sym v k s b))%Z.

  Lemma operate_ids L who s o v other b L' k :
    l_operate L who s o v other = (b, L') ->
    option_map a_regid (l_get L' k) = option_map a_regid (l_get L k).
  Proof.
    intros H. destruct (l_get L' k) as [a'|] eqn:E.
    - destruct (l_operate_regid _ _ _ _ _ _ _ _ _ _ H E) as (a & Ea & Er). rewrite Ea. simpl. now rewrite Er.
    - apply (l_operate_none _ _ _ _ _ _ _ _ k H) in E. now rewrite E.
  Qed.

  Lemma operate_tmv st who s o v other st' :
    tinv st -> nokey st -> l_get (t_mem st) who <> None ->
    (forall k, other = Some k -> l_get (t_mem st) k <> None) ->
    m_operate st who s o v other = (true, st') ->
    supply (commit st) s + mint_of s (mkReq who s o v other) < two64 ->
    tmv st st' (chg (debited who o other) (credited who o other) s v)
      (fun s' => (Z.of_N (mint_of s' (mkReq who s o v other)) - Z.of_N (burn_of s' (mkReq who s o v other)))%Z).
  Proof.
    intros T K Hw Ho H Hb.
    destruct (m_operate_delta pk_keyid _ _ _ _ _ _ _ T Hw Ho H Hb) as (T' & R & Or & Ky & M & S & B).
    pose proof (m_operate_commit pk_keyid st who s o v other T Hw Ho) as C. cbv zeta in C. rewrite H in C.
    cbn [fst snd] in C. destruct C as (_ & Hf & Hl & _).
    constructor; auto.
    - exact (m_operate_nokey _ _ _ _ _ _ _ _ _ T K H).
    - unfold m_operate in H. destruct (l_operate _ _ _ _ _ _). inversion H; reflexivity.
    - intros k. rewrite (Hl k). destruct (l_operate (commit st) who s o v other) as [b L'] eqn:E.
      cbn [snd]. exact (operate_ids _ _ _ _ _ _ _ _ k E).
    - intros k s' x. rewrite B. unfold chg. lia.
    - intros s'. specialize (S s'). lia.
  Qed.

  Lemma fee_loop_ids sender total n : forall ds i st st',
    tinv st -> nokey st -> l_get (t_mem st) sender <> None ->
    asset_fee_loop pk_keyid sender total n i ds st = Some st' ->
    nokey st' /\ t_acc st' = t_acc st /\
    forall k, option_map a_regid (l_get (commit st') k) = option_map a_regid (l_get (commit st) k).
  Proof.
    induction ds as [|d ds IH]; intros i st st' T K Hm H; simpl in H; [inversion H; subst; auto|].
    destruct (get_account pk_keyid st (UReg d)) as [[kd|] st1] eqn:G; [|discriminate].
    destruct (m_operate st1 sender WICC SubFree (miner_share total n i) (Some kd)) as [[|] st2] eqn:G2; [|discriminate].
    destruct (account_tmv _ _ _ _ T K G) as (A & M1 & _ & _).
    assert (T1 : tinv st1) by apply A. assert (K1 : nokey st1) by apply A.
    assert (Hm1 : l_get (t_mem st1) sender <> None) by (apply A; auto).
    assert (Ho : forall k, Some kd = Some k -> l_get (t_mem st1) k <> None) by (intros k E; inversion E; subst; auto).
    pose proof (m_operate_commit pk_keyid st1 sender WICC SubFree (miner_share total n i) (Some kd) T1 Hm1 Ho) as C.
    cbv zeta in C. rewrite G2 in C. cbn [fst snd] in C. destruct C as (T2 & _ & Hl & _ & _ & _ & M2).
    pose proof (m_operate_nokey _ _ _ _ _ _ _ _ _ T1 K1 G2) as K2.
    destruct (IH _ _ _ T2 K2 (M2 _ Hm1) H) as (K3 & A3 & I3). split; auto.
    assert (A2 : t_acc st2 = t_acc st1) by (unfold m_operate in G2; destruct (l_operate _ _ _ _ _ _); inversion G2; reflexivity).
    split; [rewrite A3, A2; apply A|].
    intros k. rewrite I3, <- (tm_ids _ _ _ _ A k), (Hl k).
    destruct (l_operate (commit st1) _ _ _ _ _) as [b L'] eqn:E. exact (operate_ids _ _ _ _ _ _ _ _ k E).
  Qed.

  (** The fee for issuing an asset: only the issuer loses, only WICC, supplies stay. *)
  Lemma issue_fee_tmv sender fee ratio reserve ds st st' :
    tinv st -> nokey st -> (forall s, supply (commit st) s < two64) -> fee < two64 -> ratio <= 10000 ->
    process_asset_fee pk_keyid sender fee ratio reserve ds st = FOk st' ->
    exists D, tmv st st' D zeroS /\
      forall k s b, (D k s b < 0)%Z -> k = sender /\ b = BFree.
  Proof.
    intros T K Hs Hf Hr H.
    destruct (asset_fee_ok pk_keyid _ _ _ _ _ _ _ T Hs Hf Hr H) as (T' & R & O & Su & M & _ & B).
    assert (I : nokey st' /\ t_acc st' = t_acc st /\
      forall k, option_map a_regid (l_get (commit st') k) = option_map a_regid (l_get (commit st) k)).
    { unfold process_asset_fee in H. destruct (fget N.eqb (t_mem st) sender) as [a|] eqn:Ea; [|discriminate].
      destruct (_ <? fee); [discriminate|].
      destruct (get_account pk_keyid st (UReg reserve)) as [[r|] st1] eqn:G; [|discriminate].
      destruct (m_operate st1 sender WICC SubFree (risk_part fee ratio) (Some r)) as [[|] st2] eqn:G2; [|discriminate].
      destruct ds as [|d ds]; [discriminate|].
      destruct (asset_fee_loop _ _ _ _ _ _ st2) as [st3|] eqn:L; [|discriminate]. inversion H; subst st3; clear H.
      destruct (account_tmv _ _ _ _ T K G) as (A & M1 & _ & _).
      assert (T1 : tinv st1) by apply A. assert (K1 : nokey st1) by apply A.
      assert (Hm1 : l_get (t_mem st1) sender <> None) by (apply A; unfold l_get; congruence).
      assert (Ho : forall k, Some r = Some k -> l_get (t_mem st1) k <> None) by (intros k E; inversion E; subst; auto).
      pose proof (m_operate_commit pk_keyid st1 sender WICC SubFree (risk_part fee ratio) (Some r) T1 Hm1 Ho) as C.
      cbv zeta in C. rewrite G2 in C. cbn [fst snd] in C. destruct C as (T2 & _ & Hl & _ & _ & _ & M2).
      pose proof (m_operate_nokey _ _ _ _ _ _ _ _ _ T1 K1 G2) as K2.
      assert (A2 : t_acc st2 = t_acc st1) by (unfold m_operate in G2; destruct (l_operate _ _ _ _ _ _); inversion G2; reflexivity).
      destruct (fee_loop_ids _ _ _ _ _ _ _ T2 K2 (M2 _ Hm1) L) as (K3 & A3 & I3). split; auto.
      split; [rewrite A3, A2; apply A|].
      intros k. rewrite I3, <- (tm_ids _ _ _ _ A k), (Hl k).
      destruct (l_operate (commit st1) _ _ _ _ _) as [b L'] eqn:E. exact (operate_ids _ _ _ _ _ _ _ _ k E). }
    destruct I as (K' & Ac & I).
    eexists. split.
    - constructor; auto. + exact B. + intros s. rewrite Su. unfold zeroS. lia.
    - intros k s b. cbn beta. destruct (String.eqb s "WICC"); [|simpl; lia].
      destruct b; cbn [bucket_eqb andb]; try lia. destruct (k =? sender) eqn:E; [|lia].
      intros _. split; [now apply N.eqb_eq|reflexivity].
  Qed.

  (** A candidate's votes: nothing but the votes of that account. *)
  Lemma set_votes_tmv st k a v : tinv st -> nokey st -> l_get (t_mem st) k = Some a ->
    tmv st (set_mem st (fput N.eqb (t_mem st) k (mkAccount (a_keyid a) (a_regid a) (a_pubkey a) (a_tokens a) v
      (a_last_vote_height a) (a_last_vote_epoch a) (a_perms a)))) zero3 zeroS.
  Proof.
    intros T K Ha. set (a' := mkAccount _ _ _ _ _ _ _ _). set (st' := set_mem _ _).
    assert (Wk : a_keyid a = k) by (apply (ti_mem _ st T); auto).
    assert (T' : tinv st').
    { constructor; subst st'; simpl; try apply T.
      - apply lput_wf; [apply T|exact Wk].
      - intros k0 a0. change (fput N.eqb (t_mem st) k a') with (l_put (t_mem st) k a'). rewrite lget_put.
        destruct (k0 =? k) eqn:E; [|apply (ti_good_mem _ st T)]. apply N.eqb_eq in E; subst k0.
        intros X; inversion X; subst a0. exact (ti_good_mem _ st T _ _ Ha). }
    assert (G : forall j, l_get (commit st') j = if j =? k then Some a' else l_get (commit st) j).
    { intros j. rewrite (commit_get pk_keyid _ _ T'). subst st'. cbn [set_mem t_mem t_acc].
      change (fput N.eqb (t_mem st) k a') with (l_put (t_mem st) k a'). rewrite lget_put.
      destruct (j =? k) eqn:E; [reflexivity|]. now rewrite (commit_get pk_keyid _ _ T). }
    assert (Gk : l_get (commit st) k = Some a) by (rewrite (commit_get pk_keyid _ _ T), Ha; reflexivity).
    assert (B : forall j s b, lbal (commit st') j s b = lbal (commit st) j s b).
    { intros j s b. unfold lbal. rewrite G. destruct (j =? k) eqn:E; [|reflexivity].
      apply N.eqb_eq in E; subst j. rewrite Gk. reflexivity. }
    constructor; auto.
    - apply nokey_put; auto. intros E. subst k. rewrite E in Ha. destruct K as [_ K]. congruence.
    - intros j Hj. subst st'. cbn [set_mem t_mem]. change (fput N.eqb (t_mem st) k a') with (l_put (t_mem st) k a').
      rewrite lget_put. destruct (j =? k); [discriminate|auto].
    - intros j. rewrite G. destruct (j =? k) eqn:E; [|reflexivity].
      apply N.eqb_eq in E; subst j. rewrite Gk. reflexivity.
    - intros. rewrite B. unfold zero3. lia.
    - intros. rewrite (holding_supply (commit st') (commit st) s); [unfold zeroS; lia| | |]; auto.
      + apply (commit_wf pk_keyid); auto.
      + apply (commit_wf pk_keyid); auto.
  Qed.
End WasmTx.
