(** Proofs about the exchange. *)
From Coq Require Import String List Bool NArith ZArith Lia Arith.
From Coq Require Import ZifyBool ZifyNat ZifyN.
From Verif Require Import Prelude PreludeFacts AccountModel AccountSpec AccountProofs TxModel TxProofs
  DexModel DexSpec.
Import ListNotations.
Open Scope N_scope.

Ltac conj := repeat match goal with |- _ /\ _ => split end;
  try match goal with |- ?x = ?x => reflexivity end.

(** ** Outcomes *)

Lemma bind_done {A B} (x : outcome A) (f : A -> outcome B) y :
  bind x f = Done y -> exists a, x = Done a /\ f a = Done y.
Proof. destruct x; cbn; intros H; try discriminate. eauto. Qed.

Lemma guard_done b u : guard b = Done u -> b = true.
Proof. destruct b; cbn; congruence. Qed.
Lemma asserted_done b u : asserted b = Done u -> b = true.
Proof. destruct b; cbn; congruence. Qed.
Lemma need_done {A} (x : option A) a : need x = Done a -> x = Some a.
Proof. destruct x; cbn; congruence. Qed.

Tactic Notation "step" hyp(H) "as" simple_intropattern(x) simple_intropattern(E) :=
  apply bind_done in H; cbv beta in H; destruct H as (x & E & H).

(** ** Ledger steps *)

(** Everything but balances and orders stays. *)
Definition same_frame (st st' : dstate) : Prop :=
  d_reg st' = d_reg st /\ d_ops st' = d_ops st /\
  (forall k, l_get (d_ledger st') k = None <-> l_get (d_ledger st) k = None).

Lemma l_operate_regid L who s o v other b L' k a' :
  l_operate L who s o v other = (b, L') -> l_get L' k = Some a' ->
  exists a, l_get L k = Some a /\ a_regid a' = a_regid a.
Proof.
  unfold l_operate. destruct (l_get L who) as [a|] eqn:Ga.
  2: { intros H; injection H as <- <-. eauto. }
  assert (P : forall x, a_regid x = a_regid a -> l_get (l_put L who x) k = Some a' ->
     exists a0, l_get L k = Some a0 /\ a_regid a' = a_regid a0).
  { intros x Hx. rewrite lget_put. destruct (k =? who) eqn:E; [|eauto].
    apply N.eqb_eq in E; subst. intros H. injection H as <-. eauto. }
  destruct other as [k2|].
  2: { intros H; injection H as <- <-. apply P.
       symmetry. apply (operate_identity a s o v NoPeer). }
  destruct (k2 =? who) eqn:E.
  { intros H; injection H as <- <-. apply P. symmetry. apply (operate_identity a s o v SelfPeer). }
  destruct (l_get L k2) as [p|] eqn:Gk.
  2: { intros H; injection H as <- <-. eauto. }
  destruct (operate_identity_peer a s o v p) as (p' & Hp & Hi). rewrite Hp.
  intros H; injection H as <- <-. rewrite lget_put. destruct (k =? k2) eqn:E2.
  - apply N.eqb_eq in E2; subst k2. intros H; injection H as <-. exists p. split; [assumption|].
    symmetry. apply Hi.
  - apply P. symmetry. apply (operate_identity a s o v (Peer p)).
Qed.

(** The movement an operation makes, for those the exchange uses. *)
Definition move_of (who : N) (s : string) (o : balance_op) (v : N) (other : option N) : list move :=
  match o, other with
  | Freeze, _ => [mkMove (who, BFree) (who, BFrozen) s v]
  | Unfreeze, _ => [mkMove (who, BFrozen) (who, BFree) s v]
  | DexDeal, Some k => [mkMove (who, BFrozen) (k, BFree) s v]
  | SubFree, Some k => [mkMove (who, BFree) (k, BFree) s v]
  | _, _ => []
  end.

Definition plain_op (o : balance_op) (other : option N) : Prop :=
  match o, other with
  | Freeze, None | Unfreeze, None | DexDeal, Some _ | SubFree, Some _ => True
  | _, _ => False
  end.

Lemma at_place_change p s v k s' b :
  Z.of_N (at_place (Some p) s v k s' b) =
  (if String.eqb s' s then if is_place p k b then Z.of_N v else 0 else 0)%Z.
Proof.
  destruct p as [k0 b0]. unfold at_place, is_place. cbn [fst snd].
  destruct (k =? k0), (String.eqb s' s), (bucket_eqb b b0); reflexivity.
Qed.

(** Moves applied to a state. *)
Record eff (st : dstate) (ms : list move) (st' : dstate) : Prop := mkEff {
  eff_sound : sound st';
  eff_moved : moved (d_ledger st) ms (d_ledger st');
  eff_supply : forall s, supply (d_ledger st') s = supply (d_ledger st) s;
  eff_frame : same_frame st st' }.

Lemma changes_app ms1 ms2 k s b : changes (ms1 ++ ms2) k s b = (changes ms1 k s b + changes ms2 k s b)%Z.
Proof. unfold changes. induction ms1 as [|m ms1 IH]; cbn [app fold_right]; lia. Qed.

Lemma same_frame_trans a b c : same_frame a b -> same_frame b c -> same_frame a c.
Proof.
  intros (A1 & A2 & A4) (B1 & B2 & B4).
  unfold same_frame. conj; try congruence. intros k. rewrite B4. apply A4.
Qed.
Lemma same_frame_refl a : same_frame a a.
Proof. unfold same_frame. conj. tauto. Qed.

Lemma eff_refl st : sound st -> eff st [] st.
Proof.
  intros S. constructor; [assumption | | reflexivity | apply same_frame_refl].
  intros k s b. cbn. lia.
Qed.

Lemma eff_trans a ms1 b ms2 c : eff a ms1 b -> eff b ms2 c -> eff a (ms1 ++ ms2) c.
Proof.
  intros [A1 A2 A3 A4] [B1 B2 B3 B4]. constructor; [assumption | | | eapply same_frame_trans; eassumption].
  - intros k s b0. rewrite changes_app, B2, A2. lia.
  - intros s. rewrite B3. apply A3.
Qed.

Lemma sound_step st L' who s o v other :
  sound st -> l_operate (d_ledger st) who s o v other = (true, L') ->
  (forall s', supply L' s' <= supply (d_ledger st) s') ->
  sound (set_ledger st L') /\ same_frame st (set_ledger st L').
Proof.
  intros (W & R & B) H Hs. split; [split; [|split]|].
  - eapply l_operate_wf; eassumption.
  - intros k a' Ha He. destruct (l_operate_regid _ _ _ _ _ _ _ _ _ _ H Ha) as (a & G & E).
    rewrite E in *. cbn [set_ledger d_reg]. now apply R.
  - intros s'. cbn [set_ledger d_ledger]. specialize (Hs s'). specialize (B s'). lia.
  - unfold same_frame. conj; try reflexivity. intros k. cbn [set_ledger d_ledger]. eapply l_operate_none; eassumption.
Qed.

Lemma op_done st who s o v other st' :
  op st who s o v other = Done st' ->
  exists L', l_operate (d_ledger st) who s o v other = (true, L') /\ st' = set_ledger st L'.
Proof.
  unfold op. destruct (l_operate (d_ledger st) who s o v other) as [[] L']; [|discriminate].
  intros H. injection H as <-. eauto.
Qed.

Lemma op_orders st who s o v other st' :
  op st who s o v other = Done st' -> d_orders st' = d_orders st.
Proof. intros H. apply op_done in H as (L' & _ & ->). reflexivity. Qed.

Lemma op_eff st who s o v other st' :
  sound st -> plain_op o other -> op st who s o v other = Done st' ->
  eff st (move_of who s o v other) st'.
Proof.
  intros S P H. apply op_done in H as (L' & H & ->).
  pose proof S as (W & R & B).
  assert (M : forall s0, mint_of s0 (mkReq who s o v other) = 0).
  { intros s0. destruct o, other; cbn in P; try contradiction; reflexivity. }
  assert (N : forall s0, burn_of s0 (mkReq who s o v other) = 0).
  { intros s0. destruct o, other; cbn in P; try contradiction; reflexivity. }
  assert (B' : forall s0, supply (d_ledger st) s0 < two64).
  { intros s0. specialize (B s0). unfold two63, two64 in *. lia. }
  assert (E : forall s', supply L' s' = supply (d_ledger st) s').
  { intros s'. pose proof (l_operate_supply (d_ledger st) (mkReq who s o v other) L' s' W H) as X.
    rewrite M, N in X. rewrite !N.add_0_r in X. apply X. intros s0 _. rewrite M, N.add_0_r. apply B'. }
  assert (E' : forall s', supply L' s' <= supply (d_ledger st) s') by (intros s'; rewrite E; lia).
  destruct (sound_step _ _ _ _ _ _ _ S H E') as (S' & F).
  constructor; [assumption | | exact E | assumption].
  intros k s' b. cbn [set_ledger d_ledger].
  rewrite (l_operate_delta _ _ _ _ _ _ _ W H).
  2: { rewrite M, N.add_0_r. apply B'. }
  destruct o, other as [k2|]; cbn in P; try contradiction;
    cbn [debited credited internal move_of changes fold_right]; rewrite !at_place_change;
    unfold change; cbn [m_token m_from m_to m_amount]; destruct (String.eqb s' s); lia.
Qed.

(** A fee that is taken away altogether. *)
Lemma op_burn st who s v st' :
  sound st -> op st who s SubFree v None = Done st' ->
  sound st' /\ same_frame st st' /\
  (forall k s' b, b <> BFree -> lbal (d_ledger st') k s' b = lbal (d_ledger st) k s' b).
Proof.
  intros S H. apply op_done in H as (L' & H & ->).
  pose proof S as (W & R & B).
  assert (B' : forall s0, supply (d_ledger st) s0 < two64).
  { intros s0. specialize (B s0). unfold two63, two64 in *. lia. }
  assert (E : forall s', supply L' s' <= supply (d_ledger st) s').
  { intros s'. pose proof (l_operate_supply (d_ledger st) (mkReq who s SubFree v None) L' s' W H) as X.
    cbn [mint_of q_op q_other] in X. rewrite N.add_0_r in X.
    assert (Y : supply L' s' + burn_of s' (mkReq who s SubFree v None) = supply (d_ledger st) s').
    { apply X. intros s0 _. rewrite N.add_0_r. apply B'. }
    lia. }
  destruct (sound_step _ _ _ _ _ _ _ S H E) as (S' & F). conj; try assumption.
  intros k s' b Hb. cbn [set_ledger d_ledger].
  pose proof (l_operate_delta _ _ _ _ _ _ _ W H) as D. cbn [mint_of q_op q_other] in D.
  rewrite N.add_0_r in D. specialize (D (B' s) k s' b). cbn [debited credited] in D.
  rewrite at_place_change in D. cbn [at_place] in D. unfold is_place in D. cbn [fst snd] in D.
  replace (bucket_eqb b BFree) with false in D by (destruct b; congruence || reflexivity).
  rewrite andb_false_r in D. destruct (String.eqb s' s); lia.
Qed.

(** An operation that has the funds and the accounts succeeds. *)
Lemma op_unfreeze st who s v :
  sound st -> l_get (d_ledger st) who <> None -> v <= lbal (d_ledger st) who s BFrozen ->
  exists st', op st who s Unfreeze v None = Done st'.
Proof.
  intros (W & _) H V. unfold op.
  pose proof (l_operate_ok_iff (d_ledger st) who s Unfreeze v None) as X.
  destruct (l_operate (d_ledger st) who s Unfreeze v None) as [ok L']. cbn [fst] in X.
  assert (ok = true) as ->; [|eauto].
  apply X; try discriminate; auto.
Qed.

(** ** Orders *)

Definition weight (reg : list (regid * N)) (k : N) (s : string) (o : order) : N :=
  if match fget regid_eqb reg (o_owner o) with Some k' => k =? k' | None => false end
     && String.eqb (pays_with o) s then unspent o else 0.

Lemma committed_weight st k s : committed st k s = msum (weight (d_reg st) k s) (d_orders st).
Proof. reflexivity. Qed.

Definition order_good (st : dstate) (o : order) : Prop :=
  (exists k, fget regid_eqb (d_reg st) (o_owner o) = Some k /\ l_get (d_ledger st) k <> None) /\
  paid o <= placed_with o /\ placed_with o < two63 /\
  (o_type o = Limit -> o_side o = Buy ->
     o_coin_amount o = value_at (o_asset_amount o) (o_price o) /\
     o_deal_coin o * 100000000 <= o_deal_asset o * o_price o /\
     o_deal_asset o <= o_asset_amount o /\ o_asset_amount o < two63).

Definition inv (F : N -> string -> N) (st : dstate) : Prop :=
  sound st /\ NoDup (keys (d_orders st)) /\
  (forall id o, fget N.eqb (d_orders st) id = Some o -> order_good st o) /\
  (forall k s, lbal (d_ledger st) k s BFrozen = F k s + committed st k s).

Lemma weight_le_committed reg orders k s id o :
  NoDup (keys orders) -> fget N.eqb orders id = Some o ->
  weight reg k s o <= msum (weight reg k s) orders.
Proof.
  intros ND G. pose proof (fval_le_msum N.eqb N_eqb_ok (weight reg k s) orders id ND) as X.
  unfold fval in X. now rewrite G in X.
Qed.

Lemma own_weight reg k o :
  fget regid_eqb reg (o_owner o) = Some k -> weight reg k (pays_with o) o = unspent o.
Proof. intros H. unfold weight. rewrite H, N.eqb_refl, String.eqb_refl. reflexivity. Qed.

(** An order's money is frozen on its owner's account. *)
Lemma order_backed F st id o :
  inv F st -> fget N.eqb (d_orders st) id = Some o ->
  exists k, fget regid_eqb (d_reg st) (o_owner o) = Some k /\ l_get (d_ledger st) k <> None /\
    unspent o <= lbal (d_ledger st) k (pays_with o) BFrozen.
Proof.
  intros (S & ND & G & E) H. destruct (G _ _ H) as ((k & K1 & K2) & _). exists k. conj; auto.
  rewrite E, committed_weight, <- (own_weight (d_reg st) k o K1).
  pose proof (weight_le_committed (d_reg st) (d_orders st) k (pays_with o) id o ND H). lia.
Qed.

Lemma order_good_frame st st' o :
  d_reg st' = d_reg st -> (forall k, l_get (d_ledger st') k = None <-> l_get (d_ledger st) k = None) ->
  order_good st o -> order_good st' o.
Proof.
  intros R P ((k & K1 & K2) & G). split; [|exact G]. exists k. rewrite R. split; [assumption|].
  rewrite P. assumption.
Qed.

(** ** Placing *)

Lemma weight_new st k s o : weight (d_reg st) k s o =
  if owned_by st k o && String.eqb (pays_with o) s then unspent o else 0.
Proof. reflexivity. Qed.

Lemma create_done st id o st' :
  create_order st id o = Done st' ->
  fget N.eqb (d_orders st) id = None /\ st' = set_orders st (fput N.eqb (d_orders st) id o).
Proof.
  unfold create_order. intros H. step H as u G. apply guard_done in G. injection H as <-.
  split; [|reflexivity]. unfold fmem in G. destruct (fget N.eqb (d_orders st) id); [discriminate | reflexivity].
Qed.

(** Adding a good order, after freezing its money. *)
Lemma add_order F st st1 st2 id o k :
  inv F st -> eff st [mkMove (k, BFree) (k, BFrozen) (pays_with o) (placed_with o)] st1 ->
  d_orders st1 = d_orders st -> fget regid_eqb (d_reg st) (o_owner o) = Some k -> order_good st1 o -> paid o = 0 ->
  create_order st1 id o = Done st2 -> inv F st2.
Proof.
  intros (S & ND & G & E) [S1 M _ (R1 & P1 & A1)] O1 K Go Pd C.
  apply create_done in C as (C & ->). rewrite O1 in *.
  split; [exact S1|]. split; [cbn [set_orders d_orders]; apply nodup_put; [apply N_eqb_ok | assumption]|].
  split.
  - intros i o'. cbn [set_orders d_orders]. rewrite (fget_put N.eqb N_eqb_ok).
    destruct (i =? id); [intros X; injection X as <-; exact Go|].
    intros X. apply (order_good_frame st); [exact R1 | exact A1 | eapply G; eassumption].
  - intros k' s. rewrite committed_weight. cbn [set_orders d_ledger d_reg d_orders].
    specialize (M k' s BFrozen). specialize (E k' s). rewrite committed_weight in E.
    pose proof (msum_put N.eqb N_eqb_ok (weight (d_reg st) k' s) (d_orders st) id o ND) as X.
    unfold fval in X. rewrite C, N.add_0_r in X. rewrite R1, X.
    unfold weight at 2. rewrite K.
    cbn [changes fold_right] in M. unfold change, is_place in M.
    cbn [m_token m_from m_to m_amount fst snd bucket_eqb] in M.
    rewrite andb_false_r, andb_true_r in M. rewrite (String.eqb_sym s) in M.
    unfold unspent. rewrite Pd.
    destruct (k' =? k), (String.eqb (pays_with o) s); cbn [andb]; lia.
Qed.

Lemma amount_ok_lt max s v : amount_ok max s v = true -> v < two63.
Proof. unfold amount_ok. rewrite !andb_true_iff, N.ltb_lt. tauto. Qed.

Lemma moved_freeze_bound st st1 k s v :
  eff st [mkMove (k, BFree) (k, BFrozen) s v] st1 -> v < two63.
Proof.
  intros [(W & _ & B) M _ _]. specialize (M k s BFrozen). cbn in M. unfold change, is_place in M.
  cbn [m_token m_from m_to m_amount fst snd bucket_eqb] in M.
  rewrite String.eqb_refl, N.eqb_refl in M. cbn [andb] in M.
  pose proof (lbal_le_supply (d_ledger st1) k s BFrozen W). specialize (B s). lia.
Qed.

Lemma check_order_done base_ok quote_ok max_money st t ty sd :
  check_order base_ok quote_ok max_money st t = Done (ty, sd) ->
  order_type (t_type t) = Some ty /\ order_side (t_side t) = Some sd /\
  (if is_market ty && is_buy sd then t_coin_amount t < two63 else t_asset_amount t < two63).
Proof.
  unfold check_order. intros H.
  step H as ty' T. step H as sd' D. step H as u1 G1. step H as u2 G2. step H as u3 G3.
  step H as u4 G4. step H as u5 G5. step H as p P. step H as k K. step H as u6 G6.
  injection H as -> ->. apply need_done in T, D. conj; try assumption.
  destruct (is_market ty && is_buy sd); apply guard_done in G4; apply andb_true_iff in G4 as (_ & G4);
    eapply amount_ok_lt; eassumption.
Qed.

Lemma inv_frame F st st' :
  inv F st -> sound st' -> d_orders st' = d_orders st ->
  (forall k s, lbal (d_ledger st') k s BFrozen = lbal (d_ledger st) k s BFrozen) ->
  (forall k, l_get (d_ledger st) k <> None -> l_get (d_ledger st') k <> None) ->
  (forall r k, fget regid_eqb (d_reg st) r = Some k -> fget regid_eqb (d_reg st') r = Some k) ->
  inv F st'.
Proof.
  intros (S & ND & G & E) S' O L A R. unfold inv. rewrite O. conj; auto.
  - intros id o H. destruct (G id o H) as ((k & K1 & K2) & G'). split; [|exact G']. eauto.
  - intros k s. rewrite L, E. f_equal. unfold committed. rewrite O.
    assert (X : forall m, (forall id o, In (id, o) m -> In (id, o) (d_orders st)) ->
      msum (fun o => if owned_by st k o && String.eqb (pays_with o) s then unspent o else 0) m =
      msum (fun o => if owned_by st' k o && String.eqb (pays_with o) s then unspent o else 0) m).
    { induction m as [|[id o] m IH]; intros Hm; [reflexivity|]. cbn [msum].
      rewrite IH by (intros; apply Hm; now right). f_equal.
      assert (Ho : fget N.eqb (d_orders st) id = Some o).
      { apply (in_fget N.eqb N_eqb_ok); [assumption | apply Hm; now left]. }
      destruct (G id o Ho) as ((k0 & K1 & _) & _).
      unfold owned_by. rewrite K1, (R _ _ K1). reflexivity. }
    apply X. auto.
Qed.

Lemma exec_order_inv F e st t ty sd st' :
  inv F st ->
  (if is_market ty && is_buy sd then t_coin_amount t < two63 else t_asset_amount t < two63) ->
  exec_order e st t ty sd = Done st' -> inv F st'.
Proof.
  intros I A H. unfold exec_order in H.
  step H as st1 H1.
  assert (I1 : inv F st1).
  { destruct (t_params t); [|injection H1 as <-; assumption].
    destruct (0 <? t_operator_fee t); [|injection H1 as <-; assumption].
    step H1 as p P. step H1 as k K.
    pose proof (op_orders _ _ _ _ _ _ _ H1) as O1.
    apply op_burn in H1 as (S1 & (R1 & _ & A1) & B1); [|apply I].
    apply (inv_frame F st); auto.
    - intros k0 s. now apply B1.
    - intros k0. rewrite A1. auto.
    - intros r k0. rewrite R1. auto. }
  step H as coins C. step H as st2 H2. step H as a G. apply need_done in G.
  step H as u As. apply asserted_done in As.
  match type of H with create_order _ _ ?x = _ => set (o := x) in * end.
  assert (Ef : eff st1 [mkMove (t_sender t, BFree) (t_sender t, BFrozen) (pays_with o) (placed_with o)] st2).
  { subst o. unfold pays_with, placed_with. cbn [o_side o_coin o_asset o_coin_amount o_asset_amount].
    destruct sd; cbn [is_buy] in H2; apply op_eff in H2; cbn; auto; apply I1. }
  assert (O2 : d_orders st2 = d_orders st1) by (destruct (is_buy sd); exact (op_orders _ _ _ _ _ _ _ H2)).
  assert (K : fget regid_eqb (d_reg st1) (o_owner o) = Some (t_sender t)).
  { destruct (eff_frame _ _ _ Ef) as (R & _). rewrite <- R. apply (eff_sound _ _ _ Ef); [assumption|].
    now apply negb_true_iff. }
  apply (add_order F st1 st2 st' (t_id t) o (t_sender t)); auto.
  - split.
    + exists (t_sender t). destruct (eff_frame _ _ _ Ef) as (R & _). rewrite R. split; [assumption|].
      rewrite G. discriminate.
    + split; [subst o; destruct sd; cbn; lia|].
      split; [eapply moved_freeze_bound; eassumption|].
      intros T D. subst o. cbn [o_type o_side] in T, D. subst ty sd. cbn in A, C |- *.
      unfold calc_coin_amount in C. step C as u2 As2. injection C as <-. conj; [reflexivity | lia | lia | assumption].
  - subst o. destruct sd; reflexivity.
Qed.

Lemma place_inv base_ok quote_ok max_money F e st t st' :
  inv F st -> place base_ok quote_ok max_money e st t = Done st' -> inv F st'.
Proof.
  intros I H. unfold place in H. step H as [ty sd] C. apply check_order_done in C as (_ & _ & A).
  eapply exec_order_inv; eassumption.
Qed.

Lemma holder_some st r k : holder st r = Some k ->
  fget regid_eqb (d_reg st) r = Some k /\ l_get (d_ledger st) k <> None.
Proof.
  unfold holder. destruct (fget regid_eqb (d_reg st) r) as [k'|]; [|discriminate].
  destruct (l_get (d_ledger st) k') eqn:E; [|discriminate]. intros H. injection H as <-.
  split; [reflexivity | congruence].
Qed.

Lemma sys_good e st1 sd coin asset amount :
  (exists k, fget regid_eqb (d_reg st1) (n_reserve e) = Some k /\ l_get (d_ledger st1) k <> None) ->
  amount < two63 -> order_good st1 (sys_order e sd coin asset amount).
Proof.
  intros K A. split; [exact K|]. split; [destruct sd; cbn; lia|].
  split; [destruct sd; cbn; lia|]. discriminate.
Qed.

Lemma sys_add F e st k sd coin asset amount id st1 st2 :
  inv F st -> holder st (n_reserve e) = Some k ->
  op st k (if is_buy sd then coin else asset) Freeze amount None = Done st1 ->
  create_order st1 id (sys_order e sd coin asset amount) = Done st2 -> inv F st2.
Proof.
  intros I K O C. apply holder_some in K as (K1 & K2).
  pose proof (op_orders _ _ _ _ _ _ _ O) as O1.
  apply op_eff in O; [|apply I | exact Logic.I]. cbn [move_of] in O.
  assert (A : amount < two63) by (eapply moved_freeze_bound; eassumption).
  destruct (eff_frame _ _ _ O) as (R & _ & P).
  apply (add_order F st st1 st2 id (sys_order e sd coin asset amount) k); auto.
  - destruct sd; exact O.
  - apply sys_good; [|assumption]. exists k. rewrite R, P. auto.
  - destruct sd; reflexivity.
Qed.

Lemma sys_place_inv F e st id sd coin asset amount st' :
  inv F st -> sys_place e st id sd coin asset amount = Done st' -> inv F st'.
Proof.
  intros I H. unfold sys_place in H. step H as k K. step H as st1 O. apply need_done in K.
  eapply sys_add; eassumption.
Qed.

(** ** Cancelling *)

Lemma left_unspent o : paid o <= placed_with o -> placed_with o < two63 ->
  left_amount o = unspent o /\ left_symbol o = pays_with o.
Proof.
  unfold left_amount, left_symbol, unspent, pays_with, paid, placed_with.
  destruct (o_side o); cbn [is_buy]; intros H1 H2; (split; [|reflexivity]);
    apply sub64_small; unfold two63, two64 in *; lia.
Qed.

Lemma refund_order F st id o k :
  inv F st -> fget N.eqb (d_orders st) id = Some o ->
  fget regid_eqb (d_reg st) (o_owner o) = Some k ->
  exists st1, op st k (left_symbol o) Unfreeze (left_amount o) None = Done st1 /\
    eff st [mkMove (k, BFrozen) (k, BFree) (pays_with o) (unspent o)] st1 /\
    d_orders st1 = d_orders st /\ inv F (erase_order st1 id).
Proof.
  intros I H K. destruct (order_backed _ _ _ _ I H) as (k' & K' & Ka & Bk).
  assert (k' = k) by congruence. subst k'.
  destruct I as (S & ND & G & E). destruct (G _ _ H) as (_ & G1 & G2 & _).
  destruct (left_unspent o G1 G2) as (-> & ->).
  destruct (op_unfreeze st k (pays_with o) (unspent o) S Ka Bk) as (st1 & O).
  exists st1. split; [assumption|].
  pose proof (op_eff st k (pays_with o) Unfreeze (unspent o) None st1 S Logic.I O) as Ef. cbn [move_of] in Ef. split; [assumption|].
  pose proof (op_orders _ _ _ _ _ _ _ O) as O1. split; [assumption|].
  destruct Ef as [S1 M _ (R1 & _ & A1)].
  split; [exact S1|]. unfold erase_order. cbn [set_orders d_orders]. rewrite O1.
  split; [apply nodup_del; [apply N_eqb_ok | assumption]|]. split.
  - intros i o'. rewrite (fget_del N.eqb N_eqb_ok). destruct (i =? id); [discriminate|].
    intros X. apply (order_good_frame st); [exact R1 | exact A1 | eapply G; eassumption].
  - intros k' s. rewrite committed_weight. cbn [set_orders d_ledger d_reg d_orders].
    specialize (M k' s BFrozen). specialize (E k' s). rewrite committed_weight in E.
    pose proof (msum_del N.eqb N_eqb_ok (weight (d_reg st) k' s) (d_orders st) id ND) as X.
    unfold fval in X. rewrite H in X. rewrite R1. unfold weight at 2 in X. rewrite K in X.
    cbn [changes fold_right] in M. unfold change, is_place in M.
    cbn [m_token m_from m_to m_amount fst snd bucket_eqb] in M.
    rewrite andb_false_r, andb_true_r in M. rewrite (String.eqb_sym s) in M.
    destruct (k' =? k), (String.eqb (pays_with o) s); cbn [andb] in X, M; lia.
Qed.

(** The owner can always cancel, and gets back exactly what is left. *)
Lemma cancel_works F st sender a id o :
  inv F st -> id <> 0 -> fget N.eqb (d_orders st) id = Some o -> o_user_made o = true ->
  l_get (d_ledger st) sender = Some a -> regid_empty (a_regid a) = false -> a_regid a = o_owner o ->
  exists st', cancel st sender id = Done st' /\
    eff st [mkMove (sender, BFrozen) (sender, BFree) (pays_with o) (unspent o)]
      (set_orders st' (d_orders st)) /\
    d_orders st' = fdel N.eqb (d_orders st) id /\ inv F st'.
Proof.
  intros I Hid H U A Re Ro. unfold cancel.
  apply N.eqb_neq in Hid. rewrite Hid. cbn [negb guard bind]. rewrite H. cbn [need bind].
  rewrite U. cbn [guard bind]. rewrite A. cbn [need bind]. rewrite Re, Ro.
  assert (X : regid_eqb (o_owner o) (o_owner o) = true) by (apply regid_eqb_ok; reflexivity).
  rewrite X. cbn [negb andb guard bind].
  assert (K : fget regid_eqb (d_reg st) (o_owner o) = Some sender).
  { rewrite <- Ro. now apply I. }
  destruct (refund_order F st id o sender I H K) as (st1 & O & Ef & O1 & I1).
  rewrite O. cbn [bind]. exists (erase_order st1 id). split; [reflexivity|].
  destruct Ef as [S1 M Q (R1 & P1 & A1)].
  split; [constructor; auto; split; auto|]. split; [|assumption].
  unfold erase_order. cbn [set_orders d_orders]. now rewrite O1.
Qed.

Lemma cancel_inv F st sender id st' : inv F st -> cancel st sender id = Done st' -> inv F st'.
Proof.
  intros I H. pose proof H as H0. unfold cancel in H.
  step H as u G. apply guard_done, negb_true_iff, N.eqb_neq in G.
  step H as o O. apply need_done in O. step H as u1 G1. apply guard_done in G1.
  step H as a A. apply need_done in A. step H as u2 G2. apply guard_done, andb_true_iff in G2 as (G2 & G3).
  apply negb_true_iff in G2. apply regid_eqb_ok in G3.
  destruct (cancel_works F st sender a id o I G O G1 A G2 G3) as (st2 & H2 & _ & _ & I2). congruence.
Qed.

Lemma gov_cancel_works F st id o :
  inv F st -> id <> 0 -> fget N.eqb (d_orders st) id = Some o -> o_user_made o = true ->
  exists st' k, gov_cancel st id = Done st' /\ fget regid_eqb (d_reg st) (o_owner o) = Some k /\
    eff st [mkMove (k, BFrozen) (k, BFree) (pays_with o) (unspent o)]
      (set_orders st' (d_orders st)) /\
    d_orders st' = fdel N.eqb (d_orders st) id /\ inv F st'.
Proof.
  intros I Hid H U. unfold gov_cancel.
  apply N.eqb_neq in Hid. rewrite Hid. cbn [negb guard bind]. rewrite H. cbn [need bind].
  rewrite U. cbn [guard bind].
  destruct (order_backed _ _ _ _ I H) as (k & K & Ka & _). unfold holder. rewrite K.
  destruct (l_get (d_ledger st) k) eqn:A; [|congruence]. cbn [need bind].
  destruct (refund_order F st id o k I H K) as (st1 & O & Ef & O1 & I1).
  rewrite O. cbn [bind]. exists (erase_order st1 id), k. split; [reflexivity|]. split; [reflexivity|].
  destruct Ef as [S1 M Q (R1 & P1 & A1)].
  split; [constructor; auto; split; auto|]. split; [|assumption].
  unfold erase_order. cbn [set_orders d_orders]. now rewrite O1.
Qed.

Lemma gov_cancel_inv F st id st' : inv F st -> gov_cancel st id = Done st' -> inv F st'.
Proof.
  intros I H. pose proof H as H0. unfold gov_cancel in H.
  step H as u G. apply guard_done, negb_true_iff, N.eqb_neq in G.
  step H as o O. apply need_done in O. step H as u1 G1. apply guard_done in G1.
  destruct (gov_cancel_works F st id o I G O G1) as (st2 & k & H2 & _ & _ & _ & I2). congruence.
Qed.

(** ** Deals *)

Lemma by_ratio_done amount ratio boost v : by_ratio amount ratio boost = Done v -> v = amount * ratio / boost.
Proof. unfold by_ratio. intros H. step H as u G. congruence. Qed.

Lemma sub_fee_done amount fee v : sub_fee amount fee = Done v -> fee < amount /\ v = amount - fee.
Proof.
  unfold sub_fee. intros H. step H as u G. apply guard_done, negb_true_iff, N.leb_gt in G.
  split; [assumption | congruence].
Qed.

Lemma taker_side_ok b s : taker_is b s (taker_side b s).
Proof.
  unfold taker_side.
  assert (C : forall x y, if cord_ltb x y then earlier x y else ~ earlier x y).
  { intros x y. unfold cord_ltb, earlier. destruct (fst x =? fst y) eqn:E.
    - destruct (snd x <? snd y) eqn:E2; lia.
    - destruct (fst x <? fst y) eqn:E2; lia. }
  specialize (C (o_cord b) (o_cord s)).
  destruct (o_type b) eqn:B, (o_type s) eqn:T;
    try (now apply taker_market_buy); try (now apply taker_market_sell);
    (destruct (cord_ltb (o_cord b) (o_cord s)); [apply taker_later_sell | apply taker_later_buy]; congruence).
Qed.

Lemma price_ok_fair b s p : price_ok b s p = true -> fair_price b s p.
Proof.
  unfold price_ok, fair_price. destruct (o_type b), (o_type s); intros H; conj; intros; try discriminate; lia.
Qed.

Lemma open_ok_meet b s pb ps : open_ok b s pb ps = true -> may_meet b s pb ps (taker_side b s).
Proof.
  unfold open_ok, may_meet. destruct (o_dex b =? o_dex s) eqn:E; [left; lia|]. intros H. right.
  destruct (taker_side b s); apply andb_true_iff in H as (H1 & H2); (split; [exact H1|]).
  - destruct (p_open_set ps); [now left | right]. apply existsb_exists in H2 as (y & Y & Z).
    apply N.eqb_eq in Z. now subst.
  - destruct (p_open_set pb); [now left | right]. apply existsb_exists in H2 as (y & Y & Z).
    apply N.eqb_eq in Z. now subst.
Qed.

Lemma match_fee_done o p c taker amount v :
  order_params o p = c ->
  forall o', o_side o' = o_side o -> match_fee o' c taker amount = Done v ->
  share o p taker <= 50000000 /\ v = amount * share o p taker / 100000000.
Proof.
  intros <- o' Ho H. unfold match_fee in H. rewrite Ho in H.
  assert (X : (if Bool.eqb (is_buy (o_side o)) (is_buy taker) then op_taker (order_params o p)
               else op_maker (order_params o p)) = share o p taker).
  { unfold share. change (order_params o p) with (terms o p). destruct (o_side o), taker; reflexivity. }
  rewrite X in H. step H as u G. apply guard_done, N.leb_le in G. apply by_ratio_done in H.
  split; assumption.
Qed.

Lemma signed64_zero z : (0 <= z < 18446744073709551616 \/ -18446744073709551616 < z < 0)%Z ->
  signed64 z = 0%Z -> z = 0%Z.
Proof. unfold signed64. intros H. destruct (_ <? _)%Z eqn:E; Z.to_euclidean_division_equations; lia. Qed.

Lemma signed64_small z : (-9223372036854775808 <= z < 9223372036854775808)%Z -> signed64 z = z.
Proof. unfold signed64. intros H. destruct (_ <? _)%Z eqn:E; Z.to_euclidean_division_equations; lia. Qed.

Lemma coins_match_ok ty calc coins price :
  calc < two64 -> coins < two63 -> coins_match ty calc coins price = Done true ->
  (ty = Limit -> coins = calc) /\
  (calc < two63 -> coins <= calc + N.max 1 (price / 100000000) /\
                   calc <= coins + N.max 1 (price / 100000000)).
Proof.
  intros A B H. unfold coins_match in H. change PRICE_BOOST with 100000000 in H.
  generalize dependent (price / 100000000). intros q H. unfold two63, two64 in *.
  destruct ty; cbn [is_market] in H.
  - injection H as H. apply Z.eqb_eq in H. apply signed64_zero in H; [|lia]. split; intros; lia.
  - split; [discriminate|]. intros C. rewrite signed64_small in H by lia.
    destruct (_ =? _)%Z; [discriminate|]. injection H as H. lia.
Qed.

(** The floor of a sum of prices. *)
Lemma value_at_le a p A P : a <= A -> p <= P -> value_at a p <= value_at A P.
Proof. intros. unfold value_at. apply N.div_le_mono; [lia|]. now apply N.mul_le_mono. Qed.

Lemma value_at_mul a p : value_at a p * 100000000 <= a * p.
Proof. unfold value_at. rewrite N.mul_comm. apply N.mul_div_le. lia. Qed.

Lemma value_at_bound c a p : c * 100000000 <= a * p -> c <= value_at a p.
Proof. intros H. unfold value_at. apply N.div_le_lower_bound; lia. Qed.

Lemma eff_eq st ms ms' st' :
  (forall k s b, changes ms k s b = changes ms' k s b) -> eff st ms st' -> eff st ms' st'.
Proof. intros H [A B C D]. constructor; auto. intros k s b. rewrite <- H. apply B. Qed.

Lemma moved_from_frozen st st1 k k2 s v :
  sound st -> eff st [mkMove (k, BFrozen) (k2, BFree) s v] st1 -> v < two63.
Proof.
  intros (W & _ & B) [_ M _ _]. specialize (M k s BFrozen). cbn [changes fold_right] in M.
  unfold change, is_place in M. cbn [m_token m_from m_to m_amount fst snd bucket_eqb] in M.
  rewrite String.eqb_refl, N.eqb_refl, andb_false_r in M. cbn [andb] in M.
  pose proof (lbal_le_supply (d_ledger st) k s BFrozen W). specialize (B s). lia.
Qed.

Definition upd (m : list (N * order)) (id : N) (x : option order) : list (N * order) :=
  match x with Some o => fput N.eqb m id o | None => fdel N.eqb m id end.

Lemma fget_upd m id x i : fget N.eqb (upd m id x) i = if i =? id then x else fget N.eqb m i.
Proof.
  destruct x as [o|]; cbn [upd]; [apply (fget_put N.eqb N_eqb_ok) | apply (fget_del N.eqb N_eqb_ok)].
Qed.

Lemma nodup_upd m id x : NoDup (keys m) -> NoDup (keys (upd m id x)).
Proof. destruct x; cbn [upd]; [apply nodup_put | apply nodup_del]; apply N_eqb_ok. Qed.

Definition oval (w : order -> N) (x : option order) : N := match x with Some o => w o | None => 0 end.

Lemma msum_upd w m id x : NoDup (keys m) ->
  msum w (upd m id x) + oval w (fget N.eqb m id) = msum w m + oval w x.
Proof.
  intros ND. destruct x as [o|]; cbn [upd oval].
  - pose proof (msum_put N.eqb N_eqb_ok w m id o ND) as X. unfold fval in X. exact X.
  - pose proof (msum_del N.eqb N_eqb_ok w m id ND) as X. unfold fval in X. rewrite N.add_0_r. exact X.
Qed.

Lemma set_orders_eff st ms st' m : eff st ms st' -> eff st ms (set_orders st' m).
Proof. intros [A B C D]. constructor; auto. Qed.

(** A movement of nothing. *)
Lemma no_change p q s k s' b : changes [mkMove p q s 0] k s' b = 0%Z.
Proof.
  cbn. unfold change. cbn [m_token m_from m_to m_amount].
  destruct (String.eqb s' s), (is_place q k b), (is_place p k b); reflexivity.
Qed.

Lemma coin_friction_eff e st from id s fee st' :
  sound st -> coin_friction e st from id s fee = Done st' ->
  exists r, (fee <> 0 -> fget regid_eqb (d_reg st) (n_reserve e) = Some r /\ l_get (d_ledger st) r <> None /\
                         fget N.eqb (d_orders st) id = None) /\
    eff st [mkMove (from, BFree) (r, BFrozen) s fee] st' /\ (fee <> 0 -> fee < two63) /\
    d_orders st' = if 0 <? fee then upd (d_orders st) id (Some (sys_order e Buy s "WGRT" fee))
                   else d_orders st.
Proof.
  intros S H. unfold coin_friction in H. destruct (0 <? fee) eqn:Z.
  - step H as r R. apply need_done, holder_some in R. step H as st1 O1. step H as st2 O2.
    apply create_done in H as (C & ->). exists r.
    pose proof (op_orders _ _ _ _ _ _ _ O1) as D1. pose proof (op_orders _ _ _ _ _ _ _ O2) as D2.
    apply op_eff in O1; [|assumption | exact Logic.I].
    apply op_eff in O2; [|apply O1 | exact Logic.I]. cbn [move_of] in O1, O2.
    rewrite D2, D1 in *. conj; auto.
    + intros _. tauto.
    + apply set_orders_eff. refine (eff_eq _ _ _ _ _ (eff_trans _ _ _ _ _ O1 O2)).
      intros k s' b. cbn [app changes fold_right]. unfold change. cbn [m_token m_from m_to m_amount].
      destruct (String.eqb s' s); lia.
    + intros _. eapply moved_freeze_bound; eassumption.
  - apply N.ltb_ge in Z. assert (fee = 0) as -> by lia. injection H as <-. exists 0.
    split; [lia|]. split; [|split; [lia | reflexivity]].
    eapply eff_eq; [|apply eff_refl; assumption]. intros. now rewrite no_change.
Qed.

Lemma deal_order_done st id sd o :
  deal_order st id sd = Done o -> fget N.eqb (d_orders st) id = Some o /\ o_side o = sd.
Proof.
  unfold deal_order. intros H. step H as o' G. step H as u E. injection H as <-.
  apply need_done in G. apply guard_done in E. split; [assumption|].
  destruct (o_side o'), sd; cbn in E; congruence.
Qed.

Lemma calc_done asset price c : calc_coin_amount asset price = Done c ->
  c = value_at asset price /\ c < two64.
Proof.
  unfold calc_coin_amount. intros H. step H as u G. apply asserted_done, N.ltb_lt in G.
  injection H as <-. split; [reflexivity | lia].
Qed.

Lemma dealt_after o i : dealt o (l_coin i) (l_asset i) = after o i.
Proof. reflexivity. Qed.

Lemma left_zero a b : (a - b =? 0) = (a <=? b).
Proof. destruct (a <=? b) eqn:E; lia. Qed.

Lemma floor_step dc da p c a q : dc * 100000000 <= da * p -> c * 100000000 <= a * q -> q <= p ->
  (dc + c) * 100000000 <= (da + a) * p.
Proof.
  intros H1 H2 H3. assert (a * q <= a * p) by (apply N.mul_le_mono_l; assumption).
  rewrite !N.mul_add_distr_r. lia.
Qed.

Section Deal.
  Variable order_hash : N -> N -> (N * N * N * N * N) -> string -> N.

  Definition tax_id (txid idx : N) (i : deal) (s : order) : N :=
    order_hash txid idx (l_buy i, l_sell i, l_price i, l_coin i, l_asset i) (o_coin s).

  Lemma exec_deal_proper F e txid idx st i st' :
    inv F st -> exec_deal order_hash e txid idx st i = Done st' ->
    exists b s pb ps taker x,
      proper_deal e (tax_id txid idx i s) st i st' b s pb ps taker x /\ inv F st'.
  Proof.
    intros I H. pose proof I as (S & ND & G & E). unfold exec_deal in H.
    step H as b0 Hb. apply deal_order_done in Hb as (Hb & Sb).
    step H as s0 Hs. apply deal_order_done in Hs as (Hs & Ss).
    step H as kb Kb. apply need_done, holder_some in Kb as (Kb & Kb').
    step H as ks Ks. apply need_done, holder_some in Ks as (Ks & Ks').
    step H as pb Pb. apply need_done in Pb.
    step H as kpb Kpb. apply need_done, holder_some in Kpb as (Kpb & _).
    step H as ps Ps. apply need_done in Ps.
    step H as kps Kps. apply need_done, holder_some in Kps as (Kps & _).
    cbv zeta in H.
    step H as kbp Kbp. apply need_done, holder_some in Kbp as (Kbp & _).
    step H as u2 G2. apply guard_done, String.eqb_eq in G2.
    step H as u3 G3. apply guard_done, String.eqb_eq in G3.
    step H as u4 G4. apply guard_done, price_ok_fair in G4.
    step H as u5 G5. apply guard_done, open_ok_meet in G5.
    step H as calc C. apply calc_done in C as (-> & C).
    step H as m Cm. step H as u6 G6. apply guard_done in G6. subst m.
    rewrite !dealt_after in H.
    step H as buy_left BL. step H as u7 G7. apply guard_done, negb_true_iff, N.ltb_ge in G7.
    set (fric := o_user_made (after s0 i) && o_user_made (after b0 i) && n_r3 e) in *.
    step H as cf CF. step H as coins1 C1. step H as af AF. step H as assets1 A1.
    step H as am AM. step H as u8 S8. step H as cm CM. step H as u9 S9.
    step H as st1 O1. step H as st2 O2. step H as st3 O3. step H as st4 O4. step H as st5 O5.
    step H as st6 O6.
    cbn [o_coin o_asset after] in O1, O2, O3, O4, O5, O6.
    (* the ledger *)
    pose proof (op_orders _ _ _ _ _ _ _ O1) as D1. pose proof (op_orders _ _ _ _ _ _ _ O2) as D2.
    pose proof (op_orders _ _ _ _ _ _ _ O4) as D4. pose proof (op_orders _ _ _ _ _ _ _ O5) as D5.
    apply op_eff in O1; [|assumption | exact Logic.I]. cbn [move_of] in O1.
    apply op_eff in O2; [|apply O1 | exact Logic.I]. cbn [move_of] in O2.
    assert (Lc : l_coin i < two63) by (eapply moved_from_frozen; eassumption).
    assert (La : l_asset i < two63) by (eapply moved_from_frozen; [apply O1 | eassumption]).
    apply coins_match_ok in Cm; [|assumption | assumption].
    assert (Cf : cf = l_coin i * (if fric then n_friction e else 0) / 10000 /\ cf <= l_coin i /\
                 coins1 = l_coin i - cf).
    { destruct fric.
      - apply by_ratio_done in CF. apply sub_fee_done in C1. lia.
      - injection CF as <-. injection C1 as <-. rewrite N.mul_0_r. cbn. lia. }
    assert (Af : af = l_asset i * (if fric then n_friction e else 0) / 10000 /\ af <= l_asset i /\
                 assets1 = l_asset i - af).
    { destruct fric.
      - apply by_ratio_done in AF. apply sub_fee_done in A1. lia.
      - injection AF as <-. injection A1 as <-. rewrite N.mul_0_r. cbn. lia. }
    clear CF C1 AF A1.
    destruct Cf as (Cf1 & Cf2 & ->). destruct Af as (Af1 & Af2 & ->).
    assert (E3 : exists r,
       (cf <> 0 -> fget regid_eqb (d_reg st2) (n_reserve e) = Some r /\ l_get (d_ledger st2) r <> None /\
                   fget N.eqb (d_orders st2) (tax_id txid idx i s0) = None) /\
       eff st2 [mkMove (ks, BFree) (r, BFrozen) (o_coin s0) cf; mkMove (kb, BFree) (kbp, BFree) (o_asset b0) af] st3 /\
       (cf <> 0 -> cf < two63) /\
       d_orders st3 = if 0 <? cf then upd (d_orders st2) (tax_id txid idx i s0) (Some (sys_order e Buy (o_coin s0) "WGRT" cf))
                      else d_orders st2).
    { destruct fric.
      - step O3 as y Y. apply coin_friction_eff in Y; [|apply O2].
        destruct Y as (r & Y1 & Y2 & Y3 & Y4). exists r. split; [exact Y1|].
        rewrite (op_orders _ _ _ _ _ _ _ O3). split; [|split; [exact Y3 | exact Y4]].
        apply op_eff in O3; [|apply Y2 | exact Logic.I].
        exact (eff_trans _ _ _ _ _ Y2 O3).
      - injection O3 as <-. rewrite N.mul_0_r in Cf1, Af1. cbn in Cf1, Af1. subst cf af. exists 0.
        split; [lia|]. split; [|split; [lia | reflexivity]].
        eapply eff_eq; [|apply eff_refl; apply O2].
        intros k s b. change (changes [] k s b) with 0%Z. symmetry.
        change [?a; ?b] with ([a] ++ [b]). rewrite changes_app, !no_change. reflexivity. }
    clear O3. destruct E3 as (r & R & O3 & CT & D3).
    apply op_eff in O4; [|apply O3 | exact Logic.I]. cbn [move_of] in O4.
    apply op_eff in O5; [|apply O4 | exact Logic.I]. cbn [move_of] in O5.
    (* the limits *)
    destruct (G _ _ Hb) as (_ & Pb1 & Pb2 & Pb3). destruct (G _ _ Hs) as (_ & Ps1 & Ps2 & _).
    unfold paid, placed_with in Pb1, Pb2, Ps1, Ps2. rewrite Sb in Pb1, Pb2. rewrite Ss in Ps1, Ps2.
    assert (Ws : (o_deal_asset s0 + l_asset i) mod two64 = o_deal_asset s0 + l_asset i).
    { apply N.mod_small. unfold two63, two64 in *. lia. }
    assert (Wb : (o_deal_coin b0 + l_coin i) mod two64 = o_deal_coin b0 + l_coin i).
    { apply N.mod_small. unfold two63, two64 in *. lia. }
    cbn [o_asset_amount o_deal_asset after] in G7. rewrite Ws in G7.
    assert (Wl : o_type b0 = Limit -> (o_deal_asset b0 + l_asset i) mod two64 = o_deal_asset b0 + l_asset i).
    { intros T. destruct (Pb3 T Sb) as (_ & _ & X1 & X2). apply N.mod_small.
      unfold two63, two64 in *. lia. }
    assert (LB : o_deal_coin b0 + l_coin i <= o_coin_amount b0 /\
                 (o_type b0 = Limit -> o_deal_asset b0 + l_asset i <= o_asset_amount b0 /\
                    (o_deal_coin b0 + l_coin i) * 100000000 <= (o_deal_asset b0 + l_asset i) * o_price b0) /\
                 (buy_left =? 0) = complete (after b0 i)).
    { unfold complete, to_fill, filled. cbn [o_type o_side o_coin_amount o_asset_amount o_deal_coin o_deal_asset after] in BL |- *.
      rewrite Sb. rewrite Wb in *. destruct (o_type b0) eqn:T; cbn [is_market] in BL.
      - rewrite (Wl eq_refl) in *. step BL as u L. apply guard_done, negb_true_iff, N.ltb_ge in L.
        injection BL as <-. destruct (Pb3 eq_refl Sb) as (X1 & X2 & X3 & X4).
        destruct Cm as (Cm & _). specialize (Cm eq_refl). destruct G4 as (G4 & _). specialize (G4 T).
        pose proof (value_at_mul (l_asset i) (l_price i)) as V. rewrite <- Cm in V.
        pose proof (floor_step _ _ _ _ _ _ X2 V G4) as Q.
        split; [|split; [intros _; split; assumption | apply left_zero]].
        rewrite X1. apply value_at_bound. etransitivity; [exact Q|]. now apply N.mul_le_mono_r.
      - step BL as u L. apply guard_done, negb_true_iff, N.ltb_ge in L. injection BL as <-.
        split; [assumption|]. split; [discriminate | apply left_zero]. }
    destruct LB as (LB1 & LB2 & LB3). clear BL.
    rewrite LB3 in O6. cbn [o_type o_coin_amount o_deal_coin after] in O6. rewrite Wb in O6.
    pose (ref := match o_type b0 with
                 | Limit => if complete (after b0 i) then o_coin_amount b0 - (o_deal_coin b0 + l_coin i) else 0
                 | Market => 0
                 end).
    assert (E6 : eff st5 [mkMove (kb, BFrozen) (kb, BFree) (o_coin b0) ref] st6 /\
       d_orders st6 = upd (d_orders st5) (l_buy i) (if complete (after b0 i) then None else Some (after b0 i))).
    { assert (Zero : forall m, eff st5 [mkMove (kb, BFrozen) (kb, BFree) (o_coin b0) 0] (set_orders st5 m)).
      { intros m. apply set_orders_eff. eapply eff_eq; [|apply eff_refl; apply O5].
        intros. now rewrite no_change. }
      unfold ref. destruct (complete (after b0 i)).
      - step O6 as y Y. injection O6 as <-. destruct (o_type b0); cbn [is_market] in Y.
        + destruct (_ <? _) eqn:L.
          * split; [|cbn; now rewrite (op_orders _ _ _ _ _ _ _ Y)].
            apply op_eff in Y; [|apply O5 | exact Logic.I]. now apply set_orders_eff.
          * step Y as u A. injection Y as <-. apply N.ltb_ge in L.
            replace (o_coin_amount b0 - (o_deal_coin b0 + l_coin i)) with 0 by (clear - L LB1; lia).
            split; [apply Zero | reflexivity].
        + injection Y as <-. split; [apply Zero | reflexivity].
      - injection O6 as <-. destruct (o_type b0); (split; [apply Zero | reflexivity]). }
    clear O6. destruct E6 as (O6 & D6).
    assert (E7 : d_ledger st' = d_ledger st6 /\ d_reg st' = d_reg st6 /\ d_ops st' = d_ops st6 /\
       d_orders st' = upd (d_orders st6) (l_sell i) (if complete (after s0 i) then None else Some (after s0 i))).
    { assert (Cs : (o_asset_amount (after s0 i) - o_deal_asset (after s0 i) =? 0) = complete (after s0 i)).
      { unfold complete, to_fill, filled. cbn [o_type o_side o_coin_amount o_asset_amount o_deal_coin o_deal_asset after].
        rewrite Ss, left_zero. destruct (o_type s0); reflexivity. }
      rewrite Cs in H. injection H as <-. destruct (complete (after s0 i)); conj; reflexivity. }
    clear H. destruct E7 as (L7 & R7 & P7 & D7).
    pose (x := mkShares kb ks r kbp kpb kps cf af cm am ref).
    assert (EF : eff st (deal_moves (o_coin b0) (o_asset b0) i x) st6).
    { pose proof (eff_trans _ _ _ _ _ O1 (eff_trans _ _ _ _ _ O2 (eff_trans _ _ _ _ _ O3
        (eff_trans _ _ _ _ _ O4 (eff_trans _ _ _ _ _ O5 O6))))) as X.
      cbn [app] in X. rewrite <- G2, <- G3 in X. exact X. }
    assert (Reg : d_reg st2 = d_reg st /\ forall k, l_get (d_ledger st2) k = None <-> l_get (d_ledger st) k = None).
    { destruct (eff_frame _ _ _ O1) as (Ra & _ & Rb), (eff_frame _ _ _ O2) as (Rc & _ & Rd).
      split; [congruence|]. intros k. rewrite Rd. apply Rb. }
    destruct Reg as (Reg & Acc). rewrite Reg, D2, D1 in R. rewrite D5, D4, D3, D2, D1 in D6. rewrite D6 in D7.
    clear D1 D2 D3 D4 D5 D6 O1 O2 O3 O4 O5 O6.
    assert (Ne : l_buy i <> l_sell i).
    { intros X. rewrite X in Hb. congruence. }
    assert (Nt : cf <> 0 -> tax_id txid idx i s0 <> l_buy i /\ tax_id txid idx i s0 <> l_sell i).
    { intros X. destruct (R X) as (_ & _ & X2). split; intros Y; rewrite Y in X2; congruence. }
    apply (match_fee_done b0 pb _ _ _ _ eq_refl) in AM as (AM1 & AM2); [|reflexivity].
    apply (match_fee_done s0 ps _ _ _ _ eq_refl) in CM as (CM1 & CM2); [|reflexivity].
    apply sub_fee_done in S8 as (S8 & _). apply sub_fee_done in S9 as (S9 & _).
    exists b0, s0, pb, ps, (taker_side b0 s0), x. split.
    - constructor.
      + auto. + auto. + auto. + auto.
      + apply taker_side_ok.
      + assumption. + assumption.
      + assumption.
      + unfold paid, placed_with. rewrite Sb, Ss. conj; [assumption | assumption |].
        intros T. now apply LB2.
      + cbn [buyer seller producer buy_exchange sell_exchange reserve coin_tax x]. conj; auto.
        intros X. now apply R.
      + cbn [coin_tax asset_tax x]. cbv zeta.
        replace (o_user_made b0 && o_user_made s0 && n_r3 e) with fric; [auto|].
        unfold fric. cbn [o_user_made after]. destruct (o_user_made b0), (o_user_made s0); reflexivity.
      + cbn [coin_tax asset_tax coin_fee asset_fee x]. auto.
      + cbn [coin_tax asset_tax coin_fee asset_fee x]. clear - S8 S9 Cf2 Af2. lia.
      + cbn [refund x]. unfold ref, placed_with, paid. now rewrite Sb.
      + rewrite L7. apply EF.
      + rewrite L7. apply EF.
      + intros id. rewrite D7, !fget_upd. cbn [coin_tax x].
        destruct (id =? l_sell i) eqn:X1, (id =? l_buy i) eqn:X2; try (exfalso; clear - X1 X2 Ne; lia); try reflexivity.
        destruct (0 <? cf); [|reflexivity]. rewrite fget_upd. reflexivity.
      + cbn [coin_tax x]. intros X. now apply R.
      + destruct (eff_frame _ _ _ EF) as (X1 & X2 & _). split; congruence.
    - destruct EF as [S6 M6 _ (R6 & P6 & A6)].
      assert (ND1 : NoDup (keys (if 0 <? cf then upd (d_orders st) (tax_id txid idx i s0)
                (Some (sys_order e Buy (o_coin s0) "WGRT" cf)) else d_orders st))).
      { destruct (0 <? cf); [now apply nodup_upd | assumption]. }
      split; [|split; [|split]].
      + destruct S6 as (X1 & X2 & X3). unfold sound. rewrite L7, R7. auto.
      + rewrite D7. now apply nodup_upd, nodup_upd.
      + assert (Fr : forall o, order_good st o -> order_good st' o).
        { intros o. apply order_good_frame; [congruence|]. intros k. rewrite L7. apply A6. }
        intros id o. rewrite D7, !fget_upd.
        destruct (id =? l_sell i).
        { destruct (complete (after s0 i)); [discriminate|]. intros X. injection X as <-. apply Fr.
          destruct (G _ _ Hs) as (X1 & _). split; [exact X1|]. unfold paid, placed_with.
          cbn [o_side after o_type o_deal_asset o_asset_amount]. rewrite Ss, Ws.
          split; [assumption|]. split; [assumption | discriminate]. }
        destruct (id =? l_buy i).
        { destruct (complete (after b0 i)); [discriminate|]. intros X. injection X as <-. apply Fr.
          destruct (G _ _ Hb) as (X1 & _ & _ & X2). split; [exact X1|]. unfold paid, placed_with.
          cbn [o_side after o_type o_deal_asset o_asset_amount o_deal_coin o_coin_amount o_price].
          rewrite Sb, Wb. split; [assumption|]. split; [assumption|]. intros T _. rewrite (Wl T).
          destruct (X2 T Sb) as (Y1 & _ & _ & Y4). destruct (LB2 T). auto. }
        destruct (0 <? cf) eqn:Z; [|intros X; apply Fr; eapply G; eassumption].
        rewrite fget_upd. destruct (id =? tax_id txid idx i s0); [|intros X; apply Fr; eapply G; eassumption].
        intros X. assert (Zc : cf <> 0) by (clear - Z; lia). destruct (R Zc) as (Z1 & Z2 & _).
        injection X as <-. apply Fr. apply sys_good; [|auto]. exists r. split; [assumption|].
        rewrite <- Acc. assumption.
      + intros k s. rewrite committed_weight, L7, R7, R6, D7.
        pose proof (msum_upd (weight (d_reg st) k s) _ (l_sell i) (if complete (after s0 i) then None else Some (after s0 i))
          (nodup_upd _ (l_buy i) (if complete (after b0 i) then None else Some (after b0 i)) ND1)) as Ms.
        pose proof (msum_upd (weight (d_reg st) k s) _ (l_buy i) (if complete (after b0 i) then None else Some (after b0 i)) ND1) as Mb.
        rewrite fget_upd in Ms. replace (l_sell i =? l_buy i) with false in Ms by (clear - Ne; lia).
        assert (Gs : fget N.eqb (if 0 <? cf then upd (d_orders st) (tax_id txid idx i s0)
                (Some (sys_order e Buy (o_coin s0) "WGRT" cf)) else d_orders st) (l_sell i) = Some s0).
        { destruct (0 <? cf) eqn:Z; [|assumption]. rewrite fget_upd.
          replace (l_sell i =? tax_id txid idx i s0) with false by (assert (Zc : cf <> 0) by (clear - Z; lia); specialize (Nt Zc); clear - Nt; lia).
          assumption. }
        assert (Gb : fget N.eqb (if 0 <? cf then upd (d_orders st) (tax_id txid idx i s0)
                (Some (sys_order e Buy (o_coin s0) "WGRT" cf)) else d_orders st) (l_buy i) = Some b0).
        { destruct (0 <? cf) eqn:Z; [|assumption]. rewrite fget_upd.
          replace (l_buy i =? tax_id txid idx i s0) with false by (assert (Zc : cf <> 0) by (clear - Z; lia); specialize (Nt Zc); clear - Nt; lia).
          assumption. }
        rewrite Gs in Ms. rewrite Gb in Mb. cbn [oval] in Ms, Mb.
        assert (Mt : msum (weight (d_reg st) k s) (if 0 <? cf then upd (d_orders st) (tax_id txid idx i s0)
                (Some (sys_order e Buy (o_coin s0) "WGRT" cf)) else d_orders st)
             = msum (weight (d_reg st) k s) (d_orders st) + if (k =? r) && String.eqb s (o_coin b0) then cf else 0).
        { destruct (0 <? cf) eqn:Z.
          - assert (Zc : cf <> 0) by (clear - Z; lia). destruct (R Zc) as (Z1 & _ & Z3).
            pose proof (msum_upd (weight (d_reg st) k s) (d_orders st) (tax_id txid idx i s0)
               (Some (sys_order e Buy (o_coin s0) "WGRT" cf)) ND) as X.
            rewrite Z3 in X. cbn [oval] in X. rewrite N.add_0_r in X. rewrite X. f_equal.
            unfold weight. cbn [o_owner sys_order]. rewrite Z1. unfold pays_with. cbn [o_side o_coin].
            rewrite (String.eqb_sym s), G2. unfold unspent, placed_with, paid.
            cbn [o_side o_coin_amount o_deal_coin is_buy]. rewrite N.sub_0_r. reflexivity.
          - assert (cf = 0) as -> by (clear - Z; lia).
            destruct ((k =? r) && String.eqb s (o_coin b0)); now rewrite N.add_0_r. }
        specialize (E k s). rewrite committed_weight in E. specialize (M6 k s BFrozen).
        unfold deal_moves in M6. cbn [changes fold_right] in M6. unfold change, is_place in M6.
        cbn [m_token m_from m_to m_amount fst snd bucket_eqb x buyer seller reserve producer buy_exchange sell_exchange coin_tax asset_tax coin_fee asset_fee refund] in M6.
        rewrite !andb_false_r, !andb_true_r in M6.
        assert (Vs : weight (d_reg st) k s s0 =
           (if (k =? ks) && String.eqb s (o_asset b0) then l_asset i else 0) +
           oval (weight (d_reg st) k s) (if complete (after s0 i) then None else Some (after s0 i))).
        { assert (X : unspent s0 = l_asset i + if complete (after s0 i) then 0 else unspent (after s0 i)).
          { unfold unspent, placed_with, paid, complete, to_fill, filled. cbn [o_side after o_type o_deal_asset o_asset_amount o_deal_coin o_coin_amount].
            rewrite Ss, Ws. destruct (o_type s0), (_ <=? _) eqn:Y; clear - Y G7 Ps1; lia. }
          assert (Y : weight (d_reg st) k s s0 = if (k =? ks) && String.eqb s (o_asset b0) then unspent s0 else 0).
          { unfold weight. rewrite Ks. unfold pays_with. rewrite Ss, G3, (String.eqb_sym s). reflexivity. }
          assert (Y' : weight (d_reg st) k s (after s0 i) = if (k =? ks) && String.eqb s (o_asset b0) then unspent (after s0 i) else 0).
          { unfold weight. cbn [o_owner after]. rewrite Ks. unfold pays_with. cbn [o_side after o_asset]. rewrite Ss, G3, (String.eqb_sym s). reflexivity. }
          rewrite Y. destruct (complete (after s0 i)); cbn [oval]; rewrite ?Y';
            destruct ((k =? ks) && String.eqb s (o_asset b0)); clear - X; lia. }
        assert (Vb : weight (d_reg st) k s b0 =
           (if (k =? kb) && String.eqb s (o_coin b0) then l_coin i + ref else 0) +
           oval (weight (d_reg st) k s) (if complete (after b0 i) then None else Some (after b0 i))).
        { assert (X : unspent b0 = l_coin i + ref + if complete (after b0 i) then 0 else unspent (after b0 i)).
          { unfold ref, unspent, placed_with, paid. cbn [o_side after o_deal_coin o_coin_amount]. rewrite Sb, Wb.
            destruct (complete (after b0 i)) eqn:Y; destruct (o_type b0) eqn:T; try (clear - LB1; lia).
            unfold complete, to_fill, filled in Y. cbn [o_side after o_type o_deal_coin o_coin_amount] in Y.
            rewrite T, Sb, Wb in Y. clear - Y LB1. lia. }
          assert (Y : weight (d_reg st) k s b0 = if (k =? kb) && String.eqb s (o_coin b0) then unspent b0 else 0).
          { unfold weight. rewrite Kb. unfold pays_with. rewrite Sb, (String.eqb_sym s). reflexivity. }
          assert (Y' : weight (d_reg st) k s (after b0 i) = if (k =? kb) && String.eqb s (o_coin b0) then unspent (after b0 i) else 0).
          { unfold weight. cbn [o_owner after]. rewrite Kb. unfold pays_with. cbn [o_side after o_coin]. rewrite Sb, (String.eqb_sym s). reflexivity. }
          rewrite Y. destruct (complete (after b0 i)); cbn [oval]; rewrite ?Y';
            destruct ((k =? kb) && String.eqb s (o_coin b0)); clear - X; lia. }
        rewrite Vs in Ms. rewrite Vb in Mb. clear Vs Vb Gs Gb.
        destruct (k =? kb), (k =? ks), (k =? r), (String.eqb s (o_coin b0)), (String.eqb s (o_asset b0));
          cbn [andb] in Ms, Mb, Mt, M6; clear - Ms Mb Mt M6 E; lia.
  Qed.
End Deal.

Section Runs.
  Variable order_hash : N -> N -> (N * N * N * N * N) -> string -> N.

  Lemma exec_deals_settled F e txid items : forall idx st st',
    inv F st -> exec_deals order_hash e txid idx st items = Done st' ->
    settled order_hash e txid idx st items st' /\ inv F st'.
  Proof.
    induction items as [|i items IH]; cbn [exec_deals]; intros idx st st' I H.
    - injection H as <-. split; [constructor | assumption].
    - step H as st1 H1. apply (exec_deal_proper _ F) in H1 as (b & s & pb & ps & tk & x & P & I1); [|assumption].
      destruct (IH _ _ _ I1 H) as (A & B). split; [|assumption]. econstructor; eassumption.
  Qed.

  Lemma settle_settled F e txid sender st items st' :
    inv F st -> settle order_hash e txid sender st items = Done st' ->
    sender = n_match e /\ settled order_hash e txid 0 st items st' /\ inv F st'.
  Proof.
    intros I H. unfold settle in H. step H as u G. apply guard_done in G. unfold check_settle in G.
    rewrite !andb_true_iff in G. destruct G as (((G & _) & _) & _). apply regid_eqb_ok in G.
    split; [assumption|]. eapply exec_deals_settled; eassumption.
  Qed.

  Lemma step_inv base_ok quote_ok max_money F st a st' :
    inv F st -> (forall s, a = DElse s -> elsewhere st s) ->
    dstep base_ok quote_ok max_money order_hash st a = Done st' -> inv F st'.
  Proof.
    intros I El H. destruct a as [e t|e id sd c a n|sender id|id|e txid sender items|s]; cbn [dstep] in H.
    - eapply place_inv; eassumption.
    - eapply sys_place_inv; eassumption.
    - eapply cancel_inv; eassumption.
    - eapply gov_cancel_inv; eassumption.
    - eapply settle_settled; eassumption.
    - injection H as <-. destruct (El s eq_refl) as (A & B & C & D & E).
      eapply inv_frame; eassumption.
  Qed.

  Lemma start_inv st : sound st -> d_orders st = [] ->
    inv (fun k s => lbal (d_ledger st) k s BFrozen) st.
  Proof.
    intros S O. split; [assumption|]. split; [rewrite O; constructor|]. rewrite O.
    split; [discriminate|]. intros k s. unfold committed. rewrite O. cbn. lia.
  Qed.

  Lemma reaches_inv base_ok quote_ok max_money st0 st :
    sound st0 -> d_orders st0 = [] -> reaches base_ok quote_ok max_money order_hash st0 st ->
    inv (fun k s => lbal (d_ledger st0) k s BFrozen) st.
  Proof.
    intros S O R. induction R as [|st1 a st2 R IH El H]; [now apply start_inv|].
    eapply step_inv; eassumption.
  Qed.
End Runs.

(** ** Verdicts *)

Lemma bind_stuck {A B} (x : outcome A) (f : A -> outcome B) y :
  bind x f = y -> stuck y -> (exists a, x = Done a /\ f a = y) \/ (x = Abort /\ y = Abort) \/
                             (x = Undefined /\ y = Undefined).
Proof. destruct x; cbn; intros <- [H|H]; eauto; discriminate. Qed.

Lemma guard_free b y : guard b = y -> ~ stuck y.
Proof. destruct b; cbn; intros <- [H|H]; discriminate. Qed.
Lemma need_free {A} (x : option A) y : need x = y -> ~ stuck y.
Proof. destruct x; cbn; intros <- [H|H]; discriminate. Qed.
Lemma op_free st who s o v other y : op st who s o v other = y -> ~ stuck y.
Proof. unfold op. destruct (l_operate _ _ _ _ _ _) as [[] L]; intros <- [H|H]; discriminate. Qed.
Lemma by_ratio_free a b c y : by_ratio a b c = y -> ~ stuck y.
Proof. unfold by_ratio. destruct (negb _); cbn; intros <- [H|H]; discriminate. Qed.
Lemma sub_fee_free a b y : sub_fee a b = y -> ~ stuck y.
Proof. unfold sub_fee. destruct (negb _); cbn; intros <- [H|H]; discriminate. Qed.
Lemma create_free st id o y : create_order st id o = y -> ~ stuck y.
Proof. unfold create_order. destruct (negb _); cbn; intros <- [H|H]; discriminate. Qed.
Lemma match_fee_free o c t a y : match_fee o c t a = y -> ~ stuck y.
Proof.
  unfold match_fee. destruct (_ <=? _); cbn [guard bind]; [apply by_ratio_free|].
  intros <- [H|H]; discriminate.
Qed.
Lemma done_free {A} (a : A) y : Done a = y -> ~ stuck y.
Proof. intros <- [H|H]; discriminate. Qed.
Lemma deal_order_free st id sd y : deal_order st id sd = y -> ~ stuck y.
Proof.
  unfold deal_order. destruct (fget _ _ _); cbn [need bind]; [|intros <- [H|H]; discriminate].
  destruct (Bool.eqb _ _); cbn; intros <- [H|H]; discriminate.
Qed.
Lemma order_operator_free st d y : order_operator st d = y -> ~ stuck y.
Proof.
  unfold order_operator. destruct (fget _ _ _) as [p|]; cbn [need bind]; [|intros <- [H|H]; discriminate].
  destruct (p_active p); cbn; intros <- [H|H]; discriminate.
Qed.

Ltac free1 X := first [apply guard_free in X | apply need_free in X | apply op_free in X
  | apply by_ratio_free in X | apply sub_fee_free in X | apply create_free in X
  | apply match_fee_free in X | apply deal_order_free in X | apply order_operator_free in X
  | apply done_free in X]; apply X; solve [left; reflexivity | right; reflexivity].

(** Go on with the rest if the first part has a verdict for sure. *)
Tactic Notation "go" hyp(H) hyp(S) "as" simple_intropattern(x) simple_intropattern(E) :=
  apply bind_stuck in H; [|exact S]; cbv beta in H; destruct H as [(x & E & H)|H];
  [|exfalso; let X := fresh in destruct H as [(X & ->)|(X & ->)];
    repeat match type of X with (if ?c then _ else _) = _ => destruct c end; free1 X].

Lemma coin_friction_free e st from id s fee y : coin_friction e st from id s fee = y -> ~ stuck y.
Proof.
  unfold coin_friction. destruct (0 <? fee); [|apply done_free]. intros H S.
  go H S as r R. go H S as st1 O1. go H S as st2 O2. revert S. eapply create_free; eassumption.
Qed.

Lemma calc_stuck a p y : calc_coin_amount a p = y -> stuck y -> y = Abort /\ two64 - 1 <= value_at a p.
Proof.
  unfold calc_coin_amount. change (a * p / PRICE_BOOST) with (value_at a p).
  destruct (value_at a p <? two64 - 1) eqn:E; cbn [asserted bind]; intros <- [S|S]; try discriminate.
  split; [reflexivity | lia].
Qed.

Lemma coins_match_stuck ty calc coins price y :
  coins_match ty calc coins price = y -> stuck y ->
  y = Undefined /\ ty = Market /\ (calc < two63 -> two63 <= coins).
Proof.
  unfold coins_match. destruct ty; cbn [is_market].
  - intros <- [S|S]; discriminate.
  - destruct (_ =? _)%Z eqn:E; intros <- [S|S]; try discriminate. conj. intros H.
    destruct (N.lt_ge_cases coins two63) as [C|C]; [|assumption]. exfalso.
    apply Z.eqb_eq in E. unfold two63 in *. rewrite signed64_small in E; lia.
Qed.

(** The coins of a limit buy suffice. *)
Lemma limit_buy_floor st b i :
  order_good st b -> o_side b = Buy -> o_type b = Limit -> l_price i <= o_price b ->
  l_coin i = value_at (l_asset i) (l_price i) -> l_coin i < two63 ->
  o_deal_asset b + l_asset i <= o_asset_amount b ->
  o_deal_coin b + l_coin i <= o_coin_amount b /\
  (o_deal_coin b + l_coin i) mod two64 = o_deal_coin b + l_coin i.
Proof.
  intros (_ & P1 & P2 & P3) S T Pr V L A. destruct (P3 T S) as (X1 & X2 & X3 & X4).
  unfold paid, placed_with in P1, P2. rewrite S in P1, P2.
  pose proof (value_at_mul (l_asset i) (l_price i)) as W. rewrite <- V in W.
  pose proof (floor_step _ _ _ _ _ _ X2 W Pr) as Q. split.
  - rewrite X1. apply value_at_bound. etransitivity; [exact Q|]. now apply N.mul_le_mono_r.
  - apply N.mod_small. unfold two63, two64 in *. lia.
Qed.

Section Verdict.
  Variable order_hash : N -> N -> (N * N * N * N * N) -> string -> N.

  Lemma exec_deal_stuck F e txid idx st i y :
    inv F st -> exec_deal order_hash e txid idx st i = y -> stuck y ->
    (y = Abort /\ two64 - 1 <= value_at (l_asset i) (l_price i)) \/
    (y = Undefined /\ (value_at (l_asset i) (l_price i) < two63 -> two63 <= l_coin i)).
  Proof.
    intros I H S. pose proof I as (So & ND & G & E). unfold exec_deal in H.
    go H S as b0 Hb. apply deal_order_done in Hb as (Hb & Sb).
    go H S as s0 Hs. apply deal_order_done in Hs as (Hs & Ss).
    go H S as kb Kb. go H S as ks Ks. go H S as pb Pb. go H S as kpb Kpb.
    go H S as ps Ps. go H S as kps Kps. cbv zeta in H. go H S as kbp Kbp.
    go H S as u2 G2. go H S as u3 G3. go H S as u4 G4. apply guard_done, price_ok_fair in G4.
    go H S as u5 G5.
    apply bind_stuck in H; [|exact S]. cbv beta in H. destruct H as [(calc & C & H)|H].
    2: { left. destruct H as [(X & ->)|(X & ->)].
         - split; [reflexivity|]. exact (proj2 (calc_stuck _ _ _ X (or_introl eq_refl))).
         - destruct (calc_stuck _ _ _ X (or_intror eq_refl)). discriminate. }
    apply calc_done in C as (-> & C).
    apply bind_stuck in H; [|exact S]. cbv beta in H. destruct H as [(m & Cm & H)|H].
    2: { right. destruct H as [(X & ->)|(X & ->)].
         - destruct (coins_match_stuck _ _ _ _ _ X (or_introl eq_refl)). discriminate.
         - split; [reflexivity|]. apply (coins_match_stuck _ _ _ _ _ X (or_intror eq_refl)). }
    exfalso.
    go H S as u6 G6. apply guard_done in G6. subst m. rewrite !dealt_after in H.
    apply bind_stuck in H; [|exact S]. cbv beta in H. destruct H as [(buy_left & BL & H)|H].
    2: { assert (T : forall (c1 c2 c3 : bool) (l1 l2 : N) z, (if c1 then do _ <- guard c2; Done l1
           else do _ <- guard c3; Done l2) = z -> ~ stuck (A := N) z).
         { intros [] c2 c3 l1 l2 z Hz Sz; go Hz Sz as u L; exact (done_free _ _ Hz Sz). }
         destruct H as [(X & _)|(X & _)]; apply T in X; apply X; [left | right]; reflexivity. }
    go H S as u7 G7.
    set (fric := o_user_made (after s0 i) && o_user_made (after b0 i) && n_r3 e) in *.
    go H S as cf CF. go H S as coins1 C1. go H S as af AF. go H S as assets1 A1.
    go H S as am AM. go H S as u8 S8. go H S as cm CM. go H S as u9 S9.
    go H S as st1 O1. go H S as st2 O2.
    apply bind_stuck in H; [|exact S]. cbv beta in H. destruct H as [(st3 & O3 & H)|H].
    2: { destruct H as [(X & ->)|(X & ->)]; destruct fric; try discriminate;
           (apply bind_stuck in X; [|exact S]; destruct X as [(z & Z & X)|[(X & Y)|(X & Y)]];
            [free1 X | | ]; try discriminate Y;
            apply coin_friction_free in X; exact (X S)). }
    go H S as st4 O4. go H S as st5 O5.
    apply bind_stuck in H; [|exact S]. cbv beta in H. destruct H as [(st6 & O6 & H)|H].
    { revert S. eapply (@done_free dstate). exact H. }
    apply op_eff in O1; [|assumption | exact Logic.I]. cbn [move_of] in O1.
    apply op_eff in O2; [|apply O1 | exact Logic.I]. cbn [move_of] in O2.
    assert (Lc : l_coin i < two63) by (eapply moved_from_frozen; eassumption).
    assert (La : l_asset i < two63) by (eapply moved_from_frozen; [apply O1 | eassumption]).
    apply coins_match_ok in Cm; [|assumption | assumption]. destruct Cm as (Cm & _).
    assert (Ls : forall z, (if buy_left =? 0 then
        do x <- (if is_market (o_type (after b0 i)) then Done st5
          else if o_deal_coin (after b0 i) <? o_coin_amount (after b0 i)
               then op st5 kb (o_coin (after b0 i)) Unfreeze (o_coin_amount (after b0 i) - o_deal_coin (after b0 i)) None
               else do _ <- asserted (o_coin_amount (after b0 i) =? o_deal_coin (after b0 i)); Done st5);
        Done (erase_order x (l_buy i)) else Done (update_order st5 (l_buy i) (after b0 i))) = z -> ~ stuck z).
    { intros z Hz Sz. destruct (buy_left =? 0); [|revert Sz; eapply done_free; eassumption].
      apply bind_stuck in Hz; [|exact Sz]. destruct Hz as [(w & _ & Hz)|Hz]; [revert Sz; eapply done_free; eassumption|].
      cbn [o_type o_deal_coin o_coin_amount after] in Hz.
      destruct (o_type b0) eqn:T; cbn [is_market] in Hz.
      2: { destruct Hz as [(X & _)|(X & _)]; discriminate. }
      cbn [o_type o_asset_amount o_deal_asset after] in BL. rewrite T in BL. cbn [is_market] in BL.
      step BL as u L. apply guard_done, negb_true_iff, N.ltb_ge in L.
      destruct (G _ _ Hb) as (_ & _ & _ & X). destruct (X T Sb) as (_ & _ & X3 & X4).
      rewrite N.mod_small in L by (clear - X3 X4 La; unfold two63, two64 in *; lia).
      destruct (limit_buy_floor st b0 i (G _ _ Hb) Sb T) as (Y1 & Y2); auto; [now apply G4|].
      rewrite Y2 in Hz. destruct (o_deal_coin b0 + l_coin i <? o_coin_amount b0) eqn:LL.
      { destruct Hz as [(Z & _)|(Z & _)]; apply op_free in Z; apply Z; [left | right]; reflexivity. }
      replace (o_coin_amount b0 =? o_deal_coin b0 + l_coin i) with true in Hz by (clear - LL Y1; lia). cbn in Hz.
      destruct Hz as [(Z & _)|(Z & _)]; discriminate. }
    destruct H as [(X & ->)|(X & ->)]; exact (Ls _ X S).
  Qed.

  Lemma exec_deals_verdict F e txid items : forall idx st,
    inv F st -> Forall moderate items -> ~ stuck (exec_deals order_hash e txid idx st items).
  Proof.
    induction items as [|i items IH]; cbn [exec_deals]; intros idx st I M S.
    - destruct S; discriminate.
    - inversion M as [|? ? (M1 & M2) M']; subst.
      remember (bind _ _) as y eqn:Y. symmetry in Y. pose proof S as S0.
      apply bind_stuck in Y; [|assumption]. destruct Y as [(st1 & H & Y)|Y].
      + apply (exec_deal_proper _ F) in H as (b & s & pb & ps & tk & x & P & I1); [|assumption].
        subst y. eapply IH; eassumption.
      + assert (X : forall z, exec_deal order_hash e txid idx st i = z -> stuck z -> False).
        { intros z Hz Sz. destruct (exec_deal_stuck F e txid idx st i z I Hz Sz) as [(_ & X)|(_ & X)].
          - unfold two63, two64 in *. lia.
          - specialize (X M2). lia. }
        destruct Y as [(Y & ->)|(Y & ->)]; eapply X; eassumption.
  Qed.

  Lemma settle_verdict F e txid sender st items :
    inv F st -> Forall moderate items -> ~ stuck (settle order_hash e txid sender st items).
  Proof.
    intros I M. unfold settle. destruct (check_settle _ _ _); cbn [guard bind].
    - eapply exec_deals_verdict; eassumption.
    - intros [S|S]; discriminate.
  Qed.
End Verdict.

(** ** Placing *)

Lemma place_verdict base_ok quote_ok max_money e st t :
  (forall a, l_get (d_ledger st) (t_sender t) = Some a -> regid_empty (a_regid a) = false) ->
  value_at (t_asset_amount t) (t_price t) < two64 - 1 ->
  ~ stuck (place base_ok quote_ok max_money e st t).
Proof.
  intros R V S. remember (place _ _ _ _ _ _) as y eqn:H. symmetry in H. unfold place in H.
  assert (C : forall z, check_order base_ok quote_ok max_money st t = z -> ~ stuck z).
  { clear H. intros z H Sz. unfold check_order in H.
    go H Sz as ty Ty. go H Sz as sd Sd. go H Sz as u1 G1. go H Sz as u2 G2. go H Sz as u3 G3.
    go H Sz as u4 G4. go H Sz as u5 G5. go H Sz as p P. go H Sz as k K.
    apply bind_stuck in H; [|exact Sz]. destruct H as [(u & _ & H)|H]; [exact (done_free _ _ H Sz)|].
    destruct (t_params t); destruct H as [(X & _)|(X & _)]; try discriminate; free1 X. }
  apply bind_stuck in H; [|exact S]. cbv beta in H. destruct H as [((ty & sd) & E & H)|H].
  2: { destruct H as [(X & _)|(X & _)]; apply C in X; apply X; [left | right]; reflexivity. }
  unfold exec_order in H. cbn [fst snd] in H.
  apply bind_stuck in H; [|exact S]. cbv beta in H. destruct H as [(st1 & E1 & H)|H].
  2: { assert (X : forall z, match t_params t with
              | Some _ => if 0 <? t_operator_fee t then
                    do p <- order_operator st (t_dex t);
                    do k <- need (holder st (p_receiver p));
                    op st k (t_fee_symbol t) SubFree (t_operator_fee t) None
                  else Done st
              | None => Done st end = z -> ~ stuck z).
       { intros z Hz Sz. destruct (t_params t); [|exact (done_free _ _ Hz Sz)].
         destruct (0 <? _); [|exact (done_free _ _ Hz Sz)].
         go Hz Sz as p P. go Hz Sz as k K. exact (op_free _ _ _ _ _ _ _ Hz Sz). }
       destruct H as [(Y & _)|(Y & _)]; apply X in Y; apply Y; [left | right]; reflexivity. }
  apply bind_stuck in H; [|exact S]. cbv beta in H. destruct H as [(coins & E2 & H)|H].
  2: { destruct (negb (is_market ty) && is_buy sd).
       - destruct H as [(X & _)|(X & _)].
         + pose proof (proj2 (calc_stuck _ _ _ X (or_introl eq_refl))). lia.
         + destruct (calc_stuck _ _ _ X (or_intror eq_refl)). discriminate.
       - destruct H as [(X & _)|(X & _)]; discriminate. }
  go H S as st2 E3. go H S as a A.
  apply bind_stuck in H; [|exact S]. cbv beta in H. destruct H as [(u & U & H)|H].
  - exact (create_free _ _ _ _ H S).
  - apply need_done in A.
    assert (K : forall st st' w s o v ot, op st w s o v ot = Done st' -> forall k a',
              l_get (d_ledger st') k = Some a' ->
              exists a, l_get (d_ledger st) k = Some a /\ a_regid a' = a_regid a).
    { intros s1 s2 w s o v ot Ho k a' Ha. apply op_done in Ho as (L' & Ho & ->).
      eapply l_operate_regid; eassumption. }
    assert (A1 : exists a1, l_get (d_ledger st1) (t_sender t) = Some a1 /\ a_regid a = a_regid a1).
    { destruct (is_buy sd); eapply K; eassumption. }
    destruct A1 as (a1 & A1 & Q1).
    assert (A0 : exists a0, l_get (d_ledger st) (t_sender t) = Some a0 /\ a_regid a1 = a_regid a0).
    { destruct (t_params t); [|injection E1 as <-; eauto].
      destruct (0 <? _); [|injection E1 as <-; eauto].
      step E1 as p P. step E1 as k Kk. eapply K; eassumption. }
    destruct A0 as (a0 & A0 & Q0). apply R in A0. rewrite <- Q0, <- Q1 in A0. rewrite A0 in H.
    destruct H as [(X & _)|(X & _)]; discriminate.
Qed.

(** ** Sums of rounded-down amounts *)

Lemma floor_sum_aux P ds :
  Forall (fun d => snd d <= P) ds ->
  nsum (map (fun d => value_at (fst d) (snd d)) ds) * 100000000 <= nsum (map fst ds) * P.
Proof.
  induction 1 as [|d ds H _ IH]; cbn [map nsum]; [lia|].
  pose proof (value_at_mul (fst d) (snd d)) as W.
  assert (fst d * snd d <= fst d * P) by now apply N.mul_le_mono_l.
  lia.
Qed.

Lemma floor_sum A P ds :
  Forall (fun d => snd d <= P) ds -> nsum (map fst ds) <= A ->
  nsum (map (fun d => value_at (fst d) (snd d)) ds) <= value_at A P.
Proof.
  intros H HA. apply value_at_bound. etransitivity; [apply floor_sum_aux; exact H|].
  now apply N.mul_le_mono_r.
Qed.
