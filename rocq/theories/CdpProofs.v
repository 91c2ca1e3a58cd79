(** Proofs about positions: records, indexes and balances. *)
From Coq Require Import String List Bool NArith ZArith Lia Permutation.
From Coq Require Import ZifyBool ZifyNat ZifyN.
From Verif Require Import Prelude PreludeFacts AccountModel AccountSpec AccountProofs TxModel TxProofs
  DexModel DexSpec DexProofs DoubleModel CdpModel CdpSpec.
Import ListNotations.
Open Scope N_scope.

(** ** Keys *)

Lemma cpair_eqb_ok : forall a b, cpair_eqb a b = true <-> a = b.
Proof. apply pair_eqb_ok; apply String_eqb_ok. Qed.
Lemma user_eqb_ok : forall a b, user_eqb a b = true <-> a = b.
Proof. apply pair_eqb_ok; [apply regid_eqb_ok | apply cpair_eqb_ok]. Qed.
Lemma nn_eqb_ok : forall a b, pair_eqb N.eqb N.eqb a b = true <-> a = b.
Proof. apply pair_eqb_ok; apply N_eqb_ok. Qed.
Lemma ratio_eqb_ok : forall a b, ratio_eqb a b = true <-> a = b.
Proof.
  apply pair_eqb_ok; [apply pair_eqb_ok; [apply cpair_eqb_ok | apply N_eqb_ok] | apply nn_eqb_ok].
Qed.
Lemma height_eqb_ok : forall a b, height_eqb a b = true <-> a = b.
Proof. apply pair_eqb_ok; [apply cpair_eqb_ok | apply nn_eqb_ok]. Qed.

(** ** Requests that succeeded one after the other *)

Inductive ran : list (N * account) -> list request -> list (N * account) -> Prop :=
| ran_nil L : ran L [] L
| ran_cons L q L1 qs L2 :
    l_operate L (q_who q) (q_symbol q) (q_op q) (q_amount q) (q_other q) = (true, L1) ->
    ran L1 qs L2 -> ran L (q :: qs) L2.

Lemma ran_app L qs1 L1 qs2 L2 : ran L qs1 L1 -> ran L1 qs2 L2 -> ran L (qs1 ++ qs2) L2.
Proof. induction 1; cbn [app]; [auto|]. intros R. eapply ran_cons; eauto. Qed.

Definition net1 (q : request) (k : N) (s : string) (b : bucket) : Z :=
  (Z.of_N (at_place (credited (q_who q) (q_op q) (q_other q)) (q_symbol q) (q_amount q) k s b)
   - Z.of_N (at_place (debited (q_who q) (q_op q) (q_other q)) (q_symbol q) (q_amount q) k s b))%Z.
Definition net (qs : list request) (k : N) (s : string) (b : bucket) : Z :=
  fold_right (fun q z => (net1 q k s b + z)%Z) 0%Z qs.

Lemma net_app qs1 qs2 k s b : net (qs1 ++ qs2) k s b = (net qs1 k s b + net qs2 k s b)%Z.
Proof. unfold net. induction qs1 as [|q qs1 IH]; cbn [app fold_right]; lia. Qed.
Lemma mints_app s qs1 qs2 : mints s (qs1 ++ qs2) = mints s qs1 + mints s qs2.
Proof. unfold mints. rewrite map_app. apply nsum_app. Qed.
Lemma burns_app s qs1 qs2 : burns s (qs1 ++ qs2) = burns s qs1 + burns s qs2.
Proof. unfold burns. rewrite map_app. apply nsum_app. Qed.
Lemma mints_cons s q qs : mints s (q :: qs) = mint_of s q + mints s qs.
Proof. reflexivity. Qed.
Lemma burns_cons s q qs : burns s (q :: qs) = burn_of s q + burns s qs.
Proof. reflexivity. Qed.

Lemma ran_facts L qs L' :
  ran L qs L' -> ledger_wf L -> (forall s, supply L s + mints s qs < two64) ->
  ledger_wf L' /\
  (forall s, supply L' s + burns s qs = supply L s + mints s qs) /\
  (forall k s b, Z.of_N (lbal L' k s b) = (Z.of_N (lbal L k s b) + net qs k s b)%Z).
Proof.
  induction 1 as [L|L q L1 qs L2 H R IH]; intros W B.
  - conj; auto. intros. cbn. lia.
  - assert (W1 : ledger_wf L1) by (eapply l_operate_wf; eassumption).
    assert (B0 : forall s0, supply L s0 + mint_of s0 q < two64).
    { intros s0. specialize (B s0). rewrite mints_cons in B. lia. }
    assert (S1 : forall s, supply L1 s + burn_of s q = supply L s + mint_of s q).
    { intros s. apply (l_operate_supply L q L1 s W H). intros s0 _. apply B0. }
    destruct IH as (W2 & S2 & D2); [assumption | |].
    { intros s. specialize (B s). specialize (S1 s). rewrite mints_cons in B. lia. }
    conj; [assumption | |].
    + intros s. rewrite mints_cons, burns_cons. specialize (S1 s). specialize (S2 s). lia.
    + intros k s b. rewrite D2. cbn [net fold_right]. fold (net qs k s b).
      rewrite (l_operate_delta _ _ _ _ _ _ _ W H) by (destruct q; apply B0). unfold net1. lia.
Qed.

Lemma ran_frame L qs L' k : ran L qs L' -> (l_get L' k = None <-> l_get L k = None).
Proof.
  induction 1 as [L|L q L1 qs L2 H R IH]; [tauto|]. rewrite IH. eapply l_operate_none; eassumption.
Qed.

Lemma ran_regid L qs L' k a' :
  ran L qs L' -> l_get L' k = Some a' -> exists a, l_get L k = Some a /\ a_regid a' = a_regid a.
Proof.
  intros R. revert a'. induction R as [L|L q L1 qs L2 H R IH]; intros a' G; [eauto|].
  destruct (IH _ G) as (a1 & G1 & E1).
  destruct (l_operate_regid _ _ _ _ _ _ _ _ _ _ H G1) as (a & G0 & E0). exists a. split; congruence.
Qed.

(** ** Money moved by a part of a transaction *)

Record money (st : cstate) (qs : list request) (st' : cstate) : Prop := mkMoney {
  mo_reg : d_reg (c_dex st') = d_reg (c_dex st);
  mo_ran : ran (ledger_of st) qs (ledger_of st');
  mo_cdps : c_cdps st' = c_cdps st; mo_user : c_user st' = c_user st;
  mo_ratio : c_ratio st' = c_ratio st; mo_heights : c_heights st' = c_heights st;
  mo_totals : c_totals st' = c_totals st }.

Lemma money_refl st : money st [] st.
Proof. constructor; try reflexivity. constructor. Qed.

Lemma money_trans a qs1 b qs2 c : money a qs1 b -> money b qs2 c -> money a (qs1 ++ qs2) c.
Proof.
  intros A B. destruct A, B. constructor; try congruence. eapply ran_app; eassumption.
Qed.

Lemma cop_money st who s o v other st' :
  cop st who s o v other = Done st' -> money st [mkReq who s o v other] st'.
Proof.
  unfold cop. intros H. step H as d D. injection H as <-. apply op_done in D as (L & H & ->).
  constructor; try reflexivity. cbn. eapply ran_cons; [exact H | constructor].
Qed.

Lemma cplace_money e st id sd coin asset v st' :
  cplace e st id sd coin asset v = Done st' -> money st [] st'.
Proof.
  unfold cplace. intros H. step H as d D. injection H as <-. apply create_done in D as (_ & ->).
  constructor; try reflexivity. cbn. constructor.
Qed.

(** The requests of selling interest. *)
Definition interest_moves (k f v : N) : list request :=
  [mkReq k "WUSD" SubFree v (Some f); mkReq f "WUSD" Freeze v None].

Lemma sell_interest_money e st c k id v st' :
  c_scoin c = "WUSD"%string -> sell_interest e st c k id v = Done st' ->
  exists qs, money st qs st' /\ ((v = 0 /\ qs = []) \/ exists f, qs = interest_moves k f v).
Proof.
  intros C. unfold sell_interest. destruct (v =? 0) eqn:V.
  - intros H. injection H as <-. exists []. split; [apply money_refl | left; split; [lia | reflexivity]].
  - intros H. step H as f F. step H as st1 H1. step H as st2 H2.
    apply cop_money in H1, H2. apply cplace_money in H. rewrite C in *.
    exists (interest_moves k f v). split; [|right; eauto].
    pose proof (money_trans _ _ _ _ _ (money_trans _ _ _ _ _ H1 H2) H) as M. exact M.
Qed.

Lemma interest_net v qs k0 : ((v = 0 /\ qs = []) \/ exists f, qs = interest_moves k0 f v) ->
  (forall k s, net qs k s BPledged = 0%Z) /\ (forall s, mints s qs = 0) /\ (forall s, burns s qs = 0).
Proof.
  intros [(_ & ->)|(f & ->)]; conj; intros; try reflexivity.
  unfold net, net1, interest_moves. cbn [fold_right q_who q_op q_other q_symbol q_amount credited debited internal at_place bucket_eqb].
  rewrite !andb_false_r. reflexivity.
Qed.

(** The requests of a penalty. *)
Lemma penalty_money e st c id v st' :
  c_scoin c = "WUSD"%string -> penalty e st c id v = Done st' ->
  exists qs, money st qs st' /\ (forall k s, net qs k s BPledged = 0%Z) /\
    (forall s, mints s qs = if String.eqb "WUSD" s then v else 0) /\ (forall s, burns s qs = 0).
Proof.
  intros C. unfold penalty. destruct (v =? 0) eqn:V.
  { intros H. injection H as <-. exists []. conj; [apply money_refl | | | reflexivity]; intros; [reflexivity|].
    unfold mints; cbn [map nsum]. destruct (String.eqb "WUSD" s); [lia | reflexivity]. }
  intros H. step H as f F. step H as st1 H1. apply cop_money in H1. rewrite C in *.
  assert (A : forall k s, net [mkReq f "WUSD" AddFree v None] k s BPledged = 0%Z).
  { intros. unfold net, net1. cbn [fold_right q_who q_op q_other q_symbol q_amount credited debited at_place bucket_eqb].
    rewrite andb_false_r. reflexivity. }
  assert (B : forall s, mints s [mkReq f "WUSD" AddFree v None] = if String.eqb "WUSD" s then v else 0).
  { intros s. unfold mints. cbn [map nsum mint_of q_op q_other q_symbol q_amount].
    destruct (String.eqb "WUSD" s); lia. }
  destruct (negb (e_r3 e) && (v <=? PENALTY_MIN)).
  { injection H as <-. eexists. conj; [exact H1 | exact A | exact B | reflexivity]. }
  step H as st2 H2. apply cop_money in H2. apply cplace_money in H.
  eexists. conj; [exact (money_trans _ _ _ _ _ (money_trans _ _ _ _ _ H1 H2) H) | | |].
  - intros. rewrite !net_app, A. unfold net, net1.
    cbn [fold_right q_who q_op q_other q_symbol q_amount credited debited internal at_place bucket_eqb].
    rewrite !andb_false_r. reflexivity.
  - intros s. rewrite !mints_app, B. unfold mints. cbn [map nsum mint_of q_op q_other]. lia.
  - intros s. reflexivity.
Qed.

(** The requests of handing over. *)
Definition hand_moves (k owner : N) (coin : string) (s b o : N) : list request :=
  [mkReq k "WUSD" SubFree s None; mkReq k coin AddFree b None; mkReq owner coin Unpledge b None;
   mkReq owner coin SubFree b None; mkReq owner coin Unpledge o None].

Lemma hand_over_money st k owner c s b o st' :
  c_scoin c = "WUSD"%string -> hand_over st k owner c s b o = Done st' ->
  money st (hand_moves k owner (c_bcoin c) s b o) st'.
Proof.
  intros C. unfold hand_over. intros H. step H as st1 H1. step H as st2 H2. step H as st3 H3.
  step H as st4 H4. apply cop_money in H1, H2, H3, H4, H. rewrite C in *.
  exact (money_trans _ _ _ _ _ (money_trans _ _ _ _ _ (money_trans _ _ _ _ _ (money_trans _ _ _ _ _ H1 H2) H3) H4) H).
Qed.

Lemma hand_net k0 owner coin s b o :
  (forall k s', net (hand_moves k0 owner coin s b o) k s' BPledged =
     if (k =? owner) && String.eqb s' coin then (- Z.of_N (b + o))%Z else 0%Z) /\
  (forall s', mints s' (hand_moves k0 owner coin s b o) = if String.eqb coin s' then b else 0) /\
  (forall s', burns s' (hand_moves k0 owner coin s b o) =
     (if String.eqb "WUSD" s' then s else 0) + (if String.eqb coin s' then b else 0)).
Proof.
  conj; intros.
  - unfold net, net1, hand_moves.
    cbn [fold_right q_who q_op q_other q_symbol q_amount credited debited internal at_place bucket_eqb].
    rewrite !andb_false_r, !andb_true_r. destruct ((k =? owner) && String.eqb s' coin); lia.
  - unfold mints, hand_moves. cbn [map nsum mint_of q_op q_other q_symbol q_amount].
    destruct (String.eqb coin s'); lia.
  - unfold burns, hand_moves. cbn [map nsum burn_of q_op q_other q_symbol q_amount].
    destruct (String.eqb coin s'), (String.eqb "WUSD" s'); lia.
Qed.

(** ** Records and indexes *)

Section Book.
  Variable junk : double -> N.
  Notation in_step := (in_step junk).
  Notation ratio_index := (ratio_index junk).

  Lemma in_step_money st qs st' : money st qs st' -> in_step st -> in_step st'.
  Proof.
    intros [_ _ E1 E2 E3 E4 E5] [A B C D F G].
    constructor; unfold is_open, totals, staked_total, owed_total in *; rewrite ?E1, ?E2, ?E3, ?E4, ?E5; assumption.
  Qed.

  Definition same_slot (c c' : cdp) : Prop :=
    c_id c' = c_id c /\ c_owner c' = c_owner c /\ pair_of c' = pair_of c.

  Lemma add_mod a b : add64 (a mod two64) b = (a + b) mod two64.
  Proof. unfold add64. apply N.add_mod_idemp_l. discriminate. Qed.
  Lemma sub_mod a b : b <= a -> b < two64 -> sub64 (a mod two64) b = (a - b) mod two64.
  Proof.
    intros H Hb. unfold sub64. replace (a mod two64 + two64 - b) with (a mod two64 + (two64 - b)) by lia.
    rewrite N.add_mod_idemp_l by discriminate.
    replace (a + (two64 - b)) with ((a - b) + 1 * two64) by lia. now rewrite N.mod_add by discriminate.
  Qed.

  Definition tsum (f : cdp -> N) (p : string * string) (m : list (N * cdp)) : N :=
    msum (fun c => if cpair_eqb (pair_of c) p then f c else 0) m.

  Lemma totals_save st c p : totals (save_index junk st c) p =
    if cpair_eqb p (pair_of c)
    then (add64 (fst (totals st p)) (c_staked c), add64 (snd (totals st p)) (c_owed c)) else totals st p.
  Proof.
    unfold totals at 1, save_index. cbn [c_totals]. rewrite (fget_put cpair_eqb cpair_eqb_ok).
    destruct (cpair_eqb p (pair_of c)) eqn:E; [|reflexivity]. apply cpair_eqb_ok in E. now subst.
  Qed.
  Lemma totals_erase st c p : totals (erase_index junk st c) p =
    if cpair_eqb p (pair_of c)
    then (sub64 (fst (totals st p)) (c_staked c), sub64 (snd (totals st p)) (c_owed c)) else totals st p.
  Proof.
    unfold totals at 1, erase_index. cbn [c_totals]. rewrite (fget_put cpair_eqb cpair_eqb_ok).
    destruct (cpair_eqb p (pair_of c)) eqn:E; [|reflexivity]. apply cpair_eqb_ok in E. now subst.
  Qed.

  Lemma tsum_put f p m c old :
    NoDup (keys m) -> fget N.eqb m (c_id c) = old ->
    tsum f p (fput N.eqb m (c_id c) c) +
      match old with Some o => if cpair_eqb (pair_of o) p then f o else 0 | None => 0 end =
    tsum f p m + (if cpair_eqb (pair_of c) p then f c else 0).
  Proof.
    intros ND <-. apply (msum_put N.eqb N_eqb_ok (fun c => if cpair_eqb (pair_of c) p then f c else 0) m (c_id c) c ND).
  Qed.

  Lemma cpair_sym a b : cpair_eqb a b = cpair_eqb b a.
  Proof.
    destruct (cpair_eqb a b) eqn:E.
    - apply cpair_eqb_ok in E. subst. symmetry. now apply cpair_eqb_ok.
    - destruct (cpair_eqb b a) eqn:E2; [|reflexivity]. apply cpair_eqb_ok in E2. subst.
      rewrite (proj2 (cpair_eqb_ok a a) eq_refl) in E. discriminate.
  Qed.

  Lemma new_in_step st c :
    in_step st -> fget N.eqb (c_cdps st) (c_id c) = None -> c_id c <> 0 ->
    fget user_eqb (c_user st) (c_owner c, pair_of c) = None -> in_step (new_cdp junk st c).
  Proof.
    intros [(N1 & N2 & N3 & N4) Id Us Ra He To] F Z U.
    assert (G : forall x, fget N.eqb (c_cdps (new_cdp junk st c)) x =
                  if x =? c_id c then Some c else fget N.eqb (c_cdps st) x).
    { intros x. unfold new_cdp. cbn. apply (fget_put N.eqb N_eqb_ok). }
    assert (O : forall d, is_open (new_cdp junk st c) d <-> (d = c \/ is_open st d)).
    { intros d. unfold is_open. rewrite G. destruct (c_id d =? c_id c) eqn:E.
      - apply N.eqb_eq in E. rewrite E, F. split; [intros X; injection X as ->; auto|].
        intros [->|X]; [reflexivity | discriminate].
      - apply N.eqb_neq in E. split; [auto|]. intros [->|X]; [congruence | auto]. }
    constructor.
    - unfold new_cdp, save_index. cbn. conj; apply nodup_put; auto using N_eqb_ok, user_eqb_ok, ratio_eqb_ok, height_eqb_ok.
    - intros id d. rewrite G. destruct (id =? c_id c) eqn:E; [|apply Id].
      apply N.eqb_eq in E. intros X. injection X as <-. subst id. auto.
    - intros r p id. unfold new_cdp. cbn [save_index c_user set_user set_cdps c_cdps].
      rewrite (fget_put user_eqb user_eqb_ok), (fget_put N.eqb N_eqb_ok).
      destruct (user_eqb (r, p) (c_owner c, pair_of c)) eqn:E.
      + apply user_eqb_ok in E. injection E as -> ->. split.
        * intros X. injection X as <-. exists c. rewrite N.eqb_refl. auto.
        * intros (d & D & D1 & D2). destruct (id =? c_id c) eqn:E; [f_equal; lia|].
          assert (X : fget user_eqb (c_user st) (c_owner c, pair_of c) = Some id) by (apply Us; eauto).
          congruence.
      + rewrite Us. split; intros (d & D & D1 & D2).
        * exists d. destruct (id =? c_id c) eqn:E2; [apply N.eqb_eq in E2; congruence | auto].
        * destruct (id =? c_id c) eqn:E2; [|eauto]. injection D as <-. subst.
          rewrite (proj2 (user_eqb_ok _ _) eq_refl) in E. discriminate.
    - intros k d. rewrite O. unfold new_cdp. cbn [save_index c_ratio set_user set_cdps].
      rewrite (fget_put ratio_eqb ratio_eqb_ok). destruct (ratio_eqb k (ratio_index c)) eqn:E.
      + apply ratio_eqb_ok in E. subst k. split.
        * intros X. injection X as <-. auto.
        * intros (X & [->|Y]); [reflexivity|]. exfalso. unfold is_open in Y. unfold CdpModel.ratio_index in X.
          injection X as _ _ _ _ X. rewrite <- X in Y. congruence.
      + rewrite Ra. split; [tauto|]. intros (X & [->|Y]); [|auto]. subst k.
        rewrite (proj2 (ratio_eqb_ok _ _) eq_refl) in E. discriminate.
    - intros k d. rewrite O. unfold new_cdp. cbn [save_index c_heights set_user set_cdps].
      rewrite (fget_put height_eqb height_eqb_ok). destruct (height_eqb k (height_index c)) eqn:E.
      + apply height_eqb_ok in E. subst k. split.
        * intros X. injection X as <-. auto.
        * intros (X & [->|Y]); [reflexivity|]. exfalso. unfold is_open in Y. unfold height_index in X.
          injection X as _ _ _ X. rewrite <- X in Y. congruence.
      + rewrite He. split; [tauto|]. intros (X & [->|Y]); [|auto]. subst k.
        rewrite (proj2 (height_eqb_ok _ _) eq_refl) in E. discriminate.
    - intros p. unfold new_cdp. rewrite totals_save.
      change (totals (set_user ?x ?y) p) with (totals st p). rewrite To.
      pose proof (tsum_put c_staked p (c_cdps st) c None N1 F) as X1.
      pose proof (tsum_put c_owed p (c_cdps st) c None N1 F) as X2.
      change (staked_total (save_index junk ?x c) p) with (tsum c_staked p (fput N.eqb (c_cdps st) (c_id c) c)).
      change (owed_total (save_index junk ?x c) p) with (tsum c_owed p (fput N.eqb (c_cdps st) (c_id c) c)).
      fold (tsum c_staked p (c_cdps st)) in *. rewrite N.add_0_r in X1, X2. rewrite X1, X2.
      unfold staked_total, owed_total. fold (tsum c_staked p (c_cdps st)). fold (tsum c_owed p (c_cdps st)).
      rewrite (cpair_sym p). destruct (cpair_eqb (pair_of c) p); cbn [fst snd]; rewrite ?add_mod, ?N.add_0_r; reflexivity.
  Qed.

  (** Taking the old record out of the indexes. *)
  Lemma updated_in_step st c c' :
    in_step st -> is_open st c -> same_slot c c' -> c_staked c < two64 -> c_owed c < two64 ->
    in_step (updated junk st c c').
  Proof.
    intros [(N1 & N2 & N3 & N4) Id Us Ra He To] F (S1 & S2 & S3) B1 B2. unfold is_open in F.
    assert (G : forall x, fget N.eqb (c_cdps (updated junk st c c')) x =
                  if x =? c_id c then Some c' else fget N.eqb (c_cdps st) x).
    { intros x. unfold updated. cbn. rewrite S1. apply (fget_put N.eqb N_eqb_ok). }
    assert (O : forall d, is_open (updated junk st c c') d <-> (d = c' \/ (c_id d <> c_id c /\ is_open st d))).
    { intros d. unfold is_open. rewrite G. destruct (c_id d =? c_id c) eqn:E.
      - apply N.eqb_eq in E. split; [intros X; injection X as ->; auto|]. intros [->|(X & _)]; [reflexivity | congruence].
      - apply N.eqb_neq in E. split; [auto|]. intros [->|(_ & X)]; [congruence | auto]. }
    constructor.
    - unfold updated, save_index, erase_index. cbn.
      conj; [apply nodup_put; auto using N_eqb_ok | assumption | |];
        (apply nodup_put; [auto using ratio_eqb_ok, height_eqb_ok | apply nodup_del; auto using ratio_eqb_ok, height_eqb_ok]).
    - intros id d. rewrite G. destruct (id =? c_id c) eqn:E; [|apply Id].
      apply N.eqb_eq in E. intros X. injection X as <-. destruct (Id _ _ F) as (_ & Z). subst. split; congruence.
    - intros r p id. change (c_user (updated junk st c c')) with (c_user st). rewrite Us.
      split; intros (d & D & D1 & D2).
      + rewrite G. destruct (id =? c_id c) eqn:E; [|eauto]. apply N.eqb_eq in E. subst id.
        exists c'. split; [reflexivity|]. split; congruence.
      + rewrite G in D. destruct (id =? c_id c) eqn:E; [|eauto]. apply N.eqb_eq in E. subst id.
        injection D as <-. exists c. split; [exact F|]. split; congruence.
    - intros k d. rewrite O. unfold updated. cbn [save_index erase_index c_ratio set_cdps].
      rewrite (fget_put ratio_eqb ratio_eqb_ok), (fget_del ratio_eqb ratio_eqb_ok).
      destruct (ratio_eqb k (ratio_index c')) eqn:E.
      + apply ratio_eqb_ok in E. subst k. split.
        * intros X. injection X as <-. auto.
        * intros (X & [->|(Y & _)]); [reflexivity|]. exfalso. unfold CdpModel.ratio_index in X.
          injection X as _ _ _ _ X. congruence.
      + destruct (ratio_eqb k (ratio_index c)) eqn:E2.
        * apply ratio_eqb_ok in E2. subst k. split; [discriminate|].
          intros (X & [->|(Y & _)]); exfalso.
          -- fold (ratio_index c') in X. rewrite X, (proj2 (ratio_eqb_ok _ _) eq_refl) in E. discriminate.
          -- unfold CdpModel.ratio_index in X. injection X as _ _ _ _ X. congruence.
        * rewrite Ra. split.
          -- intros (X & Y). split; [assumption|]. right. split; [|assumption]. intros Z.
             unfold is_open in Y. rewrite Z in Y. assert (d = c) by congruence. subst. 
             fold (ratio_index c) in E2. rewrite (proj2 (ratio_eqb_ok _ _) eq_refl) in E2. discriminate.
          -- intros (X & [->|(Y & Z)]); [|auto]. subst k. fold (ratio_index c') in E.
             rewrite (proj2 (ratio_eqb_ok _ _) eq_refl) in E. discriminate.
    - intros k d. rewrite O. unfold updated. cbn [save_index erase_index c_heights set_cdps].
      rewrite (fget_put height_eqb height_eqb_ok), (fget_del height_eqb height_eqb_ok).
      destruct (height_eqb k (height_index c')) eqn:E.
      + apply height_eqb_ok in E. subst k. split.
        * intros X. injection X as <-. auto.
        * intros (X & [->|(Y & _)]); [reflexivity|]. exfalso. unfold height_index in X.
          injection X as _ _ _ X. congruence.
      + destruct (height_eqb k (height_index c)) eqn:E2.
        * apply height_eqb_ok in E2. subst k. split; [discriminate|].
          intros (X & [->|(Y & _)]); exfalso.
          -- fold (height_index c') in X. rewrite X, (proj2 (height_eqb_ok _ _) eq_refl) in E. discriminate.
          -- unfold height_index in X. injection X as _ _ _ X. congruence.
        * rewrite He. split.
          -- intros (X & Y). split; [assumption|]. right. split; [|assumption]. intros Z.
             unfold is_open in Y. rewrite Z in Y. assert (d = c) by congruence. subst.
             fold (height_index c) in E2. rewrite (proj2 (height_eqb_ok _ _) eq_refl) in E2. discriminate.
          -- intros (X & [->|(Y & Z)]); [|auto]. subst k. fold (height_index c') in E.
             rewrite (proj2 (height_eqb_ok _ _) eq_refl) in E. discriminate.
    - intros p. unfold updated. rewrite totals_save, totals_erase.
      change (totals (set_cdps ?x ?y) p) with (totals st p). rewrite To.
      rewrite <- S1 in F.
      pose proof (tsum_put c_staked p (c_cdps st) c' _ N1 F) as X1.
      pose proof (tsum_put c_owed p (c_cdps st) c' _ N1 F) as X2. cbv beta iota in X1, X2.
      change (staked_total (save_index junk ?x c') p) with (tsum c_staked p (fput N.eqb (c_cdps st) (c_id c') c')).
      change (owed_total (save_index junk ?x c') p) with (tsum c_owed p (fput N.eqb (c_cdps st) (c_id c') c')).
      unfold staked_total, owed_total. fold (tsum c_staked p (c_cdps st)). fold (tsum c_owed p (c_cdps st)).
      rewrite S3 in *. rewrite (cpair_sym p). destruct (cpair_eqb (pair_of c) p) eqn:E; cbn [fst snd].
      + pose proof (fval_le_msum N.eqb N_eqb_ok (fun c => if cpair_eqb (pair_of c) p then c_staked c else 0) (c_cdps st) (c_id c') N1) as Y1.
        pose proof (fval_le_msum N.eqb N_eqb_ok (fun c => if cpair_eqb (pair_of c) p then c_owed c else 0) (c_cdps st) (c_id c') N1) as Y2.
        unfold fval in Y1, Y2. rewrite F, E in Y1, Y2.
        fold (tsum c_staked p (c_cdps st)) in Y1. fold (tsum c_owed p (c_cdps st)) in Y2.
        rewrite !sub_mod, !add_mod by assumption. f_equal; f_equal; lia.
      + rewrite !N.add_0_r in X1, X2. now rewrite X1, X2.
  Qed.

  Lemma erased_in_step st c c' :
    in_step st -> is_open st c -> same_slot c c' -> c_staked c < two64 -> c_owed c < two64 ->
    in_step (erase_cdp junk st c c').
  Proof.
    intros [(N1 & N2 & N3 & N4) Id Us Ra He To] F (S1 & S2 & S3) B1 B2. unfold is_open in F.
    assert (G : forall x, fget N.eqb (c_cdps (erase_cdp junk st c c')) x =
                  if x =? c_id c then None else fget N.eqb (c_cdps st) x).
    { intros x. unfold erase_cdp. cbn. rewrite S1. apply (fget_del N.eqb N_eqb_ok). }
    assert (O : forall d, is_open (erase_cdp junk st c c') d <-> (c_id d <> c_id c /\ is_open st d)).
    { intros d. unfold is_open. rewrite G. destruct (c_id d =? c_id c) eqn:E.
      - apply N.eqb_eq in E. split; [discriminate | tauto].
      - apply N.eqb_neq in E. tauto. }
    constructor.
    - unfold erase_cdp, erase_index. cbn. conj; apply nodup_del; auto using N_eqb_ok, user_eqb_ok, ratio_eqb_ok, height_eqb_ok.
    - intros id d. rewrite G. destruct (id =? c_id c) eqn:E; [discriminate | apply Id].
    - intros r p id. unfold erase_cdp. cbn [erase_index c_user set_user set_cdps c_cdps].
      rewrite (fget_del user_eqb user_eqb_ok), (fget_del N.eqb N_eqb_ok), S1, S2, S3.
      assert (Q : fget user_eqb (c_user st) (c_owner c, pair_of c) = Some (c_id c)) by (apply Us; eauto).
      destruct (user_eqb (r, p) (c_owner c, pair_of c)) eqn:E.
      + apply user_eqb_ok in E. injection E as -> ->. split; [discriminate|].
        intros (d & D & D1 & D2). destruct (id =? c_id c) eqn:E; [discriminate|].
        assert (X : fget user_eqb (c_user st) (c_owner c, pair_of c) = Some id) by (apply Us; eauto).
        apply N.eqb_neq in E. congruence.
      + rewrite Us. split; intros (d & D & D1 & D2); exists d.
        * destruct (id =? c_id c) eqn:E2; [|auto]. apply N.eqb_eq in E2. subst id.
          assert (d = c) by congruence. subst. rewrite (proj2 (user_eqb_ok _ _) eq_refl) in E. discriminate.
        * destruct (id =? c_id c) eqn:E2; [discriminate | auto].
    - intros k d. rewrite O. unfold erase_cdp. cbn [erase_index c_ratio set_user set_cdps].
      rewrite (fget_del ratio_eqb ratio_eqb_ok).
      destruct (ratio_eqb k (ratio_index c)) eqn:E2.
      + apply ratio_eqb_ok in E2. subst k. split; [discriminate|].
        intros (X & (Y & _)). exfalso. unfold CdpModel.ratio_index in X. injection X as _ _ _ _ X. congruence.
      + rewrite Ra. split.
        * intros (X & Y). split; [assumption|]. split; [|assumption]. intros Z.
          unfold is_open in Y. rewrite Z in Y. assert (d = c) by congruence. subst.
          fold (ratio_index c) in E2. rewrite (proj2 (ratio_eqb_ok _ _) eq_refl) in E2. discriminate.
        * intros (X & (Y & Z)). auto.
    - intros k d. rewrite O. unfold erase_cdp. cbn [erase_index c_heights set_user set_cdps].
      rewrite (fget_del height_eqb height_eqb_ok).
      destruct (height_eqb k (height_index c)) eqn:E2.
      + apply height_eqb_ok in E2. subst k. split; [discriminate|].
        intros (X & (Y & _)). exfalso. unfold height_index in X. injection X as _ _ _ X. congruence.
      + rewrite He. split.
        * intros (X & Y). split; [assumption|]. split; [|assumption]. intros Z.
          unfold is_open in Y. rewrite Z in Y. assert (d = c) by congruence. subst.
          fold (height_index c) in E2. rewrite (proj2 (height_eqb_ok _ _) eq_refl) in E2. discriminate.
        * intros (X & (Y & Z)). auto.
    - intros p. unfold erase_cdp. rewrite totals_erase.
      change (totals (set_user ?x ?y) p) with (totals st p). rewrite To.
      pose proof (msum_del N.eqb N_eqb_ok (fun c => if cpair_eqb (pair_of c) p then c_staked c else 0) (c_cdps st) (c_id c) N1) as X1.
      pose proof (msum_del N.eqb N_eqb_ok (fun c => if cpair_eqb (pair_of c) p then c_owed c else 0) (c_cdps st) (c_id c) N1) as X2.
      unfold fval in X1, X2. rewrite F in X1, X2.
      fold (tsum c_staked p (c_cdps st)) in X1. fold (tsum c_owed p (c_cdps st)) in X2.
      fold (tsum c_staked p (fdel N.eqb (c_cdps st) (c_id c))) in X1.
      fold (tsum c_owed p (fdel N.eqb (c_cdps st) (c_id c))) in X2.
      change (staked_total (erase_index junk ?x c) p) with (tsum c_staked p (fdel N.eqb (c_cdps st) (c_id c'))).
      change (owed_total (erase_index junk ?x c) p) with (tsum c_owed p (fdel N.eqb (c_cdps st) (c_id c'))).
      unfold staked_total, owed_total. fold (tsum c_staked p (c_cdps st)). fold (tsum c_owed p (c_cdps st)).
      rewrite S1, (cpair_sym p). destruct (cpair_eqb (pair_of c) p) eqn:E; cbn [fst snd].
      + rewrite !sub_mod by lia. f_equal; f_equal; lia.
      + rewrite !N.add_0_r in X1, X2. now rewrite X1, X2.
  Qed.
End Book.
