(** Theorems about balances, transactions, fees and permissions: C05-C08, C45, C49, C50. *)
From Coq Require Import String List Bool NArith ZArith Lia.
From Verif Require Import Prelude PreludeFacts AccountModel AccountSpec AccountProofs
  TxModel TxSpec TxProofs FeeModel FeeSpec FeeProofs PermModel PermProofs.
Import ListNotations.
Open Scope N_scope.

Local Ltac nodup := cbn; repeat (apply NoDup_cons; [cbn; intuition discriminate|]); apply NoDup_nil.

(** ** C05: one balance operation *)

(** A successful operation on accounts of a ledger takes exactly the amount from the place it
    debits and gives it to the place it credits; every other balance of every account is as
    before; and nothing else about an account changes. The premise says that the coins that
    exist (plus those being created) fit in 64 bits. *)
Theorem c05_operation_moves_exactly :
  forall L who s o v other L',
  ledger_wf L ->
  l_operate L who s o v other = (true, L') ->
  supply L s + mint_of s (mkReq who s o v other) < two64 ->
  forall k s' b,
    Z.of_N (lbal L' k s' b) = (Z.of_N (lbal L k s' b)
      - Z.of_N (at_place (debited who o other) s v k s' b)
      + Z.of_N (at_place (credited who o other) s v k s' b))%Z.
Proof. exact l_operate_delta. Qed.
Print Assumptions c05_operation_moves_exactly.

(** It succeeds exactly when the debited place holds the amount. *)
Theorem c05_succeeds_iff_covered :
  forall L who s o v other,
  o <> OpNull -> (o = DexDeal -> other <> None) ->
  (forall k, other = Some k -> l_get L k <> None) -> ledger_wf L ->
  (o = AddFree -> other = Some who -> lbal L who s BFree + v < two64 /\ v <= lbal L who s BFree) ->
  (fst (l_operate L who s o v other) = true <->
   l_get L who <> None /\
   match debited who o other with Some (k, b) => v <= lbal L k s b | None => True end).
Proof. exact l_operate_ok_iff. Qed.
Print Assumptions c05_succeeds_iff_covered.

(** Identity, votes, registration and permissions of both parties survive any operation,
    successful or not. *)
Theorem c05_identity_kept :
  forall a s o v p,
  same_identity a (self' (operate_balance a s o v p)) /\
  forall b, p = Peer b ->
    exists b', peer' (operate_balance a s o v p) = Peer b' /\ same_identity b b'.
Proof.
  intros a s o v p. split; [apply operate_identity|].
  intros b ->. apply operate_identity_peer.
Qed.
Print Assumptions c05_identity_kept.

Definition exacc (k : N) (t : token) : account :=
  mkAccount k (k, 1) (Some k) [("WICC"%string, t)] 0 0 0 all_perms.
Definition exL : list (N * account) :=
  [(7, exacc 7 (mkToken 100 40 30 20 10)); (8, exacc 8 (mkToken 5 0 0 0 0))].

Example c05_example :
  ledger_wf exL /\ supply exL "WICC" = 205 /\
  fst (l_operate exL 7 "WICC" DexDeal 33 (Some 8)) = true /\
  (let L' := snd (l_operate exL 7 "WICC" DexDeal 33 (Some 8)) in
   lbal L' 7 "WICC" BFrozen = 7 /\ lbal L' 8 "WICC" BFree = 38) /\
  fst (l_operate exL 7 "WICC" DexDeal 41 (Some 8)) = false.
Proof.
  split.
  { split; [nodup|].
    intros k a H. unfold exL, l_get in H. simpl in H.
    destruct (k =? 7) eqn:E1; [apply N.eqb_eq in E1; inversion H; subst; auto|].
    destruct (k =? 8) eqn:E2; [apply N.eqb_eq in E2; inversion H; subst; auto | discriminate]. }
  vm_compute. auto.
Qed.

(** The property as first stated has no such premise, and is then false: the balance wraps
    around and the coins vanish. *)
Theorem c05_without_bound_refuted :
  exists a s v, ok (operate_balance a s AddFree v NoPeer) = true /\ 0 < v /\
    bal (self' (operate_balance a s AddFree v NoPeer)) s BFree < bal a s BFree.
Proof.
  exists (exacc 7 (mkToken (two64 - 1) 0 0 0 0)), "WICC"%string, 5. vm_compute. auto.
Qed.
Print Assumptions c05_without_bound_refuted.

(** A refused operation is not always without effect: a two-party addition credits the one
    side before it finds that the other cannot pay (account.cpp:56-72). Its callers rely on
    the whole transaction being dropped. *)
Theorem c05_refused_add_changes_balance_refuted :
  exists a b s v, a_keyid a <> a_keyid b /\
    ok (operate_balance a s AddFree v (Peer b)) = false /\
    bal (self' (operate_balance a s AddFree v (Peer b))) s BFree <> bal a s BFree.
Proof.
  exists (exacc 7 (mkToken 1 0 0 0 0)), (exacc 8 (mkToken 1 0 0 0 0)), "WICC"%string, 5.
  vm_compute. repeat split; discriminate.
Qed.
Print Assumptions c05_refused_add_changes_balance_refuted.

(** ** C06: supply over histories *)

(** Along any sequence of operations the total of every token changes exactly by what
    one-sided additions create and one-sided subtractions destroy, and no balance exceeds
    that total, so that none wraps around. *)
Theorem c06_supply_invariant :
  forall qs L L' done,
  ledger_wf L -> history L qs = (L', done) ->
  (forall s, supply L s + nsum (map (mint_of s) done) < two64) ->
  ledger_wf L' /\
  (forall s, supply L' s + nsum (map (burn_of s) done) = supply L s + nsum (map (mint_of s) done)) /\
  (forall k s b, lbal L' k s b <= supply L' s).
Proof.
  intros qs L L' done W H Hb.
  destruct (history_supply qs L L' done W H Hb) as [W' S].
  split; [exact W'|]. split; [exact S|]. intros k s b. apply lbal_le_supply; exact W'.
Qed.
Print Assumptions c06_supply_invariant.

(** In particular a history without one-sided operations keeps every total. *)
Theorem c06_closed_history_keeps_supply :
  forall qs L L' done,
  ledger_wf L -> history L qs = (L', done) ->
  (forall s, supply L s < two64) ->
  (forall q, In q qs -> q_other q <> None \/ (q_op q <> AddFree /\ q_op q <> SubFree)) ->
  forall s, supply L' s = supply L s.
Proof.
  intros qs L L' done W H Hb Hc s.
  assert (In_done : forall qs L L' done, history L qs = (L', done) -> forall q, In q done -> In q qs).
  { clear. induction qs as [|q qs IH]; simpl; intros L L' done H q0 Hq.
    - inversion H; subst. destruct Hq.
    - destruct (l_operate L (q_who q) (q_symbol q) (q_op q) (q_amount q) (q_other q)) as [[|] L1].
      + destruct (history L1 qs) as [L2 d2] eqn:E. inversion H; subst. destruct Hq as [->|Hq]; auto.
        right. eapply IH; eauto.
      + right. eapply IH; eauto. }
  assert (Zero : forall s0, nsum (map (mint_of s0) done) = 0 /\ nsum (map (burn_of s0) done) = 0).
  { intros s0. assert (Hd : forall q, In q done -> mint_of s0 q = 0 /\ burn_of s0 q = 0).
    { intros q Hq. specialize (Hc q (In_done _ _ _ _ H q Hq)). unfold mint_of, burn_of.
      destruct (q_op q), (q_other q); auto; destruct Hc as [Hc|[H1 H2]]; congruence. }
    clear - Hd. induction done as [|q d IH]; simpl; auto.
    destruct (Hd q (or_introl eq_refl)) as [-> ->]. apply IH. intros; apply Hd; right; auto. }
  destruct (c06_supply_invariant qs L L' done W H) as (_ & S & _).
  { intros s0. destruct (Zero s0) as [-> _]. rewrite N.add_0_r. apply Hb. }
  specialize (S s). destruct (Zero s) as [E1 E2]. rewrite E1, E2 in S. rewrite !N.add_0_r in S. exact S.
Qed.
Print Assumptions c06_closed_history_keeps_supply.

Example c06_example :
  let qs := [mkReq 7 "WICC" Freeze 50 None; mkReq 7 "WICC" DexDeal 90 (Some 8);
             mkReq 7 "WICC" SubFree 1000 (Some 8); mkReq 8 "WICC" SubFree 95 (Some 7)]%string in
  let r := history exL qs in
  supply (fst r) "WICC" = 205 /\ List.length (snd r) = 3%nat /\
  lbal (fst r) 7 "WICC" BFree = 145 /\ lbal (fst r) 8 "WICC" BFree = 0.
Proof. vm_compute. auto. Qed.

(** ** C07: coin transfers *)

(** A multi-coin transfer. Every destination exists afterwards; the total of each token
    falls by the miner fee and by nothing else; the sender pays the amounts and the fee;
    each receiver gains the amounts addressed to it less the friction of stable-coin
    transfers; the reserve account holds the friction frozen in the sell orders that were
    opened; no other balance changes. *)
Theorem c07_coin_transfer :
  forall (pk_keyid : N -> N) e tx st st',
  consistent pk_keyid (t_acc st) (t_reg st) -> NoDup (map fst (t_orders st)) ->
  (forall s, supply (t_acc st) s < two64) ->
  fget regid_eqb (t_reg st) (e_height e, e_index e) = None ->
  e_friction e <= 10000 -> (forall x, In x (c_xfers tx) -> x_amount x < two64) ->
  exec_coin_transfer pk_keyid e tx st = Some st' ->
  consistent pk_keyid (t_acc st') (t_reg st') /\
  (forall x, In x (c_xfers tx) -> exists d, denotes pk_keyid (t_reg st') (x_to x) = Some d) /\
  (forall r k, fget regid_eqb (t_reg st) r = Some k -> fget regid_eqb (t_reg st') r = Some k) /\
  msum (fun v => v) (t_orders st') = msum (fun v => v) (t_orders st) + friction_total e (c_xfers tx) /\
  (forall s, supply (t_acc st') s + fee_in (c_fee_symbol tx) (c_fee tx) s = supply (t_acc st) s) /\
  exists k, denotes pk_keyid (t_reg st) (c_uid tx) = Some k /\
    forall k' s b, Z.of_N (lbal (t_acc st') k' s b) = (Z.of_N (lbal (t_acc st) k' s b) +
      match b with
      | BFree => Z.of_N (received pk_keyid e (t_reg st') (c_xfers tx) k' s)
           - (if (k' =? k)%N then Z.of_N (sent (c_xfers tx) s)
                                  + Z.of_N (fee_in (c_fee_symbol tx) (c_fee tx) s) else 0)
      | BFrozen => if String.eqb "WUSD" s
           then Z.of_N (match fget regid_eqb (t_reg st') (e_fcoin e) with
                        | Some f => if (k' =? f)%N then friction_total e (c_xfers tx) else 0%N
                        | None => 0%N end)
           else 0
      | _ => 0
      end)%Z.
Proof. exact coin_transfer_ok. Qed.
Print Assumptions c07_coin_transfer.

(** The single base-coin transfer. *)
Theorem c07_base_transfer :
  forall (pk_keyid : N -> N) e u fs fee to amount st st',
  consistent pk_keyid (t_acc st) (t_reg st) -> NoDup (map fst (t_orders st)) ->
  (forall s, supply (t_acc st) s < two64) ->
  fget regid_eqb (t_reg st) (e_height e, e_index e) = None ->
  exec_base_transfer pk_keyid e u fs fee to amount st = Some st' ->
  consistent pk_keyid (t_acc st') (t_reg st') /\
  (forall s, supply (t_acc st') s + fee_in fs fee s = supply (t_acc st) s) /\
  exists k d, denotes pk_keyid (t_reg st) u = Some k /\ denotes pk_keyid (t_reg st') to = Some d /\
    forall k' s b, Z.of_N (lbal (t_acc st') k' s b) = (Z.of_N (lbal (t_acc st) k' s b)
      - Z.of_N (at_place (Some (k, BFree)) fs fee k' s b)
      - Z.of_N (at_place (Some (k, BFree)) "WICC" amount k' s b)
      + Z.of_N (at_place (Some (d, BFree)) "WICC" amount k' s b))%Z.
Proof. exact base_transfer_ok. Qed.
Print Assumptions c07_base_transfer.

(** Key ids are public keys here. Account 7 (unregistered, pays by public key) sends WUSD to
    a new key and WICC to account 8; the reserve is account 9. *)
Definition ex_pk (p : N) : N := p.
Definition ex_st : txst :=
  mkTx [(7, mkAccount 7 (0, 0) None [("WICC"%string, mkToken 100 0 0 0 0); ("WUSD"%string, mkToken 5000 0 0 0 0)] 0 0 0 all_perms);
        (8, mkAccount 8 (3, 1) (Some 8) [] 0 0 0 all_perms);
        (9, mkAccount 9 (2, 1) (Some 9) [] 0 0 0 all_perms)]
       [((3, 1), 8); ((2, 1), 9)] [] None [(77, 5)].
Definition ex_env : tenv := mkEnv 50 4 10 (2, 1) (fun i => 500 + i).
Definition ex_tx : coin_tx :=
  mkCoinTx (UPub 7) "WICC" 1 [mkXfer (UKey 21) "WUSD" 2000; mkXfer (UReg (3, 1)) "WICC" 60].

Example c07_example :
  consistent ex_pk (t_acc ex_st) (t_reg ex_st) /\
  match exec_coin_transfer ex_pk ex_env ex_tx ex_st with
  | None => False
  | Some st' =>
      lbal (t_acc st') 21 "WUSD" BFree = 1998 /\ lbal (t_acc st') 9 "WUSD" BFrozen = 2 /\
      lbal (t_acc st') 7 "WUSD" BFree = 3000 /\ lbal (t_acc st') 7 "WICC" BFree = 39 /\
      lbal (t_acc st') 8 "WICC" BFree = 60 /\ t_orders st' = [(77, 5); (500, 2)] /\
      fget regid_eqb (t_reg st') (50, 4) = Some 7
  end.
Proof.
  split; [|vm_compute; repeat split].
  split; [split; [nodup|]|];
    intros k a H; unfold ex_st, l_get in H; simpl in H;
    (destruct (k =? 7) eqn:E1; [apply N.eqb_eq in E1; inversion H; subst; simpl; repeat split; intros; unfold ex_pk; first [discriminate | reflexivity | congruence]|]);
    (destruct (k =? 8) eqn:E2; [apply N.eqb_eq in E2; inversion H; subst; simpl; repeat split; intros; unfold ex_pk; first [discriminate | reflexivity | congruence]|]);
    (destruct (k =? 9) eqn:E3; [apply N.eqb_eq in E3; inversion H; subst; simpl; repeat split; intros; unfold ex_pk; first [discriminate | reflexivity | congruence]|]);
    discriminate.
Qed.

(** ** C08: split fees *)

(** A transaction that pays the asset issue or update fee. *)
Theorem c08_asset_fee_exact :
  forall (pk_keyid : N -> N) e u fs fee0 fee ratio reserve ds st st',
  consistent pk_keyid (t_acc st) (t_reg st) -> NoDup (map fst (t_orders st)) ->
  (forall s, supply (t_acc st) s < two64) ->
  fget regid_eqb (t_reg st) (e_height e, e_index e) = None ->
  fee < two64 -> ratio <= 10000 ->
  execute_full pk_keyid e u fs fee0
    (fun k => fee_body (fun st => process_asset_fee pk_keyid k fee ratio reserve ds st)) st = Some st' ->
  (forall s, supply (t_acc st') s + fee_in fs fee0 s = supply (t_acc st) s) /\
  exists k shares risk,
    denotes pk_keyid (t_reg st) u = Some k /\
    List.length shares = List.length ds /\ fair_shares (fee - risk) shares /\
    risk <= fee /\ (fee * ratio < two64 -> risk = fee * ratio / 10000) /\
    forall k' s b, Z.of_N (lbal (t_acc st') k' s b) = (Z.of_N (lbal (t_acc st) k' s b)
       - Z.of_N (at_place (Some (k, BFree)) fs fee0 k' s b)
       - Z.of_N (at_place (Some (k, BFree)) "WICC" fee k' s b)
       + (if String.eqb s "WICC" && bucket_eqb b BFree
          then Z.of_N (paid_to (t_reg st') (reserve :: ds) (risk :: shares) k') else 0))%Z.
Proof.
  intros pk e u fs fee0 fee ratio reserve ds st st' C No Hs Hfr Hf Hr H.
  apply (fee_tx_ok pk e u fs fee0 (fun k st => process_asset_fee pk k fee ratio reserve ds st)); auto.
  intros k st4 st5 Hc T M S. apply asset_fee_ok; auto.
Qed.
Print Assumptions c08_asset_fee_exact.

(** A transaction that pays the DEX-operator fee. *)
Theorem c08_operator_fee_exact :
  forall (pk_keyid : N -> N) e u fs fee0 fee ratio reserve ds st st',
  consistent pk_keyid (t_acc st) (t_reg st) -> NoDup (map fst (t_orders st)) ->
  (forall s, supply (t_acc st) s < two64) ->
  fget regid_eqb (t_reg st) (e_height e, e_index e) = None ->
  fee < two64 -> ratio <= 10000 ->
  execute_full pk_keyid e u fs fee0
    (fun k => fee_body (fun st => process_operator_fee pk_keyid k fee ratio reserve ds st)) st = Some st' ->
  (forall s, supply (t_acc st') s + fee_in fs fee0 s = supply (t_acc st) s) /\
  exists k shares risk,
    denotes pk_keyid (t_reg st) u = Some k /\
    List.length shares = List.length ds /\ fair_shares (fee - risk) shares /\
    risk <= fee /\ (fee * ratio < two64 -> risk = fee * ratio / 10000) /\
    forall k' s b, Z.of_N (lbal (t_acc st') k' s b) = (Z.of_N (lbal (t_acc st) k' s b)
       - Z.of_N (at_place (Some (k, BFree)) fs fee0 k' s b)
       - Z.of_N (at_place (Some (k, BFree)) "WICC" fee k' s b)
       + (if String.eqb s "WICC" && bucket_eqb b BFree
          then Z.of_N (paid_to (t_reg st') (reserve :: ds) (risk :: shares) k') else 0))%Z.
Proof.
  intros pk e u fs fee0 fee ratio reserve ds st st' C No Hs Hfr Hf Hr H.
  apply (fee_tx_ok pk e u fs fee0 (fun k st => process_operator_fee pk k fee ratio reserve ds st)); auto.
  intros k st4 st5 Hc T M S. apply operator_fee_ok; auto.
Qed.
Print Assumptions c08_operator_fee_exact.

(** With a fee of 10^16 and the full range of ratios the 64-bit product wraps, and the
    reserve does not get its ratio (the split is still exact). *)
Theorem c08_risk_share_refuted :
  exists fee ratio, fee < two64 /\ ratio <= 10000 /\ risk_part fee ratio <> fee * ratio / 10000.
Proof. exists 10000000000000000, 10000. vm_compute. repeat split; discriminate. Qed.
Print Assumptions c08_risk_share_refuted.

Example c08_example :
  match execute_full ex_pk ex_env (UKey 7) "WICC" 1
    (fun k => fee_body (fun st => process_asset_fee ex_pk k 95 4000 (2, 1) [(3, 1); (2, 1); (3, 1)] st)) ex_st with
  | None => False
  | Some st' => lbal (t_acc st') 7 "WICC" BFree = 4 /\ lbal (t_acc st') 9 "WICC" BFree = 57 /\
      lbal (t_acc st') 8 "WICC" BFree = 38
  end /\
  match execute_full ex_pk ex_env (UKey 7) "WICC" 1
    (fun k => fee_body (fun st => process_operator_fee ex_pk k 95 4000 (2, 1) [(3, 1); (2, 1); (3, 1)] st)) ex_st with
  | None => False
  | Some st' => lbal (t_acc st') 7 "WICC" BFree = 4 /\ lbal (t_acc st') 9 "WICC" BFree = 57 /\
      lbal (t_acc st') 8 "WICC" BFree = 38
  end.
Proof. vm_compute. repeat split. Qed.

(** ** C45: permissions are sets *)

Theorem c45_account_check_is_subset :
  forall p r, check_perms p r = true <-> forall i, N.testbit r i = true -> N.testbit p i = true.
Proof. exact check_perms_ok. Qed.
Print Assumptions c45_account_check_is_subset.

Theorem c45_asset_check_is_subset :
  forall p r, asset_has_perms p r = true <-> forall i, N.testbit r i = true -> N.testbit p i = true.
Proof. exact asset_perms_ok. Qed.
Print Assumptions c45_asset_check_is_subset.

(** Clearing leaves no right at all and granting by proposal gives exactly the proposed
    rights, of which there is at least one and none beyond the ten defined ones; neither
    touches anything else of the account. *)
Theorem c45_clear_and_grant :
  forall a,
  (forall i, N.testbit (a_perms (clear_perms a)) i = false) /\
  (forall p a', propose_perms a p = Some a' ->
     (forall i, N.testbit (a_perms a') i = N.testbit p i) /\
     (exists i, N.testbit (a_perms a') i = true) /\
     a_keyid a' = a_keyid a /\ a_regid a' = a_regid a /\ a_pubkey a' = a_pubkey a /\
     a_tokens a' = a_tokens a) /\
  a_keyid (clear_perms a) = a_keyid a /\ a_regid (clear_perms a) = a_regid a /\
  a_pubkey (clear_perms a) = a_pubkey a /\ a_tokens (clear_perms a) = a_tokens a.
Proof.
  intros a. split; [intros i; apply N.bits_0|]. split; [|repeat split].
  intros p a'. unfold propose_perms. destruct (p =? 0) eqn:E0; [discriminate|].
  destruct (all_perms <? p) eqn:E1; [discriminate|]. simpl. intros H; inversion H; subst; simpl.
  split; [auto|]. split.
  - exists (N.log2 p). apply N.bit_log2. apply N.eqb_neq; auto.
  - repeat split.
Qed.
Print Assumptions c45_clear_and_grant.

(** Every non-empty 64-bit set can be granted: the range check of the proposal refuses only the
    empty set. *)
Theorem c45_only_empty_grant_refused :
  forall a p, p < 2 ^ 64 -> (propose_perms a p = None <-> p = 0).
Proof.
  intros a p Hp. unfold propose_perms. change (2 ^ 64) with two64 in Hp.
  assert (E : (all_perms <? p) = false) by (apply N.ltb_ge; unfold all_perms; lia). rewrite E.
  destruct (p =? 0) eqn:E0; cbn [orb].
  - apply N.eqb_eq in E0. tauto.
  - apply N.eqb_neq in E0. split; [discriminate | congruence].
Qed.
Print Assumptions c45_only_empty_grant_refused.

(** So it is not true that only the ten defined permissions can be granted. *)
Theorem c45_only_defined_grants_refuted :
  exists a p a' i, p < 2 ^ 64 /\ propose_perms a p = Some a' /\
    N.testbit (a_perms a') i = true /\ 10 <= i.
Proof.
  exists (new_account 7), 1024. eexists. exists 10. split; [reflexivity|].
  split; [reflexivity|]. split; [reflexivity | discriminate].
Qed.
Print Assumptions c45_only_defined_grants_refuted.

Example c45_example :
  check_perms 1023 (PERM_DEX + PERM_CDP) = true /\ check_perms (1023 - PERM_DEX) (PERM_DEX + PERM_CDP) = false /\
  asset_has_perms 7 5 = true /\ asset_has_perms 6 5 = false /\
  match propose_perms (exacc 7 token0) 5 with Some a => a_perms a = 5 | None => False end.
Proof. vm_compute. auto. Qed.

(** ** C49: who may send what *)

(** A user transaction that passes the base check was signed, from the stable-coin release
    on, by a key that hashes to the account's key id; and if its type is in the permission
    table the account holds the right. *)
Theorem c49_accepted_is_signed_and_permitted :
  forall (pk_keyid : N -> N) (sig_ok : N -> bool) fee_ok fork ty u st,
  consistent pk_keyid (t_acc st) (t_reg st) ->
  existsb (N.eqb ty) [1; 17; 12; 13; 24] = false ->
  check_base pk_keyid sig_ok fee_ok fork ty u st = true ->
  exists k a, denotes pk_keyid (t_reg st) u = Some k /\ l_get (t_acc st) k = Some a /\
    (2 <= fork -> exists p, pk_keyid p = k /\ sig_ok p = true) /\
    (2 <= fork -> is_pub u = false -> a_perms a <> 0 /\ regid_empty (a_regid a) = false) /\
    (forall p, fget N.eqb tx_perm_map ty = Some p -> N.land (a_perms a) p <> 0).
Proof. exact check_base_inv. Qed.
Print Assumptions c49_accepted_is_signed_and_permitted.

(** The table itself: each right is a single bit, and each listed type needs exactly it. *)
Theorem c49_right_is_one_bit :
  forall ty p, In (ty, p) tx_perm_map -> exists i, i < 10 /\ p = 2 ^ i /\
    forall perms, N.land perms p = 0 <-> N.testbit perms i = false.
Proof.
  assert (B : forall i perms, N.land perms (2 ^ i) = 0 <-> N.testbit perms i = false).
  { intros i perms. pose proof (land_bit perms i) as H.
    destruct (N.testbit perms i); simpl in H; [apply N.eqb_neq in H | apply N.eqb_eq in H];
      split; intros; congruence. }
  intros ty p H. unfold tx_perm_map in H.
  assert (E : exists i, i < 10 /\ p = 2 ^ i).
  { simpl in H.
    repeat (destruct H as [H|H];
      [inversion H; subst; first
        [ exists 0; split; reflexivity | exists 1; split; reflexivity | exists 2; split; reflexivity
        | exists 3; split; reflexivity | exists 4; split; reflexivity | exists 5; split; reflexivity
        | exists 6; split; reflexivity | exists 7; split; reflexivity | exists 8; split; reflexivity
        | exists 9; split; reflexivity ]|]).
    destruct H. }
  destruct E as (i & Hi & ->). exists i. split; auto.
Qed.
Print Assumptions c49_right_is_one_bit.

(** "An account that gave up all its permissions can send nothing": false. Through a public
    key as sender id, types missing from the table still pass (asset update, type 10). *)
Theorem c49_cleared_account_refuted :
  exists st u k a, consistent ex_pk (t_acc st) (t_reg st) /\
    denotes ex_pk (t_reg st) u = Some k /\ l_get (t_acc st) k = Some a /\ a_perms a = 0 /\
    check_base ex_pk (fun p => p =? 7) true 3 UIA_UPDATE_TX u st = true.
Proof.
  set (a := clear_perms (mkAccount 7 (3, 1) (Some 7) [("WICC"%string, mkToken 100 0 0 0 0)] 0 0 0 all_perms)).
  exists (mkTx [(7, a)] [((3, 1), 7)] [] None []), (UPub 7), 7, a.
  split; [|vm_compute; auto].
  split; [split; [nodup|]|];
    intros k a0 H; unfold l_get in H; simpl in H;
    (destruct (k =? 7) eqn:E1; [apply N.eqb_eq in E1; inversion H; subst; simpl; repeat split; intros; unfold ex_pk; first [discriminate | reflexivity | congruence]|discriminate]).
Qed.
Print Assumptions c49_cleared_account_refuted.

Example c49_example :
  check_base ex_pk (fun p => p =? 8) true 3 UCOIN_TRANSFER_TX (UReg (3, 1)) ex_st = true /\
  check_base ex_pk (fun p => p =? 7) true 3 UCOIN_TRANSFER_TX (UReg (3, 1)) ex_st = false /\
  check_base ex_pk (fun p => p =? 7) true 3 UCOIN_TRANSFER_TX (UKey 7) ex_st = false.
Proof. vm_compute. auto. Qed.

(** ** C50: one coherent copy of each account *)

(** However a transaction names the accounts it works on, the ledger it leaves behind is the
    one obtained by applying its operations one after the other directly to the ledger; it
    fails exactly when one of them fails there, and then leaves nothing. *)
Theorem c50_transaction_acts_on_ledger :
  forall (pk_keyid : N -> N) e u fs fee rs st,
  consistent pk_keyid (t_acc st) (t_reg st) -> NoDup (map fst (t_orders st)) ->
  fget regid_eqb (t_reg st) (e_height e, e_index e) = None ->
  match execute_full pk_keyid e u fs fee (fun _ => exec_ops pk_keyid (as_ops rs)) st,
        run_tx pk_keyid (e_height e) (e_index e) u fs fee rs (t_reg st) (t_acc st) with
  | Some st', Some L => forall k, l_get (t_acc st') k = l_get L k
  | None, None => True
  | _, _ => False
  end.
Proof.
  intros pk e u fs fee rs st C No Hfr.
  pose proof (ops_tx_ledger pk e u fs fee rs st C No Hfr) as H.
  destruct (execute_full _ _ _ _ _ _ _); simpl in H; exact H.
Qed.
Print Assumptions c50_transaction_acts_on_ledger.

Example c50_example :
  match execute_full ex_pk ex_env (UKey 8) "WICC" 2 (fun _ => exec_ops ex_pk
     (as_ops [mkU (UReg (3, 1)) "WICC" SubFree 3 (Some (UKey 7)); mkU (UPub 7) "WICC" SubFree 50 (Some (UKey 8))]))
     (mkTx (l_put (t_acc ex_st) 8 (mkAccount 8 (3, 1) (Some 8) [("WICC"%string, mkToken 10 0 0 0 0)] 0 0 0 all_perms))
        (t_reg ex_st) [] None []) with
  | Some st' => lbal (t_acc st') 8 "WICC" BFree = 55 /\ lbal (t_acc st') 7 "WICC" BFree = 53
  | None => False
  end.
Proof. vm_compute. auto. Qed.

(** A sender not yet registered names itself by public key, then by the new registration id. *)
Example c50_example_register :
  match execute_full ex_pk ex_env (UPub 7) "WICC" 0 (fun _ => exec_ops ex_pk
     (as_ops [mkU (UReg (50, 4)) "WICC" SubFree 30 (Some (UKey 8)); mkU (UKey 7) "WICC" Freeze 20 None])) ex_st with
  | Some st' => lbal (t_acc st') 7 "WICC" BFree = 50 /\ lbal (t_acc st') 7 "WICC" BFrozen = 20 /\
      lbal (t_acc st') 8 "WICC" BFree = 30
  | None => False
  end.
Proof. vm_compute. auto. Qed.
