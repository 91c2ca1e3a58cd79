(** C99: a node that is stopped at any moment and started again has the state of the chain it then follows.
    True outside [Flush], false amid it. *)
From Coq Require Import List Bool NArith Lia.
From Verif Require Import CrashModel CrashSpec CrashProofs.
Import ListNotations.
Local Open Scope N_scope.

(** ** The blocks of the examples *)

(** Account 1 pays 10 to account 2; refused without the coins. *)
Definition pay : prog :=
  Get KEYID_ACCOUNT 1 (fun a => match a with
    | Some a => if a <? 10 then Refuse
                else Put KEYID_ACCOUNT 1 (Some (a - 10))
                  (Get KEYID_ACCOUNT 2 (fun b =>
                     Put KEYID_ACCOUNT 2 (Some (match b with Some b => b + 10 | None => 10 end)) Through))
    | None => Refuse
    end).

(** Output 7 is spent, and its 5 coins go to account 1; refused if it is spent already. *)
Definition spend : prog :=
  Get TX_UTXO 7 (fun o => match o with
    | Some _ => Put TX_UTXO 7 None
                  (Get KEYID_ACCOUNT 1 (fun a =>
                     Put KEYID_ACCOUNT 1 (Some (match a with Some a => a + 5 | None => 5 end)) Through))
    | None => Refuse
    end).

(** Block 100 is the genesis block; 101 pays, 102 after it spends, and 103 after that spends again. *)
Definition ex_tree (h : N) : option (N * prog) :=
  if h =? 101 then Some (100, pay)
  else if h =? 102 then Some (101, spend)
  else if h =? 103 then Some (102, spend)
  else None.

Definition ex_init : view :=
  fun t k => if (t =? KEYID_ACCOUNT) && (k =? 1) then Some 100
             else if (t =? TX_UTXO) && (k =? 7) then Some 1 else None.

Lemma ex_ok : blocks_ok ex_tree 100.
Proof.
  split; [reflexivity|]. intros h prev p. unfold ex_tree.
  destruct (h =? 101); [|destruct (h =? 102); [|destruct (h =? 103); [|discriminate]]];
    intros H; injection H as <- <-; cbn [pay spend writes_state].
  - intros [a|]; [|exact I]. destruct (a <? 10); [exact I|]. cbn [writes_state].
    split; [vm_compute; tauto|]. intros b. split; [vm_compute; tauto|exact I].
  - intros [a|]; [|exact I]. split; [vm_compute; tauto|]. intros b. split; [vm_compute; tauto|exact I].
  - intros [a|]; [|exact I]. split; [vm_compute; tauto|]. intros b. split; [vm_compute; tauto|exact I].
Qed.

Definition after (es : list event) : option node :=
  match history ex_tree 100 (fresh 100 ex_init) es with Next n => Some n | _ => None end.
Definition reads (es : list event) (t k : N) : option (option N) :=
  match after es with Some n => Some (sees n t k) | None => None end.
Definition tip_after (es : list event) : option N :=
  match after es with Some n => Some (tip n) | None => None end.

(** ** Outside a flush *)

(** Whatever blocks are connected and disconnected, whenever the state is written to disk and whenever
    the process dies outside of that, the tables are in line with the chain that the node follows. *)
Theorem c99_in_line tree genesis init es n :
  blocks_ok tree genesis -> Forall outside_flush es ->
  history tree genesis (fresh genesis init) es = Next n ->
  in_line tree genesis init n /\ best (sees n) = tip n.
Proof.
  intros Ho Hf H. pose proof (history_good tree genesis init Ho es _ _ (fresh_good tree genesis init) Hf H) as G.
  split; [apply G|]. eapply cs_best. apply G.
Qed.
Print Assumptions c99_in_line.

Example c99_in_line_example :
  reads [EConnect 101; EFlush; EConnect 102; ECrash] KEYID_ACCOUNT 1 = Some (Some 90) /\
  reads [EConnect 101; EFlush; EConnect 102; ECrash; EConnect 102] KEYID_ACCOUNT 1 = Some (Some 95) /\
  reads [EConnect 101; EFlush; EConnect 102; EDisconnect; EDisconnect] KEYID_ACCOUNT 1 = Some (Some 100) /\
  tip_after [EConnect 101; EFlush; EConnect 102; ECrash] = Some 101.
Proof. vm_compute. auto. Qed.

(** After a crash outside a flush the node is where it was when it last wrote its state. *)
Theorem c99_last_flush tree genesis init es n0 es' n n' :
  blocks_ok tree genesis -> Forall outside_flush es ->
  history tree genesis (fresh genesis init) es = Next n0 ->
  Forall (fun e => match e with EConnect _ | EDisconnect => True | _ => False end) es' ->
  history tree genesis n0 (EFlush :: es') = Next n ->
  happens tree genesis n ECrash = Next n' ->
  tip n' = tip n0 /\ same (sees n') (sees n0).
Proof.
  intros Ho Hf H He H1 H2.
  pose proof (history_good tree genesis init Ho es _ _ (fresh_good tree genesis init) Hf H) as G.
  cbn [history happens] in H1.
  assert (D : disk n = disk (flush n0)).
  { clear H2. revert n H1. generalize (flush n0). induction He as [|e es' Hx He IH]; intros m n H1; cbn [history] in H1.
    - now injection H1 as <-.
    - destruct (happens tree genesis m e) as [| |m1] eqn:E; try discriminate. rewrite (IH _ _ H1).
      destruct e; cbn in E; try contradiction.
      + unfold connect in E. destruct (tree h) as [[prev p]|]; [|now injection E as <-].
        destruct (negb (prev =? tip m)); [now injection E as <-|].
        destruct (negb (prev =? best (sees m))); [discriminate|].
        destruct (execute p (sees m) nothing []) as [[x u]|]; now injection E as <-.
      + unfold disconnect in E. destruct (tree (tip m)) as [[prev p]|]; [|now injection E as <-].
        destruct (disconnect_block _ _ _ _ _) as [[x|]|]; try discriminate; now injection E as <-. }
  cbn [happens] in H2. unfold restart in H2. destruct (_ || _); [|discriminate]. injection H2 as <-.
  assert (S : same (disk n) (sees n0)).
  { rewrite D. apply flushed_all. apply G. }
  split; cbn [tip].
  - rewrite (best_same _ _ S). eapply cs_best. apply G.
  - intros t k. unfold sees at 1, over. cbn. apply S.
Qed.
Print Assumptions c99_last_flush.

Example c99_last_flush_example :
  reads [EConnect 101] KEYID_ACCOUNT 2 = Some (Some 10) /\
  reads [EConnect 101; EFlush; EConnect 102; ECrash] KEYID_ACCOUNT 2 = Some (Some 10) /\
  reads [EConnect 101; ECrash] KEYID_ACCOUNT 2 = Some None.
Proof. vm_compute. auto. Qed.

(** Neither a failed assertion nor a refusal to start comes of any history, with crashes at any moment. *)
Theorem c99_goes_on tree genesis init es :
  blocks_ok tree genesis -> exists n, history tree genesis (fresh genesis init) es = Next n.
Proof.
  intros Ho. destruct (history_sound tree genesis Ho es _ (fresh_sound tree genesis init)) as (n & H & _). eauto.
Qed.
Print Assumptions c99_goes_on.

Example c99_goes_on_example :
  tip_after [EConnect 101; ECrashIn 7; EConnect 101; EConnect 102; EDisconnect; ECrashIn 40] = Some 101.
Proof. vm_compute. reflexivity. Qed.

(** ** Amid a flush *)

(** The statement is false for crashes amid a flush. The accounts are written before the best block is:
    the node starts again with the block before, connects the paying block a second time and debits the payer twice. The
    check of the database at start finds nothing. *)
Theorem c99_paid_twice_refuted : exists tree genesis init es n,
  blocks_ok tree genesis /\ history tree genesis (fresh genesis init) es = Next n /\
  (forall depth, verify tree depth n = Some true) /\
  sees n KEYID_ACCOUNT 1 = Some 80 /\ sees n KEYID_ACCOUNT 2 = Some 20 /\
  (forall v, chain_state tree genesis init (tip n) v ->
     v KEYID_ACCOUNT 1 = Some 90 /\ v KEYID_ACCOUNT 2 = Some 10) /\
  ~ in_line tree genesis init n.
Proof.
  destruct (history_sound ex_tree 100 ex_ok [EConnect 101; ECrashIn 7; EConnect 101] _ (fresh_sound ex_tree 100 ex_init))
    as (n & H & S).
  exists ex_tree, 100, ex_init, [EConnect 101; ECrashIn 7; EConnect 101], n.
  assert (A : after [EConnect 101; ECrashIn 7; EConnect 101] = Some n) by (unfold after; now rewrite H).
  assert (R : forall t k, reads [EConnect 101; ECrashIn 7; EConnect 101] t k = Some (sees n t k)).
  { intros t k. unfold reads. now rewrite A. }
  assert (T : tip n = 101).
  { assert (X : tip_after [EConnect 101; ECrashIn 7; EConnect 101] = Some (tip n)) by (unfold tip_after; now rewrite A).
    change (tip_after [EConnect 101; ECrashIn 7; EConnect 101]) with (Some 101) in X. congruence. }
  assert (R1 : sees n KEYID_ACCOUNT 1 = Some 80).
  { pose proof (R KEYID_ACCOUNT 1) as X.
    change (reads [EConnect 101; ECrashIn 7; EConnect 101] KEYID_ACCOUNT 1) with (Some (Some 80)) in X. congruence. }
  assert (R2 : sees n KEYID_ACCOUNT 2 = Some 20).
  { pose proof (R KEYID_ACCOUNT 2) as X.
    change (reads [EConnect 101; ECrashIn 7; EConnect 101] KEYID_ACCOUNT 2) with (Some (Some 20)) in X. congruence. }
  assert (C : forall v, chain_state ex_tree 100 ex_init (tip n) v ->
     v KEYID_ACCOUNT 1 = Some 90 /\ v KEYID_ACCOUNT 2 = Some 10).
  { rewrite T. intros v Hv.
    destruct (after [EConnect 101]) as [g|] eqn:E; [|vm_compute in E; discriminate].
    assert (Hg : history ex_tree 100 (fresh 100 ex_init) [EConnect 101] = Next g).
    { unfold after in E. destruct (history ex_tree 100 (fresh 100 ex_init) [EConnect 101]); congruence. }
    assert (Hf : Forall outside_flush [EConnect 101]) by (repeat constructor).
    destruct (c99_in_line _ _ _ _ _ ex_ok Hf Hg) as [L _]. unfold in_line in L.
    assert (Tg : tip g = 101).
    { assert (X : tip_after [EConnect 101] = Some (tip g)) by (unfold tip_after; now rewrite E).
      change (tip_after [EConnect 101]) with (Some 101) in X. congruence. }
    rewrite Tg in L. pose proof (cs_det _ _ _ ex_ok _ _ Hv _ L) as D. rewrite !D.
    assert (X : forall t k, reads [EConnect 101] t k = Some (sees g t k)) by (intros; unfold reads; now rewrite E).
    pose proof (X KEYID_ACCOUNT 1) as X1. pose proof (X KEYID_ACCOUNT 2) as X2.
    change (reads [EConnect 101] KEYID_ACCOUNT 1) with (Some (Some 90)) in X1.
    change (reads [EConnect 101] KEYID_ACCOUNT 2) with (Some (Some 10)) in X2.
    split; congruence. }
  split; [exact ex_ok|]. split; [exact H|]. split.
  { intros depth. destruct S as [S1 S2 S3]. apply (verify_sound ex_tree 100 ex_ok); [exact S2|exact S1]. }
  split; [exact R1|]. split; [exact R2|]. split; [exact C|].
  intros L. destruct (C _ L) as [L1 _]. congruence.
Qed.
Print Assumptions c99_paid_twice_refuted.

(** The unspent outputs are written after the best block is: the node starts again with the spending
    block as its tip while the output is still unspent, and accepts a block that spends it again, which every other
    node refuses. *)
Theorem c99_spent_twice_refuted : exists tree genesis init es n h prev p,
  blocks_ok tree genesis /\ history tree genesis (fresh genesis init) es = Next n /\
  (forall depth, verify tree depth n = Some true) /\
  tip n = h /\ tree h = Some (prev, p) /\
  (forall v, chain_state tree genesis init prev v -> effect p v = None) /\
  (forall v, ~ chain_state tree genesis init h v).
Proof.
  pose (es := [EConnect 101; EConnect 102; ECrashIn 36; EConnect 103]).
  destruct (history_sound ex_tree 100 ex_ok es _ (fresh_sound ex_tree 100 ex_init)) as (n & H & S).
  exists ex_tree, 100, ex_init, es, n, 103, 102, spend.
  assert (A : after es = Some n) by (unfold after; now rewrite H).
  assert (T : tip n = 103).
  { assert (X : tip_after es = Some (tip n)) by (unfold tip_after; now rewrite A).
    change (tip_after es) with (Some 103) in X. congruence. }
  assert (C : forall v, chain_state ex_tree 100 ex_init 102 v -> effect spend v = None).
  { intros v Hv. destruct (after [EConnect 101; EConnect 102]) as [g|] eqn:E; [|vm_compute in E; discriminate].
    assert (Hg : history ex_tree 100 (fresh 100 ex_init) [EConnect 101; EConnect 102] = Next g).
    { unfold after in E. destruct (history ex_tree 100 (fresh 100 ex_init) [EConnect 101; EConnect 102]); congruence. }
    assert (Hf : Forall outside_flush [EConnect 101; EConnect 102]) by (repeat constructor).
    destruct (c99_in_line _ _ _ _ _ ex_ok Hf Hg) as [L _]. unfold in_line in L.
    assert (Tg : tip g = 102).
    { assert (X : tip_after [EConnect 101; EConnect 102] = Some (tip g)) by (unfold tip_after; now rewrite E).
      change (tip_after [EConnect 101; EConnect 102]) with (Some 102) in X. congruence. }
    rewrite Tg in L. pose proof (cs_det _ _ _ ex_ok _ _ Hv _ L) as D.
    assert (X : reads [EConnect 101; EConnect 102] TX_UTXO 7 = Some (sees g TX_UTXO 7)) by (unfold reads; now rewrite E).
    change (reads [EConnect 101; EConnect 102] TX_UTXO 7) with (Some (@None N)) in X.
    cbn [effect spend]. rewrite D. injection X as <-. reflexivity. }
  split; [exact ex_ok|]. split; [exact H|]. split.
  { intros depth. destruct S as [S1 S2 S3]. apply (verify_sound ex_tree 100 ex_ok); [exact S2|exact S1]. }
  split; [exact T|]. split; [reflexivity|]. split; [exact C|].
  intros v Hv. inversion Hv as [|h prev p v0 v1 v' Ht Hc He Hs]; subst.
  change (ex_tree 103) with (Some (102, spend)) in Ht. injection Ht as <- <-. rewrite (C _ Hc) in He. discriminate.
Qed.
Print Assumptions c99_spent_twice_refuted.

(** What a crash amid a flush leaves is in line exactly if the tables on one side of the interruption
    were the same on disk and in memory. *)
Theorem c99_harmless_iff tree genesis init es n k n' :
  blocks_ok tree genesis -> Forall outside_flush es ->
  history tree genesis (fresh genesis init) es = Next n ->
  happens tree genesis n (ECrashIn k) = Next n' ->
  (in_line tree genesis init n' <->
   (tip n' = tip n /\ forall t k', ~ In t (firstn k flush_order) -> disk n t k' = sees n t k') \/
   (tip n' = best (disk n) /\ forall t k', In t (firstn k flush_order) -> disk n t k' = sees n t k')).
Proof.
  intros Ho Hf H H1. apply in_line_iff; auto.
  eapply history_good; eauto. apply fresh_good.
Qed.
Print Assumptions c99_harmless_iff.

Example c99_harmless_example :
  (** payments only, and the crash comes after the best block *)
  reads [EConnect 101; ECrashIn 36] KEYID_ACCOUNT 1 = Some (Some 90) /\
  tip_after [EConnect 101; ECrashIn 36] = Some 101 /\
  (** or before the accounts *)
  reads [EConnect 101; ECrashIn 6] KEYID_ACCOUNT 1 = Some (Some 100) /\
  tip_after [EConnect 101; ECrashIn 6] = Some 100 /\
  (** or between *)
  reads [EConnect 101; ECrashIn 20] KEYID_ACCOUNT 1 = Some (Some 90) /\
  tip_after [EConnect 101; ECrashIn 20] = Some 100.
Proof. vm_compute. repeat split. Qed.

(** Which tables can be off, and in which direction. Each table is wholly new or wholly old. If the
    node starts with a tip other than the last one written, parameters, accounts, assets, contracts,
    delegates, CDPs and orders are those of the new tip; if it starts with a tip other than
    the newest, receipts, governance, outputs, swaps and prices are those of the last one written. *)
Theorem c99_extent tree genesis init es n k n' :
  blocks_ok tree genesis -> Forall outside_flush es ->
  history tree genesis (fresh genesis init) es = Next n ->
  happens tree genesis n (ECrashIn k) = Next n' ->
  (tip n' = tip n \/ tip n' = best (disk n)) /\
  chain_state tree genesis init (tip n) (sees n) /\ chain_state tree genesis init (best (disk n)) (disk n) /\
  (forall t, (forall k', sees n' t k' = sees n t k') \/ (forall k', sees n' t k' = disk n t k')) /\
  (tip n' <> best (disk n) ->
   forall t, In t (parameter_tables ++ account_tables ++ asset_tables ++ contract_tables ++ delegate_tables
                   ++ cdp_tables ++ dex_tables ++ [TXID_DISKINDEX]) ->
   forall k', sees n' t k' = sees n t k') /\
  (tip n' <> tip n ->
   forall t, In t (receipt_tables ++ govern_tables ++ utxo_tables ++ price_tables ++ [AXC_SWAP_IN; BLOCK_INFLATED_REWARD]) ->
   forall k', sees n' t k' = disk n t k').
Proof.
  intros Ho Hf H H1.
  assert (G : good tree genesis init n) by (eapply history_good; eauto; apply fresh_good).
  destruct (crash_in _ _ _ _ _ H1) as (_ & Hs & Ht).
  destruct G as [G1 [h G2] G3 G4]. pose proof (cs_best _ _ _ _ _ G1) as B1. pose proof (cs_best _ _ _ _ _ G2) as B2.
  assert (P : forall j, existsb (N.eqb BEST_BLOCKHASH) (firstn j flush_order) = true ->
     forall t, In t (parameter_tables ++ account_tables ++ asset_tables ++ contract_tables ++ delegate_tables
                   ++ cdp_tables ++ dex_tables ++ [TXID_DISKINDEX]) -> existsb (N.eqb t) (firstn j flush_order) = true).
  { intros j Hj t Hin.
    assert (X : forallb (fun j => implb (existsb (N.eqb BEST_BLOCKHASH) (firstn j flush_order))
       (forallb (fun t => existsb (N.eqb t) (firstn j flush_order))
          (parameter_tables ++ account_tables ++ asset_tables ++ contract_tables ++ delegate_tables
                   ++ cdp_tables ++ dex_tables ++ [TXID_DISKINDEX]))) (seq 0 52) = true) by (vm_compute; reflexivity).
    rewrite forallb_forall in X.
    assert (E : firstn j flush_order = firstn (Nat.min j 51) flush_order).
    { destruct (PeanoNat.Nat.le_gt_cases j 51) as [l|l].
      - now rewrite PeanoNat.Nat.min_l.
      - rewrite PeanoNat.Nat.min_r by lia. rewrite !firstn_all2; [reflexivity| |]; cbn; lia. }
    rewrite E in Hj |- *. specialize (X (Nat.min j 51)). rewrite Hj in X.
    rewrite in_seq in X. assert (Y : (0 <= Nat.min j 51 < 0 + 52)%nat) by lia. specialize (X Y).
    cbn [implb] in X. rewrite forallb_forall in X. now apply X. }
  assert (Q : forall j, existsb (N.eqb BEST_BLOCKHASH) (firstn j flush_order) = false ->
     forall t, In t (receipt_tables ++ govern_tables ++ utxo_tables ++ price_tables ++ [AXC_SWAP_IN; BLOCK_INFLATED_REWARD]) ->
     existsb (N.eqb t) (firstn j flush_order) = false).
  { intros j Hj t Hin.
    assert (X : forallb (fun j => implb (negb (existsb (N.eqb BEST_BLOCKHASH) (firstn j flush_order)))
       (forallb (fun t => negb (existsb (N.eqb t) (firstn j flush_order)))
          (receipt_tables ++ govern_tables ++ utxo_tables ++ price_tables ++ [AXC_SWAP_IN; BLOCK_INFLATED_REWARD]))) (seq 0 52) = true)
      by (vm_compute; reflexivity).
    rewrite forallb_forall in X.
    assert (E : firstn j flush_order = firstn (Nat.min j 51) flush_order).
    { destruct (PeanoNat.Nat.le_gt_cases j 51) as [l|l].
      - now rewrite PeanoNat.Nat.min_l.
      - rewrite PeanoNat.Nat.min_r by lia. rewrite !firstn_all2; [reflexivity| |]; cbn; lia. }
    rewrite E in Hj |- *. specialize (X (Nat.min j 51)). rewrite Hj in X.
    rewrite in_seq in X. assert (Y : (0 <= Nat.min j 51 < 0 + 52)%nat) by lia. specialize (X Y).
    cbn [implb negb] in X. rewrite forallb_forall in X. apply negb_true_iff. now apply X. }
  split.
  { rewrite Ht. destruct (flushed_best k n) as [-> | ->]; [left; exact B1|now right]. }
  split; [exact G1|]. split; [rewrite B2; exact G2|]. split.
  { intros t. destruct (existsb (N.eqb t) (firstn k flush_order)) eqn:E; [left|right];
      intros k'; rewrite (Hs t k'); unfold flushed; now rewrite E. }
  split; intros Hne t Hin k'; rewrite (Hs t k'); unfold flushed.
  - rewrite (P k); [reflexivity| |exact Hin].
    destruct (existsb (N.eqb BEST_BLOCKHASH) (firstn k flush_order)) eqn:E; [reflexivity|].
    elim Hne. rewrite Ht. unfold best, flushed. now rewrite E.
  - rewrite (Q k); [reflexivity| |exact Hin].
    destruct (existsb (N.eqb BEST_BLOCKHASH) (firstn k flush_order)) eqn:E; [|reflexivity].
    elim Hne. rewrite Ht, <- B1. unfold best, flushed. now rewrite E.
Qed.
Print Assumptions c99_extent.

Example c99_extent_example :
  tip_after [EConnect 101; EConnect 102; ECrashIn 36] = Some 102 /\
  reads [EConnect 101; EConnect 102; ECrashIn 36] KEYID_ACCOUNT 1 = Some (Some 95) /\
  reads [EConnect 101; EConnect 102; ECrashIn 36] TX_UTXO 7 = Some (Some 1) /\
  reads [EConnect 101; EConnect 102] TX_UTXO 7 = Some None.
Proof. vm_compute. repeat split. Qed.

(** The check of the database at start accepts every state that any history of crashes leaves, in line
    or not. *)
Theorem c99_check_accepts tree genesis init es n depth :
  blocks_ok tree genesis -> history tree genesis (fresh genesis init) es = Next n ->
  verify tree depth n = Some true.
Proof.
  intros Ho H. destruct (history_sound tree genesis Ho es _ (fresh_sound tree genesis init)) as (n1 & H1 & S).
  rewrite H in H1. injection H1 as <-. destruct S as [S1 S2 S3].
  apply (verify_sound tree genesis Ho); [exact S2|exact S1].
Qed.
Print Assumptions c99_check_accepts.

Example c99_check_example :
  match after [EConnect 101; EConnect 102; EFlush; ECrashIn 3] with Some n => verify ex_tree 288 n | None => None end
  = Some true /\
  (** without undo data it does not accept *)
  match after [EConnect 101; EFlush] with
  | Some n => verify ex_tree 288 (mkNode (disk n) (mem n) (tip n) (fun _ => None))
  | None => None
  end = Some false.
Proof. vm_compute. split; reflexivity. Qed.
