(** Calls of Lua contracts: what they can do to accounts and to the books of a contract
    (C80-C84). *)
From Coq Require Import String List Bool NArith ZArith Lia.
From Coq Require Import ZifyBool ZifyNat ZifyN.
From Verif Require Import Prelude PreludeFacts AccountModel AccountSpec AccountProofs TxModel TxSpec
  TxProofs DexModel LuaModel LuaSpec LuaProofs LuaTx LuaApps LuaVerdict LuaRun.
Import ListNotations.
Open Scope N_scope.
Ltac Zify.zify_post_hook ::= Z.div_mod_to_equations.

(** A state between transactions: what is stored is consistent, nothing is stored for the
    empty key id, no token's supply reaches 2^64. *)
Definition at_rest (pk_keyid : N -> N) (st : txst) : Prop :=
  consistent pk_keyid (t_acc st) (t_reg st) /\ NoDup (map fst (t_orders st)) /\
  l_get (t_acc st) 0 = None /\ (forall s, supply (t_acc st) s < two64).

(** *** The concrete case: three registered accounts, the second is the contract *)

Definition lx_pk (p : N) : N := p.
Definition lx_addr (k : N) : list N := repeat k 34.
Definition lx_key (l : list N) : N := match l with k :: _ => k | [] => 0 end.
Definition lx_account (k wicc : N) : account :=
  mkAccount k (k, 1) (Some k) [("WICC"%string, mkToken wicc 0 0 0 0)] 0 0 0 all_perms.
Definition lx_st : txst :=
  mkTx [(7, lx_account 7 1000); (8, lx_account 8 500); (9, lx_account 9 0)]
       [((7, 1), 7); ((8, 1), 8); ((9, 1), 9)] [] None [].
Definition lx_env (v : N) (tip : Z) (amount : N) : lenv :=
  mkLenv v 100 tip "WICC" amount true (fun s => String.eqb s "WICC").
Definition lx_invoke : invoke := mkInvoke (UReg (7, 1)) "WICC" 10 (8, 1) false 0 (9, 1).
(** The contract's books: the sender has 40 free and 60 frozen until height 90, the third
    account 30 frozen until height 200. *)
Definition lx_books : list (list N * appacct) :=
  [(lx_addr 7, mkApp 40 [mkFund 60 90 [1]]); (lx_addr 9, mkApp 0 [mkFund 30 200 []])].
Definition lx_run (v : N) (tip : Z) (amount : N) (check : bool) (cs : list call) :=
  invoke_tx lx_pk lx_addr lx_key 50 3 (lx_env v tip amount) lx_invoke (mkScript cs true check)
    lx_books lx_st.
Definition lx_op (ty h : N) (money : Z) (user : N) : appop :=
  mkOp ty h money (lx_addr user) 0 [].
Definition lx_bal (k : N) (x : outcome (txst * list (list N * appacct))) : option N :=
  match x with Done (st, _) => Some (lbal (t_acc st) k "WICC" BFree) | _ => None end.
Definition lx_owed (x : outcome (txst * list (list N * appacct))) : option N :=
  match x with Done (_, P) => Some (owed P) | _ => None end.

Lemma lx_rest : at_rest lx_pk lx_st.
Proof.
  split; [|split; [constructor|split; [reflexivity|]]].
  - split.
    + split.
      * cbn. repeat constructor; simpl; intuition congruence.
      * intros k a. unfold l_get, lx_st. cbn [t_acc fget].
        repeat match goal with |- context [if ?b then _ else _] => destruct b eqn:? end; intros H; inversion H; subst; cbn; lia.
    + intros k a. unfold l_get, lx_st. cbn [t_acc fget].
      repeat match goal with |- context [if ?b then _ else _] => destruct b eqn:? end; intros H; inversion H; subst;
        (split; [intros p Hp; inversion Hp; cbn; unfold lx_pk; lia|intros _; cbn; f_equal; lia]).
  - intros s. unfold supply, lx_st. cbn [t_acc]. unfold two64.
    destruct (String.eqb s "WICC") eqn:E; [apply String.eqb_eq in E; subst s; reflexivity|].
    assert (E' : String.eqb "WICC" s = false) by (now rewrite String.eqb_sym).
    unfold msum, lx_account, holding, bal, get_token, a_tokens. cbn [map fold_right fget snd nsum]. rewrite E. reflexivity.
Qed.

(** *** C80 *)

(** A call of a contract that is accepted creates no coins: besides the fee, the sum of all
    accounts does not grow (but for fuel paid in WUSD, which goes to the reserve). It stays
    the same if every payment asked for goes to a registration id or to text that is an
    address. *)
Theorem c80_call_supply : forall pk_keyid addr_of key_of h idx e i sc P st st' P',
  at_rest pk_keyid st -> fget regid_eqb (t_reg st) (h, idx) = None -> i_fuel i <= i_fee i ->
  invoke_tx pk_keyid addr_of key_of h idx e i sc P st = Done (st', P') ->
  consistent pk_keyid (t_acc st') (t_reg st') /\ l_get (t_acc st') 0 = None /\
  t_orders st' = t_orders st /\
  (forall s, supply (t_acc st') s + fee_in (i_fee_symbol i) (i_fee i) s <= supply (t_acc st) s + reserved i s) /\
  (forallb addressed (s_calls sc) = true -> forall s,
     supply (t_acc st') s + fee_in (i_fee_symbol i) (i_fee i) s = supply (t_acc st) s + reserved i s).
Proof.
  intros pk ad ky h idx e i sc P st st' P' (A & B & C & D) Hf Hu H.
  destruct (invoke_tx_ok pk ad ky h idx e i sc P st st' P' A B C D Hf Hu H) as (E1 & E2 & E3 & E4 & E5 & E6 & _). auto.
Qed.

(** Whose coins it can take: only free balances change; no account but the sender's and the
    contract's loses anything; if the script asks for no transfer out of the sender's account,
    the sender loses at most the fee and the amount sent along. *)
Theorem c80_call_victims : forall pk_keyid addr_of key_of h idx e i sc P st st' P',
  at_rest pk_keyid st -> fget regid_eqb (t_reg st) (h, idx) = None -> i_fuel i <= i_fee i ->
  invoke_tx pk_keyid addr_of key_of h idx e i sc P st = Done (st', P') ->
  exists k c, denotes pk_keyid (t_reg st) (i_uid i) = Some k /\
    denotes pk_keyid (t_reg st') (UReg (i_app i)) = Some c /\
    (forall k0 s b, b <> BFree -> lbal (t_acc st') k0 s b = lbal (t_acc st) k0 s b) /\
    (forall k0 s, k0 <> k -> k0 <> c -> lbal (t_acc st) k0 s BFree <= lbal (t_acc st') k0 s BFree) /\
    (existsb charges (s_calls sc) = false -> k <> c -> forall s,
       lbal (t_acc st) k s BFree <= lbal (t_acc st') k s BFree
         + fee_in (i_fee_symbol i) (i_fee i) s + fee_in (n_symbol e) (n_amount e) s).
Proof.
  intros pk ad ky h idx e i sc P st st' P' (A & B & C & D) Hf Hu H.
  destruct (invoke_tx_ok pk ad ky h idx e i sc P st st' P' A B C D Hf Hu H)
    as (_ & _ & _ & _ & _ & _ & k & c & F1 & F2 & F3 & F4 & F5 & _).
  exists k, c. auto.
Qed.

(** The sender sends 100 along; the script pays 250 of the contract's 600 to the third
    account and sends 5 of its own to the sender. *)
Definition lx_pays : list call :=
  [WriteOutput (mkOut (TReg (8, 1)) 2 250); WriteOutput (mkOut (TAddr 9) 1 250);
   TransferAccountAssets [mkTransfer true (UReg (7, 1)) "WICC" 5]].
Example c80_example :
  at_rest lx_pk lx_st /\ fget regid_eqb (t_reg lx_st) (50, 3) = None /\
  i_fuel lx_invoke <= i_fee lx_invoke /\
  let r := lx_run 10003 99 100 false lx_pays in
  (lx_bal 7 r, lx_bal 8 r, lx_bal 9 r) = (Some 895, Some 345, Some 250) /\
  forallb addressed lx_pays = true /\ existsb charges lx_pays = false.
Proof. split; [exact lx_rest|]. split; [reflexivity|]. split; [discriminate|]. vm_compute. auto. Qed.

(** Without the condition on where payments go, coins are lost: a transfer to text that is no
    address is paid to the empty key id, whose account is never stored. *)
Theorem c80_transfer_to_nobody_refuted : exists cs,
  (lx_bal 7 (lx_run 10003 99 100 false cs), lx_bal 8 (lx_run 10003 99 100 false cs),
   lx_bal 9 (lx_run 10003 99 100 false cs)) = (Some 890, Some 400, Some 0).
Proof. exists [TransferAccountAssets [mkTransfer true (UKey 0) "WICC" 200]]. vm_compute. auto. Qed.

(** So is an output to text that is no address, up to the second of the fork versions. *)
Theorem c80_output_to_nobody_refuted : exists cs v, v <= ver_r2 /\
  (lx_bal 7 (lx_run v 99 100 false cs), lx_bal 8 (lx_run v 99 100 false cs),
   lx_bal 9 (lx_run v 99 100 false cs)) = (Some 890, Some 400, Some 0).
Proof.
  exists [WriteOutput (mkOut (TReg (8, 1)) 2 200); WriteOutput (mkOut (TAddr 0) 1 200)], 10002.
  split; [discriminate|]. vm_compute. auto.
Qed.

(** The sender can lose more than the fee and the amount sent along: a script may take any of
    the sender's coins. *)
Theorem c80_sender_loses_more_refuted : exists cs,
  forallb addressed cs = true /\
  (lx_bal 7 (lx_run 10003 99 0 false cs), lx_bal 8 (lx_run 10003 99 0 false cs)) = (Some 1, Some 1489).
Proof. exists [TransferAccountAssets [mkTransfer false (UReg (8, 1)) "WICC" 989]]. vm_compute. auto. Qed.

(** *** C81 *)

(** If a script asks for the check of the contract's books and coins sent along are WICC,
    then what the books owe grows by exactly what was sent along less what the outputs take
    out; from the second fork version on, for amounts that a signed number holds. *)
Theorem c81_books : forall pk_keyid addr_of key_of h idx e i sc P st st' P',
  at_rest pk_keyid st -> fget regid_eqb (t_reg st) (h, idx) = None ->
  NoDup (map fst P) -> s_check sc = true -> n_symbol e = "WICC"%string ->
  10002 <= n_ver e -> n_amount e < 2 ^ 63 -> forallb in_range (s_calls sc) = true ->
  withdrawn (s_calls sc) < 2 ^ 63 ->
  invoke_tx pk_keyid addr_of key_of h idx e i sc P st = Done (st', P') ->
  NoDup (map fst P') /\ owed P' + withdrawn (s_calls sc) = owed P + n_amount e.
Proof.
  intros pk ad ky h idx e i sc P st st' P' (A & B & C & D) Hf Nd Hk Hs Hv Ha Hr Hw H.
  destruct (invoke_tx_run pk ad ky h idx e i sc P st st' P' A B D Hf H) as (k & c & st7 & st8 & T & M1 & M2 & Sp & Ex).
  eapply (execute_books pk ad ky k c e P sc st7 st8 P'); eauto.
Qed.

(** If besides the script sends no WICC directly out of the contract's account, and the sender
    is not the contract, the books never run ahead of the coins the contract holds. *)
Theorem c81_solvent : forall pk_keyid addr_of key_of h idx e i sc P st st' P',
  at_rest pk_keyid st -> fget regid_eqb (t_reg st) (h, idx) = None -> i_fuel i <= i_fee i ->
  NoDup (map fst P) -> s_check sc = true -> n_symbol e = "WICC"%string ->
  10002 <= n_ver e -> n_amount e < 2 ^ 63 -> forallb in_range (s_calls sc) = true ->
  withdrawn (s_calls sc) < 2 ^ 63 -> existsb drains (s_calls sc) = false ->
  denotes pk_keyid (t_reg st) (i_uid i) <> denotes pk_keyid (t_reg st') (UReg (i_app i)) ->
  invoke_tx pk_keyid addr_of key_of h idx e i sc P st = Done (st', P') ->
  exists c, denotes pk_keyid (t_reg st') (UReg (i_app i)) = Some c /\
    (owed P <= lbal (t_acc st) c "WICC" BFree -> owed P' <= lbal (t_acc st') c "WICC" BFree) /\
    owed P' + lbal (t_acc st) c "WICC" BFree <= owed P + lbal (t_acc st') c "WICC" BFree.
Proof.
  intros pk ad ky h idx e i sc P st st' P' R Hf Hu Nd Hk Hs Hv Ha Hr Hw Hd Hne H.
  destruct (c81_books pk ad ky h idx e i sc P st st' P' R Hf Nd Hk Hs Hv Ha Hr Hw H) as [_ Bk].
  destruct R as (A & B & C & D).
  destruct (invoke_tx_ok pk ad ky h idx e i sc P st st' P' A B C D Hf Hu H)
    as (_ & _ & _ & _ & _ & _ & k & c & F1 & F2 & _ & _ & _ & F6).
  assert (Hkc : k <> c) by (intros E; apply Hne; rewrite F1, F2, E; reflexivity).
  specialize (F6 Hd Hkc). unfold WICC in F6. rewrite Hs in F6. unfold fee_in in F6. rewrite String.eqb_refl in F6.
  exists c. split; auto. lia.
Qed.

(** The sender sends 100 along, gives 70 of it to the third account in the books and has the
    contract pay 30 out. *)
Definition lx_checked : list call :=
  [WriteOutAppOperate (lx_op 1 0 70 9);
   WriteOutput (mkOut (TReg (8, 1)) 2 30); WriteOutput (mkOut (TReg (9, 1)) 1 30)].
Example c81_example :
  NoDup (map fst lx_books) /\ forallb in_range lx_checked = true /\ withdrawn lx_checked = 30 /\
  existsb drains lx_checked = false /\ owed lx_books = 130 /\
  let r := lx_run 10003 99 100 true lx_checked in
  (lx_owed r, lx_bal 8 r) = (Some 200, Some 570).
Proof.
  split.
  - cbn. constructor; [intros [E|[]]; vm_compute in E; discriminate|constructor; [intros []|constructor]].
  - vm_compute. auto 10.
Qed.

(** The bound on withdrawals is needed: the sum of what outputs take out of the contract is
    cast to a signed number, so that outputs which cancel out make the check accept books
    that grow by 2^62 without any coins behind them. *)
Definition lx_cancel : list call :=
  let a := WriteOutput (mkOut (TReg (8, 1)) 1 (2 ^ 62)) in
  let s := WriteOutput (mkOut (TReg (8, 1)) 2 (2 ^ 62)) in
  [a; s; a; s; a; s].
Theorem c81_books_wrap_refuted : exists cs,
  forallb in_range cs = true /\ existsb drains cs = false /\
  let r := lx_run 10003 99 0 true cs in
  owed lx_books = 130 /\ (lx_owed r, lx_bal 8 r) = (Some (130 + 2 ^ 62), Some 500).
Proof. exists (WriteOutAppOperate (lx_op 1 0 (2 ^ 62) 9) :: lx_cancel). vm_compute. auto 10. Qed.

(** So is the condition on direct transfers: the check does not see them. *)
Theorem c81_transfer_unseen_refuted : exists cs,
  forallb in_range cs = true /\ withdrawn cs = 0 /\
  let r := lx_run 10003 99 0 true cs in
  owed lx_books = 130 /\ (lx_owed r, lx_bal 8 r) = (Some 130, Some 0).
Proof. exists [TransferAccountAssets [mkTransfer true (UReg (9, 1)) "WICC" 500]]. vm_compute. auto 10. Qed.

(** And so is the fork version: before, an amount could be negative for the check and huge
    for the books. *)
Theorem c81_negative_amount_refuted : exists cs,
  forallb in_range cs = true /\ withdrawn cs = 0 /\ existsb drains cs = false /\
  let r := lx_run 10001 99 0 true cs in
  owed lx_books = 130 /\ (lx_owed r, lx_bal 8 r) = (Some (2 ^ 64 + 130), Some 500).
Proof.
  exists [WriteOutAppOperate (lx_op 1 0 (-9) 9); WriteOutAppOperate (lx_op 1 0 9 8)].
  vm_compute. auto 10.
Qed.

(** *** C82 *)

(** If the sender is named by a registration id or a public key, every registered id names a
    stored account, the contract's records are sound and the script asks only for plain
    operations, then the call is accepted or rejected: it never stops the node and never does
    what C++ leaves undefined. Accepted, it leaves sound records behind. *)
Theorem c82_verdict : forall pk_keyid addr_of key_of h idx e i sc P st,
  at_rest pk_keyid st -> fget regid_eqb (t_reg st) (h, idx) = None -> (h <> 0 \/ idx <> 0) ->
  registered (t_acc st) (t_reg st) -> (exists r, i_uid i = UReg r) \/ (exists p, i_uid i = UPub p) ->
  sound P = true -> forallb plain_call (s_calls sc) = true ->
  match invoke_tx pk_keyid addr_of key_of h idx e i sc P st with
  | Done (_, P') => sound P' = true
  | Reject => True
  | Abort | Undefined => False
  end.
Proof.
  intros pk ad ky h idx e i sc P st (A & B & C & D) Hf Hi Hr Hu HP Hc.
  destruct (invoke_tx_fine pk ad ky h idx e i sc P st A B D Hf) as [[F1 F2] F3]; auto.
  - unfold regid_empty. cbn. lia.
  - destruct Hu as [[r ->]|[p ->]]; reflexivity.
  - destruct (invoke_tx pk ad ky h idx e i sc P st) as [[st' P']| | |]; auto. apply (F3 st' P' eq_refl).
Qed.

Lemma lx_registered : registered (t_acc lx_st) (t_reg lx_st).
Proof.
  intros r k. unfold lx_st. cbn [t_reg t_acc fget].
  repeat match goal with |- context [if ?b then _ else _] => destruct b end; intros H; inversion H; subst;
    (eexists; split; reflexivity).
Qed.

(** The script moves frozen coins between the books of two users, in a new fund and in one
    there is. *)
Definition lx_plain : list call :=
  [WriteOutAppOperate (lx_op 4 200 30 9); WriteOutAppOperate (lx_op 3 300 25 7);
   TransferSomeAsset (lx_addr 9) 0 5 0 []; TransferSomeAsset (lx_addr 9) 90 60 1 [1]].
Example c82_example :
  sound lx_books = true /\ forallb plain_call lx_plain = true /\
  lx_owed (lx_run 10003 99 0 false lx_plain) = None /\
  match lx_run 10003 99 0 false (firstn 3 lx_plain) with
  | Done (_, P) => P = [(lx_addr 7, mkApp 95 [mkFund 25 300 []]); (lx_addr 9, mkApp 5 [])]
  | _ => False
  end.
Proof. vm_compute. auto. Qed.

(** Each condition on the operations is needed: a script can stop a node that executes it, by
    a frozen amount without a height, by an amount of zero for a fund there is, by a height
    beyond 2^31, and, if the node logs errors, by a kind of operation there is none of. *)
Theorem c82_stops_the_node_refuted : exists a b c d,
  lx_run 10003 99 0 false [a] = Abort /\
  lx_run 10003 99 0 false [b] = Abort /\
  lx_run 10003 99 0 false [c] = Abort /\
  lx_run 10003 99 0 false [d] = Undefined.
Proof.
  exists (WriteOutAppOperate (lx_op 3 0 5 9)), (WriteOutAppOperate (lx_op 3 200 0 9)),
    (WriteOutAppOperate (lx_op 4 2147483648 5 9)), (WriteOutAppOperate (lx_op 5 0 5 9)).
  vm_compute. auto.
Qed.

(** And a tag that does not fit is read past its end. *)
Theorem c82_reads_past_the_tag_refuted : exists o,
  lx_run 10003 99 0 false [WriteOutAppOperate o] = Undefined.
Proof. exists (mkOp 3 200 5 (lx_addr 9) 41 []). vm_compute. reflexivity. Qed.

(** *** C83 *)

(** The result of a call does not depend on how long the active chain of the node is, if the
    script does not move all of the sender's coins in the books at once, or if none of the
    frozen amounts becomes free between the two heights. *)
Theorem c83_tip : forall pk_keyid addr_of key_of h idx e tip i sc P st,
  existsb moves_all (s_calls sc) = false \/ unmoved P (n_tip e) tip = true ->
  invoke_tx pk_keyid addr_of key_of h idx (at_tip e tip) i sc P st =
  invoke_tx pk_keyid addr_of key_of h idx e i sc P st.
Proof. intros. now apply invoke_tip. Qed.

(** Moving everything at height 100 of the block, with the active chain at 99 and at 150. *)
Example c83_example :
  unmoved lx_books 99 150 = true /\
  match lx_run 10003 99 0 false [TransferContractAsset (lx_addr 9)] with
  | Done (_, P) => P = [(lx_addr 7, mkApp 0 []); (lx_addr 9, mkApp 100 [mkFund 30 200 []])]
  | _ => False
  end.
Proof. vm_compute. auto. Qed.

(** In general it does: with the active chain at height 80 the script asks for the frozen
    coins as such, which the books have made free by height 100, and the same call in the
    same block is rejected. *)
Theorem c83_tip_matters_refuted : exists cs,
  lx_run 10003 80 0 false cs = Reject /\
  lx_owed (lx_run 10003 99 0 false cs) = Some 130.
Proof. exists [TransferContractAsset (lx_addr 9)]. vm_compute. auto. Qed.

(** *** C84 *)

(** What lists of transfers do to accounts, exactly: of every list a first part is carried out,
    at most 100 transfers in all, and without outputs every free balance changes by these
    transfers, by the fee and by the coins sent along. *)
Theorem c84_transfers : forall pk_keyid addr_of key_of h idx e i sc P st st' P',
  at_rest pk_keyid st -> fget regid_eqb (t_reg st) (h, idx) = None -> i_fuel i <= i_fee i ->
  existsb writes (s_calls sc) = false ->
  invoke_tx pk_keyid addr_of key_of h idx e i sc P st = Done (st', P') ->
  exists k c ts, denotes pk_keyid (t_reg st) (i_uid i) = Some k /\
    denotes pk_keyid (t_reg st') (UReg (i_app i)) = Some c /\
    carried (s_calls sc) ts /\ N.of_nat (List.length ts) <= 100 /\
    forall k0 s, k0 <> 0 -> Z.of_N (lbal (t_acc st') k0 s BFree) =
      (Z.of_N (lbal (t_acc st) k0 s BFree) + net pk_keyid (t_reg st') k c ts k0 s
       - (if (k0 =? k)%N then Z.of_N (fee_in (i_fee_symbol i) (i_fee i) s)
                              + Z.of_N (fee_in (n_symbol e) (n_amount e) s) else 0)
       + (if (k0 =? c)%N then Z.of_N (fee_in (n_symbol e) (n_amount e) s) else 0)
       + (match denotes pk_keyid (t_reg st') (UReg (i_reserve i)) with
          | Some f => if (k0 =? f)%N then Z.of_N (reserved i s) else 0
          | None => 0
          end))%Z.
Proof.
  intros pk ad ky h idx e i sc P st st' P' (A & B & C & D) Hf Hu Hw H.
  exact (invoke_tx_net pk ad ky h idx e i sc P st st' P' A B C D Hf Hu Hw H).
Qed.

(** A list is carried out only if every transfer in it is of something: a positive amount of a
    token that is checked, at most the cap on coins. *)
Theorem c84_amounts : forall pk_keyid addr_of key_of sender contract e P v l v' t,
  step pk_keyid addr_of key_of sender contract e P v (TransferAccountAssets l) = Done (true, v') ->
  In t l -> 0 < y_amount t <= max_money /\ n_asset e (y_symbol t) = true.
Proof.
  intros pk ad ky sd ct e P v l v' t H Hin. cbn [step] in H.
  destruct (n_ver e <? ver_r2); [discriminate|].
  destruct ((N.of_nat (List.length l) =? 0) || negb (forallb (parsed e) l)) eqn:E; [discriminate|].
  apply orb_false_iff in E as [_ E]. apply negb_false_iff in E.
  rewrite forallb_forall in E. specialize (E t Hin). unfold parsed in E.
  apply andb_true_iff in E as [E E3]. apply andb_true_iff in E as [E E2]. apply andb_true_iff in E as [_ E1].
  split; [|exact E1]. apply negb_true_iff in E2. lia.
Qed.

(** One list: if the call returns true to the script all of it was carried out, if it returns
    false some of it was not. *)
Theorem c84_one_list : forall pk_keyid addr_of key_of sender contract e P v l b v',
  tinv pk_keyid (m_tx v) -> l_get (t_mem (m_tx v)) sender <> None ->
  l_get (t_mem (m_tx v)) contract <> None ->
  (forall s, supply (commit (m_tx v)) s < two64) -> l <> [] ->
  step pk_keyid addr_of key_of sender contract e P v (TransferAccountAssets l) = Done (b, v') ->
  exists n, (n <= List.length l)%nat /\ (b = true <-> n = List.length l) /\
    forall k s, Z.of_N (lbal (commit (m_tx v')) k s BFree) =
      (Z.of_N (lbal (commit (m_tx v)) k s BFree)
       + net pk_keyid (t_reg (m_tx v)) sender contract (firstn n l) k s)%Z.
Proof.
  intros pk ad ky sd ct e P v l b v' T Hs Hc Hb Hl H.
  destruct (step_net pk ad ky sd ct e P v _ b v' T Hs Hc Hb H) as (_ & _ & ts & _ & _ & M & n & -> & B1 & B2).
  assert (Hn : List.length (firstn n l) = Nat.min n (List.length l)) by apply firstn_length.
  exists (Nat.min n (List.length l)). split; [lia|]. split.
  - split; intros Hx.
    + rewrite <- Hn. now rewrite (B1 Hx).
    + destruct b; auto. destruct (B2 eq_refl) as [Q|Q]; [lia|congruence].
  - intros k s. rewrite (mv_bal _ _ _ _ _ M). unfold netD. cbn [bucket_eqb].
    replace (firstn (Nat.min n (List.length l)) l) with (firstn n l); [reflexivity|].
    destruct (Nat.le_ge_cases n (List.length l)).
    + now rewrite Nat.min_l.
    + rewrite Nat.min_r by auto. now rewrite (firstn_all2 l), firstn_all.
Qed.

(** Two lists; the second fails at its second transfer, and keeps its first. *)
Definition lx_lists : list call :=
  [TransferAccountAssets [mkTransfer true (UReg (9, 1)) "WICC" 100; mkTransfer false (UKey 9) "WICC" 20];
   TransferAccountAssets [mkTransfer true (UReg (9, 1)) "WICC" 50; mkTransfer true (UReg (9, 1)) "WICC" 5000;
                          mkTransfer true (UReg (9, 1)) "WICC" 1]].
Example c84_example :
  existsb writes lx_lists = false /\
  (lx_bal 7 (lx_run 10003 99 0 false lx_lists), lx_bal 8 (lx_run 10003 99 0 false lx_lists),
   lx_bal 9 (lx_run 10003 99 0 false lx_lists)) = (Some 970, Some 350, Some 170).
Proof. vm_compute. auto. Qed.

(** The state in which the first list of a script is carried out: the two accounts are loaded. *)
Definition lx_vm : vm :=
  mkVm (snd (get_account lx_pk (snd (get_account lx_pk lx_st (UReg (7, 1)))) (UReg (8, 1)))) [] [] 0.
Example c84_amounts_example :
  (match step lx_pk lx_addr lx_key 7 8 (lx_env 10003 99 0) lx_books lx_vm
           (TransferAccountAssets [mkTransfer true (UReg (9, 1)) "WICC" 50]) with
   | Done (b, _) => b = true | _ => False end) /\
  (match step lx_pk lx_addr lx_key 7 8 (lx_env 10003 99 0) lx_books lx_vm
           (TransferAccountAssets [mkTransfer true (UReg (9, 1)) "WICC" 50; mkTransfer true (UReg (9, 1)) "WICC" 0]) with
   | Done (b, _) => b = false | _ => False end).
Proof. split; vm_compute; reflexivity. Qed.

Example c84_one_list_example :
  tinv lx_pk (m_tx lx_vm) /\ l_get (t_mem (m_tx lx_vm)) 7 <> None /\
  l_get (t_mem (m_tx lx_vm)) 8 <> None /\ (forall s, supply (commit (m_tx lx_vm)) s < two64) /\
  match step lx_pk lx_addr lx_key 7 8 (lx_env 10003 99 0) lx_books lx_vm
          (TransferAccountAssets [mkTransfer true (UReg (9, 1)) "WICC" 50; mkTransfer true (UReg (9, 1)) "WICC" 5000]) with
  | Done (b, v) => b = false /\ lbal (commit (m_tx v)) 9 "WICC" BFree = 50
  | _ => False
  end.
Proof.
  destruct lx_rest as ([W G] & No & _ & Sp).
  assert (T0 : tinv lx_pk lx_st).
  { constructor; simpl; auto. split; [constructor | discriminate]. discriminate. }
  destruct (get_account lx_pk lx_st (UReg (7, 1))) as [o1 st1] eqn:G1.
  assert (o1 = Some 7) by (vm_compute in G1; congruence). subst o1.
  destruct (get_account_kept lx_pk _ _ _ _ T0 G1) as (K1 & V1 & M1 & _).
  destruct (get_account lx_pk st1 (UReg (8, 1))) as [o2 st2] eqn:G2.
  assert (E1 : st1 = snd (get_account lx_pk lx_st (UReg (7, 1)))) by (now rewrite G1).
  assert (o2 = Some 8) by (rewrite E1 in G2; vm_compute in G2; congruence). subst o2.
  assert (T1 : tinv lx_pk st1) by apply K1.
  destruct (get_account_kept lx_pk _ _ _ _ T1 G2) as (K2 & V2 & M2 & _).
  assert (E2 : m_tx lx_vm = st2) by (unfold lx_vm; rewrite G1; cbn [snd m_tx]; now rewrite G2).
  rewrite E2. split; [apply K2|]. split; [apply K2; auto|]. split; [auto|]. split.
  - intros s. rewrite (mv_supply _ _ _ _ _ V2), (mv_supply _ _ _ _ _ V1). exact (Sp s).
  - vm_compute. auto.
Qed.

(** A list is not carried out as a whole or not at all: a call whose list fails in the middle
    is accepted with a part of it. *)
Theorem c84_all_or_nothing_refuted : exists l,
  (lx_bal 8 (lx_run 10003 99 0 false [TransferAccountAssets l]),
   lx_bal 9 (lx_run 10003 99 0 false [TransferAccountAssets l])) = (Some 450, Some 50) /\
  fold_right N.add 0 (map y_amount l) = 5050.
Proof.
  exists [mkTransfer true (UReg (9, 1)) "WICC" 50; mkTransfer true (UReg (9, 1)) "WICC" 5000].
  vm_compute. auto.
Qed.

(** The limit of 100 binds transfers only: outputs beyond it are carried out, although the
    call that asks for them returns false. *)
Theorem c84_outputs_unlimited_refuted : exists cs,
  List.length cs = 102%nat /\ forallb writes cs = true /\
  lx_bal 9 (lx_run 10003 99 0 false cs) = Some 51.
Proof.
  exists (flat_map (fun _ => [WriteOutput (mkOut (TReg (8, 1)) 2 1); WriteOutput (mkOut (TReg (9, 1)) 1 1)])
            (repeat tt 51)).
  vm_compute. auto.
Qed.

Print Assumptions c80_call_supply.
Print Assumptions c80_call_victims.
Print Assumptions c80_transfer_to_nobody_refuted.
Print Assumptions c80_output_to_nobody_refuted.
Print Assumptions c80_sender_loses_more_refuted.
Print Assumptions c81_books.
Print Assumptions c81_solvent.
Print Assumptions c81_books_wrap_refuted.
Print Assumptions c81_transfer_unseen_refuted.
Print Assumptions c81_negative_amount_refuted.
Print Assumptions c82_verdict.
Print Assumptions c82_stops_the_node_refuted.
Print Assumptions c82_reads_past_the_tag_refuted.
Print Assumptions c83_tip.
Print Assumptions c83_tip_matters_refuted.
Print Assumptions c84_transfers.
Print Assumptions c84_one_list.
Print Assumptions c84_amounts.
Print Assumptions c84_all_or_nothing_refuted.
Print Assumptions c84_outputs_unlimited_refuted.
