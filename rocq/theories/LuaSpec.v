(** Vocabulary of the claims about Lua contracts (C80-C84). *)
From Coq Require Import String List Bool NArith ZArith.
From Verif Require Import Prelude AccountModel AccountSpec TxModel TxSpec LuaModel.
Import ListNotations.
Open Scope N_scope.

(** Every payment a call asks for goes to a registration id or to text that is an address. *)
Definition addressed (c : call) : bool :=
  match c with
  | WriteOutput o => match w_to o with TAddr 0 => false | _ => true end
  | TransferAccountAssets ts =>
      forallb (fun t => match y_to t with UKey 0 => false | _ => true end) ts
  | _ => true
  end.

(** The call sends WICC directly out of the contract's own account. *)
Definition drains (c : call) : bool :=
  match c with
  | TransferAccountAssets ts =>
      existsb (fun t => y_contract t && String.eqb (y_symbol t) "WICC") ts
  | _ => false
  end.

(** The call takes something directly out of the sender's account. *)
Definition charges (c : call) : bool :=
  match c with
  | TransferAccountAssets ts => existsb (fun t => negb (y_contract t)) ts
  | _ => false
  end.

(** What the outputs of a script take out of accounts, and what they put in. *)
Definition taken (c : call) : N :=
  match c with WriteOutput o => if w_op o =? 2 then w_money o else 0 | _ => 0 end.
Definition withdrawn (cs : list call) : N := nsum (map taken cs).

(** What a contract's books say it owes: free and frozen coins of all its users. *)
Definition worth (a : appacct) : N := p_free a + nsum (map f_value (p_funds a)).
Definition owed (P : list (list N * appacct)) : N := msum worth P.

(** The amount of an operation on the books is one an [int64_t] holds. *)
Definition in_range (c : call) : bool :=
  match c with
  | WriteOutAppOperate o => (- two63 <=? o_money o)%Z && (o_money o <? two63)%Z
  | TransferSomeAsset _ _ money _ _ => money <? two64
  | _ => true
  end.

(** What a call of the newer kind adds to the reserve. *)
Definition reserved (i : invoke) (s : string) : N :=
  if i_universal i && String.eqb (i_fee_symbol i) "WUSD" && String.eqb s "WUSD"
  then i_fuel i else 0.

(** Records that can be operated on: every frozen amount is positive, becomes free at a
    positive height, and has a tag that fits. *)
Definition sound_fund (f : fund) : bool :=
  (0 <? f_value f) && (f_value f <? two64) &&
  (0 <? f_height f)%Z && (f_height f <? 2147483648)%Z &&
  (N.of_nat (List.length (f_tag f)) <=? 40).
Definition sound_record (a : appacct) : bool := (p_free a <? two64) && forallb sound_fund (p_funds a).
Definition sound (P : list (list N * appacct)) : bool := forallb (fun ua => sound_record (snd ua)) P.

(** A call that asks only for operations of the four kinds, with tags that fit; on frozen
    coins only for amounts other than zero and for heights that are positive as signed
    numbers. *)
Definition plain_op (o : appop) : bool :=
  (o_type o <=? 4) && (o_taglen o <=? 40) && (N.of_nat (List.length (o_tag o)) <=? 40) &&
  (if (o_type o =? 3) || (o_type o =? 4)
   then (0 <? o_height o) && (o_height o <? 2147483648) && negb (o_money o =? 0)%Z &&
        (- two63 <=? o_money o)%Z && (o_money o <? two63)%Z
   else true).
Definition plain_call (c : call) : bool :=
  match c with
  | WriteOutAppOperate o => plain_op o
  | TransferSomeAsset _ h money taglen tag =>
      (h <? 4294967296) && (money <? two64) && (taglen <=? 40) &&
      (N.of_nat (List.length tag) <=? 40)
  | _ => true
  end.

(** Every entry of the table of registration ids names a stored account that is registered. *)
Definition registered (L : list (N * account)) (reg : list (regid * N)) : Prop :=
  forall r k, fget regid_eqb reg r = Some k ->
    exists a, l_get L k = Some a /\ regid_empty (a_regid a) = false.

(** The call adds an output, to be applied when the script has ended. *)
Definition writes (c : call) : bool := match c with WriteOutput _ => true | _ => false end.

(** The call looks at the sender's whole account in the contract. *)
Definition moves_all (c : call) : bool := match c with TransferContractAsset _ => true | _ => false end.

(** Of every list of transfers in a script, a first part was carried out. *)
Inductive carried : list call -> list transfer -> Prop :=
| carried_nil : carried [] []
| carried_other c cs ts : carried cs ts -> carried (c :: cs) ts
| carried_part l n cs ts : carried cs ts ->
    carried (TransferAccountAssets l :: cs) (firstn n l ++ ts).

Section Net.
  Variable pk_keyid : N -> N.

  (** What transfers change in the free balance of an account, given the sender of the call
      and the contract. *)
  Definition net1 (reg : list (regid * N)) (sender contract : N) (t : transfer) (k : N) (s : string) : Z :=
    if String.eqb (y_symbol t) s
    then ((match denotes pk_keyid reg (y_to t) with
           | Some d => if (k =? d)%N then Z.of_N (y_amount t) else 0
           | None => 0
           end) -
          (if (k =? (if y_contract t then contract else sender))%N then Z.of_N (y_amount t) else 0))%Z
    else 0%Z.
  Definition net (reg : list (regid * N)) (sender contract : N) (ts : list transfer) (k : N) (s : string) : Z :=
    fold_right Z.add 0%Z (map (fun t => net1 reg sender contract t k s) ts).
End Net.

(** The same surroundings of a call but another height of the active chain. *)
Definition at_tip (e : lenv) (t : Z) : lenv :=
  mkLenv (n_ver e) (n_height e) t (n_symbol e) (n_amount e) (n_log e) (n_asset e).

(** No frozen amount becomes free between two heights. *)
Definition unmoved (P : list (list N * appacct)) (t t' : Z) : bool :=
  forallb (fun ua => forallb (fun f => Bool.eqb (f_height f <=? t)%Z (f_height f <=? t')%Z) (p_funds (snd ua))) P.
