(** Vocabulary of the claims about registration ids (C34) and contract addresses (C70). *)
From Coq Require Import String List Bool NArith.
From Verif Require Import Prelude AccountModel AccountSpec TxModel RegidModel.
Import ListNotations.
Open Scope N_scope.

(** The registration id of the account with a key id, if it has one. *)
Definition id_of (st : txst) (k : N) : option regid :=
  match l_get (t_acc st) k with
  | Some a => if regid_empty (a_regid a) then None else Some (a_regid a)
  | None => None
  end.

(** The account that a registration id leads to. *)
Definition owner_of (st : txst) (r : regid) : option N := fget regid_eqb (t_reg st) r.

(** No two accounts have the same id. *)
Definition unique_ids (st : txst) : Prop :=
  forall k1 k2 r, id_of st k1 = Some r -> id_of st k2 = Some r -> k1 = k2.

(** An id leads to the account that has it, and to no other. *)
Definition leads_back (st : txst) : Prop :=
  forall k r, owner_of st r = Some k <-> id_of st k = Some r.

(** No account loses or changes its id. *)
Definition keeps_ids (st st' : txst) : Prop :=
  forall k r, id_of st k = Some r -> id_of st' k = Some r.

Section RegidSpec.
  Variable pk_keyid : N -> N.
  Variable address : regid -> N.

  (** The hash used for key ids does not collide: two registration ids give two addresses, and
      no public key hashes to the address of a registration id. *)
  Definition no_collisions : Prop :=
    (forall r1 r2, address r1 = address r2 -> r1 = r2) /\
    (forall p r, pk_keyid p <> address r).

  (** A sane state: accounts are stored under their key ids, ids lead back, public keys hash to key
      ids, and an account with an id but no public key is at the address of the id. *)
  Record sane (st : txst) : Prop := {
    s_ledger : ledger_wf (t_acc st);
    s_back : leads_back st;
    s_keys : forall k a p, l_get (t_acc st) k = Some a -> a_pubkey a = Some p -> pk_keyid p = k;
    s_bare : forall k a r, l_get (t_acc st) k = Some a -> a_pubkey a = None -> id_of st k = Some r ->
      k = address r }.

  (** A state to start from: a sane one in which every id is of the genesis block. *)
  Record start (st : txst) : Prop := {
    s_sane : sane st;
    s_genesis : forall k r, id_of st k = Some r -> fst r = 0 }.
End RegidSpec.

(** Every block of a chain has at most this many transactions, counting its reward; the chain is
    shorter than the heights a registration id can tell apart. *)
Definition fits (ch : list (block * txst)) : Prop :=
  height_of ch < two32 /\
  forall b st, In (b, st) ch -> N.of_nat (List.length (b_txs b)) < two16.

(** What the reserve is paid on a deployment: where, and how much of a token. *)
Definition fuel_at (st : txst) (fuel : option (regid * N)) (k : N) (s : string) (b : bucket) : N :=
  match fuel with
  | Some (f, v) =>
      match owner_of st f with Some j => at_place (Some (j, BFree)) WUSD v k s b | None => 0 end
  | None => 0
  end.
Definition fuel_in (fuel : option (regid * N)) (s : string) : N :=
  match fuel with Some (_, v) => if String.eqb WUSD s then v else 0 | None => 0 end.

(** What an account holds of a token, zero if there is no account. *)
Definition held_at (st : txst) (k : N) (s : string) : N :=
  match l_get (t_acc st) k with Some a => holding a s | None => 0 end.
