(** Vocabulary of the claims about balances (C05-C08). *)
From Coq Require Import String List Bool NArith.
From Verif Require Import Prelude AccountModel.
Import ListNotations.
Open Scope N_scope.

(** The five sub-balances of an account in a token. *)
Inductive bucket := BFree | BFrozen | BStaked | BVoted | BPledged.

Definition in_bucket (b : bucket) (t : token) : N :=
  match b with
  | BFree => free t | BFrozen => frozen t | BStaked => staked t
  | BVoted => voted t | BPledged => pledged t
  end.

(** What an account holds of token [s] in one sub-balance. *)
Definition bal (a : account) (s : string) (b : bucket) : N := in_bucket b (get_token a s).

(** What it holds of token [s] altogether. *)
Definition holding (a : account) (s : string) : N :=
  bal a s BFree + bal a s BFrozen + bal a s BStaked + bal a s BVoted + bal a s BPledged.

(** The total of token [s] over all accounts. *)
Definition supply (L : list (N * account)) (s : string) : N := msum (fun a => holding a s) L.

(** What account [k] of a ledger holds in one sub-balance; zero for an unknown account. *)
Definition lbal (L : list (N * account)) (k : N) (s : string) (b : bucket) : N :=
  match l_get L k with Some a => bal a s b | None => 0 end.

(** Which sub-balance each internal operation debits and which it credits. *)
Definition internal (o : balance_op) : option (bucket * bucket) :=
  match o with
  | Stake => Some (BFree, BStaked) | Unstake => Some (BStaked, BFree)
  | Freeze => Some (BFree, BFrozen) | Unfreeze => Some (BFrozen, BFree)
  | Vote => Some (BFree, BVoted) | Unvote => Some (BVoted, BFree)
  | Pledge => Some (BFree, BPledged) | Unpledge => Some (BPledged, BFree)
  | _ => None
  end.

(** The account's attributes other than its balances. *)
Definition same_identity (a b : account) : Prop :=
  a_keyid a = a_keyid b /\ a_regid a = a_regid b /\ a_pubkey a = a_pubkey b /\
  a_received_votes a = a_received_votes b /\ a_last_vote_height a = a_last_vote_height b /\
  a_last_vote_epoch a = a_last_vote_epoch b /\ a_perms a = a_perms b.

(** Every balance of [b] is that of [a]. *)
Definition same_balances (a b : account) : Prop := forall s k, bal b s k = bal a s k.

(** A ledger stores each account once, under its own key id. *)
Definition ledger_wf (L : list (N * account)) : Prop :=
  NoDup (map fst L) /\ forall k a, l_get L k = Some a -> a_keyid a = k.

(** One requested balance operation: account, token, operation, amount, other party. *)
Record request := mkReq {
  q_who : N; q_symbol : string; q_op : balance_op; q_amount : N; q_other : option N }.

(** Coins created or destroyed by a request that succeeded: an addition or subtraction of
    free balance with no other party. *)
Definition mint_of (s : string) (q : request) : N :=
  match q_op q, q_other q with
  | AddFree, None => if String.eqb (q_symbol q) s then q_amount q else 0
  | _, _ => 0
  end.
Definition burn_of (s : string) (q : request) : N :=
  match q_op q, q_other q with
  | SubFree, None => if String.eqb (q_symbol q) s then q_amount q else 0
  | _, _ => 0
  end.

(** A history of requests; a request that fails leaves no trace, because the failing
    transaction's accounts are discarded (tx.cpp:209-214). Returns the final ledger, and
    the successful requests in order. *)
Fixpoint history (L : list (N * account)) (qs : list request)
  : list (N * account) * list request :=
  match qs with
  | [] => (L, [])
  | q :: qs' =>
      let '(b, L') := l_operate L (q_who q) (q_symbol q) (q_op q) (q_amount q) (q_other q) in
      if b then
        let '(L2, done) := history L' qs' in (L2, q :: done)
      else history L qs'
  end.

(** Which account and sub-balance an operation takes the amount from, and which it gives it
    to; [None] is the outside (coins created or destroyed). *)
Definition debited (who : N) (o : balance_op) (other : option N) : option (N * bucket) :=
  match o with
  | AddFree => match other with Some k => Some (k, BFree) | None => None end
  | SubFree => Some (who, BFree)
  | DexDeal => Some (who, BFrozen)
  | _ => match internal o with Some (src, _) => Some (who, src) | None => None end
  end.
Definition credited (who : N) (o : balance_op) (other : option N) : option (N * bucket) :=
  match o with
  | AddFree => Some (who, BFree)
  | SubFree | DexDeal => match other with Some k => Some (k, BFree) | None => None end
  | _ => match internal o with Some (_, dst) => Some (who, dst) | None => None end
  end.

Definition bucket_eqb (a b : bucket) : bool :=
  match a, b with
  | BFree, BFree | BFrozen, BFrozen | BStaked, BStaked | BVoted, BVoted
  | BPledged, BPledged => true
  | _, _ => false
  end.

(** [v] at the stated place, zero elsewhere. *)
Definition at_place (p : option (N * bucket)) (s : string) (v : N)
    (k : N) (s' : string) (b : bucket) : N :=
  match p with
  | Some (k0, b0) => if (k =? k0) && String.eqb s' s && bucket_eqb b b0 then v else 0
  | None => 0
  end.
