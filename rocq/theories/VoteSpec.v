(** What voting should do (C09, C10, C54, C55). *)
From Coq Require Import String List Bool NArith ZArith Sorting.Sorted Permutation.
From Verif Require Import Prelude AccountModel AccountSpec TxModel VoteModel.
Import ListNotations.
Open Scope N_scope.

(** Sorting, as far as it is specified. *)
Definition sorts (arrange : list (uid * N) -> list (uid * N)) : Prop :=
  forall l, Permutation l (arrange l) /\ StronglySorted (fun x y => snd y <= snd x) (arrange l).

Section Spec.
  Variable pk_keyid : N -> N.

  (** The account an id stands for. *)
  Definition target (st : vstate) (u : uid) : option N :=
    match u with
    | UReg r => fget regid_eqb (v_reg st) r
    | UPub p => Some (pk_keyid p)
    | UKey k => Some k
    | UNull => None
    end.

  (** A ledger in order: accounts are stored under their own keys; registration ids and
      registered accounts belong to each other; a registered account whose key id belongs to a
      public key has that public key, and a public key on record belongs to its account. *)
  Definition names_ok (st : vstate) : Prop :=
    ledger_wf (v_ledger st) /\
    (forall r k, fget regid_eqb (v_reg st) r = Some k <->
       regid_empty r = false /\ exists a, l_get (v_ledger st) k = Some a /\ a_regid a = r) /\
    (forall k a p, l_get (v_ledger st) k = Some a -> regid_empty (a_regid a) = false ->
       pk_keyid p = k -> a_pubkey a = Some p) /\
    (forall k a p, l_get (v_ledger st) k = Some a -> a_pubkey a = Some p -> pk_keyid p = k).

  (** Votes of a list for one account, of all lists for one account. *)
  Definition is_for (st : vstate) (c : N) (u : uid) : bool :=
    match target st u with Some k => c =? k | None => false end.
  Definition votes_for (st : vstate) (c : N) (l : list (uid * N)) : N :=
    nsum (map (fun x => if is_for st c (fst x) then snd x else 0) l).
  Definition all_votes_for (st : vstate) (c : N) : N := msum (votes_for st c) (v_lists st).

  (** The coins a voter has to lock up: one coin one vote, or (first release) one coin for a
      vote for each candidate. *)
  Definition locked (r2 : bool) (l : list (uid * N)) : N :=
    if r2 then nsum (map snd l) else fold_right N.max 0 (map snd l).

  (** The registration id or the public key of an account that exists. *)
  Definition known (st : vstate) (u : uid) : Prop :=
    match u with UReg _ | UPub _ => True | _ => False end /\
    exists c, target st u = Some c /\ l_get (v_ledger st) c <> None.

  (** A vote list in order. *)
  Record list_ok (st : vstate) (l : list (uid * N)) : Prop := mkListOk {
    lk_sorted : StronglySorted (fun x y => snd y <= snd x) l;
    lk_size : (List.length l <= 22)%nat;
    lk_amounts : Forall (fun x => 0 < snd x <= 21000000000000000) l;
    lk_distinct : NoDup (map (fun x => target st (fst x)) l);
    lk_known : Forall (fun x => known st (fst x)) l }.

  (** Votes in order: C09 (lists and locked coins) and C54 (received votes). *)
  Record votes_ok (st : vstate) : Prop := mkVotesOk {
    vk_names : names_ok st;
    vk_voters : forall k a, l_get (v_ledger st) k = Some a -> regid_empty (a_regid a) = false ->
      list_ok st (list_of st (a_regid a)) /\
      bal a "WICC" BVoted = locked (v_r2 st) (list_of st (a_regid a));
    vk_others : forall k a, l_get (v_ledger st) k = Some a -> regid_empty (a_regid a) = true ->
      bal a "WICC" BVoted = 0;
    vk_lists : NoDup (keys (v_lists st)) /\
      forall r l, fget regid_eqb (v_lists st) r = Some l ->
        l <> [] /\ fget regid_eqb (v_reg st) r <> None;
    vk_received : forall k a, l_get (v_ledger st) k = Some a ->
      a_received_votes a = all_votes_for st k /\ a_received_votes a <= 21000000000000000 }.

  (** What everything else on the chain does: no vote lists, no rankings, no locked coins, no
      received votes; accounts stay and keep their registration ids; new accounts have no
      votes. *)
  Definition velsewhere (st st' : vstate) : Prop :=
    names_ok st' /\ v_lists st' = v_lists st /\ v_rank st' = v_rank st /\ v_r2 st' = v_r2 st /\
    (forall k a, l_get (v_ledger st) k = Some a -> exists a', l_get (v_ledger st') k = Some a' /\
       a_received_votes a' = a_received_votes a /\
       bal a' "WICC" BVoted = bal a "WICC" BVoted /\
       (regid_empty (a_regid a) = false -> a_regid a' = a_regid a)) /\
    (forall k a', l_get (v_ledger st) k = None -> l_get (v_ledger st') k = Some a' ->
       a_received_votes a' = 0 /\ bal a' "WICC" BVoted = 0).

  (** ** The ranking (C10) *)

  (** Every entry is that of a registered account and has its number of votes. *)
  Definition rank_current (st : vstate) : Prop :=
    NoDup (keys (v_rank st)) /\
    forall n r, In (n, r) (keys (v_rank st)) -> regid_empty r = false /\
      exists k a, l_get (v_ledger st) k = Some a /\ a_regid a = r /\
                  n = 18446744073709551615 - a_received_votes a.
  (** Every registered account with votes has an entry. *)
  Definition rank_complete (st : vstate) : Prop :=
    forall k a, l_get (v_ledger st) k = Some a -> regid_empty (a_regid a) = false ->
      0 < a_received_votes a ->
      In (18446744073709551615 - a_received_votes a, a_regid a) (keys (v_rank st)).

  Variable fcoin_interest bcoin_interest : N -> N -> N -> N.
  Variable arrange : list (uid * N) -> list (uid * N).

  (** All that can happen, in any order; [allowed] restricts it. *)
  Inductive vreaches (allowed : vstate -> vaction -> Prop) (st : vstate) : vstate -> Prop :=
  | vreach_here : vreaches allowed st st
  | vreach_next : forall st1 a st2,
      vreaches allowed st st1 ->
      (forall st', a = VElse st' -> velsewhere st1 st') ->
      allowed st1 a ->
      vstep pk_keyid fcoin_interest bcoin_interest arrange st1 a = Some st2 ->
      vreaches allowed st st2.
End Spec.

Definition anything (st : vstate) (a : vaction) : Prop := True.

(** Accounts that get registered have received no votes before. *)
Definition registered_before_voted (st : vstate) (a : vaction) : Prop :=
  forall st', a = VElse st' -> forall k x x',
    l_get (v_ledger st) k = Some x -> regid_empty (a_regid x) = true ->
    l_get (v_ledger st') k = Some x' -> regid_empty (a_regid x') = false ->
    a_received_votes x = 0.

(** The rules of the second release apply, and accounts with a public key on record are
    registered. *)
Definition second_release (st : vstate) (a : vaction) : Prop :=
  v_r2 st = true /\
  forall st', a = VElse st' -> forall k x,
    l_get (v_ledger st') k = Some x -> a_pubkey x <> None -> regid_empty (a_regid x) = false.

(** ** Listing the top (C10) *)

Definition at_least (min : option N) (v : N) : Prop :=
  match min with Some m => m <= v | None => True end.

(** [l] lists the top [n] of the registered accounts with votes (those with at least [min], if
    asked for): their registration ids and votes in descending order of votes, nobody twice,
    nobody left out who has votes, unless [n] others have as many or more. *)
Definition top_of (st : vstate) (n : N) (min : option N) (l : list (N * N * N)) : Prop :=
  StronglySorted (fun x y : N * N * N => snd y <= snd x) l /\ NoDup (map fst l) /\
  N.of_nat (List.length l) <= n /\
  (forall r v, In (r, v) l -> at_least min v /\ regid_empty r = false /\
     exists k a, l_get (v_ledger st) k = Some a /\ a_regid a = r /\ a_received_votes a = v) /\
  (forall k a, l_get (v_ledger st) k = Some a -> regid_empty (a_regid a) = false ->
     0 < a_received_votes a -> at_least min (a_received_votes a) ->
     ~ In (a_regid a, a_received_votes a) l ->
     N.of_nat (List.length l) = n /\ Forall (fun y => a_received_votes a <= snd y) l).
