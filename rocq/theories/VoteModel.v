(** Model of voting for delegates: vote lists, received votes, the ranking, and the change of
    rules at the second release.

    Source: /repo/src/entities/account.cpp, /repo/src/entities/vote.h,
    /repo/src/tx/delegatetx.cpp, /repo/src/persistence/delegatedb.cpp, /repo/src/main.cpp.

    Simplifications: caches are finite maps (c01_layered_cache_is_a_map) and accounts are
    changed directly in the ledger (c50_transaction_acts_on_ledger). Fees, and the
    registration of the sender that precedes execution (tx.cpp:192-198), are part of [VElse].
    The height of the last vote (delegatedb.cpp:80-90) is left out. Reading back that nothing
    was found is the same as an empty vote list. *)
From Coq Require Import String List Bool NArith ZArith.
From Verif Require Import Prelude AccountModel TxModel CodecModel.
Import ListNotations.
Open Scope N_scope.

(** The maximum of base coins: InitialCoin * COIN, configuration.h:229, configuration.cpp:262 and
    const.h:205. *)
Definition MAX_BCOINS : N := 21000000000000000.
(** [IsBcoinWithinRange], account.cpp:369-374: the amount is converted to int64. *)
Definition in_range (v : N) : bool := (v <? 9223372036854775808) && (v <=? MAX_BCOINS).

(** [MaxVoteCandidateNum], configuration.cpp:267. *)
Definition MAX_CANDIDATES : nat := 22.

(** [VoteType], vote.h:20-24, and [CCandidateVote], vote.h:32-36; the type is a received byte. *)
Record vote := mkVote { w_type : N; w_uid : uid; w_votes : N }.
(** [CCandidateReceivedVote], vote.h:162-163: whom, how many. *)
Notation entry := (uid * N)%type (only parsing).

(** What voting works on. [v_r2]: whether the next block has the rules of the second release
    or later. *)
Record vstate := mkV {
  v_ledger : list (N * account);
  v_reg : list (regid * N);
  v_lists : list (regid * list (uid * N));    (* regId2VoteCache *)
  v_rank : list ((N * regid) * unit);         (* voteRegIdCache *)
  v_r2 : bool }.

Definition set_vledger (st : vstate) (L : list (N * account)) : vstate :=
  mkV L (v_reg st) (v_lists st) (v_rank st) (v_r2 st).
Definition set_rank (st : vstate) (m : list ((N * regid) * unit)) : vstate :=
  mkV (v_ledger st) (v_reg st) (v_lists st) m (v_r2 st).

(** Height and time of the block; whether the rules of release 3.5 apply. *)
Record venv := mkVenv { x_height : N; x_time : N; x_r35 : bool }.

Definition rank_eqb (a b : N * regid) : bool := pair_eqb N.eqb regid_eqb a b.

(** [DelegateVoteToKey], [DelegateVoteFromKey], delegatedb.cpp:13-21. *)
Definition vote_key (votes : N) : N := two64 - 1 - votes.

(** [SetDelegateVotes], [EraseDelegateVotes], delegatedb.cpp:60-77. *)
Definition set_delegate_votes (st : vstate) (r : regid) (votes : N) : vstate :=
  if regid_empty r then st else set_rank st (fput rank_eqb (v_rank st) (vote_key votes, r) tt).
Definition erase_delegate_votes (st : vstate) (r : regid) (votes : N) : vstate :=
  if regid_empty r then st else set_rank st (fdel rank_eqb (v_rank st) (vote_key votes, r)).

(** [GetCandidateVotes], [SetCandidateVotes], delegatedb.cpp:142-149; an empty list is stored
    as no entry. *)
Definition list_of (st : vstate) (r : regid) : list (uid * N) :=
  match fget regid_eqb (v_lists st) r with Some l => l | None => [] end.
Definition set_list (st : vstate) (r : regid) (l : list (uid * N)) : vstate :=
  mkV (v_ledger st) (v_reg st)
    (match l with [] => fdel regid_eqb (v_lists st) r | _ => fput regid_eqb (v_lists st) r l end)
    (v_rank st) (v_r2 st).

Section Vote.
  Variable pk_keyid : N -> N.
  (** The interest on votes: in fund coins (account.cpp:220-254) from the votes, the time of the
      last vote and the time; in base coins (account.cpp:181-218) from the votes, the height of
      the last vote and the height. *)
  Variable fcoin_interest bcoin_interest : N -> N -> N -> N.
  (** [std::sort] by descending votes, account.cpp:463-466; the order of equal ones is not
      specified. *)
  Variable arrange : list (uid * N) -> list (uid * N).

  (** [CAccountDBCache::GetAccount], accountdb.cpp:16-48. *)
  Definition account_of (st : vstate) (u : uid) : option account :=
    match u with
    | UReg r => if regid_empty r then None
                else match fget regid_eqb (v_reg st) r with
                     | Some k => l_get (v_ledger st) k
                     | None => None
                     end
    | UKey k => l_get (v_ledger st) k
    | UPub p => l_get (v_ledger st) (pk_keyid p)
    | UNull => None
    end.
  Definition key_of (st : vstate) (u : uid) : option N :=
    match account_of st u with Some a => Some (a_keyid a) | None => None end.

  Definition uid_eqb (u w : uid) : bool :=
    match u, w with
    | UReg r, UReg s => regid_eqb r s
    | UKey k, UKey l => k =? l
    | UPub p, UPub q => p =? q
    | UNull, UNull => true
    | _, _ => false
    end.
  Definition same_kind (u w : uid) : bool :=
    match u, w with
    | UReg _, UReg _ | UKey _, UKey _ | UPub _, UPub _ | UNull, UNull => true
    | _, _ => false
    end.
  (** Whether an id is the owner's public key of the account of another. *)
  Definition is_pubkey_of (st : vstate) (u w : uid) : bool :=
    match account_of st w with
    | Some a => match a_pubkey a, u with Some p, UPub q => p =? q | _, _ => false end
    | None => false
    end.

  (** The search for the entry a vote is about, account.cpp:398-413. *)
  Definition matches (st : vstate) (u w : uid) : bool :=
    if same_kind u w then uid_eqb w u
    else match u with UReg _ => is_pubkey_of st w u | _ => is_pubkey_of st u w end.
  Fixpoint find_entry (st : vstate) (u : uid) (l : list (uid * N))
    : option (list (uid * N) * (uid * N) * list (uid * N)) :=
    match l with
    | [] => None
    | (w, n) :: l' =>
        if matches st u w then Some ([], (w, n), l')
        else match find_entry st u l' with
             | Some (x, y, z) => Some ((w, n) :: x, y, z)
             | None => None
             end
    end.

  (** One vote on a list, account.cpp:415-459. *)
  Definition apply_vote (st : vstate) (l : list (uid * N)) (v : vote) : option (list (uid * N)) :=
    if w_type v =? 1 then
      match find_entry st (w_uid v) l with
      | Some (x, (w, n), z) =>
          if in_range (w_votes v) && in_range (add64 n (w_votes v))
          then Some (x ++ (w, add64 n (w_votes v)) :: z) else None
      | None =>
          if (List.length l =? MAX_CANDIDATES)%nat then None else Some (l ++ [(w_uid v, w_votes v)])
      end
    else if w_type v =? 2 then
      match find_entry st (w_uid v) l with
      | Some (x, (w, n), z) =>
          if in_range (w_votes v) && (w_votes v <=? n)
          then Some (x ++ (if n - w_votes v =? 0 then z else (w, n - w_votes v) :: z)) else None
      | None => None
      end
    else None.
  Fixpoint apply_votes (st : vstate) (l : list (uid * N)) (vs : list vote) : option (list (uid * N)) :=
    match vs with
    | [] => Some l
    | v :: vs' => match apply_vote st l v with Some l' => apply_votes st l' vs' | None => None end
    end.

  (** The coins a list needs, account.cpp:468-477. *)
  Definition needed (r2 : bool) (l : list (uid * N)) : N :=
    if r2 then fold_left (fun s x => add64 s (snd x)) l 0
    else match l with [] => 0 | x :: _ => snd x end.

  (** One [OperateBalance] on an account by itself; account.cpp:479-523. *)
  Definition on_account (a : account) (s : string) (o : balance_op) (v : N) : option account :=
    let r := operate_balance a s o v NoPeer in if ok r then Some (self' r) else None.
  Definition change_votes (a : account) (now : N) : option account :=
    let last := voted (get_token a "WICC") in
    if last <? now then on_account a "WICC" Vote (now - last)
    else if now <? last then on_account a "WICC" Unvote (last - now)
    else Some a.
  Definition pay_interest (e : venv) (r2 : bool) (last : N) (a : account) : option account :=
    if r2 then
      let i := fcoin_interest last (a_last_vote_epoch a) (x_time e) in
      if 0 <? i then on_account a "WGRT" AddFree i else Some a
    else
      let i := bcoin_interest last (a_last_vote_height a) (x_height e) in
      if in_range i then on_account a "WICC" AddFree i else None.
  Definition stamp (e : venv) (a : account) : account :=
    mkAccount (a_keyid a) (a_regid a) (a_pubkey a) (a_tokens a) (a_received_votes a)
      (x_height e) (x_time e) (a_perms a).

  (** [CAccount::ProcessCandidateVotes], account.cpp:383-530. *)
  Definition process (e : venv) (st : vstate) (a : account) (l : list (uid * N)) (vs : list vote)
    : option (account * list (uid * N)) :=
    if x_height e <? a_last_vote_height a then None
    else
      match apply_votes st l vs with
      | None => None
      | Some l1 =>
          let l2 := arrange l1 in
          match change_votes a (needed (v_r2 st) l2) with
          | None => None
          | Some a1 =>
              match pay_interest e (v_r2 st) (voted (get_token a "WICC")) a1 with
              | None => None
              | Some a2 => Some (stamp e a2, l2)
              end
          end
      end.

  (** [StakeVoteBcoins], account.cpp:532-557. *)
  Definition set_received (a : account) (n : N) : account :=
    mkAccount (a_keyid a) (a_regid a) (a_pubkey a) (a_tokens a) n
      (a_last_vote_height a) (a_last_vote_epoch a) (a_perms a).
  Definition stake_votes (a : account) (v : vote) : option account :=
    if w_type v =? 1 then
      let n := add64 (a_received_votes a) (w_votes v) in
      if in_range n then Some (set_received a n) else None
    else if w_type v =? 2 then
      if a_received_votes a <? w_votes v then None
      else Some (set_received a (a_received_votes a - w_votes v))
    else None.

  (** The votes reach the candidate, delegatetx.cpp:77-99; main.cpp:945-972 does the same but
      leaves the ranking alone if the number stays ([rules]). *)
  Definition count_vote (rules : bool) (st : vstate) (v : vote) : option vstate :=
    match account_of st (w_uid v) with
    | None => None
    | Some c =>
        match stake_votes c v with
        | None => None
        | Some c' =>
            let st1 := set_vledger st (l_put (v_ledger st) (a_keyid c) c') in
            if rules && (a_received_votes c' =? a_received_votes c) then Some st1
            else
              let st2 := set_delegate_votes st1 (a_regid c) (a_received_votes c') in
              Some (erase_delegate_votes st2 (a_regid c) (a_received_votes c))
        end
    end.
  Fixpoint count_votes (rules : bool) (st : vstate) (vs : list vote) {struct vs} : option vstate :=
    match vs with
    | [] => Some st
    | v :: vs' => match count_vote rules st v with Some st1 => count_votes rules st1 vs' | None => None end
    end.

  (** [CDelegateVoteTx::CheckTx], delegatetx.cpp:18-56. *)
  Definition vote_ok (e : venv) (st : vstate) (v : vote) : bool :=
    match w_uid v with UReg _ | UPub _ => true | _ => false end
    && negb (w_votes v =? 0) && (w_votes v <=? MAX_BCOINS)
    && match account_of st (w_uid v) with
       | None => false
       | Some c => negb ((w_type v =? 1) && x_r35 e)
                   && (negb (v_r2 st) || match a_pubkey c with Some _ => true | None => false end)
       end.
  Definition check_votes (e : venv) (st : vstate) (vs : list vote) : bool :=
    negb (match vs with [] => true | _ => false end) && (List.length vs <=? MAX_CANDIDATES)%nat
    && forallb (vote_ok e st) vs.

  (** [ExecuteTx], delegatetx.cpp:58-107, for the account with key id [k]. *)
  Definition cast (rules : bool) (e : venv) (st : vstate) (k : N) (vs : list vote) : option vstate :=
    match l_get (v_ledger st) k with
    | None => None
    | Some a =>
        match process e st a (list_of st (a_regid a)) vs with
        | None => None
        | Some (a', l') =>
            count_votes rules (set_list (set_vledger st (l_put (v_ledger st) k a')) (a_regid a) l') vs
        end
    end.
  Definition vote_tx (e : venv) (st : vstate) (k : N) (vs : list vote) : option vstate :=
    match l_get (v_ledger st) k with
    | None => None
    | Some a => if negb (regid_empty (a_regid a)) && check_votes e st vs then cast false e st k vs else None
    end.

  (** [ComputeVoteStakingInterestAndRevokeVotes], main.cpp:884-986, run once in the last block
      with the old rules (main.cpp:1159-1162): every voter keeps the first candidate only. The
      voters are taken in the order of the map. A voter without account is a failure here; the
      code goes on with an empty account, which no history leads to (c09_votes_in_order). *)
  Definition revoke_one (e : venv) (st : vstate) (r : regid) (l : list (uid * N)) : option vstate :=
    match account_of st (UReg r) with
    | None => None
    | Some a => cast true e st (a_keyid a) (map (fun x => mkVote 2 (fst x) (snd x)) (tl l))
    end.
  Fixpoint revoke_all (e : venv) (st : vstate) (ls : list (regid * list (uid * N))) : option vstate :=
    match ls with
    | [] => Some st
    | (r, l) :: ls' => match revoke_one e st r l with Some st1 => revoke_all e st1 ls' | None => None end
    end.
  Definition new_rules (e : venv) (st : vstate) : option vstate :=
    if v_r2 st then None
    else match revoke_all e st (v_lists st) with
         | Some st1 => Some (mkV (v_ledger st1) (v_reg st1) (v_lists st1) (v_rank st1) true)
         | None => None
         end.

  (** What happens: a vote transaction, the change of rules, anything else. *)
  Inductive vaction :=
  | VVote (e : venv) (k : N) (vs : list vote)
  | VRules (e : venv)
  | VElse (st' : vstate).
  Definition vstep (st : vstate) (a : vaction) : option vstate :=
    match a with
    | VVote e k vs => vote_tx e st k vs
    | VRules e => new_rules e st
    | VElse st' => Some st'
    end.

  (** ** The ranking *)

  (** The order of the keys: the number, then the bytes of the registration id. *)
  Fixpoint bytes_ltb (x y : list N) : bool :=
    match x, y with
    | _, [] => false
    | [], _ :: _ => true
    | a :: x', b :: y' => if a =? b then bytes_ltb x' y' else a <? b
    end.
  Definition rank_leb (a b : N * regid) : bool :=
    if fst a =? fst b then negb (bytes_ltb (regid_raw (snd b)) (regid_raw (snd a)))
    else fst a <? fst b.
  Fixpoint insert_rank (x : N * regid) (l : list (N * regid)) : list (N * regid) :=
    match l with
    | [] => [x]
    | y :: l' => if rank_leb x y then x :: l else y :: insert_rank x l'
    end.
  (** Iterating over the ranking. *)
  Definition ranking (st : vstate) : list (N * regid) :=
    fold_right insert_rank [] (map fst (v_rank st)).

  (** [GetTopVoteDelegates], delegatedb.cpp:31-58: registration ids and votes. *)
  Fixpoint take_top (n : nat) (min : option N) (l : list (N * regid)) : list (regid * N) :=
    match n, l with
    | O, _ => []
    | _, [] => []
    | S n', (key, r) :: l' =>
        let votes := two64 - 1 - key in
        if match min with Some m => votes <? m | None => false end then []
        else (r, votes) :: take_top n' min l'
    end.
  Definition top_delegates (st : vstate) (n : N) (min : N) (r3 : bool) : option (list (regid * N)) :=
    match take_top (N.to_nat n) (if r3 then Some min else None) (ranking st) with
    | [] => None
    | l => Some l
    end.
End Vote.
