(** Model of the schedule of block producers: who is to produce the block of a given time, how a
    block is checked against this, and how votes become the list of producers.

    Source: /repo/src/miner/miner.cpp (GetCurrentDelegate, GetShuffleOriginSeed, ShuffleDelegates,
    VerifyRewardTx), /repo/src/chain/blockdelegates.cpp, /repo/src/config/configuration.h,
    /repo/src/main.cpp (AcceptBlock), /repo/src/persistence/delegatedb.cpp.

    Simplifications: heights and times are not negative (a block's time is a uint32_t, block.h:104).
    A hash is given by its four words of 64 bits; the hashes that follow from a seed are a
    parameter. The Merkle root, the nonce, the version and the reading of the block before are left
    out of the check of a block (they can only lead to more refusals). *)
From Coq Require Import List Bool NArith ZArith.
From Verif Require Import Prelude DexModel.
Import ListNotations.
Open Scope Z_scope.

(** The constants of a network, chainparams.cpp:47-50: the heights at which the second and third
    release start, block intervals in seconds before and after the former, and the number of blocks
    a producer makes in a row before and after the latter. *)
Record rules := mkRules {
  r_ver2 : Z; r_ver3 : Z; r_interval_old : Z; r_interval : Z; r_row_old : Z; r_row : Z }.

(** [GetBlockInterval] and [GetContinuousBlockProduceCount], configuration.h:147-161. *)
Definition interval (r : rules) (h : Z) : Z := if h <? r_ver2 r then r_interval_old r else r_interval r.
Definition in_row (r : rules) (h : Z) : Z := if h <? r_ver3 r then r_row_old r else r_row r.

(** Integer division; by zero it is undefined. *)
Definition quot (a b : Z) : outcome Z := if b =? 0 then Undefined else Done (a / b).

(** [GetShuffleOriginSeed], miner.cpp:155-162. *)
Definition origin_seed (r : rules) (h time : Z) : outcome Z :=
  if h <? r_ver3 r then Done h
  else do s <- quot time (interval r h); quot s (in_row r h).

Section Schedule.
  Context {A : Type}.
  (** [hash seed k x]: word [x] of the [k]-th hash that follows from the text of the number [seed]. *)
  Variable hash : Z -> nat -> nat -> Z.

  (** Reading and writing a vector. *)
  Definition at_index (l : list A) (i : nat) : outcome A :=
    match nth_error l i with Some x => Done x | None => Undefined end.
  Fixpoint set_index (l : list A) (i : nat) (x : A) : list A :=
    match l, i with
    | [], _ => []
    | _ :: l, O => x :: l
    | y :: l, S i => y :: set_index l i x
    end.

  (** The exchange of two elements, miner.cpp:178-180. *)
  Definition exchange (l : list A) (i j : nat) : outcome (list A) :=
    do d <- at_index l j;
    do e <- at_index l i;
    Done (set_index (set_index l j e) i d).

  (** The inner loop, miner.cpp:175-181, with [k] of its four rounds left: the words of one hash. *)
  Fixpoint shuffle_words (word : nat -> Z) (n k i x : nat) (l : list A) : outcome (nat * list A) :=
    match k with
    | O => Done (i, l)
    | S k =>
        if Nat.ltb i n then
          do m <- (if (Z.of_nat n =? 0) then Undefined else Done (word x mod Z.of_nat n));
          do l1 <- exchange l i (Z.to_nat m);
          shuffle_words word n k (S i) (S x) l1
        else Done (i, l)
    end.

  (** The outer loop, miner.cpp:174-184. It moves on by one more position each time, so positions 4,
      9, 14, ... are never the first of an exchange. At most [n] rounds. *)
  Fixpoint shuffle_rounds (seed : Z) (n fuel round i : nat) (l : list A) : outcome (list A) :=
    if Nat.ltb i n then
      match fuel with
      | O => Undefined
      | S fuel =>
          do r <- shuffle_words (hash seed round) n 4 i 0 l;
          shuffle_rounds seed n fuel (S round) (S (fst r)) (snd r)
      end
    else Done l.

  (** [ShuffleDelegates], miner.cpp:164-185. The seed is divided as a uint64_t, and rounded up. *)
  Definition shuffle (r : rules) (h time : Z) (l : list A) : outcome (list A) :=
    do o <- origin_seed r h time;
    let n := Z.of_nat (length l) in
    let o64 := o mod 2 ^ 64 in
    do q <- quot o64 n;
    let seed := q + (if 0 <? o64 mod n then 1 else 0) in
    shuffle_rounds seed (length l) (length l) 0 0 l.

  (** [GetCurrentDelegate], miner.cpp:113-123. The slot is a uint32_t. *)
  Definition current (r : rules) (time h : Z) (l : list A) : outcome A :=
    do s <- quot time (interval r h);
    do s <- quot s (in_row r h);
    if Z.of_nat (length l) =? 0 then Undefined
    else at_index l (Z.to_nat ((s mod 2 ^ 32) mod Z.of_nat (length l))).

  (** Both together, miner.cpp:196-199, 619-621. *)
  Definition on_duty (r : rules) (h time : Z) (l : list A) : outcome A :=
    do l1 <- shuffle r h time l;
    current r time h l1.
End Schedule.

(** ** The check of a block *)

(** An account: its registration id and its two public keys. *)
Record acct := mkAcct { a_regid : N; a_owner : N; a_miner : N }.

(** What is looked at of a block: its height, time, hash, signature (and the length of it) and the
    user id in its reward transaction. *)
Section Check.
  Context {Uid : Type}.
  Record blk := mkBlk {
    b_height : Z; b_time : Z; b_hash : N; b_sig : N; b_sig_size : N; b_uid : Uid }.

  Variable hash : Z -> nat -> nat -> Z.
  (** [VerifySignature]. *)
  Variable signed : N -> N -> N -> bool.

  Definition MAX_SIGNATURE_SIZE : N := 100.    (* const.h:190 *)

  (** [VerifyRewardTx], miner.cpp:188-296. [by_reg] and [by_uid] find accounts ([GetAccount]),
      [delegates] is the list of active producers (empty if there is none, delegatedb.cpp:130-136),
      [first] tells whether the block follows the first block, [prev] is the block before. *)
  Definition verify_reward (r : rules) (by_reg : N -> option acct) (by_uid : Uid -> option acct)
    (delegates : list N) (first : bool) (prev b : blk) : outcome unit :=
    do _ <- guard (negb (Nat.eqb (length delegates) 0));
    do d <- on_duty hash r (b_height b) (b_time b) delegates;
    do da <- need (by_reg d);
    do _ <- (if first then Done tt
             else
               do pa <- need (by_uid (b_uid prev));
               guard (negb ((b_time b - b_time prev <? interval r (b_height b))
                            && (a_regid pa =? a_regid da)%N)));
    do a <- need (by_uid (b_uid b));
    do _ <- guard (a_regid da =? a_regid a)%N;
    do _ <- guard (negb ((b_sig_size b =? 0) || (MAX_SIGNATURE_SIZE <? b_sig_size b))%N);
    guard (signed (b_hash b) (b_sig b) (a_owner a) || signed (b_hash b) (b_sig b) (a_miner a)).

  (** The checks of height and time in [AcceptBlock], main.cpp:1907-1920. *)
  Definition timely (r : rules) (prev b : blk) : outcome unit :=
    do _ <- guard (b_height b =? b_height prev + 1);
    guard (negb ((b_time b <=? b_time prev) || (b_time b - b_time prev <? interval r (b_height b)))).
End Check.

(** ** From votes to producers *)

(** [VoteDelegate], vote.h:169-189: a registration id and its votes. [PendingDelegates],
    vote.h:191-201. *)
Notation vd := (N * N)%type (only parsing).
Inductive pstate := PNone | PPending | PActivated.
Record pending := mkPending { p_state : pstate; p_counted : Z; p_top : list vd }.
Record lists := mkLists { l_pending : pending; l_active : list vd }.

(** The start: nothing is stored. *)
Definition no_lists : lists := mkLists (mkPending PNone 0 []) [].

Definition pstate_is (a b : pstate) : bool :=
  match a, b with PNone, PNone | PPending, PPending | PActivated, PActivated => true | _, _ => false end.
Fixpoint vds_eqb (a b : list vd) : bool :=
  match a, b with
  | [], [] => true
  | x :: a, y :: b => (fst x =? fst y)%N && (snd x =? snd y)%N && vds_eqb a b
  | _, _ => false
  end.

(** What a block brings: its height, the ranking by votes (best first) with the number of producers
    wanted and the fewest votes, and the height of the last vote. *)
Record tally := mkTally { t_height : Z; t_ranking : list vd; t_number : N; t_min : N; t_last : Z }.

(** [GetTopVoteDelegates], delegatedb.cpp:31-58: an empty list is a failure. *)
Fixpoint top_of (r3 : bool) (number : nat) (least : N) (l : list vd) : list vd :=
  match number, l with
  | S k, x :: l => if r3 && (snd x <? least)%N then [] else x :: top_of r3 k least l
  | _, _ => []
  end.
Definition top_votes (r3 : bool) (t : tally) : list vd :=
  top_of r3 (N.to_nat (t_number t)) (t_min t) (t_ranking t).

(** [GenPendingDelegates], blockdelegates.cpp:22-56. The least number of votes is 0 from release 3.5
    on, part of [t_min] here. *)
Definition gen_pending (r3 : bool) (t : tally) (active : list vd) (p : pending) : pending :=
  let top := top_votes r3 t in
  match top with
  | [] => mkPending (p_state p) (t_height t) (p_top p)
  | _ => if negb (Nat.eqb (length active) 0) && vds_eqb top active
         then mkPending (p_state p) (t_height t) top
         else mkPending PPending (t_height t) top
  end.

(** [ProcessBlockDelegates], blockdelegates.cpp:69-143, without the inflated reward. The intervals
    are those of const.h:224-227. The difference of heights is one of uint32_t. *)
Definition count_interval (r3 : bool) : Z := if r3 then 100 else 0.
Definition activate_delay (r3 : bool) : Z := if r3 then 100 else 0.
Definition process_delegates (r : rules) (t : tally) (s : lists) : lists :=
  let r3 := r_ver3 r <=? t_height t in
  let p0 := l_pending s in
  let counting :=
    negb (pstate_is (p_state p0) PPending)
    && ((count_interval r3 =? 0) || (t_height t mod count_interval r3 =? 0))
    && ((p_counted p0 =? 0) || (p_counted p0 <? t_last t)
        || negb (N.of_nat (length (l_active s)) =? t_number t)%N) in
  let p1 := if counting then gen_pending r3 t (l_active s) p0 else p0 in
  if negb (pstate_is (p_state p1) PActivated)
     && (activate_delay r3 <=? (t_height t - p_counted p1) mod 2 ^ 32)
  then mkLists (mkPending PActivated (p_counted p1) (p_top p1)) (p_top p1)
  else mkLists p1 (l_active s).
