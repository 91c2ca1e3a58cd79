(** Model of the ordered containers of the code, with the order each of them is given: the caches
    of the CDP parameters, which are ordered by coin pairs, and the candidates for a block, which
    are ordered by priority and fee.

    Source: /repo/src/config/scoin.h:163-185, /repo/src/persistence/dbaccess.h:333-605,
    /repo/src/persistence/sysparamdb.h:75-171,290-294, /repo/src/miner/miner.h:42-61,
    /repo/src/miner/miner.cpp:90-110,322-330,454-477, /repo/src/tx/tx.h:177-179,
    /repo/src/tx/pricefeedtx.h:45, /repo/src/config/scoin.h:37-39.

    [std::map] and [std::set] are the search trees of the C++ library the code is built with
    (GNU libstdc++, bits/stl_tree.h): search and the choice of the place of a new entry are modelled
    step by step ([_M_lower_bound], [find], [_M_get_insert_unique_pos]); the rotations that follow
    an insertion are any function that keeps the entries in their sequence, and leaves trees of at
    most two entries as they are (a red-black tree of two entries is never rotated).

    KvModel.v models the same caches over maps that are assumed to work; here that assumption is
    examined. Simplifications: the log for undoing and the byte counts are left out, as there. *)
From Coq Require Import String Ascii List Bool NArith ZArith.
From Flocq Require Import BinarySingleNaN.
From Verif Require Import Prelude DexModel DoubleModel.
Import ListNotations.

Set Implicit Arguments.

Section Tree.
  Variables K V C : Type.
  (** The comparison of the container, [_M_impl._M_key_compare]. *)
  Variable lt : K -> K -> bool.
  (** The colour of a new node, and the rotations and colourings that follow an insertion,
      [_Rb_tree_insert_and_rebalance]. *)
  Variable red : C.

  Inductive tree := Leaf | Node (c : C) (l : tree) (k : K) (v : V) (r : tree).
  Variable rotate : tree -> tree.

  (** The entries in the sequence of the iterators. *)
  Fixpoint entries (t : tree) : list (K * V) :=
    match t with Leaf => [] | Node _ l k v r => entries l ++ (k, v) :: entries r end.

  (** [_M_lower_bound]: the last node met that is not below the key. *)
  Fixpoint lower (t : tree) (k : K) (y : option (K * V)) : option (K * V) :=
    match t with
    | Leaf => y
    | Node _ l k' v r => if lt k' k then lower r k y else lower l k (Some (k', v))
    end.

  (** [find]: the lower bound, if the key is not below it. *)
  Definition find (t : tree) (k : K) : option V :=
    match lower t k None with
    | Some (k', v) => if lt k k' then None else Some v
    | None => None
    end.

  (** [_M_get_insert_unique_pos]: the way down to the place of a new entry; the last node left to
      the right is the entry before that place. *)
  Fixpoint before (t : tree) (k : K) (j : option K) : option K :=
    match t with
    | Leaf => j
    | Node _ l k' _ r => if lt k k' then before l k j else before r k (Some k')
    end.
  Fixpoint place (t : tree) (k : K) (v : V) : tree :=
    match t with
    | Leaf => Node red Leaf k v Leaf
    | Node c l k' v' r =>
        if lt k k' then Node c (place l k v) k' v' r else Node c l k' v' (place r k v)
    end.

  Fixpoint nodes (t : tree) : nat :=
    match t with Leaf => 0 | Node _ l _ _ r => S (nodes l + nodes r) end.
  Definition settle (t : tree) : tree := if Nat.leb (nodes t) 2 then t else rotate t.

  (** [emplace]: [None] when an entry is found in place of the new one. *)
  Definition emplace (t : tree) (k : K) (v : V) : option tree :=
    match before t k None with
    | Some j => if lt j k then Some (settle (place t k v)) else None
    | None => Some (settle (place t k v))
    end.

  (** Assignment through the iterator that [find] returned. *)
  Fixpoint assign (t : tree) (k : K) (v : V) : tree :=
    match t with
    | Leaf => Leaf
    | Node c l k' v' r =>
        if lt k' k then Node c l k' v' (assign r k v)
        else match lower l k None with
             | None => Node c l k' v r
             | Some _ => Node c (assign l k v) k' v' r
             end
    end.
End Tree.
Arguments Leaf {K V C}.

(** The caches of dbaccess.h over such maps. *)
Section Cache.
  Variables K V C : Type.
  Variable lt : K -> K -> bool.
  Variable red : C.
  Notation tree := (tree K V C).
  Variable rotate : tree -> tree.
  (** Equality of the keys as the database sees them, by their bytes. *)
  Variable Keqb : K -> K -> bool.
  (** [db_util::IsEmpty], for keys and values. *)
  Variable emptyK : K -> bool.
  Variable emptyV : V -> bool.

  Notation emplace := (emplace lt red rotate).
  Notation find := (find lt).

  (** A chain of caches linked by [pBase], the top first; below the last one the database. *)
  Record stack := mkStack { s_layers : list tree; s_db : K -> option V }.

  (** [GetDataIt], dbaccess.h:507-527: the value found, and the layers with the copies added to
      them. [Abort]: [AddDataToMap] throws, 546-548. *)
  Fixpoint get_it (ls : list tree) (d : K -> option V) (k : K) : outcome (option V * list tree) :=
    match ls with
    | [] => Done (d k, [])
    | m :: base =>
        match find m k with
        | Some v => Done (Some v, m :: base)
        | None =>
            do r <- get_it base d k;
            match fst r with
            | Some v =>
                match emplace m k v with
                | Some m' => Done (Some v, m' :: snd r)
                | None => Abort
                end
            | None => Done (None, m :: snd r)
            end
        end
    end.

  (** [GetData], dbaccess.h:396-406. *)
  Definition get_data (s : stack) (k : K) : outcome (option V * stack) :=
    if emptyK k then Done (None, s)
    else
      do r <- get_it (s_layers s) (s_db s) k;
      Done (match fst r with
            | Some v => if emptyV v then None else Some v
            | None => None
            end, mkStack (snd r) (s_db s)).

  (** [SetDataToSelf], dbaccess.h:530-538. *)
  Definition set_self (m : tree) (k : K) (v : V) : outcome tree :=
    match find m k with
    | Some _ => Done (assign lt m k v)
    | None => match emplace m k v with Some m' => Done m' | None => Abort end
    end.

  (** [SetData], dbaccess.h:408-423; it returns false for an empty key. *)
  Definition set_data (s : stack) (k : K) (v : V) : outcome stack :=
    if emptyK k then Reject
    else
      match s_layers s with
      | [] => Undefined
      | m :: base =>
          match find m k with
          | Some _ => Done (mkStack (assign lt m k v :: base) (s_db s))
          | None =>
              do r <- get_it base (s_db s) k;
              match emplace m k v with
              | Some m' => Done (mkStack (m' :: snd r) (s_db s))
              | None => Abort
              end
          end
      end.

  (** [UndoData], dbaccess.h:476-481. *)
  Definition undo_data (s : stack) (k : K) (v : V) : outcome stack :=
    match s_layers s with
    | [] => Undefined
    | m :: base => do m' <- set_self m k v; Done (mkStack (m' :: base) (s_db s))
    end.

  (** [Flush], dbaccess.h:452-474: the entries go to the base, or to the database, where empty
      values are erased; then the map is cleared. *)
  Fixpoint pour (es : list (K * V)) (m : tree) : outcome tree :=
    match es with
    | [] => Done m
    | (k, v) :: es => do m' <- set_self m k v; pour es m'
    end.
  Fixpoint write (es : list (K * V)) (d : K -> option V) : K -> option V :=
    match es with
    | [] => d
    | (k, v) :: es =>
        write es (fun x => if Keqb x k then if emptyV v then None else Some v else d x)
    end.
  Definition flush (s : stack) : outcome stack :=
    match s_layers s with
    | [] => Undefined
    | [m] => Done (mkStack [Leaf] (write (entries m) (s_db s)))
    | m :: b :: base => do b' <- pour (entries m) b; Done (mkStack (Leaf :: b' :: base) (s_db s))
    end.

  (** What happens to a chain of caches. [ONew]: a cache is put on top, as for a block or a
      transaction; [ODrop]: the top one is given up. *)
  Inductive op := OSet (k : K) (v : V) | OGet (k : K) | OUndo (k : K) (v : V) | ONew | OFlush | ODrop.

  Definition step (s : stack) (o : op) : outcome (list (option V) * stack) :=
    match o with
    | OSet k v => do s' <- set_data s k v; Done ([], s')
    | OGet k => do r <- get_data s k; Done ([fst r], snd r)
    | OUndo k v => do s' <- undo_data s k v; Done ([], s')
    | ONew => Done ([], mkStack (Leaf :: s_layers s) (s_db s))
    | OFlush => do s' <- flush s; Done ([], s')
    | ODrop =>
        match s_layers s with
        | _ :: b :: base => Done ([], mkStack (b :: base) (s_db s))
        | _ => Reject
        end
    end.

  (** A sequence of them: all that was read, and the caches at the end. *)
  Fixpoint run (s : stack) (os : list op) : outcome (list (option V) * stack) :=
    match os with
    | [] => Done ([], s)
    | o :: os =>
        do r <- step s o;
        do r2 <- run (snd r) os;
        Done (fst r ++ fst r2, snd r2)
    end.
End Cache.
Arguments ONew {K V}.
Arguments OFlush {K V}.
Arguments ODrop {K V}.
Arguments OGet {K V} k.

(** [std::string::operator<]: the bytes in their sequence, the shorter one first. *)
Fixpoint str_lt (a b : string) : bool :=
  match a, b with
  | EmptyString, EmptyString => false
  | EmptyString, String _ _ => true
  | String _ _, EmptyString => false
  | String x a, String y b =>
      if N.ltb (N_of_ascii x) (N_of_ascii y) then true
      else if N.ltb (N_of_ascii y) (N_of_ascii x) then false
      else str_lt a b
  end.

(** [CCdpCoinPair::operator<], scoin.h:179-181. *)
Definition coins_lt (a b : string * string) : bool :=
  str_lt (fst a) (fst b) || str_lt (snd a) (snd b).

(** [std::pair::operator<]. *)
Definition pair_lt {A B} (la : A -> A -> bool) (lb : B -> B -> bool) (a b : A * B) : bool :=
  la (fst a) (fst b) || (negb (la (fst b) (fst a)) && lb (snd a) (snd b)).

(** The key of the CDP parameters, [pair<CCdpCoinPair, uint8_t>], sysparamdb.h:292; that of the
    history of interest parameters, sysparamdb.h:294, is the coin pair alone. *)
Definition param_lt : (string * string) * N -> (string * string) * N -> bool := pair_lt coins_lt N.ltb.
Definition param_eqb (a b : (string * string) * N) : bool :=
  String.eqb (fst (fst a)) (fst (fst b)) && String.eqb (snd (fst a)) (snd (fst b)) &&
  N.eqb (snd a) (snd b).
(** [IsEmpty] of a pair, dbaccess.h:167-169; of a coin pair, scoin.h:191; of an integer and of a
    [CVarIntValue]: zero. *)
Definition param_empty (a : (string * string) * N) : bool :=
  String.eqb (fst (fst a)) "" && String.eqb (snd (fst a)) "" && N.eqb (snd a) 0.

Definition coins_eqb (a b : string * string) : bool :=
  String.eqb (fst a) (fst b) && String.eqb (snd a) (snd b).
Definition coins_empty (a : string * string) : bool := String.eqb (fst a) "" && String.eqb (snd a) "".

(** The candidates for a block, miner.h:42-61: [priority], [feePerKb] and the hash. *)
Record cand := mkCand { q_prio : double; q_fee : double; q_hash : N }.

(** [fabs]. *)
Definition dabs (x : double) : double := Babs x.

(** [TxPriority::operator<], miner.h:50-60. The argument of the second [fabs] is a comparison: zero
    or one, against 1e-8. *)
Definition cand_lt (a b : cand) : bool :=
  if dle (dabs (dsub (q_prio a) (q_prio b))) (of_Z 1000) then
    if dlt (q_fee a) (q_fee b) then dlt (q_fee a) (q_fee b)
    else N.ltb (q_hash a) (q_hash b)
  else dlt (q_prio a) (q_prio b).

(** A transaction in the pool: the amount of its fee, its fuel fee at the present rate, its size,
    whether it is a price feed, its hash. *)
Record poolt := mkPoolt { t_fee : N; t_fuel : N; t_size : N; t_feed : bool; t_hash : N }.

(** [GetPriority], tx.h:177-179, pricefeedtx.h:45, scoin.h:37-39, and the fee for 1000 bytes,
    miner.cpp:100-105. The subtraction is one of unsigned numbers. *)
Definition prio_of (x : poolt) : double :=
  if t_feed x then of_Z 20000 else ddiv (of_Z 1000) (of_N (t_size x)).
Definition rate_of (x : poolt) : double :=
  dmul (ddiv (of_N (sub64 (t_fee x) (t_fuel x))) (of_N (t_size x))) (of_Z 1000).
Definition cand_of (x : poolt) : cand := mkCand (prio_of x) (rate_of x) (t_hash x).

(** [GetPriorityTx], miner.cpp:91-110, for the transactions that pass the test of line 99, in the
    sequence of the pool's map, which is that of their hashes; [emplace] into the set does nothing
    when it finds an entry. *)
Section Candidates.
  Variable C : Type.
  Variable red : C.
  Variable rotate : tree cand poolt C -> tree cand poolt C.
  Fixpoint gather (l : list poolt) (t : tree cand poolt C) : tree cand poolt C :=
    match l with
    | [] => t
    | x :: l =>
        gather l (match emplace cand_lt red rotate t (cand_of x) x with Some t' => t' | None => t end)
    end.
  (** The sequence in which the loop of miner.cpp:329 looks at them, from [rbegin()] to [rend()]. *)
  Definition taken (l : list poolt) : list poolt := rev (map snd (entries (gather l Leaf))).

  (** After the release of stable coins the producer adds its transaction of median prices and, when
      loans are due, the one that settles their interest, miner.cpp:458-468. Their fee is given as
      zero. *)
  Definition median_cand (m : poolt) : cand := mkCand (of_Z 10000) (of_Z 0) (t_hash m).
  Definition settle_cand (s : poolt) : cand := mkCand (of_Z 1000) (of_Z 0) (t_hash s).
  Definition add_cand (t : tree cand poolt C) (k : cand) (x : poolt) : tree cand poolt C :=
    match emplace cand_lt red rotate t k x with Some t' => t' | None => t end.
  Definition collect (l : list poolt) (m : poolt) (s : option poolt) : tree cand poolt C :=
    let t := add_cand (gather l Leaf) (median_cand m) m in
    match s with Some s => add_cand t (settle_cand s) s | None => t end.
  (** The loop of miner.cpp:477. *)
  Definition looked_at (l : list poolt) (m : poolt) (s : option poolt) : list poolt :=
    rev (map snd (entries (collect l m s))).
End Candidates.
