(** Iterating over a stack of caches on a database, persistence/dbiterator.h.

    A cache is the content of its [std::map], in the order of the key type; the database is a list
    of entries in the order of the bytes of their keys. An iterator's position is the list of the
    entries ahead of it. Not modelled: encoding and decoding of keys and values (C23, C25), failures
    to decode, writing while iterating, moving an iterator that is not valid (an assertion). *)
From Coq Require Import List Bool NArith.
From Verif Require Import Prelude CodecModel.
Import ListNotations.

Section Iter.
Context {K V : Type}.
(** The comparison of the key type; that of the keys' bytes, by which the database orders them; empty
    values, which stand for erased ones; empty keys ([db_util::IsEmpty]). *)
Variable ltb : K -> K -> bool.
Variable dltb : K -> K -> bool.
Variable no_value : V -> bool.
Variable no_key : K -> bool.

Fixpoint skip {A} (f : A -> bool) (l : list A) : list A :=
  match l with [] => [] | x :: l' => if f x then skip f l' else l end.

(** [CDBBaseIterator], dbiterator.h:11-50: positions, the three ways to start, the step, and the
    current entry if the iterator is valid. *)
Record iter := mkIter { St : Type; i_first : St; i_seek : K -> St; i_upper : K -> St;
  i_next : St -> St; i_cur : St -> option (K * V) }.

(** [CDBAccessIterator], dbiterator.h:53-119. *)
Definition db_iter (d : list (K * V)) : iter :=
  let seek k := skip (fun e => dltb (fst e) k) d in
  mkIter (list (K * V)) d
    (fun k => if no_key k then d else seek k)
    (fun k => if no_key k then d
      else match seek k with
           | e :: l => if negb (dltb (fst e) k) && negb (dltb k (fst e)) then l else e :: l
           | [] => []
           end)
    (@tl _) (@hd_error _).

(** [CCacheMapIterator], dbiterator.h:122-167. *)
Definition map_seek (m : list (K * V)) (k : K) : list (K * V) :=
  if no_key k then m else skip (fun e => ltb (fst e) k) m.
Definition map_upper (m : list (K * V)) (k : K) : list (K * V) :=
  if no_key k then m else skip (fun e => negb (ltb k (fst e))) m.

(** [CDBCacheIteratorImpl], dbiterator.h:169-294: the positions in the map and in the base, the current
    entry, [is_map_data] and [is_same_key]. *)
Record mstate (B : Type) := mkMs { ms_map : list (K * V); ms_base : B; ms_cur : option (K * V);
  ms_from_map : bool; ms_same : bool }.
Arguments mkMs {B}. Arguments ms_map {B}. Arguments ms_base {B}. Arguments ms_cur {B}.
Arguments ms_from_map {B}. Arguments ms_same {B}.

(** [ProcessGetData], dbiterator.h:269-293: the entry, and whether it is the map's, and whether both
    have the key. *)
Definition pick (a b : option (K * V)) : option (K * V * bool * bool) :=
  match a, b with
  | Some x, Some y =>
      if ltb (fst y) (fst x) then Some (y, false, false)
      else if ltb (fst x) (fst y) then Some (x, true, false)
      else Some (x, true, true)
  | Some x, None => Some (x, true, false)
  | None, Some y => Some (y, false, false)
  | None, None => None
  end.

Section Level.
Variable base : iter.
(** [InternalNext], dbiterator.h:238-249. *)
Definition advance (from_map same : bool) (m : list (K * V)) (b : St base) : list (K * V) * St base :=
  if from_map then (tl m, if same then i_next base b else b) else (m, i_next base b).
(** [ProcessData], dbiterator.h:251-267: empty values are passed over. The number bounds the loop; C41
    says that it is large enough. *)
Fixpoint process (fuel : nat) (m : list (K * V)) (b : St base) : mstate (St base) :=
  match pick (hd_error m) (i_cur base b) with
  | None => mkMs m b None false false
  | Some (e, fm, same) =>
      if no_value (snd e) then
        match fuel with
        | O => mkMs m b None false false
        | S fuel => let p := advance fm same m b in process fuel (fst p) (snd p)
        end
      else mkMs m b (Some e) fm same
  end.
Definition cache_iter (fuel : nat) (m : list (K * V)) : iter :=
  mkIter (mstate (St base))
    (process fuel m (i_first base))
    (fun k => if no_key k then process fuel m (i_first base) else process fuel (map_seek m k) (i_seek base k))
    (fun k => if no_key k then process fuel m (i_first base) else process fuel (map_upper m k) (i_upper base k))
    (fun s => match ms_cur s with
              | None => s
              | Some _ => let p := advance (ms_from_map s) (ms_same s) (ms_map s) (ms_base s) in process fuel (fst p) (snd p)
              end)
    ms_cur.
End Level.

(** [Create], dbiterator.h:179-188: one level for each cache, the last on the database. *)
Definition entries (caches : list (list (K * V))) (d : list (K * V)) : nat := length (concat caches) + length d.
Fixpoint stack_iter (fuel : nat) (caches : list (list (K * V))) (d : list (K * V)) : iter :=
  match caches with
  | [] => db_iter d
  | m :: caches => cache_iter (stack_iter fuel caches d) fuel m
  end.
Definition open_iter (caches : list (list (K * V))) (d : list (K * V)) : iter :=
  stack_iter (entries caches d) caches d.

(** [CDBPrefixIterator], dbiterator.h:434-471: starts at the key made of the prefix, and is valid as
    long as the keys match. *)
Definition prefix_cur (it : iter) (matches : K -> bool) (s : St it) : option (K * V) :=
  match i_cur it s with
  | Some e => if matches (fst e) then Some e else None
  | None => None
  end.

(** Collecting what an iterator shows: [for (it.First(); it.IsValid(); it.Next())]. *)
Fixpoint collect (it : iter) (cur : St it -> option (K * V)) (n : nat) (s : St it) : list (K * V) :=
  match n with
  | O => []
  | S n => match cur s with Some e => e :: collect it cur n (i_next it s) | None => [] end
  end.
End Iter.
Arguments iter : clear implicits.

(** Orders of keys. That of bytes: [leveldb]'s, that of [std::string], that of [uint256]. *)
Fixpoint byte_ltb (a b : list N) : bool :=
  match a, b with
  | _, [] => false
  | [], _ => true
  | x :: a, y :: b => if x <? y then true else if y <? x then false else byte_ltb a b
  end.
(** Heights and the like ([CFixedUInt32], [CFixedUInt64]): compared as numbers, stored with a fixed width (C25). *)
Definition fixed_dltb (w : N) (a b : N) : bool := byte_ltb (write_fixed w a) (write_fixed w b).
(** Registration ids ([CRegIDKey], C25). *)
Definition regid_ltb (a b : N * N) : bool :=
  if fst a <? fst b then true else if fst b <? fst a then false else snd a <? snd b.
Definition regid_dltb (a b : N * N) : bool := byte_ltb (write_regid_key a) (write_regid_key b).
(** Token symbols: compared as strings, stored with their length before them. Symbols have at most 7
    characters (config/const.h:132). *)
Definition symbol_bytes (s : list N) : list N := N.of_nat (length s) :: s.
Definition symbol_dltb (a b : list N) : bool := byte_ltb (symbol_bytes a) (symbol_bytes b).
(** [CCdpCoinPair], config/scoin.h:163-198: the comparison of pairs of a collateral and a stable coin,
    179-181. *)
Definition pair_ltb (a b : list N * list N) : bool := byte_ltb (fst a) (fst b) || byte_ltb (snd a) (snd b).
(** The keys of the index of loans by height, cdpdb.h:29: the pair, the height, the loan. *)
Notation loan_key := ((list N * list N) * N * N)%type (only parsing).
Definition loan_ltb (a b : loan_key) : bool :=
  let '(pa, ha, ia) := a in let '(pb, hb, ib) := b in
  if pair_ltb pa pb then true else if pair_ltb pb pa then false
  else if ha <? hb then true else if hb <? ha then false else ia <? ib.
(** The identity of a loan, 32 bytes compared as such, is a number here. *)
Definition loan_bytes (k : loan_key) : list N :=
  let '(p, h, i) := k in symbol_bytes (fst p) ++ symbol_bytes (snd p) ++ write_fixed 64 h ++ write_fixed 256 i.
Definition loan_dltb (a b : loan_key) : bool := byte_ltb (loan_bytes a) (loan_bytes b).
(** [MatchPrefix] with a pair, dbiterator.h:405-409, and [operator==], config/scoin.h:183-185. *)
Definition of_pair (p : list N * list N) (k : loan_key) : bool :=
  let '(q, _, _) := k in
  (if list_eq_dec N.eq_dec (fst q) (fst p) then true else false) && (if list_eq_dec N.eq_dec (snd q) (snd p) then true else false).
(** [IsEmpty] of such keys; [MakeKeyByPrefix], dbiterator.h:367-371. *)
Definition no_loan_key (k : loan_key) : bool :=
  match k with (([], []), 0, 0) => true | _ => false end.
Definition pair_start (p : list N * list N) : loan_key := (p, 0, 0).
(** [CreateCdpHeightIndexIt] (cdpdb.h:62-64), the loop over it: the loans of a pair by height. The
    [CUserCDP] stored is a number, 0 if it is erased. *)
Definition loans_of (caches : list (list (loan_key * N))) (d : list (loan_key * N)) (p : list N * list N) : list (loan_key * N) :=
  let it := open_iter loan_ltb loan_dltb (N.eqb 0) no_loan_key caches d in
  collect it (prefix_cur it (of_pair p)) (entries caches d) (i_seek it (pair_start p)).
