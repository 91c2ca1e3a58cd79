(** Model of the layered key-value state caches.

    Source: /repo/src/persistence/dbaccess.h, /repo/src/persistence/leveldbwrapper.h,
    /repo/src/persistence/blockundo.{h,cpp}.

    Simplifications, for the whole file:
    - a [std::map] is an association list searched from the front and without duplicate
      keys; the iteration order of the map is not observable through the functions modelled
      here except for [UndoDataList], which iterates a vector;
    - LevelDB is an association list from keys to values: key and value serialisation is
      assumed to round-trip and to be injective (see CodecModel.v for the encodings);
    - the byte accounting ([size], [is_calc_size]) is not modelled: it only decides when the
      node flushes, never what is stored;
    - the [shared_ptr] sharing of values is not modelled: the code copies on every
      transfer between layers (dbaccess.h:516,522,541,743). *)
From Coq Require Import List Bool NArith.
Import ListNotations.

Set Implicit Arguments.

Section Kv.

  Variables K V : Type.
  Variable Keqb : K -> K -> bool.
  (** [db_util::IsEmpty] on keys and on values, [db_util::SetEmpty] on values and
      [db_util::MakeEmptyValue], dbaccess.h:23-255; each instance of the cache template
      chooses its own. *)
  Variable emptyK : K -> bool.
  Variable emptyV : V -> bool.
  Variable set_empty : V -> V.
  Variable empty_value : V.

  (** [mapData] of one cache layer, dbaccess.h:603. *)
  Definition amap := list (K * V).

  (** [mapData.find], [db.Read]. *)
  Fixpoint afind (m : amap) (k : K) : option V :=
    match m with
    | [] => None
    | (k', v) :: m' => if Keqb k k' then Some v else afind m' k
    end.

  (** Assignment to an existing entry, or insertion: [*it->second = value] and
      [mapData.emplace], dbaccess.h:420,534,546. *)
  Fixpoint aset (m : amap) (k : K) (v : V) : amap :=
    match m with
    | [] => [(k, v)]
    | (k', v') :: m' => if Keqb k k' then (k', v) :: m' else (k', v') :: aset m' k v
    end.

  (** [CLevelDBBatch::Erase], leveldbwrapper.h:144-146, applied by [WriteBatch]. *)
  Fixpoint aerase (m : amap) (k : K) : amap :=
    match m with
    | [] => []
    | (k', v') :: m' => if Keqb k k' then aerase m' k else (k', v') :: aerase m' k
    end.

  (** A chain of caches linked by [pBase], top first; the last one has [pDbAccess] set
      and reads and writes the database. *)
  Record stack := mkStack { layers : list amap; db : amap }.

  (** [CCompositeKVCache::GetDataIt], dbaccess.h:507-527. Returns the entry found and the
      layers with the pulled-in copies added. *)
  Fixpoint get_data_it (ls : list amap) (d : amap) (k : K) : option V * list amap :=
    match ls with
    | [] => (afind d k, [])
    | m :: base =>
        match afind m k with
        | Some v => (Some v, m :: base)
        | None =>
            let '(r, base') := get_data_it base d k in
            match r with
            | Some v => (Some v, aset m k v :: base')
            | None => (None, m :: base')
            end
        end
    end.

  (** The top layer's map, and replacing it. *)
  Definition on_top (f : amap -> amap) (ls : list amap) : list amap :=
    match ls with
    | [] => []
    | m :: base => f m :: base
    end.

  (** [pDbOpLogMap] of the top layer restricted to this cache's prefix: [None] when no log
      is attached (nullptr), otherwise the vector of (key, old value) in push order.
      [AddOpLog], dbaccess.h:585-599; leveldbwrapper.h:101-105. The undefined macro
      DB_OP_LOG_NEW_VALUE selects the branch logging the old value only. *)
  Notation oplog := (option (list (K * V))) (only parsing).

  Definition add_op_log (lg : oplog) (k : K) (old : V) : oplog :=
    match lg with
    | None => None
    | Some l => Some (l ++ [(k, old)])
    end.

  (** [GetData], dbaccess.h:396-406. *)
  Definition get_data (s : stack) (k : K) : option V * stack :=
    if emptyK k then (None, s)
    else
      let '(r, ls) := get_data_it (layers s) (db s) k in
      (match r with
       | Some v => if emptyV v then None else Some v
       | None => None
       end, mkStack ls (db s)).

  (** [HasData], dbaccess.h:425-431. *)
  Definition has_data (s : stack) (k : K) : bool * stack :=
    if emptyK k then (false, s)
    else
      let '(r, ls) := get_data_it (layers s) (db s) k in
      (match r with
       | Some v => negb (emptyV v)
       | None => false
       end, mkStack ls (db s)).

  (** [SetData], dbaccess.h:408-423. *)
  Definition set_data (s : stack) (lg : oplog) (k : K) (v : V) : bool * stack * oplog :=
    if emptyK k then (false, s, lg)
    else
      let '(r, ls) := get_data_it (layers s) (db s) k in
      let old := match r with Some o => o | None => empty_value end in
      (true, mkStack (on_top (fun m => aset m k v) ls) (db s), add_op_log lg k old).

  (** [EraseData], dbaccess.h:433-445. *)
  Definition erase_data (s : stack) (lg : oplog) (k : K) : bool * stack * oplog :=
    if emptyK k then (false, s, lg)
    else
      let '(r, ls) := get_data_it (layers s) (db s) k in
      match r with
      | Some o =>
          if emptyV o then (true, mkStack ls (db s), lg)
          else (true, mkStack (on_top (fun m => aset m k (set_empty o)) ls) (db s),
                add_op_log lg k o)
      | None => (true, mkStack ls (db s), lg)
      end.

  (** [SetDataToSelf] into a base cache for every item, dbaccess.h:456-458,530-538. *)
  Definition flush_to_base (top base : amap) : amap :=
    fold_left (fun b kv => aset b (fst kv) (snd kv)) top base.

  (** The LevelDB batch of [Flush], dbaccess.h:461-470. *)
  Definition flush_to_db (top d : amap) : amap :=
    fold_left (fun b kv => if emptyV (snd kv) then aerase b (fst kv)
                           else aset b (fst kv) (snd kv)) top d.

  (** [Flush] of the layer at depth [i] (0 = top), dbaccess.h:452-474, then [Clear],
      447-450. A depth beyond the stack does nothing (there is no such object). *)
  Fixpoint flush_layers (i : nat) (ls : list amap) (d : amap) {struct ls}
    : list amap * amap :=
    match ls with
    | [] => ([], d)
    | m :: base =>
        match i with
        | S i' => let '(base', d') := flush_layers i' base d in (m :: base', d')
        | O =>
            match base with
            | [] => ([[]], flush_to_db m d)
            | b :: rest => ([] :: flush_to_base m b :: rest, d)
            end
        end
    end.

  Definition flush (i : nat) (s : stack) : stack :=
    let '(ls, d) := flush_layers i (layers s) (db s) in mkStack ls d.

  (** [UndoData], dbaccess.h:476-481 ([SetDataToSelf] on the top layer, without pulling or
      logging), and [UndoDataList], 483-487: newest entry first. *)
  Definition undo_data (s : stack) (e : K * V) : stack :=
    mkStack (on_top (fun m => aset m (fst e) (snd e)) (layers s)) (db s).

  Definition undo_data_list (s : stack) (l : list (K * V)) : stack :=
    fold_left undo_data (rev l) s.

  (** One call of the public interface on the top cache, or a flush of some layer. *)
  Inductive op :=
  | OGet (k : K)
  | OHas (k : K)
  | OSet (k : K) (v : V)
  | OErase (k : K)
  | OFlush (i : nat).

  Inductive answer :=
  | AVal (r : option V)
  | ABool (b : bool)
  | AUnit.

  Definition step (st : stack * oplog) (o : op) : answer * (stack * oplog) :=
    let '(s, lg) := st in
    match o with
    | OGet k => let '(r, s') := get_data s k in (AVal r, (s', lg))
    | OHas k => let '(b, s') := has_data s k in (ABool b, (s', lg))
    | OSet k v => let '(b, s', lg') := set_data s lg k v in (ABool b, (s', lg'))
    | OErase k => let '(b, s', lg') := erase_data s lg k in (ABool b, (s', lg'))
    | OFlush i => (AUnit, (flush i s, lg))
    end.

  Fixpoint run (st : stack * oplog) (os : list op) : list answer * (stack * oplog) :=
    match os with
    | [] => ([], st)
    | o :: os' =>
        let '(a, st1) := step st o in
        let '(l, st2) := run st1 os' in
        (a :: l, st2)
    end.

End Kv.

Arguments OGet {K V}.
Arguments OHas {K V}.
Arguments OSet {K V}.
Arguments OErase {K V}.
Arguments OFlush {K V}.
Arguments ABool {V}.
Arguments AUnit {V}.

(** Model of [CSimpleKVCache], dbaccess.h:610-779: a cache of a single value per prefix. *)
Section Simple.

  Variable V : Type.
  Variable emptyV : V -> bool.
  Variable set_empty : V -> V.
  Variable empty_value : V.

  (** [ptrData] of each layer, top first (nullptr = None), and the database record. *)
  Record sstack := mkSStack { slayers : list (option V); sdb : option V }.

  (** [GetDataPtr], dbaccess.h:736-756. The assertion at line 750 (the database holds no
      empty value) is an invariant proved in KvProofs ([simple_db_nonempty]). *)
  Fixpoint get_data_ptr (ls : list (option V)) (d : option V) : option V * list (option V) :=
    match ls with
    | [] => (d, [])
    | Some v :: base => (Some v, Some v :: base)
    | None :: base =>
        let '(r, base') := get_data_ptr base d in (r, r :: base')
    end.

  Definition s_on_top (x : option V) (ls : list (option V)) : list (option V) :=
    match ls with
    | [] => []
    | _ :: base => x :: base
    end.

  Notation soplog := (option (list V)) (only parsing).
  Definition s_add_op_log (lg : soplog) (old : V) : soplog :=
    match lg with None => None | Some l => Some (l ++ [old]) end.

  (** [GetData] and [HasData], dbaccess.h:666-673,685-688. *)
  Definition s_get (s : sstack) : option V * sstack :=
    let '(r, ls) := get_data_ptr (slayers s) (sdb s) in
    (match r with Some v => if emptyV v then None else Some v | None => None end,
     mkSStack ls (sdb s)).

  Definition s_has (s : sstack) : bool * sstack :=
    let '(r, ls) := get_data_ptr (slayers s) (sdb s) in
    (match r with Some v => negb (emptyV v) | None => false end, mkSStack ls (sdb s)).

  (** [SetData], dbaccess.h:675-683. *)
  Definition s_set (s : sstack) (lg : soplog) (v : V) : bool * sstack * soplog :=
    let '(r, ls) := get_data_ptr (slayers s) (sdb s) in
    let old := match r with Some o => o | None => empty_value end in
    (true, mkSStack (s_on_top (Some v) ls) (sdb s), s_add_op_log lg old).

  (** [EraseData], dbaccess.h:690-697. *)
  Definition s_erase (s : sstack) (lg : soplog) : bool * sstack * soplog :=
    let '(r, ls) := get_data_ptr (slayers s) (sdb s) in
    match r with
    | Some o =>
        if emptyV o then (true, mkSStack ls (sdb s), lg)
        else (true, mkSStack (s_on_top (Some (set_empty o)) ls) (sdb s), s_add_op_log lg o)
    | None => (true, mkSStack ls (sdb s), lg)
    end.

  (** [Flush], dbaccess.h:703-715; [CDBAccess::WriteBatch], 310-321. *)
  Fixpoint s_flush_layers (i : nat) (ls : list (option V)) (d : option V) {struct ls}
    : list (option V) * option V :=
    match ls with
    | [] => ([], d)
    | m :: base =>
        match i with
        | S i' => let '(base', d') := s_flush_layers i' base d in (m :: base', d')
        | O =>
            match m with
            | None => (None :: base, d)
            | Some v =>
                match base with
                | [] => ([None], if emptyV v then None else Some v)
                | _ :: rest => (None :: Some v :: rest, d)
                end
            end
        end
    end.

  Definition s_flush (i : nat) (s : sstack) : sstack :=
    let '(ls, d) := s_flush_layers i (slayers s) (sdb s) in mkSStack ls d.

  (** [UndoData] and [UndoDataList], dbaccess.h:717-728. *)
  Definition s_undo (s : sstack) (v : V) : sstack :=
    mkSStack (s_on_top (Some v) (slayers s)) (sdb s).
  Definition s_undo_list (s : sstack) (l : list V) : sstack := fold_left s_undo (rev l) s.

  Inductive sop := SGet | SHas | SSet (v : V) | SErase | SFlush (i : nat).

  Definition sstep (st : sstack * soplog) (o : sop) : answer V * (sstack * soplog) :=
    let '(s, lg) := st in
    match o with
    | SGet => let '(r, s') := s_get s in (AVal r, (s', lg))
    | SHas => let '(b, s') := s_has s in (ABool b, (s', lg))
    | SSet v => let '(b, s', lg') := s_set s lg v in (ABool b, (s', lg'))
    | SErase => let '(b, s', lg') := s_erase s lg in (ABool b, (s', lg'))
    | SFlush i => (AUnit, (s_flush i s, lg))
    end.

  Fixpoint srun (st : sstack * soplog) (os : list sop) : list (answer V) * (sstack * soplog) :=
    match os with
    | [] => ([], st)
    | o :: os' =>
        let '(a, st1) := sstep st o in
        let '(l, st2) := srun st1 os' in
        (a :: l, st2)
    end.

End Simple.

Arguments SGet {V}.
Arguments SHas {V}.
Arguments SErase {V}.
Arguments SFlush {V}.
