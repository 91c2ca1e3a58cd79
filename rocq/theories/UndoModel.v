(** Model of block undo across all the state stores.

    Source: /repo/src/persistence/blockundo.h:20-90, blockundo.cpp:112-132,
    /repo/src/persistence/leveldbwrapper.h:87-116, /repo/src/persistence/cachewrapper.cpp
    (SetDbOpLogMap, GetUndoDataFuncMap).

    Simplifications: all stores share one key type and one value type (the key and value
    types of the C++ templates are the summands), with per-store emptiness predicates;
    serialisation of the undo data to disk is assumed to round-trip; the map from prefix to
    cache object is a total function on prefix numbers. *)
From Coq Require Import List Bool NArith.
From Verif Require Import KvModel.
Import ListNotations.
Local Open Scope N_scope.

Set Implicit Arguments.

Section Undo.
  Variables K V : Type.
  Variable Keqb : K -> K -> bool.
  Variable emptyK : N -> K -> bool.
  Variable emptyV : N -> V -> bool.
  Variable set_empty : N -> V -> V.
  Variable empty_value : N -> V.

  (** The cache object of one prefix, with all its layers: [CCompositeKVCache] or
      [CSimpleKVCache]. *)
  Inductive store :=
  | Comp (s : stack K V)
  | Simp (s : sstack V).

  (** All stores of a [CCacheWrapper], by prefix. *)
  Notation world := (N -> store).
  Definition wupd (w : world) (p : N) (s : store) : world :=
    fun q => if N.eqb q p then s else w q.

  (** One logged operation, [CDbOpLog], leveldbwrapper.h:20-82: a key for composite caches,
      none for single-value caches, and the old value. *)
  Notation entry := (option K * V)%type.

  (** [CDBOpLogMap], leveldbwrapper.h:87-116: a map ordered by prefix. [logmap_add] is
      [mapDbOpLogs[prefix].push_back], with the vector of several entries at once. *)
  Notation logmap := (list (N * list entry)).
  Fixpoint logmap_add (m : logmap) (p : N) (es : list entry) : logmap :=
    match m with
    | [] => [(p, es)]
    | (q, l) :: m' =>
        if N.eqb p q then (q, l ++ es) :: m'
        else if N.ltb p q then (p, es) :: m
        else (q, l) :: logmap_add m' p es
    end.

  Definition to_sop (o : op K V) : sop V :=
    match o with
    | OGet _ => SGet
    | OHas _ => SHas
    | OSet _ v => SSet v
    | OErase _ => SErase
    | OFlush i => SFlush i
    end.

  (** One call on the cache of prefix [p] while a log is attached. The map entry of the
      prefix is created by the first push only. *)
  Definition exec_op (st : world * logmap) (po : N * op K V) : world * logmap :=
    let '(w, m) := st in
    let '(p, o) := po in
    match w p with
    | Comp s =>
        let '(_, (s', lg)) := step Keqb (emptyK p) (emptyV p) (set_empty p) (empty_value p)
                                   (s, Some []) o in
        let es := match lg with Some l => map (fun kv => (Some (fst kv), snd kv)) l | None => [] end in
        (wupd w p (Comp s'), match es with [] => m | _ => logmap_add m p es end)
    | Simp s =>
        let '(_, (s', lg)) := sstep (emptyV p) (set_empty p) (empty_value p) (s, Some []) (to_sop o) in
        let es := match lg with Some l => map (fun v => (None, v)) l | None => [] end in
        (wupd w p (Simp s'), match es with [] => m | _ => logmap_add m p es end)
    end.

  (** One transaction under a [CTxUndoOpLogger], blockundo.h:61-77: a fresh log is attached
      on construction, pushed to the block's undo data and detached on destruction. *)
  Definition exec_tx (w : world) (ops : list (N * op K V)) : world * logmap :=
    fold_left exec_op ops (w, []).

  (** The logged part of [ConnectBlock]: the transactions in order; [vtxundo]. *)
  Definition exec_block (w : world) (txs : list (list (N * op K V))) : world * list logmap :=
    fold_left (fun '(w, u) ops => let '(w', m) := exec_tx w ops in (w', u ++ [m]))
              txs (w, []).

  (** Decoding the logged entries for the cache they belong to: [dbOpLog.Get], which throws
      on a blob of the wrong shape (None). *)
  Fixpoint comp_entries (l : list entry) : option (list (K * V)) :=
    match l with
    | [] => Some []
    | (Some k, v) :: r =>
        match comp_entries r with Some t => Some ((k, v) :: t) | None => None end
    | (None, _) :: _ => None
    end.
  Fixpoint simp_entries (l : list entry) : option (list V) :=
    match l with
    | [] => Some []
    | (None, v) :: r =>
        match simp_entries r with Some t => Some (v :: t) | None => None end
    | (Some _, _) :: _ => None
    end.

  (** [undoDataFuncMap[prefix](logs)], i.e. [UndoDataList] of the cache. *)
  Definition undo_store (s : store) (l : list entry) : option store :=
    match s with
    | Comp c => match comp_entries l with
                | Some t => Some (Comp (undo_data_list Keqb c t)) | None => None end
    | Simp c => match simp_entries l with
                | Some t => Some (Simp (s_undo_list c t)) | None => None end
    end.

  (** [CBlockUndoExecutor::Execute], blockundo.cpp:112-132. [registered] is the domain of
      [GetUndoDataFuncMap]; the inner loop stops with failure at the first unregistered
      prefix, leaving what was undone so far. *)
  Fixpoint undo_tx (registered : N -> bool) (w : world) (m : logmap) : bool * world :=
    match m with
    | [] => (true, w)
    | (p, l) :: m' =>
        if registered p then
          match undo_store (w p) l with
          | Some s => undo_tx registered (wupd w p s) m'
          | None => (false, w)
          end
        else (false, w)
    end.

  Fixpoint undo_txs (registered : N -> bool) (w : world) (u : list logmap) : bool * world :=
    match u with
    | [] => (true, w)
    | m :: u' =>
        let '(ok, w') := undo_tx registered w m in
        if ok then undo_txs registered w' u' else (false, w')
    end.

  Definition undo_block (registered : N -> bool) (w : world) (u : list logmap) : bool * world :=
    undo_txs registered w (rev u).

End Undo.

Arguments Comp {K V}.
Arguments Simp {K V}.

Notation world K V := (N -> store K V).
Notation entry K V := (option K * V)%type.
Notation logmap K V := (list (N * list (option K * V))).
