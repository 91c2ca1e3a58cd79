(** Vocabulary for the claims about the state caches, independent of layers, pull-through
    reads, erase markers and flushing: a plain map from keys to values. *)
From Coq Require Import List Bool.
From Verif Require Import KvModel.
Import ListNotations.

Set Implicit Arguments.

Section KvSpec.
  Variables K V : Type.
  Variable Keqb : K -> K -> bool.
  Variable emptyK : K -> bool.
  Variable emptyV : V -> bool.

  (** A plain map: what each key reads as. *)
  Definition plain := K -> option V.

  Definition plain_set (f : plain) (k : K) (r : option V) : plain :=
    fun k' => if Keqb k' k then r else f k'.

  (** An empty value counts as absence. *)
  Definition norm (v : V) : option V := if emptyV v then None else Some v.

  (** What a call answers and does on a plain map. Flushing is invisible. *)
  Definition plain_step (f : plain) (o : op K V) : answer V * plain :=
    match o with
    | OGet k => (AVal (if emptyK k then None else f k), f)
    | OHas k => (ABool (if emptyK k then false
                        else match f k with Some _ => true | None => false end), f)
    | OSet k v => if emptyK k then (ABool false, f)
                  else (ABool true, plain_set f k (norm v))
    | OErase k => if emptyK k then (ABool false, f)
                  else (ABool true, plain_set f k None)
    | OFlush _ => (AUnit, f)
    end.

  Fixpoint plain_run (f : plain) (os : list (op K V)) : list (answer V) * plain :=
    match os with
    | [] => ([], f)
    | o :: os' =>
        let '(a, f1) := plain_step f o in
        let '(l, f2) := plain_run f1 os' in (a :: l, f2)
    end.

  (** The content of a stack: for each key the entry of the topmost layer that has one,
      else the database record; empty means absent. *)
  Fixpoint first_entry (ms : list (list (K * V))) (k : K) : option V :=
    match ms with
    | [] => None
    | m :: rest =>
        match find (fun kv => Keqb k (fst kv)) m with
        | Some kv => Some (snd kv)
        | None => first_entry rest k
        end
    end.

  Definition contents (s : stack K V) : plain :=
    fun k => match first_entry (layers s ++ [db s]) k with
             | Some v => norm v
             | None => None
             end.

  (** Well-formed stacks: at least one cache layer, and no key twice in a layer or in the
      database ([std::map], LevelDB). *)
  Definition nodup (m : list (K * V)) := NoDup (map fst m).
  Definition wf (s : stack K V) : Prop :=
    layers s <> [] /\ Forall nodup (layers s) /\ nodup (db s).

  (** The database holds no empty values. *)
  Definition db_no_empty (s : stack K V) : Prop :=
    forall k v, afind Keqb (db s) k = Some v -> emptyV v = false.

End KvSpec.

(** The same for the single-value caches. *)
Section SimpleSpec.
  Variable V : Type.
  Variable emptyV : V -> bool.

  Definition splain_step (f : option V) (o : sop V) : answer V * option V :=
    match o with
    | SGet => (AVal f, f)
    | SHas => (ABool (match f with Some _ => true | None => false end), f)
    | SSet v => (ABool true, norm emptyV v)
    | SErase => (ABool true, None)
    | SFlush _ => (AUnit, f)
    end.

  Fixpoint splain_run (f : option V) (os : list (sop V)) : list (answer V) * option V :=
    match os with
    | [] => ([], f)
    | o :: os' =>
        let '(a, f1) := splain_step f o in
        let '(l, f2) := splain_run f1 os' in (a :: l, f2)
    end.

  Fixpoint first_some (l : list (option V)) : option V :=
    match l with
    | [] => None
    | Some v :: _ => Some v
    | None :: r => first_some r
    end.

  Definition scontents (s : sstack V) : option V :=
    match first_some (slayers s ++ [sdb s]) with
    | Some v => norm emptyV v
    | None => None
    end.
  Definition swf (s : sstack V) := slayers s <> [].
End SimpleSpec.
