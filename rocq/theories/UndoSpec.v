(** Vocabulary for the block-undo claims: what every store reads as. *)
From Coq Require Import List NArith.
From Verif Require Import KvModel KvSpec UndoModel.

Set Implicit Arguments.

Section UndoSpec.
  Variables K V : Type.
  Variable Keqb : K -> K -> bool.
  Variable emptyV : N -> V -> bool.

  (** Well-formed store, and the content as read: key ignored for single-value stores. *)
  Definition st_wf (s : store K V) : Prop :=
    match s with Comp c => wf c | Simp c => swf c end.
  Definition st_contents (p : N) (s : store K V) (k : K) : option V :=
    match s with Comp c => contents Keqb (emptyV p) c k | Simp c => scontents (emptyV p) c end.
  Definition same_kind (s t : store K V) : Prop :=
    match s, t with Comp _, Comp _ => True | Simp _, Simp _ => True | _, _ => False end.

  Definition w_wf (w : world K V) := forall p, st_wf (w p).
  Definition w_eq (w w' : world K V) :=
    (forall p k, st_contents p (w p) k = st_contents p (w' p) k) /\
    (forall p, same_kind (w p) (w' p)).

End UndoSpec.
