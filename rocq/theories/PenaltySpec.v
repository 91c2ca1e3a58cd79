(** What penalties should be, in terms of what has happened. *)
From Coq Require Import List Bool NArith ZArith.
From Verif Require Import PenaltyModel.
Import ListNotations.
Open Scope Z_scope.

(** All that a connection was blamed for. *)
Fixpoint total (id : N) (l : list event) : Z :=
  match l with
  | [] => 0
  | Errs id' h :: l' => (if N.eqb id' id then h else 0) + total id l'
  | _ :: l' => total id l'
  end.

(** An address is guilty: it is not local, and one connection with it was blamed for as much as the
    threshold before it ended. *)
Definition guilty (threshold bantime : Z) (local : N -> bool) (now : Z) (l : list event) (a : N) : Prop :=
  local a = false /\
  exists l1 w l2 l3 s, l = l1 ++ Joins w a :: l2 ++ l3 /\ run threshold bantime local (fresh now) l1 = Some s /\
    ~ In (Leaves (n_next s)) l2 /\ threshold <= total (n_next s) l2.

(** A connection is refused: nothing changes. *)
Definition refuses (threshold bantime : Z) (local : N -> bool) (s : node) (w : way) (a : N) : Prop :=
  step threshold bantime local s (Joins w a) = Some s.
(** A connection is made, and has the next number. *)
Definition accepts (threshold bantime : Z) (local : N -> bool) (s : node) (w : way) (a : N) (s' : node) : Prop :=
  step threshold bantime local s (Joins w a) = Some s' /\ s' <> s.
