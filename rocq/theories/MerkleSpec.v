(** Merkle roots and selections, without reference to the code. *)
From Coq Require Import List Bool.
Import ListNotations.

Section Spec.
  Context {H : Type}.
  Variable comb : H -> H -> H.

  (** A row of a Merkle tree and the next: neighbours are combined, a last one left over with
      itself. *)
  Inductive next_row : list H -> list H -> Prop :=
  | row_nil : next_row [] []
  | row_one x : next_row [x] [comb x x]
  | row_two x y l l' : next_row l l' -> next_row (x :: y :: l) (comb x y :: l').

  (** The root: combine rows until one element is left. *)
  Inductive root_of : list H -> H -> Prop :=
  | root_one x : root_of [x] x
  | root_more x y l l' r : next_row (x :: y :: l) l' -> root_of l' r -> root_of (x :: y :: l) r.

  (** The elements at which the mask is set, in order. *)
  Fixpoint selected (l : list H) (mask : list bool) : list H :=
    match l, mask with
    | x :: l, b :: mask => if b then x :: selected l mask else selected l mask
    | _, _ => []
    end.

  (** [comb] never gives the same for different arguments. *)
  Definition collision_free : Prop := forall a b c d, comb a b = comb c d -> a = c /\ b = d.
End Spec.
