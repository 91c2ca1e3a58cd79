(** Block trees and chains, without reference to the code: [par] gives the predecessor of a block,
    if it has one. *)
From Coq Require Import List NArith ZArith.
Import ListNotations.

Section Spec.
  Variable par : N -> option N.

  (** [a] is found from [b] by going back [k] times. *)
  Inductive up : N -> nat -> N -> Prop :=
  | up_here b : up b 0 b
  | up_next b p k a : par b = Some p -> up p k a -> up b (S k) a.

  (** [b] has [n] predecessors. *)
  Definition generation (b : N) (n : nat) : Prop := exists g, up b n g /\ par g = None.

  (** [x] is [b] or one of its predecessors. *)
  Definition back (b x : N) : Prop := exists k, up b k x.

  (** [c] lists the blocks from the first one to [b]. *)
  Definition line (b : N) (c : list (option N)) : Prop :=
    exists n, generation b n /\ length c = S n
      /\ forall k a, k <= n -> up b k a -> nth_error c (n - k) = Some (Some a).

  (** The last block that [a] and [b] have in common: on the way back from both, and everything
      that is, is on the way back from it. *)
  Definition fork_of (a b f : N) : Prop :=
    back a f /\ back b f /\ forall x, back a x -> back b x -> back f x.
End Spec.

(** The predecessor of a block in a list of arrivals. *)
Fixpoint pred_in (l : list (N * option N)) (b : N) : option N :=
  match l with
  | [] => None
  | (x, p) :: l => if N.eqb b x then p else pred_in l b
  end.

(** How far behind the first entry the [i]th entry of a locator is: one block for each of the first
    eleven steps, then 2, 4, 8 ... blocks for the steps that follow. *)
Definition behind (i : nat) : Z :=
  (if Nat.leb i 11 then Z.of_nat i else 9 + 2 ^ Z.of_nat (i - 10))%Z.
