(** What a filter of medians and a warning about a wrong clock should be. *)
From Coq Require Import List Bool ZArith Sorting.Sorted Sorting.Permutation.
From Verif Require Import ClockModel.
Import ListNotations.
Open Scope Z_scope.

(** The last [n] of a list. *)
Definition last_of (n : nat) (l : list Z) : list Z := skipn (length l - n) l.

(** At most half of the values lie below [m], and at most half above. *)
Definition below (m : Z) (l : list Z) : nat := length (List.filter (fun x => x <? m) l).
Definition above (m : Z) (l : list Z) : nat := length (List.filter (fun x => m <? x) l).
Definition middle (m : Z) (l : list Z) : Prop :=
  (2 * below m l <= length l)%nat /\ (2 * above m l <= length l)%nat.

(** What each address told first, as differences from the node's clock, in order. *)
Fixpoint first_told (known : list Z) (l : list told) : list Z :=
  match l with
  | [] => []
  | (now, ip, time) :: l' =>
      if existsb (Z.eqb ip) known then first_told known l'
      else (time - now) :: first_told (ip :: known) l'
  end.

(** Times from 1970 on, in 64 bits. *)
Definition sane (l : list told) : Prop :=
  Forall (fun x : told => let '(now, _, time) := x in
    0 <= now < 9223372036854775808 /\ 0 <= time < 9223372036854775808) l.

(** Every peer tells a time that differs by more than a second, and enough of them do. *)
Definition all_differ (l : list told) : Prop :=
  Forall (fun x : told => let '(now, _, time) := x in 1 < Z.abs (time - now)) l /\
  (5 <= length (first_told [] l))%nat.
