(** The vocabulary of the claims on the schedule of block producers. *)
From Coq Require Import List NArith ZArith Permutation.
From Verif Require Import Prelude DexModel SchedModel.
Import ListNotations.
Open Scope Z_scope.

(** A network with sensible constants: the releases come in order, and no duration is zero. *)
Definition sensible (r : rules) : Prop :=
  r_ver2 r <= r_ver3 r /\ 0 < r_interval_old r /\ 0 < r_interval r /\ 0 < r_row_old r /\ 0 < r_row r.

(** The slot a time lies in, from the third release on: so many seconds as a producer needs for the
    blocks it makes in a row. *)
Definition slot (r : rules) (t : Z) : Z := t / (r_interval r * r_row r).

(** The times of blocks on a chain, first block first, that were found to be in time. *)
Inductive spaced (r : rules) : list Z -> Prop :=
| sp_none : spaced r []
| sp_one t : spaced r [t]
| sp_next t t' l : t + r_interval r <= t' -> spaced r (t' :: l) -> spaced r (t :: t' :: l).

(** A history of blocks, the last first, and the lists of producers they lead to. Heights go up one
    by one from 0. *)
Inductive counted_to (r : rules) : list tally -> lists -> Prop :=
| ct_start : counted_to r [] no_lists
| ct_next ts t s : counted_to r ts s -> t_height t = Z.of_nat (length ts) ->
    counted_to r (t :: ts) (process_delegates r t s).

(** The best by votes, as a block finds them: a front part of the ranking, no longer than wanted,
    which from the third release on stops at the first that has too few votes. *)
Definition elected (r : rules) (t : tally) (l : list (N * N)) : Prop :=
  exists rest, t_ranking t = l ++ rest
    /\ (length l <= N.to_nat (t_number t))%nat
    /\ (r_ver3 r <= t_height t -> forall x, In x l -> (t_min t <= snd x)%N)
    /\ ((length l = N.to_nat (t_number t))
        \/ rest = []
        \/ exists x rest', rest = x :: rest' /\ r_ver3 r <= t_height t /\ (snd x < t_min t)%N).

(** Blocks on a chain, first block first, each found in order after the one before against the same
    list of producers [l], with the registration id of the account that made it. The accounts may
    change from block to block. *)
Section Mined.
  Context {Uid : Type}.
  Variables (hash : Z -> nat -> nat -> Z) (signed : N -> N -> N -> bool) (r : rules) (l : list N).
  Inductive mined : @blk Uid -> list (@blk Uid * N) -> Prop :=
  | mn_none prev : mined prev []
  | mn_next prev by_reg by_uid first b a bs :
      (forall d x, by_reg d = Some x -> a_regid x = d) ->
      timely r prev b = Done tt ->
      verify_reward hash signed r by_reg by_uid l first prev b = Done tt ->
      by_uid (b_uid b) = Some a ->
      mined b bs -> mined prev ((b, a_regid a) :: bs).
End Mined.
