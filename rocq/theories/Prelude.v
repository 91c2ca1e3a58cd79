(** Finite maps as association lists, sums over them, and 64-bit arithmetic.

    Shared by the model files.  [fget]/[fput]/[fdel] stand for [std::map] (or a state cache,
    which C01 shows to be a map) when the order of iteration does not matter. *)
From Coq Require Import List Bool NArith ZArith Lia Permutation String.
From Coq Require Import ZifyBool ZifyNat ZifyN.
Import ListNotations.
Open Scope N_scope.

(** The number of values of [uint64_t], [uint32_t], [uint16_t], [uint8_t]. *)
Definition two64 : N := 18446744073709551616.
Definition two32 : N := 4294967296.
Definition two16 : N := 65536.
Definition two8 : N := 256.

(** Unsigned addition, subtraction and multiplication modulo 2^64. *)
Definition add64 (a b : N) : N := (a + b) mod two64.
Definition sub64 (a b : N) : N := (a + two64 - b) mod two64.
Definition mul64 (a b : N) : N := (a * b) mod two64.

Section FMap.
  Context {K V : Type}.
  Variable eqb : K -> K -> bool.

  Fixpoint fget (m : list (K * V)) (k : K) : option V :=
    match m with
    | [] => None
    | (k', v) :: m' => if eqb k k' then Some v else fget m' k
    end.

  Fixpoint fput (m : list (K * V)) (k : K) (v : V) : list (K * V) :=
    match m with
    | [] => [(k, v)]
    | (k', v') :: m' => if eqb k k' then (k', v) :: m' else (k', v') :: fput m' k v
    end.

  Fixpoint fdel (m : list (K * V)) (k : K) : list (K * V) :=
    match m with
    | [] => []
    | (k', v') :: m' => if eqb k k' then fdel m' k else (k', v') :: fdel m' k
    end.

  Definition fmem (m : list (K * V)) (k : K) : bool :=
    match fget m k with Some _ => true | None => false end.

  Definition keys (m : list (K * V)) : list K := map fst m.

  (** Sum of [f] over all entries. *)
  Fixpoint msum (f : V -> N) (m : list (K * V)) : N :=
    match m with
    | [] => 0
    | (_, v) :: m' => f v + msum f m'
    end.

  (** [f] of the entry at [k], zero when there is none. *)
  Definition fval (f : V -> N) (m : list (K * V)) (k : K) : N :=
    match fget m k with Some v => f v | None => 0 end.
End FMap.

(** Sum of a list of numbers. *)
Fixpoint nsum (l : list N) : N :=
  match l with
  | [] => 0
  | x :: l' => x + nsum l'
  end.

(** Pairs as keys. *)
Definition pair_eqb {A B} (ea : A -> A -> bool) (eb : B -> B -> bool) (x y : A * B) : bool :=
  ea (fst x) (fst y) && eb (snd x) (snd y).
