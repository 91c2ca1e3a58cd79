(** What the ordered containers of the code should do, said without trees.

    A chain of caches is a list of views, the top first and the database last; a view says what is
    stored under each key. *)
From Coq Require Import String List Bool NArith ZArith Sorted Permutation.
From Verif Require Import Prelude OrderModel.
Import ListNotations.

Set Implicit Arguments.

Section Views.
  Variables K V : Type.
  Variable Keqb : K -> K -> bool.
  Variable emptyV : V -> bool.

  Definition stored (v : V) : option V := if emptyV v then None else Some v.

  (** What is read, and the views afterwards. *)
  Definition vstep (vs : list (K -> option V)) (o : op K V) : list (option V) * list (K -> option V) :=
    match o, vs with
    | OSet k v, t :: r | OUndo k v, t :: r => ([], (fun x => if Keqb x k then stored v else t x) :: r)
    | OGet k, t :: _ => ([t k], vs)
    | ONew, t :: _ => ([], t :: vs)
    | OFlush, t :: _ :: r => ([], t :: t :: r)
    | ODrop, _ :: r => ([], r)
    | _, _ => ([], vs)
    end.
  Fixpoint vrun (vs : list (K -> option V)) (os : list (op K V)) : list (option V) :=
    match os with
    | [] => []
    | o :: os => let r := vstep vs o in fst r ++ vrun (snd r) os
    end.

  (** The keys of a sequence, and whether a cache is left in place by each [ODrop] when [n] of them
      are there at first. *)
  Definition touches (o : op K V) : list K :=
    match o with OSet k _ | OGet k | OUndo k _ => [k] | _ => [] end.
  Fixpoint lawful (n : nat) (os : list (op K V)) : bool :=
    match os with
    | [] => true
    | ONew :: os => lawful (S n) os
    | ODrop :: os => match n with S (S n) => lawful (S n) os | _ => false end
    | _ :: os => lawful n os
    end.
End Views.

(** Two coin pairs cross if one has the smaller first symbol and the larger second one. *)
Definition crossed (a b : string * string) : Prop :=
  (str_lt (fst a) (fst b) = true /\ str_lt (snd b) (snd a) = true) \/
  (str_lt (fst b) (fst a) = true /\ str_lt (snd a) (snd b) = true).

(** The net fee of a transaction, as a number that may be negative. *)
Definition net (x : poolt) : Z := Z.of_N (t_fee x) - Z.of_N (t_fuel x).

(** What is known of the transactions of a pool: fees are 64-bit numbers and sizes 32-bit ones, and
    no transaction is empty. *)
Definition sane (x : poolt) : Prop :=
  (t_fee x < two64)%N /\ (t_fuel x < two64)%N /\ (0 < t_size x < 2 ^ 32)%N.
(** The pool's map goes through its transactions in the sequence of their hashes. *)
Definition by_hash (l : list poolt) : Prop := StronglySorted (fun x y => (t_hash x < t_hash y)%N) l.

(** [a] may be taken before [b]: a price feed before all others; among equals, not the one that pays
    less for its size by more than one part in 2^50. *)
Definition may_precede (a b : poolt) : Prop :=
  (t_feed b = true -> t_feed a = true) /\
  (t_feed a = t_feed b ->
   (net b * Z.of_N (t_size a) * 2 ^ 50 <= net a * Z.of_N (t_size b) * (2 ^ 50 + 1))%Z).
