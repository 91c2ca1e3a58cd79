(** What the bounded containers should hold, as functions of the calls made. *)
From Coq Require Import List Bool NArith ZArith.
Import ListNotations.
Open Scope N_scope.

(** Calls on a bounded set. *)
Inductive scall (T : Type) := Put (x : T) | Cap (n : N) | Empty.
Arguments Put {T}. Arguments Cap {T}. Arguments Empty {T}.

(** The last [n] elements; all of them when [n] is 0. *)
Definition last_of {A} (n : N) (l : list A) : list A :=
  if n =? 0 then l else skipn (length l - N.to_nat n) l.

(** The elements in order of arrival, oldest first, and the capacity (0: unlimited). An element
    that is already there keeps its place. *)
Inductive held {T} (n0 : N) : list (scall T) -> N -> list T -> Prop :=
| held_start : held n0 [] n0 []
| held_known cs n l x : held n0 cs n l -> In x l -> held n0 (cs ++ [Put x]) n l
| held_new cs n l x : held n0 cs n l -> ~ In x l -> held n0 (cs ++ [Put x]) n (last_of n (l ++ [x]))
| held_cap cs n l m : held n0 cs n l -> held n0 (cs ++ [Cap m]) m (last_of m l)
| held_empty cs n l : held n0 cs n l -> held n0 (cs ++ [Empty]) n [].

(** Calls on a bounded map. *)
Inductive mcall (K V : Type) := MPut (k : K) (v : V) | MSet (k : K) (v : V) | MCap (n : N).
Arguments MPut {K V}. Arguments MSet {K V}. Arguments MCap {K V}.

(** The last [n] elements, none when [n] is 0. *)
Definition newest {A} (n : N) (l : list A) : list A := skipn (length l - N.to_nat n) l.

(** Entries in order of arrival, oldest first, and the capacity. *)
Inductive mheld {K V} (n0 : N) : list (mcall K V) -> N -> list (K * V) -> Prop :=
| mheld_start : mheld n0 [] n0 []
| mheld_known cs n l k v : mheld n0 cs n l -> In k (map fst l) -> mheld n0 (cs ++ [MPut k v]) n l
| mheld_new cs n l k v : mheld n0 cs n l -> ~ In k (map fst l) ->
    mheld n0 (cs ++ [MPut k v]) n (newest n (l ++ [(k, v)]))
| mheld_set cs n l1 l2 k v v' : mheld n0 cs n (l1 ++ (k, v) :: l2) ->
    mheld n0 (cs ++ [MSet k v']) n (l1 ++ (k, v') :: l2)
| mheld_set_none cs n l k v : mheld n0 cs n l -> ~ In k (map fst l) -> mheld n0 (cs ++ [MSet k v]) n l
| mheld_cap cs n l m : mheld n0 cs n l -> 0 < m -> mheld n0 (cs ++ [MCap m]) m (newest m l).

(** Calls on the map that drops small values. *)
Inductive lcall (K : Type) := LPut (k : K) (v : Z) | LSet (k : K) (v : Z) | LDel (k : K) | LCap (n : N).
Arguments LPut {K}. Arguments LSet {K}. Arguments LDel {K}. Arguments LCap {K}.

(** Calls on a Bloom filter: insert, [UpdateEmptyFull], [Clear]. *)
Inductive bcall := BPut (key : list N) | BUpdate | BClear.

(** What was inserted since the filter was last cleared. *)
Fixpoint inserted (cs : list bcall) : list (list N) :=
  match cs with
  | [] => []
  | BPut x :: cs' =>
      if existsb (fun c => match c with BClear => true | _ => false end) cs' then inserted cs'
      else x :: inserted cs'
  | _ :: cs' => inserted cs'
  end.
