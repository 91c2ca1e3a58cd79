(** The vocabulary of the claims on listings. *)
From Coq Require Import List Bool NArith Sorting.Sorted.
From Verif Require Import Prelude IterModel CodecSpec.
Import ListNotations.

Section Spec.
Context {K V : Type}.
Variable ltb : K -> K -> bool.
Variable no_value : V -> bool.

(** A comparison that is a strict total order. *)
Definition total_order : Prop :=
  (forall a, ltb a a = false) /\ (forall a b c, ltb a b = true -> ltb b c = true -> ltb a c = true)
  /\ (forall a b, ltb a b = false -> ltb b a = false -> a = b).

(** In the order of the keys, no key twice. *)
Definition ascending (l : list (K * V)) : Prop := StronglySorted (fun x y => ltb (fst x) (fst y) = true) l.

(** The value a read finds: the first cache that has the key decides, then the database. *)
Inductive reads : list (list (K * V)) -> list (K * V) -> K -> V -> Prop :=
| rd_here m ms d k v : In (k, v) m -> no_value v = false -> reads (m :: ms) d k v
| rd_below m ms d k v : ~ In k (map fst m) -> reads ms d k v -> reads (m :: ms) d k v
| rd_db d k v : In (k, v) d -> reads [] d k v.

(** What an iterator shows from a position on. *)
Inductive shows (it : iter K V) (cur : St it -> option (K * V)) : St it -> list (K * V) -> Prop :=
| sh_end s : cur s = None -> shows it cur s []
| sh_entry s e l : cur s = Some e -> shows it cur (i_next it s) l -> shows it cur s (e :: l).
End Spec.

(** A way to store keys whose bytes are in the keys' order. *)
Definition keeps_order {K} (ltb : K -> K -> bool) (dltb : K -> K -> bool) (ok : K -> Prop) : Prop :=
  forall a b, ok a -> ok b -> dltb a b = ltb a b.

(** The contents that caches and a database may have: caches in the order of the code's comparison, the
    database in the order of the bytes, without empty values. *)
Definition content {K V} (mltb dltb : K -> K -> bool) (no_value : V -> bool) (ok : K -> Prop)
  (caches : list (list (K * V))) (d : list (K * V)) : Prop :=
  (forall m, In m caches -> ascending mltb m /\ forall k v, In (k, v) m -> ok k) /\ ascending dltb d
  /\ (forall k v, In (k, v) d -> no_value v = false /\ ok k).

(** First by one order, then by another. *)
Definition lex {A B} (f : A -> A -> bool) (g : B -> B -> bool) (x y : A * B) : bool :=
  f (fst x) (fst y) || negb (f (fst y) (fst x)) && g (snd x) (snd y).
(** Loans by collateral, stable coin, height and identity. *)
Definition loan_order : loan_key -> loan_key -> bool := lex (lex (lex byte_ltb byte_ltb) N.ltb) N.ltb.
(** Loans in one stable coin against collaterals whose symbols have the same length. *)
Definition alike (scoin : list N) (n : nat) (k : loan_key) : Prop :=
  let '(p, h, i) := k in length (fst p) = n /\ snd p = scoin /\ h < 2 ^ 64 /\ i < 2 ^ 256.
