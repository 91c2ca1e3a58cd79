(** What a text that states an amount of money means, independently of how it is read. *)
From Coq Require Import String Ascii List NArith ZArith.
Import ListNotations.
Local Open Scope N_scope.

(** A digit, and the number that digits write. *)
Definition digit (c : N) : Prop := 48 <= c <= 57.

Fixpoint number (ds : list N) : N :=
  match ds with
  | [] => 0
  | c :: r => (c - 48) * 10 ^ N.of_nat (List.length r) + number r
  end.

(** [quantity q n k]: the text [q] writes n / 10^k, with [k] digits after the point. *)
Inductive quantity : list N -> N -> nat -> Prop :=
| q_whole : forall ds, ds <> [] -> Forall digit ds -> quantity ds (number ds) 0
| q_zero : forall dp, dp <> [] -> Forall digit dp -> quantity (48 :: 46 :: dp) (number dp) (List.length dp)
| q_decimal : forall c ip dp,
    49 <= c <= 57 -> Forall digit ip -> dp <> [] -> Forall digit dp ->
    quantity ((c :: ip) ++ 46 :: dp) (number ((c :: ip) ++ dp)) (List.length dp).

(** The units: each is worth a power of ten of the smallest. Capitals or not. *)
Definition letters (s : string) : list N := map N_of_ascii (list_ascii_of_string s).

Definition units : list (string * nat) :=
  [ ("sawi", 0); ("quwi", 1); ("muwi", 2); ("huwi", 3); ("siwi", 4); ("miwi", 5); ("lewi", 6); ("fewi", 7);
    ("wi", 8); ("kwi", 11); ("mwi", 14) ]%nat%string.

Definition same_letter (c l : N) : Prop := c = l /\ ~ 65 <= c <= 90 \/ 65 <= c <= 90 /\ l = c + 32.

Definition unit_of (u : list N) (p : nat) : Prop := exists n, In (n, p) units /\ Forall2 same_letter u (letters n).

(** A symbol: at most seven bytes, and no colon. *)
Definition symbol (s : list N) : Prop := ~ In 58 s /\ (List.length s <= 7)%nat.

(** [means def s sym n k p]: the text [s] states n / 10^k times 10^p of the token [sym], where [def] is the
    token that is meant if none is named. *)
Inductive form : Type := Plain | AmountUnit | SymbolAmount | Full.

Inductive states (def : list N) : form -> list N -> list N -> N -> nat -> nat -> Prop :=
| s_plain : forall q n, quantity q n 0 -> states def Plain q def n 0 0
| s_unit : forall q u n k p, quantity q n k -> unit_of u p ->
    states def AmountUnit (q ++ 58 :: u) def n k p
| s_symbol : forall s q n, symbol s -> (forall m k, ~ quantity s m k) -> quantity q n 0 ->
    states def SymbolAmount (s ++ 58 :: q) s n 0 0
| s_full : forall s q u n k p, symbol s -> quantity q n k -> unit_of u p ->
    states def Full (s ++ 58 :: q ++ 58 :: u) s n k p.

(** A colon at the end changes nothing. *)
Definition means (def : list N) (f : form) (s sym : list N) (n : N) (k p : nat) : Prop :=
  exists s0, states def f s0 sym n k p /\ (s = s0 \/ s = s0 ++ [58]).
