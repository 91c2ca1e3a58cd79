(** C100: an amount of money given in a call is the amount that the text or the number states. *)
From Coq Require Import String List Bool NArith ZArith Lia.
From Verif Require Import DoubleModel MoneyModel MoneySpec MoneyProofs.
Import ListNotations.
Local Open Scope N_scope.

(** An amount that is taken from a text, below 2^63 - 1, is exactly what the text states, and so is the
    token; but a text with an amount and a unit alone states an amount of WICC, whatever token the
    call has as its default. *)
Theorem c100_typed : forall def s sym a,
  get_combo_money (JStr s) def = Value (sym, a) -> a < 2 ^ 63 - 1 ->
  exists f n k p,
    means (match f with AmountUnit => letters "WICC" | _ => def end) f s sym n k p /\
    a * 10 ^ N.of_nat k = n * 10 ^ N.of_nat p.
Proof. intros def s sym a H Ha. exact (typed_lemma def s sym a H Ha). Qed.
Print Assumptions c100_typed.

Example c100_typed_example :
  get_combo_money (JStr (letters "WUSD:12.345:wi")) (letters "WICC") = Value (letters "WUSD", 1234500000) /\
  get_combo_money (JStr (letters "0.5:KWI")) (letters "WICC") = Value (letters "WICC", 50000000000) /\
  get_combo_money (JStr (letters "1.:wi")) (letters "WICC") = Refused /\
  get_combo_money (JStr (letters "-1")) (letters "WICC") = Refused.
Proof. repeat split; reflexivity. Qed.

(** Each text that states an amount below 2^63 in a whole number of the smallest unit is understood. *)
Theorem c100_understood : forall def f s sym n k p,
  means def f s sym n k p -> (f = AmountUnit -> def = letters "WICC") -> (k <= p)%nat ->
  n * 10 ^ N.of_nat p < 2 ^ 63 * 10 ^ N.of_nat k ->
  exists a, get_combo_money (JStr s) def = Value (sym, a) /\ a * 10 ^ N.of_nat k = n * 10 ^ N.of_nat p.
Proof. intros def f s sym n k p M Hd. exact (understood_lemma def f s sym n k p M Hd). Qed.
Print Assumptions c100_understood.

Example c100_understood_example : means (letters "WICC") SymbolAmount (letters "WGRT:70:") (letters "WGRT") 70 0 0.
Proof.
  exists (letters "WGRT" ++ 58 :: letters "70"). split; [|right; reflexivity].
  apply s_symbol.
  - split; [|cbn; lia]. cbn. intuition discriminate.
  - intros m k H. assert (is_number (letters "WGRT") || is_decimal (letters "WGRT") = true) as E
      by (apply quantity_iff; eauto). discriminate.
  - apply (q_whole [55; 48]); [discriminate|]. repeat constructor; unfold digit; lia.
Qed.

(** With more digits after the point than the unit has, the call is refused: nothing is rounded. *)
Theorem c100_not_rounded : forall def f s sym n k p,
  means def f s sym n k p -> (f = AmountUnit -> def = letters "WICC") -> (p < k)%nat ->
  get_combo_money (JStr s) def = Refused.
Proof. intros def f s sym n k p M Hd. exact (too_fine_lemma def f s sym n k p M Hd). Qed.
Print Assumptions c100_not_rounded.

Example c100_not_rounded_example :
  means (letters "WICC") AmountUnit (letters "0.123456789:wi") (letters "WICC") 123456789 9 8.
Proof.
  exists (letters "0.123456789" ++ 58 :: letters "wi"). split; [|left; reflexivity].
  apply s_unit.
  - apply (q_zero [49; 50; 51; 52; 53; 54; 55; 56; 57]); [discriminate|]. repeat constructor; unfold digit; lia.
  - apply find_unit_spec. reflexivity.
Qed.

(** With an amount and a unit and no symbol, the token is not the default of the call: a loan of "10:wi" in
    WUSD is asked for in WICC. *)
Theorem c100_default_refuted : exists def s n k p a,
  means def AmountUnit s def n k p /\ def = letters "WUSD" /\
  get_combo_money (JStr s) def = Value (letters "WICC", a).
Proof.
  exists (letters "WUSD"), (letters "10:wi"), 10, 0%nat, 8%nat, 1000000000. split; [|split; reflexivity].
  exists (letters "10" ++ 58 :: letters "wi"). split; [|left; reflexivity].
  apply s_unit.
  - apply (q_whole [49; 48]); [discriminate|]. repeat constructor; unfold digit; lia.
  - apply find_unit_spec. reflexivity.
Qed.
Print Assumptions c100_default_refuted.

(** An amount that is too large is not refused: it is taken as 2^63 - 1. *)
Theorem c100_large_refuted : exists s n a,
  means (letters "WICC") Plain s (letters "WICC") n 0 0 /\ n = 10 ^ 20 /\
  get_combo_money (JStr s) (letters "WICC") = Value (letters "WICC", a) /\ a = 2 ^ 63 - 1.
Proof.
  exists (letters "100000000000000000000"), (10 ^ 20), (2 ^ 63 - 1).
  split; [|split; [reflexivity|split; [vm_compute; reflexivity|reflexivity]]].
  exists (letters "100000000000000000000"). split; [|left; reflexivity].
  apply s_plain. change (10 ^ 20) with (number (letters "100000000000000000000")).
  apply q_whole; [discriminate|]. repeat constructor; cbn; lia.
Qed.
Print Assumptions c100_large_refuted.

(** The text that shows an amount states that amount, with eight digits after the point. *)
Theorem c100_shown : forall a, a < 2 ^ 64 -> quantity (show_amount a) a 8.
Proof. exact show_quantity. Qed.
Print Assumptions c100_shown.

Example c100_shown_example : show_amount 1234500007 = letters "12.34500007" /\ show_amount 0 = letters "0.00000000".
Proof. split; reflexivity. Qed.

(** An amount that was shown can be typed again, with its symbol and the unit "wi". *)
Theorem c100_shown_back : forall a sym def, a < 2 ^ 63 -> ~ In 58 sym -> (List.length sym <= 7)%nat ->
  get_combo_money (JStr (sym ++ 58 :: show_amount a ++ 58 :: letters "wi")) def = Value (sym, a).
Proof. exact shown_back_lemma. Qed.
Print Assumptions c100_shown_back.

Example c100_shown_back_example :
  letters "WGRT" ++ 58 :: show_amount 1234500007 ++ 58 :: letters "wi" = letters "WGRT:12.34500007:wi".
Proof. reflexivity. Qed.

(** A JSON integer below 2^52 is taken as it is. *)
Theorem c100_number : forall n def, (0 <= n < 2 ^ 52)%Z ->
  get_combo_money (JInt n) def = Value (def, Z.to_N n).
Proof. exact number_lemma. Qed.
Print Assumptions c100_number.

Example c100_number_example : (0 <= 123456789012345 < 2 ^ 52)%Z.
Proof. lia. Qed.

(** Up to 210 million coins it is taken for a number that differs by at most five. *)
Theorem c100_number_near : forall n sym a def, (0 <= n <= 21000000000000000)%Z ->
  get_combo_money (JInt n) def = Value (sym, a) -> sym = def /\ (Z.abs (Z.of_N a - n) <= 5)%Z.
Proof. exact number_near_lemma. Qed.
Print Assumptions c100_number_near.

Example c100_number_near_example :
  get_combo_money (JInt 20999999999999999) (letters "WICC") = Value (letters "WICC", 21000000000000000).
Proof. reflexivity. Qed.

(** A negative number is never taken for an amount. *)
Theorem c100_number_negative : forall n def m, (- 2 ^ 63 <= n < 0)%Z -> get_combo_money (JInt n) def <> Value m.
Proof. exact number_negative_lemma. Qed.
Print Assumptions c100_number_negative.

Example c100_number_negative_example : get_combo_money (JInt (-1)) (letters "WICC") = Refused.
Proof. reflexivity. Qed.

(** Not exactly: 45035996.27370497 coins become 45035996.27370498, and a number just below a half
    becomes 1. *)
Theorem c100_number_refuted :
  get_combo_money (JInt (2 ^ 52 + 1)) (letters "WICC") = Value (letters "WICC", 2 ^ 52 + 2) /\
  get_combo_money (JInt (2 ^ 53 + 1)) (letters "WICC") = Value (letters "WICC", 2 ^ 53) /\
  let below_half := ddiv (of_Z (2 ^ 53 - 1)) (of_Z (2 ^ 54)) in
  dlt below_half (ddiv (of_Z 1) (of_Z 2)) = true /\ amount_to_raw_value (JReal below_half) = Value 1.
Proof. repeat split; reflexivity. Qed.
Print Assumptions c100_number_refuted.
