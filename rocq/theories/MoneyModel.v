(** Model of amounts of money at the RPC interface: how what the user typed becomes an amount, and how
    amounts are shown.

    Source: /repo/src/rpc/core/rpccommons.cpp:27-184,413-430, rpccommons.h:144-147,
    /repo/src/rpc/core/rpcserver.cpp:104-111, /repo/src/commons/util/util.h:218,
    /repo/src/commons/json/json_spirit_value.h:433-444, /repo/src/config/const.h:82-125,
    /repo/src/config/configuration.h:229-234, /repo/src/config/chainparams.h:261-267.

    Simplifications:
    - a string is the list of its bytes; [isdigit] and [tolower] are those of the "C" locale, also for
      bytes above 127, for which C++ leaves them undefined;
    - [atoll] of digits beyond 2^63 - 1 is undefined in C; it is 2^63 - 1 here, as with glibc;
    - the JSON parser is not modelled: a parameter is an integer of 64 bits, a [double] or a string;
    - the unit of a [ComboMoney] is "sawi" in all cases and is left out. *)
From Coq Require Import List Bool NArith ZArith.
From Flocq Require Import BinarySingleNaN.
From Verif Require Import DoubleModel.
Import ListNotations.
Local Open Scope N_scope.

Definition bytes := list N.

(** [std::isdigit] and [::tolower]. *)
Definition is_digit (c : N) : bool := (48 <=? c) && (c <=? 57).
Definition to_lower (c : N) : N := if (65 <=? c) && (c <=? 90) then c + 32 else c.

Definition colon : N := 58.
Definition dot : N := 46.

(** [split] by a character, rpccommons.cpp:30-38, with [std::getline]: there is no field after a delimiter
    at the end, nor in the empty string. [split] by the one-character string ".", rpccommons.cpp:50-66,
    does the same. *)
Fixpoint split (d : N) (s : bytes) (field : bytes) : list bytes :=
  match s with
  | [] => match field with [] => [] | _ => [field] end
  | c :: s' => if c =? d then field :: split d s' [] else split d s' (field ++ [c])
  end.

(** [is_number], rpccommons.h:144-147. *)
Definition is_number (s : bytes) : bool :=
  match s with [] => false | _ => forallb is_digit s end.

(** [is_decimal], rpccommons.cpp:41-44: ([1-9][0-9]*|0)\.[0-9]+ *)
Fixpoint digits_dot_digits (s : bytes) : bool :=
  match s with
  | [] => false
  | c :: s' => if c =? dot then is_number s' else is_digit c && digits_dot_digits s'
  end.

Definition is_decimal (s : bytes) : bool :=
  match s with
  | [] => false
  | c :: s' =>
      if c =? 48 then match s' with c' :: s'' => (c' =? dot) && is_number s'' | [] => false end
      else is_digit c && digits_dot_digits s'
  end.

(** [atoll] of a string of digits. *)
Definition max_i64 : N := 9223372036854775807.
Definition atoll (s : bytes) : N :=
  N.min max_i64 (fold_left (fun n c => 10 * n + (c - 48)) s 0).

(** [pow10], rpccommons.cpp:67-86: the digits before the point, and [precision] of those after it, filled
    with zeros. *)
Definition pow10 (s : bytes) (precision : nat) : option N :=
  let v := split dot s [] in
  let ip := nth 0 v [] in
  let dp := nth 1 v [] in
  if Nat.ltb precision (length dp) then None
  else Some (atoll (ip ++ map (fun i => nth i dp 48) (seq 0 precision))).

(** [CoinUnitPrecisionTable], const.h:112-124, with the same keys as [CoinUnitTypeMap], const.h:97-109. *)
Definition unit_precision : list (bytes * nat) :=
  [ ([115; 97; 119; 105], 0%nat);    (* sawi *)
    ([113; 117; 119; 105], 1%nat);   (* quwi *)
    ([109; 117; 119; 105], 2%nat);   (* muwi *)
    ([104; 117; 119; 105], 3%nat);   (* huwi *)
    ([115; 105; 119; 105], 4%nat);   (* siwi *)
    ([109; 105; 119; 105], 5%nat);   (* miwi *)
    ([108; 101; 119; 105], 6%nat);   (* lewi *)
    ([102; 101; 119; 105], 7%nat);   (* fewi *)
    ([119; 105], 8%nat);             (* wi *)
    ([107; 119; 105], 11%nat);       (* kwi *)
    ([109; 119; 105], 14%nat) ].     (* mwi *)

Fixpoint bytes_eqb (a b : bytes) : bool :=
  match a, b with
  | [], [] => true
  | x :: a', y :: b' => (x =? y) && bytes_eqb a' b'
  | _, _ => false
  end.

Fixpoint find_unit (u : bytes) (t : list (bytes * nat)) : option nat :=
  match t with
  | [] => None
  | (n, p) :: t' => if bytes_eqb u n then Some p else find_unit u t'
  end.

(** A token symbol and an amount in the smallest unit. *)
Definition money := (bytes * N)%type.

Definition WICC : bytes := [87; 73; 67; 67].
Definition WUSD : bytes := [87; 85; 83; 68].

(** [MAX_TOKEN_SYMBOL_LEN], const.h:132. *)
Definition max_symbol : nat := 7.

(** [parseAmountAndUnit], rpccommons.cpp:88-108. *)
Definition parse_amount_and_unit (amount unit symbol : bytes) : option money :=
  match find_unit (map to_lower unit) unit_precision with
  | None => None
  | Some p => match pow10 amount p with None => None | Some a => Some (symbol, a) end
  end.

(** [parseSymbolAndAmount], rpccommons.cpp:110-127. *)
Definition parse_symbol_and_amount (symbol amount : bytes) : option money :=
  if Nat.ltb max_symbol (length symbol) then None else Some (symbol, atoll amount).

(** [ParseRpcInputMoney], rpccommons.cpp:131-184. With an amount and a unit alone the
    default of [parseAmountAndUnit] is used, rpccommons.cpp:152, not that of the caller. *)
Definition parse_money (s : bytes) (default_symbol : bytes) : option money :=
  match split colon s [] with
  | [a] => if is_number a then Some (default_symbol, atoll a) else None
  | [a; b] =>
      if is_number a || is_decimal a then parse_amount_and_unit a b WICC
      else if is_number b then parse_symbol_and_amount a b
      else None
  | [a; b; c] =>
      if Nat.ltb max_symbol (length a) then None
      else if negb (is_number b) && negb (is_decimal b) then None
      else parse_amount_and_unit b c a
  | _ => None
  end.

(** ** Numbers *)

(** [+]. *)
Definition dadd (x y : binary_float 53 1024) : binary_float 53 1024 := Bplus mode_NE x y.

Definition half : binary_float 53 1024 := ddiv (of_Z 1) (of_Z 2).

(** [roundint64], util.h:218. [None]: the value does not fit, which is undefined. *)
Definition round_int64 (d : binary_float 53 1024) : option Z :=
  let x := if dlt (of_Z 0) d then dadd d half else dsub d half in
  if is_finite x then
    let z := Btrunc x in
    if ((- 2 ^ 63 <=? z) && (z <? 2 ^ 63))%Z then Some z else None
  else None.

(** [BCOIN_MAX_MONEY], configuration.h:229, const.h:205. *)
Definition max_money : Z := 21000000000000000%Z.

(** A parameter of a call. *)
Inductive json :=
| JInt (n : Z)
| JReal (d : binary_float 53 1024)
| JStr (s : bytes)
| JOther.

Inductive answer (A : Type) :=
| Undefined
| Refused
| Value (a : A).
Arguments Undefined {A}.
Arguments Refused {A}.
Arguments Value {A}.

(** [AmountToRawValue], rpcserver.cpp:104-111, with [get_real], json_spirit_value.h:433-444. *)
Definition amount_to_raw_value (v : json) : answer N :=
  match (match v with JInt n => Some (of_Z n) | JReal d => Some d | _ => None end) with
  | None => Refused
  | Some d =>
      match round_int64 d with
      | None => Undefined
      | Some z => if ((0 <=? z) && (z <=? max_money))%Z then Value (Z.to_N z) else Refused
      end
  end.

(** [RPC_PARAM::GetComboMoney], rpccommons.cpp:413-430. *)
Definition get_combo_money (v : json) (default_symbol : bytes) : answer money :=
  match v with
  | JInt n =>
      match amount_to_raw_value (JInt n) with
      | Value a => Value (default_symbol, a)
      | Refused => Refused
      | Undefined => Undefined
      end
  | JStr s => match parse_money s default_symbol with Some m => Value m | None => Refused end
  | _ => Refused
  end.

(** ** Showing amounts *)

(** The digits of [n], [k] of them, and as many as needed, as [strprintf] prints them. *)
Fixpoint digits (k : nat) (n : N) : bytes :=
  match k with
  | O => []
  | S k' => digits k' (n / 10) ++ [48 + n mod 10]
  end.

Fixpoint size10 (fuel : nat) (n : N) : nat :=
  match fuel with
  | O => 1%nat
  | S fuel' => if n <? 10 then 1%nat else S (size10 fuel' (n / 10))
  end.

Definition decimal (n : N) : bytes := digits (size10 20 n) n.

(** [JsonValueFromAmount], chainparams.h:261-267, unless amounts are shown in sawi. [COIN], const.h:129. *)
Definition show_amount (a : N) : bytes :=
  decimal (a / 100000000) ++ [dot] ++ digits 8 (a mod 100000000).
