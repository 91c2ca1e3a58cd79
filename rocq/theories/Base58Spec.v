(** What Base58 text stands for. *)
From Coq Require Import NArith Bool List.
From Verif Require Import Prelude Base58Model CodecSpec.
Import ListNotations.
Open Scope N_scope.

(** The number written with the digits [l], most significant first. *)
Definition numeral (base : N) (l : list N) : N := fold_left (fun v d => base * v + d) l 0.

(** No leading zero. *)
Definition proper (l : list N) : Prop := match l with [] => True | d :: _ => d <> 0 end.

(** The character of a digit. *)
Definition char58 (d : N) : N := nth (N.to_nat d) alphabet 0.

(** The characters of the text: digits without 0, letters without I, O and l. *)
Definition allowed58 (c : N) : bool :=
  ((49 <=? c) && (c <=? 57)) ||
  ((65 <=? c) && (c <=? 90) && negb (c =? 73) && negb (c =? 79)) ||
  ((97 <=? c) && (c <=? 122) && negb (c =? 108)).

(** [t] is the Base58 text of the bytes [b]: a '1' for every leading zero byte, then the
    number of the remaining bytes in base 58 without leading zero. *)
Definition base58_text (b t : list N) : Prop :=
  exists zeroes payload digits,
    b = repeat 0 zeroes ++ payload /\ proper payload /\
    t = repeat 49 zeroes ++ map char58 digits /\ proper digits /\
    Forall (fun d => d < 58) digits /\
    numeral 58 digits = numeral 256 payload.

(** [core] is [t] without surrounding white space and without what follows a terminator. *)
Definition spaces (l : list N) : Prop := Forall (fun c => is_space c = true) l.
Definition core_of (t core : list N) : Prop :=
  exists before after cut,
    t = before ++ core ++ after ++ cut /\ spaces before /\ spaces after /\
    Forall (fun c => c <> 0) core /\ Forall (fun c => is_space c = false) core /\
    (cut = [] \/ exists rest, cut = 0 :: rest).
