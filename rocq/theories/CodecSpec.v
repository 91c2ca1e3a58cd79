(** What the encodings mean, independently of the functions that produce and read them. *)
From Coq Require Import List Bool NArith.
From Verif Require Import Prelude CodecModel.
Import ListNotations.
Open Scope N_scope.

(** A byte string. *)
Definition bytes (s : list N) : Prop := Forall (fun b => b < 256) s.

(** A variable-length integer: every byte but the last has its high bit set. *)
Fixpoint is_varint (s : list N) : Prop :=
  match s with
  | [] => False
  | [b] => b < 128
  | b :: s' => 128 <= b < 256 /\ is_varint s'
  end.

(** The number it stands for, as documented in serialize.h:289-294:
    the last digit plus the sum over the other digits of [128^i * (digit + 1)]. *)
Fixpoint varint_value (s : list N) : N :=
  match s with
  | [] => 0
  | [b] => b
  | b :: s' => (b - 128 + 1) * 128 ^ N.of_nat (length s') + varint_value s'
  end.

(** Byte-wise comparison of keys, as a key-value store orders them. *)
Fixpoint byte_order (x y : list N) : comparison :=
  match x, y with
  | [], [] => Eq
  | [], _ :: _ => Lt
  | _ :: _, [] => Gt
  | a :: x', b :: y' => match a ?= b with Eq => byte_order x' y' | c => c end
  end.

(** First by one comparison, then by the next. *)
Definition then_by (c d : comparison) : comparison := match c with Eq => d | _ => c end.

(** A registration id within the width of its fields. *)
Definition regid_ok (r : N * N) : Prop := fst r < 4294967296 /\ snd r < 65536.

(** A user id that stands for something: no invalid public key. *)
Definition pubkey_ok (p : pubkey) : Prop :=
  match p with
  | PubBytes (h :: t) => (h = 2 \/ h = 3) /\ length t = 32%nat
  | _ => False
  end.
Definition userid_ok (u : userid) : Prop :=
  match u with
  | IdNull => True
  | IdReg r => regid_ok r
  | IdKey k => length k = 20%nat
  | IdPub p => pubkey_ok p
  end.
