(** The values that fit a format, and the conditions on transactions in terms of the layouts:
    what the proofs work with.  WireBridge.v shows that they are those of WireSpec.v. *)
From Coq Require Import String List Bool NArith ZArith Sorting.Sorted.
From Verif Require Import Prelude CodecModel CodecSpec WireModel WireSpec.
Import ListNotations.
Open Scope string_scope.
Open Scope list_scope.
Open Scope N_scope.

(** The values that variables of the type of a field can hold, within the limits on the lengths
    of strings and vectors. *)
Inductive fits : fmt -> val -> Prop :=
| fits_unit : fits FUnit VUnit
| fits_num w n : 7 <= w -> n < 2 ^ w -> fits (FNum w) (VNum n)
| fits_int z : (-2147483648 <= z < 2147483648)%Z -> fits FInt (VInt z)
| fits_dex n : n < 4294967296 -> fits FDex (VNum n)
| fits_raw k n : n < 256 ^ N.of_nat k -> fits (FRaw k) (VNum n)
| fits_bool n : n < 2 -> fits FBool (VNum n)
| fits_skip b : b < 256 -> fits (FSkip b) VUnit
| fits_blob k b : length b = k -> bytes b -> fits (FBlob k) (VBytes b)
| fits_bytes b : N.of_nat (length b) <= 33554432 -> bytes b -> fits FBytes (VBytes b)
| fits_text b : N.of_nat (length b) <= 4000000 -> bytes b -> fits FText (VBytes b)
| fits_uid u : uid_value u -> fits FUid (VUid u)
| fits_reg r : regid_ok r -> fits FReg (VReg r)
| fits_lua c m : fits FText (VBytes c) -> fits FText (VBytes m) ->
    fits FLua (VPair (VBytes c) (VBytes m))
| fits_pair a b x y : fits a x -> fits b y -> fits (FPair a b) (VPair x y)
| fits_list a l : N.of_nat (length l) <= 33554432 -> Forall (fits a) l ->
    fits (FList a) (VList l)
| fits_map strict (two : bool) a l : N.of_nat (length l) <= 33554432 ->
    Forall (fits (FPair (if two then FPair FText FText else FText) a)) l ->
    in_key_order l -> fits (FMap strict two a) (VList l)
| fits_tag body t v : t < 256 -> fits (body t) v -> fits (FTag body) (VTag t v).

Section Tx.
  Variable r3 : Z -> bool.

  (** The fields that a type of transaction sends, besides its version. *)
  Definition carried (t : N) (n : string) : Prop :=
    n = "nVersion" \/ exists l i, wire r3 t = Some l /\ In i l /\ i_name i = n.

  (** A transaction of a known type, with values of the types of its fields. *)
  Record tx_fits (t : tx) : Prop := {
    tv_version : fits FInt (tx_get t "nVersion");
    tv_fields : exists l, wire r3 (tx_type t) = Some l /\
      forall i, In i l -> fits (i_fmt i (tx_get t (i_on i))) (tx_get t (i_name i))
  }.

  Definition carried_keys (t : tx) : Prop :=
    forall n, carried (tx_type t) n -> keys_valid (tx_get t n).
  Definition carried_nonneg (t : tx) : Prop :=
    forall n, carried (tx_type t) n -> nonneg (tx_get t n).

  (** Two transactions that are the same for everyone who receives them. *)
  Definition carried_same (a b : tx) : Prop :=
    tx_type a = tx_type b /\ forall n, carried (tx_type a) n -> tx_get a n = tx_get b n.

  Definition carried_content (but : N -> string -> Prop) (a b : tx) : Prop :=
    tx_type a = tx_type b /\
    (forall n, carried (tx_type a) n -> ~ signature_field (tx_type a) n -> ~ but (tx_type a) n ->
               tx_get a n = tx_get b n) /\
    (tx_type a = 100 -> signers (tx_get a "signatures") = signers (tx_get b "signatures")).
  (** ** Everything that is signed *)

  (** What a node can be asked to sign or to check the signature of: blocks have version 1
      (main.cpp:1824-1828), the messages of the finality protocol are of two kinds
      (protocol.h:258-263). *)
  Definition proper_form (x : signable) : Prop :=
    match x with
    | STx t => tx_fits t /\ carried_keys t /\ carried_nonneg t
    | SBlock version prev merkle time nonce height fuel_fee fuel_rate =>
        version = 1 /\ length prev = 32%nat /\ length merkle = 32%nat /\ time < 4294967296 /\
        nonce < 4294967296 /\ height < 4294967296 /\ fuel_fee < 18446744073709551616 /\
        fuel_rate < 4294967296
    | SVote kind block height miner prev =>
        (kind = 1 \/ kind = 2) /\ length block = 32%nat /\ height < 4294967296 /\
        regid_ok miner /\ length prev = 32%nat
    | SText text => N.of_nat (length text) <= 4000000
    | SShared txid index keyid script =>
        length txid = 32%nat /\ bytes txid /\ index < 65536 /\ length keyid = 20%nat /\
        bytes keyid /\ N.of_nat (length script) <= 4000000
    end.

  Definition same_form (x y : signable) : Prop :=
    match x, y with
    | STx a, STx b => carried_content settle_fees a b
    | _, _ => x = y
    end.
End Tx.
