(** The type [float] of the code: IEEE 754 binary32 with rounding to nearest even, as defined by
    Flocq. x86-64 compilers evaluate [float] expressions in this format.

    Source: the uses are /repo/src/tx/tx.cpp:86-88 and /repo/src/tx/contracttx.cpp:119, 316 (the fee
    for burned fuel), cited in FuelModel.v. *)
From Coq Require Import Bool NArith ZArith Reals Lia.
From Flocq Require Import Core.
From Flocq Require Import BinarySingleNaN.

Definition prec24 : Prec_gt_0 24 := eq_refl.
Definition emax128 : Prec_lt_emax 24 128 := eq_refl.
#[global] Existing Instance prec24.
#[global] Existing Instance emax128.

Notation single := (binary_float 24 128) (only parsing).

(** Conversion of an integer to [float]: the nearest one. *)
Definition s_of_N (n : N) : single :=
  binary_normalize 24 128 prec24 emax128 mode_NE (Z.of_N n) 0 false.

(** [*], [/] and [std::ceil]. *)
Definition smul (x y : single) : single := Bmult mode_NE x y.
Definition sdiv (x y : single) : single := Bdiv mode_NE x y.
Definition sceil (x : single) : single := Bnearbyint mode_UP x.

(** Conversion to [uint64_t]: truncation. [None]: the truncated value does not fit, which is
    undefined behaviour in C++. *)
Definition s_to_u64 (x : single) : option N :=
  if is_finite x then
    let z := Btrunc x in
    if ((0 <=? z) && (z <? 2 ^ 64))%Z then Some (Z.to_N z) else None
  else None.
