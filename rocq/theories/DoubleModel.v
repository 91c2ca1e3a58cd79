(** The type [double] of the code: IEEE 754 binary64 with rounding to nearest even, as defined
    by Flocq. x86-64 compilers evaluate [double] expressions in this format.

    Source: the uses are /repo/src/entities/proposal.cpp:636-642 (swap fees),
    /repo/src/entities/cdp.h, /repo/src/entities/cdp.cpp and /repo/src/tx/cdptx.cpp (ratios),
    cited there. *)
From Coq Require Import Bool NArith ZArith Reals Lia.
From Flocq Require Import Core.
From Flocq Require Import BinarySingleNaN.

Definition prec53 : Prec_gt_0 53 := eq_refl.
Definition emax1024 : Prec_lt_emax 53 1024 := eq_refl.
#[global] Existing Instance prec53.
#[global] Existing Instance emax1024.

Notation double := (binary_float 53 1024) (only parsing).

(** Conversion of an integer to [double]: the nearest one. *)
Definition of_Z (z : Z) : double := binary_normalize 53 1024 prec53 emax1024 mode_NE z 0 false.
Definition of_N (n : N) : double := of_Z (Z.of_N n).

(** [*] and [/] and [-]. *)
Definition dmul (x y : double) : double := Bmult mode_NE x y.
Definition ddiv (x y : double) : double := Bdiv mode_NE x y.
Definition dsub (x y : double) : double := Bminus mode_NE x y.

(** Comparisons; false when an operand is not a number. *)
Definition dlt (x y : double) : bool := Bltb x y.
Definition dle (x y : double) : bool := Bleb x y.

(** Conversion to [uint64_t]: truncation. [None]: the truncated value does not fit, which is
    undefined behaviour in C++. *)
Definition to_u64 (x : double) : option N :=
  if is_finite x then
    let z := Btrunc x in
    if ((0 <=? z) && (z <? 2 ^ 64))%Z then Some (Z.to_N z) else None
  else None.
