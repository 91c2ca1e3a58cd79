(** Model of the times that peers tell, of the warning about a wrong clock and of the filter behind it.

    Source: /repo/src/commons/util/util.cpp:850-905 (GetTimeOffset, GetAdjustedTime, AddTimeData),
    /repo/src/commons/util/util.h:220 (abs64), 286-329 (CMedianFilter),
    /repo/src/p2p/chainmessage.cpp:241-345 (ProcessVersionMessage: the call of AddTimeData),
    /repo/src/main.cpp:1829-1832 (CheckBlock: blocks from the future).

    Simplifications: addresses are numbers; times are unbounded and their differences and absolute
    values fail when they leave 64 bits; the sorting of the standard library is an insertion sort, the
    numbers it yields being the same. *)
From Coq Require Import List Bool ZArith.
Import ListNotations.
Open Scope Z_scope.

Definition int64 (z : Z) : bool := (-9223372036854775808 <=? z) && (z <=? 9223372036854775807).

(** [abs64]; [None]: the result is not defined. *)
Definition abs64 (n : Z) : option Z :=
  if 0 <=? n then Some n else if int64 (- n) then Some (- n) else None.

(** ** [CMedianFilter] *)

Fixpoint insert (x : Z) (l : list Z) : list Z :=
  match l with
  | [] => [x]
  | y :: l' => if x <=? y then x :: l else y :: insert x l'
  end.
Fixpoint sort (l : list Z) : list Z :=
  match l with
  | [] => []
  | x :: l' => insert x (sort l')
  end.

Record filter := { v_values : list Z; v_sorted : list Z; v_size : nat }.
Definition new_filter (size : nat) (initial : Z) : filter :=
  {| v_values := [initial]; v_sorted := [initial]; v_size := size |}.
(** [input], util.h:303-312. *)
Definition input (f : filter) (value : Z) : filter :=
  let kept := if (length (v_values f) =? v_size f)%nat then tl (v_values f) else v_values f in
  let values := kept ++ [value] in
  {| v_values := values; v_sorted := sort values; v_size := v_size f |}.
(** [median], util.h:314-324; [None]: the assertion fails, or the sum leaves 64 bits. *)
Definition median (f : filter) : option Z :=
  let s := v_sorted f in
  let size := length s in
  if (size =? 0)%nat then None
  else if Nat.odd size then Some (nth (size / 2) s 0)
  else
    let sum := nth (size / 2 - 1) s 0 + nth (size / 2) s 0 in
    if int64 sum then Some (Z.quot sum 2) else None.

(** ** [AddTimeData] *)

Record clock := {
  c_known : list Z;            (* [setKnown] *)
  c_offsets : filter;          (* [vTimeOffsets] *)
  c_offset : Z;                (* [nTimeOffset] *)
  c_done : bool;               (* [fDone] *)
  c_warning : bool             (* [strMiscWarning] was set here *)
}.
Definition new_clock : clock :=
  {| c_known := []; c_offsets := new_filter 200 0; c_offset := 0; c_done := false; c_warning := false |}.

(** The loop over the samples, util.cpp:887-890. *)
Fixpoint matches (l : list Z) (found : bool) : option bool :=
  match l with
  | [] => Some found
  | x :: l' =>
      match abs64 x with
      | None => None
      | Some a => matches l' (if a <=? 1 then true else found)
      end
  end.

(** util.cpp:860-905, at time [now] of the node's own clock; [None]: not defined. *)
Definition add_time_data (c : clock) (now ip time : Z) : option clock :=
  let sample := time - now in
  if negb (int64 sample) then None
  else if existsb (Z.eqb ip) (c_known c) then Some c
  else
    let f := input (c_offsets c) sample in
    let size := length (v_values f) in
    let c1 := {| c_known := ip :: c_known c; c_offsets := f; c_offset := c_offset c;
                 c_done := c_done c; c_warning := c_warning c |} in
    if (5 <=? size)%nat && Nat.odd size then
      match median f with
      | None => None
      | Some m =>
          match abs64 m with
          | None => None
          | Some a =>
              if (1 <? a) && negb (c_done c) then
                match matches (v_sorted f) false with
                | None => None
                | Some true => Some c1
                | Some false =>
                    Some {| c_known := ip :: c_known c; c_offsets := f; c_offset := c_offset c;
                            c_done := true; c_warning := true |}
                end
              else Some c1
          end
      end
    else Some c1.

(** [GetAdjustedTime], util.cpp:858. *)
Definition adjusted_time (c : clock) (now : Z) : Z := now + c_offset c.
(** A block is refused as one from the future, main.cpp:1830. *)
Definition too_new (c : clock) (now interval time : Z) : bool :=
  adjusted_time c now + interval + 2 <? time.

(** Peers tell their times: the node's own clock, the address of the peer, what it tells. *)
Definition told := (Z * Z * Z)%type.
Fixpoint hears (c : clock) (l : list told) : option clock :=
  match l with
  | [] => Some c
  | (now, ip, time) :: l' =>
      match add_time_data c now ip time with
      | None => None
      | Some c' => hears c' l'
      end
  end.
