(** Specification side for the governed parameters: what a parameter proposal should do and
    which interest parameters apply at a height, without reference to how they are stored. *)
From Coq Require Import String List Bool NArith ZArith.
From Verif Require Import Prelude SysParamModel.
Import ListNotations.
Open Scope N_scope.

(** The value the list of (parameter, value) settings gives to parameter [ty], later
    settings prevailing; [None] when it does not mention it. *)
Fixpoint setting (l : list (N * N)) (ty : N) : option N :=
  match l with
  | [] => None
  | (t, v) :: l' =>
      match setting l' ty with
      | Some w => Some w
      | None => if t =? ty then Some v else None
      end
  end.

(** One executed change of a CDP parameter: the coin pair, the height of the block, the
    parameter and its new value. *)
Record change := mkChange { g_pair : string * string; g_height : Z; g_type : N; g_value : N }.

Definition same_pair (a b : string * string) : bool :=
  String.eqb (fst a) (fst b) && String.eqb (snd a) (snd b).

(** The value of parameter [ty] of pair [cp] at height [x] given all changes in the order
    they were executed: that of the last change at or below [x], or the default [d]. *)
Fixpoint value_at (d : N) (cs : list change) (cp : string * string) (ty : N) (x : Z) : N :=
  match cs with
  | [] => d
  | c :: cs' =>
      value_at (if same_pair (g_pair c) cp && (g_type c =? ty) && (g_height c <=? x)%Z
                then g_value c else d) cs' cp ty x
  end.

(** A list of periods is an exact division of the heights from [b] to [e]. *)
Fixpoint tiles (b e : Z) (ps : list (Z * Z)) : Prop :=
  match ps with
  | [] => False
  | [(f, t)] => f = b /\ t = e /\ (f <= t)%Z
  | (f, t) :: ps' => f = b /\ (f <= t)%Z /\ tiles (t + 1) e ps'
  end.

(** The heights of a period. *)
Definition as_range (p : period) : Z * Z := (d_from p, d_to p).

(** Executing changes one after the other, from no parameter set. *)
Definition exec_change (p : params) (c : change) : option params :=
  exec_cdp_item (g_pair c) (g_height c) p (g_type c, g_value c).
Fixpoint exec_changes (cs : list change) (p : params) : option params :=
  match cs with
  | [] => Some p
  | c :: cs' => match exec_change p c with Some p' => exec_changes cs' p' | None => None end
  end.
Definition params0 : params := mkParams [] [] [] [] 0 (0, 0) 0.

(** Blocks are executed in the order of their heights. *)
Fixpoint heights_ascend (cs : list change) : Prop :=
  match cs with
  | [] => True
  | c :: cs' => (forall c', In c' cs' -> (g_height c <= g_height c')%Z) /\ heights_ascend cs'
  end.

(** The required relations between the four ratios of a pair. *)
Definition ratios_ok (p : params) (cp : string * string) : Prop :=
  exists sc sl fl ld,
    get_cdp_param p cp START_COLLATERAL = Some sc /\ get_cdp_param p cp START_LIQUIDATE = Some sl /\
    get_cdp_param p cp FORCE_LIQUIDATE = Some fl /\ get_cdp_param p cp LIQUIDATE_DISCOUNT = Some ld /\
    sl < sc /\ fl < sl /\ 10000 * 10000 <= fl * ld /\ fl <= 20000 /\ ld <= 10000.
