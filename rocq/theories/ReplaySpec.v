(** The vocabulary of the claims on repeated transactions. *)
From Coq Require Import List Bool NArith ZArith.
From Verif Require Import Prelude DexModel ReplayModel.
Import ListNotations.
Open Scope N_scope.

(** A transaction that is neither a reward nor a median. *)
Definition ordinary (kind : N -> rkind) (t : N) : bool := match kind t with KOther => true | _ => false end.

(** The ids on a chain in all blocks, and in all blocks but the first. *)
Definition confirmed (c : list (list N)) : list N := concat c.
Definition confirmed_later (c : list (list N)) : list N := concat (removelast c).

(** The lives of a node: every history of events. *)
Inductive rlives (kind : N -> rkind) (vh : N -> Z) (H : N) (g : list N) : rworld -> Prop :=
| rl_start : rlives kind vh H g (rstart g)
| rl_step w e w' : rlives kind vh H g w -> rstep kind vh H w e = Done w' -> rlives kind vh H g w'.

(** A chain a node knows of, with the memory for it: its own, or a fork. *)
Definition rheld (w : rworld) (c : list (list N)) (m : list (N * bool)) : Prop :=
  (c = r_chain w /\ m = r_cache w) \/ In (c, m) (r_forks w).

(** Whether a further block is accepted on a chain. *)
Definition accepts (kind : N -> rkind) (vh : N -> Z) (H : N) (c : list (list N)) (m : list (N * bool)) (b : list N) : Prop :=
  exists m', r_connect_tip kind vh H c b m = Done (b :: c, m').

(** The form of a block: a reward first, no other reward, no id twice. *)
Definition formed (kind : N -> rkind) (b : list N) : Prop :=
  exists r l, b = r :: l /\ kind r = KReward /\ (forall t, In t l -> kind t <> KReward) /\ NoDup b.
(** In force: the valid height is at most half the window from the height. *)
Definition in_force (kind : N -> rkind) (vh : N -> Z) (H : N) (cur t : N) : Prop :=
  kind t = KOther -> (Z.abs (vh t - Z.of_N cur) <= Z.of_N (H / 2))%Z.
