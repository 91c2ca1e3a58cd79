(** The histories of a node, and who spoke for a block: read off the events. *)
From Coq Require Import List NArith ZArith Permutation Sorted.
From Verif Require Import Prelude DexModel ChainModel ChainSpec SelectModel FinalModel.
Import ListNotations.

(** Producer [x] spoke for block [b]: a message for [b] signed by [x] came, or the node signs for [x]
    and [b] came, or was confirmed. *)
Definition spoke (es : list event) (x b : N) : Prop :=
  (exists current m, In (EFinal current true m) es /\ m_miner m = x /\ m_block m = b)
  \/ (exists addr e prev, In (EBlock addr e b prev) es /\ In x (o_own e))
  \/ (exists now current own m, In (EConfirm now current own true m) es /\ m_block m = b /\ In x own).

(** The producers after block [b] are those of [ds]. *)
Definition producers (es : list event) (b : N) (ds : list N) : Prop :=
  exists addr e prev, In (EBlock addr e b prev) es /\ o_delegates e = Some ds.

(** How many producers have to speak when [n] are counted. *)
Definition quorum (n : nat) : nat := (n - n / 3)%nat.

(** The number the node counts with: the producers after the block [pre], or the present ones. *)
Definition counted_on (es : list event) (pre : option N) (current n : nat) : Prop :=
  n = current
  \/ exists h ds, pre = Some h /\ producers es h ds /\ n = length (nodup N.eq_dec ds).

(** [Q] are at least [k] different producers after block [q] that spoke for block [b]. *)
Definition spoken (es : list event) (q b : N) (k : nat) (Q : list N) : Prop :=
  exists ds, producers es q ds /\ NoDup Q /\ incl Q ds /\ (k <= length Q)%nat
    /\ forall x, In x Q -> spoke es x b.

(** The block a known block names as its predecessor, the block the node takes as final, and whether
    a block is on the active chain. *)
Definition prev_of (w : world) (b : N) : option N :=
  match fget N.eqb (w_tree w) b with Some n => n_prev n | None => None end.
Definition final_of (w : world) : option N := fst (global_hash (w_act w) (w_fin w)).
Definition on_chain (w : world) (b : N) : Prop := c_contains (w_tree w) (w_act w) (Some b) = Done true.

(** What may happen: on a restart the loaded entries are sorted by height. *)
Definition tall (w : world) (b : N) : Z :=
  match fget N.eqb (w_tree w) b with Some n => n_height n | None => 0%Z end.
Definition legal (w : world) (e : event) : Prop :=
  match e with
  | ERestart _ _ _ order _ _ => Permutation order (keys (w_tree w))
      /\ StronglySorted (fun a b => (tall w a <= tall w b)%Z) order
  | _ => True
  end.

(** The node began with block [g], and the events [es], the last first, led to [w]. *)
Inductive lives (g : N) : list event -> world -> Prop :=
| lives_start : lives g [] (genesis_world g)
| lives_next es w e w' : lives g es w -> legal w e -> next w e = Done w' -> lives g (e :: es) w'.

(** Further events lead from [w] to [w']. *)
Inductive after (w : world) : world -> Prop :=
| after_none : after w w
| after_next w' e w'' : after w w' -> legal w' e -> next w' e = Done w'' -> after w w''.

(** What the event says about the number of producers counted. *)
Definition basis (e : event) : option (option N * nat) :=
  match e with
  | EBlock _ e _ prev => Some (Some prev, o_current e)
  | EFinal current _ m => Some (m_prev m, current)
  | _ => None
  end.
