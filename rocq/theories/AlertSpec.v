(** What is expected of alerts. *)
From Coq Require Import String List Bool NArith ZArith.
From Verif Require Import AlertModel.
Import ListNotations.
Open Scope Z_scope.

(** Every alert that is kept was signed and is what is read from its message. *)
Definition genuine (signed : N -> N -> bool) (content : N -> option alert) (s : state) : Prop :=
  forall i, In i (s_kept s) -> signed (i_msg i) (i_sig i) = true /\ content (i_msg i) = Some (i_alert i).

(** No alert that is kept cancels another one. *)
Definition apart (s : state) : Prop :=
  forall i j, In i (s_kept s) -> In j (s_kept s) -> i_msg i <> i_msg j ->
    a_cancel (i_alert i) < a_id (i_alert j) /\ ~ In (a_id (i_alert j)) (a_cancels (i_alert i)).

(** The alert that the key is compromised: it has the greatest id. *)
Definition compromised (s : state) : Prop := exists i, In i (s_kept s) /\ a_id (i_alert i) = 2147483647.
Definition only_compromised (s : state) : Prop := forall i, In i (s_kept s) -> a_id (i_alert i) = 2147483647.

(** Ids are of 32 bits. *)
Definition bounded (content : N -> option alert) : Prop :=
  forall msg a, content msg = Some a -> a_id a <= 2147483647.

(** No other alert of a history cancels the greatest id, and it is before 2038. *)
Definition no_override (content : N -> option alert) (l : list event) : Prop :=
  forall p now msg sig, In (Tells p now msg sig) l ->
    now < 2147483647 /\
    forall a, content msg = Some a -> a_id a <> 2147483647 ->
      a_cancel a < 2147483647 /\ ~ In 2147483647 (a_cancels a).

(** Histories in which all peers join with a message that is read, and times do not go back. *)
Definition time_of (e : event) (t : Z) : Z :=
  match e with Joins _ now => now | Tells _ now _ _ => now | _ => t end.
Fixpoint regular (t : Z) (l : list event) : Prop :=
  match l with
  | [] => True
  | e :: l' => (forall p, e <> JoinsShort p) /\ t <= time_of e t /\ regular (time_of e t) l'
  end.
Fixpoint last_time (t : Z) (l : list event) : Z :=
  match l with [] => t | e :: l' => last_time (time_of e t) l' end.
