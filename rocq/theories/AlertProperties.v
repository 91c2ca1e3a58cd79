(** C106: alerts. *)
From Coq Require Import String List Bool NArith ZArith Lia.
From Verif Require Import AlertModel AlertSpec AlertProofs.
Import ListNotations.
Open Scope Z_scope.

(** Some messages, all signed with the signature 7. *)
Definition plain (id cancel expires : Z) (l : list Z) : alert :=
  {| a_expires := expires; a_id := id; a_cancel := cancel; a_cancels := l; a_min := 0; a_max := 99999;
     a_subs := []; a_priority := 1; a_status := "text" |}.
Definition key_lost : alert :=
  {| a_expires := 2147483647; a_id := 2147483647; a_cancel := 2147483646; a_cancels := []; a_min := 0;
     a_max := 2147483647; a_subs := []; a_priority := 2147483647; a_status := urgent |}.
Definition some_content (msg : N) : option alert :=
  match msg with
  | 1%N => Some (plain 10 0 5000 [])
  | 2%N => Some (plain 11 10 3000 [])
  | 3%N => Some key_lost
  | 4%N => Some (plain 5 2147483647 5000 [])
  | 5%N => Some (plain 12 0 5000 [11])
  | _ => None
  end.
Definition some_signed (msg sig : N) : bool := N.eqb sig 7.
Definition some_run : list event -> state := run some_signed some_content 10001 0 nobody.
Definition ids (s : state) : list Z := map (fun i => a_id (i_alert i)) (s_kept s).

(** Only signed alerts are kept, and they are what their messages say. *)
Theorem c106_signed signed content version sub l :
  genuine signed content (run signed content version sub nobody l).
Proof. apply run_genuine. Qed.
Print Assumptions c106_signed.

Example c106_signed_example :
  ids (some_run [Joins 1 100; Tells 1 100 1 8; Tells 1 101 5 7; Tells 1 102 9 7]) = [12].
Proof. vm_compute. reflexivity. Qed.

(** No alert that is kept cancels another. *)
Theorem c106_apart signed content version sub l : apart (run signed content version sub nobody l).
Proof. apply run_apart. Qed.
Print Assumptions c106_apart.

Example c106_apart_example :
  ids (some_run [Joins 1 100; Tells 1 100 1 7; Tells 1 101 5 7]) = [12; 10] /\
  ids (some_run [Joins 1 100; Tells 1 100 1 7; Tells 1 101 2 7]) = [11] /\
  ids (some_run [Joins 1 100; Tells 1 100 2 7; Tells 1 101 1 7]) = [11].
Proof. vm_compute. repeat split; reflexivity. Qed.

(** Once the alert that the key is compromised is kept, alerts with that id and no others are kept, if no
    alert cancels that id and it is before 2038. *)
Theorem c106_final signed content version sub l l' : bounded content ->
  compromised (run signed content version sub nobody l) -> no_override content l' ->
  compromised (run signed content version sub nobody (l ++ l')) /\
  only_compromised (run signed content version sub nobody (l ++ l')).
Proof. apply final_stays. Qed.
Print Assumptions c106_final.

Lemma some_bounded : bounded some_content.
Proof.
  intros msg a H. unfold some_content in H.
  repeat match type of H with context [match ?x with _ => _ end] => destruct x end;
    try discriminate H; inversion H; subst; cbn; lia.
Qed.
Example c106_final_example :
  bounded some_content /\
  compromised (some_run [Joins 1 100; Tells 1 100 1 7; Tells 1 101 3 7]) /\
  no_override some_content [Joins 2 102; Tells 2 103 5 7; Tells 2 104 2 7] /\
  ids (some_run ([Joins 1 100; Tells 1 100 1 7; Tells 1 101 3 7] ++ [Joins 2 102; Tells 2 103 5 7; Tells 2 104 2 7]))
    = [2147483647].
Proof.
  split; [exact some_bounded|]. split; [eexists; split; [left; reflexivity|reflexivity]|].
  split; [|vm_compute; reflexivity].
  intros p now msg sig [E|[E|[E|[]]]]; inversion E; subst; (split; [lia|]);
    intros a A; inversion A; subst; intros _; cbn; lia.
Qed.

(** But an alert can cancel that id, although its own id was cancelled: the alert that was to be the last
    is gone.  And it expires in 2038. *)
Theorem c106_final_refuted :
  ids (some_run [Joins 1 100; Tells 1 101 3 7]) = [2147483647] /\
  ids (some_run [Joins 1 100; Tells 1 101 3 7; Tells 1 102 4 7]) = [5] /\
  ids (some_run [Joins 1 100; Tells 1 101 3 7; Tells 1 2147483646 5 7]) = [2147483647] /\
  let l := [Joins 1 100; Tells 1 101 3 7] in
  let later := fun msg => match msg with 6%N => Some (plain 13 0 3000000000 []) | _ => some_content msg end in
  ids (run some_signed later 10001 0 nobody (l ++ [Tells 1 2147483647 6 7])) = [13].
Proof. vm_compute. repeat split; reflexivity. Qed.
Print Assumptions c106_final_refuted.

(** An alert that was cancelled should have no effect.  But before it is refused, what it cancels is
    removed; and when the alert that cancelled it has expired, it is accepted from any peer. *)
Theorem c106_cancelled_refuted :
  (let l := [Joins 1 100; Tells 1 101 1 7; Tells 1 102 5 7] in
   ids (some_run l) = [12; 10] /\ ids (some_run (l ++ [Tells 1 103 2 7])) = [12]) /\
  (let l := [Joins 1 100; Tells 1 101 1 7; Tells 1 102 2 7] in
   ids (some_run l) = [11] /\ ids (some_run (l ++ [Joins 2 103; Tells 2 104 1 7])) = [11] /\
   ids (some_run (l ++ [Joins 2 103; Tells 2 3000 1 7])) = [10]).
Proof. vm_compute. repeat split; reflexivity. Qed.
Print Assumptions c106_cancelled_refuted.

(** The command is run for an alert only when it was not kept before, if all peers join with a message
    that is read and times do not go back. *)
Theorem c106_once signed content version sub t l p now msg sig : regular t l -> last_time t l <= now ->
  let s := run signed content version sub nobody l in
  let s' := happens signed content version sub s (Tells p now msg sig) in
  s_run s' <> s_run s -> s_run s' = msg :: s_run s /\ ~ In msg (map i_msg (s_kept s)).
Proof. intros R L. now apply (once signed content version sub t). Qed.
Print Assumptions c106_once.

Example c106_once_example :
  let l := [Joins 1 100; Joins 2 101; Tells 1 102 1 7; Tells 2 103 1 7; Leaves 2; Joins 3 104; Tells 3 105 1 7] in
  regular 0 l /\ last_time 0 l = 105 /\ s_run (some_run l) = [1%N] /\
  s_run (some_run (l ++ [Tells 3 106 5 7])) = [5%N; 1%N].
Proof.
  split; [|vm_compute; repeat split; reflexivity].
  cbn [regular time_of]. repeat (split; [intros q; discriminate|]; split; [lia|]). exact I.
Qed.

(** But a peer whose version message ends after the version is not told the alerts that are kept, and the
    command is run for one of them each time such a peer sends it. *)
Theorem c106_replay_refuted :
  let l := [Joins 1 100; Tells 1 101 1 7] in
  let again := fun p => [JoinsShort p; Tells p 102 1 7; Leaves p] in
  s_run (some_run (l ++ again 2%N)) = [1%N; 1%N] /\
  s_run (some_run (l ++ again 2%N ++ again 3%N)) = [1%N; 1%N; 1%N] /\
  ids (some_run (l ++ again 2%N ++ again 3%N)) = [10].
Proof. vm_compute. repeat split; reflexivity. Qed.
Print Assumptions c106_replay_refuted.
