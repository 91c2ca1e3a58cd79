(** Model of alerts: which are kept, which cancel which, and when the user's command is run.

    Source: /repo/src/alert.cpp:94-226 (IsInEffect, Cancels, AppliesTo, RelayTo, CheckSignature,
    ProcessAlert), /repo/src/p2p/chainmessage.cpp:753-776 (ProcessAlertMessage), 241-262, 326-330
    (ProcessVersionMessage: reading the message, relaying alerts),
    /repo/src/p2p/processmessage.hpp:23-32, 107-109, 224-250 (no message before the version; errors in
    reading one do not end the connection).

    Simplifications: a message is a number, compared instead of its hash, and [content] is what is read
    from it; the variables of an alert that are only shown or relayed are left out; -alertnotify is
    set. *)
From Coq Require Import String List Bool NArith ZArith.
Import ListNotations.
Open Scope Z_scope.

(** [CUnsignedAlert], alert.h:31-68. *)
Record alert := {
  a_expires : Z; a_id : Z; a_cancel : Z; a_cancels : list Z;
  a_min : Z; a_max : Z; a_subs : list N; a_priority : Z; a_status : string
}.
Definition max_int : Z := 2147483647.

(** [IsInEffect], alert.cpp:94. *)
Definition in_effect (now : Z) (a : alert) : bool := now <? a_expires a.
(** The ids that an alert cancels, alert.cpp:99. *)
Definition names (c : alert) (id : Z) : bool := (id <=? a_cancel c) || existsb (Z.eqb id) (a_cancels c).
(** [Cancels], alert.cpp:96-100. *)
Definition cancels (now : Z) (c a : alert) : bool := if negb (in_effect now c) then false else names c (a_id a).
(** [AppliesTo], alert.cpp:102-107. *)
Definition applies_to (now : Z) (a : alert) (version : Z) (sub : N) : bool :=
  in_effect now a && (a_min a <=? version) && (version <=? a_max a) &&
  (match a_subs a with [] => true | _ => false end || existsb (N.eqb sub) (a_subs a)).

(** What an alert with the greatest id must be, alert.cpp:163-174. *)
Definition urgent : string := "URGENT: Alert key compromised, upgrade required".
Definition final_form (a : alert) : bool :=
  (a_expires a =? max_int) && (a_cancel a =? max_int - 1) && (a_min a =? 0) && (a_max a =? max_int) &&
  match a_subs a with [] => true | _ => false end && (a_priority a =? max_int) && String.eqb (a_status a) urgent.

(** An entry of [mapAlerts]. *)
Record item := { i_msg : N; i_sig : N; i_alert : alert }.

Inductive verdict :=
| Throws                                     (* the message cannot be read *)
| Refuses (kept : list item)
| Accepts (kept : list item) (command : bool).

Section Alerts.
  (** Whether a signature of a message verifies with the key of alerts; what is read from a message. *)
  Variable signed : N -> N -> bool.
  Variable content : N -> option alert.
  Variable my_version : Z.
  Variable my_sub : N.

  (** [ProcessAlert], alert.cpp:150-226. *)
  Definition process_alert (now : Z) (kept : list item) (msg sig : N) : verdict :=
    if negb (signed msg sig) then Refuses kept
    else match content msg with
    | None => Throws
    | Some a =>
        if negb (in_effect now a) then Refuses kept
        else if (a_id a =? max_int) && negb (final_form a) then Refuses kept
        else
          let rest := filter (fun i => negb (cancels now a (i_alert i)) && in_effect now (i_alert i)) kept in
          if existsb (fun i => cancels now (i_alert i) a) rest then Refuses rest
          else
            Accepts (if existsb (fun i => N.eqb (i_msg i) msg) rest then rest
                     else {| i_msg := msg; i_sig := sig; i_alert := a |} :: rest)
                    (applies_to now a my_version my_sub)
    end.

  (** The alerts that are kept; the peers, each with the messages in its [setKnown]; the messages for
      which the command was run, the latest first. *)
  Record state := { s_kept : list item; s_peers : list (N * list N); s_run : list N }.
  Definition nobody : state := {| s_kept := []; s_peers := []; s_run := [] |}.

  Fixpoint known_to (l : list (N * list N)) (p : N) : option (list N) :=
    match l with
    | [] => None
    | (q, k) :: l' => if N.eqb p q then Some k else known_to l' p
    end.

  Inductive event :=
  | Joins (p : N) (now : Z)          (* a new peer whose version message is read *)
  | JoinsShort (p : N)               (* one whose version message ends after the version *)
  | Leaves (p : N)
  | Tells (p : N) (now : Z) (msg sig : N).

  Definition happens (s : state) (e : event) : state :=
    match e with
    | Joins p now =>
        {| s_kept := s_kept s;
           s_peers := (p, map i_msg (filter (fun i => in_effect now (i_alert i)) (s_kept s))) :: s_peers s;
           s_run := s_run s |}
    | JoinsShort p => {| s_kept := s_kept s; s_peers := (p, []) :: s_peers s; s_run := s_run s |}
    | Leaves p =>
        {| s_kept := s_kept s; s_peers := filter (fun x => negb (N.eqb p (fst x))) (s_peers s);
           s_run := s_run s |}
    | Tells p now msg sig =>
        match known_to (s_peers s) p with
        | None => s
        | Some known =>
            if existsb (N.eqb msg) known then s
            else match process_alert now (s_kept s) msg sig with
            | Throws => s
            | Refuses k => {| s_kept := k; s_peers := s_peers s; s_run := s_run s |}
            | Accepts k command =>
                {| s_kept := k; s_peers := map (fun x => (fst x, msg :: snd x)) (s_peers s);
                   s_run := if command then msg :: s_run s else s_run s |}
            end
        end
    end.
  Definition run (s : state) (l : list event) : state := fold_left happens l s.
End Alerts.
