(** C107: penalties. *)
From Coq Require Import List Bool NArith ZArith Lia.
From Verif Require Import PenaltyModel PenaltySpec PenaltyProofs.
Import ListNotations.
Open Scope Z_scope.

(** A node with the default options that starts at the time 1000; the address 127 is local. *)
Definition some_local (a : N) : bool := N.eqb a 127.
Definition some_run : list event -> option node := run 100 86400 some_local (fresh 1000).
(** Who is connected, with their scores and whether they are being disconnected; whether 5 is banned. *)
Definition seen (l : list event) : option (list (N * N * Z * bool) * bool) :=
  option_map (fun s => (map (fun x => (fst x, p_addr (snd x), p_score (snd x), p_leaving (snd x))) (n_peers s),
                        is_banned s 5)) (some_run l).

(** The score of a connection is what it was blamed for. *)
Theorem c107_score threshold bantime local s w a s1 l s2 :
  accepts threshold bantime local s w a s1 -> run threshold bantime local s1 l = Some s2 ->
  ~ In (Leaves (n_next s)) l ->
  exists p, look (n_peers s2) (n_next s) = Some p /\ p_addr p = a /\ p_score p = total (n_next s) l.
Proof. apply score_of. Qed.
Print Assumptions c107_score.

Example c107_score_example :
  seen [Joins Calls 5; Joins Calls 6; Errs 0 20; Errs 1 50; Greets 0; Serves 0; Errs 0 10] =
    Some ([(1%N, 6%N, 50, false); (0%N, 5%N, 30, false)], false).
Proof. vm_compute. reflexivity. Qed.

(** Only addresses that are not local, and of which one connection reached the threshold, are banned. *)
Theorem c107_only_guilty threshold bantime local start l s a :
  run threshold bantime local (fresh start) l = Some s -> is_banned s a = true ->
  guilty threshold bantime local start l a.
Proof. apply banned_only. Qed.
Print Assumptions c107_only_guilty.

Example c107_only_guilty_example :
  seen [Joins Calls 5; Greets 0; Errs 0 50; Serves 0; Errs 0 50; Serves 0] =
    Some ([(0%N, 5%N, 100, true)], true) /\
  seen [Joins Calls 127; Greets 0; Errs 0 100; Serves 0] = Some ([(0%N, 127%N, 100, false)], false).
Proof. vm_compute. split; reflexivity. Qed.

(** A connection that reaches the threshold, and is served after its version message was read, is ended,
    and connections with its address are refused for the time of a ban. *)
Theorem c107_refused threshold bantime local s w a s1 la h lb s2 l3 s3 :
  accepts threshold bantime local s w a s1 ->
  run threshold bantime local s1 (la ++ [Errs (n_next s) h] ++ lb ++ [Serves (n_next s)]) = Some s2 ->
  h <> 0 -> threshold <= total (n_next s) la + h -> local a = false ->
  ~ In (Leaves (n_next s)) (la ++ lb) -> ~ In (Serves (n_next s)) lb -> In (Greets (n_next s)) (la ++ lb) ->
  (exists p, look (n_peers s2) (n_next s) = Some p /\ p_leaving p = true) /\
  (run threshold bantime local s2 l3 = Some s3 -> n_now s3 < n_now s2 + bantime ->
   refuses threshold bantime local s3 Calls a /\ refuses threshold bantime local s3 Dials a).
Proof. apply refused_for. Qed.
Print Assumptions c107_refused.

Example c107_refused_example :
  seen [Joins Calls 5; Greets 0; Errs 0 100; Serves 0; Leaves 0; Clock 87399; Joins Calls 5; Joins Dials 5] =
    Some ([], true) /\
  seen [Joins Calls 5; Greets 0; Errs 0 100; Serves 0; Leaves 0; Clock 87400; Joins Calls 5] =
    Some ([(1%N, 5%N, 0, false)], false).
Proof. vm_compute. split; reflexivity. Qed.

(** All bans have ended when the time of a ban has passed. *)
Theorem c107_ends threshold bantime local start T l s t s' a :
  start <= T -> 0 <= T + bantime -> (forall u, In (Clock u) l -> u <= T) ->
  run threshold bantime local (fresh start) l = Some s -> T + bantime <= t ->
  step threshold bantime local s (Clock t) = Some s' -> is_banned s' a = false.
Proof. apply bans_end. Qed.
Print Assumptions c107_ends.

Example c107_ends_example :
  seen [Joins Calls 5; Greets 0; Errs 0 100; Clock 2000; Serves 0; Leaves 0; Clock 88399; Joins Calls 5] =
    Some ([], true) /\
  seen [Joins Calls 5; Greets 0; Errs 0 100; Clock 2000; Serves 0; Leaves 0; Clock 88400; Joins Calls 5] =
    Some ([(1%N, 5%N, 0, false)], false).
Proof. vm_compute. split; reflexivity. Qed.

(** A connection whose version message was not read is never ended for what it does, however much that is. *)
Theorem c107_silent_refuted threshold bantime local s w a s1 l s2 :
  accepts threshold bantime local s w a s1 -> run threshold bantime local s1 l = Some s2 ->
  ~ In (Leaves (n_next s)) l -> ~ In (Greets (n_next s)) l ->
  exists p, look (n_peers s2) (n_next s) = Some p /\ p_leaving p = false.
Proof. apply silent_stays. Qed.
Print Assumptions c107_silent_refuted.

Example c107_silent_refuted_example :
  seen (Joins Calls 5 :: concat (repeat [Errs 0 1; Serves 0] 1000)) = Some ([(0%N, 5%N, 1000, false)], false).
Proof. vm_compute. reflexivity. Qed.

(** A peer that leaves before it is served is not banned, and one that comes back begins with a score of 0;
    the other connections of a banned address go on; and names are connected to in spite of a ban. *)
Theorem c107_ban_refuted :
  seen [Joins Calls 5; Greets 0; Errs 0 100; Leaves 0; Joins Calls 5] = Some ([(1%N, 5%N, 0, false)], false) /\
  seen [Joins Calls 5; Greets 0; Errs 0 99; Serves 0; Leaves 0; Joins Calls 5; Greets 1; Errs 1 99; Serves 1] =
    Some ([(1%N, 5%N, 99, false)], false) /\
  seen [Joins Calls 5; Joins Calls 5; Greets 0; Greets 1; Errs 0 100; Serves 0; Serves 1] =
    Some ([(1%N, 5%N, 0, false); (0%N, 5%N, 100, true)], true) /\
  seen [Joins Calls 5; Greets 0; Errs 0 100; Serves 0; Leaves 0; Joins DialsName 5] =
    Some ([(1%N, 5%N, 0, false)], true).
Proof. vm_compute. repeat split; reflexivity. Qed.
Print Assumptions c107_ban_refuted.

(** The score of a local peer, which is never banned, overflows after some 21 million errors of 100 each. *)
Theorem c107_overflow_refuted :
  some_run ([Joins Calls 127; Greets 0] ++ repeat (Errs 0 100) (Z.to_nat 21474837)) = None.
Proof.
  unfold some_run. rewrite run_app.
  match goal with |- match ?r with _ => _ end = None => let v := eval vm_compute in r in change r with v end.
  cbv iota. eapply errs_overflow; [cbn [n_peers]; reflexivity|cbn [p_score]; lia|].
  rewrite Z2Nat.id by lia. cbn [p_score]. lia.
Qed.
Print Assumptions c107_overflow_refuted.

Example c107_overflow_refuted_example :
  seen ([Joins Calls 127; Greets 0] ++ concat (repeat [Errs 0 100; Serves 0] 50)) = Some ([(0%N, 127%N, 5000, false)], false).
Proof. vm_compute. reflexivity. Qed.
