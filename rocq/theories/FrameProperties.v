(** C101: messages between nodes arrive whole, in order and once. C102: any bytes from a peer are cut into
    messages in one way, within bounded memory. *)
From Coq Require Import String Ascii List Bool NArith ZArith Lia.
From Verif Require Import FrameModel FrameSpec FrameProofs.
Import ListNotations.
Local Open Scope N_scope.

Definition letters (s : string) : bytes := map (fun c => N_of_ascii c) (list_ascii_of_string s).

(** For the cases. *)
Definition start : bytes := [255; 66; 29; 26].
Definition sum (d : bytes) : N := fold_right N.add 0 d mod 2 ^ 32.

(** ** C101 *)

(** What was handed over is a beginning of what was sent, whatever the sockets take and give at a time
    and whatever handling the messages does. With everything arrived and the connection open it is all that
    was sent. *)
Theorem c101_delivered : forall magic checksum flood es l,
  length magic = 4%nat -> (forall d, checksum d < 2 ^ 32) -> Forall sendable (pushes es) ->
  run magic checksum flood new_link es = Ok l ->
  (exists rest, pushes es = l_handed l ++ rest) /\
  (l_open l = true -> s_queue (l_sender l) = [] -> l_wire l = [] -> l_queue l = [] -> l_handed l = pushes es).
Proof. intros magic checksum flood es l M C. exact (delivered_lemma magic checksum M C flood es l). Qed.
Print Assumptions c101_delivered.

Definition quiet := Build_handling false Nothing false.

Definition history : list event :=
  [Push (letters "ping") [1; 2; 3] [Took 10]; Push (letters "confirmblock") [] [Blocked]; Arrive 7 false; Process quiet;
   Pump [Took 17; Took 1]; Arrive 21 false; Process quiet; Pump [Took 100; Took 100]; Process quiet; Arrive 100 false; Process quiet].

Example c101_delivered_example :
  Forall sendable (pushes history) /\
  run start sum 5000000 new_link history =
    Ok (Build_link (Build_sender [] 0 0 true) [] true [] [(letters "ping", [1; 2; 3]); (letters "confirmblock", [])]).
Proof. split; [repeat constructor; cbv; intros; discriminate|reflexivity]. Qed.

(** Each command of the protocol, protocol.cpp:16-38, can be sent, with any data up to 32 MiB. *)
Theorem c101_commands : forall c d,
  In c (map letters ["version"; "verack"; "addr"; "inv"; "getdata"; "getblocks"; "getheaders"; "tx"; "block"; "getaddr"; "mempool";
    "ping"; "pong"; "alert"; "filterload"; "filteradd"; "filterclear"; "reject"; "confirmblock"; "finblock"])%string ->
  N.of_nat (length d) <= largest -> sendable (c, d).
Proof.
  intros c d H Hd. cbn [map In] in H.
  repeat (destruct H as [<-|H]; [split; [cbv; lia|split; [repeat constructor; cbv; discriminate|exact Hd]]|]). destruct H.
Qed.
Print Assumptions c101_commands.

Example c101_commands_example : sendable (letters "getblocks", [1; 0]).
Proof. apply c101_commands; [cbn; tauto|cbv; discriminate]. Qed.

(** No assertion of the sender fails and no loop of the receiver is endless. Freed memory is read in no
    history in which no message is both too short for its handler and answered on a connection that breaks. *)
Theorem c101_no_failure : forall magic checksum flood es,
  length magic = 4%nat -> (forall d, checksum d < 2 ^ 32) -> Forall sendable (pushes es) ->
  run magic checksum flood new_link es <> Failed /\
  (run magic checksum flood new_link es = Freed -> existsb freed_event es = true).
Proof. intros magic checksum flood es M C. exact (no_failure_lemma magic checksum M C flood es). Qed.
Print Assumptions c101_no_failure.

Example c101_no_failure_example :
  existsb freed_event history = false /\ run start sum 5000000 new_link (history ++ [Pump [Took 5]; Pump []; Close; Arrive 1 true]) =
    Ok (Build_link (Build_sender [] 0 0 true) [] false [] [(letters "ping", [1; 2; 3]); (letters "confirmblock", [])]).
Proof. split; reflexivity. Qed.

(** Otherwise it is read: handling a message throws that its data ended, the answer to that cannot be sent,
    which closes the connection and frees the messages received, and then the message is printed. *)
Theorem c101_freed_refuted : exists magic checksum flood es,
  length magic = 4%nat /\ (forall d, checksum d < 2 ^ 32) /\ Forall sendable (pushes es) /\
  run magic checksum flood new_link es = Freed.
Proof.
  exists start, sum, 5000000, [Push (letters "inv") [1] [Took 100]; Arrive 100 false; Process (Build_handling false EndOfData true)].
  split; [reflexivity|]. split; [intros d; apply N.mod_lt; discriminate|].
  split; [repeat constructor; cbv; intros; discriminate|reflexivity].
Qed.
Print Assumptions c101_freed_refuted.

(** As long as a message sent has not been handed over on an open connection, either the sender has data to
    write, or the receiver waits for data that are there, or the handler finds the next message. *)
Theorem c101_progress : forall magic checksum flood es l,
  length magic = 4%nat -> (forall d, checksum d < 2 ^ 32) -> Forall sendable (pushes es) ->
  run magic checksum flood new_link es = Ok l -> l_open l = true -> l_handed l <> pushes es ->
  s_queue (l_sender l) <> [] \/ (l_wire l <> [] /\ waits flood (l_queue l) = true) \/
  exists c d rest l', pushes es = l_handed l ++ (c, d) :: rest /\
    step magic checksum flood l (Process quiet) = Ok l' /\ l_handed l' = l_handed l ++ [(c, d)].
Proof. intros magic checksum flood es l M C. exact (progress_lemma magic checksum M C flood es l). Qed.
Print Assumptions c101_progress.

Example c101_progress_example :
  run start sum 5000000 new_link [Push (letters "ping") [1; 2; 3] [Took 100]; Arrive 26 false] =
    Ok (Build_link (Build_sender [] 0 0 true) [3] true
      [Build_msg true (firstn 24 (make_message start sum (letters "ping") [1; 2; 3])) 3 [1; 2]] []) /\
  waits 5000000 [Build_msg true (firstn 24 (make_message start sum (letters "ping") [1; 2; 3])) 3 [1; 2]] = true.
Proof. split; reflexivity. Qed.

(** A message of more than 32 MiB is sent like any other, but its header makes the receiver disconnect. *)
Theorem c101_large_refuted : forall magic checksum flood cmd data,
  length magic = 4%nat -> (forall d, checksum d < 2 ^ 32) -> largest < N.of_nat (length data) < 2 ^ 32 ->
  run magic checksum flood new_link [Push cmd data [Took (24 + length data)]; Arrive 24 false] =
    Ok (Build_link (Build_sender [] 0 0 true) data false [] []).
Proof. intros magic checksum flood cmd data M C. exact (push_large_lemma magic checksum M C flood cmd data). Qed.
Print Assumptions c101_large_refuted.

Example c101_large_refuted_example : exists data : bytes, largest < N.of_nat (length data) < 2 ^ 32.
Proof. exists (repeat 0 (N.to_nat (2 ^ 25 + 1))). rewrite repeat_length, N2Nat.id. unfold largest. lia. Qed.

(** ** C102 *)

(** However the bytes are split, they give the same queue of messages, or are refused. *)
Theorem c102_pieces : forall p1 p2, concat p1 = concat p2 -> receive_all [] p1 = receive_all [] p2.
Proof. exact pieces_lemma. Qed.
Print Assumptions c102_pieces.

Example c102_pieces_example :
  receive_all [] [make_message start sum (letters "ping") [7] ++ [255; 66]] =
  receive_all [] (map (fun x => [x]) (make_message start sum (letters "ping") [7] ++ [255; 66])) /\
  receive_all [] [make_message start sum (letters "ping") [7] ++ [255; 66]] =
  Read [Build_msg true (firstn 24 (make_message start sum (letters "ping") [7])) 1 [7]; Build_msg false [255; 66] 0 []].
Proof. split; reflexivity. Qed.

(** The messages in the bytes are well defined. *)
Theorem c102_contents : forall magic checksum b, length magic = 4%nat -> (forall d, checksum d < 2 ^ 32) ->
  exists ms, contents magic checksum b ms /\ forall ms', contents magic checksum b ms' -> ms' = ms.
Proof.
  intros magic checksum b M C. destruct (contents_total magic checksum M C b) as (ms & H). exists ms. split; auto.
  intros ms' H'. exact (contents_fun magic checksum M C b ms' ms H' H).
Qed.
Print Assumptions c102_contents.

Example c102_contents_example : forall ms,
  contents start sum (make_message start sum (letters "a") [7] ++ make_message start sum (letters "b") []) ms ->
  ms = [(letters "a", [7]); (letters "b", [])].
Proof.
  intros ms H. refine (contents_fun start sum eq_refl _ _ _ _ H _); [intros d; apply N.mod_lt; discriminate|].
  eapply (c_message _ _ _ start (letters "a" ++ repeat 0 11) _ 7 [7]).
  - exists [1; 0; 0; 0], [7; 0; 0; 0]. repeat split; reflexivity.
  - cbv. discriminate.
  - reflexivity.
  - split; [reflexivity|]. split; [repeat constructor; cbv; discriminate|]. exists 11%nat. reflexivity.
  - reflexivity.
  - eapply (c_message _ _ _ start (letters "b" ++ repeat 0 11) _ 0 [] []).
    + exists [0; 0; 0; 0], [0; 0; 0; 0]. repeat split; reflexivity.
    + cbv. discriminate.
    + reflexivity.
    + split; [reflexivity|]. split; [repeat constructor; cbv; discriminate|]. exists 11%nat. reflexivity.
    + reflexivity.
    + apply c_no_header. cbn. lia.
Qed.

(** What is handed over from a peer that sends any bytes are the messages in them, in order, up to some point;
    all of them, if the connection is still open when all bytes have been received and processed. *)
Theorem c102_handed : forall magic checksum flood b es l ms,
  length magic = 4%nat -> (forall d, checksum d < 2 ^ 32) -> Forall no_push es ->
  run magic checksum flood (from_peer b) es = Ok l -> contents magic checksum b ms ->
  (exists rest, ms = l_handed l ++ rest) /\
  (l_open l = true -> l_wire l = [] -> l_queue l = [] -> l_handed l = ms).
Proof. intros magic checksum flood b es l ms M C. exact (peer_lemma magic checksum M C flood b es l ms). Qed.
Print Assumptions c102_handed.

Definition damaged : bytes := letters "x" ++ repeat 0 11.

Example c102_handed_example :
  run start sum 5000000
    (from_peer (make_message start sum (letters "a") [7] ++ start ++ damaged ++ [1; 0; 0; 0; 9; 9; 9; 9; 5] ++
                make_message start sum (letters "b") [8] ++ [1; 2; 3]))
    [Arrive 100 false; Process quiet; Process quiet; Process quiet] =
  Ok (Build_link (Build_sender [] 0 0 true) [] true [Build_msg false [1; 2; 3] 0 []] [(letters "a", [7]); (letters "b", [8])]) /\
  run start sum 5000000 (from_peer (make_message start sum (letters "a") [7] ++ repeat 0 30))
    [Arrive 100 false; Process quiet; Process quiet; Process quiet] =
  Ok (Build_link (Build_sender [] 0 0 true) [] false [] [(letters "a", [7])]).
Proof. split; reflexivity. Qed.

(** No bytes make a loop endless, and freed memory is read only as in C101. *)
Theorem c102_alive : forall magic checksum flood b es,
  length magic = 4%nat -> (forall d, checksum d < 2 ^ 32) -> Forall no_push es ->
  run magic checksum flood (from_peer b) es <> Failed /\
  (run magic checksum flood (from_peer b) es = Freed -> existsb freed_event es = true).
Proof. intros magic checksum flood b es M C. exact (peer_alive magic checksum M C flood b es). Qed.
Print Assumptions c102_alive.

Example c102_alive_example :
  run start sum 5000000 (from_peer (repeat 255 30)) [Arrive 24 false; Arrive 6 true; Process quiet] =
  Ok (Build_link (Build_sender [] 0 0 true) (repeat 255 6) false [] []).
Proof. reflexivity. Qed.

(** The messages received and not yet handled occupy at most the larger of the limit and one message, and
    65536 bytes and one message more. *)
Theorem c102_bound : forall magic checksum flood b es l,
  length magic = 4%nat -> (forall d, checksum d < 2 ^ 32) ->
  N.max flood (largest + 24) + 65536 + (largest + 24) < 2 ^ 32 -> Forall unexceptional es ->
  run magic checksum flood (from_peer b) es = Ok l ->
  recv_size (l_queue l) <= N.max flood (largest + 24) + 65536 + (largest + 24).
Proof. intros magic checksum flood b es l M C. exact (bound_lemma magic checksum M C flood b es l). Qed.
Print Assumptions c102_bound.

Example c102_bound_example :
  N.max 5000000 (largest + 24) + 65536 + (largest + 24) < 2 ^ 32 /\
  run start sum 40 (from_peer (repeat 0 72)) [Arrive 24 false; Arrive 24 false; Arrive 24 false] =
    Ok (Build_link (Build_sender [] 0 0 true) (repeat 0 24) true (repeat (Build_msg true (repeat 0 24) 0 []) 2) []) /\
  recv_size (repeat (Build_msg true (repeat 0 24) 0 []) 2) = 48.
Proof. split; [reflexivity|split; vm_compute; reflexivity]. Qed.

(** A socket that reports an exceptional condition is read in spite of the limit: there is no bound. *)
Theorem c102_bound_refuted : forall magic checksum flood bound,
  length magic = 4%nat -> (forall d, checksum d < 2 ^ 32) ->
  exists b es l, Forall no_push es /\ run magic checksum flood (from_peer b) es = Ok l /\ bound < recv_size (l_queue l).
Proof. intros magic checksum flood bound M C. exact (unbounded_lemma magic checksum M C flood bound). Qed.
Print Assumptions c102_bound_refuted.

Example c102_bound_refuted_example :
  run start sum 40 (from_peer (repeat 0 96)) (repeat (Arrive 24 true) 4) =
    Ok (Build_link (Build_sender [] 0 0 true) [] true (repeat (Build_msg true (repeat 0 24) 0 []) 4) []) /\
  recv_size (repeat (Build_msg true (repeat 0 24) 0 []) 4) = 96.
Proof. split; vm_compute; reflexivity. Qed.
