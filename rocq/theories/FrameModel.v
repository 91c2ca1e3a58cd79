(** Model of the transport of messages between two nodes: how a message is put into the queue of a
    connection, sent in pieces, received in pieces, put together and handed over.

    Source: /repo/src/p2p/node.h:298-303,404-457,460-481, /repo/src/p2p/node.cpp:61-101,139-154,210-232,
    /repo/src/p2p/netmessage.h, /repo/src/p2p/netmessage.cpp, /repo/src/p2p/protocol.h:27-59,
    /repo/src/p2p/protocol.cpp:55-108, /repo/src/p2p/processmessage.hpp:152-261,
    /repo/src/net.cpp:570-601,678-720.

    Simplifications:
    - one direction of one connection: what [A] sends and [B] receives; the bytes that the one socket has taken
      and the other has not given yet are a list;
    - the start bytes of the network and the checksum (the first four bytes of the hash) are parameters;
    - a buffer that is sized first and filled from the front is the list of the bytes filled so far;
    - the handling of a message is a parameter: whether it throws, and whether it closes the connection;
    - the test that decides whether to wait for data and the reading of the data are one step: in between
      messages can only be taken out, and then the test holds all the more;
    - [ProcessMessages] leaves at once if answers are pending or the buffer for sending is full: then there is no
      step. The options to drop and fuzz messages are off. *)
From Coq Require Import List Bool NArith ZArith.
Import ListNotations.

Definition bytes := list N.

(** [uint32_t] in memory and in streams, serialize.h. *)
Definition le32 (n : N) : bytes :=
  [n mod 256; n / 256 mod 256; n / 65536 mod 256; n / 16777216 mod 256]%N.

Definition of_le32 (b : bytes) : N :=
  (nth 0 b 0 + 256 * nth 1 b 0 + 65536 * nth 2 b 0 + 16777216 * nth 3 b 0)%N.

(** [MAX_SIZE], serialize.h:35. *)
Definition max_size : N := 33554432%N.

Section Frame.

Variable magic : bytes.        (* [SysCfg().MessageStart()] *)
Variable checksum : bytes -> N. (* the first four bytes of [Hash] as a number *)

(** ** Sending *)

(** [memcpy] into a stream. *)
Definition patch (at_ : nat) (b s : bytes) : bytes := firstn at_ s ++ b ++ skipn (at_ + length b) s.

(** [CMessageHeader] with [strncpy] of the command, protocol.cpp:64-70, and its serialization,
    protocol.h:36-42. *)
Definition new_header (cmd : bytes) (size : N) : bytes :=
  magic ++ (firstn 12 cmd ++ repeat 0%N (12 - length cmd)) ++ le32 size ++ le32 0.

(** [BeginMessage], the data, and [EndMessage] up to the queue, node.h:404-447: the size at offset 16 and the
    checksum at offset 20 are written last. *)
Definition make_message (cmd data : bytes) : bytes :=
  let s := new_header cmd 0 ++ data in
  let s := patch 16 (le32 (N.of_nat (length s - 24))) s in
  patch 20 (le32 (checksum (skipn 24 s))) s.

(** What [send] answers: it takes some of the bytes, or would block, or fails. *)
Inductive answer := Took (n : nat) | Blocked | Broken.

Record sender := {
  s_queue : list bytes;   (* vSendMsg *)
  s_offset : nat;         (* nSendOffset *)
  s_size : nat;           (* nSendSize *)
  s_open : bool           (* the socket is there *)
}.

Inductive sent :=
| Assertion                             (* an assertion fails *)
| Sent (s : sender) (out : bytes).      (* the bytes that the socket took *)

Definition add_out (o : bytes) (r : sent) : sent :=
  match r with Assertion => Assertion | Sent s out => Sent s (o ++ out) end.

(** [SocketSendData], node.cpp:61-101. The answers are those of the calls of [send] in turn; without
    further answers it would block. *)
Fixpoint socket_send_data (answers : list answer) (q : list bytes) (offset size : nat) (open : bool) {struct q} : sent :=
  match q with
  | [] => if (offset =? 0)%nat && (size =? 0)%nat then Sent (Build_sender [] offset size open) [] else Assertion
  | d :: q' =>
      if negb (offset <? length d)%nat then Assertion
      else if negb open then Sent (Build_sender q offset size open) []
      else
        match answers with
        | [] | Blocked :: _ => Sent (Build_sender q offset size open) []
        | Broken :: _ => Sent (Build_sender q offset size false) []
        | Took n :: r =>
            let n := Nat.min n (length d - offset) in
            if (n =? 0)%nat then Sent (Build_sender q offset size open) []
            else if (offset + n =? length d)%nat
            then add_out (firstn n (skipn offset d)) (socket_send_data r q' 0 (size - length d) open)
            else Sent (Build_sender q (offset + n) size open) (firstn n (skipn offset d))
        end
  end.

(** [PushMessage], node.h:460-481 with 449-454: into the queue, and an attempt to send if there was nothing in it. *)
Definition push_message (s : sender) (cmd data : bytes) (answers : list answer) : sent :=
  let m := make_message cmd data in
  let s' := Build_sender (s_queue s ++ [m]) (s_offset s) (s_size s + length m) (s_open s) in
  match s_queue s with
  | [] => socket_send_data answers (s_queue s') (s_offset s') (s_size s') (s_open s')
  | _ => Sent s' []
  end.

(** ** Receiving *)

(** [CNetMessage], netmessage.h:13-45. *)
Record msg := {
  m_in_data : bool;
  m_hdrbuf : bytes;    (* the bytes of the header so far; there are nHdrPos *)
  m_size : N;          (* hdr.nMessageSize *)
  m_data : bytes       (* the bytes of the data so far; there are nDataPos *)
}.

Definition new_msg : msg := Build_msg false [] 0 [].

(** The fields of the header, protocol.h:36-42. *)
Definition h_start (b : bytes) : bytes := firstn 4 b.
Definition h_command (b : bytes) : bytes := firstn 12 (skipn 4 b).
Definition h_size (b : bytes) : N := of_le32 (firstn 4 (skipn 16 b)).
Definition h_checksum (b : bytes) : N := of_le32 (firstn 4 (skipn 20 b)).

(** [complete], netmessage.h:30-34. *)
Definition complete (m : msg) : bool := m_in_data m && (m_size m =? N.of_nat (length (m_data m)))%N.

(** [readHeader], netmessage.cpp:8-36. [None]: -1. *)
Definition read_header (m : msg) (b : bytes) : option (msg * nat) :=
  let n := Nat.min (24 - length (m_hdrbuf m)) (length b) in
  let h := m_hdrbuf m ++ firstn n b in
  if (length h <? 24)%nat then Some (Build_msg false h 0 [], n)
  else if (max_size <? h_size h)%N then None
  else Some (Build_msg true h (h_size h) [], n).

(** [readData], netmessage.cpp:38-46. *)
Definition read_data (m : msg) (b : bytes) : msg * nat :=
  let n := Nat.min (N.to_nat (m_size m) - length (m_data m)) (length b) in
  (Build_msg true (m_hdrbuf m) (m_size m) (m_data m ++ firstn n b), n).

Inductive read :=
| Endless                 (* the loop makes no progress *)
| Refused                 (* false *)
| Read (q : list msg).

(** [ReceiveMsgBytes], node.cpp:210-232. *)
Fixpoint receive_msg_bytes (fuel : nat) (q : list msg) (b : bytes) : read :=
  match b with
  | [] => Read q
  | _ :: _ =>
      match fuel with
      | O => Endless
      | S fuel' =>
          let q := match rev q with
                   | [] => q ++ [new_msg]
                   | m :: _ => if complete m then q ++ [new_msg] else q
                   end in
          let m := last q new_msg in
          match (if m_in_data m then Some (read_data m b) else read_header m b) with
          | None => Refused
          | Some (m', n) => receive_msg_bytes fuel' (removelast q ++ [m']) (skipn n b)
          end
      end
  end.

(** The data of a connection as they come, in pieces. *)
Fixpoint receive_all (q : list msg) (pieces : list bytes) : read :=
  match pieces with
  | [] => Read q
  | b :: r => match receive_msg_bytes (length b) q b with Read q' => receive_all q' r | o => o end
  end.

(** ** Handing over *)

(** [IsValid], protocol.cpp:80-108, of the command: printable, and nothing after the first zero. Bytes above
    127 are negative. *)
Fixpoint valid_command (c : bytes) : bool :=
  match c with
  | [] => true
  | x :: c' => if (x =? 0)%N then forallb (N.eqb 0) c' else (32 <=? x)%N && (x <=? 126)%N && valid_command c'
  end.

Fixpoint bytes_eqb (a b : bytes) : bool :=
  match a, b with
  | [], [] => true
  | x :: a', y :: b' => (x =? y)%N && bytes_eqb a' b'
  | _, _ => false
  end.

Definition is_valid (h : bytes) : bool :=
  bytes_eqb (h_start h) magic && valid_command (h_command h) && (h_size h <=? max_size)%N.

(** [GetCommand], protocol.cpp:72-78. *)
Fixpoint until_zero (c : bytes) : bytes :=
  match c with
  | [] => []
  | x :: c' => if (x =? 0)%N then [] else x :: until_zero c'
  end.

Definition get_command (h : bytes) : bytes :=
  let c := h_command h in if (nth 11 c 0 =? 0)%N then until_zero c else c.

(** What handling a message does: the connection is closed by an answer that cannot be sent, and an
    exception is thrown. *)
Inductive thrown := Nothing | EndOfData | OtherException.
Record handling := { closes : bool; throws : thrown; reject_closes : bool }.

Inductive processed :=
| WrongStart                                    (* false: the connection is closed *)
| Idle (q : list msg)                           (* nothing was handed over *)
| Handed (cmd data : bytes) (q : list msg)      (* handed over; the rest of the queue *)
| HandedClosed (cmd data : bytes)               (* handed over, and the connection was closed *)
| Dangling (cmd data : bytes).                  (* handed over, then the freed message is read *)

(** [ProcessMessages], processmessage.hpp:152-261. An exception is answered with a message, line 231; if it is that
    the data ended early, then the data are printed, line 235, although closing the connection has
    emptied the queue that holds them, node.cpp:148-149. *)
Fixpoint process_messages (q : list msg) (h : handling) : processed :=
  match q with
  | [] => Idle []
  | m :: q' =>
      if negb (complete m) then Idle q
      else if negb (bytes_eqb (h_start (m_hdrbuf m)) magic) then WrongStart
      else if negb (is_valid (m_hdrbuf m)) then process_messages q' h
      else if negb (checksum (m_data m) =? h_checksum (m_hdrbuf m))%N then process_messages q' h
      else
        let cmd := get_command (m_hdrbuf m) in
        match throws h with
        | Nothing => if closes h then HandedClosed cmd (m_data m) else Handed cmd (m_data m) q'
        | OtherException =>
            if closes h || reject_closes h then HandedClosed cmd (m_data m) else Handed cmd (m_data m) q'
        | EndOfData =>
            if closes h || reject_closes h then Dangling cmd (m_data m) else Handed cmd (m_data m) q'
        end
  end.

(** ** A connection *)

(** [GetTotalRecvSize], node.h:298-303, without wrapping: what the messages of the queue occupy. *)
Definition recv_size (q : list msg) : N := fold_right (fun m n => m_size m + 24 + n)%N 0%N q.

(** Whether data are waited for, net.cpp:597-598. [flood]: [ReceiveFloodSize]. *)
Definition waits (flood : N) (q : list msg) : bool :=
  match q with
  | [] => true
  | m :: _ => negb (complete m) || (recv_size q mod 4294967296 <=? flood)%N
  end.

Record link := {
  l_sender : sender;
  l_wire : bytes;                    (* taken by one socket, not yet given by the other *)
  l_open : bool;                     (* the socket of the receiver is there *)
  l_queue : list msg;                (* vRecvMsg *)
  l_handed : list (bytes * bytes)    (* what was handed over *)
}.

Definition new_link : link := Build_link (Build_sender [] 0 0 true) [] true [] [].

Inductive event :=
| Push (cmd data : bytes) (answers : list answer)   (* a message is sent *)
| Pump (answers : list answer)                      (* the socket can be written *)
| Arrive (n : nat) (exceptional : bool)             (* the socket has [n] bytes, or reports an exceptional condition *)
| Process (h : handling)                            (* the message handler comes by *)
| Close.                                            (* the receiver disconnects *)

Inductive outcome := Failed | Freed | Ok (l : link).

Definition close (l : link) : link := Build_link (l_sender l) (l_wire l) false [] (l_handed l).

(** At most 65536 bytes are read at once, net.cpp:684-685. *)
Definition step (flood : N) (l : link) (e : event) : outcome :=
  match e with
  | Push cmd data answers =>
      match push_message (l_sender l) cmd data answers with
      | Assertion => Failed
      | Sent s out => Ok (Build_link s (l_wire l ++ out) (l_open l) (l_queue l) (l_handed l))
      end
  | Pump answers =>
      let s := l_sender l in
      match socket_send_data answers (s_queue s) (s_offset s) (s_size s) (s_open s) with
      | Assertion => Failed
      | Sent s out => Ok (Build_link s (l_wire l ++ out) (l_open l) (l_queue l) (l_handed l))
      end
  | Arrive n exceptional =>
      if l_open l && (waits flood (l_queue l) || exceptional) then
        let n := Nat.min n (Nat.min (N.to_nat 65536) (length (l_wire l))) in
        let b := firstn n (l_wire l) in
        let l' := Build_link (l_sender l) (skipn n (l_wire l)) (l_open l) (l_queue l) (l_handed l) in
        match receive_msg_bytes (length b) (l_queue l) b with
        | Endless => Failed
        | Refused => Ok (close l')
        | Read q => Ok (Build_link (l_sender l) (skipn n (l_wire l)) (l_open l) q (l_handed l))
        end
      else Ok l
  | Process h =>
      if negb (l_open l) then Ok l
      else match process_messages (l_queue l) h with
           | WrongStart => Ok (close l)
           | Idle q => Ok (Build_link (l_sender l) (l_wire l) true q (l_handed l))
           | Handed c d q => Ok (Build_link (l_sender l) (l_wire l) true q (l_handed l ++ [(c, d)]))
           | HandedClosed c d => Ok (Build_link (l_sender l) (l_wire l) false [] (l_handed l ++ [(c, d)]))
           | Dangling _ _ => Freed
           end
  | Close => Ok (close l)
  end.

Fixpoint run (flood : N) (l : link) (es : list event) : outcome :=
  match es with
  | [] => Ok l
  | e :: es' => match step flood l e with Ok l' => run flood l' es' | o => o end
  end.

End Frame.

(** ** Histories *)

(** A peer that sends any bytes. *)
Definition from_peer (b : bytes) : link := Build_link (Build_sender [] 0 0 true) b true [] [].

(** The messages sent in a history. *)
Definition pushes (es : list event) : list (bytes * bytes) :=
  flat_map (fun e => match e with Push c d _ => [(c, d)] | _ => [] end) es.

(** Nothing is sent by the node in the model: the bytes are those of [from_peer]. *)
Definition no_push (e : event) : Prop := match e with Push _ _ _ => False | _ => True end.

(** The socket reports no exceptional condition. *)
Definition unexceptional (e : event) : Prop := match e with Arrive _ x => x = false | _ => True end.

(** Handling a message finds its data too short, and the connection is closed by it or by the answer. *)
Definition freed_event (e : event) : bool :=
  match e with
  | Process h => match throws h with EndOfData => closes h || reject_closes h | _ => false end
  | _ => false
  end.
