(** What a stream of bytes contains, and which messages can be sent, independently of how they are read. *)
From Coq Require Import List NArith.
Import ListNotations.
Local Open Scope N_scope.

(** A number of four bytes, the lowest first. *)
Fixpoint little (b : list N) : N := match b with [] => 0 | x :: r => x + 256 * little r end.

Definition printable (c : N) : Prop := 32 <= c <= 126.

(** The largest message: 32 MiB. *)
Definition largest : N := 2 ^ 25.

(** The command of twelve bytes: printable, and filled with zeros. *)
Definition names (field cmd : list N) : Prop :=
  length field = 12%nat /\ Forall printable cmd /\ exists k, field = cmd ++ repeat 0 k.

(** A message that can be sent. *)
Definition sendable (m : list N * list N) : Prop :=
  (length (fst m) <= 12)%nat /\ Forall printable (fst m) /\ N.of_nat (length (snd m)) <= largest.

Section Contents.

Variable magic : list N.
Variable checksum : list N -> N.

(** [header b start field size sum rest]: the fields of the header at the front of [b]. *)
Definition header (b start field : list N) (size sum : N) (rest : list N) : Prop :=
  exists s4 c4, length start = 4%nat /\ length field = 12%nat /\ length s4 = 4%nat /\ length c4 = 4%nat /\
    size = little s4 /\ sum = little c4 /\ b = start ++ field ++ s4 ++ c4 ++ rest.

(** The messages in a stream, up to the first that is incomplete, too large or not of this network. Messages
    with an invalid command or checksum are left out. *)
Inductive contents : list N -> list (list N * list N) -> Prop :=
| c_no_header : forall b, (length b < 24)%nat -> contents b []
| c_large : forall b st f n k r, header b st f n k r -> largest < n -> contents b []
| c_incomplete : forall b st f n k r, header b st f n k r -> n <= largest -> N.of_nat (length r) < n -> contents b []
| c_start : forall b st f k d r, header b st f (N.of_nat (length d)) k (d ++ r) ->
    N.of_nat (length d) <= largest -> st <> magic -> contents b []
| c_damaged : forall b st f k d r ms, header b st f (N.of_nat (length d)) k (d ++ r) ->
    N.of_nat (length d) <= largest -> st = magic -> ((forall c, ~ names f c) \/ k <> checksum d) ->
    contents r ms -> contents b ms
| c_message : forall b st f c k d r ms, header b st f (N.of_nat (length d)) k (d ++ r) ->
    N.of_nat (length d) <= largest -> st = magic -> names f c -> k = checksum d ->
    contents r ms -> contents b ((c, d) :: ms).

End Contents.
