(** Properties C23-C26 and C42: encodings of numbers, lengths, keys, ids and addresses. *)
From Coq Require Import NArith Bool List Lia.
From Verif Require Import Prelude CodecModel CodecSpec CodecProofs.
From Verif Require Import Base58Model Base58Spec Base58Proofs.
Import ListNotations.
Open Scope N_scope.

(** * C23 Variable-length integers *)

(** Every number of an unsigned type of at least 7 bits is written without leaving the
    buffer, in the documented form, in the announced number of bytes, and is read back
    leaving exactly what follows. *)
Theorem c23_round_trip : forall w n, 7 <= w -> n < 2 ^ w ->
  exists s, write_varint w n = Some s /\ is_varint s /\ varint_value s = n /\
            N.of_nat (length s) = size_of_varint n /\
            N.of_nat (length s) <= (w + 6) / 7 /\
            (forall rest, read_varint w (s ++ rest) = Some (n, rest)).
Proof. exact varint_round_trip. Qed.

(** Numbers of any two types: no encoding is a prefix of another, equal encodings mean equal
    numbers. *)
Theorem c23_prefix_free : forall w1 w2 n1 n2 s1 s2 r1 r2,
  write_varint w1 n1 = Some s1 -> write_varint w2 n2 = Some s2 ->
  s1 ++ r1 = s2 ++ r2 -> n1 = n2 /\ s1 = s2 /\ r1 = r2.
Proof. exact varint_prefix_free. Qed.

(** What the reader accepts: the encoding of the number it returns, or a longer one whose
    value does not fit the type. *)
Theorem c23_accepted : forall w s n r, 7 <= w -> bytes s -> read_varint w s = Some (n, r) ->
  (exists e, s = e ++ r /\ write_varint w n = Some e) \/
  (exists e, s = e ++ r /\ is_varint e /\ 2 ^ w <= varint_value e).
Proof. exact varint_canonical. Qed.

(** And then the number returned is the value with the high bits dropped. *)
Theorem c23_value : forall w s n r, 7 <= w -> bytes s -> read_varint w s = Some (n, r) ->
  exists e, s = e ++ r /\ is_varint e /\ n = varint_value e mod 2 ^ w.
Proof. exact varint_accepted. Qed.

(** The second case of [c23_accepted] happens: one number, two byte strings, so "every
    integer has exactly one encoding" is not enforced by the reader. *)
Theorem c23_one_encoding_refuted : exists s1 s2 n, bytes s1 /\ bytes s2 /\ s1 <> s2 /\
  read_varint 64 s1 = Some (n, []) /\ read_varint 64 s2 = Some (n, []).
Proof.
  exists [5], [128; 254; 254; 254; 254; 254; 254; 254; 255; 5], 5.
  assert (F : forall l, forallb (fun b => b <? 256) l = true -> bytes l).
  { intros l H. apply Forall_forall. intros x Hx. rewrite forallb_forall in H.
    specialize (H x Hx). apply N.ltb_lt, H. }
  split; [apply F; reflexivity|]. split; [apply F; reflexivity|].
  split; [discriminate|]. split; vm_compute; reflexivity.
Qed.

Example c23_examples :
  write_varint 32 65535 = Some [130; 254; 127] /\
  write_varint 64 4294967296 = Some [142; 254; 254; 255; 0] /\
  write_varint 64 18446744073709551615 = Some [128; 254; 254; 254; 254; 254; 254; 254; 254; 127] /\
  read_varint 64 ([142; 254; 254; 255; 0] ++ [9; 9]) = Some (4294967296, [9; 9]) /\
  size_of_varint 4294967296 = 5.
Proof. vm_compute. auto 10. Qed.

Print Assumptions c23_round_trip.
Print Assumptions c23_prefix_free.
Print Assumptions c23_accepted.
Print Assumptions c23_value.
Print Assumptions c23_one_encoding_refuted.

(** * C24 Length prefixes *)

(** Lengths up to 2^25 read back; longer ones are refused. *)
Theorem c24_round_trip : forall n rest, n < 18446744073709551616 ->
  read_compact (write_compact n ++ rest) = if n <=? 33554432 then Some (n, rest) else None.
Proof. exact compact_round_trip. Qed.

Theorem c24_size : forall n,
  N.of_nat (length (write_compact n)) = size_of_compact n /\ bytes (write_compact n).
Proof. intros n. split; [apply write_compact_size|apply write_compact_bytes]. Qed.

(** Only the bytes the writer produces are accepted. *)
Theorem c24_only_encoding : forall s n r, bytes s -> read_compact s = Some (n, r) ->
  n <= 33554432 /\ s = write_compact n ++ r.
Proof. exact compact_accepted. Qed.

(** Strings: up to 4 000 000 characters they read back, and only the bytes written are
    accepted; longer ones can be written but not read. *)
Theorem c24_string : forall s rest,
  (N.of_nat (length s) <= 4000000 -> read_string (write_string s ++ rest) = Some (s, rest)) /\
  (4000000 < N.of_nat (length s) < 18446744073709551616 ->
   read_string (write_string s ++ rest) = None).
Proof. intros s rest. split; [apply string_round_trip|apply string_too_long]. Qed.

Theorem c24_string_only_encoding : forall s b r, bytes s -> read_string s = Some (b, r) ->
  s = write_string b ++ r.
Proof. exact string_accepted. Qed.

Theorem c24_bytes : forall s rest, N.of_nat (length s) <= 33554432 ->
  read_bytes (write_string s ++ rest) = Some (s, rest).
Proof. exact bytes_round_trip. Qed.

(** Vectors of values whose own encoding reads back. *)
Theorem c24_vector : forall (A : Type) (put : A -> list N) (get : list N -> option (A * list N))
  l rest, N.of_nat (length l) <= 33554432 ->
  (forall a r, In a l -> get (put a ++ r) = Some (a, r)) ->
  read_vector get (write_vector put l ++ rest) = Some (l, rest).
Proof. exact @vector_round_trip. Qed.

Example c24_examples :
  write_compact 300 = [253; 44; 1] /\ read_compact [253; 44; 1; 7] = Some (300, [7]) /\
  read_compact [253; 44; 0; 7] = None /\ read_compact (write_compact 70000) = Some (70000, []) /\
  read_compact (write_compact 33554433) = None /\
  read_string (write_string [87; 73; 67; 67] ++ [1]) = Some ([87; 73; 67; 67], [1]) /\
  read_vector (read_fixed 16) (write_vector (write_fixed 16) [7; 300; 65535]) =
    Some ([7; 300; 65535], []).
Proof. vm_compute. auto 10. Qed.

Print Assumptions c24_round_trip.
Print Assumptions c24_size.
Print Assumptions c24_only_encoding.
Print Assumptions c24_string.
Print Assumptions c24_string_only_encoding.
Print Assumptions c24_bytes.
Print Assumptions c24_vector.

(** * C25 Fixed-width index keys *)

Theorem c25_round_trip : forall w v rest, 7 <= w -> v < 2 ^ w ->
  read_fixed w (write_fixed w v ++ rest) = Some (v, rest).
Proof. exact fixed_round_trip. Qed.

Theorem c25_width : forall w v, N.of_nat (length (write_fixed w v)) = (w + 6) / 7.
Proof. exact write_fixed_length. Qed.

(** Byte order is numeric order, also when further key parts follow. *)
Theorem c25_order : forall w u v x y, u < 2 ^ w -> v < 2 ^ w ->
  byte_order (write_fixed w u ++ x) (write_fixed w v ++ y) =
  then_by (u ?= v) (byte_order x y).
Proof. exact fixed_key_order. Qed.

(** Registration-id keys sort by height, then by index, then by what follows. *)
Theorem c25_regid_key : forall a b x y, regid_ok a -> regid_ok b ->
  byte_order (write_regid_key a ++ x) (write_regid_key b ++ y) =
  then_by (fst a ?= fst b) (then_by (snd a ?= snd b) (byte_order x y)).
Proof. exact regid_key_order. Qed.

Theorem c25_regid_key_round_trip : forall r rest, regid_ok r ->
  read_regid_key (write_regid_key r ++ rest) = Some (r, rest).
Proof. exact regid_key_round_trip. Qed.

(** The plain serialisation of a registration id does not sort this way. *)
Theorem c25_plain_regid_order_refuted : exists a b sa sb, regid_ok a /\ regid_ok b /\
  write_regid a = Some sa /\ write_regid b = Some sb /\
  fst a < fst b /\ byte_order sa sb = Gt.
Proof.
  exists (16511, 1), (16512, 1), [255; 127; 1], [128; 128; 0; 1].
  unfold regid_ok. cbn [fst snd]. repeat split; lia.
Qed.

Example c25_examples :
  write_fixed 32 1000000 = [0; 0; 61; 4; 64] /\
  byte_order (write_fixed 64 255) (write_fixed 64 256) = Lt /\
  read_fixed 64 (write_fixed 64 18446744073709551615 ++ [1]) = Some (18446744073709551615, [1]) /\
  byte_order (write_regid_key (100, 2)) (write_regid_key (100, 3)) = Lt.
Proof. vm_compute. auto 10. Qed.

Print Assumptions c25_round_trip.
Print Assumptions c25_width.
Print Assumptions c25_order.
Print Assumptions c25_regid_key.
Print Assumptions c25_regid_key_round_trip.
Print Assumptions c25_plain_regid_order_refuted.

(** * C26 Account identifiers *)

(** Integer form: back to the same id, ordered by height then index. *)
Theorem c26_integer : forall r, regid_ok r -> regid_of_int (regid_int r) = r.
Proof. exact regid_int_round_trip. Qed.

Theorem c26_integer_order : forall a b, regid_ok a -> regid_ok b ->
  (regid_int a ?= regid_int b) = then_by (fst a ?= fst b) (snd a ?= snd b).
Proof. exact regid_int_order. Qed.

(** Raw form: back to the same id, and only that form is accepted. *)
Theorem c26_raw : forall r, regid_ok r -> regid_of_raw (regid_raw r) = Some r.
Proof. exact regid_raw_round_trip. Qed.

Theorem c26_raw_accepted : forall s r, bytes s -> regid_of_raw s = Some r ->
  regid_ok r /\ s = regid_raw r.
Proof. exact regid_raw_accepted. Qed.

(** Text form: distinct ids have distinct texts, and the text reads back unless the height
    needs all 32 bits, when the conversion of the number is undefined behaviour. *)
Theorem c26_text : forall r, regid_ok r ->
  regid_of_text (regid_text r) = if fst r <=? 2147483647 then Parsed r else Undefined.
Proof. exact regid_text_round_trip. Qed.

Theorem c26_text_distinct : forall a b, regid_ok a -> regid_ok b ->
  regid_text a = regid_text b -> a = b.
Proof. exact regid_text_inj. Qed.

(** What texts are accepted and what they mean: two digit runs around a hyphen, the second
    number reduced to 16 bits; or one digit run, standing for both numbers. *)
Theorem c26_text_accepted : forall s r, regid_of_text s = Parsed r ->
  regid_ok r /\
  ((exists a b, s = a ++ 45 :: b /\ is_digital a = true /\ is_digital b = true /\
                fst r = digits_value a /\ snd r = digits_value b mod 65536) \/
   (is_digital s = true /\ fst r = digits_value s /\ snd r = digits_value s mod 65536)).
Proof. exact regid_text_accepted. Qed.

(** So an id can be reached by a text that is not its text: "123" is taken for "123-123" and
    "7-65537" for "7-1". *)
Theorem c26_text_refuted : exists s1 r1 s2 r2,
  regid_of_text s1 = Parsed r1 /\ s1 <> regid_text r1 /\ Forall (fun c => c <> 45) s1 /\
  regid_of_text s2 = Parsed r2 /\ s2 <> regid_text r2 /\
  s1 = [49; 50; 51] /\ r1 = (123, 123) /\
  s2 = [55; 45; 54; 53; 53; 51; 55] /\ r2 = (7, 1).
Proof.
  exists [49; 50; 51], (123, 123), [55; 45; 54; 53; 53; 51; 55], (7, 1).
  repeat split; try (vm_compute; congruence).
  repeat constructor; discriminate.
Qed.

(** Serialised form of a registration id and of every meaningful user id. *)
Theorem c26_regid_serial : forall r, regid_ok r ->
  exists s, write_regid r = Some s /\ bytes s /\ N.of_nat (length s) = regid_size r /\
            2 <= regid_size r <= 8 /\
            forall rest, read_regid (s ++ rest) = Some (r, rest).
Proof. exact regid_serial_round_trip. Qed.

Theorem c26_userid_serial : forall u, userid_ok u ->
  exists s, write_userid u = Bytes s /\
            forall rest, read_userid (s ++ rest) = Some (u, rest).
Proof. exact userid_round_trip. Qed.

(** Ids built from a registration id, a key id or the bytes of a public key are meaningful. *)
Theorem c26_userid_made : forall r k b, regid_ok r -> length k = 20%nat ->
  userid_ok (make_reg r) /\ userid_ok (make_key k) /\ userid_ok (make_pub (pubkey_set b)).
Proof. exact made_userid_ok. Qed.

(** Ids received from outside are meaningful, or hold the invalid public key. *)
Theorem c26_userid_received : forall s u r, bytes s -> read_userid s = Some (u, r) ->
  userid_ok u \/ u = IdPub PubInvalid.
Proof. exact userid_accepted. Qed.

(** The exception is reachable: 34 bytes read as a user id that cannot be written again, the
    program stops in a failed assertion. *)
Theorem c26_userid_received_refuted : exists s u, bytes s /\ read_userid s = Some (u, []) /\
  write_userid u = CodecModel.Abort.
Proof.
  exists (33 :: repeat 0 33), (IdPub PubInvalid). split; [|split; reflexivity].
  constructor; [lia|]. apply (zeroes_lt 256 33). lia.
Qed.

(** The reader accepts several byte strings for one id: the length of a registration id is
    not compared with the bytes that follow. *)
Theorem c26_userid_one_encoding_refuted : exists s1 s2 u, s1 <> s2 /\
  read_userid s1 = Some (u, []) /\ read_userid s2 = Some (u, []).
Proof. exists [2; 5; 1], [10; 5; 1], (IdReg (5, 1)). split; [discriminate|split; reflexivity]. Qed.

Example c26_examples :
  regid_text (1000000, 3) = [49; 48; 48; 48; 48; 48; 48; 45; 51] /\
  regid_of_text (regid_text (1000000, 3)) = Parsed (1000000, 3) /\
  regid_of_text (regid_text (2147483648, 3)) = Undefined /\
  regid_of_int (regid_int (1000000, 65535)) = (1000000, 65535) /\
  regid_raw (1000000, 3) = [64; 66; 15; 0; 3; 0] /\
  write_userid (IdReg (1000000, 3)) = Bytes [4; 188; 131; 64; 3] /\
  read_userid ([4; 188; 131; 64; 3] ++ [9]) = Some (IdReg (1000000, 3), [9]) /\
  write_userid (IdPub (pubkey_set (2 :: repeat 7 32))) = Bytes (33 :: 2 :: repeat 7 32).
Proof. vm_compute. auto 10. Qed.

Print Assumptions c26_integer.
Print Assumptions c26_integer_order.
Print Assumptions c26_raw.
Print Assumptions c26_raw_accepted.
Print Assumptions c26_text.
Print Assumptions c26_text_distinct.
Print Assumptions c26_text_accepted.
Print Assumptions c26_text_refuted.
Print Assumptions c26_regid_serial.
Print Assumptions c26_userid_serial.
Print Assumptions c26_userid_made.
Print Assumptions c26_userid_received.
Print Assumptions c26_userid_received_refuted.
Print Assumptions c26_userid_one_encoding_refuted.

(** * C42 Base58 addresses *)

(** Encoding never fails an assertion and gives the documented text. *)
Theorem c42_encode : forall b, bytes b -> exists t, encode58 b = Ok t /\ base58_text b t.
Proof. exact encode58_ok. Qed.

(** The characters used are exactly the 58 allowed ones, in ascending order. *)
Theorem c42_characters :
  (forall d, d < 58 -> allowed58 (char58 d) = true) /\
  (forall d e, d < e -> e < 58 -> char58 d < char58 e) /\
  (forall c, allowed58 c = true -> exists d, d < 58 /\ char58 d = c).
Proof. exact char58_spec. Qed.

(** Decoding never fails an assertion, whatever the text. *)
Theorem c42_decode_total : forall t, decode58 t <> Base58Model.Abort.
Proof. exact decode58_total. Qed.

Theorem c42_round_trip : forall b, bytes b ->
  exists t, encode58 b = Ok t /\ decode58 t = Ok b.
Proof.
  intros b Hb. destruct (encode58_ok b Hb) as (t & E & H). exists t.
  split; [exact E|]. exact (decode58_text b t Hb H).
Qed.

(** A text is accepted exactly when, after removal of surrounding white space and of what
    follows a terminator, it is the text of the result. *)
Theorem c42_accepted : forall t b, decode58 t = Ok b <->
  bytes b /\ exists core, core_of t core /\ encode58 b = Ok core.
Proof.
  intros t b. split; [apply decode58_accepted|].
  intros (Hb & core & C & E). exact (decode58_complete t b core Hb C E).
Qed.

(** The checked form, for any hash of at least four bytes. *)
Theorem c42_check_round_trip : forall hash, (forall b, bytes (hash b)) ->
  (forall b, (4 <= length (hash b))%nat) -> forall b, bytes b ->
  exists t, encode58_check hash b = Ok t /\ decode58_check hash t = Ok b.
Proof. exact check_round_trip. Qed.

Theorem c42_check_accepted : forall hash, (forall b, bytes (hash b)) ->
  (forall b, (4 <= length (hash b))%nat) -> forall t b,
  decode58_check hash t = Ok b ->
  bytes b /\ exists core, core_of t core /\ encode58_check hash b = Ok core.
Proof. exact check_accepted. Qed.

Theorem c42_check_total : forall hash t, decode58_check hash t <> Base58Model.Abort.
Proof. exact check_total. Qed.

(** Coin addresses with a one-byte version. *)
Theorem c42_address_round_trip : forall hash, (forall b, bytes (hash b)) ->
  (forall b, (4 <= length (hash b))%nat) -> forall v key,
  bytes (v :: key) -> length key = 20%nat ->
  exists t, address_text hash [v] key = Ok t /\ address_key hash [v] t = Ok key.
Proof. exact address_round_trip. Qed.

Theorem c42_address_accepted : forall hash, (forall b, bytes (hash b)) ->
  (forall b, (4 <= length (hash b))%nat) -> forall v key t, address_key hash [v] t = Ok key ->
  bytes key /\ length key = 20%nat /\
  exists core, core_of t core /\ address_text hash [v] key = Ok core.
Proof. exact address_accepted. Qed.

(** Characters after an embedded terminator are ignored: two texts for one payload. *)
Theorem c42_terminator_refuted : exists t1 t2 b, t1 <> t2 /\
  Forall (fun c => is_space c = false) t2 /\ decode58 t1 = Ok b /\ decode58 t2 = Ok b.
Proof.
  exists [50; 103], [50; 103; 0; 33; 33], [97].
  split; [discriminate|]. split; [repeat constructor|]. split; vm_compute; reflexivity.
Qed.

(** "abc" with leading zero bytes, and an address-like payload with a toy hash. *)
Definition toy_hash (b : list N) : list N := [nsum b mod 256; 1; 2; 3; 4].

Example c42_examples :
  encode58 [0; 0; 97; 98; 99] = Ok [49; 49; 90; 105; 67; 97] /\
  decode58 [32; 49; 49; 90; 105; 67; 97; 10] = Ok [0; 0; 97; 98; 99] /\
  decode58 [49; 48] = Fail /\
  match address_text toy_hash [73] (repeat 200 20) with
  | Ok t => address_key toy_hash [73] t = Ok (repeat 200 20) /\
            address_key toy_hash [135] t = Fail
  | _ => False
  end.
Proof. vm_compute. auto 10. Qed.

Example c42_toy_hash_ok : (forall b, bytes (toy_hash b)) /\
  (forall b, (4 <= length (toy_hash b))%nat).
Proof.
  split; intros b; [|cbn; lia]. unfold toy_hash.
  constructor; [apply N.mod_lt; discriminate|]. repeat (constructor; [lia|]). constructor.
Qed.

Print Assumptions c42_encode.
Print Assumptions c42_characters.
Print Assumptions c42_decode_total.
Print Assumptions c42_round_trip.
Print Assumptions c42_accepted.
Print Assumptions c42_check_round_trip.
Print Assumptions c42_check_accepted.
Print Assumptions c42_check_total.
Print Assumptions c42_address_round_trip.
Print Assumptions c42_address_accepted.
Print Assumptions c42_terminator_refuted.
