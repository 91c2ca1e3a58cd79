(** Model of the byte encodings: variable-length integers, compact sizes, fixed-width index
    keys, registration ids, user ids and Base58.

    Source: /repo/src/commons/serialize.h:150-352, /repo/src/commons/leb128.h:14-62,
    /repo/src/entities/id.h:34-316, /repo/src/entities/id.cpp:16-120,
    /repo/src/entities/key.h:40-180, /repo/src/commons/base58.cpp:20-130.

    A byte is a number below 256, a byte string a list of bytes, a stream the list of bytes
    not read yet.  Reading past the end of a stream throws, modelled by [None].  Unsigned
    integers of [w] bits are numbers reduced modulo [2^w]. *)
From Coq Require Import List Bool NArith.
From Verif Require Import Prelude.
Import ListNotations.
Open Scope N_scope.

(** ** Variable-length integers *)

(** The loop of [WriteVarInt], serialize.h:325-333, from index [len] on; [room] is the part of
    the buffer [tmp] not written yet.  Running out of room is a write past the end of [tmp]:
    [None].  The result lists [tmp[len]], [tmp[len+1]], ... *)
Fixpoint write_digits (room : nat) (first : bool) (n : N) : option (list N) :=
  match room with
  | O => None
  | S room' =>
      let d := N.lor (N.land n 127) (if first then 0 else 128) in
      if n <=? 127 then Some [d]
      else match write_digits room' false (N.shiftr n 7 - 1) with
           | Some ds => Some (d :: ds)
           | None => None
           end
  end.

(** [WriteVarInt] for an unsigned type of [w] bits, serialize.h:322-337: the buffer has
    [(sizeof(n)*8+6)/7] bytes and is written out from the last index down. *)
Definition buffer_size (w : N) : nat := N.to_nat ((w + 6) / 7).
Definition write_varint (w n : N) : option (list N) :=
  match write_digits (buffer_size w) true n with
  | Some ds => Some (rev ds)
  | None => None
  end.

(** [GetSizeOfVarInt], serialize.h:309-320; the loop is cut at [fuel] rounds. *)
Fixpoint size_rounds (fuel : nat) (n : N) : N :=
  match fuel with
  | O => 0
  | S fuel' => if n <=? 127 then 1 else 1 + size_rounds fuel' (N.shiftr n 7 - 1)
  end.
Definition size_of_varint (n : N) : N := size_rounds (S (N.to_nat (N.log2 n))) n.

(** [ReadVarInt] for an unsigned type of [w] bits, serialize.h:339-352, with the accumulator
    [n] of the loop. *)
Fixpoint read_varint_from (w n : N) (s : list N) : option (N * list N) :=
  match s with
  | [] => None
  | b :: s' =>
      let n' := N.lor (N.shiftl n 7 mod 2 ^ w) (N.land b 127) in
      if N.testbit b 7 then read_varint_from w ((n' + 1) mod 2 ^ w) s'
      else Some (n', s')
  end.
Definition read_varint (w : N) (s : list N) : option (N * list N) := read_varint_from w 0 s.

(** ** Compact sizes *)

(** [WRITEDATA]/[READDATA] of an unsigned integer of [k] bytes, serialize.h:150-192: the bytes
    in memory, least significant first (the platforms supported are little-endian). *)
Fixpoint le_bytes (k : nat) (n : N) : list N :=
  match k with
  | O => []
  | S k' => n mod 256 :: le_bytes k' (n / 256)
  end.
Fixpoint read_le (k : nat) (s : list N) : option (N * list N) :=
  match k with
  | O => Some (0, s)
  | S k' =>
      match s with
      | [] => None
      | b :: s' =>
          match read_le k' s' with
          | Some (n, r) => Some (b + 256 * n, r)
          | None => None
          end
      end
  end.

(** [GetSizeOfCompactSize], serialize.h:208-214. *)
Definition size_of_compact (n : N) : N :=
  if n <? 253 then 1
  else if n <=? 65535 then 3
  else if n <=? 4294967295 then 5
  else 9.

(** [WriteCompactSize], serialize.h:216-246. *)
Definition write_compact (n : N) : list N :=
  if n <? 253 then [n]
  else if n <=? 65535 then 253 :: le_bytes 2 n
  else if n <=? 4294967295 then 254 :: le_bytes 4 n
  else 255 :: le_bytes 8 n.

(** [MAX_SIZE], serialize.h:35. *)
Definition max_size : N := 33554432.

(** [ReadCompactSize], serialize.h:248-285; [None] is one of the exceptions. *)
Definition read_compact (s : list N) : option (N * list N) :=
  match s with
  | [] => None
  | c :: s1 =>
      let body (k : nat) (least : N) :=
        match read_le k s1 with
        | Some (n, r) => if n <? least then None else Some (n, r)
        | None => None
        end in
      let got :=
        if c <? 253 then Some (c, s1)
        else if c =? 253 then body 2%nat 253
        else if c =? 254 then body 4%nat 65536
        else body 8%nat 4294967296 in
      match got with
      | Some (n, r) => if max_size <? n then None else Some (n, r)
      | None => None
      end
  end.

(** ** Fixed-width index keys *)

(** [CFixedLeb128::SerializeValue], leb128.h:40-51, for an unsigned type of [w] bits: the
    buffer is filled from its end. *)
Fixpoint fixed_fill (k : nat) (uv : N) (tail : list N) : list N :=
  match k with
  | O => tail
  | S k' => fixed_fill k' (N.shiftr uv 7) (N.land uv 127 :: tail)
  end.
Definition write_fixed (w v : N) : list N := fixed_fill (buffer_size w) v [].

(** [CFixedLeb128::UnserializeValue], leb128.h:53-63. *)
Fixpoint fixed_join (w : N) (v : N) (bytes : list N) : N :=
  match bytes with
  | [] => v
  | b :: bytes' => fixed_join w (N.lor (N.shiftl v 7 mod 2 ^ w) b) bytes'
  end.
Fixpoint take_bytes (k : nat) (s : list N) : option (list N * list N) :=
  match k with
  | O => Some ([], s)
  | S k' =>
      match s with
      | [] => None
      | b :: s' =>
          match take_bytes k' s' with
          | Some (bs, r) => Some (b :: bs, r)
          | None => None
          end
      end
  end.
Definition read_fixed (w : N) (s : list N) : option (N * list N) :=
  match take_bytes (buffer_size w) s with
  | Some (bs, r) => Some (fixed_join w 0 bs, r)
  | None => None
  end.

(** ** Registration ids: a height of 32 bits and an index of 16 bits *)

Notation regid := (N * N)%type (only parsing).

(** [CRegID::GetIntValue] and [CRegID::Set], id.h:67, id.cpp:74-77. *)
Definition regid_int (r : regid) : N := N.shiftl (fst r) 20 + snd r.
Definition regid_of_int (v : N) : regid :=
  (N.shiftr v 20 mod two32, N.land v 1048575 mod two16).

(** [CRegID::GetRegIdRaw] and [CRegID::SetRegID(vector)], id.cpp:65-72, 92-98; [None] is the
    answer [false] (the id is then cleared). *)
Definition regid_raw (r : regid) : list N := le_bytes 4 (fst r) ++ le_bytes 2 (snd r).
Definition regid_of_raw (s : list N) : option regid :=
  if N.of_nat (length s) =? 6 then
    match read_le 4 s with
    | Some (h, s') =>
        match read_le 2 s' with
        | Some (i, _) => Some (h, i)
        | None => None
        end
    | None => None
    end
  else None.

(** Decimal text of a number below [10^fuel], as printed by [strprintf("%d")] (tinyformat
    prints the unsigned value). *)
Fixpoint decimal_from (fuel : nat) (n : N) (tail : list N) : list N :=
  match fuel with
  | O => tail
  | S fuel' =>
      let tail' := (48 + n mod 10) :: tail in
      if n <? 10 then tail' else decimal_from fuel' (n / 10) tail'
  end.
Definition decimal (n : N) : list N := decimal_from 20 n [].

(** [CRegID::ToString], id.cpp:105-110; 45 is the hyphen. *)
Definition regid_text (r : regid) : list N := decimal (fst r) ++ 45 :: decimal (snd r).

(** [isdigit] and [IsDigitalString], id.cpp:28-38. *)
Definition is_digit (c : N) : bool := (48 <=? c) && (c <=? 57).
Definition is_digital (s : list N) : bool :=
  negb (N.of_nat (length s) =? 0) && (N.of_nat (length s) <=? 10) && forallb is_digit s.

(** [string::find('-')], [substr(0, pos)] and [substr(pos + 1)].  When there is no hyphen the
    position is [npos]: [substr(0, npos)] is the whole text and [pos + 1] wraps to 0, so
    [substr(pos + 1)] is the whole text as well. *)
Fixpoint split_hyphen (s : list N) : option (list N * list N) :=
  match s with
  | [] => None
  | c :: s' =>
      if c =? 45 then Some ([], s')
      else match split_hyphen s' with
           | Some (a, b) => Some (c :: a, b)
           | None => None
           end
  end.
Definition halves (s : list N) : list N * list N :=
  match split_hyphen s with
  | Some ab => ab
  | None => (s, s)
  end.

(** [CRegID::IsSimpleRegIdStr], id.cpp:40-54. *)
Definition is_simple_regid (s : list N) : bool :=
  (3 <=? N.of_nat (length s)) && is_digital (fst (halves s)) && is_digital (snd (halves s)).

(** [atoi] on a text of decimal digits: undefined behaviour, [None], when the value does not
    fit an [int]. *)
Definition digits_value (s : list N) : N := fold_left (fun v c => 10 * v + (c - 48)) s 0.
Definition atoi (s : list N) : option N :=
  if digits_value s <=? 2147483647 then Some (digits_value s) else None.

Inductive parsed :=
| Parsed (r : regid)
| Rejected          (* returns false, the id is cleared *)
| Undefined.        (* undefined behaviour in [atoi] *)

(** [CRegID::SetRegID(string)], id.cpp:56-63. *)
Definition regid_of_text (s : list N) : parsed :=
  if is_simple_regid s then
    match atoi (fst (halves s)), atoi (snd (halves s)) with
    | Some h, Some i => Parsed (h mod two32, i mod two16)
    | _, _ => Undefined
    end
  else Rejected.

(** Serialisation of [CRegID], id.h:91-94. *)
Definition write_regid (r : regid) : option (list N) :=
  match write_varint 32 (fst r), write_varint 16 (snd r) with
  | Some a, Some b => Some (a ++ b)
  | _, _ => None
  end.
Definition read_regid (s : list N) : option (regid * list N) :=
  match read_varint 32 s with
  | Some (h, s1) =>
      match read_varint 16 s1 with
      | Some (i, s2) => Some ((h, i), s2)
      | None => None
      end
  | None => None
  end.

(** Serialisation of [CRegIDKey], id.h:113-116. *)
Definition write_regid_key (r : regid) : list N :=
  write_fixed 32 (fst r) ++ write_fixed 16 (snd r).
Definition read_regid_key (s : list N) : option (regid * list N) :=
  match read_fixed 32 s with
  | Some (h, s1) =>
      match read_fixed 16 s1 with
      | Some (i, s2) => Some ((h, i), s2)
      | None => None
      end
  | None => None
  end.

(** ** User ids *)

(** Public keys, key.h:48-97: 33 bytes starting with 2 or 3, or the invalid key. *)
Definition pubkey_len (header : N) : N := if (header =? 2) || (header =? 3) then 33 else 0.
Inductive pubkey :=
| PubBytes (b : list N)
| PubInvalid.
(** [CPubKey::Set], key.h:72-79. *)
Definition pubkey_set (b : list N) : pubkey :=
  match b with
  | [] => PubInvalid
  | h :: _ =>
      if negb (pubkey_len h =? 0) && (pubkey_len h =? N.of_nat (length b)) then PubBytes b
      else PubInvalid
  end.
(** [CPubKey::size], key.h:92-97 (the invalid key starts with 0xFF). *)
Definition pubkey_size (p : pubkey) : N :=
  match p with
  | PubBytes (h :: _) => pubkey_len h
  | PubBytes [] => 0
  | PubInvalid => 0
  end.

(** The alternatives of [CUserID], id.h:130-131. *)
Inductive userid :=
| IdNull
| IdReg (r : regid)
| IdKey (k : list N)
| IdPub (p : pubkey).

(** [CUserID::set] and the constructors, id.h:146-155, 193-200: an empty id becomes the null
    id.  A key id is 20 bytes, empty when all are 0. *)
Definition make_reg (r : regid) : userid :=
  if (fst r =? 0) && (snd r =? 0) then IdNull else IdReg r.
Definition make_key (k : list N) : userid :=
  if forallb (fun b => b =? 0) k then IdNull else IdKey k.
Definition make_pub (p : pubkey) : userid :=
  if pubkey_size p =? 0 then IdNull else IdPub p.

(** The result of a serialisation: bytes, or a failed [assert]. *)
Inductive written :=
| Bytes (b : list N)
| Abort.

(** [CRegID::GetSerializeSize] (IMPLEMENT_SERIALIZE over the two variable-length numbers). *)
Definition regid_size (r : regid) : N := size_of_varint (fst r) + size_of_varint (snd r).

(** [CUserID::Serialize], id.h:259-279. *)
Definition write_userid (u : userid) : written :=
  match u with
  | IdReg r =>
      let sz := regid_size r in
      if (2 <=? sz) && (sz <=? 10) then
        match write_regid r with
        | Some b => Bytes (sz :: b)
        | None => Abort
        end
      else Abort
  | IdKey k =>
      if N.of_nat (length k) =? 20 then Bytes (20 :: k) else Abort
  | IdPub p =>
      if pubkey_size p + 1 =? 34 then
        match p with
        | PubBytes b => Bytes (write_compact 33 ++ b)
        | PubInvalid => Abort
        end
      else Abort
  | IdNull => Bytes [0]
  end.

(** [CUserID::Unserialize], id.h:281-315; [None] is an exception. *)
Definition read_userid (s : list N) : option (userid * list N) :=
  match read_compact s with
  | None => None
  | Some (len, s1) =>
      if (2 <=? len) && (len <=? 10) then
        match read_regid s1 with
        | Some (r, s2) => Some (IdReg r, s2)
        | None => None
        end
      else if len =? 20 then
        match take_bytes 20 s1 with
        | Some (k, s2) => Some (IdKey k, s2)
        | None => None
        end
      else if len =? 33 then
        match take_bytes 33 s1 with
        | Some (b, s2) => Some (IdPub (pubkey_set b), s2)
        | None => None
        end
      else if len =? 0 then Some (IdNull, s1)
      else None
  end.

(** ** Strings and vectors *)

(** [MAX_SERIALIZE_SIZE], serialize.h:36, const.h:151. *)
Definition max_serialize_size : N := 4000000.

(** Serialisation of [std::string], serialize.h:572-589. *)
Definition write_string (s : list N) : list N := write_compact (N.of_nat (length s)) ++ s.
Definition read_string (s : list N) : option (list N * list N) :=
  match read_compact s with
  | Some (n, s1) => if max_serialize_size <? n then None else take_bytes (N.to_nat n) s1
  | None => None
  end.

(** Reading a [vector<unsigned char>], serialize.h:641-655 (the blocks read consecutive
    bytes); it is written like a string, 618-624. *)
Definition read_bytes (s : list N) : option (list N * list N) :=
  match read_compact s with
  | Some (n, s1) => take_bytes (N.to_nat n) s1
  | None => None
  end.

(** Serialisation of a vector of other values, serialize.h:626-632, 657-674, given the
    serialisation of its elements. *)
Section Vectors.
  Context {A : Type}.
  Variable put : A -> list N.
  Variable get : list N -> option (A * list N).

  Definition write_vector (l : list A) : list N :=
    write_compact (N.of_nat (length l)) ++ concat (map put l).

  Fixpoint read_elements (k : nat) (s : list N) : option (list A * list N) :=
    match k with
    | O => Some ([], s)
    | S k' =>
        match get s with
        | Some (a, s1) =>
            match read_elements k' s1 with
            | Some (l, s2) => Some (a :: l, s2)
            | None => None
            end
        | None => None
        end
    end.

  Definition read_vector (s : list N) : option (list A * list N) :=
    match read_compact s with
    | Some (n, s1) => read_elements (N.to_nat n) s1
    | None => None
    end.
End Vectors.
