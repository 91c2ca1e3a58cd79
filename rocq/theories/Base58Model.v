(** Model of Base58 text, checked Base58 text and coin addresses.

    Source: /repo/src/commons/base58.cpp:20-205.

    Text is a list of character codes.  The hash of [EncodeBase58Check] is a parameter: any
    function from byte strings to byte strings, of which the first four bytes are used.
    Simplifications: buffer sizes and the count of leading zeroes do not overflow [int] and
    [size_t]; [isspace] is that of the C locale. *)
From Coq Require Import NArith String Ascii Bool List.
From Verif Require Import Prelude.
Import ListNotations.
Open Scope N_scope.

(** [pszBase58], base58.cpp:21. *)
Definition alphabet : list N :=
  map N_of_ascii (list_ascii_of_string
    "123456789ABCDEFGHJKLMNPQRSTUVWXYZabcdefghijkmnopqrstuvwxyz").

(** [isspace], C locale. *)
Definition is_space (c : N) : bool := (c =? 32) || ((9 <=? c) && (c <=? 13)).

(** [strchr(pszBase58, c)] for a character other than the terminator: its position. *)
Fixpoint position (l : list N) (c : N) (i : N) : option N :=
  match l with
  | [] => None
  | x :: l' => if x =? c then Some i else position l' c (i + 1)
  end.

(** "buffer = buffer * base_in + carry", base58.cpp:43-49 and 76-82: the buffer, last byte
    first, and the final carry.  Both loops run over the whole buffer. *)
Fixpoint mul_add (base_in base_out : N) (carry : N) (buf : list N) : list N * N :=
  match buf with
  | [] => ([], carry)
  | d :: buf' =>
      let c := carry + base_in * d in
      let '(rest, out) := mul_add base_in base_out (c / base_out) buf' in
      (c mod base_out :: rest, out)
  end.

(** The outer loops: one digit after another; [None] is the failed [assert(carry == 0)]. *)
Fixpoint absorb (base_in base_out : N) (digits buf : list N) : option (list N) :=
  match digits with
  | [] => Some buf
  | d :: digits' =>
      let '(buf', out) := mul_add base_in base_out d buf in
      if out =? 0 then absorb base_in base_out digits' buf' else None
  end.

(** Skip and count the leading elements equal to [z]. *)
Fixpoint skip (z : N) (l : list N) : nat * list N :=
  match l with
  | [] => (O, [])
  | x :: l' => if x =? z then let '(k, r) := skip z l' in (S k, r) else (O, l)
  end.

Inductive outcome (A : Type) :=
| Ok (a : A)
| Fail           (* returns false *)
| Abort.         (* failed assert *)
Arguments Ok {A} _.
Arguments Fail {A}.
Arguments Abort {A}.

(** [EncodeBase58], base58.cpp:68-100; 49 is '1'. *)
Definition encode58 (b : list N) : outcome (list N) :=
  let '(zeroes, b') := skip 0 b in
  let room := N.to_nat (N.of_nat (length b') * 138 / 100 + 1) in
  match absorb 256 58 b' (repeat 0 room) with
  | None => Abort
  | Some buf =>
      let digits := snd (skip 0 (rev buf)) in
      Ok (repeat 49 zeroes ++ map (fun d => nth (N.to_nat d) alphabet 0) digits)
  end.

(** Leading white space, base58.cpp:24-25. *)
Fixpoint skip_spaces (t : list N) : list N :=
  match t with
  | [] => []
  | c :: t' => if is_space c then skip_spaces t' else t
  end.

(** The characters up to the end or the first white space: [Some] of their positions in the
    alphabet, with the rest of the text; [None] if one is not in the alphabet. *)
Fixpoint scan (t : list N) : option (list N * list N) :=
  match t with
  | [] => Some ([], [])
  | c :: t' =>
      if is_space c then Some ([], t)
      else match position alphabet c 0 with
           | None => None
           | Some d =>
               match scan t' with
               | Some (ds, r) => Some (d :: ds, r)
               | None => None
               end
           end
  end.

(** [DecodeBase58] of a C string, base58.cpp:22-63, of a terminated text without embedded
    terminator.  The source multiplies digit by digit and stops at the first bad character;
    here the digits are collected first: the [assert] is only reached with good digits and
    the buffer is local, so the outcomes are the same once it is shown not to fail. *)
Definition decode58_chars (t : list N) : outcome (list N) :=
  let '(zeroes, t') := skip 49 (skip_spaces t) in
  let room := N.to_nat (N.of_nat (length t') * 733 / 1000 + 1) in
  match scan t' with
  | None => Fail
  | Some (ds, r) =>
      match absorb 58 256 ds (repeat 0 room) with
      | None => Abort
      | Some buf =>
          match skip_spaces r with
          | [] => Ok (repeat 0 zeroes ++ snd (skip 0 (rev buf)))
          | _ => Fail
          end
      end
  end.

(** [string::c_str()]: the reader sees the characters before the first terminator. *)
Fixpoint c_str (t : list N) : list N :=
  match t with
  | [] => []
  | c :: t' => if c =? 0 then [] else c :: c_str t'
  end.
(** [DecodeBase58(const string&)], base58.cpp:106-108. *)
Definition decode58 (t : list N) : outcome (list N) := decode58_chars (c_str t).

Section Checked.
  Variable hash : list N -> list N.

  (** [EncodeBase58Check], base58.cpp:110-116. *)
  Definition encode58_check (b : list N) : outcome (list N) :=
    encode58 (b ++ firstn 4 (hash b)).

  (** [DecodeBase58Check], base58.cpp:118-131. *)
  Definition decode58_check (t : list N) : outcome (list N) :=
    match decode58 t with
    | Abort => Abort
    | Fail => Fail
    | Ok b =>
        if N.of_nat (length b) <? 4 then Fail
        else
          let body := firstn (length b - 4) b in
          if list_eq_dec N.eq_dec (firstn 4 (hash body)) (skipn (length b - 4) b)
          then Ok body else Fail
    end.

  Variable version : list N.  (* SysCfg().Base58Prefix(PUBKEY_ADDRESS) *)

  (** [CCoinAddress(keyId).ToString()], base58.cpp:142-148, 175-179, 193-196. *)
  Definition address_text (key : list N) : outcome (list N) := encode58_check (version ++ key).

  (** [CCoinAddress(text).GetKeyId], base58.cpp:155-173, 198-211: one version byte. *)
  Definition address_key (t : list N) : outcome (list N) :=
    match decode58_check t with
    | Abort => Abort
    | Fail => Fail
    | Ok [] => Fail
    | Ok (v :: data) =>
        if list_eq_dec N.eq_dec [v] version then
          if N.of_nat (length data) =? 20 then Ok data else Fail
        else Fail
    end.
End Checked.
