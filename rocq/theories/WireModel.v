(** Model of the bytes of a transaction: how every type of transaction is written to and read
    from a stream, and which bytes are hashed into the transaction's id, the value that is
    signed.

    Source: /repo/src/commons/serialize.h:150-206, 322-452, 572-1000 (the basic types, VARINT,
    strings, vectors, pairs, maps), /repo/src/tx/txserializer.h:32-335 (the type byte and the
    table of types), the IMPLEMENT_SERIALIZE and SerializeForHash parts of /repo/src/tx/*.h,
    /repo/src/entities/proposal.h:82-919, /repo/src/entities/utxo.h:17-440,
    /repo/src/entities/contract.h:33-120, /repo/src/entities/vote.h:81-85,
    /repo/src/entities/price.h:57-59, /repo/src/vm/wasm/types/inline_transaction.hpp:16-62.

    The encodings of single numbers, lengths, strings and user ids are those of CodecModel.v.
    A transaction is its type and a value for each of its named fields. *)
From Coq Require Import String List Bool NArith ZArith.
From Verif Require Import Prelude CodecModel.
Import ListNotations.
Open Scope string_scope.
Open Scope list_scope.
Open Scope N_scope.

(** ** Values and formats *)

(** The values of the fields: nothing, unsigned and signed numbers, byte strings, user ids,
    registration ids, pairs (also structures, nested to the right), vectors and maps, and
    values with a tag that says what they are. *)
Inductive val :=
| VUnit
| VNum (n : N)
| VInt (z : Z)
| VBytes (b : list N)
| VUid (u : userid)
| VReg (r : N * N)
| VPair (a b : val)
| VList (l : list val)
| VTag (t : N) (v : val).

(** The formats in which fields are written. *)
Inductive fmt :=
| FUnit                               (* nothing *)
| FNum (w : N)                        (* VARINT of an unsigned number of [w] bits *)
| FInt                                (* VARINT of an int32_t *)
| FDex                                (* VARINT, written as uint32_t and read as int32_t *)
| FRaw (k : nat)                      (* an unsigned number of [k] bytes *)
| FBool                               (* a bool *)
| FSkip (b : N)                       (* the byte [b]; the reader does not look at it *)
| FBlob (k : nat)                     (* [k] bytes: uint160, uint256 *)
| FBytes                              (* vector<unsigned char>, vector<char> *)
| FText                               (* std::string *)
| FUid                                (* CUserID *)
| FReg                                (* CRegID *)
| FLua                                (* CLuaContract *)
| FPair (a b : fmt)
| FList (a : fmt)                     (* vector of values that are not plain numbers *)
| FMap (strict two : bool) (v : fmt)  (* map from strings, or from pairs of strings *)
| FTag (body : N -> fmt)              (* a byte, then what the byte says *)
| FBad.                               (* throws *)

(** ** Signed numbers as VARINT *)

(** [WriteVarInt<int32_t>], serialize.h:322-337: a negative number is at most 127, so its last
    seven bits are the only byte written. *)
Definition write_int (z : Z) : option (list N) :=
  if (z <? 0)%Z then Some [Z.to_N (Z.land z 127)] else write_varint 32 (Z.to_N z).

(** The outcome of reading: a value and what is left of the stream, an exception, or undefined
    behaviour. *)
Inductive reading (A : Type) :=
| Got (a : A) (rest : list N)
| Throws
| Undef.
Arguments Got {A} a rest.
Arguments Throws {A}.
Arguments Undef {A}.

Definition got_bind {A B : Type} (x : reading A) (f : A -> list N -> reading B) : reading B :=
  match x with
  | Got a r => f a r
  | Throws => Throws
  | Undef => Undef
  end.
Notation "'get' a ',' r <- x ; y" := (got_bind x (fun a r => y))
  (at level 200, a name, r name, x at level 100, y at level 200, right associativity).

Definition of_option {A : Type} (x : option (A * list N)) : reading A :=
  match x with
  | Some (a, r) => Got a r
  | None => Throws
  end.

(** [ReadVarInt<int32_t>], serialize.h:339-352, with the accumulator [n] of the loop.  Shifting
    a negative number, or a number out of the unsigned type, is undefined; the value of the
    unsigned type is converted to the signed one modulo [2^32] (as the compilers used define
    it).  Adding 1 to the largest number is undefined. *)
Definition to_int (n : N) : Z :=
  if n <? 2147483648 then Z.of_N n else (Z.of_N n - 4294967296)%Z.
Fixpoint read_int_from (n : Z) (s : list N) : reading Z :=
  match s with
  | [] => Throws
  | b :: s' =>
      if (n <? 0)%Z then Undef
      else if (33554432 <=? n)%Z then Undef
      else
        let n' := to_int (N.lor (N.shiftl (Z.to_N n) 7) (N.land b 127)) in
        if N.testbit b 7 then
          if (n' =? 2147483647)%Z then Undef else read_int_from (n' + 1)%Z s'
        else Got n' s'
  end.
Definition read_int (s : list N) : reading Z := read_int_from 0 s.

(** ** Reading maps *)

(** The order of std::string and of pairs of them: the first byte that differs decides; of two
    strings one of which starts with the other the shorter comes first. *)
Fixpoint lex {A : Type} (cmp : A -> A -> comparison) (x y : list A) : comparison :=
  match x, y with
  | [], [] => Eq
  | [], _ :: _ => Lt
  | _ :: _, [] => Gt
  | a :: x', b :: y' =>
      match cmp a b with
      | Eq => lex cmp x' y'
      | c => c
      end
  end.
Definition key_of (v : val) : list (list N) :=
  match v with
  | VBytes a => [a]
  | VPair (VBytes a) (VBytes b) => [a; b]
  | _ => []
  end.
Definition entry_key (e : val) : list (list N) :=
  match e with
  | VPair k _ => key_of k
  | _ => []
  end.
Definition key_cmp (a b : val) : comparison := lex (lex N.compare) (entry_key a) (entry_key b).

(** [map::insert] and [map::emplace]: an entry whose key is present is not inserted; the answer
    says whether it was. *)
Fixpoint map_insert (e : val) (m : list val) : list val * bool :=
  match m with
  | [] => ([e], true)
  | x :: m' =>
      match key_cmp e x with
      | Lt => (e :: m, true)
      | Eq => (m, false)
      | Gt => let (m1, b) := map_insert e m' in (x :: m1, b)
      end
  end.

(** The loops that fill a map, serialize.h:834-846, and blockpricemediantx.h:42-57, which
    throws at an entry whose key is present ([strict]). *)
Fixpoint fill_map (strict : bool) (m : list val) (es : list val) : option (list val) :=
  match es with
  | [] => Some m
  | e :: es' =>
      let (m1, fresh) := map_insert e m in
      if strict && negb fresh then None else fill_map strict m1 es'
  end.

(** The loop of the readers of vectors, serialize.h:657-673. *)
Fixpoint read_many {A : Type} (one : list N -> reading A) (k : nat) (s : list N)
  : reading (list A) :=
  match k with
  | O => Got [] s
  | S k' => get a, s1 <- one s; get l, s2 <- read_many one k' s1; Got (a :: l) s2
  end.

(** ** Writing and reading values *)

Definition bind_opt {A B : Type} (x : option A) (f : A -> option B) : option B :=
  match x with
  | Some a => f a
  | None => None
  end.
Notation "'put' a <- x ; y" := (bind_opt x (fun a => y))
  (at level 200, a name, x at level 100, y at level 200, right associativity).

Fixpoint write_all {A : Type} (one : A -> option (list N)) (l : list A) : option (list N) :=
  match l with
  | [] => Some []
  | a :: l' => put x <- one a; put y <- write_all one l'; Some (x ++ y)
  end.

(** Writing a value; [None] is an exception or a failed assertion (or a value that is not of
    the format, which the types of C++ exclude).
    Vectors: serialize.h:618-632; maps: 826-832; pairs: 708-713; [CLuaContract::Serialize],
    contract.h:56-61, with [GetContractSize], 45-49; bool: 197. *)
Definition sized (s : list N) : N :=
  size_of_compact (N.of_nat (length s)) + N.of_nat (length s).
Definition lua_size (code memo : list N) : N := (sized code + sized memo) mod two32.

Fixpoint enc (f : fmt) (v : val) : option (list N) :=
  match f, v with
  | FUnit, VUnit => Some []
  | FNum w, VNum n => write_varint w n
  | FInt, VInt z => write_int z
  | FDex, VNum n => write_varint 32 n
  | FRaw k, VNum n => Some (le_bytes k n)
  | FBool, VNum n => Some [n]
  | FSkip b, VUnit => Some [b]
  | FBlob k, VBytes b => Some b
  | FBytes, VBytes b => Some (write_string b)
  | FText, VBytes b => Some (write_string b)
  | FUid, VUid u =>
      match write_userid u with
      | Bytes b => Some b
      | Abort => None
      end
  | FReg, VReg r => write_regid r
  | FLua, VPair (VBytes code) (VBytes memo) =>
      Some (write_compact (lua_size code memo) ++ write_string code ++ write_string memo)
  | FPair a b, VPair x y => put s <- enc a x; put t <- enc b y; Some (s ++ t)
  | FList a, VList l =>
      put s <- write_all (enc a) l; Some (write_compact (N.of_nat (length l)) ++ s)
  | FMap _ two a, VList l =>
      put s <- write_all (fun e =>
        match e, two with
        | VPair (VBytes k) x, false => put t <- enc a x; Some (write_string k ++ t)
        | VPair (VPair (VBytes k1) (VBytes k2)) x, true =>
            put t <- enc a x; Some (write_string k1 ++ write_string k2 ++ t)
        | _, _ => None
        end) l;
      Some (write_compact (N.of_nat (length l)) ++ s)
  | FTag body, VTag t x => put s <- enc (body t) x; Some (t :: s)
  | _, _ => None
  end.

(** Reading a value.  Vectors: serialize.h:641-673; maps: 834-846; pairs: 715-720;
    [CLuaContract::Unserialize], contract.h:63-70; bool: 198. *)
Fixpoint dec (f : fmt) (s : list N) : reading val :=
  match f with
  | FUnit => Got VUnit s
  | FNum w => get n, r <- of_option (read_varint w s); Got (VNum n) r
  | FInt => get z, r <- read_int s; Got (VInt z) r
  | FDex => get z, r <- read_int s; Got (VNum (Z.to_N (z mod 4294967296))) r
  | FRaw k => get n, r <- of_option (read_le k s); Got (VNum n) r
  | FBool => get n, r <- of_option (read_le 1 s); Got (VNum (if n =? 0 then 0 else 1)) r
  | FSkip _ => get n, r <- of_option (read_le 1 s); Got VUnit r
  | FBlob k => get b, r <- of_option (take_bytes k s); Got (VBytes b) r
  | FBytes => get b, r <- of_option (read_bytes s); Got (VBytes b) r
  | FText => get b, r <- of_option (read_string s); Got (VBytes b) r
  | FUid => get u, r <- of_option (read_userid s); Got (VUid u) r
  | FReg => get u, r <- of_option (read_regid s); Got (VReg u) r
  | FLua =>
      get n, s1 <- of_option (read_compact s);
      get code, s2 <- of_option (read_string s1);
      get memo, s3 <- of_option (read_string s2);
      if n =? lua_size code memo then Got (VPair (VBytes code) (VBytes memo)) s3 else Throws
  | FPair a b => get x, r <- dec a s; get y, r2 <- dec b r; Got (VPair x y) r2
  | FList a =>
      get n, r <- of_option (read_compact s);
      get l, r2 <- read_many (dec a) (N.to_nat n) r; Got (VList l) r2
  | FMap strict two a =>
      get n, r <- of_option (read_compact s);
      get l, r2 <- read_many (fun s0 =>
        if two then
          get k1, s1 <- of_option (read_string s0);
          get k2, s2 <- of_option (read_string s1);
          get x, s3 <- dec a s2; Got (VPair (VPair (VBytes k1) (VBytes k2)) x) s3
        else
          get k, s1 <- of_option (read_string s0);
          get x, s2 <- dec a s1; Got (VPair (VBytes k) x) s2) (N.to_nat n) r;
      match fill_map strict [] l with
      | Some m => Got (VList m) r2
      | None => Throws
      end
  | FTag body => get t, r <- of_option (read_le 1 s); get x, r2 <- dec (body t) r; Got (VTag t x) r2
  | FBad => Throws
  end.

(** Structures are their fields one after the other. *)
Fixpoint struct (l : list fmt) : fmt :=
  match l with
  | [] => FUnit
  | [f] => f
  | f :: l' => FPair f (struct l')
  end.

(** ** The parts of transactions *)

Definition u8 : fmt := FRaw 1.
Definition u64v : fmt := FNum 64.
Definition hash256 : fmt := FBlob 32.

(** [SingleTransfer], tx.h:253-257. *)
Definition f_transfer : fmt := struct [FUid; FText; u64v].
(** [CUserIssuedAsset], assettx.h:28-35. *)
Definition f_issued_asset : fmt := struct [FText; FUid; FText; FBool; u64v].
(** [CUserUpdateAsset], assettx.h:148-189: owner, name, amount to mint. *)
Definition f_asset_update : fmt :=
  FTag (fun t => if t =? 1 then FUid else if t =? 2 then FText else if t =? 3 then u64v else FBad).
(** [CDEXOperatorRegisterTx::Data], dexoperatortx.h:29-39; the list is a vector of
    CVarIntValue<uint64_t>, dexoperatortx.h:14. *)
Definition f_dexop_ids : fmt := FList u64v.
Definition f_dexop_data : fmt :=
  struct [FUid; FUid; FText; FText; u8; u64v; u64v; f_dexop_ids; FText].
(** [CDEXOperatorUpdateData], dexoperatortx.h:145-223. *)
Definition f_dexop_update : fmt :=
  FPair FDex (FTag (fun t =>
    if (t =? 1) || (t =? 2) then FUid
    else if (t =? 3) || (t =? 4) || (t =? 9) then FText
    else if t =? 5 then u8
    else if (t =? 6) || (t =? 7) then u64v
    else if t =? 8 then f_dexop_ids
    else FBad)).
(** [CCandidateVote], vote.h:81-85. *)
Definition f_vote : fmt := struct [u8; FUid; u64v].
(** [CPricePoint], price.h:57-59. *)
Definition f_price_point : fmt := struct [FPair FText FText; u64v].
(** [CUniversalContract], contract.h:114-120. *)
Definition f_contract : fmt := struct [u8; FBool; FText; FText; FText].
(** [DealItem], dextx.h:501-507. *)
Definition f_deal : fmt := struct [hash256; hash256; u64v; u64v; u64v].
(** [wasm::permission], [wasm::inline_transaction] and [wasm::signature_pair],
    inline_transaction.hpp:16-60. *)
Definition f_permission : fmt := struct [u64v; u64v].
Definition f_inline : fmt := struct [u64v; u64v; FList f_permission; FBytes].
Definition f_signer : fmt := struct [u64v; FBytes].

(** [CUtxoCondStorageBean], utxo.h:248-383: the kind of the condition, and then the condition,
    which repeats its kind; the reader takes the first of the two.  The conditions:
    utxo.h:52-54, 70-73, 106-112, 142-145, 164-167, 185-189, 212-215, 233-236. *)
Definition f_cond : fmt :=
  FTag (fun t =>
    if t =? 0 then FUnit
    else if t =? 11 then FSkip 11
    else if t =? 12 then struct [FSkip 12; FNum 8; FNum 8; FList FUid; FList FBytes]
    else if t =? 13 then struct [FSkip 13; FText]
    else if t =? 111 then struct [FSkip 111; FUid]
    else if t =? 112 then struct [FSkip 112; FBlob 20]
    else if t =? 113 then struct [FBool; FSkip 113; hash256]
    else if t =? 114 then struct [FSkip 114; u64v]
    else if t =? 115 then struct [FSkip 115; u64v]
    else FBad).
(** [CUtxoInput] and [CUtxoOutput], utxo.h:396-400, 428-431. *)
Definition f_vin : fmt := struct [hash256; FNum 16; FList f_cond].
Definition f_vout : fmt := struct [u64v; FList f_cond].

(** [CProposalStorageBean], proposal.h:720-919, and the fifteen kinds of proposals,
    proposal.h:32-50, 113-117, 162-168, 196-202, 231-238, 268-276, 310-316, 347-352, 381-386,
    429-435, 466-472, 503-509, 552-561, 602-610, 656-662, 697-701.  Each starts with the
    height of its expiry and the number of approvals. *)
Definition proposal (l : list fmt) : fmt := struct (FNum 32 :: u8 :: l).
Definition f_params : fmt := FList (FPair u8 u64v).
Definition f_proposal : fmt :=
  FTag (fun t =>
    if t =? 0 then FUnit
    else if t =? 1 then proposal [f_params]
    else if t =? 2 then proposal [FReg; u8]
    else if t =? 3 then proposal [u8; FNum 32]
    else if t =? 4 then proposal [u8; FText; u64v]
    else if t =? 5 then proposal [u64v; FText; FUid; FUid]
    else if t =? 6 then proposal [FUid; u64v]
    else if t =? 7 then proposal [FText; u64v]
    else if t =? 8 then proposal [f_params; FPair FText FText]
    else if t =? 9 then proposal [FNum 32; u8]
    else if t =? 11 then proposal [FText; FText; u8]
    else if t =? 12 then proposal [FText; FText; FText; FUid; u64v]
    else if t =? 13 then proposal [FUid; FText; FText; u64v; FList FBytes]
    else if t =? 14 then proposal [FText; u8; u8]
    else if t =? 15 then proposal [FText; FRaw 8; FReg]
    else if t =? 16 then proposal [hash256]
    else FBad).

(** ** The layouts of the transactions *)

(** What of a field is written: all of it, or of a list of pairs the first components. *)
Inductive view := Whole | Firsts.
Definition first_of (v : val) : val :=
  match v with
  | VPair a _ => a
  | _ => v
  end.
Definition seen (w : view) (v : val) : val :=
  match w, v with
  | Whole, _ => v
  | Firsts, VList l => VList (map first_of l)
  | Firsts, _ => v
  end.

(** An entry of a layout: the field, what is written of it, and its format, which may depend on
    a field [on] written before. *)
Record item := { i_name : string; i_view : view; i_on : string; i_fmt : val -> fmt }.
Definition fld (n : string) (f : fmt) : item :=
  {| i_name := n; i_view := Whole; i_on := "nVersion"; i_fmt := fun _ => f |}.

Section Layouts.
  (** [GetFeatureForkVersion(h) >= MAJOR_VER_R3], the fork schedule of the chain. *)
  Variable r3 : Z -> bool.

  (** The median prices, blockpricemediantx.h:75-131: variable-length from release 3 on, eight
      bytes before. *)
  Definition f_prices (height : val) : fmt :=
    match height with
    | VInt h => if r3 h then FMap true true u64v else FMap true true (FRaw 8)
    | _ => FBad
    end.
  Definition prices : item :=
    {| i_name := "median_prices"; i_view := Whole; i_on := "valid_height"; i_fmt := f_prices |}.

  Definition height : item := fld "valid_height" FInt.
  Definition uid : item := fld "txUid" FUid.
  Definition fee_symbol : item := fld "fee_symbol" FText.
  Definition fees : item := fld "llFees" u64v.
  Definition sign : item := fld "signature" FBytes.
  Definition base : list item := [height; uid; fee_symbol; fees].

  (** The orders of the exchange, dextx.h:307-317, 372-387 ([READWRITE_ENUM] is a VARINT of
      eight bits, serialize.h:139). *)
  Definition order_data : list item :=
    [fld "order_type" (FNum 8); fld "order_side" (FNum 8); fld "asset_symbol" FText;
     fld "coin_symbol" FText; fld "asset_amount" u64v; fld "coin_amount" u64v;
     fld "price" u64v; fld "dex_id" (FNum 32)].
  Definition operator_data : list item :=
    [fld "open_mode" (FNum 8); fld "maker_fee_ratio" u64v; fld "taker_fee_ratio" u64v;
     fld "operator_uid" FUid; fld "operator_tx_fee" u64v].

  (** What IMPLEMENT_SERIALIZE writes after [VARINT(nVersion)], by type of transaction
      (config/txbase.h:22-76); [None] is a type that [SerializePtr] and [UnserializePtr] refuse. *)
  Definition wire (t : N) : option (list item) :=
    match t with
    | 1 => Some [uid; fld "reward_fees" u64v; height]                    (* blockrewardtx.h:31-38 *)
    | 2 => Some [height; uid; fld "miner_uid" FUid; fees; sign]          (* accountregtx.h:25-33 *)
    | 3 => Some [height; uid; fld "toUid" FUid; fees; fld "coin_amount" u64v;
                 fld "memo" FText; sign]                                 (* cointransfertx.h:28-39 *)
    | 4 => Some [height; uid; fld "app_uid" FUid; fees; fld "coin_amount" u64v;
                 fld "arguments" FText; sign]                            (* contracttx.h:61-71 *)
    | 5 => Some [height; uid; fld "contract" FLua; fees; sign]           (* contracttx.h:26-35 *)
    | 6 => Some [height; uid; fld "candidateVotes" (FList f_vote); fees; sign]
                                                                         (* delegatetx.h:24-33 *)
    | 8 => Some (base ++ [fld "stake_type" u8; fld "coin_symbol" FText;
                          fld "coin_amount" u64v; sign])                 (* coinstaketx.h:30-43 *)
    | 9 => Some (base ++ [fld "asset" f_issued_asset; sign])             (* assettx.h:63-73 *)
    | 10 => Some (base ++ [fld "asset_symbol" FText; fld "update_data" f_asset_update; sign])
                                                                         (* assettx.h:217-228 *)
    | 11 => Some (base ++ [fld "transfers" (FList f_transfer); fld "memo" FText; sign])
                                                                         (* cointransfertx.h:81-91 *)
    | 12 => Some [uid; height; fld "coin_symbol" FText; fld "coin_amount" u64v; sign]
                                                                         (* coinminttx.h:28-38 *)
    | 13 => Some [height; uid; fld "reward_fees" (FMap false false (FRaw 8));
                  fld "inflated_bcoins" u64v]                            (* blockrewardtx.h:76-84 *)
    | 14 => Some (base ++ [fld "contract" f_contract; sign])             (* contracttx.h:99-110 *)
    | 15 => Some [height; uid; fld "app_uid" FUid; fld "arguments" FText; fees; fee_symbol;
                  fld "coin_symbol" FText; fld "coin_amount" u64v; sign] (* contracttx.h:136-150 *)
    | 16 => Some [height; uid; fees; fee_symbol; fld "price_points" (FList f_price_point); sign]
                                                                         (* pricefeedtx.h:27-37 *)
    | 17 => Some [height; uid; prices]                                   (* blockpricemediantx.h:109-121 *)
    | 18 => Some (base ++ [fld "coin_symbol" FText; fld "vins" (FList f_vin);
                           fld "vouts" (FList f_vout); fld "memo" FText; sign])
                                                                         (* coinutxotx.h:42-56 *)
    | 19 => Some (base ++ [fld "utxo_txid" hash256; fld "utxo_vout_index" (FNum 16);
                           fld "password_proof" hash256; sign])          (* coinutxotx.h:119-132 *)
    | 21 => Some (base ++ [fld "cdp_txid" hash256; fld "assets_to_stake" (FMap false false u64v);
                           fld "scoin_symbol" FText; fld "scoins_to_mint" u64v; sign])
                                                                         (* cdptx.h:43-57 *)
    | 22 => Some (base ++ [fld "cdp_txid" hash256; fld "scoins_to_repay" u64v;
                           fld "assets_to_redeem" (FMap false false u64v); sign])
                                                                         (* cdptx.h:96-109 *)
    | 23 => Some (base ++ [fld "cdp_txid" hash256; fld "liquidate_asset_symbol" FText;
                           fld "scoins_to_liquidate" u64v; sign])        (* cdptx.h:147-160 *)
    | 24 => Some [height; uid; fees; fld "cdp_list" (FList hash256); sign]
                                                                         (* cdptx.h:198-207 *)
    | 50 => Some (base ++ [sign])                                        (* accountpermscleartx.h:21-28 *)
    | 70 => Some [height; uid; fees; fee_symbol; fld "proposal" f_proposal; sign]
                                                                         (* proposaltx.h:27-36 *)
    | 71 => Some (base ++ [fld "proposal_id" hash256; fld "axc_signature" FBytes; sign])
                                                                         (* proposaltx.h:65-75 *)
    | 84 => Some (base ++ [fld "coin_symbol" FText; fld "asset_symbol" FText;
                           fld "asset_amount" u64v; fld "price" u64v; sign])
                                                                         (* dextx.h:112-126 *)
    | 85 => Some (base ++ [fld "coin_symbol" FText; fld "asset_symbol" FText;
                           fld "asset_amount" u64v; fld "price" u64v; sign])
                                                                         (* dextx.h:166-180 *)
    | 86 => Some (base ++ [fld "coin_symbol" FText; fld "asset_symbol" FText;
                           fld "coin_amount" u64v; sign])                (* dextx.h:220-233 *)
    | 87 => Some (base ++ [fld "coin_symbol" FText; fld "asset_symbol" FText;
                           fld "asset_amount" u64v; sign])               (* dextx.h:272-285 *)
    | 88 => Some (base ++ [fld "order_id" hash256; sign])                (* dextx.h:459-470 *)
    | 89 => Some (base ++ [fld "dealItems" (FList f_deal); sign])        (* dextx.h:521-532 *)
    | 90 => Some (base ++ order_data ++ [fld "memo" FText; sign])        (* dextx.h:340-351 *)
    | 91 => Some (base ++ order_data ++ operator_data ++
                  [fld "memo" FText; sign; fld "operator_signature" FBytes])
                                                                         (* dextx.h:421-433 *)
    | 92 => Some (base ++ [fld "data" f_dexop_data; sign])               (* dexoperatortx.h:59-69 *)
    | 93 => Some (base ++ [fld "update_data" f_dexop_update; sign])      (* dexoperatortx.h:276-285 *)
    | 100 => Some (base ++ [fld "inline_transactions" (FList f_inline);
                            fld "signatures" (FList f_signer); sign])    (* universaltx.h:48-58 *)
    | _ => None
    end.

  (** What SerializeForHash hashes after [VARINT(nVersion)] and the byte of the type. *)
  Definition hashed (t : N) : option (list item) :=
    match t with
    | 1 => Some [uid; fld "reward_fees" u64v; height]                    (* blockrewardtx.h:40-42 *)
    | 2 => Some [height; uid; fld "miner_uid" FUid; fees]                (* accountregtx.h:35-38 *)
    | 3 => Some [height; uid; fld "toUid" FUid; fees; fld "coin_amount" u64v; fld "memo" FText]
                                                                         (* cointransfertx.h:41-44 *)
    | 4 => Some [height; uid; fld "app_uid" FUid; fees; fld "coin_amount" u64v;
                 fld "arguments" FText]                                  (* contracttx.h:73-76 *)
    | 5 => Some [height; uid; fld "contract" FLua; fees]                 (* contracttx.h:37-40 *)
    | 6 => Some [height; uid; fld "candidateVotes" (FList f_vote); fees] (* delegatetx.h:35-38 *)
    | 8 => Some (base ++ [fld "stake_type" u8; fld "coin_symbol" FText;
                          fld "coin_amount" u64v])                       (* coinstaketx.h:45-48 *)
    | 9 => Some (base ++ [fld "asset" f_issued_asset])                   (* assettx.h:75-78 *)
    | 10 => Some (base ++ [fld "asset_symbol" FText; fld "update_data" f_asset_update])
                                                                         (* assettx.h:230-233 *)
    | 11 => Some (base ++ [fld "transfers" (FList f_transfer); fld "memo" FText])
                                                                         (* cointransfertx.h:93-96 *)
    | 12 => Some [uid; height; fld "coin_symbol" FText; fld "coin_amount" u64v]
                                                                         (* coinminttx.h:40-43 *)
    | 13 => Some [height; uid; fld "reward_fees" (FMap false false (FRaw 8));
                  fld "inflated_bcoins" u64v]                            (* blockrewardtx.h:86-89 *)
    | 14 => Some [height; uid; fees; fee_symbol; fld "contract" f_contract]
                                                                         (* contracttx.h:112-115 *)
    | 15 => Some [height; uid; fld "app_uid" FUid; fld "arguments" FText; fees; fee_symbol;
                  fld "coin_symbol" FText; fld "coin_amount" u64v]       (* contracttx.h:152-155 *)
    | 16 => Some [height; uid; fees; fee_symbol; fld "price_points" (FList f_price_point)]
                                                                         (* pricefeedtx.h:39-42 *)
    | 17 => Some [height; uid; prices]                                   (* blockpricemediantx.h:123-131 *)
    | 18 => Some (base ++ [fld "coin_symbol" FText; fld "vins" (FList f_vin);
                           fld "vouts" (FList f_vout); fld "memo" FText])
                                                                         (* coinutxotx.h:58-61 *)
    | 19 => Some (base ++ [fld "utxo_txid" hash256; fld "utxo_vout_index" (FRaw 2);
                           fld "password_proof" hash256])                (* coinutxotx.h:134-137 *)
    | 21 => Some (base ++ [fld "cdp_txid" hash256; fld "assets_to_stake" (FMap false false u64v);
                           fld "scoin_symbol" FText; fld "scoins_to_mint" u64v])
                                                                         (* cdptx.h:59-63 *)
    | 22 => Some (base ++ [fld "cdp_txid" hash256; fld "scoins_to_repay" u64v;
                           fld "assets_to_redeem" (FMap false false u64v)])
                                                                         (* cdptx.h:111-115 *)
    | 23 => Some (base ++ [fld "cdp_txid" hash256; fld "liquidate_asset_symbol" FText;
                           fld "scoins_to_liquidate" u64v])              (* cdptx.h:162-165 *)
    | 24 => Some [height; uid; fld "cdp_list" (FList hash256)]           (* cdptx.h:209-211 *)
    | 50 => Some base                                                    (* accountpermscleartx.h:30-33 *)
    | 70 => Some [height; uid; fees; fee_symbol; fld "proposal" f_proposal]
                                                                         (* proposaltx.h:38-41 *)
    | 71 => Some [height; uid; fees; fee_symbol; fld "proposal_id" hash256;
                  fld "axc_signature" FBytes]                            (* proposaltx.h:78-81 *)
    | 84 => Some (base ++ [fld "coin_symbol" FText; fld "asset_symbol" FText;
                           fld "asset_amount" u64v; fld "price" u64v])   (* dextx.h:128-132 *)
    | 85 => Some (base ++ [fld "coin_symbol" FText; fld "asset_symbol" FText;
                           fld "asset_amount" u64v; fld "price" u64v])   (* dextx.h:182-186 *)
    | 86 => Some (base ++ [fld "coin_symbol" FText; fld "asset_symbol" FText;
                           fld "coin_amount" u64v])                      (* dextx.h:235-238 *)
    | 87 => Some (base ++ [fld "coin_symbol" FText; fld "asset_symbol" FText;
                           fld "asset_amount" u64v])                     (* dextx.h:287-290 *)
    | 88 => Some (base ++ [fld "order_id" hash256])                      (* dextx.h:472-475 *)
    | 89 => Some (base ++ [fld "dealItems" (FList f_deal)])              (* dextx.h:534-537 *)
    | 90 => Some (base ++ order_data ++ [fld "memo" FText])              (* dextx.h:353-356 *)
    | 91 => Some (base ++ order_data ++ operator_data ++ [fld "memo" FText])
                                                                         (* dextx.h:435-438 *)
    | 92 => Some (base ++ [fld "data" f_dexop_data])                     (* dexoperatortx.h:71-74 *)
    | 93 => Some (base ++ [fld "update_data" f_dexop_update])            (* dexoperatortx.h:287-290 *)
    | 100 => Some (base ++ [fld "inline_transactions" (FList f_inline);
                            {| i_name := "signatures"; i_view := Firsts; i_on := "nVersion";
                               i_fmt := fun _ => FList u64v |}])         (* universaltx.h:60-68 *)
    | _ => None
    end.

  (** ** Transactions *)

  (** A transaction: the byte of its type and the values of its fields. *)
  Record tx := { tx_type : N; tx_get : string -> val }.

  Fixpoint write_items (g : string -> val) (l : list item) : option (list N) :=
    match l with
    | [] => Some []
    | i :: l' =>
        put s <- enc (i_fmt i (g (i_on i))) (seen (i_view i) (g (i_name i)));
        put t <- write_items g l'; Some (s ++ t)
    end.

  Definition set (g : string -> val) (n : string) (v : val) : string -> val :=
    fun m => if String.eqb m n then v else g m.

  (** The fields read so far are in [g]. *)
  Fixpoint read_items (g : string -> val) (l : list item) (s : list N) : reading (string -> val) :=
    match l with
    | [] => Got g s
    | i :: l' => get v, r <- dec (i_fmt i (g (i_on i))) s; read_items (set g (i_name i) v) l' r
    end.

  (** [CBaseTx::SerializePtr], txserializer.h:32-129. *)
  Definition write_tx (t : tx) : option (list N) :=
    put l <- wire (tx_type t);
    put a <- enc FInt (tx_get t "nVersion");
    put b <- write_items (tx_get t) l;
    Some (tx_type t :: a ++ b).

  (** [CBaseTx::UnserializePtr], txserializer.h:131-335.  The fields that the stream does not
      carry have the values of the constructor, here [VUnit]. *)
  Definition read_tx (s : list N) : reading tx :=
    get t, s1 <- of_option (read_le 1 s);
    match wire t with
    | None => Throws
    | Some l =>
        get v, s2 <- dec FInt s1;
        get g, s3 <- read_items (set (fun _ => VUnit) "nVersion" v) l s2;
        Got {| tx_type := t; tx_get := g |} s3
    end.

  (** The bytes that [GetHash] hashes, tx.h:164-171: the id of the transaction, and what its
      signatures sign. *)
  Definition preimage (t : tx) : option (list N) :=
    put l <- hashed (tx_type t);
    put a <- enc FInt (tx_get t "nVersion");
    put b <- write_items (tx_get t) l;
    Some (a ++ tx_type t :: b).

  (** ** Everything that is hashed to be signed with the keys of accounts *)

  (** The hexadecimal digits of [uint256::GetHex], uint256.cpp:19-25, and of [HexStr],
      util.h:223-235. *)
  Definition hex_digit (d : N) : N := if d <? 10 then 48 + d else 87 + d.
  Definition hex_of (b : list N) : list N :=
    flat_map (fun x => [hex_digit (x / 16); hex_digit (x mod 16)]) b.
  Definition hex_text (b : list N) : list N := hex_of (rev b).

  (** "Coin Signed Message:" and a line feed, main.cpp:73. *)
  Definition magic : list N :=
    [67; 111; 105; 110; 32; 83; 105; 103; 110; 101; 100; 32; 77; 101; 115; 115; 97; 103; 101; 58; 10].

  (** A transaction; a block header (block.h:63-70); a message of the finality protocol
      (protocol.h:328-336); a text (rpcwallet.cpp:270-275); the consent of a signer to the use
      of an output that belongs to several signers. *)
  Inductive signable :=
  | STx (t : tx)
  | SBlock (version : N) (prev merkle : list N) (time nonce height fuel_fee fuel_rate : N)
  | SVote (kind : N) (block : list N) (height : N) (miner : N * N) (prev : list N)
  | SText (text : list N)
  | SShared (txid : list N) (index : N) (keyid script : list N).

  (** [CBlockHeader::ComputeSignatureHash], block.cpp:21-25; [CPBFTMessage::GetHash],
      protocol.cpp:192-196; [signmessage], rpcwallet.cpp:270-272;
      [ComputeUtxoMultisignHash], coinutxotx.cpp:77-83. *)
  Definition hash_input (x : signable) : option (list N) :=
    match x with
    | STx t => preimage t
    | SBlock version prev merkle time nonce h fuel_fee fuel_rate =>
        Some (le_bytes 4 version ++ prev ++ merkle ++ le_bytes 4 time ++ le_bytes 4 nonce ++
              le_bytes 4 h ++ le_bytes 8 fuel_fee ++ le_bytes 4 fuel_rate)
    | SVote kind block h miner prev =>
        put m <- write_regid miner;
        Some (le_bytes 4 kind ++ block ++ le_bytes 4 h ++ m ++ prev)
    | SText text => Some (write_string magic ++ write_string text)
    | SShared txid index keyid script =>
        Some (write_string (hex_text txid) ++ le_bytes 2 index ++ write_string (hex_of keyid) ++
              write_string script)
    end.
End Layouts.
