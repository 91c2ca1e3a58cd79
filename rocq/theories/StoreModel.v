(** Model of how the records of the databases, their keys and the undo data of blocks are written
    as bytes and read back.

    Source: /repo/src/commons/serialize.h:572-589 (strings), 637-673 (vectors), 703-722 (pairs),
    820-906 (maps, sets, optional values), /repo/src/commons/leb128.h:41-64,
    /repo/src/entities/key.h:166-182, /repo/src/persistence/dbconf.h:199-267,
    /repo/src/persistence/dbaccess.h:23-300, 380-480, /repo/src/persistence/leveldbwrapper.h:28-194,
    /repo/src/persistence/blockundo.h:18-52, /repo/src/persistence/blockundo.cpp:42-98, the tables
    in /repo/src/persistence/*db.h and the IMPLEMENT_SERIALIZE, IsEmpty and SetEmpty parts of the
    classes of the records, cited below.

    The formats of transactions (WireModel.v) are used for everything that records and
    transactions have in common.  A record is a value for each of the variables of its class.

    Simplifications: LevelDB is a map from keys to values in which a batch is written as a whole;
    what it answers to a failing disk is not modelled.
    The caches in front of it are those of OrderModel.v and CrashModel.v and others; here every
    record is written at once.  A record is read into a variable that was
    just made, as all readers of these tables do.  [CUserCDP::collateral_ratio_base], which is
    computed from two other variables whenever a record is read (cdp.h:121-123), and
    [CAccount::sigHash], "in-memory only", are not part of the records.  The tables of block
    indexes and block files, which are in a database of their own (blockdb.h:55-75), are not
    included. *)
From Coq Require Import String List Bool NArith ZArith Ascii.
From Verif Require Import Prelude CodecModel WireModel DbKeyModel.
Import ListNotations.
Open Scope string_scope.
Open Scope list_scope.
Open Scope N_scope.

(** ** Formats *)

Inductive sfmt :=
| SF (f : fmt)            (* as in transactions *)
| SInt                    (* int32_t, four bytes *)
| SPub                    (* CPubKey *)
| SFixed (w : N)          (* CFixedLeb128 of [w] bits *)
| SRegKey                 (* CRegIDKey *)
| STail                   (* CDBTailKey<512>: all that is left *)
| SPair (a b : sfmt)
| SVec (a : sfmt)
| SSet (a : sfmt)
| SMap (k a : sfmt)
| SOpt (a : sfmt).        (* std::optional *)

(** The orders of the keys of sets and maps: numbers, strings, [CRegID] (id.h:73-79) and pairs of
    these, the first component first. *)
Fixpoint val_cmp (x y : val) : comparison :=
  match x, y with
  | VNum a, VNum b => N.compare a b
  | VInt a, VInt b => Z.compare a b
  | VBytes a, VBytes b => lex N.compare a b
  | VReg a, VReg b =>
      match N.compare (fst a) (fst b) with
      | Eq => N.compare (snd a) (snd b)
      | c => c
      end
  | VPair a b, VPair c d =>
      match val_cmp a c with
      | Eq => val_cmp b d
      | o => o
      end
  | _, _ => Eq
  end.

(** [set::insert] and [map::insert]: an entry whose key is present is not inserted. *)
Definition first (e : val) : val := match e with VPair k _ => k | _ => e end.
Definition itself (e : val) : val := e.
Fixpoint insert_by (key : val -> val) (e : val) (m : list val) : list val :=
  match m with
  | [] => [e]
  | x :: m' =>
      match val_cmp (key e) (key x) with
      | Lt => e :: m
      | Eq => m
      | Gt => x :: insert_by key e m'
      end
  end.
Definition fill_by (key : val -> val) (l : list val) : list val :=
  fold_left (fun m e => insert_by key e m) l [].

(** ** Writing and reading values *)

(** Public keys, key.h:166-182: [VBytes []] is a key that is not valid. *)
Definition int4 (z : Z) : list N := le_bytes 4 (Z.to_N (z mod 4294967296)).

Fixpoint senc (f : sfmt) (v : val) : option (list N) :=
  match f, v with
  | SF g, _ => enc g v
  | SInt, VInt z => Some (int4 z)
  | SPub, VBytes b => Some (write_compact (N.of_nat (length b)) ++ b)
  | SFixed w, VNum n => Some (write_fixed w n)
  | SRegKey, VReg r => Some (write_regid_key r)
  | STail, VBytes b => Some b
  | SPair a b, VPair x y => put s <- senc a x; put t <- senc b y; Some (s ++ t)
  | SVec a, VList l =>
      put s <- write_all (senc a) l; Some (write_compact (N.of_nat (length l)) ++ s)
  | SSet a, VList l =>
      put s <- write_all (senc a) l; Some (write_compact (N.of_nat (length l)) ++ s)
  | SMap k a, VList l =>
      put s <- write_all (fun e =>
        match e with
        | VPair x y => put s <- senc k x; put t <- senc a y; Some (s ++ t)
        | _ => None
        end) l;
      Some (write_compact (N.of_nat (length l)) ++ s)
  | SOpt a, VTag t x =>
      if t =? 0 then Some [0] else put s <- senc a x; Some (1 :: s)
  | _, _ => None
  end.

(** Reading.  A public key of another length than 0 and 33 is left as it was, and what should be
    its bytes is not read (key.h:172-182); a key of 33 bytes is valid if it starts with 2 or 3
    (key.h:48-97).  An optional value without a value is left as it was (serialize.h:899-906).
    Both are of variables that were just made. *)
Fixpoint sdec (f : sfmt) (s : list N) : reading val :=
  match f with
  | SF g => dec g s
  | SInt => get n, r <- of_option (read_le 4 s); Got (VInt (to_int n)) r
  | SPub =>
      get n, r <- of_option (read_compact s);
      if n =? 33 then
        get b, r2 <- of_option (take_bytes 33 r);
        Got (VBytes (match pubkey_set b with PubBytes k => k | PubInvalid => [] end)) r2
      else Got (VBytes []) r
  | SFixed w => get n, r <- of_option (read_fixed w s); Got (VNum n) r
  | SRegKey => get x, r <- of_option (read_regid_key s); Got (VReg x) r
  | STail => if N.of_nat (length s) <=? 512 then Got (VBytes s) [] else Throws
  | SPair a b => get x, r <- sdec a s; get y, r2 <- sdec b r; Got (VPair x y) r2
  | SVec a =>
      get n, r <- of_option (read_compact s);
      get l, r2 <- read_many (sdec a) (N.to_nat n) r; Got (VList l) r2
  | SSet a =>
      get n, r <- of_option (read_compact s);
      get l, r2 <- read_many (sdec a) (N.to_nat n) r; Got (VList (fill_by itself l)) r2
  | SMap k a =>
      get n, r <- of_option (read_compact s);
      get l, r2 <- read_many (fun s0 =>
        get x, s1 <- sdec k s0; get y, s2 <- sdec a s1; Got (VPair x y) s2) (N.to_nat n) r;
      Got (VList (fill_by first l)) r2
  | SOpt a =>
      get t, r <- of_option (read_le 1 s);
      if t =? 0 then Got (VTag 0 VUnit) r else get x, r2 <- sdec a r; Got (VTag 1 x) r2
  end.

(** [db_util::IsEmpty], dbaccess.h:23-243, with [uint256::IsEmpty], [CRegID::IsEmpty] (id.h:84),
    [CVarIntValue::IsEmpty] (serialize.h:437), [CFixedLeb128::IsEmpty] (leb128.h:85),
    [CDBTailKey::IsEmpty] (dbconf.h:277), [CCdpCoinPair::IsEmpty] (scoin.h:191),
    [CProposalStorageBean::IsEmpty] (proposal.h:727). *)
Fixpoint empty_val (f : sfmt) (v : val) : bool :=
  match f, v with
  | SPair a b, VPair x y => empty_val a x && empty_val b y
  | SOpt _, VTag t _ => t =? 0
  | SF (FBlob _), VBytes b => forallb (N.eqb 0) b
  | _, VNum n => n =? 0
  | _, VInt z => (z =? 0)%Z
  | _, VBytes b => match b with [] => true | _ => false end
  | _, VReg r => (fst r =? 0) && (snd r =? 0)
  | _, VList l => match l with [] => true | _ => false end
  | _, VTag t _ => t =? 0
  | _, _ => false
  end.

(** ** Records *)

Definition rec := string -> val.
Definition update (g : rec) (n : string) (v : val) : rec :=
  fun m => if String.eqb m n then v else g m.

Fixpoint write_fields (l : list (string * sfmt)) (g : rec) : option (list N) :=
  match l with
  | [] => Some []
  | (n, f) :: l' => put s <- senc f (g n); put t <- write_fields l' g; Some (s ++ t)
  end.
Fixpoint read_fields (l : list (string * sfmt)) (s : list N) (g : rec) : reading rec :=
  match l with
  | [] => Got g s
  | (n, f) :: l' => get v, r <- sdec f s; read_fields l' r (update g n v)
  end.

(** ** The tables *)

Definition s_text : sfmt := SF FText.
Definition s_hash : sfmt := SF (FBlob 32).
Definition s_keyid : sfmt := SF (FBlob 20).
Definition s_u8 : sfmt := SF (FRaw 1).
Definition s_bool : sfmt := SF FBool.
Definition s_reg : sfmt := SF FReg.
Definition s_v64 : sfmt := SF (FNum 64).
Definition s_v32 : sfmt := SF (FNum 32).
Definition s_enum : sfmt := SF (FNum 8).       (* READWRITE_ENUM(.., uint8_t), serialize.h:139 *)
Definition s_pair : sfmt := SPair s_text s_text. (* CCdpCoinPair (scoin.h:174-177), PriceCoinPair *)

Definition num0 (v : val) : bool := match v with VNum n => n =? 0 | _ => false end.
Definition text0 (v : val) : bool := match v with VBytes [] => true | _ => false end.
Definition bytes0 (v : val) : bool := match v with VBytes b => forallb (N.eqb 0) b | _ => false end.
Definition reg0 (v : val) : bool :=
  match v with VReg r => (fst r =? 0) && (snd r =? 0) | _ => false end.
Definition list0 (v : val) : bool := match v with VList [] => true | _ => false end.

(** A table: the format of its keys (none in tables of one record), the variables of its records
    in the order in which they are written, and which records are empty. *)
Record table := {
  t_key : option sfmt;
  t_fields : list (string * sfmt);
  t_empty : rec -> bool
}.
(** A table whose records are single values. *)
Definition plain (k : option sfmt) (f : sfmt) : table :=
  {| t_key := k; t_fields := [("value", f)]; t_empty := fun g => empty_val f (g "value") |}.

(** [CAsset], asset.h:99-108, 125. *)
Definition asset_fields : list (string * sfmt) :=
  [("asset_symbol", s_text); ("asset_name", s_text); ("asset_type", s_u8); ("perms_sum", s_v64);
   ("owner_regid", s_reg); ("total_supply", s_v64); ("mintable", s_bool); ("icon_url", s_text)].
(** [CAxcSwapPairStore], assetdb.h:28-40. *)
Definition axc_table : table :=
  {| t_key := Some s_text;
     t_fields := [("status", s_enum); ("peer_symbol", s_text); ("peer_chain_type", s_enum)];
     t_empty := fun g => num0 (g "status") |}.
(** [CDiskTxPos], disk.h:17-20, 43-45, 57-61. *)
Definition txpos_fields : list (string * sfmt) :=
  [("nFile", SInt); ("nPos", s_v32); ("nTxOffset", s_v32); ("tx_cord", s_reg)].
(** [CBlockInflatedReward], blockdb.h:28-31, 44-50. *)
Definition reward_fields : list (string * sfmt) :=
  [("start_height", SF (FRaw 8)); ("new_rewards", SF (FRaw 8)); ("total_minted", SF (FRaw 8));
   ("last_minted", SF (FRaw 8)); ("last_minted_height", SF (FRaw 8))].
(** [CAccountToken], account.h:86-92; [CAccount], account.h:157-167, 190. *)
Definition s_token : sfmt := SPair s_v64 (SPair s_v64 (SPair s_v64 (SPair s_v64 s_v64))).
Definition account_fields : list (string * sfmt) :=
  [("keyid", s_keyid); ("regid", s_reg); ("owner_pubkey", SPub); ("miner_pubkey", SPub);
   ("tokens", SMap s_text s_token); ("received_votes", s_v64); ("last_vote_height", s_v64);
   ("last_vote_epoch", s_v64); ("perms_sum", s_v64)].
(** [CUniversalContractStore], contract.h:146-164. *)
Definition contract_fields : list (string * sfmt) :=
  [("vm_type", s_u8); ("maintainer", s_reg); ("upgradable", s_bool); ("code", s_text);
   ("abi", s_text); ("memo", s_text); ("code_hash", s_hash)].
(** [CAppCFund] and [CAppUserAccount], appaccount.h:44-48, 153-157, 166. *)
Definition s_fund : sfmt := SPair s_v64 (SPair (SF FInt) (SF FBytes)).
Definition app_account_fields : list (string * sfmt) :=
  [("bcoins", s_v64); ("user_id", s_text); ("frozen_funds", SVec s_fund)].
(** [VoteDelegate], [PendingDelegates] and [CCandidateReceivedVote], vote.h:138-141, 176-179,
    203-207, 229-231. *)
Definition s_delegate : sfmt := SPair s_reg s_v64.
Definition pending_fields : list (string * sfmt) :=
  [("state", s_u8); ("counted_vote_height", s_v32); ("top_vote_delegates", SVec s_delegate)].
Definition s_received : sfmt := SPair (SF FUid) s_v64.
(** [CUserCDP], cdp.h:113-124, 156; [CCdpBcoinDetail], cdp.h:40-43, 49; [CCdpGlobalData],
    cdp.h:178-185. *)
Definition cdp_table (k : sfmt) : table :=
  {| t_key := Some k;
     t_fields := [("cdpid", s_hash); ("owner_regid", s_reg); ("block_height", SF FInt);
                  ("bcoin_symbol", s_text); ("scoin_symbol", s_text);
                  ("total_staked_bcoins", s_v64); ("total_owed_scoins", s_v64)];
     t_empty := fun g => bytes0 (g "cdpid") |}.
(** [COrderOperatorParams] and [CDEXOrderDetail], dexorder.h:93-97, 126-147. *)
Definition s_operator_params : sfmt := SPair s_enum (SPair s_v64 s_v64).
Definition order_table (k : sfmt) : table :=
  {| t_key := Some k;
     t_fields := [("generate_type", s_u8); ("order_type", s_u8); ("order_side", s_u8);
                  ("coin_symbol", s_text); ("asset_symbol", s_text); ("coin_amount", s_v64);
                  ("asset_amount", s_v64); ("price", s_v64); ("dex_id", s_v32);
                  ("opt_operator_params", SOpt s_operator_params); ("tx_cord", s_reg);
                  ("user_regid", s_reg); ("total_deal_coin_amount", s_v64);
                  ("total_deal_asset_amount", s_v64); ("order_src.src_type", s_text);
                  ("order_src.src_id", s_hash)];
     t_empty := fun g => num0 (g "generate_type") |}.
(** [DexOperatorDetail], dexorder.h:195-211. *)
Definition operator_fields : list (string * sfmt) :=
  [("owner_regid", s_reg); ("fee_receiver_regid", s_reg); ("name", s_text);
   ("portal_url", s_text); ("order_open_mode", s_enum); ("maker_fee_ratio", s_v64);
   ("taker_fee_ratio", s_v64); ("order_open_dexop_set", SSet s_v64); ("activated", s_bool);
   ("memo", s_text)].
(** [CReceipt], receipt.h:132-140. *)
Definition s_receipt : sfmt :=
  SPair (SF (FRaw 2)) (SPair s_u8 (SPair (SF FUid) (SPair (SF FUid) (SPair s_text s_v64)))).

(** The tables by the number of their prefix (DbKeyModel.v). *)
Definition tables (p : nat) : option table :=
  match p with
  | 1 => Some (plain (Some s_u8) s_v64)                                    (* sysparamdb.h:290 *)
  | 2 => Some (plain (Some (SPair s_u8 s_text)) s_v64)                     (* sysparamdb.h:291 *)
  | 3 => Some (plain (Some (SPair s_pair s_u8)) s_v64)                     (* sysparamdb.h:292 *)
  | 4 => Some (plain (Some s_pair) (SMap (SF FInt) (SPair s_v64 s_v64)))   (* sysparamdb.h:22-25, 34, 294 *)
  | 5 => Some (plain None s_u8)                                            (* sysparamdb.h:295 *)
  | 6 => Some (plain None (SPair s_v32 s_u8))                              (* sysparamdb.h:296 *)
  | 7 => Some (plain None (SSet s_reg))                                    (* sysgoverndb.h:145 *)
  | 8 => Some (plain (Some s_hash) (SF f_proposal))                        (* sysgoverndb.h:151 *)
  | 9 => Some (plain (Some s_hash) (SVec s_reg))                           (* sysgoverndb.h:153 *)
  | 11 => Some {| t_key := Some s_text; t_fields := asset_fields;
                  t_empty := fun g => text0 (g "asset_symbol") |}          (* assetdb.h:65 *)
  | 12 => Some axc_table                                                   (* assetdb.h:155 *)
  | 13 => Some axc_table                                                   (* assetdb.h:158 *)
  | 16 => Some (plain None SInt)                                           (* blockdb.h:169 *)
  | 17 => Some (plain None s_bool)                                         (* blockdb.h:170 *)
  | 18 => Some (plain None (SPair SInt s_hash))                            (* blockdb.h:171 *)
  | 19 => Some (plain (Some s_text) s_bool)                                (* blockdb.h:164 *)
  | 20 => Some (plain None s_hash)                                         (* blockdb.h:168 *)
  | 21 => Some {| t_key := Some s_hash; t_fields := txpos_fields;
                  t_empty := fun g => match g "nFile" with VInt z => (z =? -1)%Z | _ => false end |}
                                                                           (* blockdb.h:162 *)
  | 22 => Some {| t_key := None; t_fields := reward_fields;
                  t_empty := fun g => forallb (fun n => num0 (g n))
                    ["start_height"; "new_rewards"; "total_minted"; "last_minted";
                     "last_minted_height"] |}                              (* blockdb.h:172 *)
  | 23 => Some (plain (Some SRegKey) s_keyid)                              (* accountdb.h:101 *)
  | 24 => Some {| t_key := Some s_keyid; t_fields := account_fields;
                  t_empty := fun g => bytes0 (g "keyid") |}                (* accountdb.h:103 *)
  | 25 => Some {| t_key := Some SRegKey; t_fields := contract_fields;
                  t_empty := fun g => num0 (g "vm_type") && reg0 (g "maintainer") &&
                    text0 (g "code") && text0 (g "abi") && text0 (g "memo") |}
                                                                           (* contractdb.h:128 *)
  | 26 => Some (plain (Some (SPair SRegKey STail)) s_text)                 (* contractdb.h:37 *)
  | 27 => Some {| t_key := Some (SPair SRegKey s_text); t_fields := app_account_fields;
                  t_empty := fun g => text0 (g "user_id") |}               (* contractdb.h:134 *)
  | 28 => Some (plain (Some s_hash) s_text)                                (* contractdb.h:137 *)
  | 29 => Some (plain (Some (SPair (SFixed 64) (SF FBytes))) s_u8)         (* delegatedb.h:28 *)
  | 30 => Some (plain None s_v32)                                          (* delegatedb.h:119 *)
  | 31 => Some {| t_key := None; t_fields := pending_fields;
                  t_empty := fun g => num0 (g "state") && num0 (g "counted_vote_height") &&
                    list0 (g "top_vote_delegates") |}                      (* delegatedb.h:120 *)
  | 32 => Some (plain None (SVec s_delegate))                              (* delegatedb.h:121 *)
  | 33 => Some (plain (Some SRegKey) (SVec s_received))                    (* delegatedb.h:117 *)
  | 34 => Some (cdp_table s_hash)                                          (* cdpdb.h:103 *)
  | 35 => Some {| t_key := Some s_text; t_fields := [("status", s_enum); ("init_tx_cord", s_reg)];
                  t_empty := fun g => num0 (g "status") |}                 (* cdpdb.h:105 *)
  | 36 => Some (plain (Some (SPair SRegKey s_pair)) (SOpt s_hash))         (* cdpdb.h:107 *)
  | 37 => Some (cdp_table (SPair s_pair (SPair (SFixed 64) (SPair (SFixed 64) s_hash))))
                                                                           (* cdpdb.h:26 *)
  | 38 => Some (cdp_table (SPair s_pair (SPair (SFixed 64) s_hash)))       (* cdpdb.h:29 *)
  | 39 => Some {| t_key := Some s_pair;
                  t_fields := [("total_staked_assets", s_v64); ("total_owed_scoins", s_v64)];
                  t_empty := fun g => num0 (g "total_staked_assets") &&
                    num0 (g "total_owed_scoins") |}                        (* cdpdb.h:101 *)
  | 40 => Some (plain (Some s_hash) (SPair s_hash s_u8))                   (* cdpdb.h:172 *)
  | 41 => Some (plain (Some s_hash) (SPair s_hash s_u8))                   (* cdpdb.h:174 *)
  | 42 => Some (order_table s_hash)                                        (* dexdb.h:132 *)
  | 43 => Some (order_table (SPair (SFixed 32) (SPair s_u8 s_hash)))       (* dexdb.h:26 *)
  | 44 => Some (plain None s_v32)                                          (* dexdb.h:136 *)
  | 45 => Some {| t_key := Some (SOpt s_v32); t_fields := operator_fields;
                  t_empty := fun g => reg0 (g "owner_regid") && reg0 (g "fee_receiver_regid") &&
                    text0 (g "name") && text0 (g "portal_url") && num0 (g "maker_fee_ratio") &&
                    num0 (g "taker_fee_ratio") && text0 (g "memo") |}      (* dexdb.h:134 *)
  | 46 => Some (plain (Some SRegKey) (SOpt s_v32))                         (* dexdb.h:135 *)
  | 49 => Some (plain (Some (SPair (SFixed 32) s_hash)) (SPair s_u8 s_text)) (* logdb.h:48 *)
  | 50 => Some (plain (Some s_hash) (SVec s_receipt))                      (* txreceiptdb.h:57 *)
  | 51 => Some (plain (Some s_hash) (SVec s_receipt))                      (* txreceiptdb.h:58 *)
  | 52 => Some (plain (Some (SPair s_hash (SFixed 16))) s_u8)              (* txutxodb.h:65 *)
  | 53 => Some (plain (Some (SPair s_hash (SPair (SFixed 16) SRegKey))) s_hash)
                                                                           (* txutxodb.h:68 *)
  | 54 => Some (plain None (SMap s_pair (SPair s_v64 s_v32)))              (* price.h:77-80, pricefeeddb.h:141 *)
  | 55 => Some (plain None (SSet s_pair))                                  (* pricefeeddb.h:139 *)
  | 57 => Some (plain (Some (SPair s_u8 s_text)) s_v64)                    (* axcdb.h:76 *)
  | _ => None
  end%nat.

(** ** The databases *)

(** Keys in a database are byte strings (DbKeyModel.v). *)
Fixpoint str (s : list N) : string :=
  match s with
  | [] => EmptyString
  | b :: s' => String (ascii_of_N b) (str s')
  end.

Definition disk := dbname -> string -> option (list N).
Definition no_data : disk := fun _ _ => None.
Definition set_at (d : disk) (n : dbname) (k : string) (x : option (list N)) : disk :=
  fun m j => if dbname_eqb m n && String.eqb j k then x else d m j.

(** The bytes of a key; a table of one record has the empty key. *)
Definition key_bytes (t : table) (key : val) : option (list N) :=
  match t_key t with
  | Some f => senc f key
  | None => Some []
  end.
Definition key_empty (t : table) (key : val) : bool :=
  match t_key t with
  | Some f => empty_val f key
  | None => false
  end.

(** Storing a record: [SetData], dbaccess.h:406-424, refuses empty keys; what it put into the cache
    is written by [Flush], dbaccess.h:451-473, and [CDBAccess::WriteBatch], dbaccess.h:310-320.
    [None]: an exception. *)
Definition store (p : nat) (key : val) (g : rec) (d : disk) : option disk :=
  match tables p with
  | None => None
  | Some t =>
      if key_empty t key then Some d
      else
        put k <- key_bytes t key;
        let at_ := gen_db_key p (str k) in
        if t_empty t g then Some (set_at d (prefix_db p) at_ None)
        else put s <- write_fields (t_fields t) g; Some (set_at d (prefix_db p) at_ (Some s))
  end.

(** Looking a record up: [GetData], dbaccess.h:394-404, [GetDataIt], 505-525, and
    [CLevelDBWrapper::Read], leveldbwrapper.h:176-194: a record that cannot be read is not found.
    [fresh] is the variable that is read into. *)
Inductive found :=
| Found (g : rec)
| NotFound
| Undefined.
Definition fetch (p : nat) (key : val) (fresh : rec) (d : disk) : found :=
  match tables p with
  | None => NotFound
  | Some t =>
      if key_empty t key then NotFound
      else
        match key_bytes t key with
        | None => NotFound
        | Some k =>
            match d (prefix_db p) (gen_db_key p (str k)) with
            | None => NotFound
            | Some s =>
                match read_fields (t_fields t) s fresh with
                | Got g _ => if t_empty t g then NotFound else Found g
                | Throws => NotFound
                | Undef => Undefined
                end
            end
        end
  end.

(** ** Undo data *)

(** [CDbOpLog::Set], leveldbwrapper.h:28-48: the bytes of a key and of the record that was
    replaced, in an entry of two strings, and [CDbOpLog::Get], 50-66. *)
Definition log_entry (p : nat) (key : val) (g : rec) : option (list N * list N) :=
  match tables p with
  | None => None
  | Some t => put k <- key_bytes t key; put s <- write_fields (t_fields t) g; Some (k, s)
  end.
Definition read_entry (p : nat) (e : list N * list N) (fresh : rec) : reading (val * rec) :=
  match tables p with
  | None => Throws
  | Some t =>
      get key, r <- match t_key t with Some f => sdec f (fst e) | None => Got VUnit (fst e) end;
      get g, r2 <- read_fields (t_fields t) (snd e) fresh; Got (key, g) []
  end.

(** [CTxUndo] and [CBlockUndo], blockundo.h:23-26, 49-51, with [CDBOpLogMap] and [CDbOpLog],
    leveldbwrapper.h:69-72, 111-113. *)
Definition s_undo : sfmt :=
  SVec (SPair s_hash (SMap s_text (SVec (SPair s_text s_text)))).

Fixpoint same_bytes (a b : list N) : bool :=
  match a, b with
  | [], [] => true
  | x :: a', y :: b' => (x =? y) && same_bytes a' b'
  | _, _ => false
  end.

Section Undo.
  (** SHA-256 twice. *)
  Variable hash : list N -> list N.

  (** What [CBlockUndo::WriteToDisk], blockundo.cpp:42-72, puts into the file from the position
      that it returns: the undo data and a checksum of them and of [owner], the hash of the
      preceding block. *)
  Definition undo_bytes (owner : list N) (u : val) : option (list N) :=
    put s <- senc s_undo u; Some (s ++ hash (owner ++ s)).

  (** [CBlockUndo::ReadFromDisk], blockundo.cpp:74-98, of the bytes from a position; [Throws] is
      the answer "false". *)
  Definition read_undo (owner : list N) (s : list N) : reading val :=
    get u, r <- sdec s_undo s;
    get c, r2 <- of_option (take_bytes 32 r);
    match senc s_undo u with
    | Some t => if same_bytes c (hash (owner ++ t)) then Got u r2 else Throws
    | None => Throws
    end.
End Undo.
