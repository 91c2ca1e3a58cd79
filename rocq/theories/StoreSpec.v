(** What it means for records to be kept, independently of the functions that write and read them,
    of their formats and of the tables of StoreModel.v: the types of the variables of the classes,
    as they are declared. *)
From Coq Require Import String List Bool NArith ZArith Sorting.Sorted.
From Verif Require Import Prelude CodecModel CodecSpec WireModel WireSpec DbKeyModel StoreModel.
Import ListNotations.
Open Scope string_scope.
Open Scope list_scope.
Open Scope N_scope.

(** ** Values *)

(** The types of the variables of records and of keys. *)
Inductive stype :=
| TKind (k : kind)             (* as in transactions *)
| TPub                         (* CPubKey *)
| TTail                        (* a string of at most 512 bytes *)
| TSigned                      (* int32_t, any value *)
| TPair (a b : stype)
| TVec (a : stype)
| TSet (a : stype)
| TMap (k a : stype)
| TOpt (a : stype).

(** The order of the keys of sets and maps. *)
Inductive below : val -> val -> Prop :=
| below_num a b : a < b -> below (VNum a) (VNum b)
| below_int a b : (a < b)%Z -> below (VInt a) (VInt b)
| below_bytes a b : byte_order a b = Lt -> below (VBytes a) (VBytes b)
| below_height a b i j : a < b -> below (VReg (a, i)) (VReg (b, j))
| below_index a i j : i < j -> below (VReg (a, i)) (VReg (a, j))
| below_left a b x y : below a b -> below (VPair a x) (VPair b y)
| below_right a x y : below x y -> below (VPair a x) (VPair a y).

(** The values that a variable of a type can hold, within the limits of WireSpec.v, without
    invalid public keys in user ids and without negative heights. *)
Fixpoint of_type (t : stype) (v : val) : Prop :=
  match t, v with
  | TKind k, _ => holds k v /\ keys_valid v /\ nonneg v
  | TPub, VBytes b => b = [] \/ ((exists r, b = 2 :: r \/ b = 3 :: r) /\ length b = 33%nat)
  | TTail, VBytes b => N.of_nat (length b) <= 512 /\ bytes b
  | TSigned, VInt z => (-2147483648 <= z < 2147483648)%Z
  | TPair a b, VPair x y => of_type a x /\ of_type b y
  | TVec a, VList l => N.of_nat (length l) <= 33554432 /\ forall x, In x l -> of_type a x
  | TSet a, VList l => N.of_nat (length l) <= 33554432 /\ StronglySorted below l /\
      forall x, In x l -> of_type a x
  | TMap k a, VList l => N.of_nat (length l) <= 33554432 /\
      StronglySorted (fun x y => below (first x) (first y)) l /\
      forall e, In e l -> exists x y, e = VPair x y /\ of_type k x /\ of_type a y
  | TOpt a, VTag t x => (t = 0 /\ x = VUnit) \/ (t = 1 /\ of_type a x)
  | _, _ => False
  end.

(** ** Classes *)

Definition y_text : stype := TKind KText.
Definition y_hash : stype := TKind (KFixed 32).
Definition y_keyid : stype := TKind (KFixed 20).
Definition y_u8 : stype := TKind (KNum 8).
Definition y_u16 : stype := TKind (KNum 16).
Definition y_u32 : stype := TKind (KNum 32).
Definition y_u64 : stype := TKind (KNum 64).
Definition y_height : stype := TKind KInt.
Definition y_bool : stype := TKind KBool.
Definition y_reg : stype := TKind KReg.
Definition y_uid : stype := TKind KUid.
Definition y_coins : stype := TPair y_text y_text.
Fixpoint fields (l : list stype) : stype :=
  match l with
  | [] => TKind KNothing
  | [t] => t
  | t :: l' => TPair t (fields l')
  end.

(** The variables of the classes of records, as the classes declare them. *)
Definition m_asset : list (string * stype) :=                             (* asset.h:82-89 *)
  [("asset_symbol", y_text); ("asset_name", y_text); ("asset_type", y_u8); ("perms_sum", y_u64);
   ("owner_regid", y_reg); ("total_supply", y_u64); ("mintable", y_bool); ("icon_url", y_text)].
Definition m_axc : list (string * stype) :=                               (* assetdb.h:24-26 *)
  [("status", y_u8); ("peer_symbol", y_text); ("peer_chain_type", y_u8)].
Definition m_txpos : list (string * stype) :=                             (* disk.h:14-15, 54-55 *)
  [("nFile", TSigned); ("nPos", y_u32); ("nTxOffset", y_u32); ("tx_cord", y_reg)].
Definition m_reward : list (string * stype) :=                            (* blockdb.h:20-24 *)
  [("start_height", y_u64); ("new_rewards", y_u64); ("total_minted", y_u64);
   ("last_minted", y_u64); ("last_minted_height", y_u64)].
Definition m_account : list (string * stype) :=                           (* account.h:72-76, 102-119 *)
  [("keyid", y_keyid); ("regid", y_reg); ("owner_pubkey", TPub); ("miner_pubkey", TPub);
   ("tokens", TMap y_text (fields [y_u64; y_u64; y_u64; y_u64; y_u64]));
   ("received_votes", y_u64); ("last_vote_height", y_u64); ("last_vote_epoch", y_u64);
   ("perms_sum", y_u64)].
Definition m_contract : list (string * stype) :=                          (* contract.h:135-141 *)
  [("vm_type", y_u8); ("maintainer", y_reg); ("upgradable", y_bool); ("code", y_text);
   ("abi", y_text); ("memo", y_text); ("code_hash", y_hash)].
Definition m_app_account : list (string * stype) :=                       (* appaccount.h:51-53, 170-172 *)
  [("bcoins", y_u64); ("user_id", y_text);
   ("frozen_funds", TVec (fields [y_u64; y_height; TKind KBytes]))].
Definition m_pending : list (string * stype) :=                           (* vote.h:170-171, 199-201 *)
  [("state", y_u8); ("counted_vote_height", y_u32);
   ("top_vote_delegates", TVec (fields [y_reg; y_u64]))].
Definition m_cdp : list (string * stype) :=                               (* cdp.h:67-73 *)
  [("cdpid", y_hash); ("owner_regid", y_reg); ("block_height", y_height);
   ("bcoin_symbol", y_text); ("scoin_symbol", y_text); ("total_staked_bcoins", y_u64);
   ("total_owed_scoins", y_u64)].
Definition m_bcoin : list (string * stype) :=                             (* cdp.h:37-38 *)
  [("status", y_u8); ("init_tx_cord", y_reg)].
Definition m_global : list (string * stype) :=                            (* cdp.h:175-176 *)
  [("total_staked_assets", y_u64); ("total_owed_scoins", y_u64)].
Definition m_order : list (string * stype) :=                             (* dexorder.h:89-91, 104-123 *)
  [("generate_type", y_u8); ("order_type", y_u8); ("order_side", y_u8); ("coin_symbol", y_text);
   ("asset_symbol", y_text); ("coin_amount", y_u64); ("asset_amount", y_u64); ("price", y_u64);
   ("dex_id", y_u32); ("opt_operator_params", TOpt (fields [y_u8; y_u64; y_u64]));
   ("tx_cord", y_reg); ("user_regid", y_reg); ("total_deal_coin_amount", y_u64);
   ("total_deal_asset_amount", y_u64); ("order_src.src_type", y_text);
   ("order_src.src_id", y_hash)].
Definition m_operator : list (string * stype) :=                          (* dexorder.h:182-191 *)
  [("owner_regid", y_reg); ("fee_receiver_regid", y_reg); ("name", y_text);
   ("portal_url", y_text); ("order_open_mode", y_u8); ("maker_fee_ratio", y_u64);
   ("taker_fee_ratio", y_u64); ("order_open_dexop_set", TSet y_u64); ("memo", y_text);
   ("activated", y_bool)].
Definition y_receipts : stype :=                                          (* receipt.h:115-120 *)
  TVec (fields [y_u16; y_u8; y_uid; y_uid; y_text; y_u64]).

(** The tables: the type of the keys, the variables of the records. *)
Definition one (t : stype) : list (string * stype) := [("value", t)].
Definition contents (p : nat) : option (option stype * list (string * stype)) :=
  match p with
  | 1 => Some (Some y_u8, one y_u64)
  | 2 => Some (Some (fields [y_u8; y_text]), one y_u64)
  | 3 => Some (Some (fields [y_coins; y_u8]), one y_u64)
  | 4 => Some (Some y_coins, one (TMap y_height (fields [y_u64; y_u64])))
  | 5 => Some (None, one y_u8)
  | 6 => Some (None, one (fields [y_u32; y_u8]))
  | 7 => Some (None, one (TSet y_reg))
  | 8 => Some (Some y_hash, one (TKind k_proposal))
  | 9 => Some (Some y_hash, one (TVec y_reg))
  | 11 => Some (Some y_text, m_asset)
  | 12 | 13 => Some (Some y_text, m_axc)
  | 16 => Some (None, one TSigned)
  | 17 => Some (None, one y_bool)
  | 18 => Some (None, one (fields [TSigned; y_hash]))
  | 19 => Some (Some y_text, one y_bool)
  | 20 => Some (None, one y_hash)
  | 21 => Some (Some y_hash, m_txpos)
  | 22 => Some (None, m_reward)
  | 23 => Some (Some y_reg, one y_keyid)
  | 24 => Some (Some y_keyid, m_account)
  | 25 => Some (Some y_reg, m_contract)
  | 26 => Some (Some (fields [y_reg; TTail]), one y_text)
  | 27 => Some (Some (fields [y_reg; y_text]), m_app_account)
  | 28 => Some (Some y_hash, one y_text)
  | 29 => Some (Some (fields [y_u64; TKind KBytes]), one y_u8)
  | 30 => Some (None, one y_u32)
  | 31 => Some (None, m_pending)
  | 32 => Some (None, one (TVec (fields [y_reg; y_u64])))
  | 33 => Some (Some y_reg, one (TVec (fields [y_uid; y_u64])))
  | 34 => Some (Some y_hash, m_cdp)
  | 35 => Some (Some y_text, m_bcoin)
  | 36 => Some (Some (fields [y_reg; y_coins]), one (TOpt y_hash))
  | 37 => Some (Some (fields [y_coins; y_u64; y_u64; y_hash]), m_cdp)
  | 38 => Some (Some (fields [y_coins; y_u64; y_hash]), m_cdp)
  | 39 => Some (Some y_coins, m_global)
  | 40 | 41 => Some (Some y_hash, one (fields [y_hash; y_u8]))
  | 42 => Some (Some y_hash, m_order)
  | 43 => Some (Some (fields [y_u32; y_u8; y_hash]), m_order)
  | 44 => Some (None, one y_u32)
  | 45 => Some (Some (TOpt y_u32), m_operator)
  | 46 => Some (Some y_reg, one (TOpt y_u32))
  | 49 => Some (Some (fields [y_u32; y_hash]), one (fields [y_u8; y_text]))
  | 50 | 51 => Some (Some y_hash, one y_receipts)
  | 52 => Some (Some (fields [y_hash; y_u16]), one y_u8)
  | 53 => Some (Some (fields [y_hash; y_u16; y_reg]), one y_hash)
  | 54 => Some (None, one (TMap y_coins (fields [y_u64; y_u32])))
  | 55 => Some (None, one (TSet y_coins))
  | 57 => Some (Some (fields [y_u8; y_text]), one y_u64)
  | _ => None
  end%nat.

(** A key of a table; a table of one record has none, for which nothing stands. *)
Definition key_ok (p : nat) (key : val) : Prop :=
  exists k ms, contents p = Some (k, ms) /\
    match k with
    | Some t => of_type t key
    | None => key = VUnit
    end.

(** A record of a table, and two records that are the same. *)
Definition record_ok (p : nat) (g : rec) : Prop :=
  exists k ms, contents p = Some (k, ms) /\ forall n t, In (n, t) ms -> of_type t (g n).
Definition same_record (p : nat) (g h : rec) : Prop :=
  exists k ms, contents p = Some (k, ms) /\ forall n t, In (n, t) ms -> g n = h n.

(** ** What is kept *)

(** A value that is the one of its type that stands for nothing: 0, false, an empty string, a
    hash of zeros, an empty vector or set, no value. *)
Fixpoint blank (t : stype) (v : val) : Prop :=
  match t, v with
  | TKind (KFixed _), VBytes b => Forall (fun x => x = 0) b
  | TKind (KOneOf _), VTag n _ => n = 0
  | TPair a b, VPair x y => blank a x /\ blank b y
  | TOpt _, VTag n _ => n = 0
  | _, VNum n => n = 0
  | _, VInt z => z = 0%Z
  | _, VBytes b => b = []
  | _, VReg r => r = (0, 0)
  | _, VList l => l = []
  | _, _ => False
  end.

(** The keys and records that a table does not keep. *)
Definition blank_key (p : nat) (key : val) : Prop :=
  exists t ms, contents p = Some (Some t, ms) /\ blank t key.
Definition all_blank (p : nat) (g : rec) (names : list string) : Prop :=
  exists k ms, contents p = Some (k, ms) /\
    forall n t, In n names -> In (n, t) ms -> blank t (g n).
Definition blank_record (p : nat) (g : rec) : Prop :=
  match p with
  | 11%nat => all_blank p g ["asset_symbol"]
  | 12%nat | 13%nat | 35%nat => all_blank p g ["status"]
  | 21%nat => g "nFile" = VInt (-1)
  | 24%nat => all_blank p g ["keyid"]
  | 25%nat => all_blank p g ["vm_type"; "maintainer"; "code"; "abi"; "memo"]
  | 27%nat => all_blank p g ["user_id"]
  | 34%nat | 37%nat | 38%nat => all_blank p g ["cdpid"]
  | 42%nat | 43%nat => all_blank p g ["generate_type"]
  | 45%nat => all_blank p g ["owner_regid"; "fee_receiver_regid"; "name"; "portal_url";
                            "maker_fee_ratio"; "taker_fee_ratio"; "memo"]
  | _ => exists k ms, contents p = Some (k, ms) /\ forall n t, In (n, t) ms -> blank t (g n)
  end.

(** A history: the records that were stored, the latest first, and whether the latest one under a
    key is [g]. *)
Definition history := list (nat * val * rec).
Inductive latest : history -> nat -> val -> rec -> Prop :=
| latest_here h p key g : latest ((p, key, g) :: h) p key g
| latest_before h p key g q k r : (p, key) <> (q, k) -> latest h p key g ->
    latest ((q, k, r) :: h) p key g.
Inductive stored : history -> disk -> Prop :=
| stored_none : stored [] no_data
| stored_more h d p key g d' : stored h d -> store p key g d = Some d' ->
    stored ((p, key, g) :: h) d'.
Definition history_ok (h : history) : Prop :=
  forall p key g, In (p, key, g) h -> key_ok p key /\ record_ok p g.

(** ** Undo data *)

(** Undo data of a block: for each transaction its hash and, by the name of the table, the keys
    and records that it replaced. *)
Definition y_undo : stype := TVec (TPair y_hash (TMap y_text (TVec (TPair y_text y_text)))).

(** ** Records and keys for examples *)

Fixpoint holding (l : list (string * val)) : rec :=
  match l with
  | [] => fun _ => VUnit
  | (n, v) :: l' => fun m => if String.eqb m n then v else holding l' m
  end.
Definition wicc : list N := [87; 73; 67; 67].
Definition wusd : list N := [87; 85; 83; 68].
Definition some_hash : list N := List.repeat 7 32.
Definition some_keyid : list N := List.repeat 5 20.
Definition token (a b c d e : N) : val :=
  VPair (VNum a) (VPair (VNum b) (VPair (VNum c) (VPair (VNum d) (VNum e)))).
Definition some_account : rec := holding
  [("keyid", VBytes some_keyid); ("regid", VReg (1200, 3)); ("owner_pubkey", VBytes (2 :: List.repeat 9 32));
   ("miner_pubkey", VBytes []);
   ("tokens", VList [VPair (VBytes wicc) (token 900 0 0 25 0); VPair (VBytes wusd) (token 70 1 2 3 4)]);
   ("received_votes", VNum 25); ("last_vote_height", VNum 1190); ("last_vote_epoch", VNum 0);
   ("perms_sum", VNum 18446744073709551615)].
Definition coin_key : val := VPair (VBytes wicc) (VBytes wusd).
Definition totals (staked owed : N) : rec :=
  holding [("total_staked_assets", VNum staked); ("total_owed_scoins", VNum owed)].
Definition cdp_at (height : Z) : rec := holding
  [("cdpid", VBytes some_hash); ("owner_regid", VReg (1200, 3)); ("block_height", VInt height);
   ("bcoin_symbol", VBytes wicc); ("scoin_symbol", VBytes wusd);
   ("total_staked_bcoins", VNum 500); ("total_owed_scoins", VNum 20)].
Definition open_operator : rec := holding
  [("owner_regid", VReg (0, 0)); ("fee_receiver_regid", VReg (0, 0)); ("name", VBytes []);
   ("portal_url", VBytes []); ("order_open_mode", VNum 1); ("maker_fee_ratio", VNum 0);
   ("taker_fee_ratio", VNum 0); ("order_open_dexop_set", VList [VNum 1; VNum 8]); ("memo", VBytes []);
   ("activated", VNum 1)].
Definition text_record (b : list N) : rec := holding [("value", VBytes b)].
(** Undo data of a block with one transaction that replaced one record of one table. *)
Definition one_undo (txid name : list N) (e : list N * list N) : val :=
  VList [VPair (VBytes txid) (VList [VPair (VBytes name) (VList [VPair (VBytes (fst e)) (VBytes (snd e))])])].
