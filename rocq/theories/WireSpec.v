(** What it means for the bytes of a transaction to be right, independently of the functions
    that write and read them and of the layouts. *)
From Coq Require Import String List Bool NArith ZArith Sorting.Sorted.
From Verif Require Import Prelude CodecModel CodecSpec WireModel.
Import ListNotations.
Open Scope string_scope.
Open Scope list_scope.
Open Scope N_scope.

(** ** Values *)

(** A user id that a variable of the program can hold; public keys may be invalid. *)
Definition uid_value (u : userid) : Prop :=
  match u with
  | IdPub PubInvalid => True
  | _ => userid_ok u
  end.

(** The entries of a map are listed in the order of their keys. *)
Definition in_key_order (l : list val) : Prop :=
  StronglySorted (fun a b => key_cmp a b = Lt) l.

(** The types of the variables of transactions.  Structures are pairs, nested to the right;
    [KOneOf] is a tag and a value of the type that the tag stands for; [KNothing] is a place
    that holds nothing. *)
Inductive kind :=
| KNothing
| KNum (bits : N)                    (* an unsigned number *)
| KInt                               (* int32_t *)
| KBool
| KFixed (len : nat)                 (* so many bytes *)
| KBytes                             (* vector<unsigned char>, vector<char> *)
| KText                              (* std::string *)
| KUid
| KReg
| KPair (a b : kind)
| KVec (a : kind)
| KMap (key a : kind)
| KOneOf (k : N -> kind)
| KNever.

(** The values that a variable of a type can hold, within the limits on the lengths of strings
    (4,000,000) and vectors (33,554,432) that readers accept (serialize.h:35, 282, 580-589). *)
Fixpoint holds (k : kind) (v : val) : Prop :=
  match k, v with
  | KNothing, VUnit => True
  | KNum bits, VNum n => n < 2 ^ bits
  | KInt, VInt z => (-2147483648 <= z < 2147483648)%Z
  | KBool, VNum n => n < 2
  | KFixed len, VBytes b => length b = len /\ bytes b
  | KBytes, VBytes b => N.of_nat (length b) <= 33554432 /\ bytes b
  | KText, VBytes b => N.of_nat (length b) <= 4000000 /\ bytes b
  | KUid, VUid u => uid_value u
  | KReg, VReg r => regid_ok r
  | KPair a b, VPair x y => holds a x /\ holds b y
  | KVec a, VList l => N.of_nat (length l) <= 33554432 /\ forall x, In x l -> holds a x
  | KMap key a, VList l => N.of_nat (length l) <= 33554432 /\ in_key_order l /\
      forall e, In e l -> exists x y, e = VPair x y /\ holds key x /\ holds a y
  | KOneOf f, VTag t x => t < 256 /\ holds (f t) x
  | _, _ => False
  end.

(** No invalid public key in a value. *)
Fixpoint keys_valid (v : val) : Prop :=
  match v with
  | VUid (IdPub PubInvalid) => False
  | VPair a b => keys_valid a /\ keys_valid b
  | VList l => fold_right (fun x p => keys_valid x /\ p) True l
  | VTag _ x => keys_valid x
  | _ => True
  end.

(** No negative number in a value. *)
Fixpoint nonneg (v : val) : Prop :=
  match v with
  | VInt z => (0 <= z)%Z
  | VPair a b => nonneg a /\ nonneg b
  | VList l => fold_right (fun x p => nonneg x /\ p) True l
  | VTag _ x => nonneg x
  | _ => True
  end.

(** ** Transactions *)

Fixpoint record (l : list kind) : kind :=
  match l with
  | [] => KNothing
  | [k] => k
  | k :: l' => KPair k (record l')
  end.
Fixpoint one_of (l : list (N * kind)) (t : N) : kind :=
  match l with
  | [] => KNever
  | (n, k) :: l' => if t =? n then k else one_of l' t
  end.

Definition k_amount : kind := KNum 64.
Definition k_byte : kind := KNum 8.
Definition k_hash : kind := KFixed 32.
Definition k_pair : kind := KPair KText KText.

(** The structures within transactions: a transfer (tx.h:244-246), a vote (vote.h:34-36), an
    asset (assettx.h:12-16), a change of an asset (assettx.h:97-106), an exchange
    (dexoperatortx.h:19-27), a change of an exchange (dexoperatortx.h:98-121), a price
    (price.h:26-27), a contract (contract.h:35-36, 83-87), a deal (dextx.h:495-499), an inline
    transaction and its signer (inline_transaction.hpp:17-18, 30-31, 48-51). *)
Definition k_transfer : kind := record [KUid; KText; k_amount].
Definition k_vote : kind := record [k_byte; KUid; k_amount].
Definition k_asset : kind := record [KText; KUid; KText; KBool; k_amount].
Definition k_asset_change : kind := KOneOf (one_of [(1, KUid); (2, KText); (3, k_amount)]).
Definition k_exchange : kind :=
  record [KUid; KUid; KText; KText; k_byte; k_amount; k_amount; KVec k_amount; KText].
Definition k_exchange_change : kind :=
  KPair (KNum 32) (KOneOf (one_of [(1, KUid); (2, KUid); (3, KText); (4, KText); (5, k_byte);
    (6, k_amount); (7, k_amount); (8, KVec k_amount); (9, KText)])).
Definition k_price : kind := KPair k_pair k_amount.
Definition k_lua : kind := KPair KText KText.
Definition k_contract : kind := record [k_byte; KBool; KText; KText; KText].
Definition k_deal : kind := record [k_hash; k_hash; k_amount; k_amount; k_amount].
Definition k_inline : kind :=
  record [k_amount; k_amount; KVec (KPair k_amount k_amount); KBytes].
Definition k_signer : kind := KPair k_amount KBytes.

(** Conditions of outputs, utxo.h:17-30 (the numbers), 65, 86-89, 137, 159, 178-179, 207, 228;
    inputs and outputs, utxo.h:387-389, 420-421.  Every condition has a place for its number,
    which says nothing more. *)
Definition k_condition : kind := KOneOf (one_of
  [(0, KNothing); (11, KNothing);
   (12, record [KNothing; k_byte; k_byte; KVec KUid; KVec KBytes]);
   (13, record [KNothing; KText]); (111, record [KNothing; KUid]);
   (112, record [KNothing; KFixed 20]); (113, record [KBool; KNothing; k_hash]);
   (114, record [KNothing; k_amount]); (115, record [KNothing; k_amount])]).
Definition k_input : kind := record [k_hash; KNum 16; KVec k_condition].
Definition k_output : kind := record [k_amount; KVec k_condition].

(** Proposals, proposal.h:32-50 (the numbers), 80-81, and what each adds: 109, 157-158, 191-192,
    225-227, 263-266, 302-303, 339-340, 376-377, 426-427, 460-462, 535-540, 588-593, 497-499,
    645-647, 691. *)
Definition k_settings : kind := KVec (KPair k_byte k_amount).
Definition k_proposal : kind := KOneOf (one_of ((0, KNothing) ::
  map (fun p => (fst p, record (KNum 32 :: k_byte :: snd p)))
  [(1, [k_settings]); (2, [KReg; k_byte]); (3, [k_byte; KNum 32]);
   (4, [k_byte; KText; k_amount]); (5, [k_amount; KText; KUid; KUid]); (6, [KUid; k_amount]);
   (7, [KText; k_amount]); (8, [k_settings; k_pair]); (9, [KNum 32; k_byte]);
   (11, [KText; KText; k_byte]); (12, [KText; KText; KText; KUid; k_amount]);
   (13, [KUid; KText; KText; k_amount; KVec KBytes]); (14, [KText; k_byte; k_byte]);
   (15, [KText; k_amount; KReg]); (16, [k_hash])])).

(** The variables that a type of transaction adds to those of every transaction, as its class
    declares them. *)
Definition own_members (t : N) : option (list (string * kind)) :=
  let order := [("coin_symbol", KText); ("asset_symbol", KText)] in
  match t with
  | 1 => Some [("reward_fees", k_amount)]                                (* blockrewardtx.h:14 *)
  | 2 => Some [("miner_uid", KUid)]                                      (* accountregtx.h:14 *)
  | 3 => Some [("toUid", KUid); ("coin_amount", k_amount); ("memo", KText)]
                                                                         (* cointransfertx.h:14-16 *)
  | 4 => Some [("app_uid", KUid); ("coin_amount", k_amount); ("arguments", KText)]
                                                                         (* contracttx.h:53-55 *)
  | 5 => Some [("contract", k_lua)]                                      (* contracttx.h:19 *)
  | 6 => Some [("candidateVotes", KVec k_vote)]                          (* delegatetx.h:13 *)
  | 8 => Some [("stake_type", k_byte); ("coin_symbol", KText); ("coin_amount", k_amount)]
                                                                         (* coinstaketx.h:13-15 *)
  | 9 => Some [("asset", k_asset)]                                       (* assettx.h:51 *)
  | 10 => Some [("asset_symbol", KText); ("update_data", k_asset_change)]
                                                                         (* assettx.h:203-204 *)
  | 11 => Some [("transfers", KVec k_transfer); ("memo", KText)]         (* cointransfertx.h:60-61 *)
  | 12 => Some [("coin_symbol", KText); ("coin_amount", k_amount)]       (* coinminttx.h:14-15 *)
  | 13 => Some [("reward_fees", KMap KText k_amount); ("inflated_bcoins", k_amount)]
                                                                         (* blockrewardtx.h:57-58 *)
  | 14 => Some [("contract", k_contract)]                                (* contracttx.h:93 *)
  | 15 => Some [("app_uid", KUid); ("arguments", KText); ("coin_symbol", KText);
                ("coin_amount", k_amount)]                               (* contracttx.h:127-130 *)
  | 16 => Some [("price_points", KVec k_price)]                          (* pricefeedtx.h:15 *)
  | 17 => Some [("median_prices", KMap k_pair k_amount)]                 (* blockpricemediantx.h:103 *)
  | 18 => Some [("coin_symbol", KText); ("vins", KVec k_input); ("vouts", KVec k_output);
                ("memo", KText)]                                         (* coinutxotx.h:26-29 *)
  | 19 => Some [("utxo_txid", k_hash); ("utxo_vout_index", KNum 16); ("password_proof", k_hash)]
                                                                         (* coinutxotx.h:104-106 *)
  | 21 => Some [("cdp_txid", k_hash); ("assets_to_stake", KMap KText k_amount);
                ("scoin_symbol", KText); ("scoins_to_mint", k_amount)]   (* cdptx.h:73-76 *)
  | 22 => Some [("cdp_txid", k_hash); ("scoins_to_repay", k_amount);
                ("assets_to_redeem", KMap KText k_amount)]               (* cdptx.h:125-127 *)
  | 23 => Some [("cdp_txid", k_hash); ("liquidate_asset_symbol", KText);
                ("scoins_to_liquidate", k_amount)]                       (* cdptx.h:179-181 *)
  | 24 => Some [("cdp_list", KVec k_hash)]                               (* cdptx.h:189 *)
  | 50 => Some []
  | 70 => Some [("proposal", k_proposal)]                                (* proposaltx.h:16 *)
  | 71 => Some [("proposal_id", k_hash); ("axc_signature", KBytes)]      (* proposaltx.h:52-54 *)
  (* Orders: of dextx.h:34-50 those that a kind of order leaves open; the others are set by its
     constructor (dextx.h:90-94, 144-148, 198-202, 250-254) or not used. *)
  | 84 => Some (order ++ [("asset_amount", k_amount); ("price", k_amount)])
  | 85 => Some (order ++ [("asset_amount", k_amount); ("price", k_amount)])
  | 86 => Some (order ++ [("coin_amount", k_amount)])
  | 87 => Some (order ++ [("asset_amount", k_amount)])
  | 88 => Some [("order_id", k_hash)]                                    (* dextx.h:487 *)
  | 89 => Some [("dealItems", KVec k_deal)]                              (* dextx.h:512 *)
  | 90 => Some (order ++ [("order_type", k_byte); ("order_side", k_byte);
                ("coin_amount", k_amount); ("asset_amount", k_amount); ("price", k_amount);
                ("dex_id", KNum 32); ("memo", KText)])
  | 91 => Some (order ++ [("order_type", k_byte); ("order_side", k_byte);
                ("coin_amount", k_amount); ("asset_amount", k_amount); ("price", k_amount);
                ("dex_id", KNum 32); ("memo", KText); ("open_mode", k_byte);
                ("maker_fee_ratio", k_amount); ("taker_fee_ratio", k_amount);
                ("operator_uid", KUid); ("operator_tx_fee", k_amount);
                ("operator_signature", KBytes)])
  | 92 => Some [("data", k_exchange)]                                    (* dexoperatortx.h:49 *)
  | 93 => Some [("update_data", k_exchange_change)]                      (* dexoperatortx.h:265 *)
  | 100 => Some [("inline_transactions", KVec k_inline); ("signatures", KVec k_signer)]
                                                                         (* universaltx.h:25-26 *)
  | _ => None
  end.

(** The variables of every transaction, tx.h:122-128.  Rewards, minted coins and median prices
    are made by the producers of blocks and pay no fees; rewards and medians are not signed; the
    fees of the types of the first release, and of the settlement of interest, are in WICC
    (the constructors, tx.h:141-159). *)
Definition members (t : N) : option (list (string * kind)) :=
  match own_members t with
  | None => None
  | Some l => Some ([("nVersion", KInt); ("txUid", KUid); ("valid_height", KInt)] ++
      (if existsb (N.eqb t) [1; 12; 13; 17] then [] else [("llFees", k_amount)]) ++
      (if existsb (N.eqb t) [1; 2; 3; 4; 5; 6; 12; 13; 17; 24] then []
       else [("fee_symbol", KText)]) ++
      (if existsb (N.eqb t) [1; 13; 17] then [] else [("signature", KBytes)]) ++ l)
  end.

(** The variables of a type of transaction. *)
Definition member (t : N) (n : string) : Prop :=
  exists l k, members t = Some l /\ In (n, k) l.

(** A transaction of a known type, with a value of its type in every variable. *)
Definition tx_value (t : tx) : Prop :=
  exists l, members (tx_type t) = Some l /\
    forall n k, In (n, k) l -> holds k (tx_get t n).

Definition tx_keys_valid (t : tx) : Prop :=
  forall n, member (tx_type t) n -> keys_valid (tx_get t n).
Definition tx_nonneg (t : tx) : Prop :=
  forall n, member (tx_type t) n -> nonneg (tx_get t n).

(** Two transactions that are the same. *)
Definition same_tx (a b : tx) : Prop :=
  tx_type a = tx_type b /\ forall n, member (tx_type a) n -> tx_get a n = tx_get b n.

(** What no signature can cover: the signatures. *)
Definition signature_field (t : N) (n : string) : Prop :=
  n = "signature" \/ (t = 91 /\ n = "operator_signature") \/ (t = 100 /\ n = "signatures").

(** What the signatures of a transaction should stand for: its type, every field that is not
    a signature (and not excepted by [but]), and who the additional signers are. *)
Definition signers (v : val) : list val :=
  match v with
  | VList l => map (fun x => match x with VPair a _ => a | _ => x end) l
  | _ => []
  end.
Definition same_content (but : N -> string -> Prop) (a b : tx) : Prop :=
  tx_type a = tx_type b /\
  (forall n, member (tx_type a) n -> ~ signature_field (tx_type a) n -> ~ but (tx_type a) n ->
             tx_get a n = tx_get b n) /\
  (tx_type a = 100 -> signers (tx_get a "signatures") = signers (tx_get b "signatures")).
Definition nothing (t : N) (n : string) : Prop := False.
(** The fees of the transactions that settle the interest of debt positions. *)
Definition settle_fees (t : N) (n : string) : Prop := t = 24 /\ n = "llFees".

(** ** Everything that is signed *)

(** What a node can be asked to sign or to check the signature of: blocks have version 1
    (main.cpp:1824-1828), the messages of the finality protocol are of two kinds
    (protocol.h:258-263). *)
Definition proper (x : signable) : Prop :=
  match x with
  | STx t => tx_value t /\ tx_keys_valid t /\ tx_nonneg t
  | SBlock version prev merkle time nonce height fuel_fee fuel_rate =>
      version = 1 /\ length prev = 32%nat /\ length merkle = 32%nat /\ time < 4294967296 /\
      nonce < 4294967296 /\ height < 4294967296 /\ fuel_fee < 18446744073709551616 /\
      fuel_rate < 4294967296
  | SVote kind block height miner prev =>
      (kind = 1 \/ kind = 2) /\ length block = 32%nat /\ height < 4294967296 /\
      regid_ok miner /\ length prev = 32%nat
  | SText text => N.of_nat (length text) <= 4000000
  | SShared txid index keyid script =>
      length txid = 32%nat /\ bytes txid /\ index < 65536 /\ length keyid = 20%nat /\
      bytes keyid /\ N.of_nat (length script) <= 4000000
  end.

Definition same_thing (x y : signable) : Prop :=
  match x, y with
  | STx a, STx b => same_content settle_fees a b
  | _, _ => x = y
  end.
