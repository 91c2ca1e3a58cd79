(** Model of the database key layout: the prefix table and key generation.

    Source: /repo/src/persistence/dbconf.h:24-46 (databases), 71-148 (prefix table),
    177-227 (GetKeyPrefix, ParseKeyPrefixType, GenDbKey, ParseDbKey), and the cache members
    of the *db.h files with their RegisterUndoFunc lists.

    Simplification: a serialised key element is an arbitrary byte string (a Coq [string]);
    the enumeration values are their positions in the table. *)
From Coq Require Import List String Bool NArith.
Import ListNotations.
Local Open Scope string_scope.

(** The LevelDB databases, dbconf.h:24-42. *)
Inductive dbname :=
| DB_SYSPARAM
| DB_ACCOUNT
| DB_ASSET
| DB_BLOCK
| DB_CONTRACT
| DB_DELEGATE
| DB_CDP
| DB_CLOSEDCDP
| DB_DEX
| DB_LOG
| DB_RECEIPT
| DB_UTXO
| DB_SYSGOVERN
| DB_PRICEFEED
| DB_AXC
| DB_NONE.

Definition dbname_eqb (a b : dbname) : bool :=
  match a, b with
  | DB_SYSPARAM, DB_SYSPARAM => true
  | DB_ACCOUNT, DB_ACCOUNT => true
  | DB_ASSET, DB_ASSET => true
  | DB_BLOCK, DB_BLOCK => true
  | DB_CONTRACT, DB_CONTRACT => true
  | DB_DELEGATE, DB_DELEGATE => true
  | DB_CDP, DB_CDP => true
  | DB_CLOSEDCDP, DB_CLOSEDCDP => true
  | DB_DEX, DB_DEX => true
  | DB_LOG, DB_LOG => true
  | DB_RECEIPT, DB_RECEIPT => true
  | DB_UTXO, DB_UTXO => true
  | DB_SYSGOVERN, DB_SYSGOVERN => true
  | DB_PRICEFEED, DB_PRICEFEED => true
  | DB_AXC, DB_AXC => true
  | DB_NONE, DB_NONE => true
  | _, _ => false
  end.

(** The prefix table, dbconf.h:71-148: name and database by enumeration value. *)
Definition prefix_table : list (string * dbname) :=
  [
   (*  0 EMPTY *) ("", DB_NONE);
   (*  1 SYS_PARAM *) ("sysp", DB_SYSPARAM);
   (*  2 MINER_FEE *) ("minf", DB_SYSPARAM);
   (*  3 CDP_PARAM *) ("cdpp", DB_SYSPARAM);
   (*  4 CDP_INTEREST_PARAMS *) ("cips", DB_SYSPARAM);
   (*  5 TOTAL_BPS_SIZE *) ("bpsi", DB_SYSPARAM);
   (*  6 NEW_TOTAL_BPS_SIZE *) ("nbps", DB_SYSPARAM);
   (*  7 SYS_GOVERN *) ("govn", DB_SYSGOVERN);
   (*  8 GOVN_PROP *) ("pgvn", DB_SYSGOVERN);
   (*  9 GOVN_APPROVAL_LIST *) ("galt", DB_SYSGOVERN);
   (* 10 AXCOUT_PROPOSAL_TXUID *) ("aptu", DB_SYSGOVERN);
   (* 11 ASSET *) ("asst", DB_ASSET);
   (* 12 AXC_COIN_PEERTOSELF *) ("acps", DB_ASSET);
   (* 13 AXC_COIN_SELFTOPEER *) ("acsp", DB_ASSET);
   (* 14 BLOCK_INDEX *) ("bidx", DB_BLOCK);
   (* 15 BLOCKFILE_NUM_INFO *) ("bfni", DB_BLOCK);
   (* 16 LAST_BLOCKFILE *) ("ltbf", DB_BLOCK);
   (* 17 REINDEX *) ("ridx", DB_BLOCK);
   (* 18 FINALITY_BLOCK *) ("finb", DB_BLOCK);
   (* 19 FLAG *) ("flag", DB_BLOCK);
   (* 20 BEST_BLOCKHASH *) ("bbkh", DB_BLOCK);
   (* 21 TXID_DISKINDEX *) ("tidx", DB_BLOCK);
   (* 22 BLOCK_INFLATED_REWARD *) ("bird", DB_BLOCK);
   (* 23 REGID_KEYID *) ("rkey", DB_ACCOUNT);
   (* 24 KEYID_ACCOUNT *) ("idac", DB_ACCOUNT);
   (* 25 CONTRACT_DEF *) ("ucon", DB_CONTRACT);
   (* 26 CONTRACT_DATA *) ("cdat", DB_CONTRACT);
   (* 27 CONTRACT_ACCOUNT *) ("cacc", DB_CONTRACT);
   (* 28 CONTRACT_TRACES *) ("ctrs", DB_CONTRACT);
   (* 29 VOTE *) ("vote", DB_DELEGATE);
   (* 30 LAST_VOTE_HEIGHT *) ("lvht", DB_DELEGATE);
   (* 31 PENDING_DELEGATES *) ("pdds", DB_DELEGATE);
   (* 32 ACTIVE_DELEGATES *) ("atds", DB_DELEGATE);
   (* 33 REGID_VOTE *) ("ridv", DB_DELEGATE);
   (* 34 CDP *) ("cid", DB_CDP);
   (* 35 CDP_BCOIN *) ("cbcn", DB_CDP);
   (* 36 USER_CDP *) ("ucdp", DB_CDP);
   (* 37 CDP_RATIO_INDEX *) ("crid", DB_CDP);
   (* 38 CDP_HEIGHT_INDEX *) ("chid", DB_CDP);
   (* 39 CDP_GLOBAL_DATA *) ("cgdt", DB_CDP);
   (* 40 CLOSED_CDP_TX *) ("ctx", DB_CLOSEDCDP);
   (* 41 CLOSED_TX_CDP *) ("txc", DB_CLOSEDCDP);
   (* 42 DEX_ACTIVE_ORDER *) ("dato", DB_DEX);
   (* 43 DEX_BLOCK_ORDERS *) ("dbos", DB_DEX);
   (* 44 DEX_OPERATOR_LAST_ID *) ("doli", DB_DEX);
   (* 45 DEX_OPERATOR_DETAIL *) ("dode", DB_DEX);
   (* 46 DEX_OPERATOR_OWNER_MAP *) ("doom", DB_DEX);
   (* 47 DEX_OPERATOR_TRADE_PAIR *) ("dotp", DB_DEX);
   (* 48 DEX_QUOTE_COIN_SYMBOL *) ("dqcs", DB_DEX);
   (* 49 TX_EXECUTE_FAIL *) ("txef", DB_LOG);
   (* 50 TX_RECEIPT *) ("txrc", DB_RECEIPT);
   (* 51 BLOCK_RECEIPT *) ("bkrc", DB_RECEIPT);
   (* 52 TX_UTXO *) ("utxo", DB_UTXO);
   (* 53 UTXO_PWSDPRF *) ("pwdp", DB_UTXO);
   (* 54 MEDIAN_PRICES *) ("mdps", DB_PRICEFEED);
   (* 55 PRICE_FEED_COIN_PAIRS *) ("pfcp", DB_PRICEFEED);
   (* 56 PRICE_FEEDERS *) ("pfdr", DB_PRICEFEED);
   (* 57 AXC_SWAP_IN *) ("axci", DB_AXC);
   (* 58 PREFIX_COUNT *) ("", DB_NONE)
  ].

(** [GetKeyPrefix] and [GetDbNameEnumByPrefix], dbconf.h:177-190. *)
Definition key_prefix (p : nat) : string := fst (nth p prefix_table ("", DB_NONE)).
Definition prefix_db (p : nat) : dbname := snd (nth p prefix_table ("", DB_NONE)).

(** Enumeration values usable in keys: not EMPTY (0), not PREFIX_COUNT (the last). *)
Definition valid_prefix (p : nat) : bool := Nat.ltb 0 p && Nat.ltb p (List.length prefix_table - 1).

(** [GenDbKey], dbconf.h:199-207; a single-value cache uses the bare prefix
    ([CDBAccess::GetData(prefixType, value)], dbaccess.h:294-298), i.e. an empty element. *)
Definition gen_db_key (p : nat) (element : string) : string := key_prefix p ++ element.

(** [ParseDbKey], dbconf.h:209-222: the serialised element, if the key has the prefix. *)
Fixpoint strip (pre s : string) : option string :=
  match pre, s with
  | EmptyString, _ => Some s
  | String a pre', String b s' => if Ascii.eqb a b then strip pre' s' else None
  | String _ _, EmptyString => None
  end.
Definition parse_db_key (p : nat) (key : string) : option string :=
  match key_prefix p with
  | EmptyString => None
  | pre => strip pre key
  end.

(** [ParseKeyPrefixType], dbconf.h:192-197: look the name up in [gPrefixNameMap]. A
    [std::map] built from an initialiser list keeps the first of equal keys; EMPTY (0) is
    the answer for names not found. *)
Fixpoint find_prefix (l : list (string * dbname)) (i : nat) (s : string) : nat :=
  match l with
  | [] => 0
  | (n, _) :: l' => if String.eqb n s then i else find_prefix l' (S i) s
  end.
Definition parse_key_prefix_type (s : string) : nat := find_prefix prefix_table 0 s.

(** Prefixes of the caches that are members of a [CCacheWrapper] (cachewrapper.h:30-46;
    the caches declared in the *db.h files, except the log database, which is not part of
    the wrapper). *)
Definition wrapper_prefixes : list nat :=
  [1 (* sysparamdb.h sys_param_chache *);
   2 (* sysparamdb.h miner_fee_cache *);
   3 (* sysparamdb.h cdp_param_cache *);
   4 (* sysparamdb.h cdp_interest_param_changes_cache *);
   5 (* sysparamdb.h current_total_bps_size_cache *);
   6 (* sysparamdb.h new_total_bps_size_cache *);
   7 (* sysgoverndb.h governors_cache *);
   8 (* sysgoverndb.h proposals_cache *);
   9 (* sysgoverndb.h approvals_cache *);
   11 (* assetdb.h asset_cache *);
   12 (* assetdb.h axc_swap_coin_ps_cache *);
   13 (* assetdb.h axc_swap_coin_sp_cache *);
   16 (* blockdb.h last_block_file_cache *);
   17 (* blockdb.h reindex_cache *);
   18 (* blockdb.h finality_block_cache *);
   19 (* blockdb.h flag_cache *);
   20 (* blockdb.h best_block_hash_cache *);
   21 (* blockdb.h tx_diskpos_cache *);
   22 (* blockdb.h block_inflated_reward_cache *);
   23 (* accountdb.h regId2KeyIdCache *);
   24 (* accountdb.h accountCache *);
   25 (* contractdb.h contractCache *);
   26 (* contractdb.h contractDataCache *);
   27 (* contractdb.h contractAccountCache *);
   28 (* contractdb.h contractTracesCache *);
   29 (* delegatedb.h voteRegIdCache *);
   30 (* delegatedb.h last_vote_height_cache *);
   31 (* delegatedb.h pending_delegates_cache *);
   32 (* delegatedb.h active_delegates_cache *);
   33 (* delegatedb.h regId2VoteCache *);
   34 (* cdpdb.h cdp_cache *);
   35 (* cdpdb.h cdp_bcoin_cache *);
   36 (* cdpdb.h user_cdp_cache *);
   37 (* cdpdb.h cdp_ratio_index_cache *);
   38 (* cdpdb.h cdp_height_index_cache *);
   39 (* cdpdb.h cdp_global_data_cache *);
   40 (* cdpdb.h closedCdpTxCache *);
   41 (* cdpdb.h closedTxCdpCache *);
   42 (* dexdb.h activeOrderCache *);
   43 (* dexdb.h blockOrdersCache *);
   44 (* dexdb.h operator_last_id_cache *);
   45 (* dexdb.h operator_detail_cache *);
   46 (* dexdb.h operator_owner_map_cache *);
   50 (* txreceiptdb.h tx_receipt_cache *);
   51 (* txreceiptdb.h block_receipt_cache *);
   52 (* txutxodb.h tx_utxo_cache *);
   53 (* txutxodb.h tx_utxo_password_proof_cache *);
   54 (* pricefeeddb.h median_price_cache *);
   55 (* pricefeeddb.h price_feed_coin_pairs_cache *);
   57 (* axcdb.h axc_swapin_cache *)].

(** Prefixes registered for undo: [CCacheWrapper::GetUndoDataFuncMap], cachewrapper.cpp:145-162,
    with the [RegisterUndoFunc] member of each database cache. *)
Definition undo_prefixes : list nat :=
  [23 (* accountdb.h regId2KeyIdCache *);
   24 (* accountdb.h accountCache *);
   11 (* assetdb.h asset_cache *);
   12 (* assetdb.h axc_swap_coin_ps_cache *);
   13 (* assetdb.h axc_swap_coin_sp_cache *);
   57 (* axcdb.h axc_swapin_cache *);
   16 (* blockdb.h last_block_file_cache *);
   17 (* blockdb.h reindex_cache *);
   18 (* blockdb.h finality_block_cache *);
   19 (* blockdb.h flag_cache *);
   20 (* blockdb.h best_block_hash_cache *);
   21 (* blockdb.h tx_diskpos_cache *);
   22 (* blockdb.h block_inflated_reward_cache *);
   34 (* cdpdb.h cdp_cache *);
   35 (* cdpdb.h cdp_bcoin_cache *);
   36 (* cdpdb.h user_cdp_cache *);
   37 (* cdpdb.h cdp_ratio_index_cache *);
   38 (* cdpdb.h cdp_height_index_cache *);
   39 (* cdpdb.h cdp_global_data_cache *);
   40 (* cdpdb.h closedCdpTxCache *);
   41 (* cdpdb.h closedTxCdpCache *);
   25 (* contractdb.h contractCache *);
   26 (* contractdb.h contractDataCache *);
   27 (* contractdb.h contractAccountCache *);
   28 (* contractdb.h contractTracesCache *);
   29 (* delegatedb.h voteRegIdCache *);
   30 (* delegatedb.h last_vote_height_cache *);
   31 (* delegatedb.h pending_delegates_cache *);
   32 (* delegatedb.h active_delegates_cache *);
   33 (* delegatedb.h regId2VoteCache *);
   42 (* dexdb.h activeOrderCache *);
   43 (* dexdb.h blockOrdersCache *);
   44 (* dexdb.h operator_last_id_cache *);
   45 (* dexdb.h operator_detail_cache *);
   46 (* dexdb.h operator_owner_map_cache *);
   54 (* pricefeeddb.h median_price_cache *);
   55 (* pricefeeddb.h price_feed_coin_pairs_cache *);
   7 (* sysgoverndb.h governors_cache *);
   8 (* sysgoverndb.h proposals_cache *);
   9 (* sysgoverndb.h approvals_cache *);
   1 (* sysparamdb.h sys_param_chache *);
   2 (* sysparamdb.h miner_fee_cache *);
   3 (* sysparamdb.h cdp_param_cache *);
   4 (* sysparamdb.h cdp_interest_param_changes_cache *);
   5 (* sysparamdb.h current_total_bps_size_cache *);
   6 (* sysparamdb.h new_total_bps_size_cache *);
   50 (* txreceiptdb.h tx_receipt_cache *);
   51 (* txreceiptdb.h block_receipt_cache *);
   52 (* txutxodb.h tx_utxo_cache *);
   53 (* txutxodb.h tx_utxo_password_proof_cache *)].

Definition undo_registered (p : N) : bool := existsb (N.eqb p) (map N.of_nat undo_prefixes).
