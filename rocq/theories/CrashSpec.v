(** What the state of a chain is, and which tables make it up. *)
From Coq Require Import List NArith.
From Verif Require Import CrashModel.
Import ListNotations.
Local Open Scope N_scope.

(** The tables of the state, by what they are about. *)
Definition parameter_tables := [SYS_PARAM; MINER_FEE; CDP_PARAM; CDP_INTEREST_PARAMS; TOTAL_BPS_SIZE; NEW_TOTAL_BPS_SIZE].
Definition account_tables := [KEYID_ACCOUNT; REGID_KEYID].
Definition asset_tables := [ASSET; AXC_COIN_PEERTOSELF; AXC_COIN_SELFTOPEER].
Definition contract_tables := [CONTRACT_DEF; CONTRACT_DATA; CONTRACT_ACCOUNT; CONTRACT_TRACES].
Definition delegate_tables := [VOTE; LAST_VOTE_HEIGHT; PENDING_DELEGATES; ACTIVE_DELEGATES; REGID_VOTE].
Definition cdp_tables := [CDP; CDP_BCOIN; USER_CDP; CDP_RATIO_INDEX; CDP_HEIGHT_INDEX; CDP_GLOBAL_DATA; CLOSED_CDP_TX; CLOSED_TX_CDP].
Definition dex_tables := [DEX_ACTIVE_ORDER; DEX_BLOCK_ORDERS; DEX_OPERATOR_LAST_ID; DEX_OPERATOR_DETAIL; DEX_OPERATOR_OWNER_MAP].
Definition receipt_tables := [TX_EXECUTE_FAIL; TX_RECEIPT; BLOCK_RECEIPT].
Definition govern_tables := [SYS_GOVERN; GOVN_PROP; GOVN_APPROVAL_LIST].
Definition utxo_tables := [TX_UTXO; UTXO_PWSDPRF].
Definition price_tables := [MEDIAN_PRICES; PRICE_FEED_COIN_PAIRS].

Definition state_tables : list N :=
  parameter_tables ++ account_tables ++ asset_tables ++ contract_tables ++ delegate_tables ++ cdp_tables
  ++ dex_tables ++ receipt_tables ++ govern_tables ++ utxo_tables ++ price_tables
  ++ [AXC_SWAP_IN; TXID_DISKINDEX; BLOCK_INFLATED_REWARD; BEST_BLOCKHASH].

(** Two states that no reader can tell apart. *)
Definition same (v v' : view) : Prop := forall t k, v t k = v' t k.

(** The state after a block's reads and writes, if it is not refused. *)
Fixpoint effect (p : prog) (v : view) : option view :=
  match p with
  | Through => Some v
  | Refuse => None
  | Get t k next => effect (next (v t k)) v
  | Put t k e next => effect next (put v t k e)
  end.

(** Blocks that write the tables of the state only. *)
Fixpoint writes_state (p : prog) : Prop :=
  match p with
  | Through | Refuse => True
  | Get _ _ next => forall a, writes_state (next a)
  | Put t _ _ next => In t state_tables /\ writes_state next
  end.

Section Chain.
  Variable tree : N -> option (N * prog).
  Variable genesis : N.
  Variable init : view.

  (** Blocks have hashes of their own, and each writes the tables of the state only. *)
  Definition blocks_ok : Prop :=
    tree genesis = None /\ forall h prev p, tree h = Some (prev, p) -> writes_state p.

  (** [chain_state h v]: every block of the chain that ends with [h] is valid after those before it, and
      [v] is the state after all of them. It depends on the chain only. *)
  Inductive chain_state : N -> view -> Prop :=
  | CSGenesis v : same v (put init BEST_BLOCKHASH 0 (Some genesis)) -> chain_state genesis v
  | CSBlock h prev p v v1 v' :
      tree h = Some (prev, p) -> chain_state prev v -> effect p v = Some v1 ->
      same v' (put v1 BEST_BLOCKHASH 0 (Some h)) -> chain_state h v'.

  (** A node whose tables are in line with the chain it follows. *)
  Definition in_line (n : node) : Prop := chain_state (tip n) (sees n).

  (** Events other than the process dying amid a flush. *)
  Definition outside_flush (e : event) : Prop := match e with ECrashIn _ => False | _ => True end.
End Chain.
