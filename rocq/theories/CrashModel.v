(** Model of what is on disk when the process dies, and of the node that starts again from it.

    Source: /repo/src/main.cpp (ConnectBlock, DisconnectBlock, WriteChainState, ConnectTip,
    DisconnectTip, LoadBlockIndexDB, VerifyDB), /repo/src/persistence/cachewrapper.cpp
    (CCacheDBManager::Flush) and the [Flush] of each cache below /repo/src/persistence.

    Simplifications:
    - the keys and values of all tables are numbers that stand for their serialised bytes; a table with
      one value has the key 0;
    - the layers of one table above the database are a map of pending entries, and a table is a
      function from keys to entries: KvModel.v models the layers, and C01 and C02 say that they read
      like one map. An entry that is empty, which [Flush] erases from the database, is [None];
    - what the transactions of a block do is an arbitrary program that reads and writes entries of
      the tables. The models of the transactions are in other files;
    - the blocks, their index entries and their undo data are written to disk when the block is taken in or
      first connected (main.cpp:1207-1241), and are there again after a crash;
    - a batch handed to LevelDB is written as a whole or not at all, and is on disk when [WriteBatch]
      returns ([db.WriteBatch(batch, true)], dbaccess.h:306-308,320). This is what LevelDB promises for
      synchronous writes;
    - memory-only caches, wallet and pool are not modelled, nor are the tables' entries that no block
      writes (block file numbers, flags, the finality block). *)
From Coq Require Import List Bool NArith.
Import ListNotations.
Local Open Scope N_scope.

(** The prefixes of the tables, [dbk::PrefixType], in the order of dbconf.h:71-145 (those with a
    cache). *)
Definition SYS_PARAM : N := 1.
Definition MINER_FEE : N := 2.
Definition CDP_PARAM : N := 3.
Definition CDP_INTEREST_PARAMS : N := 4.
Definition TOTAL_BPS_SIZE : N := 5.
Definition NEW_TOTAL_BPS_SIZE : N := 6.
Definition SYS_GOVERN : N := 7.
Definition GOVN_PROP : N := 8.
Definition GOVN_APPROVAL_LIST : N := 9.
Definition ASSET : N := 11.
Definition AXC_COIN_PEERTOSELF : N := 12.
Definition AXC_COIN_SELFTOPEER : N := 13.
Definition LAST_BLOCKFILE : N := 16.
Definition REINDEX : N := 17.
Definition FINALITY_BLOCK : N := 18.
Definition FLAG : N := 19.
Definition BEST_BLOCKHASH : N := 20.
Definition TXID_DISKINDEX : N := 21.
Definition BLOCK_INFLATED_REWARD : N := 22.
Definition REGID_KEYID : N := 23.
Definition KEYID_ACCOUNT : N := 24.
Definition CONTRACT_DEF : N := 25.
Definition CONTRACT_DATA : N := 26.
Definition CONTRACT_ACCOUNT : N := 27.
Definition CONTRACT_TRACES : N := 28.
Definition VOTE : N := 29.
Definition LAST_VOTE_HEIGHT : N := 30.
Definition PENDING_DELEGATES : N := 31.
Definition ACTIVE_DELEGATES : N := 32.
Definition REGID_VOTE : N := 33.
Definition CDP : N := 34.
Definition CDP_BCOIN : N := 35.
Definition USER_CDP : N := 36.
Definition CDP_RATIO_INDEX : N := 37.
Definition CDP_HEIGHT_INDEX : N := 38.
Definition CDP_GLOBAL_DATA : N := 39.
Definition CLOSED_CDP_TX : N := 40.
Definition CLOSED_TX_CDP : N := 41.
Definition DEX_ACTIVE_ORDER : N := 42.
Definition DEX_BLOCK_ORDERS : N := 43.
Definition DEX_OPERATOR_LAST_ID : N := 44.
Definition DEX_OPERATOR_DETAIL : N := 45.
Definition DEX_OPERATOR_OWNER_MAP : N := 46.
Definition TX_EXECUTE_FAIL : N := 49.
Definition TX_RECEIPT : N := 50.
Definition BLOCK_RECEIPT : N := 51.
Definition TX_UTXO : N := 52.
Definition UTXO_PWSDPRF : N := 53.
Definition MEDIAN_PRICES : N := 54.
Definition PRICE_FEED_COIN_PAIRS : N := 55.
Definition AXC_SWAP_IN : N := 57.

(** The tables in the order in which [CCacheDBManager::Flush] writes them, cachewrapper.cpp:261-301,
    each with a batch of its own. *)
Definition flush_order : list N :=
  [ (* sysparamdb.h:91-97 *)
    SYS_PARAM; MINER_FEE; CDP_PARAM; CDP_INTEREST_PARAMS; TOTAL_BPS_SIZE; NEW_TOTAL_BPS_SIZE;
    (* accountdb.cpp:224-226 *)
    KEYID_ACCOUNT; REGID_KEYID;
    (* assetdb.h:107-110 *)
    ASSET; AXC_COIN_PEERTOSELF; AXC_COIN_SELFTOPEER;
    (* contractdb.cpp:83-87 *)
    CONTRACT_DEF; CONTRACT_DATA; CONTRACT_ACCOUNT; CONTRACT_TRACES;
    (* delegatedb.cpp:159-164 *)
    VOTE; REGID_VOTE; LAST_VOTE_HEIGHT; PENDING_DELEGATES; ACTIVE_DELEGATES;
    (* cdpdb.cpp:189-195 *)
    CDP_GLOBAL_DATA; CDP; CDP_BCOIN; USER_CDP; CDP_RATIO_INDEX; CDP_HEIGHT_INDEX;
    (* cdpdb.h:154-156 *)
    CLOSED_CDP_TX; CLOSED_TX_CDP;
    (* dexdb.h:83-88 *)
    DEX_ACTIVE_ORDER; DEX_BLOCK_ORDERS; DEX_OPERATOR_DETAIL; DEX_OPERATOR_OWNER_MAP; DEX_OPERATOR_LAST_ID;
    (* blockdb.cpp:117-124 *)
    TXID_DISKINDEX; FLAG; BEST_BLOCKHASH; LAST_BLOCKFILE; REINDEX; FINALITY_BLOCK; BLOCK_INFLATED_REWARD;
    (* logdb.cpp:17, txreceiptdb.cpp:37-39 *)
    TX_EXECUTE_FAIL; TX_RECEIPT; BLOCK_RECEIPT;
    (* sysgoverndb.h:30-33 *)
    SYS_GOVERN; GOVN_PROP; GOVN_APPROVAL_LIST;
    (* txutxodb.h:36-38, axcdb.h:28-29, pricefeeddb.h:94-96 *)
    TX_UTXO; UTXO_PWSDPRF; AXC_SWAP_IN; PRICE_FEED_COIN_PAIRS; MEDIAN_PRICES ].

(** All tables. *)
Definition view := N -> N -> option N.

Definition put (v : view) (t k : N) (e : option N) : view :=
  fun t' k' => if (t' =? t) && (k' =? k) then e else v t' k'.

(** What executing a block does: reads, each with what follows for every answer, and writes, until the
    block is refused or through. *)
Inductive prog :=
| Through
| Refuse
| Get (t k : N) (next : option N -> prog)
| Put (t k : N) (e : option N) (next : prog).

(** The entries a write replaced, oldest first: [CTxUndo], blockundo.h:20-55, of all transactions. *)
Definition undo := list (N * N * option N).

(** Entries above the database: [Some e] hides what the database has. *)
Definition pending := N -> N -> option (option N).

Definition push (m : pending) (t k : N) (e : option N) : pending :=
  fun t' k' => if (t' =? t) && (k' =? k) then Some e else m t' k'.

Definition nothing : pending := fun _ _ => None.

Definition over (m : pending) (d : view) : view :=
  fun t k => match m t k with Some e => e | None => d t k end.

(** A node: its database, the pending entries of its global caches ([pCdMan]), the tip of [chainActive],
    and the undo data on disk by block ([nUndoPos] of the block's index entry). *)
Record node := mkNode { disk : view; mem : pending; tip : N; undos : N -> option undo }.

Definition sees (n : node) : view := over (mem n) (disk n).

(** [GetBestBlockHash], blockdb.cpp:128-132: a null hash if there is no entry. *)
Definition best (v : view) : N := match v BEST_BLOCKHASH 0 with Some h => h | None => 0 end.

Section Node.
  (** The known blocks: the predecessor of each and what executing it does. The genesis block has
      no predecessor. *)
  Variable tree : N -> option (N * prog).
  Variable genesis : N.

  Inductive result :=
  | Asserts            (** a failed [assert] *)
  | Reindex            (** the database is not usable, init.cpp:764-774 *)
  | Next (n : node).

  (** Executing a block on a layer over [d]: the pending entries of the layer and the undo data. *)
  Fixpoint execute (p : prog) (d : view) (m : pending) (u : undo) : option (pending * undo) :=
    match p with
    | Through => Some (m, u)
    | Refuse => None
    | Get t k next => execute (next (over m d t k)) d m u
    | Put t k e next => execute next d (push m t k e) (u ++ [(t, k, over m d t k)])
    end.

  (** A layer flushed into the one below it: dbaccess.h:456-459. *)
  Definition onto (m base : pending) : pending :=
    fun t k => match m t k with Some e => Some e | None => base t k end.

  (** [ConnectTip], main.cpp:1392-1431, with [ConnectBlock]: the assertion of 1001-1005; a refused
      block's layer is dropped (1404-1410); undo data are written only if the block has none
      (1207-1233); the best block is set last (1267-1268). Writing the state to disk is a step of its own.
      Only successors of the tip are ever asked for (1394, and SelectModel.v); others do
      nothing here. *)
  Definition connect (n : node) (h : N) : result :=
    match tree h with
    | None => Next n
    | Some (prev, p) =>
        if negb (prev =? tip n) then Next n
        else if negb (prev =? best (sees n)) then Asserts
        else match execute p (sees n) nothing [] with
             | None => Next n
             | Some (m, u) =>
                 Next (mkNode (disk n) (onto (push m BEST_BLOCKHASH 0 (Some h)) (mem n)) h
                              (match undos n h with
                               | Some _ => undos n
                               | None => fun h' => if h' =? h then Some u else undos n h'
                               end))
             end
    end.

  (** [CBlockUndoExecutor::Execute], blockundo.cpp:112-132: newest entry first. *)
  Definition revert (u : undo) (m : pending) : pending :=
    fold_left (fun m e => push m (fst (fst e)) (snd (fst e)) (snd e)) (rev u) m.

  (** [DisconnectBlock], main.cpp:627-686, on the pending entries [m] over [d]: [None] for
      the failed assertion of 629, [Some None] without undo data (637-638). *)
  Definition disconnect_block (d : view) (us : N -> option undo) (m : pending) (h prev : N)
    : option (option pending) :=
    if negb (h =? best (over m d)) then None
    else match us h with
         | None => Some None
         | Some u => Some (Some (push (revert u m) BEST_BLOCKHASH 0 (Some prev)))
         end.

  (** [DisconnectTip], main.cpp:1344-1389. The genesis block is in every chain and is never
      disconnected. *)
  Definition disconnect (n : node) : result :=
    match tree (tip n) with
    | None => Next n
    | Some (prev, _) =>
        match disconnect_block (disk n) (undos n) (mem n) (tip n) prev with
        | None => Asserts
        | Some None => Next n
        | Some (Some m) => Next (mkNode (disk n) m prev (undos n))
        end
    end.

  (** The first [k] batches of [CCacheDBManager::Flush]. *)
  Definition flushed (k : nat) (n : node) : view :=
    fun t k' => if existsb (N.eqb t) (firstn k flush_order) then sees n t k' else disk n t k'.

  (** [pCdMan->Flush()] in [WriteChainState], main.cpp:1301: all batches, and the caches are cleared. *)
  Definition flush (n : node) : node :=
    mkNode (flushed (length flush_order) n)
           (fun t k => if existsb (N.eqb t) flush_order then None else mem n t k)
           (tip n) (undos n).

  (** [LoadBlockIndexDB], main.cpp:2225-2287: the tip is the best block of the database, which must
      be known (2268-2273). *)
  Definition restart (d : view) (us : N -> option undo) : result :=
    if (best d =? genesis) || match tree (best d) with Some _ => true | None => false end
    then Next (mkNode d nothing (best d) us)
    else Reindex.

  Inductive event :=
  | EConnect (h : N)
  | EDisconnect
  | EFlush
  | ECrash              (** the process dies while it is not writing tables, and starts again *)
  | ECrashIn (k : nat). (** it dies after [k] batches of [Flush], and starts again *)

  Definition happens (n : node) (e : event) : result :=
    match e with
    | EConnect h => connect n h
    | EDisconnect => disconnect n
    | EFlush => Next (flush n)
    | ECrash => restart (disk n) (undos n)
    | ECrashIn k => restart (flushed k n) (undos n)
    end.

  Fixpoint history (n : node) (es : list event) : result :=
    match es with
    | [] => Next n
    | e :: es' => match happens n e with Next n' => history n' es' | r => r end
    end.

  (** [VerifyDB] with the default levels, main.cpp:2289-2364 and init.cpp:751: from the tip down at
      most [depth] + 1 blocks that have a predecessor are disconnected on a layer that is dropped. The checks of
      the blocks themselves (levels 0 and 1) read no tables. [None]: failed assertion. *)
  Fixpoint verify_from (depth : nat) (d : view) (us : N -> option undo) (m : pending) (h : N)
    : option bool :=
    match tree h with
    | None => Some true
    | Some (prev, _) =>
        match disconnect_block d us m h prev with
        | None => None
        | Some None => Some false
        | Some (Some m') => match depth with O => Some true | S depth' => verify_from depth' d us m' prev end
        end
    end.

  Definition verify (depth : nat) (n : node) : option bool :=
    verify_from depth (disk n) (undos n) (mem n) (tip n).

  (** A node that has only the genesis block, whose state is [init] (InitBlockIndex). *)
  Definition fresh (init : view) : node :=
    mkNode (put init BEST_BLOCKHASH 0 (Some genesis)) nothing genesis (fun _ => None).
End Node.
