# Formal model of WaykiChain: design

Target: `/repo` (C++), read as text. Prover: Rocq / Coq 8.16.1. Sources: `rocq/theories/`.
Libraries: the standard library, and Flocq for the type `double`. The only axioms in use are
those of the standard library listed under "Trusted base".

## Layout

Each area has these kinds of files:

* `<Area>Model.v`: Gallina functions that follow the C++ function by function. Every definition
  cites the file and lines it models. The head of the file says what was simplified. No proofs.
* `<Area>Spec.v`: the vocabulary of the claims, written without the model's helpers.
* `<Area>Proofs.v` and files named after their topic (`CdpInv.v`, `BestWorld.v`, ...): lemmas.
* `<Area>Properties.v`: the theorems named in `MANIFEST.json`, each with a concrete non-trivial
  instance (`Example`) and `Print Assumptions`.

A theorem named `..._refuted` proves that the statement, read literally, is false of the code. It
exhibits a witness. It stands next to a corrected statement that is proved. A theorem named
`..._partial` would prove part of a statement only; there is none at present.

## Conventions of the model

* Unsigned machine integers are `N` with explicit `mod 2^64`, `mod 2^32`, ... where the C++
  arithmetic can wrap. Signed ones are `Z`.
* `std::map` with a correct ordering is a finite map (association list). `std::set` is a list.
* A computation has four outcomes: `Done`, `Reject` (an ordinary refusal), `Abort` (a failed
  assertion or uncaught exception) and `Undefined` (undefined behaviour of C++, such as a null
  dereference or signed overflow). The last two are never mapped to success or to a refusal.
  Older areas use `option`, where `None` is a refusal; they say so.
* Hashes, signatures and public-key recovery are section variables, that is, universally
  quantified functions. Hardness is assumed only where a theorem has it as a hypothesis (for
  example "no two accepted transactions have the same id").
* The type `double` is Flocq's `binary64`, rounding to nearest even (`DoubleModel.v`).
* Loops whose end is not evident have fuel. Running out of fuel is `Undefined`, and theorems say
  which fuel is enough (for example C64).
* Logging, locking, receipts' textual codes and benchmarks are not modelled.

## Areas

| files | code modelled | properties |
|-------|---------------|------------|
| `Kv*`, `Undo*`, `DbKey*` | `persistence/dbaccess.h`, `leveldbwrapper.h`, `blockundo.*`, `dbconf.h`: composite and simple caches, layers, batch, op-log, undo by prefix, key layout | C01–C04, C46 |
| `Account*`, `Tx*`, `Perm*`, `Fee*` | `entities/account.*`, shared part of `tx/tx.cpp`, `tx/cointransfertx.cpp`, `tx/assettx.cpp` and `dexoperatortx.cpp` (fees), permission tables | C05–C08, C45, C49, C50 |
| `Vote*` | `entities/vote.h`, `tx/delegatetx.cpp`, `persistence/delegatedb.cpp`, change of rules in `main.cpp` | C09, C10, C54, C55 |
| `Dex*` | `tx/dextx.cpp`, `entities/dexorder.*`, `persistence/dexdb.cpp` | C11–C13, C40, C53 |
| `Cdp*`, `Double*` | `entities/cdp.*`, `persistence/cdpdb.cpp`, `tx/cdptx.cpp`, `tx/blockpricemediantx.cpp` (forced liquidation, interest) | C14, C15, C35, C36, C44, C56–C58 |
| `Utxo*` | `tx/coinutxotx.cpp`, `entities/utxo.h`, `persistence/txutxodb.cpp` | C16–C18, C51, C52 |
| `Gov*`, `SysParam*`, `Axc*` | `tx/proposaltx.cpp`, `entities/proposal.cpp`, `persistence/sysgoverndb.h`, `sysparamdb.h`, `axcdb.h` | C19, C20, C39, C47, C48 |
| `Codec*`, `Base58*` | `commons/serialize.h`, `leb128.h`, `base58.cpp`, `entities/id.*`, `key.h` | C23–C26, C42 |
| `Container*`, `Merkle*` | `commons/mruset.h`, `limitedmap.h`, `bloom.*`, `miner/pbftlimitmap.h`, `chain/merkletree.*`, `persistence/block.cpp` | C31, C33, C43, C60–C62 |
| `Chain*` | block index and active chain: `chain/chain.*`, `main.cpp` (GetAncestor, BuildSkip, AddToBlockIndex, LoadBlockIndexDB), locators | C28, C59 |
| `Select*`, `Final*`, `Best*` | `main.cpp` (FindMostWorkChain, ActivateBestChain, ConnectTip, ProcessForkedChain, AcceptBlock), `miner/pbftmanager.cpp`, `pbftcontext.*` | C29, C30, C63–C65 |
| `Sched*` | `miner/miner.cpp` (GetCurrentDelegate, ShuffleDelegates, VerifyRewardTx), `chain/blockdelegates.cpp`, `main.cpp` (AcceptBlock: height and time) | C32, C66, C67 |
| `Price*` | `persistence/pricefeeddb.cpp`, `tx/pricefeedtx.cpp` (AddPrice), `tx/blockpricemediantx.cpp` (comparison of prices), `main.cpp` (when the cache of prices is filled, undone and copied), `init.cpp` (reload) | C21, C22, C68 |
| `Replay*` | `persistence/txdb.cpp`, `tx/tx.cpp` (IsValidHeight), `main.cpp` (CheckBlock, ConnectBlock, DisconnectBlock, ProcessForkedChain: repetitions), `init.cpp`, `rpc/rpctx.cpp` (reloadtxcache), `tx/txmempool.cpp` (CheckTxInMemPool, ReScanMemPoolTx without execution), `miner/miner.cpp` (GetPriorityTx) | C27, C69 |
| `Iter*` | `persistence/dbiterator.h`, `config/scoin.h` (CCdpCoinPair), `persistence/cdpdb.h` (the keys of the index of loans by height) | C41 |
| `Regid*` | `tx/tx.cpp` (CheckBaseTx: the sender; RegisterAccount, NewAccount), `tx/accountregtx.cpp`, `tx/contracttx.cpp` (deployments), `tx/coinminttx.cpp`, `tx/blockrewardtx.cpp`, `main.cpp` (ProcessGenesisBlock, ConnectBlock: positions of transactions and rewards), `miner/miner.cpp` (VerifyRewardTx: the account of the reward) | C34, C70 |
| `Reward*` (over `RegidModel`) | `main.cpp` (ConnectBlock: the check of reward values, rewards that mature), `tx/blockrewardtx.cpp` | C37 |
| `Single*`, `Fuel*` | `miner/miner.cpp` (GetElementForBurn, the totals of CreateNewBlockForStableCoinRelease), `main.cpp` (ConnectBlock: fuel and fees), `tx/tx.cpp` (GetTxMinFee, GetFuelFee, CheckFee), `tx/contracttx.cpp` (GetFuelLimit, CheckTx and GetFuelFee of deployments), `tx/universaltx.cpp` (fuel and its fee), `persistence/block.h` (the fuel fields); `float` arithmetic by Flocq's binary32 | C71, C72, C73 |
| `Intake*` | `main.cpp` (ProcessBlock, CheckBlock, AcceptBlock, AddToBlockIndex, PruneOrphanBlocks, IsSuperMajority, the first assertions of ConnectBlock), `p2p/chainmessage.cpp` (ProcessBlockMessage), `persistence/cachewrapper.cpp` (GetBlockBpRegid) | C74, C75 |
| `Pool*` | `tx/txmempool.cpp`, `main.cpp` (AcceptToMemoryPool, ConnectTip, DisconnectTip, ActivateBestChain, ConnectBlockOnFinChain: the pool; ConnectBlock: the loop over transactions), `miner/miner.cpp` (the loop of CreateNewBlockForStableCoinRelease), `persistence/dbaccess.h` (what a layer remembers), `rpc/rpctx.cpp` (droptxfrommempool); what transactions do is left open | C38, C76, C77 |
| `Order*` | `config/scoin.h` (CCdpCoinPair's operator<), `persistence/dbaccess.h` (CCompositeKVCache over `std::map`), `persistence/sysparamdb.h` (the keys of CDP parameters), `miner/miner.h` (TxPriority), `miner/miner.cpp` (GetPriorityTx), `tx/tx.h`, `tx/pricefeedtx.h` (GetPriority); `std::map` and `std::set` as search trees searched and filled as libstdc++ does, with rotations left open; `double` by Flocq's binary64 | C78, C79 |
| `Lua*` (over `TxModel`) | `vm/luavm/appaccount.h`, `appaccount.cpp`, `luavmrunenv.cpp`, `lmylib.cpp` (the calls that move coins), `tx/contracttx.cpp` (ExecuteTx of the two kinds of call), `tx/tx.cpp` (ExecuteFullTx); the interpreter, its fuel, the reading of tables and a script's own data are not modelled: a script is the list of its calls, whatever it is | C80, C81, C82, C83, C84 |
| `Wasm*` (over `TxModel`, `FeeModel`, `RegidModel`) | `tx/universaltx.cpp`, `vm/wasm/wasm_context.cpp`, `wasm_context.hpp`, `wasm_interface.cpp` (the calls that change something or fail), `wasm_native_module.hpp`, `wasm_native_bank_module.hpp`, `wasm_native_voting_module.hpp`, `wasm_native_commons.hpp`, `datastream.hpp`, `types/*.hpp` (what these need), `tx/tx.cpp` (CheckBaseTx, ExecuteFullTx), `entities/asset.cpp` (CheckSymbol); the machine is not modelled: a program is any function from code, inline transaction, receiver and state to the calls it makes | C85, C86, C87, C88, C89, C90, C91, C92, C93, C94 |
| `Wire*` (over `CodecModel`) | `tx/txserializer.h`, the `IMPLEMENT_SERIALIZE` and `SerializeTxHash` of all 36 types in `tx/*.h`, `entities/proposal.h`, `entities/utxo.h`, `entities/contract.h`, `entities/vote.h`, `commons/serialize.h` (numbers, strings, vectors, pairs, maps), `persistence/block.cpp` (ComputeSignatureHash), `p2p/protocol.cpp` (CPBFTMessage::GetHash), `rpc/rpcwallet.cpp` (signmessage), `tx/coinutxotx.cpp` (ComputeUtxoMultisignHash); the hash function is not modelled: what is hashed is compared. `WireSpec` names the variables of the classes; `WireForm` and `WireBridge` belong to the proofs | C95, C96, C97, C98 |
| `Crash*` | `persistence/cachewrapper.cpp` (CCacheDBManager::Flush), the `Flush` of every cache in `persistence/`, `main.cpp` (WriteChainState, ConnectTip, DisconnectTip, ConnectBlock, DisconnectBlock: what they do to the tables as a whole; LoadBlockIndexDB, VerifyDB); the transactions of a block are any program of reads and writes, a batch of LevelDB is written as a whole | C99 |
| `Money*` (over `DoubleModel`) | `rpc/core/rpccommons.cpp` (ParseRpcInputMoney with its helpers, GetComboMoney), `rpc/core/rpcserver.cpp` (AmountToRawValue), `commons/util/util.h` (roundint64), `config/const.h` (units), `config/chainparams.h` (JsonValueFromAmount); the JSON parser is not modelled | C100 |
| `Frame*` | `p2p/node.h` (BeginMessage, EndMessage, PushMessage, GetTotalRecvSize), `p2p/node.cpp` (SocketSendData, CloseSocketDisconnect, ReceiveMsgBytes), `p2p/netmessage.*`, `p2p/protocol.cpp` (CMessageHeader), `p2p/processmessage.hpp` (ProcessMessages), `net.cpp` (ThreadSocketHandler: when a socket is read); one direction of one connection; the hash and what handling a message does are parameters | C101, C102 |
| `Store*` (over `CodecModel`, `WireModel`, `DbKeyModel`) | the tables of `persistence/*db.h` (51 of them), the `IMPLEMENT_SERIALIZE` and `IsEmpty` of their records in `entities/`, `persistence/` and `vm/luavm/appaccount.h`, `persistence/dbaccess.h` (SetData, GetData, Flush, db_util::IsEmpty), `persistence/leveldbwrapper.h` (CDbOpLog, CDBOpLogMap, Read), `persistence/blockundo.*`, `commons/serialize.h` (sets, maps, optional values), `entities/key.h` (public keys); not the tables of block indexes and files; the hash is a parameter | C103 |
| `Files*` | `main.cpp` (FlushBlockFile, FindUndoPos, FindBlockPos, the writing in ConnectBlock and AcceptBlock, LoadBlockIndexDB: the last file; LoadExternalBlockFile: what it passes on), `persistence/block.cpp` (WriteBlockToDisk), `persistence/blockundo.cpp` (WriteToDisk), `persistence/disk.*`, `persistence/blockdb.cpp` (information about files), `commons/util/util.cpp` (TruncateFile, AllocateFileRange on Linux); a process dies between single steps; failures of power and of disks, and files that cannot be opened, are not modelled | C104 |
| `Clock*` | `commons/util/util.cpp` (GetTimeOffset, GetAdjustedTime, AddTimeData), `commons/util/util.h` (CMedianFilter, abs64), `main.cpp` (CheckBlock: blocks from the future), `p2p/chainmessage.cpp` (ProcessVersionMessage: its call of AddTimeData only) | C105 |
| `Alert*` | `alert.cpp` (IsInEffect, Cancels, AppliesTo, RelayTo: what a peer is known to have, CheckSignature, ProcessAlert), `p2p/chainmessage.cpp` (ProcessAlertMessage, ProcessVersionMessage: relaying alerts, short messages), `p2p/processmessage.hpp` (what may come before a version message); the check of signatures and the reading of messages are parameters; penalties for peers are a model of their own | C106 |
| `Penalty*` | `main.cpp` (Misbehaving), `p2p/sendmessage.hpp` (SendMessages: bans), `p2p/node.cpp` (InitializeNode, FinalizeNode: scores; IsBanned, Ban), `net.cpp` (ThreadSocketHandler, OpenNetworkConnection: whether an address is banned); what peers are blamed for, when connections end and other reasons to refuse them are arbitrary | C107 |

Areas are connected by theorems rather than by one big state. The caches behave as maps
(`c01_layered_cache_is_a_map`), so later areas use maps. The in-memory account objects of a
transaction act on the ledger (`c50_transaction_acts_on_ledger`), so later areas change the ledger
directly. A failed transaction leaves nothing behind (`c04_block_undo_restores`). The place where a
later area uses this is stated at the head of its model file.

## Not modelled

* The interpreters of contracts: of Lua contracts only what their calls do with coins, of WASM contracts only
  the calls they make to the node that change something or fail; the validation of code and interfaces.
* Wallet, key storage, RPC, P2P networking below the messages named above, address manager, alerts.
* The reading and writing of files, and a process that dies between two writes.
* Concurrency: every event runs alone.
* Lendings and the parts of each file its model's head leaves out.

## Findings

What the proofs turned up, with the theorem where there is one. Line numbers refer to `/repo/src`.

Money
* Balance operations wrap if the total of a token does not fit 64 bits; a refused two-party addition leaves the credit in memory (`c05_without_bound_refuted`, `c05_refused_add_changes_balance_refuted`).
* The reserve's share of asset and operator fees is computed with a product that wraps (`c08_risk_share_refuted`).
* UTXO inputs are never compared by token (`c17_token_swap_refuted`), output sums wrap (`c17_output_sum_refuted`).
* A signature given twice counts twice in a multi-signature (`c18_repeated_signature_refuted`).
* An UTXO condition of type 0 is a null pointer that is dereferenced (`c52_null_condition_refuted`).
* A reclaim lock binds the creator only; outputs without conditions are open to everyone; acceptance depends on the local option -txindex (tx/coinutxotx.cpp:13).
* The same foreign transaction in other letter case mints again (`c39_txid_text_refuted`).
* Adding to a position with interest due creates coins without debt (`c57_gift_refuted`).
* Parameters governance accepts let a liquidation create almost 2^64 coins (`c57_underpaid_refuted`); above 2^53 rounding does so too (`c44_part_refuted`).
* A market buy is settled in wrapped arithmetic (`c12_market_buy_refuted`).

Stopping a node (failed assertion, null pointer, undefined behaviour)
* A limit order with an extreme price (`c40_price_refuted`), a settlement of extreme amounts (`c53_extreme_amounts_refuted`).
* A received user id with an invalid public key (`c26_userid_received_refuted`).
* A received registration id with a height above 2^31-1 read as text (`c26_text_refuted`).
* A Bloom filter with no bytes (`c43_no_bytes_undefined`).
* A median price of 0 without debt: division by zero in the bound of the list of positions.
* The CDP ratio key converts a double that may exceed 64 bits.

Consensus and chain
* The number of producers for finality is taken from the block a message names as the one before, which nobody checks, so one producer can make a block final (`c30_number_refuted`); messages for blocks below the tip are refused (`c30_tip_only`).
* A higher fork without the final block keeps a node from better blocks on its own side (`c63_held_refuted`).
* A restart may change between tips of the same height (`c63_restart_refuted`).
* `chainActive.TipBlock()` is wrong after a disconnection and empty after a start (`c59_block_refuted`); it is used for the producer in main.cpp:269, tx/txmempool.cpp:116.
* Block locators overflow above height 2^30 + 9 (`c59_locator_refuted`).
* `nStatus | BLOCK_FAILED_MASK` in main.cpp:1795 is always true.
* A failure that may be corruption is never reported as such, as main.cpp:995-996 clears the flag; a block failing with a system error is not marked and is tried again at every activation.
* The finality messages are processed without the main lock.
* With 383 governors the threshold wraps to 0 (`c19_byte_count_refuted`); approvals of removed governors count (`c19_former_governor_counts_refuted`).
* Two parameters changed at once can break the order of ratios (`c20_two_ratios_refuted`); zero reads back as the default (`c47_zero_refuted`); a pending change of the number of producers is lost (`c47_pending_block_producers_refuted`).
* A hundred due positions in the first of two pairs make a node propose more than validation accepts (`c36_limit_refuted`, `c36_accepted_refuted`).
* Forced liquidation stops at the first position the reserve cannot pay for (`c35_affordable_refuted`).
* Votes given in release 1 to an unregistered account cannot be taken back in release 2 (`c55_unregistered_refuted`); rankings miss or keep accounts (`c10_unregistered_refuted`, `c10_zero_votes_refuted`).
* A cleared account can still send types missing from the table of rights (`c49_cleared_account_refuted`); proposals can grant undefined rights (`c45_only_defined_grants_refuted`).

Encodings and containers
* Over-long integers, user ids of odd lengths and text after a terminator are accepted (`c23_one_encoding_refuted`, `c26_userid_one_encoding_refuted`, `c42_terminator_refuted`).
* Bounds and recency of containers (`c33_map_at_refuted`, `c33_set_recent_refuted`, `c60_highest_refuted`), Merkle trees with a wrong count (`c31_count_refuted`).
* The order of producers changes from round to round, so one producer may be on duty in two
  slots in a row, the last of a round and the first of the next (`c32_any_round_refuted`). Before
  the third release the order changes with the height while the place in it goes by the time, so
  empty slots make a round unfair (`c32_old_refuted`).
* The average of the two middle prices is computed in 64 bits and wraps for prices of 2^63 and more:
  the median of equal prices can be zero (`c21_overflow_refuted`).
* No rule makes a block list its price feeds before other transactions, but disconnecting a block
  and reloading at a start stop at the first transaction that is not a feed. One block with a feed
  after the median splits nodes that restart from those that do not (`c22_trailing_refuted`).
* When governance makes the price window larger, a node that restarts loads blocks which a running
  node has forgotten, and they disagree on the next median (`c22_resize_refuted`).
* A pair that may be fed again takes prices still in the window but no feed height, so its price
  counts as never fed (`c68_height_refuted`).
* At a start, blocks that are stored but not connected in the written state are connected before the
  memories of transaction ids and of prices are loaded. A block that repeats a transaction passes
  then (`c27_start_refuted`), and a good block may be rejected for its medians (`c22_start_refuted`).
* The pool checks valid heights against the height of the next block, a block against the height of
  the one before. A transaction with a valid height of tip + 1 + half the window enters the pool,
  producers take it, and their blocks are invalid (`c69_edge_refuted`).
* Medians and rewards have no valid height, so the same one may be confirmed twice
  (`c27_median_refuted`, `c27_reward_refuted`). A node that reloaded its memory on request holds one
  block more than others and rejects such a block (`c27_split_refuted`).
* The transactions of the first block are not remembered (`c27_first_refuted`; whether they would
  execute again is not modelled).
* Token symbols are compared as strings but stored behind their length, so caches and the database
  are in different orders and their merge is wrong: with symbols of different lengths an erased asset
  is listed and an overwritten one is listed twice (`c41_erased_refuted`, `c41_stale_refuted`). Once
  the database holds a loan against a collateral with a longer symbol, a loan of WICC that is only in
  a cache is not found (`c41_loans_refuted`). Nodes that have written their caches at different times
  then list different loans; the list of loans to liquidate (tx/blockpricemediantx.cpp:303) is made
  this way, from a key of the same kind.
* The comparison of pairs of collateral and stable coin is no order once there are two stable coins
  (`c41_pairs_refuted`); today there is one (config/const.h:71-75).
* A contract's address is the hash of the position of its deployment, which anyone can compute before.
  The deployment makes a new account there without looking for one, so coins that were sent to the
  address are destroyed (`c70_refuted`).
* A registration id holds 16 bits of the index of a transaction, and no rule limits the number of
  transactions to 65536, only the size of a block to 4,000,000 bytes (main.cpp:1820-1821). With the
  60 bytes that chain/merkletree.cpp:100 gives as the least size of a transaction, 66666 fit. Two
  accounts registered 65536 transactions apart have the same id (`c34_wrap_refuted`).
* In a genesis block with two votes, candidates of the second get ids of the first
  (`c34_genesis_refuted`); the real genesis blocks have one (config/chainparams.cpp:356-374).
* A registration id is the position of a transaction, so after a reorganisation it may belong to
  another account (`c34_reorg_refuted`): whoever sends to an id, or signs a transaction that names
  one, before it is final may pay someone else.
* A universal transaction's fee is checked against whole hundreds of fuel, its fuel fee is rounded up
  (tx/universaltx.cpp:195-202, tx/tx.cpp:86-88). With a fee that just covers the check and fuel that is no
  multiple of a hundred, the fuel fee is above the fee, and the assertions at main.cpp:1099 and
  miner/miner.cpp:545 fail. Anyone can send such a transaction; every producer that takes it, and every
  node that is sent a block with it, stops (`c71_uni_refuted`).
* Once governance lowers the minimum fee for deployments, the check of a fresh object uses no fuel, the
  fuel fee after execution uses the contract's size, and the same assertion fails
  (`c71_low_fee_refuted`). Below that the verdict depends on whether the object has been executed before
  (`c72_history_refuted`).
* A header holds 64 bits of the fuel fee and returns 32 of them (persistence/block.h:69, 117). A deployment
  burns at least one coin, so a block of 43 deployments states a fee that no node can find right; a
  producer with so many in its pool makes blocks that its own node refuses (`c72_refuted`). The fuel and
  size limits allow it.
* The fuel rate is cut to a whole number after each step. Below 10, a rise by a tenth is lost, so a quiet
  period takes the rate below 10 for good; a chain that is idle from its start has a rate of 1 after 131
  blocks (`c73_stuck`, `c73_stuck_ex`).
* A block whose reward is not sent by a registration id makes `GetBlockBpRegid` throw
  (persistence/cachewrapper.cpp:323-335) after the block is in the index and before its reward and
  signature are checked. The exception is caught as a system error, and the node shuts down
  (main.cpp:1620, 1954-1957, 2207-2213). Anyone can make such a block on top of the tip
  (`c74_sender_refuted`).
* A block with a null previous hash and a height other than 0 is not kept as an orphan and fails the
  assertion at main.cpp:1894. Anyone can make it, for every state of the node (`c74_null_refuted`).
* The assertions on the block that releases the stable coin come before the check of its producer
  (main.cpp:1019-1034), so a node that reaches this height while it catches up can be stopped by anyone
  (`c74_release_refuted`).
* The set from which orphans are dropped is ordered by height alone (main.cpp:86-97), so it holds one of
  several orphans at the same height. The others are dropped only when their predecessors arrive. A peer
  can fill all 751 places with blocks of up to 4,000,000 bytes for good; from then on a node keeps no
  block that is not lower than the highest in that set (`c75_refused_refuted`).
* A block that is put into the index and then fails leaves its followers in the store of orphans. They
  are refused as known when they are sent again (`c75_waiting_refuted`).
* The height shown as that of the network is taken from any block without a known predecessor
  (main.cpp:2132-2135), converted from uint32_t to int32_t. It is outside the model, as it is only shown.
* The test that refuses version 1 blocks once most blocks have version 2 never applies, as no other
  version than 1 passes CheckBlock (main.cpp:1824-1827, persistence/block.h).
* Heights are compared as int32_t in the store of orphans. A block that claims a height of 2^31 or more
  (nobody has to sign it) sorts below every honest block and is never dropped; 751 of them close the store
  for good (`c75_full_refuted`).
* A block reward of the older kind is taken at every height (main.cpp:1118-1123 does not ask for the release),
  and promises the WICC fees only: the WUSD fees of its block and the inflation go to nobody
  (`c37_lost_refuted`).
* On the test net below height 200000 the fees of a reward are not compared with those of the block
  (main.cpp:1127-1128). A reward with a third token is taken, fails when it matures (blockrewardtx.cpp:75-77),
  and no block can be connected 100 blocks later (`c37_stuck`, `c37_stuck_refuted`).
* A reward is added to the balance without a test for overflow; `c37_once` is exact modulo 2^64, and exact where
  there is room.
* A rescan of the pool goes through it in the order of ids (txmempool.cpp:146), not of acceptance. A
  transaction that depends on another one with a greater id is thrown out by the next block, whatever is in it,
  and erased from the wallet (`c38_lost_refuted`).
* When a change of the chain breaks off, at an invalid block after valid ones, the pool is not rescanned
  (main.cpp:1559-1575): it keeps transactions that cannot be executed, and the layer of the old chain
  (`c38_stale_refuted`).
* The pool executes transactions at an index that counts those thrown out in a rescan, and afterwards at the
  size of the pool (txmempool.cpp:73 and 145-146): two transactions are executed at the same place of the same
  block (`c38_index_refuted`).
* The transactions of a disconnected block are offered to the pool while its layer holds what the pool executed
  on top of them (main.cpp:1376-1387), and removed if refused; so they are lost (`c76_lost_refuted`). The blocks
  are offered from the last to the first, so a transaction that depends on one of an earlier block is lost too.
* A rescan executes transactions, but does not check them again (txmempool.cpp:123): one that fails its checks
  only (after a change of parameters, say) stays until its range of heights is past. In the model a rescan
  uses `exec` alone.
* The comparison of CDP coin pairs (scoin.h:179-181) is true in both directions when one pair has the smaller first
  and the larger second symbol; `std::map` then behaves as its tree happens to be. CGovCdpParamProposal::CheckProposal
  (proposal.cpp:341-411) accepts every pair of symbols (`c78_any_pair`). After a proposal for WUSD:WICC a value set
  for WICC:WUSD is not found (`c78_lost_refuted`), is found by a node that flushed in between (`c78_flush_refuted`),
  or the cache throws at the second reading or when a block is flushed (`c78_throw_refuted`, `c78_block_refuted`).
  The models of the caches and of the parameters (`KvModel`, `SysParamModel`) take the maps to work. The same
  comparison in CAssetTradingPair is not used for keys.
* The comparison of candidates for a block (miner.h:50-60) takes `fabs` of a comparison instead of a difference,
  and is no order (`c79_comparison_refuted`). It works all the same, because the pool's map is gone through by
  hashes and priorities are at most 1000 or 20000 (`c79_all`, `c79_order`).
* The fee left after the fuel is a difference of unsigned numbers (miner.cpp:104). When the fuel rate has risen, a
  transaction whose fee no longer covers its fuel is looked at first (`c79_fuel_refuted`).
* The settlement of interest is given the ceiling of priorities and no fee (miner.cpp:467). Priorities within 1000
  of each other count as equal, so it is looked at after every transaction that leaves a fee (`c79_block`), and is
  left out when size or time run out before; nothing else demands that a block have it.
* A script's transfer to text that is no address is paid to the empty key id (lmylib.cpp:616-620), whose account is
  never stored (dbaccess.h:408-411); the coins are gone (`c80_transfer_to_nobody_refuted`). The same for outputs up
  to the second fork version (luavmrunenv.cpp:277-289, `c80_output_to_nobody_refuted`).
* The check of a contract's books casts the sum of withdrawals from `uint64_t` to `int64_t` (luavmrunenv.cpp:245).
  Three outputs of 2^62 into the contract and three out of it, which cancel out, let the books of a user grow by 2^62
  (`c81_books_wrap_refuted`). The check sees outputs only, not direct transfers (`c81_transfer_unseen_refuted`).
* A script can stop every node that executes it: by freezing coins in the books without a height, by adding zero to
  a fund there is, by taking from a fund with a height beyond 2^31, which all fail assertions (appaccount.cpp:37-56,
  144-162), by a kind of operation there is none of if the node logs errors (appaccount.cpp:257-277), and by a tag of
  more than 40 bytes (appaccount.h:107-114) (`c82_stops_the_node_refuted`, `c82_reads_past_the_tag_refuted`).
* Moving all of a sender's coins in the books reads the height of the active chain, carrying out the requests the
  height of the block (lmylib.cpp:2054, luavmrunenv.cpp:480-517): a call can be valid when it is connected and
  invalid when the block is executed with another tip (`c83_tip_matters_refuted`).
* A list of transfers that fails in the middle is kept up to there, and the script goes on (luavmrunenv.cpp:330-366,
  `c84_all_or_nothing_refuted`). An output beyond the limit of 100 is kept although the call returns false
  (luavmrunenv.cpp:441-447, `c84_outputs_unlimited_refuted`).
* The payer of a universal transaction authorizes under the number of its registration id (universaltx.cpp:101-146).
  A payer known by public key alone has none when the transaction is checked, so it authorizes as number 0. Anyone
  can so replace the code of a contract that was deployed with maintainer 0 (`c86_nobody_refuted`).
* When an extra signer does not exist or has no public key, the message about it has more arguments than places
  (universaltx.cpp:123-129). tinyformat throws, and CheckTx does not catch (`c89_exception_refuted`).
* The number of a contract has 64 bits, its registration id is made of 48 of them (id.cpp:74-77); bits 16 to 19 and
  above 51 are dropped. Code, coins and permissions of modules are looked up by the id, data are kept under the
  number (wasm_interface.cpp:135-138). The same code works on other data when called by another number
  (`c88_alias_refuted`). The test that a transfer is not to oneself compares numbers too.
* A notified account that is a built-in module would run the module with the permissions of the inline transaction.
  This is prevented only because an account must exist to be notified, and 0-100, 0-800 and 0-900 cannot be
  registered; `sane` states it (`st_modules`), and `c93_order` proves that it stays so.
* The depth of inline transactions is tested after the context was executed (wasm_context.cpp:114-141): a context at
  depth 4 always fails, even without inline transactions of its own.
* The time limit is read from the clock of the node also when blocks are connected (universaltx.cpp:246-360):
  whether a block is valid depends on how fast a node is (`c91_clock_refuted`).
* A vote writes the candidate's new place in the ranking and then erases the old one
  (wasm_native_voting_module.hpp:77-132). For a vote of 0 they are the same, so the candidate is erased
  (`c92_zero_refuted`). The sum of votes is of signed numbers without a test before.
* A payer known by public key alone is registered at the position of the transaction (tx.cpp:290-311), and so is a
  contract deployed by it: two accounts have the same registration id (`c93_shared_refuted`).
* Only the payer's right to call contracts is checked (`c94_cosigner_refuted`).
* A length is read by shifting a 32-bit number without a bound (datastream.hpp:1090-1101, `c89_length_refuted`).
* setcode and setcoder do not charge for the size of their inline transaction (wasm_native_module.hpp:83-190), so
  code deployed by contracts is not paid for by size. The new maintainer is not asked.
* The fees of a transaction that settles the interest of debt positions are sent but not hashed (cdptx.h:198-211), and
  its check does not look at them (cdptx.cpp:878-891). Whoever relays it can change them; id and signature stay valid
  (`c96_settlement_fees_refuted`).
* Heights and versions of transactions are signed numbers written by `WriteVarInt`, whose test `n <= 0x7F` takes a
  negative number for a small one (serialize.h:322-337). A height of -1 can be received and is hashed and passed on as
  127: two transactions have one id (`c96_negative_height_refuted`, `c97_negative_height_refuted`).
* A public key of 33 bytes with a wrong first byte is received, and the writer of keys asserts that it is valid: the
  node stops when it computes the id (`c97_invalid_key_refuted`).
* `ReadVarInt` has no limit on the number of bytes; for a signed number the sixth shifts out of range, which is
  undefined (`c97_defined_refuted`).
* The bytes of a message are not fixed by the transaction: flags are read from any byte, maps from any order of their
  keys, the kind of a condition is written twice and the inner one is ignored
  (`c97_one_transaction_one_message_refuted`). Sizes, and so the limits on blocks and fees by size, are those of what the
  node would write itself.
* The id of a block does not cover the signatures of its transactions. A copy of a valid block with a broken one has
  the same hash; the node that connects it first marks the hash as failed (main.cpp:519-536). By reading; not modelled.
* What separates block headers from transactions is the version of blocks alone (main.cpp:1824-1828): the second to
  fourth bytes of the header are 0, and no transaction has type 0. With another version there is a header that is also
  a transaction (`c98_block_version_refuted`). The version of a transaction is checked only on the way into the pool.
* The state is written table by table, each with a batch of its own (cachewrapper.cpp:261-301), to fifteen databases.
  A process that dies amid it leaves some tables new and some old. The accounts come before the best block: the node
  starts with the block before, connects the newest block a second time, and payers are debited twice
  (`c99_paid_twice_refuted`). The unspent outputs, governance, swaps and prices come after the best block: a spent output is
  unspent again, and the node accepts what all others refuse (`c99_spent_twice_refuted`). In normal operation the state is
  written after every block (main.cpp:1289-1290).
* The check of the database at start (VerifyDB) disconnects blocks on a layer that it drops and compares nothing. It
  accepts every state that crashes can leave (`c99_check_accepts`), and no assertion fails (`c99_goes_on`).
* An amount typed with a unit and no symbol is always one of WICC (rpccommons.cpp:152 leaves out the default of the
  caller): submitcdpstaketx and submitdexbuymarketordertx, whose default is WUSD (rpcscoin.cpp:204, rpcdex.cpp:442), take
  "10:wi" as WICC (`c100_default_refuted`). A typed amount of 2^63 or more is taken as 2^63 - 1 (`c100_large_refuted`). A
  JSON integer goes through a `double` to which 0.5 is added, so that those of 2^52 and more, 45 million coins, can change:
  2^52 + 1 becomes 2^52 + 2 (`c100_number_refuted`).
* A message that is shorter than its handler expects is answered with a REJECT, and then its data are printed
  (processmessage.hpp:231-235). If the socket breaks on that answer, `SocketSendData` calls `CloseSocketDisconnect`, which
  clears the queue of received messages when it gets the lock (node.cpp:139-154; the same thread holds it already, and it is
  recursive), and the data printed are freed memory (`c101_freed_refuted`).
* A socket in the error set of `select`, as by urgent data of TCP, is read although the messages that wait exceed
  `-maxreceivebuffer`; a peer that keeps sending such data and small messages fills the memory (`c102_bound_refuted`).
* Strings are written at any length, but read up to 4,000,000 bytes (serialize.h:572-589), and a record that cannot be
  read counts as absent (leveldbwrapper.h:188-193): a longer record vanishes when its cache is flushed
  (`c103_long_refuted`). Undo data hold whole records as strings, so that a block that replaces a record of more than
  4,000,000 bytes, even one that is itself read without trouble, cannot be disconnected (`c103_undo_long_refuted`).
* Whether a record is empty is decided by some of its variables only: an exchange operator that is activated, with an
  open mode and a list of operators but nothing else, is erased when it is stored (`c103_lost_refuted`).
* With `-reindex`, `FindBlockPos` adds the sizes of the blocks that are found (main.cpp:1674) instead of looking at their
  positions. If the node ever died between noting the size of a file and writing a block into it, the file has a gap, the sum
  is less than the end of the last block, and the next block that comes in is written over it (`c104_gap_refuted`).
* The size of a file of undo data is a `uint32_t` that nothing bounds: after 2^32 bytes the file is written again from its
  start, over undo data that are still needed (`c104_wrap_refuted`).
* The warning that the computer's date and time may be wrong is never given. The filter of time differences begins with a 0
  (util.cpp:870), which counts as a peer that agrees (util.cpp:889); when it has been displaced there are 200 differences, and
  only odd numbers of them are looked at (util.cpp:875) (`c105_warning_refuted`).
* The time in a version message is any 64-bit number: `nTime - GetTime()` (util.cpp:861) overflows for the least ones, and
  `abs64` for a difference of -2^63 (`c105_overflow_refuted`).
* An alert that cancels the id 2147483647 removes the alert of a compromised key, which is meant to be the last
  (alert.cpp:180-191 comes before the check at 194-200), and that alert expires in 2038 (`c106_final_refuted`).
* An alert that was cancelled removes what it cancels before it is refused, and is accepted again from anyone when the alert that
  cancelled it has expired (`c106_cancelled_refuted`).
* A version message that ends after the version is rejected, but the version has been set (chainmessage.cpp:254) and the
  connection stays: such a peer skips the checks of ProcessVersionMessage, is not sent the alerts that are kept, and by sending
  one of them makes the node run the `-alertnotify` command again, each time it connects (`c106_replay_refuted`).
* A peer that never sends a version message is blamed for each other message (processmessage.hpp:24-27), but nothing comes of it:
  SendMessages, which bans, returns before it looks at the score (sendmessage.hpp:30-32) (`c107_silent_refuted`).
* A score belongs to a connection and is acted upon later: a peer that leaves first is not banned, one that comes back begins
  with 0, other connections of a banned address go on, and `addnode` by name ignores bans (net.cpp:1123-1128)
  (`c107_ban_refuted`). The score of a local peer is never bounded and overflows in the end (`c107_overflow_refuted`).

## Wrong programs

`seeded/LOG.jsonl` has one line per attempt: a definition of a model edited in a scratch copy, the
claim this breaks, and the theorems that failed. "Failed" means that some proof stopped building.
The list names the lemma where it stopped and the manifest theorems that use it, directly or through
other lemmas. It does not show that no other proof of the theorem exists, except where an instance or
a refutation fails. Edits that no theorem noticed are logged too, with an empty list. They were
examined: some keep the behaviour (for example a test that another one makes redundant), the others
led to the theorems named under `tightened`.

## Corrections

* C45 first modelled `kAccountAllPerms` as 1023. The code has 2^64 - 1. Model and theorem were corrected.
* C30 first stated the overlap with a strict bound, false when the number of producers is divisible by 3.

## Trusted base

* Coq's kernel, including its `vm_compute` machine.
* The reading of the C++ recorded in the comments of the model files, and the statements themselves.
* The axioms below, all from the standard library. Theorems not listed are closed under the global
  context, that is, they use no axiom at all.

469 theorems, 408 of them closed.

* `ClassicalDedekindReals.sig_forall_dec`, `ClassicalDedekindReals.sig_not_dec`, `Classical_Prop.classic`, `FunctionalExtensionality.functional_extensionality_dep`:
  `c14_indexes`, `c14_totals`, `c14_one_each`, `c15_list`, `c15_listed_low`, `c15_unlisted_high`, `c15_order`, `c15_answers`, `c15_no_debt_unlisted`, `c15_dust_refuted`, `c35_round`, `c35_pair`, `c35_affordable_refuted`, `c36_one_pair`, `c36_few`, `c36_limit_refuted`, `c36_accepted_refuted`, `c39_swap_in_exact`, `c39_fee_accurate`, `c39_swap_history`, `c39_txid_text_refuted`, `c44_amounts`, `c44_price_covers_debt`, `c44_part_refuted`, `c56_pledged_is_collateral`, `c57_debt_covered`, `c57_gift_refuted`, `c57_underpaid_refuted`, `c58_opened`, `c58_redeemed`, `c58_added_refuted`, `c71_deploy`, `c71_call`, `c71_uni`, `c71_connect`, `c71_assemble`, `c71_uni_refuted`, `c71_low_fee_refuted`, `c71_early_refuted`, `c72_accepted`, `c72_refuted`, `c72_history_refuted`, `c73_bounds`, `c73_first`, `c73_follows`, `c73_stuck`, `c79_all`, `c79_order`, `c79_block`, `c79_fuel_refuted`, `c79_comparison_refuted`, `c100_typed`, `c100_understood`, `c100_not_rounded`, `c100_default_refuted`, `c100_large_refuted`, `c100_shown_back`, `c100_number`, `c100_number_near`, `c100_number_negative`, `c100_number_refuted`.

