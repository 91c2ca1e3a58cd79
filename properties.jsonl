{"id": "C01", "title": "A stack of state caches over the database reads like one map", "statement": "Take any stack of state caches over the database (block cache over global cache over LevelDB). After any history of writes, erases and reads issued at the top of the stack, a read of a key returns exactly the value last written at or below the top, and reports 'absent' when it was never written or was erased last. Reads never change what any later read returns.", "quantifier": "every stack depth, every initial database content, every finite history of get/set/has/erase calls, every key", "why_tests_cant": "The number of histories and stack depths is unbounded; a stale read shows up only for particular interleavings of pull-through reads, erase markers and writes in different layers.", "anchors": ["src/persistence/dbaccess.h: CCompositeKVCache::GetData, SetData, HasData, EraseData, GetDataIt"]}
{"id": "C02", "title": "Flushing a cache layer changes nothing that a reader can see", "statement": "Committing a cache layer into the layer below (or into the database) leaves every key with the same value when read through the flushed layer, and from then on the lower layer alone answers every read as the stack did before the commit. A second commit with no writes in between changes nothing.", "quantifier": "every stack, every content of the flushed layer (values, erase markers, clean pulled-in entries), every key", "why_tests_cant": "Unit tests commit a few hand-picked keys; the claim covers every combination of markers and entries in both layers.", "anchors": ["src/persistence/dbaccess.h: CCompositeKVCache::Flush, SetDataToSelf, CSimpleKVCache::Flush", "src/persistence/leveldbwrapper.h: CLevelDBBatch"]}
{"id": "C03", "title": "The undo log of a history restores the state from before it", "statement": "If an operation log is attached while a history of writes and erases runs, then replaying the log with the undo function returns every key to the value it had before the history, including keys written several times and keys created or erased by it.", "quantifier": "every starting state, every history of writes/erases (successful or refused), every key", "why_tests_cant": "Correctness depends on the order of repeated writes to a key and on creation/erasure, over unboundedly many histories.", "anchors": ["src/persistence/dbaccess.h: CCompositeKVCache::AddOpLog, UndoData, UndoDataList", "src/persistence/blockundo.cpp: CBlockUndoExecutor::Execute"]}
{"id": "C04", "title": "Disconnecting a block restores the chain state of all stores", "statement": "After a block of any number of transactions has written to any mix of state stores under the per-transaction undo logger, executing the block's undo record returns every key of every registered store to its value before the block.", "quantifier": "every block (any number of transactions, any writes to any stores), every starting state", "why_tests_cant": "Reorganisations of arbitrary depth over arbitrary blocks cannot be enumerated by tests.", "anchors": ["src/persistence/blockundo.cpp: CTxUndoOpLogger, CBlockUndoExecutor::Execute", "src/main.cpp: DisconnectBlock, ConnectBlock", "src/persistence/dbaccess.h: CDBOpLogMap"]}
{"id": "C05", "title": "A balance operation never loses or creates units of a token", "statement": "A successful stake/unstake/freeze/unfreeze/vote/unvote/pledge/unpledge moves exactly the stated amount between the two named sub-balances of one account and changes nothing else. A successful two-party add, subtract or order-deal moves exactly the amount between the two accounts. No sub-balance that is debited goes below zero.", "quantifier": "every account state, token, operation kind, amount and peer for which the credited balance stays below 2^64", "why_tests_cant": "All 64-bit amounts and account states; unit tests sample a handful.", "anchors": ["src/entities/account.cpp: CAccount::OperateBalance"]}
{"id": "C06", "title": "Total token supply is invariant under any history of balance operations", "statement": "Starting from any ledger whose total of a token (over all accounts and all sub-balances) fits in 64 bits, any history of two-party and internal balance operations keeps the per-token total unchanged and no balance ever wraps around.", "quantifier": "every ledger, every finite history of balance operations between any accounts", "why_tests_cant": "Needs an invariant over unbounded histories; a wrap-around requires amounts that tests do not use.", "anchors": ["src/entities/account.cpp: CAccount::OperateBalance", "src/entities/account.h: CAccountToken"]}
{"id": "C07", "title": "A coin transfer conserves every token and charges the sender exactly", "statement": "When a multi-coin transfer executes, for each token the sum over all accounts falls by exactly the miner fee paid in that token (which is later credited as block reward) and by nothing else; each receiver gains the amounts addressed to it minus the stable-coin friction fee, which goes to the risk reserve.", "quantifier": "every ledger, every transfer list (repeated receivers, self-transfer, zero friction), every fee", "why_tests_cant": "Aliasing between sender, receivers and reserve accounts gives too many combinations to enumerate.", "anchors": ["src/tx/cointransfertx.cpp: CCoinTransferTx::ExecuteTx", "src/tx/tx.cpp: CBaseTx::ExecuteFullTx"]}
{"id": "C08", "title": "Issuance and operator fees are distributed exactly", "statement": "When an asset or DEX-operator fee is charged, the amounts credited to the risk reserve and to the block producers add up to exactly the fee taken from the payer, for every fee, ratio and number of producers; the producers' shares differ by less than the number of producers.", "quantifier": "every fee amount, every risk ratio up to 100%, every non-empty producer list", "why_tests_cant": "Rounding dust depends on the arithmetic relation of fee, ratio and producer count.", "anchors": ["src/tx/assettx.cpp: ProcessAssetFee", "src/tx/dexoperatortx.cpp: ProcessDexOperatorFee", "src/commons/util/util.h: CalcAmountByRatio"]}
{"id": "C09", "title": "Voting keeps the staked votes equal to the candidate list", "statement": "After any history of vote transactions accepted from an account, the voted amount of its base coin equals the sum of the votes in its candidate list (the maximum in the first release), the list is sorted in descending order, has no duplicate candidate, no zero entry and at most the maximum number of candidates.", "quantifier": "every history of vote lists, every account state, every candidate identification", "why_tests_cant": "The invariant must survive every history of additions and revocations.", "anchors": ["src/entities/account.cpp: CAccount::ProcessCandidateVotes", "src/tx/delegatetx.cpp: CDelegateVoteTx"]}
{"id": "C10", "title": "The delegate ranking always mirrors the received votes", "statement": "After any history of votes, the ranking index contains exactly one entry for each account with a positive number of received votes, carrying that number, and none for any other; listing the top N yields the N accounts with the most votes, in descending order of votes.", "quantifier": "every history of vote changes, every number of accounts, every N", "why_tests_cant": "A stale ranking entry appears only for particular sequences of equal and changing vote counts.", "anchors": ["src/persistence/delegatedb.cpp: CDelegateDBCache::SetDelegateVotes, EraseDelegateVotes, GetTopVoteDelegates", "src/tx/delegatetx.cpp: CDelegateVoteTx::ExecuteTx"]}
{"id": "C11", "title": "Active DEX orders are always fully backed by frozen funds", "statement": "After any history of order placements, settlements and cancellations, the frozen balance of each account in each token is at least the sum of what its active orders still may spend; in particular cancelling any active user order never fails for lack of frozen funds and refunds exactly the part not yet dealt.", "quantifier": "every history of order/settle/cancel operations by any users on any pairs", "why_tests_cant": "Escrow correctness is an invariant over all interleavings of users and partial fills.", "anchors": ["src/tx/dextx.cpp: CDEXOrderBaseTx::ExecuteTx, CDEXCancelOrderTx::ExecuteTx, CDealItemExecuter::Execute"]}
{"id": "C12", "title": "A DEX deal respects both orders and conserves both tokens", "statement": "Whenever a deal is executed, the deal price is not above a buy limit nor below a sell limit, no order exceeds its amount limit, the buyer pays exactly the dealt coins and the seller delivers exactly the dealt assets, and for both tokens the amounts received by seller, buyer, operators, producer and reserve add up to what was taken from escrow.", "quantifier": "every pair of orders, every deal amount and price, every fee ratio", "why_tests_cant": "Quantifies over all order states, 64-bit amounts and ratios.", "anchors": ["src/tx/dextx.cpp: CDealItemExecuter::Execute, CalcCoinAmount, CalcMatchFee"]}
{"id": "C13", "title": "A completed limit buy never deals more coins than it froze", "statement": "For a limit buy order filled by any sequence of partial deals, each at a price not above its limit and each rounded down, the total coins dealt never exceed the coins frozen when the order was placed, so completing the order always succeeds and returns the difference to the buyer.", "quantifier": "every order size and price, every sequence of partial deals", "why_tests_cant": "Depends on sums of roundings over arbitrarily many partial fills.", "anchors": ["src/tx/dextx.cpp: CalcCoinAmount, CDealItemExecuter::Execute"]}
{"id": "C14", "title": "CDP indexes and totals always agree with the CDPs", "statement": "After any history of opening, topping up, redeeming, liquidating and closing collateralised debt positions, the global staked and owed totals of each coin pair equal the sums over the open positions, each open position appears exactly once in the ratio index and once in the height index, and there are no other index entries.", "quantifier": "every history of CDP operations on any number of positions and pairs", "why_tests_cant": "Index drift appears after particular histories only; all histories must be covered.", "anchors": ["src/persistence/cdpdb.cpp: CCdpDBCache::NewCDP, UpdateCDP, EraseCDP, SaveCdpIndexData, EraseCdpIndexData"]}
{"id": "C15", "title": "Listing CDPs below a ratio returns exactly those, worst first", "statement": "Asking for the positions of a pair up to a collateral ratio returns each open position with ratio at or below the bound exactly once, in ascending order of ratio, and no other.", "quantifier": "every set of positions, every bound", "why_tests_cant": "The listing relies on byte order of encoded keys being the numeric order for all 64-bit values.", "anchors": ["src/persistence/cdpdb.cpp: GetCdpListByCollateralRatio", "src/commons/leb128.h: CFixedLeb128", "src/persistence/dbiterator.h"]}
{"id": "C16", "title": "A UTXO is spent at most once", "statement": "Over any history of UTXO transfer transactions, a given output (transaction id, index) is consumed successfully at most once, including twice within one transaction, and only if it was created earlier.", "quantifier": "every history of UTXO transactions with arbitrary inputs", "why_tests_cant": "Double-spend freedom is a statement about all histories.", "anchors": ["src/tx/coinutxotx.cpp: CCoinUtxoTransferTx::ExecuteTx", "src/persistence/txutxodb.cpp"]}
{"id": "C17", "title": "UTXO transfers conserve value", "statement": "A UTXO transfer neither creates nor destroys units of any token: for each token the account balances plus unspent outputs change only by the fee.", "quantifier": "every ledger, every UTXO transaction accepted by validation", "why_tests_cant": "Violations need extreme 64-bit amounts or mixed-token inputs which tests do not try.", "anchors": ["src/tx/coinutxotx.cpp: CCoinUtxoTransferTx::CheckTx, ExecuteTx"]}
{"id": "C18", "title": "An m-of-n output needs signatures of m different listed parties", "statement": "An output locked by an m-of-n multi-signature condition can be spent only with valid signatures by at least m distinct listed parties.", "quantifier": "every m, n, list of parties and list of supplied signatures", "why_tests_cant": "Quantifies over all signature lists, including repeated ones.", "anchors": ["src/tx/coinutxotx.cpp: VerifyMultiSig"]}
{"id": "C19", "title": "A governance proposal takes effect at most once and only with enough distinct approvals", "statement": "Over any history of proposal and approval transactions and any changes of the governor set, the action of a proposal is executed at most once, and only when as many different governors as required at its creation have approved it before it expired.", "quantifier": "every history of requests and approvals at any heights, every governor set evolution", "why_tests_cant": "Statement over all histories.", "anchors": ["src/tx/proposaltx.cpp: CProposalRequestTx::ExecuteTx, CProposalApprovalTx::CheckTx, ExecuteTx", "src/persistence/sysgoverndb.h: SetApproval, GetApprovalCount"]}
{"id": "C20", "title": "Governed CDP parameters keep their required order", "statement": "After any CDP parameter proposal that passed its checks is executed, start-collateral ratio > start-liquidation ratio > forced-liquidation ratio, and forced ratio times discount is at least 100%.", "quantifier": "every stored parameter set and every proposal content", "why_tests_cant": "Combination of several parameters in one proposal is not enumerable by tests.", "anchors": ["src/entities/proposal.cpp: CGovCdpParamProposal::CheckProposal, ExecuteProposal"]}
{"id": "C21", "title": "The median price follows the majority of the fed prices", "statement": "For any list of fed prices below 2^63 of which more than half lie between two bounds, the computed median lies between the same bounds (so it is always between the smallest and the largest), and it does not depend on the order in which prices were fed. For larger prices this fails.", "quantifier": "every list of 64-bit prices, every pair of bounds", "why_tests_cant": "All lists and all 64-bit values, including those overflowing the average.", "anchors": ["src/persistence/pricefeeddb.cpp: CPricePointMemCache::ComputeMedianNumber"]}
{"id": "C22", "title": "Nodes that hold the same chain agree on its median prices", "statement": "Whatever a node went through - blocks connected and disconnected, forks followed, restarts - the median prices stored for each block are those of the prices fed in the last W blocks, and any two nodes that hold the same chain give the same verdict on every further block. This holds while blocks list their price feeds first and the window W stays the same; without either it fails.", "quantifier": "every chain, every window size, every sequence of connects, disconnects, forks and restarts", "why_tests_cant": "All reorganisations, and a comparison of two executions.", "anchors": ["src/persistence/pricefeeddb.cpp: CPricePointMemCache::PushBlock, UndoBlock, ReleadBlocks, BatchWrite, GetBlockUserPrices, CalcMedianPriceDetails", "src/tx/blockpricemediantx.cpp: CBlockPriceMedianTx::ExecuteTx", "src/main.cpp: ConnectTip, DisconnectTip, ProcessForkedChain"]}
{"id": "C23", "title": "Variable-length integers round-trip and have one encoding", "statement": "Encoding any 64-bit unsigned number and decoding the bytes gives back the number and consumes exactly its bytes; two different numbers never have the same encoding and no encoding is a prefix of another.", "quantifier": "every number, every trailing data", "why_tests_cant": "2^64 values.", "anchors": ["src/commons/serialize.h: WriteVarInt, ReadVarInt, GetSizeOfVarInt"]}
{"id": "C24", "title": "Length prefixes round-trip and only the shortest form is accepted", "statement": "Every length up to the maximum size encodes and decodes to itself, the announced size matches the bytes written, and a decoder accepts no second encoding of a length.", "quantifier": "every length, every byte string offered to the decoder", "why_tests_cant": "All byte strings.", "anchors": ["src/commons/serialize.h: WriteCompactSize, ReadCompactSize, GetSizeOfCompactSize"]}
{"id": "C25", "title": "Fixed-width index keys sort like the numbers they encode", "statement": "The fixed-width key encoding of 16/32/64-bit numbers round-trips and byte-wise comparison of two encodings agrees with numeric comparison.", "quantifier": "every pair of numbers", "why_tests_cant": "2^128 pairs.", "anchors": ["src/commons/leb128.h: CFixedLeb128::SerializeValue, UnserializeValue"]}
{"id": "C26", "title": "Account identifiers round-trip", "statement": "A registration id converts to its raw, integer and string forms and back without change, and distinct ids have distinct forms; a user id of any kind survives serialisation.", "quantifier": "every height and index, every user id", "why_tests_cant": "All 2^48 ids.", "anchors": ["src/entities/id.h: CRegID, CUserID", "src/entities/id.cpp"]}
{"id": "C27", "title": "A transaction is confirmed at most once on a chain", "statement": "On any chain reachable by connecting and disconnecting blocks, no transaction id occurs in two blocks, although the node remembers only the ids of a bounded number of recent blocks.", "quantifier": "every chain history, every cache height, every declared valid height", "why_tests_cant": "Needs the arithmetic relation between acceptance window and memory for every history.", "anchors": ["src/main.cpp: ConnectBlock, DisconnectBlock", "src/tx/tx.cpp: CBaseTx::IsValidHeight", "src/persistence/txdb.cpp: CTxMemCache"]}
{"id": "C28", "title": "Looking up an ancestor by height is correct", "statement": "For every block in any block tree, asking for the ancestor at a height returns the block found by walking predecessor links, and nothing for heights outside the chain; the walk always terminates.", "quantifier": "every chain length, every pair of heights", "why_tests_cant": "Skip-pointer shortcuts must be right for all heights.", "anchors": ["src/main.cpp: GetSkipHeight, CBlockIndex::GetAncestor, BuildSkip"]}
{"id": "C29", "title": "A globally finalised block is never reverted by chain selection", "statement": "Once a block is globally final, activating the best chain never disconnects it, whatever blocks arrive; the height of the globally final block never decreases.", "quantifier": "every block tree, every arrival history", "why_tests_cant": "All fork scenarios.", "anchors": ["src/main.cpp: ActivateBestChain", "src/miner/pbftmanager.cpp: UpdateGlobalFinBlock"]}
{"id": "C30", "title": "Two finality quorums always share an honest producer", "statement": "A block becomes final only after at least n - floor(n/3) distinct producers of the list confirmed it; any two such groups share more than n/3 - 1 producers, i.e. at least one honest one when fewer than n/3 are faulty.", "quantifier": "every number of producers, every message set", "why_tests_cant": "All sets of messages including repeats and outsiders.", "anchors": ["src/miner/pbftmanager.cpp: GetFinalBlockMinerCount, UpdateLocalFinBlock", "src/p2p/protocol.cpp: operator<(CPBFTMessage)"]}
{"id": "C31", "title": "A filtered block proves exactly the matching transactions", "statement": "For any list of transaction ids and any selection, the partial Merkle tree built from them extracts exactly the selected ids in order, and its root equals the block's Merkle root.", "quantifier": "every non-empty list of ids and every mask, every hash function", "why_tests_cant": "All tree shapes and masks.", "anchors": ["src/chain/merkletree.cpp: TraverseAndBuild, TraverseAndExtract, ExtractMatches", "src/persistence/block.cpp: BuildMerkleTree"]}
{"id": "C32", "title": "Delegate shuffling loses nobody, and a round serves each producer once", "statement": "For any list of producers, the shuffled schedule is a permutation of it and some producer of the list is on duty at every time. From the third release on, over the slots of one round (as many slots as producers, ending at a multiple of that number) each producer is on duty in exactly one slot. This is false for a row of slots that straddles two rounds, and before the third release.", "quantifier": "every producer list, every hash function, every round, every time in its slots, every height", "why_tests_cant": "All lists, seeds and rounds; that the seed is the same for all slots of a round is a fact about rounding, not about examples.", "anchors": ["src/miner/miner.cpp: ShuffleDelegates, GetShuffleOriginSeed, GetCurrentDelegate"]}
{"id": "C33", "title": "Bounded containers keep exactly the most recent elements", "statement": "The most-recently-inserted set and the first-in-first-out bounded map never exceed their capacity and hold exactly the most recently first-inserted elements.", "quantifier": "every capacity, every insertion history", "why_tests_cant": "All histories.", "anchors": ["src/commons/mruset.h: mruset::insert", "src/miner/pbftlimitmap.h: CFIFOLimitmap"]}
{"id": "C34", "title": "Registration ids are unique", "statement": "Over any history of registrations, two different accounts never get the same registration id and an account's id never changes.", "quantifier": "every history of blocks and transactions", "why_tests_cant": "All histories.", "anchors": ["src/tx/tx.cpp: CBaseTx::RegisterAccount*", "src/tx/accountregtx.cpp"]}
{"id": "C35", "title": "Forced liquidation is bounded and solvent", "statement": "A forced-liquidation round closes at most the configured number of positions, always the worst first, never spends more of the reserve than it holds, and burns exactly the debt it closes.", "quantifier": "every set of positions, every reserve balance, every price", "why_tests_cant": "All states.", "anchors": ["src/tx/blockpricemediantx.cpp: CCdpForceLiquidator::Execute, ForceLiquidateCdps"]}
{"id": "C36", "title": "Interest-settlement batches respect their size limit", "statement": "The list of positions proposed for interest settlement in a block never exceeds the maximum that validation accepts.", "quantifier": "every set of positions over any number of coin pairs", "why_tests_cant": "Needs many positions across several pairs.", "anchors": ["src/tx/cdptx.cpp: GetSettledInterestCdps"]}
{"id": "C37", "title": "Every block reward is credited exactly once", "statement": "For any chain, the fees and inflation recorded in a block's reward transaction are credited to its producer exactly once, at the block 100 later, and are withdrawn again exactly if that block is disconnected.", "quantifier": "every chain longer than the maturity, every reorganisation", "why_tests_cant": "All histories.", "anchors": ["src/main.cpp: ConnectBlock", "src/tx/blockrewardtx.cpp"]}
{"id": "C38", "title": "Pooled transactions stay jointly executable", "statement": "After every acceptance and after every rescan, executing the pool's accepted transactions in acceptance order on the confirmed state succeeds for each of them.", "quantifier": "every history of submissions and blocks", "why_tests_cant": "All histories.", "anchors": ["src/tx/txmempool.cpp: AddUnchecked, CheckTxInMemPool, ReScanMemPoolTx"]}
{"id": "C39", "title": "Cross-chain swap-in mints each foreign transaction once", "statement": "For any history of swap proposals, a given foreign transaction mints mirrored coins at most once, the minted coins (receiver, governors, gateway) add up to the swapped amount, and the recorded supply equals minted minus burned.", "quantifier": "every history of executed swap proposals", "why_tests_cant": "All histories and amounts.", "anchors": ["src/entities/proposal.cpp: CGovAxcInProposal, CGovAxcOutProposal, ProcessAxcInFee"]}
{"id": "C40", "title": "Order placement by a user cannot abort the node", "statement": "Executing any order transaction that passed validation finishes with acceptance or rejection; it never trips an assertion.", "quantifier": "every order transaction accepted by the checks", "why_tests_cant": "Assertions fire only for extreme 64-bit prices and amounts.", "anchors": ["src/tx/dextx.cpp: CheckOrderPrice, CheckOrderAmounts, CalcCoinAmount"]}
{"id": "C41", "title": "A listing shows each readable entry once, in key order", "statement": "Going through a kind of data over a stack of caches on the database shows exactly the entries a read would find, each once, with the value a read returns, in key order; from a key on or from behind a key on it shows the part of the listing there, so pages neither overlap nor leave gaps; a listing by prefix shows exactly the matching entries. None of it depends on which entries have been written to the database.", "quantifier": "every content of every stack of caches and of the database, every start key and prefix", "why_tests_cant": "All combinations of shadowed, erased and new keys over several levels, and all divisions of the same content between caches and database.", "anchors": ["src/persistence/dbiterator.h: CDBAccessIterator, CCacheMapIterator, CDBCacheIteratorImpl, CDBPrefixIterator", "src/config/scoin.h: CCdpCoinPair::operator<", "src/persistence/cdpdb.h: CDBCdpHeightIndexIt"]}
{"id": "C42", "title": "Base58 addresses round-trip", "statement": "Any byte string encodes to Base58 text that decodes to the same bytes; with the checksum form any accepted text decodes to the payload that produced it.", "quantifier": "every byte string", "why_tests_cant": "All byte strings.", "anchors": ["src/commons/base58.cpp: EncodeBase58, DecodeBase58, EncodeBase58Check, DecodeBase58Check"]}
{"id": "C43", "title": "A Bloom filter never misses an inserted element", "statement": "After any sequence of insertions, testing any inserted element reports 'contained', for any parameters and any hash function.", "quantifier": "every filter size, tweak, insertion sequence", "why_tests_cant": "All sequences.", "anchors": ["src/commons/bloom.cpp: CBloomFilter::insert, contains, UpdateEmptyFull"]}
{"id": "C44", "title": "Liquidating part of a CDP never makes the amounts inconsistent", "statement": "For every open position and price in the liquidation range and every offered amount, a liquidation pays the owner, the liquidator and the system parts that add up to what is taken, and leaves a position with no larger debt and no larger collateral.", "quantifier": "every position, price, offered amount and in-range governed parameters", "why_tests_cant": "All numeric combinations including roundings.", "anchors": ["src/tx/cdptx.cpp: CCDPLiquidateTx::ExecuteTx"]}
{"id": "C45", "title": "Permissions are a plain set of rights", "statement": "An account passes a permission check exactly when it holds every requested right; clearing and granting rights affects exactly the named rights.", "quantifier": "every pair of bit masks", "why_tests_cant": "2^128 pairs.", "anchors": ["src/entities/account.h: CAccount::CheckPerms", "src/entities/asset.h: AssetHasPerms", "src/tx/accountpermscleartx.cpp"]}
{"id": "C46", "title": "Records of different tables never share a database key", "statement": "Two records stored in the same database have the same key only if they are the same record of the same table; a stored key is recognised by its own table and refused by every other table of that database; the table name kept in undo data identifies the table.", "quantifier": "every pair of tables of the prefix list and every pair of serialised key elements", "why_tests_cant": "Keys are built by concatenating a short prefix with arbitrary bytes; a collision needs one chosen pair out of infinitely many.", "anchors": ["src/persistence/dbconf.h: DBK_PREFIX_LIST, GenDbKey, ParseDbKey, ParseKeyPrefixType"]}
{"id": "C47", "title": "A parameter set by governance is the value in force afterwards", "statement": "After an executed parameter proposal (system, CDP or miner-fee parameter), reading the parameter returns the proposed value, and no other parameter changes.", "quantifier": "every parameter, every proposed value in its allowed range, every prior state", "why_tests_cant": "The set of allowed values is large and the failure is at single values.", "anchors": ["src/persistence/sysparamdb.h: GetParam, SetParam, GetCdpParam, SetCdpParam, GetMinerFee, SetMinerFee", "src/config/sysparams.h"]}
{"id": "C48", "title": "Interest is charged with the rate in force at each height", "statement": "For any history of interest-parameter changes and any range of block heights, the list of periods used to compute interest is contiguous, covers the range exactly, never overlaps, and each period carries the parameters of the latest change at or before each of its heights (defaults before the first change).", "quantifier": "every change history, every height range", "why_tests_cant": "Boundary heights multiply with the number of changes.", "anchors": ["src/persistence/sysparamdb.h: GetCdpInterestParamChanges, SetCdpInterestParam"]}
{"id": "C49", "title": "Only permitted and signed transactions are accepted", "statement": "From the stable-coin release on, a user transaction passes the common acceptance check only if it carries a valid signature by a key belonging to the sending account, and, if its type requires a right, only if the account holds that right; an account whose rights were all given up can send nothing.", "quantifier": "every ledger, sender id form, transaction type, rights mask and fork version", "why_tests_cant": "The check branches on type, id form and version; the missing combinations are exactly those nobody wrote a test for.", "anchors": ["src/tx/tx.cpp: CBaseTx::CheckBaseTx", "src/tx/tx.h: kTxTypePermMap"]}
{"id": "C50", "title": "A transaction works on one coherent copy of each account", "statement": "However a transaction names the accounts it touches (registration id, key id, public key, repeatedly, or the sender itself), the ledger it leaves is the result of applying its balance operations in order directly to the ledger; it fails exactly when one of them would fail there, and then leaves nothing.", "quantifier": "every ledger, every sequence of balance operations, every way of naming accounts", "why_tests_cant": "Aliasing needs particular combinations of names and order.", "anchors": ["src/tx/tx.cpp: GetAccount, NewAccount, SaveAllAccounts, ExecuteFullTx"]}
{"id": "C51", "title": "Every condition of a spent output is enforced", "statement": "A UTXO transfer is accepted only if each input names an output of a transaction in a connected block and meets every condition put on that output (addressee, m-of-n signatures, password and its earlier proof, claim height, reclaim height); and new outputs carry a positive amount and well-formed conditions, at most one of each kind.", "quantifier": "every chain state, every transfer, every combination of conditions", "why_tests_cant": "Conditions combine freely on an output and on an input, in any order and with repetitions.", "anchors": ["src/tx/coinutxotx.cpp: CheckUtxoOutCondition, CCoinUtxoTransferTx::CheckTx, CCoinUtxoPasswordProofTx"]}
{"id": "C52", "title": "Validating a received UTXO transfer always gives a verdict", "statement": "Validation of every UTXO transfer that can be received either accepts or refuses it; it never aborts the node.", "quantifier": "every decodable transfer, every chain state", "why_tests_cant": "Only hostile encodings reach the failing paths.", "anchors": ["src/tx/coinutxotx.cpp: CheckUtxoOutCondition", "src/entities/utxo.h: CUtxoCondStorageBean"]}
{"id": "C53", "title": "Settling DEX deals always gives a verdict", "statement": "Executing any settlement, on any set of active orders, ends in acceptance or refusal; it never trips an assertion and never relies on undefined arithmetic.", "quantifier": "every history of orders and deals, every settlement with any 64-bit prices and amounts", "why_tests_cant": "Only extreme 64-bit amounts reach the failing paths, and the final assertion depends on all earlier partial fills.", "anchors": ["src/tx/dextx.cpp: CDealItemExecuter::Execute, CalcCoinAmount"]}
{"id": "C54", "title": "Received votes are exactly the votes in all voters' lists", "statement": "After any history of votes, revocations, registrations and the change of voting rules, the number of votes each account has received equals the sum of the votes for it in the lists of all voters, whether they name it by registration id or by public key; it never exceeds the number of base coins.", "quantifier": "every history of vote transactions by any voters, the rules change at any point, every way of naming candidates", "why_tests_cant": "The two sides are updated by separate code from separate data; a mismatch needs a particular mix of names, revocations and self-votes.", "anchors": ["src/tx/delegatetx.cpp: CDelegateVoteTx::ExecuteTx", "src/entities/account.cpp: CAccount::ProcessCandidateVotes, StakeVoteBcoins", "src/main.cpp: ComputeVoteStakingInterestAndRevokeVotes"]}
{"id": "C55", "title": "Voters can always take their votes back", "statement": "A voter can at any time revoke any part of the votes in their list, or all of them; the transaction is accepted, the coins become free again, and the candidates lose exactly those votes.", "quantifier": "every reachable state, every voter, every entry of the list, every part of it", "why_tests_cant": "Whether a revocation can fail depends on the whole history of the voter, of the candidate and of the rules in force.", "anchors": ["src/tx/delegatetx.cpp: CDelegateVoteTx::CheckTx, ExecuteTx", "src/entities/account.cpp: CAccount::ProcessCandidateVotes"]}
{"id": "C56", "title": "Collateral is always covered by pledged balance", "statement": "After any history of positions and other transactions, what an account has pledged of a token is exactly what it had pledged before there were positions plus the collateral of its open positions.", "quantifier": "every history, every account, every token", "why_tests_cant": "All histories of all kinds of operations, including forced ones by the system.", "anchors": ["src/tx/cdptx.cpp: CCDPStakeTx::ExecuteTx, CCDPRedeemTx::ExecuteTx, CCDPLiquidateTx::ExecuteTx", "src/tx/blockpricemediantx.cpp: CCdpForceLiquidator::Execute"]}
{"id": "C57", "title": "Stable coins and debts are created and destroyed together", "statement": "Every operation on positions changes the total of stable coins in all accounts by exactly as much as the total debt of open positions.", "quantifier": "every history, every operation, all amounts, prices and governed parameters", "why_tests_cant": "Any of the six operations could create or lose coins for some combination of amounts and parameters.", "anchors": ["src/tx/cdptx.cpp: CCDPStakeTx::ExecuteTx, CCDPRedeemTx::ExecuteTx, CCDPLiquidateTx::ExecuteTx, ProcessPenaltyFees, CCDPInterestForceSettleTx::ExecuteTx", "src/tx/blockpricemediantx.cpp: CCdpForceLiquidator::Execute"]}
{"id": "C58", "title": "Owners cannot take out more than the start ratio allows", "statement": "When an owner opens a position, adds to it or takes collateral out, the position is left with at least the governed start ratio of collateral to debt at the current price.", "quantifier": "every state, price, amount and start ratio", "why_tests_cant": "Ratios are computed in floating point; rounding must be bounded for all 64-bit amounts.", "anchors": ["src/tx/cdptx.cpp: CalcCollateralRatio, CCDPStakeTx::ExecuteTx, CCDPRedeemTx::ExecuteTx", "src/entities/cdp.h: CUserCDP::GetCollateralRatio"]}
{"id": "C60", "title": "The map of request times stays bounded and drops the oldest", "statement": "The size-limited map that records requests never exceeds its capacity. A new entry is always there after it was inserted; if the map was full exactly one other entry was dropped, one with the smallest value. Lowering the capacity keeps the entries with the largest values.", "quantifier": "every capacity, every history of insertions, updates, removals and resizes", "why_tests_cant": "The map and its reverse index are kept in step by separate code; all histories with equal values must be covered.", "anchors": ["src/commons/limitedmap.h: limitedmap::insert, erase, update, max_size"]}
{"id": "C61", "title": "A Merkle branch proves the transaction at its position and no other", "statement": "The branch of any transaction of a block leads from its id to the block's Merkle root, and no other id leads there with any branch of the same length at the same position.", "quantifier": "every non-empty list of ids, every position, every hash function (collision-free for uniqueness)", "why_tests_cant": "All tree shapes, in particular rows of odd length.", "anchors": ["src/persistence/block.cpp: CBlock::GetMerkleBranch, CheckMerkleBranch, BuildMerkleTree"]}
{"id": "C62", "title": "The Merkle root of an accepted block fixes its transactions", "statement": "Two lists of transaction ids that pass the checks of a received block against the same Merkle root are the same list.", "quantifier": "every two lists of ids, every collision-free hash function", "why_tests_cant": "The Merkle construction repeats the last node of odd rows, so distinct lists have equal roots; whether the other checks exclude all of them is a claim about every pair of lists.", "anchors": ["src/main.cpp: CheckBlock", "src/persistence/block.cpp: CBlock::BuildMerkleTree"]}
{"id": "C59", "title": "The active chain, its locators and the block shown as its tip stay consistent", "statement": "After any sequence of tip changes the active chain lists exactly the blocks from the first one to the tip, setting a tip returns the last block common to the old and the new chain, a locator for any block is defined, begins with it, goes back through the chain and ends with the first block, and a peer on another branch finds from it a common block no deeper than twice the depth of the real fork. The block offered as the tip block is the block at the tip.", "quantifier": "every block tree, every sequence of tip changes, every pair of nodes with the same blocks", "why_tests_cant": "Tip changes rewrite the chain in place down to the fork; whether every cell is right depends on the whole history. The locator bound is about every fork depth.", "anchors": ["src/chain/chain.cpp: CChain::SetTip, Contains, Next, GetLocator, FindFork, CChainActive::SetTip", "src/main.cpp: ConnectTip, DisconnectTip, LoadBlockIndexDB"]}
{"id": "C63", "title": "The node follows the best valid chain it knows", "statement": "Whenever taking in a block ends with the best chain active, every block of the active chain is valid, and no known block that is valid with all its predecessors is higher than the tip, or as high and received before it. This holds over every history of blocks, finality messages and restarts.", "quantifier": "every block tree, order of arrival, set of invalid blocks, and every transient failure", "why_tests_cant": "The choice depends on failure marks and on the set of candidates, which are kept up to date over the whole history; an error shows only after a particular sequence of forks and failures.", "anchors": ["src/main.cpp: FindMostWorkChain, ActivateBestChain, ConnectTip, InvalidBlockFound, ProcessForkedChain, AcceptBlock", "src/persistence/block.h: CBlockIndexWorkComparator"]}
{"id": "C64", "title": "Choosing the chain comes to an end", "statement": "If the verdict on a block does not change between attempts, except for transient failures, choosing the active chain ends after at most as many rounds as blocks are known, and no assertion fails on the way.", "quantifier": "every reachable block tree and state, every set of invalid blocks", "why_tests_cant": "The search goes round as long as blocks fail; that it always ends, and that no candidate set becomes empty, is a statement about every tree.", "anchors": ["src/main.cpp: FindMostWorkChain, ActivateBestChain, SetMostWork"]}
{"id": "C65", "title": "A fork deeper than the limit is not taken in", "statement": "A new block becomes known only if it follows the active tip, or a fork that leaves the active chain at most the maximum fork depth below the tip.", "quantifier": "every reachable block tree, every new block", "why_tests_cant": "All shapes and depths of forks, including blocks following other forks.", "anchors": ["src/main.cpp: ProcessForkedChain, AcceptBlock", "src/config/chainparams.cpp: GetMaxForkHeight"]}
{"id": "C66", "title": "A block is made by the producer on duty, and a producer's share of a round is bounded", "statement": "Every block that passes the check of its reward transaction names the producer on duty at its time and is signed by one of that producer's keys, and two blocks of the same producer in a row keep the block interval. From the third release on, on any chain of such blocks, no producer makes more blocks in one round than it may make in a row, as long as the list of producers stays.", "quantifier": "every producer list, every chain of accepted blocks, every state of the accounts, every signature scheme", "why_tests_cant": "All chains and times; the bound follows from the schedule, the spacing of blocks and the check together.", "anchors": ["src/miner/miner.cpp: VerifyRewardTx, GetCurrentDelegate, ShuffleDelegates", "src/main.cpp: AcceptBlock"]}
{"id": "C67", "title": "Votes decide who may produce, with a fixed delay", "statement": "When a block changes the list of producers, the new list is not empty and is the best by votes as an earlier block found them, from the third release on at least 100 blocks before. From that release on the list changes only at heights that are multiples of 100, and if votes stay the same for 300 blocks the list in force is the one they elect.", "quantifier": "every history of blocks and votes", "why_tests_cant": "All histories; the state machine has three states and counters that interact over hundreds of blocks.", "anchors": ["src/chain/blockdelegates.cpp: ProcessBlockDelegates, GenPendingDelegates", "src/persistence/delegatedb.cpp: GetTopVoteDelegates"]}
{"id": "C68", "title": "A stored price is never zero, and its feed height is that of a block that fed it", "statement": "On every chain a node holds, a stored median price is not zero, and the height of its last feed, where there is one, is the height of a block of this chain that feeds the pair; a block that feeds a pair stores its own height, unless the median is zero.", "quantifier": "every chain, every history of a node, every list of pairs that may be fed", "why_tests_cant": "All histories; the height is handed on from block to block.", "anchors": ["src/persistence/pricefeeddb.cpp: CPricePointMemCache::GetMedianPrice, ComputeBlockMedianPrice, CalcMedianPriceDetails", "src/entities/price.h: CMedianPriceDetail"]}
{"id": "C69", "title": "A producer's block may hold what the pool holds", "statement": "A transaction that is in the pool after a rescan is not on the chain yet, and a block of a reward, transactions taken from the pool and new ones of the producer is not refused for a repeated transaction or for a valid height that is not in force.", "quantifier": "every history of a node, every pool, every choice a producer makes from it", "why_tests_cant": "The pool and the block check heights and repetitions in two places, against two heights; whether the two agree at every boundary is a statement about all valid heights and tips.", "anchors": ["src/tx/txmempool.cpp: CheckTxInMemPool, ReScanMemPoolTx", "src/main.cpp: ConnectBlock", "src/miner/miner.cpp: GetPriorityTx, CreateNewBlockForStableCoinRelease", "src/tx/tx.cpp: CBaseTx::IsValidHeight"]}
{"id": "C70", "title": "Deploying a contract destroys no coins", "statement": "Deploying a contract takes the fee from the sender, pays the fuel to the reserve and changes no other balance: the total of every token changes by the fee and the fuel only.", "quantifier": "every state, sender, fee, position in the chain and contract", "why_tests_cant": "Whether an account may already exist at the address of a contract that is about to be deployed depends on everything that happened before; tests deploy to fresh addresses.", "anchors": ["src/tx/contracttx.cpp: CLuaContractDeployTx::ExecuteTx, CUniversalContractDeployTx::ExecuteTx", "src/tx/tx.cpp: CBaseTx::NewAccount, CBaseTx::RegisterAccount, CBaseTx::SaveAllAccounts"]}
{"id": "C71", "title": "Processing or assembling a block never stops the node over the price of fuel", "statement": "A transaction that a node has checked and executed has a fuel fee that is defined and not above the fee it pays, so that neither connecting a block nor assembling one ends in a failed assertion or in undefined behaviour.", "quantifier": "every chain with its fuel rate, every block, every list of candidates, every amount of fuel that contracts burn", "why_tests_cant": "The limit on fuel, the check of the fee and the fuel fee are computed in three places with different rounding (whole numbers, float, double); an excess of one unit for one combination of fuel, rate and fee stops every node.", "anchors": ["src/main.cpp: ConnectBlock", "src/miner/miner.cpp: CreateNewBlockForStableCoinRelease", "src/tx/tx.cpp: CBaseTx::GetFuelFee, GetTxMinFee", "src/tx/contracttx.cpp: GetFuelLimit, CLuaContractDeployTx::CheckTx, GetFuelFee", "src/tx/universaltx.cpp: CUniversalTx::ExecuteTx"]}
{"id": "C72", "title": "The block a producer assembles passes the checks of fuel", "statement": "A block that a producer assembles from any candidates is accepted by its own node and by every other as far as fuel, fuel fees and the reward's fees go, whatever those nodes have executed before.", "quantifier": "every chain, state and list of candidates, every history of the transaction objects in memory", "why_tests_cant": "The totals are computed twice, by two functions, over objects that keep the fuel of an earlier execution; all lists and histories must agree.", "anchors": ["src/miner/miner.cpp: CreateNewBlockForStableCoinRelease", "src/main.cpp: ConnectBlock", "src/persistence/block.h: CBlockHeader::GetFuelFee, SetFuel"]}
{"id": "C73", "title": "The fuel rate follows the load and stays within bounds", "statement": "On every chain the next fuel rate is defined, at least 1 and bounded; it falls by a tenth when the last blocks used less than three quarters of the fuel limit, rises by a tenth when they used more than 85 percent, and stays otherwise. A high load lasting long enough makes it rise.", "quantifier": "every chain of blocks, whatever fuel fees their headers state", "why_tests_cant": "The rate is a product of the whole history, rounded at each step in floating point; bounds and the absence of dead ends are statements about all chains.", "anchors": ["src/miner/miner.cpp: GetElementForBurn", "src/main.cpp: CheckBlock, AcceptBlock"]}
{"id": "C74", "title": "A block that a peer sends never stops the node", "statement": "Whatever block a node receives, in whatever order blocks come, it takes the block in, keeps it or refuses it; it fails no assertion, reads no memory that it has given back, and does not shut down.", "quantifier": "every sequence of blocks from peers or from the node itself, every verdict of the rules on a block, every outcome of the choice of the chain", "why_tests_cant": "Blocks are checked in several places and orders, before and after they are put into tables; what stops the node is a block that passes the first checks and breaks what a later step takes for granted.", "anchors": ["src/main.cpp: ProcessBlock, CheckBlock, AcceptBlock, AddToBlockIndex, ConnectBlock, PruneOrphanBlocks, AbortNode", "src/p2p/chainmessage.cpp: ProcessBlockMessage", "src/persistence/cachewrapper.cpp: GetBlockBpRegid"]}
{"id": "C75", "title": "Blocks that arrive before their predecessors are kept within a bound and handed over when these arrive", "statement": "At most 751 such blocks are kept, each once and none that the node has taken in already. A kept block stays until its predecessor has been taken in, when the node takes it in or refuses it, or until the store is full and a lower block needs its place. No block is left waiting for one that has come. Every block that is taken in has its predecessor there, is one higher and later by the block interval.", "quantifier": "every sequence of blocks from peers or from the node itself, in every order, every verdict on a block", "why_tests_cant": "The store is four tables that have to agree after every sequence of arrivals; an entry left behind shows only after hundreds of blocks in a particular order.", "anchors": ["src/main.cpp: ProcessBlock, PruneOrphanBlocks, COrphanBlockComparator, AcceptBlock, AddToBlockIndex", "src/p2p/chainmessage.h: COrphanBlock"]}
{"id": "C76", "title": "A transaction of a disconnected block goes back to the pool", "statement": "When blocks are taken off the chain, each of their transactions that may be sent on, is still within its range of heights, is not in one of the new blocks and can be executed on the new state is in the pool afterwards.", "quantifier": "every history of submissions and changes of the chain, every block taken off", "why_tests_cant": "The transactions are offered while the pool's view of the state is one of the old chain; whether one is lost depends on what the pool had executed and on the order in which blocks and transactions are offered.", "anchors": ["src/main.cpp: DisconnectTip, ActivateBestChain, AcceptToMemoryPool", "src/tx/txmempool.cpp: CheckTxInMemPool, ReScanMemPoolTx"]}
{"id": "C77", "title": "What a producer has executed, every node executes with the same result", "statement": "The transactions that a producer packs into a block, from any candidates in any order, with any of them left out because they fail, are too large, use too much fuel or come too late, are executed in the block by every node with the same chain, and lead to the state that the producer had computed.", "quantifier": "every chain and state, every list of candidates, every limit on size, fuel and time", "why_tests_cant": "The producer executes each candidate on a layer of its own that may be thrown away, at an index that only counts those taken; the block is executed on one layer. That leftovers of failed candidates or a shifted index never matter is a statement about all lists.", "anchors": ["src/miner/miner.cpp: CreateNewBlockForStableCoinRelease, GetPriorityTx", "src/main.cpp: ConnectBlock", "src/tx/tx.h: CBaseTx::CheckAndExecuteTx"]}
{"id": "C78", "title": "CDP parameters read back as they were set, for every history", "statement": "However setting, reading, undoing, flushing and nesting of caches follow each other, reading a CDP parameter or the history of interest parameters of a coin pair gives what was stored last for that pair in that view, and no operation throws. This is to hold for every set of coin pairs in use whose comparison orders them; for sets that it does not order, as proposals can create, two nodes with the same blocks are to be shown to differ.", "quantifier": "every sequence of operations, every content of the database, every way of balancing the search trees, every set of coin pairs", "why_tests_cant": "The comparison of two pairs is true in both directions for some of them; whether a lookup still finds its key depends on the shape of the tree, on when the caches were flushed and on all other keys. Tests with one stable coin never meet such pairs.", "anchors": ["src/config/scoin.h: CCdpCoinPair operator<", "src/persistence/dbaccess.h: CCompositeKVCache GetDataIt, SetData, SetDataToSelf, Flush, UndoData, AddDataToMap", "src/persistence/sysparamdb.h: GetCdpParam, SetCdpParam", "src/entities/proposal.cpp: CGovCdpParamProposal::CheckProposal"]}
{"id": "C79", "title": "A producer looks at every transaction of its pool once, by falling fee for its size", "statement": "The sequence in which a block producer looks at the transactions of its pool has each of them exactly once, the price feeds before all others, and among price feeds as among the others none before one that leaves more than a part in 2^50 more fee for each byte after its fuel. Of the transactions that the producer adds itself, the median of prices comes between the price feeds and the others, and the settlement of interest after all that leave a fee; the others keep their sequence.", "quantifier": "every pool of transactions of every size, with all fees and fuel fees, every way of balancing the set", "why_tests_cant": "The set is ordered by a comparison in doubles that is no order (each of two elements may be below the other), so which elements are kept and where depends on the sequence of insertions and on rounding.", "anchors": ["src/miner/miner.h: TxPriority operator<", "src/miner/miner.cpp: GetPriorityTx, CreateNewBlockForStableCoinRelease", "src/tx/tx.h: GetPriority", "src/tx/pricefeedtx.h: GetPriority"]}
{"id": "C80", "title": "A contract call creates no coins and takes them from no bystander", "statement": "Whatever a Lua contract's script asks for, an accepted call leaves the sum of every token over all accounts as it was, less the fee and apart from fuel paid in WUSD that goes to the reserve. Only free balances change, no account but the sender's and the contract's loses anything, and the sender loses at most the fee and the amount sent along unless the script asks for transfers out of the sender's account.", "quantifier": "every script and every sequence of its calls, every state, sender and contract, both kinds of call, every fork version", "why_tests_cant": "Scripts are programs of third parties. They ask for payments in two ways, before and after their end, through two caches of accounts and with unchecked recipients; that no combination creates coins or reaches a third account is a statement about all of them.", "anchors": ["src/vm/luavm/luavmrunenv.cpp: ExecuteContract, CheckOperate, OperateAccount, TransferAccountAsset", "src/vm/luavm/lmylib.cpp: ExWriteOutputFunc, ExTransferAccountAssetFunc, ExTransferAccountAssetsFunc", "src/tx/contracttx.cpp: ExecuteTx", "src/tx/tx.cpp: ExecuteFullTx"]}
{"id": "C81", "title": "The check of a contract's books keeps them in line with its coins", "statement": "If a script asks for the check of the accounts that the contract keeps for its users, and WICC were sent along, then after an accepted call the books owe exactly what they owed before, more by the amount sent along and less by what was paid out; they never come to owe more than the contract holds.", "quantifier": "every script and sequence of calls, all books and balances, every amount", "why_tests_cant": "The check adds signed and unsigned sums of requested operations before they are carried out, expired frozen coins are merged in between, and transfers go past it. Whether some combination of amounts passes the check without coins behind it is a question about all of them.", "anchors": ["src/vm/luavm/luavmrunenv.cpp: CheckAppAcctOperate, OperateAppAccount", "src/vm/luavm/appaccount.cpp: CAppUserAccount", "src/vm/luavm/lmylib.cpp: ExWriteOutAppOperateFunc, ExTransferContractAsset, ExTransferSomeAsset"]}
{"id": "C82", "title": "A contract call never stops the node", "statement": "Whatever a script asks for, the call is accepted or rejected. It fails no assertion of the node and does nothing that the language leaves undefined, and what it stores can be operated on by every later call.", "quantifier": "every script, all books that such calls can leave behind, every registered sender and contract, with and without logging", "why_tests_cant": "What scripts pass is checked in one place and assumed in others, through assertions on heights, amounts, lengths and kinds. A single input that gets past the checks stops every node that executes the block.", "anchors": ["src/vm/luavm/appaccount.cpp: CAppCFund, MergeCFund, MinusAppCFund, Operate, ToString", "src/vm/luavm/appaccount.h: GetFundTagV, GetFundTag", "src/vm/luavm/luavmrunenv.cpp: OperateAppAccount", "src/vm/luavm/lmylib.cpp: ExWriteOutAppOperateFunc"]}
{"id": "C83", "title": "The result of a contract call depends on its block alone", "statement": "The same call at the same place of the same block on the same state gives the same result, whatever the height of the node's active chain is when it executes the call.", "quantifier": "every call, state and block, every height of the active chain", "why_tests_cant": "A node executes a block when it connects it, checks it on a fork, or verifies its database, with different tips; a difference shows only if frozen coins become free between the two heights.", "anchors": ["src/vm/luavm/lmylib.cpp: ExTransferContractAsset", "src/vm/luavm/appaccount.cpp: AutoMergeFreezeToFree", "src/vm/luavm/luavmrunenv.cpp: OperateAppAccount"]}
{"id": "C84", "title": "Lists of transfers are carried out within the limit, as a whole or not at all", "statement": "A script's list of transfers changes accounts by exactly what it lists if the call returns true to the script and not at all if it returns false. A script carries out at most 100 transfers and outputs.", "quantifier": "every script with any number of lists of any length, all balances", "why_tests_cant": "The transfers are carried out one by one on the accounts of the transaction while the script runs, and a list that fails in the middle does not end the script; what is left of it depends on balances at that time.", "anchors": ["src/vm/luavm/luavmrunenv.cpp: TransferAccountAsset, InsertOutputData", "src/vm/luavm/lmylib.cpp: ExTransferAccountAssetsFunc, ExWriteOutputFunc"]}
{"id": "C85", "title": "In a universal transaction coins leave an account only with its authority", "statement": "Whatever contracts a universal transaction calls and whatever they call in turn, an account loses coins beyond the fee it pays only out of its free balance, and only if it signed the transaction and the transaction itself names its authority to the bank module, or if contract code stored for that very account ran. A transaction that holds one transfer between accounts without code moves exactly the amount named.", "quantifier": "every universal transaction, every set of contract programs, all nested inline transactions and notifications, every state", "why_tests_cant": "Programs are third parties' code that call each other, notify each other and hand on permissions. That no chain of calls obtains the authority of an account that did not give it is a statement about all programs.", "anchors": ["src/tx/universaltx.cpp: CheckTx, validate_authorization, get_accounts_from_signatures, ExecuteTx", "src/vm/wasm/wasm_context.cpp: execute_inline, execute, execute_one, notify_recipient, require_auth", "src/vm/wasm/modules/wasm_native_bank_module.hpp: tansfer, mint, burn, issue", "src/vm/wasm/modules/wasm_native_commons.hpp: transfer_balance, mint_burn_balance"]}
{"id": "C86", "title": "A contract's code changes only with the authority of its maintainer", "statement": "The code, interface and maintainer of a contract change only if its maintainer of before the transaction signed and is named to the system module, or is itself a contract whose code ran. New contracts come only at the position of the transaction.", "quantifier": "every universal transaction, every set of programs, every state", "why_tests_cant": "Permissions are compared as numbers, code and maintainers are kept under registration ids; whether somebody's number is somebody else's depends on special values that tests do not try.", "anchors": ["src/vm/wasm/modules/wasm_native_module.hpp: setcode, setcoder", "src/tx/universaltx.cpp: get_accounts_from_signatures, validate_authorization", "src/vm/wasm/wasm_context.cpp: execute_inline"]}
{"id": "C87", "title": "The recorded supply of a token follows its coins, and only its owner changes the record", "statement": "Over every universal transaction the coins in circulation and the rewards still to be minted change exactly as the recorded totals do, less the fee. The record of a token changes only with the authority of its owner; a token that cannot be minted keeps its total; no total grows beyond 9 * 10^18. Rewards are paid out only with the authority of the voting contract.", "quantifier": "every universal transaction with any sequence of issues, mints, burns, updates and rewards, every set of programs", "why_tests_cant": "Record and balances are kept apart and changed by different modules in any sequence, with 64-bit sums; that they never part is an invariant over all sequences.", "anchors": ["src/vm/wasm/modules/wasm_native_bank_module.hpp: issue, mint, burn, update, setasseticon", "src/vm/wasm/modules/wasm_native_commons.hpp: mint_burn_balance", "src/vm/wasm/modules/wasm_native_voting_module.hpp: mintrewards"]}
{"id": "C88", "title": "A contract's data are changed by its own code only", "statement": "Data kept for a contract change in a universal transaction only if the contract's code ran, and one contract has one set of data.", "quantifier": "every universal transaction, every set of programs, every number a contract may be called by", "why_tests_cant": "Data are kept under a registration id and a number that is a different form of it; the two are cut to different lengths, so the question is about all 64-bit numbers.", "anchors": ["src/vm/wasm/wasm_interface.cpp: AddPrefix, db_store, db_remove, db_update", "src/vm/wasm/wasm_context.hpp: set_data, erase_data", "src/entities/id.cpp: CRegID"]}
{"id": "C89", "title": "Checking and executing a universal transaction ends with a verdict", "statement": "Whatever bytes a universal transaction holds, checking and executing it accepts or rejects it; no exception leaves the check and nothing is undefined.", "quantifier": "every universal transaction, every list of extra signatures, all data of actions, every state", "why_tests_cant": "What breaks the node is an error path: a message that cannot be formatted, a length that takes one byte more. Tests check that errors are reported, not that every way of reporting them works.", "anchors": ["src/tx/universaltx.cpp: get_accounts_from_signatures, CheckTx", "src/vm/wasm/datastream.hpp: unsigned_int", "src/commons/tinyformat.h"]}
{"id": "C90", "title": "The fee bounds the work of a universal transaction", "statement": "Every piece of code that an accepted transaction runs costs 10000 units of fuel, every byte a contract stores 10, every byte of the transaction 10; all of it is at most 600562500 and paid for by the fee. A contract that calls itself without end is never accepted.", "quantifier": "every universal transaction, every set of programs, including ones that call each other and notify each other", "why_tests_cant": "The number of executions grows with depth, notifications and inline transactions; that the fuel counts each and that no recursion escapes is a statement about all programs.", "anchors": ["src/tx/universaltx.cpp: ExecuteTx, execute_inline_transaction, get_min_fee_in_wicc", "src/vm/wasm/wasm_context.cpp: execute, update_storage_usage, notify_recipient"]}
{"id": "C91", "title": "Nodes with different clocks agree on a universal transaction", "statement": "Two nodes that execute the same universal transaction at the same place come to the same verdict and the same state, however fast they are.", "quantifier": "every universal transaction, every pair of sequences of clock readings", "why_tests_cant": "The time is read at every inline transaction. Tests run on one machine at one speed.", "anchors": ["src/tx/universaltx.cpp: ExecuteTx, execute_inline_transaction", "src/vm/wasm/wasm_context.cpp: execute"]}
{"id": "C92", "title": "Votes given by the voting contract keep votes and ranking in line", "statement": "A vote changes the candidate's votes by the number given, the ranking shows the candidate with its votes afterwards if it did before, and no other candidate's place changes.", "quantifier": "every number of votes and every candidate, every ranking", "why_tests_cant": "The ranking is an index with a key computed from the votes, written and erased by key. The two keys meet only for special numbers.", "anchors": ["src/vm/wasm/modules/wasm_native_voting_module.hpp: vote", "src/persistence/delegatedb.cpp: SetDelegateVotes, EraseDelegateVotes"]}
{"id": "C93", "title": "Universal transactions keep accounts and registration ids in order", "statement": "After every universal transaction each registration id belongs to one account and each account in the table of ids has the id it is found by; built-in modules have no account.", "quantifier": "every universal transaction, every set of programs, every deployment", "why_tests_cant": "Accounts are registered by the payment of the fee and by deployments in the same transaction, through two caches; whether both may take the same id depends on who pays.", "anchors": ["src/tx/tx.cpp: ExecuteFullTx, GetAccount, NewAccount, SaveAllAccounts", "src/vm/wasm/modules/wasm_native_module.hpp: setcode"]}
{"id": "C94", "title": "An account without the right to call contracts has no part in universal transactions", "statement": "An account from which governance has taken the right to call contracts neither pays for a universal transaction nor loses coins by one.", "quantifier": "every universal transaction and every list of signers, all permission masks", "why_tests_cant": "Rights are checked where the payer is loaded; authority comes by other ways too, which a test of the rights of payers does not see.", "anchors": ["src/tx/tx.cpp: CheckBaseTx", "src/tx/universaltx.cpp: get_accounts_from_signatures, CheckTx"]}
{"id": "C95", "title": "A transaction is received as it was sent", "statement": "Writing a transaction of any type and reading the bytes gives a transaction with the same type, the same value in every field and the same id, whatever follows the bytes; different transactions are never written alike, nor is one the beginning of another.", "quantifier": "every type of transaction, all values of all fields, all nestings and lengths of lists and maps, everything that may follow", "why_tests_cant": "There are 36 layouts, with nested, tagged, optional and version-dependent parts, each written by one function and read by another. Tests round-trip examples; ambiguity shows in pairs of transactions.", "anchors": ["src/tx/txserializer.h: SerializePtr, UnserializePtr", "src/commons/serialize.h", "src/entities/proposal.h", "src/entities/utxo.h", "src/tx/*.h: IMPLEMENT_SERIALIZE"]}
{"id": "C96", "title": "The signature of a transaction covers all of it", "statement": "Two transactions for which the same bytes are hashed and signed are of the same type and agree in every field but the signatures, and in who the additional signers are; signatures themselves do not change the id.", "quantifier": "every pair of transactions, of any types, with any values", "why_tests_cant": "What is hashed is listed by hand, field by field, for each type. A field forgotten, or two fields that can be shifted into each other, shows only in a pair of transactions that nobody writes in a test.", "anchors": ["src/tx/*.h: SerializeTxHash, ComputeSignatureHash", "src/commons/serialize.h"]}
{"id": "C97", "title": "Every message received is refused or a transaction that can be passed on", "statement": "Whatever bytes arrive, reading them fails or gives a transaction whose fields have values of their types, whose id can be computed, and which other nodes receive unchanged with the same id.", "quantifier": "every sequence of bytes", "why_tests_cant": "Malformed messages are infinitely many: lengths, tags, keys and numbers of any form, at any place of 36 layouts.", "anchors": ["src/tx/txserializer.h: UnserializePtr", "src/commons/serialize.h: ReadVarInt", "src/entities/key.h: CPubKey", "src/tx/tx.h: GetHash"]}
{"id": "C98", "title": "A signature is valid for one thing only", "statement": "Transactions, block headers, messages of the finality protocol, signed texts and consents to spend shared outputs are signed with the same keys. No two different ones are hashed from the same bytes, so a signature given for one is never a signature of another.", "quantifier": "every pair of things that are signed, of the same or of different kinds, with any contents", "why_tests_cant": "The kinds are defined in different files and know nothing of each other; a coincidence would be of specially made contents.", "anchors": ["src/persistence/block.cpp: ComputeSignatureHash", "src/p2p/protocol.cpp: CPBFTMessage::GetHash", "src/rpc/rpcwallet.cpp: signmessage", "src/tx/coinutxotx.cpp: ComputeUtxoMultisignHash", "src/main.cpp: strMessageMagic, CheckBlock"]}
{"id": "C99", "title": "A node that is stopped and started again has the state of the chain it follows", "statement": "Whatever blocks were connected and disconnected and whenever the state was written to disk, a node whose process dies at any moment starts again with tables that hold exactly the state after the chain whose tip it then shows, namely that of the last time it wrote; no assertion fails, and a database that is not in line with its tip is noticed at start.", "quantifier": "every tree of blocks with any contents, every history of connecting, disconnecting, writing and dying, at every point between two writes", "why_tests_cant": "The process would have to be killed between any two of fifty writes, for any pending changes; tests do not kill nodes, and the check at start reports nothing.", "anchors": ["src/persistence/cachewrapper.cpp: CCacheDBManager::Flush", "src/persistence/dbaccess.h: Flush", "src/main.cpp: WriteChainState, ConnectTip, DisconnectTip, ConnectBlock, DisconnectBlock, LoadBlockIndexDB, VerifyDB"]}
{"id": "C100", "title": "An amount of money given in a call is the amount that is meant", "statement": "An amount typed in a call, with or without a token symbol and a unit, is refused or taken as exactly the stated number of the smallest unit of the stated token, or of the default token of the call if none is named; amounts that are shown can be typed again; numbers are taken as they are.", "quantifier": "every text, every number, every default token", "why_tests_cant": "Amounts are strings of any digits with any unit, in four forms that must be told apart; tests type a few.", "anchors": ["src/rpc/core/rpccommons.cpp: ParseRpcInputMoney, pow10, GetComboMoney", "src/rpc/core/rpcserver.cpp: AmountToRawValue", "src/commons/util/util.h: roundint64", "src/config/chainparams.h: JsonValueFromAmount"]}
{"id": "C101", "title": "Messages between nodes arrive whole, in order and once", "statement": "However the messages that a node sends are split up by the sockets on their way, the other node handles a beginning of exactly these messages, in order, each once and with the command and data that were sent; nothing gets stuck on an open connection, and neither node fails.", "quantifier": "every sequence of messages with data of at most 32 MiB, every way in which sockets take and give parts of them, block or break, every interleaving with the handling of messages, whatever handling them does", "why_tests_cant": "Sockets split messages anywhere, between any two bytes of a header; errors show at one of countless interleavings of two nodes and the network.", "anchors": ["src/p2p/node.cpp: SocketSendData, ReceiveMsgBytes, CloseSocketDisconnect", "src/p2p/node.h: BeginMessage, EndMessage, PushMessage", "src/p2p/netmessage.cpp", "src/p2p/protocol.cpp: CMessageHeader", "src/p2p/processmessage.hpp: ProcessMessages", "src/net.cpp: ThreadSocketHandler"]}
{"id": "C102", "title": "Any bytes that a peer sends are cut into messages in one way and within bounded memory", "statement": "Whatever bytes a peer sends and in whatever pieces they arrive, the node handles a beginning of the messages that the bytes contain by the format alone, leaving out those with an invalid command or checksum and stopping at one that is too large or not of this network; the messages that wait occupy bounded memory.", "quantifier": "every sequence of bytes, every division into pieces, every interleaving with the handling of messages, every limit", "why_tests_cant": "A peer may send anything; the same bytes in other pieces take other paths through the reader.", "anchors": ["src/p2p/node.cpp: ReceiveMsgBytes", "src/p2p/netmessage.cpp: readHeader, readData", "src/p2p/processmessage.hpp: ProcessMessages", "src/p2p/node.h: GetTotalRecvSize", "src/net.cpp: ThreadSocketHandler", "src/net.h: ReceiveFloodSize"]}
{"id": "C103", "title": "What is stored is what is found, and undo data are read as they were written", "statement": "After any sequence of writes to the databases, what is found under a key of a table is the record that was written there last, equal in every variable, and nothing if that record was blank or there was none; no write changes what is found under another key of the same or another table. The undo data of a block are read from the file as they were written, give back every key and record that was replaced, and are refused for another preceding block.", "quantifier": "every one of the 51 tables, every key and record of the declared types, every history of writes, all undo data", "why_tests_cant": "Fifty tables have formats of their own, with optional parts and numbers of variable length, in databases that several tables share; one record that reads back differently forks the chain only when a node restarts or a block is undone.", "anchors": ["src/persistence/dbaccess.h: SetData, GetData, Flush, IsEmpty", "src/persistence/leveldbwrapper.h: CDbOpLog, Read", "src/persistence/dbconf.h: GenDbKey", "src/persistence/blockundo.cpp: WriteToDisk, ReadFromDisk", "src/persistence/*db.h: the tables", "src/entities/*.h: the classes of records"]}
{"id": "C104", "title": "Blocks and undo data stay in their files", "statement": "Once a block or undo data have been written to a file, the position that is remembered for them gives back exactly those bytes, whatever is written later, however often the process dies in the middle of a write and is started again, and also after the files are indexed again. A block always gets a place if there is space on the disk, and so do the undo data of every block that has one.", "quantifier": "all initial contents of the files, all histories of writing blocks and undo data, of finding blocks in files, of saving and of dying after any single step", "why_tests_cant": "Places are given out by counters that are kept in a database, in memory and in a cache that are saved at different times; only a death between two particular steps, followed by particular writes, makes two entries overlap.", "anchors": ["src/main.cpp: FindBlockPos, FindUndoPos, FlushBlockFile, AcceptBlock, LoadBlockIndexDB, LoadExternalBlockFile", "src/persistence/block.cpp: WriteBlockToDisk", "src/persistence/blockundo.cpp: WriteToDisk", "src/persistence/blockdb.cpp: WriteBlockFileInfo, WriteLastBlockFile", "src/commons/util/util.cpp: TruncateFile, AllocateFileRange"]}
{"id": "C105", "title": "Peers do not move the clock, and a wrong clock is noticed", "statement": "Whatever times peers tell, in whatever order and number, the time by which blocks are judged is that of the node's own clock. Only the first time that an address tells is counted, at most 200 of them are kept, and the filter behind them yields a median of the last values. No time that a peer tells causes undefined behaviour. A node whose clock differs from that of all its peers is warned.", "quantifier": "all sequences of version messages with any addresses and times; for the filter all sizes and inputs", "why_tests_cant": "The filter's contents depend on the whole history of connections, its behaviour changes when it is full, and what matters is that no sequence, however long, changes the result.", "anchors": ["src/commons/util/util.cpp: AddTimeData, GetAdjustedTime", "src/commons/util/util.h: CMedianFilter, abs64", "src/p2p/chainmessage.cpp: ProcessVersionMessage", "src/main.cpp: CheckBlock"]}
{"id": "C106", "title": "Alerts are kept, cancelled and announced as they should be", "statement": "Only alerts signed with the key of alerts are kept, and none that another one that is kept cancels. Once the alert that the key is compromised has been received, no other alert is ever shown again. An alert that has been cancelled has no effect and does not come back. The user's command is run once for an alert, however many peers send it and however often.", "quantifier": "all contents of messages, all sequences of peers that join, leave and send alerts, all times", "why_tests_cant": "Whether an alert is kept depends on the order in which alerts that cancel each other arrive, on their expiry and on what each peer is known to have; tests with one peer and one alert do not reach the combinations.", "anchors": ["src/alert.cpp: CAlert::ProcessAlert, Cancels, AppliesTo, RelayTo, CheckSignature", "src/p2p/chainmessage.cpp: ProcessAlertMessage, ProcessVersionMessage", "src/p2p/processmessage.hpp: ProcessMessage, ProcessMessages"]}
{"id": "C107", "title": "Peers that misbehave are disconnected and kept away", "statement": "The score of a connection is the sum of what it was blamed for. A peer whose score reaches the threshold is disconnected, and no connection with its address is accepted or made for the time of a ban, whatever happens meanwhile, and longer for nobody. No other address is ever banned, and no local one. A peer cannot escape by not sending its version message, by leaving in time, by connecting again or by having several connections. Scores do not overflow.", "quantifier": "all thresholds and times of bans, all sequences of connections, errors, disconnections and times", "why_tests_cant": "Whether a peer is banned depends on the order in which errors, the version message, the serving of connections and disconnections happen, over many connections; the tests of banning use one connection that was given a version and is served at once.", "anchors": ["src/main.cpp: Misbehaving", "src/p2p/sendmessage.hpp: SendMessages", "src/p2p/node.cpp: IsBanned, Ban, InitializeNode, FinalizeNode", "src/net.cpp: ThreadSocketHandler, OpenNetworkConnection"]}
