{
 "claims": [
  {
   "property": "C01",
   "status": "proved",
   "theorems": [
    "c01_layered_cache_is_a_map",
    "c01_simple_cache_is_a_cell"
   ],
   "note": ""
  },
  {
   "property": "C02",
   "status": "proved",
   "theorems": [
    "c02_flush_transparent",
    "c02_flush_all_reaches_database",
    "c02_database_holds_no_empty_value"
   ],
   "note": ""
  },
  {
   "property": "C03",
   "status": "proved",
   "theorems": [
    "c03_undo_restores",
    "c03_simple_undo_restores"
   ],
   "note": ""
  },
  {
   "property": "C04",
   "status": "proved",
   "theorems": [
    "c04_block_undo_restores"
   ],
   "note": ""
  },
  {
   "property": "C05",
   "status": "proved",
   "theorems": [
    "c05_operation_moves_exactly",
    "c05_succeeds_iff_covered",
    "c05_identity_kept",
    "c05_without_bound_refuted",
    "c05_refused_add_changes_balance_refuted"
   ],
   "note": "Holds when the token's total fits in 64 bits; without that bound the operations wrap (refuted), and a refused two-party addition leaves the credit behind in the in-memory account (refuted atomicity; callers drop the transaction)."
  },
  {
   "property": "C06",
   "status": "proved",
   "theorems": [
    "c06_supply_invariant",
    "c06_closed_history_keeps_supply"
   ],
   "note": ""
  },
  {
   "property": "C07",
   "status": "proved",
   "theorems": [
    "c07_coin_transfer",
    "c07_base_transfer"
   ],
   "note": ""
  },
  {
   "property": "C08",
   "status": "proved",
   "theorems": [
    "c08_asset_fee_exact",
    "c08_operator_fee_exact",
    "c08_risk_share_refuted"
   ],
   "note": "The split is exact for every fee and ratio; the reserve's part equals the ratio only while the 64-bit product does not wrap (refuted otherwise)."
  },
  {
   "property": "C09",
   "status": "proved",
   "theorems": [
    "c09_votes_in_order",
    "c09_rules_change"
   ],
   "note": "Over every history of votes, other transactions and the change of rules (which leaves every voter at most one candidate). Candidates are compared as accounts, whatever they are called."
  },
  {
   "property": "C10",
   "status": "proved",
   "theorems": [
    "c10_ranking_current",
    "c10_ranking_complete",
    "c10_second_release",
    "c10_top",
    "c10_top_deterministic",
    "c10_unregistered_refuted",
    "c10_zero_votes_refuted"
   ],
   "note": "Every entry is current and no account has two, always. Refuted as stated in two ways: an account that gets votes before it is registered is missing from the ranking afterwards, and an account whose votes are all taken back stays in it with zero votes. Complete if accounts are registered before they get votes, which is so under the rules of the second release."
  },
  {
   "property": "C11",
   "status": "proved",
   "theorems": [
    "c11_orders_backed",
    "c11_owner_cancels",
    "c11_only_owner_cancels",
    "c11_governance_cancels"
   ],
   "note": "With equality: frozen balances are exactly the initial ones plus what active orders may still pay. Total supply of each token below 2^63 is assumed (9*10^18 is the limit for issued assets)."
  },
  {
   "property": "C12",
   "status": "proved",
   "theorems": [
    "c12_deals_proper",
    "c12_deal_conserves",
    "c12_market_buy_refuted"
   ],
   "note": "Every accepted settlement is a sequence of proper deals: prices, limits, taxes, fees, refund, movements of money, resulting orders. For a market buy the amount of coins is right only if the value is below 2^63: the difference is compared in wrapped 64-bit arithmetic (refuted with an accepted deal)."
  },
  {
   "property": "C13",
   "status": "proved",
   "theorems": [
    "c13_partial_deals",
    "c13_limit_buy_backed",
    "c13_completion"
   ],
   "note": "For any sequence of partial deals; the final assertion cannot fail. The refund is part of C12."
  },
  {
   "property": "C14",
   "status": "proved",
   "theorems": [
    "c14_indexes",
    "c14_totals",
    "c14_one_each"
   ],
   "note": "Every history of positions, transactions of other kinds in between. The total of debts is exact below 2^64 (always, given the bound on stable coins and C57)."
  },
  {
   "property": "C15",
   "status": "proved",
   "theorems": [
    "c15_list",
    "c15_listed_low",
    "c15_unlisted_high",
    "c15_order",
    "c15_answers",
    "c15_no_debt_unlisted",
    "c15_dust_refuted"
   ],
   "note": "The list is exact with respect to the number kept in the index; that number is the ratio up to a part in 2^48 and rounding down, for positions that are not extreme. Refuted as stated: a position with less than 10^-8 units of collateral per unit of debt gets the largest number and is never listed."
  },
  {
   "property": "C16",
   "status": "proved",
   "theorems": [
    "c16_spent_once",
    "c16_unspent_exactly",
    "c16_same_input_twice"
   ],
   "note": "Over every history in which no two accepted transfers have the same id; outputs cannot be consumed within the block that creates them."
  },
  {
   "property": "C17",
   "status": "proved",
   "theorems": [
    "c17_history_conserves",
    "c17_token_swap_refuted",
    "c17_output_sum_refuted"
   ],
   "note": "Proved for transfers whose inputs are in their own token and whose outputs total less than 2^64. Neither is checked by the code: an output of one token can be consumed as another one, and output sums wrap around (both refuted with accepted histories)."
  },
  {
   "property": "C18",
   "status": "proved",
   "theorems": [
    "c18_enough_signatures",
    "c18_accepts_exactly",
    "c18_distinct_signers",
    "c18_repeated_signature_refuted"
   ],
   "note": "Exactly m positions with a valid signature are required; m different signers only if no key validates two of the signatures. One signature given twice counts twice (refuted)."
  },
  {
   "property": "C19",
   "status": "proved",
   "theorems": [
    "c19_executed_at_most_once",
    "c19_effect",
    "c19_two_thirds",
    "c19_byte_count_refuted",
    "c19_former_governor_counts_refuted"
   ],
   "note": "Holds for histories without repeated proposal ids (ids are transaction hashes, see C27). Two side findings are proved: with 383 or more governors the one-byte threshold wraps to 0 and no proposal can be approved; approvals of governors removed meanwhile still count."
  },
  {
   "property": "C20",
   "status": "proved",
   "theorems": [
    "c20_two_ratios_refuted",
    "c20_one_ratio_keeps_order"
   ],
   "note": "The claim is false for proposals that change two ratios at once (refuted with the default values); proved for proposals that change at most one."
  },
  {
   "property": "C21",
   "status": "proved",
   "theorems": [
    "c21_majority",
    "c21_order",
    "c21_half_refuted",
    "c21_overflow_refuted"
   ],
   "note": "For prices below 2^63; refuted above, where the average of two prices wraps."
  },
  {
   "property": "C22",
   "status": "proved",
   "theorems": [
    "c22_window",
    "c22_verdict",
    "c22_same",
    "c22_majority",
    "c22_trailing_refuted",
    "c22_resize_refuted",
    "c22_start_refuted"
   ],
   "note": "For blocks that list their feeds before other transactions, as honest producers make them, and a constant window. No rule asks for either: both are refuted without."
  },
  {
   "property": "C23",
   "status": "proved",
   "theorems": [
    "c23_round_trip",
    "c23_prefix_free",
    "c23_accepted",
    "c23_value",
    "c23_one_encoding_refuted"
   ],
   "note": "For every unsigned type. The reader also accepts over-long encodings whose value exceeds the type and drops the high bits, so one number has several accepted encodings (refuted)."
  },
  {
   "property": "C24",
   "status": "proved",
   "theorems": [
    "c24_round_trip",
    "c24_size",
    "c24_only_encoding",
    "c24_string",
    "c24_string_only_encoding",
    "c24_bytes",
    "c24_vector"
   ],
   "note": "Extended to strings, byte vectors and vectors of other values."
  },
  {
   "property": "C25",
   "status": "proved",
   "theorems": [
    "c25_round_trip",
    "c25_width",
    "c25_order",
    "c25_regid_key",
    "c25_regid_key_round_trip",
    "c25_plain_regid_order_refuted"
   ],
   "note": "For every unsigned type and for compound keys; the plain serialisation of a registration id does not have the order property (refuted)."
  },
  {
   "property": "C26",
   "status": "proved",
   "theorems": [
    "c26_integer",
    "c26_integer_order",
    "c26_raw",
    "c26_raw_accepted",
    "c26_text",
    "c26_text_distinct",
    "c26_text_accepted",
    "c26_text_refuted",
    "c26_regid_serial",
    "c26_userid_serial",
    "c26_userid_made",
    "c26_userid_received",
    "c26_userid_received_refuted",
    "c26_userid_one_encoding_refuted"
   ],
   "note": "Round trips proved in both directions where they hold. Refuted: text without hyphen or with an index over 16 bits is accepted for another id; the text of heights above 2^31-1 is undefined behaviour to read; a received user id can hold an invalid public key, and writing it again fails an assertion; user ids have several accepted encodings."
  },
  {
   "property": "C27",
   "status": "proved",
   "theorems": [
    "c27_once",
    "c27_known",
    "c27_verdict",
    "c27_median_refuted",
    "c27_reward_refuted",
    "c27_split_refuted",
    "c27_first_refuted",
    "c27_start_refuted"
   ],
   "note": "For all transactions but rewards, medians and those of the first block, over every history of connecting, disconnecting, forks, restarts and reloads. Refuted as stated for the exceptions, and for a start with stored blocks not yet connected: they are connected before the memory is loaded."
  },
  {
   "property": "C28",
   "status": "proved",
   "theorems": [
    "c28_height",
    "c28_ancestor",
    "c28_none",
    "c28_add",
    "c28_load"
   ],
   "note": "Over every history of arrivals, marks and restarts; undefined only at the largest int32 height."
  },
  {
   "property": "C29",
   "status": "proved",
   "theorems": [
    "c29_final_stays",
    "c29_known_stays",
    "c29_recent_stays"
   ],
   "note": "Over every history of blocks, messages and clean restarts of one node, with any verdicts on blocks. Also proved for a block confirmed at most 60 seconds ago. Operator calls that invalidate or disconnect blocks are left out."
  },
  {
   "property": "C30",
   "status": "proved",
   "theorems": [
    "c30_quorum",
    "c30_conflict",
    "c30_tip_only",
    "c30_number_refuted"
   ],
   "note": "The backing is proved for the number the node counts with; the overlap if that is the number of producers after the block before. Refuted without this: the number is taken from the block a message names as the one before, which nobody checks, so one producer can make a block final alone. Messages are accepted for the last block only."
  },
  {
   "property": "C31",
   "status": "proved",
   "theorems": [
    "c31_extract",
    "c31_sound",
    "c31_count_refuted"
   ],
   "note": "For up to 66666 ids, the code's limit, before and after sending. Also: whatever a peer sends for the right number of transactions, only ids of the block are extracted (collision-free hash). With a wrong number an inner node passes for an id, as in the original design."
  },
  {
   "property": "C32",
   "status": "proved",
   "theorems": [
    "c32_permutation",
    "c32_round",
    "c32_any_round_refuted",
    "c32_old_refuted"
   ],
   "note": "The third release's schedule goes by the time, so a round is fair; refuted for rows of slots across two rounds and before that release, where the seed goes by the height."
  },
  {
   "property": "C33",
   "status": "proved",
   "theorems": [
    "c33_set",
    "c33_set_tells",
    "c33_set_recent_refuted",
    "c33_map",
    "c33_map_default",
    "c33_map_at",
    "c33_map_at_refuted"
   ],
   "note": "For all calls of the set and for insert, update and resize of the map. Refuted: that inserting again makes an element recent; that reading a missing map key with operator[] keeps the bound."
  },
  {
   "property": "C34",
   "status": "proved",
   "theorems": [
    "c34_unique",
    "c34_keeps",
    "c34_position",
    "c34_sender",
    "c34_contract",
    "c34_sane",
    "c34_genesis",
    "c34_genesis_refuted",
    "c34_wrap_refuted",
    "c34_reorg_refuted"
   ],
   "note": "For every history of blocks connected and disconnected whose blocks have fewer than 2^16 transactions besides the reward, with hashes that do not collide; ids are kept along a chain. Refuted without the bound (indexes are cut to 16 bits), for a genesis block with two votes, and across a reorganisation."
  },
  {
   "property": "C35",
   "status": "proved",
   "theorems": [
    "c35_round",
    "c35_pair",
    "c35_affordable_refuted"
   ],
   "note": "Worst first with respect to the number kept in the index (C15). A round stops at the first position the reserve cannot pay for, even if it could pay for others."
  },
  {
   "property": "C36",
   "status": "proved",
   "theorems": [
    "c36_one_pair",
    "c36_few",
    "c36_limit_refuted",
    "c36_accepted_refuted"
   ],
   "note": "Refuted as stated: with two pairs and a hundred due positions in the first, more than a hundred are proposed and validation rejects the block. Proved for one pair, and for any number of pairs when fewer than a hundred positions are due. Also refuted: that a proposal within the limit is accepted."
  },
  {
   "property": "C37",
   "status": "proved",
   "theorems": [
    "c37_credit",
    "c37_once",
    "c37_immature",
    "c37_recorded",
    "c37_not_refused",
    "c37_stuck",
    "c37_lost_refuted",
    "c37_stuck_refuted"
   ],
   "note": "For every history of blocks connected and disconnected, with hashes that do not collide: balances are the sum of what the blocks do by themselves and the rewards of the blocks at least 100 below the tip, each once; modulo 2^64, exactly where there is room. What the reward promises is what the code checks; refuted that this is all of the fees and the inflation, as the reward of the older kind is taken for any block, and refuted for the unchecked heights of the test net that the chain can go on."
  },
  {
   "property": "C38",
   "status": "proved",
   "theorems": [
    "c38_joint",
    "c38_verdict",
    "c38_drop",
    "c38_block",
    "c38_order_refuted",
    "c38_lost_refuted",
    "c38_stale_refuted",
    "c38_index_refuted"
   ],
   "note": "For transactions that read the state only through its keys. Proved: the pool can be executed together in the order of ids at the last rescan followed by the order of acceptance, as long as no change of the chain breaks off at an invalid block; what a rescan keeps, exactly. Refuted: the order of acceptance, that a rescan keeps what can still be executed, that the pool is sound after a change of the chain that breaks off, and that indexes differ."
  },
  {
   "property": "C39",
   "status": "proved",
   "theorems": [
    "c39_swap_in_exact",
    "c39_fee_accurate",
    "c39_swap_history",
    "c39_txid_text_refuted"
   ],
   "note": "A foreign transaction is identified by chain and the exact text of its id: once per text is proved, but the same hexadecimal id in other letter case mints again (refuted)."
  },
  {
   "property": "C40",
   "status": "proved",
   "theorems": [
    "c40_placement_verdict",
    "c40_price_refuted"
   ],
   "note": "Refuted as stated: the price of a limit order is not bounded and an extreme one fails an assertion. Proved when the value fits 64 bits."
  },
  {
   "property": "C41",
   "status": "proved",
   "theorems": [
    "c41_listing",
    "c41_seek",
    "c41_empty_key",
    "c41_pages",
    "c41_flush",
    "c41_prefix",
    "c41_orders",
    "c41_loans",
    "c41_stale_refuted",
    "c41_erased_refuted",
    "c41_loans_refuted",
    "c41_pairs_refuted"
   ],
   "note": "For keys whose bytes are in the order of their comparison: numbers of fixed width, registration ids, hashes, symbols of one length. Refuted for symbols of different lengths, which are stored behind their length: erased and overwritten assets are listed, and the loans of a pair depend on what has been written to the database."
  },
  {
   "property": "C42",
   "status": "proved",
   "theorems": [
    "c42_encode",
    "c42_characters",
    "c42_decode_total",
    "c42_round_trip",
    "c42_accepted",
    "c42_check_round_trip",
    "c42_check_accepted",
    "c42_check_total",
    "c42_address_round_trip",
    "c42_address_accepted",
    "c42_terminator_refuted"
   ],
   "note": "For every byte string and every text; the checked form for every hash function. Text after an embedded terminator is ignored (refuted)."
  },
  {
   "property": "C43",
   "status": "proved",
   "theorems": [
    "c43_no_miss",
    "c43_defined",
    "c43_no_funcs_refuted",
    "c43_before_update_refuted",
    "c43_no_bytes_undefined",
    "c43_relevance_refuted"
   ],
   "note": "For filters with at least one hash function that were created, or received and updated, as the code does. Refuted outside these conditions; refuted that relevance of a transaction follows from its id being contained."
  },
  {
   "property": "C44",
   "status": "proved",
   "theorems": [
    "c44_amounts",
    "c44_price_covers_debt",
    "c44_part_refuted"
   ],
   "note": "Exact effects under the hypothesis that what is paid covers the debt taken off, which is proved from the governed parameters for amounts below 2^52. Refuted without the bound: from 2^53 on, rounding takes off more debt than was paid and the reserve is credited 2^64 - 1."
  },
  {
   "property": "C45",
   "status": "proved",
   "theorems": [
    "c45_account_check_is_subset",
    "c45_asset_check_is_subset",
    "c45_clear_and_grant",
    "c45_only_empty_grant_refused",
    "c45_only_defined_grants_refuted"
   ],
   "note": "An earlier version modelled kAccountAllPerms as 1023 and claimed that undefined rights cannot be granted; the code has 2^64-1, so a proposal can grant any non-empty 64-bit set of rights (witness 1024). Model and theorem corrected."
  },
  {
   "property": "C46",
   "status": "proved",
   "theorems": [
    "c46_keys_never_collide",
    "c46_key_parse"
   ],
   "note": ""
  },
  {
   "property": "C47",
   "status": "proved",
   "theorems": [
    "c47_system_parameter_in_force",
    "c47_cdp_parameter_in_force",
    "c47_miner_fee_in_force",
    "c47_block_producers_in_force",
    "c47_zero_refuted",
    "c47_pending_block_producers_refuted"
   ],
   "note": "Proved for non-zero values; the allowed value zero reads back as the default (refuted). A pending change of the number of block producers is lost when a second one is executed (refuted). The maps of the caches are taken to work; for coin pairs that cross they do not (C78)."
  },
  {
   "property": "C48",
   "status": "proved",
   "theorems": [
    "c48_interest_periods",
    "c48_zero_refuted"
   ],
   "note": "Proved for non-zero values; with the allowed value zero for parameter A the recorded history is wrong (refuted)."
  },
  {
   "property": "C49",
   "status": "proved",
   "theorems": [
    "c49_accepted_is_signed_and_permitted",
    "c49_right_is_one_bit",
    "c49_cleared_account_refuted"
   ],
   "note": "The last clause is false and refuted: an account without any rights can still send types missing from the rights table when it names itself by public key."
  },
  {
   "property": "C50",
   "status": "proved",
   "theorems": [
    "c50_transaction_acts_on_ledger"
   ],
   "note": "All sender id kinds, with or without registration on first use, any fee including zero."
  },
  {
   "property": "C51",
   "status": "proved",
   "theorems": [
    "c51_conditions_met",
    "c51_met_passes",
    "c51_outputs_well_formed",
    "c51_proofs_were_submitted"
   ],
   "note": "A reclaim lock only binds the creator of the output; an output without conditions is open to everyone."
  },
  {
   "property": "C52",
   "status": "proved",
   "theorems": [
    "c52_verdict",
    "c52_null_condition_refuted"
   ],
   "note": "Refuted as stated: a condition of type 0 is a null pointer and is dereferenced. Proved for transfers and chains without one."
  },
  {
   "property": "C53",
   "status": "proved",
   "theorems": [
    "c53_settlement_verdict",
    "c53_extreme_amounts_refuted"
   ],
   "note": "Refuted as stated for extreme amounts (failed assertion, undefined absolute value); proved when amounts of coins are below 2^63."
  },
  {
   "property": "C54",
   "status": "proved",
   "theorems": [
    "c54_received_votes"
   ],
   "note": "Same histories as C09."
  },
  {
   "property": "C55",
   "status": "proved",
   "theorems": [
    "c55_votes_back",
    "c55_all_votes_back",
    "c55_unregistered_refuted"
   ],
   "note": "Proved if, under the rules of the second release, the candidate has a public key on record (and, before, the interest is within range). Refuted as stated: votes given in the first release to an account that is not registered cannot be taken back after the change of rules."
  },
  {
   "property": "C56",
   "status": "proved",
   "theorems": [
    "c56_pledged_is_collateral"
   ],
   "note": "Same histories as C14."
  },
  {
   "property": "C57",
   "status": "proved",
   "theorems": [
    "c57_debt_covered",
    "c57_gift_refuted",
    "c57_underpaid_refuted"
   ],
   "note": "Exact with one exception, and where liquidators pay the debt they take off (C44). Refuted as stated: adding to a position with interest due creates the missing coins with no debt; parameters governance accepts let a liquidation create almost 2^64 coins."
  },
  {
   "property": "C58",
   "status": "proved",
   "theorems": [
    "c58_opened",
    "c58_redeemed",
    "c58_added_refuted"
   ],
   "note": "Up to a part in 2^49. Refuted for adding: it is enough that what is added meets the ratio."
  },
  {
   "property": "C60",
   "status": "proved",
   "theorems": [
    "c60_bounded",
    "c60_insert",
    "c60_other_calls",
    "c60_resize",
    "c60_highest_refuted"
   ],
   "note": "Refuted: that the map keeps the entries with the highest values, as its comment says."
  },
  {
   "property": "C61",
   "status": "proved",
   "theorems": [
    "c61_branch",
    "c61_unique"
   ],
   "note": ""
  },
  {
   "property": "C62",
   "status": "proved",
   "theorems": [
    "c62_content",
    "c62_same_length",
    "c62_repeated_refuted",
    "c62_inner_refuted"
   ],
   "note": "If no id is a combination of two hashes; the two conditions are shown necessary."
  },
  {
   "property": "C59",
   "status": "proved",
   "theorems": [
    "c59_set_tip",
    "c59_chain",
    "c59_next",
    "c59_locator",
    "c59_locator_overflow",
    "c59_locator_refuted",
    "c59_fork",
    "c59_start",
    "c59_connect",
    "c59_disconnect",
    "c59_block_refuted"
   ],
   "note": "Chain, fork point and successors always. Locators are proved for heights up to 2^30 + 9 and refuted above (the step overflows). Refuted: the tip block; it is empty after a start and the disconnected block after a disconnection."
  },
  {
   "property": "C63",
   "status": "proved",
   "theorems": [
    "c63_best",
    "c63_arrival",
    "c63_held_refuted",
    "c63_restart_refuted"
   ],
   "note": "When activation ends on the best chain. Refuted otherwise: a higher fork without the final block keeps the node from better blocks on its own side; a restart may change between tips of the same height."
  },
  {
   "property": "C64",
   "status": "proved",
   "theorems": [
    "c64_ends",
    "c64_ends_again"
   ],
   "note": "If the verdict on a block does not change, except for system errors, which may come at any time."
  },
  {
   "property": "C65",
   "status": "proved",
   "theorems": [
    "c65_depth"
   ],
   "note": "Over every history."
  },
  {
   "property": "C66",
   "status": "proved",
   "theorems": [
    "c66_on_duty",
    "c66_signed",
    "c66_share",
    "c66_line",
    "c66_old_turns"
   ],
   "note": "The list of producers has no repetition (C10). Merkle root, nonce and version of the block are not modelled."
  },
  {
   "property": "C67",
   "status": "proved",
   "theorems": [
    "c67_elected",
    "c67_stable",
    "c67_settles"
   ],
   "note": "The third release starts after the first block, as on all networks (chainparams.cpp:188-189). Order among equal votes is the ranking's (delegatedb.cpp)."
  },
  {
   "property": "C68",
   "status": "proved",
   "theorems": [
    "c68_fed",
    "c68_fresh",
    "c68_height_refuted"
   ],
   "note": "Under the conditions of C22. A pair that may be fed again can have a price without a feed height (refuted witness)."
  },
  {
   "property": "C69",
   "status": "proved",
   "theorems": [
    "c69_edge",
    "c69_unconfirmed",
    "c69_edge_refuted"
   ],
   "note": "Refuted as stated at one edge: the pool takes a valid height one higher than the next block may hold, so one such transaction makes every producer's block invalid. Proved for all others, exactly."
  },
  {
   "property": "C70",
   "status": "proved",
   "theorems": [
    "c70_deploy",
    "c70_fresh",
    "c70_refuted"
   ],
   "note": "Exact balances. Refuted as stated: coins at the address of the contract, which anyone can compute before, are destroyed by the deployment."
  },
  {
   "property": "C71",
   "status": "proved",
   "theorems": [
    "c71_deploy",
    "c71_call",
    "c71_uni_fuel",
    "c71_uni",
    "c71_connect",
    "c71_assemble",
    "c71_uni_refuted",
    "c71_low_fee_refuted",
    "c71_early_refuted"
   ],
   "note": "For deployments and calls with the usual minimum fees at every rate a chain can have (C73), and for universal transactions whose fee leaves room for rounding. Refuted as stated: a universal transaction with a fee of 100,000 and fuel of 100,050 is accepted and stops every node that connects or assembles a block with it; so does a deployment once governance has lowered the fee for deployments, and a call before the stable coin's release."
  },
  {
   "property": "C72",
   "status": "proved",
   "theorems": [
    "c72_accepted",
    "c72_refuted",
    "c72_history_refuted"
   ],
   "note": "For fuel fees below 2^32 in total and the usual minimum fees. Refuted otherwise: a block of 43 deployments burns more than the 32 bits in which the header's fee is read, so every node refuses it; with a lowered fee for deployments the verdict depends on what the node has executed before."
  },
  {
   "property": "C73",
   "status": "proved",
   "theorems": [
    "c73_bounds",
    "c73_first",
    "c73_follows",
    "c73_stuck"
   ],
   "note": "Exact, with a bound of 21,543, for the usual window of 50 blocks. Refuted: that a lasting load makes the rate rise; once below 10 it never reaches 10 again."
  },
  {
   "property": "C74",
   "status": "proved",
   "theorems": [
    "c74_goes_on",
    "c74_null_refuted",
    "c74_sender_refuted",
    "c74_release_refuted"
   ],
   "note": "For blocks that name a predecessor or are at height 0, whose reward is sent by a registration id, and which have the release's transactions at the release height. Refuted as stated for each of the three: anyone can make a block without a predecessor that fails an assertion, and a block on top of the tip that shuts the node down. What connecting does with transactions is in other areas."
  },
  {
   "property": "C75",
   "status": "proved",
   "theorems": [
    "c75_bounded",
    "c75_handed",
    "c75_kept",
    "c75_waiting",
    "c75_index",
    "c75_form",
    "c75_no_upgrade",
    "c75_waiting_refuted",
    "c75_refused_refuted",
    "c75_full_refuted"
   ],
   "note": "Exact. That no block is left waiting holds if the choice of the chain does not fail; refuted otherwise. Refuted: that a lower block finds a place in a full store; blocks of equal heights are never dropped, and blocks that claim heights of 2^31 or more sort below all others, so that 751 of them close the store."
  },
  {
   "property": "C76",
   "status": "proved",
   "theorems": [
    "c76_return",
    "c76_lost_refuted"
   ],
   "note": "For transactions that every state accepts. Refuted as stated: a transaction is offered on top of what the pool had executed after it, and is lost."
  },
  {
   "property": "C77",
   "status": "proved",
   "theorems": [
    "c77_runs",
    "c77_pool",
    "c77_all",
    "c77_size"
   ],
   "note": "For transactions that read the state only through its keys, and apart from the limit on the time of an execution, which is not the same for producers. The far end of the range of heights is C69, the totals of fuel are C72."
  },
  {
   "property": "C78",
   "status": "proved",
   "theorems": [
    "c78_reads",
    "c78_one_scoin",
    "c78_history",
    "c78_any_pair",
    "c78_lost_refuted",
    "c78_flush_refuted",
    "c78_throw_refuted",
    "c78_block_refuted"
   ],
   "note": "Proved for all sets of coin pairs of which no two cross (one with the smaller first and the larger second symbol), so in particular with one stable coin. Refuted without: proposals are accepted for any pair of symbols, and after one for WUSD:WICC a value set for WICC:WUSD is not found, or found by nodes that flushed in between, or an exception is thrown."
  },
  {
   "property": "C79",
   "status": "proved",
   "theorems": [
    "c79_all",
    "c79_order",
    "c79_block",
    "c79_fuel_refuted",
    "c79_comparison_refuted"
   ],
   "note": "Proved for pools gone through in the sequence of hashes, as the pool's map is, and for fuel fees within the fees. The comparison itself is no order, and a fuel fee above the fee wraps and puts the transaction first (both refuted). With the producer's own transactions: the median of prices after the price feeds, the settlement of interest after all that leave a fee."
  },
  {
   "property": "C80",
   "status": "proved",
   "theorems": [
    "c80_call_supply",
    "c80_call_victims",
    "c80_transfer_to_nobody_refuted",
    "c80_output_to_nobody_refuted",
    "c80_sender_loses_more_refuted"
   ],
   "note": "That no coins are created and no third account loses: proved as stated, for all lists of calls. That none are destroyed: if payments go to registration ids or to text that is an address; refuted otherwise, as text that is none stands for the empty key id, whose account is never stored. Refuted: that a sender loses at most fee and amount, as scripts may take any coins of the sender. The interpreter itself is not modelled."
  },
  {
   "property": "C81",
   "status": "proved",
   "theorems": [
    "c81_books",
    "c81_solvent",
    "c81_books_wrap_refuted",
    "c81_transfer_unseen_refuted",
    "c81_negative_amount_refuted"
   ],
   "note": "From the second fork version on, for withdrawals and amounts below 2^63; solvency if the script sends no WICC directly out of the contract's account and the sender is not the contract. Refuted without each: the sum of withdrawals is cast to a signed number, so outputs that cancel out let books grow by 2^62; direct transfers are not seen; before the fork a negative amount is huge in the books."
  },
  {
   "property": "C82",
   "status": "proved",
   "theorems": [
    "c82_verdict",
    "c82_stops_the_node_refuted",
    "c82_reads_past_the_tag_refuted"
   ],
   "note": "For operations of the four kinds with tags of at most 40 bytes and, on frozen coins, with an amount other than zero and a height between 1 and 2^31 - 1; soundness of the records is kept. Refuted as stated: a script can stop every node that executes it in four ways, and have memory read past a tag."
  },
  {
   "property": "C83",
   "status": "proved",
   "theorems": [
    "c83_tip",
    "c83_tip_matters_refuted"
   ],
   "note": "For scripts that do not move all of a sender's coins in the books at once, and for all scripts if no frozen amount becomes free between the heights. Refuted as stated: such a script reads the height of the active chain."
  },
  {
   "property": "C84",
   "status": "proved",
   "theorems": [
    "c84_transfers",
    "c84_one_list",
    "c84_amounts",
    "c84_all_or_nothing_refuted",
    "c84_outputs_unlimited_refuted"
   ],
   "note": "Proved: of every list a first part is carried out, all of it if and only if the call returns true, at most 100 transfers in all, and balances change by exactly these. Refuted: all or nothing, and the limit for outputs."
  },
  {
   "property": "C85",
   "status": "proved",
   "theorems": [
    "c85_coins",
    "c85_transfer",
    "c85_require"
   ],
   "note": "For payers known by registration id or key id who are registered, contract programs being any functions. The WASM machine itself is not modelled."
  },
  {
   "property": "C86",
   "status": "proved",
   "theorems": [
    "c86_code",
    "c86_nobody_refuted"
   ],
   "note": "For registered payers. Refuted without: a payer known by its public key alone signs as number 0, so anyone can replace the code of a contract whose maintainer is number 0."
  },
  {
   "property": "C87",
   "status": "proved",
   "theorems": [
    "c87_supply",
    "c87_records",
    "c87_rewards"
   ],
   "note": "For registered payers and a voting contract that is set. As stated."
  },
  {
   "property": "C88",
   "status": "proved",
   "theorems": [
    "c88_data",
    "c88_alias_refuted"
   ],
   "note": "Proved that data change only under the number of a contract whose code ran under that number. Refuted: that a contract has one set of data; it can be called by many numbers, with a set of data for each."
  },
  {
   "property": "C89",
   "status": "proved",
   "theorems": [
    "c89_check",
    "c89_exception_refuted",
    "c89_length_refuted"
   ],
   "note": "Proved for the check if every extra signer exists and has a public key. Refuted without, as an exception leaves the check; and refuted for the execution, where a length of six bytes shifts too far."
  },
  {
   "property": "C90",
   "status": "proved",
   "theorems": [
    "c90_work",
    "c90_endless"
   ],
   "note": "As stated; code that contracts deploy through inline transactions of their own is not charged by its size and not counted."
  },
  {
   "property": "C91",
   "status": "proved",
   "theorems": [
    "c91_agree",
    "c91_clock_refuted"
   ],
   "note": "Proved that nodes that both accept agree on the state. Refuted that they agree on the verdict."
  },
  {
   "property": "C92",
   "status": "proved",
   "theorems": [
    "c92_rank",
    "c92_zero_refuted"
   ],
   "note": "At the level of the action, for votes other than 0. Refuted for 0, which takes the candidate off the ranking."
  },
  {
   "property": "C93",
   "status": "proved",
   "theorems": [
    "c93_order",
    "c93_one_account",
    "c93_shared_refuted"
   ],
   "note": "For registered payers. Refuted without: a payer known by its public key alone and the contract it deploys get the same registration id."
  },
  {
   "property": "C94",
   "status": "proved",
   "theorems": [
    "c94_payer",
    "c94_cosigner_refuted"
   ],
   "note": "Proved for the payer. Refuted for those who sign beside it."
  },
  {
   "property": "C95",
   "status": "proved",
   "theorems": [
    "c95_transaction_round_trip",
    "c95_transactions_told_apart"
   ],
   "note": "For transactions without invalid public keys and negative numbers in heights and versions; without these see C97."
  },
  {
   "property": "C96",
   "status": "proved",
   "theorems": [
    "c96_signed_content",
    "c96_everything_signed",
    "c96_settlement_fees_refuted",
    "c96_negative_height_refuted"
   ],
   "note": "Exact (if and only if) for every type but one, about the bytes that are hashed; the hash function is not modelled. Refuted for the settlement of interest, whose fees are not covered, and for negative heights, which are hashed as other numbers."
  },
  {
   "property": "C97",
   "status": "proved",
   "theorems": [
    "c97_received",
    "c97_invalid_key_refuted",
    "c97_negative_height_refuted",
    "c97_one_transaction_one_message_refuted",
    "c97_defined_refuted"
   ],
   "note": "Proved for messages without invalid public keys and negative numbers. Refuted without: an invalid key fails an assertion, a negative height is passed on as another, and a number of six bytes shifts a signed number out of range."
  },
  {
   "property": "C98",
   "status": "proved",
   "theorems": [
    "c98_one_meaning",
    "c98_block_version_refuted"
   ],
   "note": "For blocks of version 1, as every node demands; refuted without that rule. About the bytes that are hashed."
  },
  {
   "property": "C99",
   "status": "proved",
   "theorems": [
    "c99_in_line",
    "c99_last_flush",
    "c99_goes_on",
    "c99_paid_twice_refuted",
    "c99_spent_twice_refuted",
    "c99_harmless_iff",
    "c99_extent",
    "c99_check_accepts"
   ],
   "note": "Proved for processes that die while they are not writing their state. Refuted amid the writing: each table is written by itself, so that payments are made twice or spent outputs stay unspent, and the check at start accepts it. Proved which tables can then be off and exactly when nothing is."
  },
  {
   "property": "C100",
   "status": "proved",
   "theorems": [
    "c100_typed",
    "c100_understood",
    "c100_not_rounded",
    "c100_default_refuted",
    "c100_large_refuted",
    "c100_shown",
    "c100_shown_back",
    "c100_number",
    "c100_number_near",
    "c100_number_negative",
    "c100_number_refuted"
   ],
   "note": "Proved for texts with a stated token, or calls whose default is WICC, and amounts below 2^63 - 1; numbers below 2^52. Refuted beyond: with a unit and no token the default of the call is ignored, larger amounts are taken as 2^63 - 1, and larger numbers are off by one or more."
  },
  {
   "property": "C101",
   "status": "proved",
   "theorems": [
    "c101_delivered",
    "c101_commands",
    "c101_no_failure",
    "c101_freed_refuted",
    "c101_progress",
    "c101_large_refuted"
   ],
   "note": "Proved for all histories of one direction of a connection. Refuted: a message too short for its handler, on a connection that breaks when this is answered, is read after it was freed; data over 32 MiB make the receiver disconnect."
  },
  {
   "property": "C102",
   "status": "proved",
   "theorems": [
    "c102_pieces",
    "c102_contents",
    "c102_handed",
    "c102_alive",
    "c102_bound",
    "c102_bound_refuted"
   ],
   "note": "The bound is proved for sockets without exceptional conditions and refuted with them: then data are read in spite of the limit."
  },
  {
   "property": "C103",
   "status": "proved",
   "theorems": [
    "c103_store",
    "c103_frame",
    "c103_database",
    "c103_entry",
    "c103_undo",
    "c103_negative_refuted",
    "c103_lost_refuted",
    "c103_long_refuted",
    "c103_undo_long_refuted"
   ],
   "note": "Proved for strings of at most 4,000,000 bytes, user ids without invalid keys and heights that are not negative; exact about which records count as blank. Refuted beyond: a negative height is read as another, a longer string is written but not found, a record of nearly that length cannot be read from undo data, and an exchange operator with only its activation, open mode and list set is lost. Caches in front of the databases are the subject of C78 and C99."
  },
  {
   "property": "C104",
   "status": "proved",
   "theorems": [
    "c104_kept",
    "c104_block_place",
    "c104_undo_place",
    "c104_gap_refuted",
    "c104_wrap_refuted"
   ],
   "note": "Proved for all histories in which the undo data of the blocks of one file stay below 2^32 bytes and the blocks found in a file follow each other. Refuted without: after a death in the middle of a write, indexing again counts the blocks that are found instead of looking where they are, and the next block is written over one of them; and a file of undo data is written again from its start after 2^32 bytes (shown from a state with such a file)."
  },
  {
   "property": "C105",
   "status": "proved",
   "theorems": [
    "c105_clock",
    "c105_defined",
    "c105_overflow_refuted",
    "c105_samples",
    "c105_median",
    "c105_warning_refuted"
   ],
   "note": "The clock, the samples and the median are proved for all histories. Refuted: times before 1970 make signed differences overflow; and the warning about a wrong clock is never given, in any history."
  },
  {
   "property": "C106",
   "status": "proved",
   "theorems": [
    "c106_signed",
    "c106_apart",
    "c106_final",
    "c106_final_refuted",
    "c106_cancelled_refuted",
    "c106_once",
    "c106_replay_refuted"
   ],
   "note": "Signatures and cancellation are proved for all histories. That the alert of a compromised key stays is proved if no alert cancels the greatest id and before 2038, and refuted otherwise. Refuted: a cancelled alert still cancels others and comes back when what cancelled it has expired. That the command is run only when an alert was not kept is proved for peers whose version message is read and times that do not go back, and refuted for peers whose version message is too short."
  },
  {
   "property": "C107",
   "status": "proved",
   "theorems": [
    "c107_score",
    "c107_only_guilty",
    "c107_refused",
    "c107_ends",
    "c107_silent_refuted",
    "c107_ban_refuted",
    "c107_overflow_refuted"
   ],
   "note": "Scores and who is banned are proved for all histories; that a peer is disconnected and kept away is proved if its version message was read and it is served before it leaves. Refuted without: a peer that never sends its version message is never disconnected for its errors (proved of all histories), one that leaves first is not banned, connecting again clears the score, other connections of the address go on, and names are connected to in spite of a ban. The score of a local peer overflows after some 21 million errors."
  }
 ]
}