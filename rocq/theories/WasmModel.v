(** Model of universal transactions: the check of who signed, the execution of inline
    transactions by WASM contracts and by the three built-in modules (system, bank, voting),
    permissions, notifications, nested inline transactions, fuel and fees.

    Source: /repo/src/tx/universaltx.cpp; /repo/src/vm/wasm/wasm_context.cpp, wasm_context.hpp,
    wasm_interface.cpp, wasm_constants.hpp, datastream.hpp, types/name.hpp, types/symbol.hpp,
    types/asset.hpp, types/regid.hpp, modules/wasm_native_bank_module.hpp,
    modules/wasm_native_commons.hpp, modules/wasm_native_module.hpp,
    modules/wasm_native_voting_module.hpp; /repo/src/entities/id.cpp, asset.cpp;
    /repo/src/persistence/assetdb.cpp, contractdb.cpp, delegatedb.cpp.

    Simplifications: the WASM machine itself is not modelled. A program is any function from
    its code, the inline transaction, its own number and the whole state to the list of the
    calls it makes to the node that can change something or fail; this covers every program.
    Receipts, traces, logging, console output and memos (beyond their length) are left out.
    Sizes of serialized inline transactions are given by a function. Fuel is a number without
    bound ([uint64_t] in the code: each addition stands for work that was done). A string is
    taken to be read when its bytes are there; the memory it claims before is not modelled. *)
From Coq Require Import String Ascii List Bool NArith ZArith.
From Verif Require Import Prelude AccountModel TxModel FeeModel PermModel DexModel LuaModel
  RegidModel.
Import ListNotations.
Open Scope N_scope.

(** * Numbers, names and symbols *)

(** [CRegID::Set], id.cpp:74-77: the height is cut to 32 bits, the index to 16. *)
Definition reg_of (n : N) : regid := ((n / 1048576) mod two32, (n mod 1048576) mod two16).

(** [CRegID::GetIntValue], id.h:67; [REGID], regid.hpp:13. *)
Definition num_of (r : regid) : N := fst r * 1048576 + snd r.

(** [wasmio], [wasmio_bank], [wasmio_voting], wasm_constants.hpp:28-30. *)
Definition wasmio : N := 100.
Definition wasmio_bank : N := 800.
Definition wasmio_voting : N := 900.

(** The keys of the table of built-in modules: wasm_native_module.hpp:18, 27;
    wasm_native_bank_module.hpp:20, 30; wasm_native_voting_module.hpp:19, 24. *)
Definition is_native (n : N) : bool := (n =? wasmio) || (n =? wasmio_bank) || (n =? wasmio_voting).

(** [char_to_symbol] and [string_to_name], name.hpp:12-40. *)
Definition char_sym (c : ascii) : N :=
  let n := N_of_ascii c in
  if (97 <=? n) && (n <=? 122) then n - 97 + 6
  else if (49 <=? n) && (n <=? 53) then n - 49 + 1 else 0.
Fixpoint name_from (i : nat) (weight : N) (s : string) : N :=
  match s with
  | EmptyString => 0
  | String c s' =>
      match i with
      | O => char_sym c mod 16
      | S i' => char_sym c * weight + name_from i' (weight / 32) s'
      end
  end.
Definition name_of (s : string) : N := name_from 12 576460752303423488 s.

(** The names used below, as numbers ([names_ok] in WasmSpec.v checks them). *)
Definition n_issue : N := 8516769789752901632.
Definition n_mint : N := 10639630974360485888.
Definition n_burn : N := 4516881727834030080.
Definition n_update : N := 15371467946979229696.
Definition n_transfer : N := 14829575313431724032.
Definition n_setasseticon : N := 14029394954580797744.
Definition n_setcode : N := 14029427681804681216.
Definition n_setcoder : N := 14029427682190557184.
Definition n_vote : N := 15938977953078050816.
Definition n_mintrewards : N := 10639643805688164352.
Definition n_on_mint : N := 11871813313518108672.
Definition n_wasmio_code : N := 16262822954107294720.

(** [symbol::precision] and [symbol::code], symbol.hpp:343, 348. *)
Definition sym_precision (raw : N) : N := raw mod 256.
Definition sym_code (raw : N) : N := raw / 256.

(** [symbol_code::to_string], symbol.hpp:188-213. *)
Fixpoint text_from (n : nat) (v : N) : string :=
  match n with
  | O => ""
  | S n' => if v =? 0 then "" else String (ascii_of_N (v mod 256)) (text_from n' (v / 256))
  end.
Definition code_text (v : N) : string := text_from 7 v.

(** [valid_character_in_symbol_name], symbol.hpp:33-44. *)
Definition sym_char (c : N) : bool :=
  ((48 <=? c) && (c <=? 57)) || ((65 <=? c) && (c <=? 90)) || ((97 <=? c) && (c <=? 122)) ||
  (c =? 95) || (c =? 64) || (c =? 46) || (c =? 35).

(** [symbol_code::is_valid], symbol.hpp:129-143. *)
Fixpoint rest_zero (n : nat) (v : N) : bool :=
  match n with
  | O => true
  | S n' => (v / 256 mod 256 =? 0) && rest_zero n' (v / 256)
  end.
Fixpoint code_valid (n : nat) (v : N) : bool :=
  match n with
  | O => true
  | S n' => sym_char (v mod 256) &&
            (if v / 256 mod 256 =? 0 then rest_zero n (v / 256) else code_valid n' (v / 256))
  end.

(** [symbol::is_valid], symbol.hpp:338; [asset::is_valid] and the amount, asset.hpp:39, 61, 69;
    the last test is made beside it everywhere. *)
Definition max_amount : N := 9000000000000000000.
Definition quantity_ok (amount raw : N) : bool :=
  (0 <? i64 amount)%Z && (amount <=? max_amount) && code_valid 7 (sym_code raw) &&
  (sym_precision raw <=? 18).

(** [CAsset::CheckSymbol] for an asset of users, asset.cpp:14-58; [lo] is 4 from release 3.5
    on, 6 before. *)
Definition uia_char (c : N) : bool :=
  ((48 <=? c) && (c <=? 57)) || ((65 <=? c) && (c <=? 90)) ||
  (c =? 35) || (c =? 46) || (c =? 64) || (c =? 95).
Definition uia_ok (lo : N) (s : string) : bool :=
  (lo <=? N.of_nat (String.length s)) && (N.of_nat (String.length s) <=? 7) &&
  forallb (fun c => uia_char (N_of_ascii c)) (list_ascii_of_string s).

(** * Reading the data of an action *)

(** [datastream::read], datastream.hpp:62-67, for numbers: little-endian. *)
Fixpoint le_num (bs : list N) : N :=
  match bs with [] => 0 | b :: bs' => b + 256 * le_num bs' end.
Definition read_bytes (n : N) (bs : list N) : outcome (list N * list N) :=
  if n <=? N.of_nat (List.length bs)
  then Done (firstn (N.to_nat n) bs, skipn (N.to_nat n) bs) else Reject.
Definition read_u64 (bs : list N) : outcome (N * list N) :=
  do (h, r) <- read_bytes 8 bs; Done (le_num h, r).
Definition read_u8 (bs : list N) : outcome (N * list N) :=
  match bs with [] => Reject | b :: r => Done (b, r) end.

(** [unsigned_int], datastream.hpp:1090-1101: from the sixth byte on, a 32-bit number is
    shifted by more than 31. *)
Fixpoint read_var (n : nat) (weight acc : N) (bs : list N) : outcome (N * list N) :=
  match bs with
  | [] => Reject
  | b :: r =>
      match n with
      | O => Undefined
      | S n' =>
          let acc' := acc + (b mod 128) * weight in
          if 128 <=? b then read_var n' (weight * 128) acc' r else Done (acc' mod two32, r)
      end
  end.

(** A string, datastream.hpp:669-675. *)
Definition read_str (bs : list N) : outcome (list N * list N) :=
  do (n, r) <- read_var 5 1 0 bs; read_bytes n r.

(** [std::optional], datastream.hpp:464-473. *)
Definition read_opt {A} (rd : list N -> outcome (A * list N)) (bs : list N)
  : outcome (option A * list N) :=
  do (f, r) <- read_u8 bs;
  if f =? 0 then Done (None, r) else do (x, r') <- rd r; Done (Some x, r').

(** Writing what [_on_mint] packs: numbers, and strings of at most 256 bytes. *)
Fixpoint le_bytes (n : nat) (v : N) : list N :=
  match n with O => [] | S n' => v mod 256 :: le_bytes n' (v / 256) end.
Definition short_str (s : list N) : list N :=
  let n := N.of_nat (List.length s) in
  (if n <? 128 then [n] else [n mod 128 + 128; n / 128]) ++ s.

(** [WICC_SYMBOL], wasm_native_commons.hpp:7-8: the letters W, I, C, C and the precision 8. *)
Definition wicc_symbol : N := 8 + 256 * (87 + 256 * (73 + 256 * (67 + 256 * 67))).

(** * State *)

(** [permission] and [inline_transaction], inline_transaction.hpp:29-62. *)
Record perm := mkPerm { pm_acc : N; pm_name : N }.
Record itx := mkItx { g_contract : N; g_action : N; g_auth : list perm; g_data : list N }.
Definition perm_eqb (a b : perm) : bool := (pm_acc a =? pm_acc b) && (pm_name a =? pm_name b).

(** [CAsset], asset.h:79-90 (the symbol is the key of the table; type and rights are not
    touched here), and [CUniversalContractStore] with the code, the abi and the maintainer. *)
Record asset := mkAsset {
  s_name : list N; s_owner : regid; s_total : N; s_mintable : bool; s_icon : list N }.
Record store := mkStore { k_code : list N; k_abi : list N; k_maintainer : regid }.

(** [CBlockInflatedReward], blockdb.h:19-24. *)
Record reward := mkReward { r_start : N; r_new : N; r_total : N; r_last : N; r_height : N }.

(** The state: accounts ([wd_tx]), assets, contracts, contract data, ranking of candidates with
    the height of the last vote, inflation rewards; of the running transaction the fuel so far,
    the receivers executed (latest first; whether a program or module ran), and the number of
    times the clock was read. Contract data are kept under the registration id and a key that
    starts with the eight bytes of the number the contract was called by
    (wasm_interface.cpp:135-138, 284-287): here a pair. *)
Record world := mkWorld {
  wd_tx : txst; wd_assets : list (string * asset); wd_codes : list (regid * store);
  wd_data : list ((regid * (N * list N)) * list N);
  wd_rank : list ((N * regid) * unit); wd_vote_height : N; wd_reward : reward;
  wd_fuel : N; wd_runs : list (N * bool); wd_ticks : N }.

Definition with_tx (w : world) (t : txst) : world :=
  mkWorld t (wd_assets w) (wd_codes w) (wd_data w) (wd_rank w) (wd_vote_height w) (wd_reward w)
    (wd_fuel w) (wd_runs w) (wd_ticks w).
Definition with_asset (w : world) (s : string) (a : asset) : world :=
  mkWorld (wd_tx w) (fput String.eqb (wd_assets w) s a) (wd_codes w) (wd_data w) (wd_rank w)
    (wd_vote_height w) (wd_reward w) (wd_fuel w) (wd_runs w) (wd_ticks w).
Definition with_code (w : world) (r : regid) (k : store) : world :=
  mkWorld (wd_tx w) (wd_assets w) (fput regid_eqb (wd_codes w) r k) (wd_data w) (wd_rank w)
    (wd_vote_height w) (wd_reward w) (wd_fuel w) (wd_runs w) (wd_ticks w).
Definition with_data (w : world) (d : list ((regid * (N * list N)) * list N)) : world :=
  mkWorld (wd_tx w) (wd_assets w) (wd_codes w) d (wd_rank w)
    (wd_vote_height w) (wd_reward w) (wd_fuel w) (wd_runs w) (wd_ticks w).
Definition with_rank (w : world) (k : list ((N * regid) * unit)) (h : N) : world :=
  mkWorld (wd_tx w) (wd_assets w) (wd_codes w) (wd_data w) k h (wd_reward w)
    (wd_fuel w) (wd_runs w) (wd_ticks w).
Definition with_reward (w : world) (r : reward) : world :=
  mkWorld (wd_tx w) (wd_assets w) (wd_codes w) (wd_data w) (wd_rank w) (wd_vote_height w) r
    (wd_fuel w) (wd_runs w) (wd_ticks w).
Definition burn_fuel (w : world) (f : N) : world :=
  mkWorld (wd_tx w) (wd_assets w) (wd_codes w) (wd_data w) (wd_rank w) (wd_vote_height w)
    (wd_reward w) (wd_fuel w + f) (wd_runs w) (wd_ticks w).
Definition ran (w : world) (n : N) (b : bool) : world :=
  mkWorld (wd_tx w) (wd_assets w) (wd_codes w) (wd_data w) (wd_rank w) (wd_vote_height w)
    (wd_reward w) (wd_fuel w) ((n, b) :: wd_runs w) (wd_ticks w).
Definition tick (w : world) : world :=
  mkWorld (wd_tx w) (wd_assets w) (wd_codes w) (wd_data w) (wd_rank w) (wd_vote_height w)
    (wd_reward w) (wd_fuel w) (wd_runs w) (wd_ticks w + 1).

Definition data_eqb (x y : regid * (N * list N)) : bool :=
  pair_eqb regid_eqb (pair_eqb N.eqb bytes_eqb) x y.
Definition rank_key_eqb (a b : N * regid) : bool := pair_eqb N.eqb regid_eqb a b.

(** [wasm_context]: the inline transaction, the receiver, whom to notify and the inline
    transactions to run afterwards. *)
Record ctx := mkCtx { c_trx : itx; c_recv : N; c_notified : list N; c_inlines : list itx }.

(** What a program asks of the node: [notify_recipient], [send_inline], [db_store] or
    [db_update], [db_remove], [require_auth]; or to stop with an error (any other check that
    fails, [abort], an exception of the machine). *)
Inductive hcall :=
| HNotify (n : N) | HInline (t : itx) | HStore (k v : list N) | HRemove (k : list N)
| HRequire (n : N) | HFail.

(** What an execution reads besides the state: height and index of the transaction; the fee
    for issuing an asset, the part of it for the reserve, the reserve and the block producers;
    the least length of a symbol; the voting contract; whether the n-th reading of the clock is
    too late; the size of an inline transaction; the address of a contract; the programs. *)
Record wenv := mkWenv {
  ev_height : N; ev_index : N; ev_issue_fee : N; ev_ratio : N; ev_reserve : regid;
  ev_delegates : list regid; ev_symbol_min : N; ev_voting : N; ev_late : N -> bool;
  ev_size : itx -> N; ev_address : regid -> N;
  ev_prog : list N -> itx -> N -> world -> list hcall }.

Section Wasm.
  Variable pk_keyid : N -> N.
  Variable e : wenv.

  (** * Accounts *)

  (** [get_account], wasm_native_commons.hpp:47-52. *)
  Definition account_of (w : world) (r : regid) : outcome (N * world) :=
    match get_account pk_keyid (wd_tx w) (UReg r) with
    | (Some k, st) => Done (k, with_tx w st)
    | (None, _) => Reject
    end.

  Definition operate (w : world) (k : N) (s : string) (o : balance_op) (v : N) (other : option N)
    : outcome world :=
    match m_operate (wd_tx w) k s o v other with
    | (true, st) => Done (with_tx w st)
    | (false, _) => Reject
    end.

  Definition mem_regid (w : world) (k : N) : regid :=
    match fget N.eqb (t_mem (wd_tx w)) k with Some a => a_regid a | None => (0, 0) end.

  (** * The context *)

  (** [require_auth], wasm_context.cpp:223-230. *)
  Definition has_auth (t : itx) (n : N) : bool := existsb (fun p => pm_acc p =? n) (g_auth t).

  (** [notify_recipient], wasm_context.cpp:211-221. *)
  Definition notify (c : ctx) (n : N) : outcome ctx :=
    let l := if existsb (N.eqb n) (c_notified c) then c_notified c else c_notified c ++ [n] in
    if N.of_nat (List.length l) <=? 16
    then Done (mkCtx (c_trx c) (c_recv c) l (c_inlines c)) else Reject.

  (** [execute_inline], wasm_context.cpp:44-78, with [has_permission_from_inline_transaction],
      :40-42. *)
  Definition allowed (c : ctx) (t : itx) (p : perm) : bool :=
    let own := (pm_acc p =? c_recv c) && (pm_name p =? n_wasmio_code) in
    if (g_contract t =? wasmio_bank) && negb own then false
    else if g_contract t =? c_recv c
         then (pm_acc p =? c_recv c) || existsb (perm_eqb p) (g_auth (c_trx c))
         else own.
  Definition send_inline (c : ctx) (t : itx) : outcome ctx :=
    if forallb (allowed c t) (g_auth t)
    then Done (mkCtx (c_trx c) (c_recv c) (c_notified c) (c_inlines c ++ [t])) else Reject.

  (** [calc_inline_tx_fuel], wasm_native_commons.hpp:77-79. *)
  Definition charge (c : ctx) (w : world) : world := burn_fuel w (ev_size e (c_trx c) * 10).

  (** * The bank *)

  Definition max_supply : N := 9000000000000000000.      (* const.h:137 *)

  (** [issue], wasm_native_bank_module.hpp:132-206. *)
  Definition bank_issue (c : ctx) (w0 : world) : outcome (ctx * world) :=
    let w := charge c w0 in
    do (raw, d1) <- read_u64 (g_data (c_trx c));
    do (owner, d2) <- read_u64 d1;
    do (name, d3) <- read_str d2;
    do (total, d4) <- read_u64 d3;
    do (mintable, d5) <- read_u8 d4;
    do (memo, _) <- read_str d5;
    let sym := code_text (sym_code raw) in
    do _ <- guard (uia_ok (ev_symbol_min e) sym && (sym_precision raw =? 8));
    do _ <- guard (negb (regid_empty (reg_of owner)));
    do _ <- guard (N.of_nat (List.length name) <=? 32);
    do _ <- guard (negb (fmem String.eqb (wd_assets w) sym));
    do _ <- guard (has_auth (c_trx c) owner);
    do (k, w1) <- account_of w (reg_of owner);
    match process_asset_fee pk_keyid k (ev_issue_fee e) (ev_ratio e) (ev_reserve e)
            (ev_delegates e) (wd_tx w1) with
    | FFail => Reject
    | FAbort => Abort
    | FOk st =>
        do _ <- guard (total <=? max_supply);
        do w2 <- operate (with_tx w1 st) k sym AddFree total None;
        do _ <- guard (N.of_nat (List.length memo) <=? 256);
        Done (c, with_asset w2 sym (mkAsset name (reg_of owner) total (negb (mintable =? 0)) []))
    end.

  (** [mint_burn_balance], wasm_native_commons.hpp:81-155; [mint] and [burn],
      wasm_native_bank_module.hpp:208-228. *)
  Definition bank_mint_burn (is_mint : bool) (c : ctx) (w0 : world) : outcome (ctx * world) :=
    let w := charge c w0 in
    do (target, d1) <- read_u64 (g_data (c_trx c));
    do (amount, d2) <- read_u64 d1;
    do (raw, d3) <- read_u64 d2;
    do (memo, _) <- read_str d3;
    do _ <- guard (negb (regid_empty (reg_of target)));
    do _ <- guard (quantity_ok amount raw);
    let sym := code_text (sym_code raw) in
    do a <- need (fget String.eqb (wd_assets w) sym);
    do _ <- guard (s_mintable a);
    do _ <- guard (negb (regid_empty (s_owner a)));
    do (ko, w1) <- account_of w (s_owner a);
    do _ <- guard (has_auth (c_trx c) (num_of (mem_regid w1 ko)));
    do (kt, w2) <- account_of w1 (reg_of target);
    if is_mint then
      let total := add64 (s_total a) amount in
      do _ <- guard ((total <=? max_supply) && (s_total a <=? total));
      do w3 <- operate w2 kt sym AddFree amount None;
      do c' <- notify c target;
      do _ <- guard (N.of_nat (List.length memo) <=? 256);
      Done (c', with_asset w3 sym (mkAsset (s_name a) (s_owner a) total (s_mintable a) (s_icon a)))
    else
      do _ <- guard (regid_eqb (reg_of target) (mem_regid w2 ko));
      do _ <- guard (amount <=? s_total a);
      do w3 <- operate w2 kt sym SubFree amount None;
      do _ <- guard (N.of_nat (List.length memo) <=? 256);
      Done (c, with_asset w3 sym
                 (mkAsset (s_name a) (s_owner a) (s_total a - amount) (s_mintable a) (s_icon a))).

  (** [update], wasm_native_bank_module.hpp:230-296. *)
  Definition bank_update (c : ctx) (w0 : world) : outcome (ctx * world) :=
    let w := charge c w0 in
    do (code, d1) <- read_u64 (g_data (c_trx c));
    do (owner, d2) <- read_opt read_u64 d1;
    do (name, d3) <- read_opt read_str d2;
    do (memo, _) <- read_opt read_str d3;
    let sym := code_text code in
    do a <- need (fget String.eqb (wd_assets w) sym);
    do _ <- guard (negb (regid_empty (s_owner a)));
    do _ <- guard (has_auth (c_trx c) (num_of (s_owner a)));
    do (_, w1) <- account_of w (s_owner a);
    do (o, w2) <- match owner with
                  | None => Done (s_owner a, w1)
                  | Some n => do _ <- guard (negb (regid_empty (reg_of n)));
                              do (_, w') <- account_of w1 (reg_of n);
                              Done (reg_of n, w')
                  end;
    do _ <- guard (match name with Some n => N.of_nat (List.length n) <=? 32 | None => true end);
    do _ <- guard (match memo with Some m => N.of_nat (List.length m) <=? 256 | None => true end);
    do _ <- guard (match owner, name with None, None => false | _, _ => true end);
    Done (c, with_asset w2 sym
               (mkAsset (match name with Some n => n | None => s_name a end) o (s_total a)
                  (s_mintable a) (s_icon a))).

  (** [tansfer], wasm_native_bank_module.hpp:298-346, with [transfer_balance],
      wasm_native_commons.hpp:60-75. *)
  Definition bank_transfer (c : ctx) (w0 : world) : outcome (ctx * world) :=
    let w := charge c w0 in
    do (from, d1) <- read_u64 (g_data (c_trx c));
    do (to, d2) <- read_u64 d1;
    do (amount, d3) <- read_u64 d2;
    do (raw, d4) <- read_u64 d3;
    do (memo, _) <- read_str d4;
    do _ <- guard (has_auth (c_trx c) from);
    do _ <- guard (negb (regid_empty (reg_of from)) && negb (regid_empty (reg_of to)));
    do _ <- guard (negb (from =? to));
    do _ <- guard (quantity_ok amount raw);
    do _ <- guard (N.of_nat (List.length memo) <=? 256);
    do (kf, w1) <- account_of w (reg_of from);
    do (kt, w2) <- account_of w1 (reg_of to);
    let sym := code_text (sym_code raw) in
    do _ <- guard (fmem String.eqb (wd_assets w) sym);
    do _ <- guard (sym_precision raw =? 8);
    do w3 <- operate w2 kf sym SubFree amount (if kt =? 0 then None else Some kt);
    do c1 <- notify c from;
    do c2 <- notify c1 to;
    Done (c2, w3).

  (** [setasseticon], wasm_native_bank_module.hpp:348-386. *)
  Definition bank_icon (c : ctx) (w0 : world) : outcome (ctx * world) :=
    let w := charge c w0 in
    do (code, d1) <- read_u64 (g_data (c_trx c));
    do (icon, _) <- read_str d1;
    let sym := code_text code in
    do a <- need (fget String.eqb (wd_assets w) sym);
    do _ <- guard (negb (regid_empty (s_owner a)));
    do _ <- guard (has_auth (c_trx c) (num_of (s_owner a)));
    do (_, w1) <- account_of w (s_owner a);
    do _ <- guard (N.of_nat (List.length icon) <=? 256);
    Done (c, with_asset w1 sym
               (mkAsset (s_name a) (s_owner a) (s_total a) (s_mintable a) icon)).

  (** [act_handler], wasm_native_bank_module.hpp:34-61; each action tests the receiver again. *)
  Definition bank (c : ctx) (w : world) : outcome (ctx * world) :=
    let a := g_action (c_trx c) in
    if a =? n_issue then bank_issue c w
    else if a =? n_mint then bank_mint_burn true c w
    else if a =? n_burn then bank_mint_burn false c w
    else if a =? n_update then bank_update c w
    else if a =? n_transfer then bank_transfer c w
    else if a =? n_setasseticon then bank_icon c w
    else Reject.

  (** * The system module *)

  (** [setcode], wasm_native_module.hpp:83-155. *)
  Definition sys_setcode (c : ctx) (w : world) : outcome (ctx * world) :=
    do (contract, d1) <- read_u64 (g_data (c_trx c));
    do (maintainer, d2) <- read_u64 d1;
    do (_, d3) <- read_u8 d2;
    do (code, d4) <- read_str d3;
    do (abi, d5) <- read_str d4;
    do (_, _) <- read_str d5;
    let k := mkStore code abi (reg_of maintainer) in
    if contract =? 0 then
      let r := (ev_height e, ev_index e) in
      do _ <- guard (negb (fmem regid_eqb (wd_codes w) r));
      let st := register_contract (wd_tx w) (ev_address e r) r in
      Done (c, with_code (with_tx w st) r k)
    else
      let r := reg_of contract in
      do old <- need (fget regid_eqb (wd_codes w) r);
      let m := num_of (k_maintainer old) in
      do _ <- guard (maintainer =? m);
      do _ <- guard (has_auth (c_trx c) m);
      Done (c, with_code w r k).

  (** [setcoder], wasm_native_module.hpp:157-190. *)
  Definition sys_setcoder (c : ctx) (w : world) : outcome (ctx * world) :=
    do (contract, d1) <- read_u64 (g_data (c_trx c));
    do (maintainer, _) <- read_u64 d1;
    let r := reg_of contract in
    do old <- need (fget regid_eqb (wd_codes w) r);
    do _ <- guard (has_auth (c_trx c) (num_of (k_maintainer old)));
    Done (c, with_code w r (mkStore (k_code old) (k_abi old) (reg_of maintainer))).

  (** [act_handler], wasm_native_module.hpp:31-48. *)
  Definition sys (c : ctx) (w : world) : outcome (ctx * world) :=
    let a := g_action (c_trx c) in
    if a =? n_setcode then sys_setcode c w
    else if a =? n_setcoder then sys_setcoder c w
    else Reject.

  (** * The voting module *)

  Definition set_votes (a : account) (v : N) : account :=
    mkAccount (a_keyid a) (a_regid a) (a_pubkey a) (a_tokens a) v
      (a_last_vote_height a) (a_last_vote_epoch a) (a_perms a).

  (** [vote], wasm_native_voting_module.hpp:77-132; the sum is of signed 64-bit numbers. *)
  Definition voting_vote (c : ctx) (w0 : world) : outcome (ctx * world) :=
    let w := charge c w0 in
    do (cand, d1) <- read_u64 (g_data (c_trx c));
    do (votes, d2) <- read_u64 d1;
    do (memo, _) <- read_str d2;
    do _ <- guard (negb (ev_voting e =? 0));
    do _ <- guard (has_auth (c_trx c) (ev_voting e));
    let r := reg_of cand in
    do _ <- guard (negb (regid_empty r));
    do _ <- guard (N.of_nat (List.length memo) <=? 256);
    do (k, w1) <- account_of w r;
    do a <- need (fget N.eqb (t_mem (wd_tx w1)) k);
    let old := i64 (a_received_votes a) in
    do _ <- guard (0 <=? old)%Z;
    let total := (old + i64 votes)%Z in
    if (9223372036854775807 <? total)%Z then Undefined
    else
      do _ <- guard ((i64 votes <=? total) && (0 <=? total))%Z;
      let st := set_mem (wd_tx w1) (fput N.eqb (t_mem (wd_tx w1)) k (set_votes a (Z.to_N total))) in
      let rank := fput rank_key_eqb (wd_rank w1) (two64 - 1 - Z.to_N total, r) tt in
      let rank' := fdel rank_key_eqb rank (two64 - 1 - Z.to_N old, r) in
      do c' <- notify c cand;
      Done (c', with_rank (with_tx w1 st) rank' (ev_height e)).

  (** [mintrewards], wasm_native_voting_module.hpp:137-194, with the constructor of [asset],
      asset.hpp:49-53, and [_on_mint], :200-205. *)
  Definition voting_mint (c : ctx) (w0 : world) : outcome (ctx * world) :=
    let w := charge c w0 in
    do (to, d1) <- read_u64 (g_data (c_trx c));
    do (memo, _) <- read_str d1;
    do _ <- guard (negb (ev_voting e =? 0));
    do _ <- guard (has_auth (c_trx c) (ev_voting e));
    do _ <- guard (negb (regid_empty (reg_of to)));
    do _ <- guard (N.of_nat (List.length memo) <=? 256);
    do (k, w1) <- account_of w (reg_of to);
    let r := wd_reward w1 in
    do w2 <-
      (if r_start r =? 0
       then Done (with_reward w1 (mkReward (ev_height e) (r_new r) (r_total r) (r_last r) (r_height r)))
       else
         do _ <- guard (r_start r <=? ev_height e);
         do w' <- (if r_new r =? 0 then Done w1 else operate w1 k WICC AddFree (r_new r) None);
         Done (with_reward w' (mkReward (r_start r) 0 (add64 (r_total r) (r_new r)) (r_new r)
                                 (ev_height e))));
    let minted := if r_start r =? 0 then 0 else r_new r in
    do _ <- guard ((- Z.of_N max_amount <=? i64 minted) && (i64 minted <=? Z.of_N max_amount))%Z;
    do c' <- send_inline c (mkItx (ev_voting e) n_on_mint [mkPerm wasmio_voting n_wasmio_code]
                              (le_bytes 8 to ++ le_bytes 8 minted ++ le_bytes 8 wicc_symbol ++
                               short_str memo));
    Done (c', w2).

  (** [act_handler], wasm_native_voting_module.hpp:28-46. *)
  Definition voting (c : ctx) (w : world) : outcome (ctx * world) :=
    let a := g_action (c_trx c) in
    if a =? n_vote then voting_vote c w
    else if a =? n_mintrewards then voting_mint c w
    else Reject.

  Definition native (n : N) (c : ctx) (w : world) : outcome (ctx * world) :=
    if n =? wasmio then sys c w else if n =? wasmio_bank then bank c w else voting c w.

  (** * Programs *)

  (** One call to the node: wasm_interface.cpp:275-310, 332-350 (data), 539-541, 551-558,
      566-574; [set_data] and [erase_data], wasm_context.hpp:77-105; [update_storage_usage],
      wasm_context.cpp:294-298. *)
  Definition host (c : ctx) (w : world) (h : hcall) : outcome (ctx * world) :=
    let here := reg_of (c_recv c) in
    match h with
    | HNotify n =>
        do _ <- guard (fmem regid_eqb (t_reg (wd_tx w)) (reg_of n));
        do c' <- notify c n; Done (c', w)
    | HInline t => do c' <- send_inline c t; Done (c', w)
    | HStore k v =>
        do _ <- guard (fmem regid_eqb (wd_codes w) here);
        Done (c, burn_fuel (with_data w (fput data_eqb (wd_data w) (here, (c_recv c, k)) v))
                   ((8 + N.of_nat (List.length k) + N.of_nat (List.length v)) * 10))
    | HRemove k =>
        do _ <- guard (fmem regid_eqb (wd_codes w) here);
        Done (c, burn_fuel (with_data w (fdel data_eqb (wd_data w) (here, (c_recv c, k))))
                   ((8 + N.of_nat (List.length k)) * 10))
    | HRequire n => do _ <- guard (has_auth (c_trx c) n); Done (c, w)
    | HFail => Reject
    end.

  Fixpoint hosts (c : ctx) (w : world) (hs : list hcall) : outcome (ctx * world) :=
    match hs with
    | [] => Done (c, w)
    | h :: hs' => do (c', w') <- host c w h; hosts c' w' hs'
    end.

  (** The code of a contract, wasm_context.cpp:83-91. *)
  Definition code_of (w : world) (n : N) : list N :=
    match fget regid_eqb (wd_codes w) (reg_of n) with Some k => k_code k | None => [] end.

  (** [execute_one], wasm_context.cpp:143-201: every exception of a module or program becomes
      one of the chain's own. *)
  Definition execute_one (c : ctx) (w : world) : outcome (ctx * world) :=
    let n := c_recv c in
    if is_native n then native n c (ran w n true)
    else match code_of w n with
         | [] => Done (c, ran w n false)
         | code => hosts c (ran w n true) (ev_prog e code (c_trx c) n (ran w n true))
         end.

  (** The loop over those to be notified, wasm_context.cpp:121-128; the list may grow, but not
      beyond 16. *)
  Fixpoint notified_from (fuel i : nat) (c : ctx) (w : world) : outcome (ctx * world) :=
    match fuel with
    | O => Done (c, w)
    | S fuel' =>
        match nth_error (c_notified c) i with
        | None => Done (c, w)
        | Some n =>
            do (c', w') <- execute_one (mkCtx (c_trx c) n (c_notified c) (c_inlines c)) w;
            notified_from fuel' (S i) c' w'
        end
    end.

  (** [execute_inline_transaction], universaltx.cpp:342-359, and [execute],
      wasm_context.cpp:114-141; [left] is what remains of the depth of 4: with none left the
      test at the end of [execute] fails. *)
  Fixpoint execute (left : nat) (t : itx) (w : world) : outcome world :=
    do _ <- guard (negb (ev_late e (wd_ticks w)));
    do (c1, w1) <- execute_one (mkCtx t (g_contract t) [g_contract t] []) (tick w);
    do (c2, w2) <- notified_from 15 1 c1 w1;
    match left with
    | O => Reject
    | S left' =>
        (fix go (ts : list itx) (w : world) : outcome world :=
           match ts with
           | [] => Done w
           | t' :: ts' => do w' <- execute left' t' w; go ts' w'
           end) (c_inlines c2) w2
    end.

  Fixpoint execute_all (ts : list itx) (w : world) : outcome world :=
    match ts with
    | [] => Done w
    | t :: ts' => do w' <- execute 4 t w; execute_all ts' w'
    end.
End Wasm.

Section Universal.
  Variable pk_keyid : N -> N.
  (** [VerifySignature] of the transaction's hash under a public key: the payer's signature and
      one of the extra signatures. *)
  Variable payer_sig : N -> bool.
  Variable extra_sig : N -> N -> bool.

  (** A universal transaction: payer, fee, inline transactions, extra signatures (account
      number, signature), size; and from the context the feature version, the minimal fee and
      the fuel rate. *)
  Record utx := mkUtx {
    u_uid : uid; u_fee_symbol : string; u_fee : N; u_inl : list itx; u_sigs : list (N * N);
    u_size : N; u_fork : N; u_fee_ok : bool; u_min_fee : option N; u_fuel_rate : N }.

  (** [validate_contracts], universaltx.cpp:53-75. *)
  Definition contract_ok (codes : list (regid * store)) (t : itx) : bool :=
    is_native (g_contract t) ||
    match fget regid_eqb codes (reg_of (g_contract t)) with
    | Some k => negb (N.of_nat (List.length (k_code k)) =? 0) && negb (N.of_nat (List.length (k_abi k)) =? 0)
    | None => false
    end.

  (** [get_accounts_from_signatures], universaltx.cpp:100-146. Two of its messages have more
      arguments than places (lines 123-129): making them throws an exception [CheckTx] does not
      catch (tinyformat.h:126, 604; exceptions.hpp:10-12), which is [Abort] here. *)
  Fixpoint signers (payer : regid) (seen : list N) (sigs : list (N * N)) (st : txst)
    : outcome (list N) :=
    match sigs with
    | [] => Done [num_of payer]
    | (n, s) :: sigs' =>
        do _ <- guard (negb (regid_empty (reg_of n)));
        do _ <- guard (negb (existsb (N.eqb n) seen));
        do _ <- guard (negb (regid_eqb payer (reg_of n)));
        match get_account pk_keyid st (UReg (reg_of n)) with
        | (None, _) => Abort
        | (Some k, st1) =>
            match fget N.eqb (t_mem st1) k with
            | Some a =>
                match a_pubkey a with
                | None => Abort
                | Some p =>
                    do _ <- guard (extra_sig p s);
                    do l <- signers payer (n :: seen) sigs' st1;
                    Done (n :: l)
                end
            | None => Abort
            end
        end
    end.

  (** [validate_authorization], universaltx.cpp:77-95. *)
  Definition authorized (l : list N) (t : itx) : bool :=
    forallb (fun p => existsb (N.eqb (pm_acc p)) l) (g_auth t).

  (** [CheckBaseTx] and [CheckTx], universaltx.cpp:148-185: the numbers that may authorize. *)
  Definition check_utx (u : utx) (w : world) : outcome (list N) :=
    let st0 := wd_tx w in
    do _ <- guard (check_base pk_keyid payer_sig (u_fee_ok u) (u_fork u) UNIVERSAL_TX (u_uid u) st0);
    let st := mkTx (t_acc st0) (t_reg st0) [] None (t_orders st0) in
    match get_account pk_keyid st (u_uid u) with
    | (None, _) => Reject
    | (Some k, st1) =>
        let st2 := mkTx (t_acc st1) (t_reg st1) (t_mem st1) (Some k) (t_orders st1) in
        let payer := match fget N.eqb (t_mem st2) k with Some a => a_regid a | None => (0, 0) end in
        do _ <- guard (N.of_nat (List.length (u_sigs u)) <=? 64);
        do _ <- guard ((0 <? N.of_nat (List.length (u_inl u))) && (N.of_nat (List.length (u_inl u)) <=? 1024));
        do _ <- guard (forallb (contract_ok (wd_codes w)) (u_inl u));
        do l <- signers payer [] (u_sigs u) st2;
        do _ <- guard (forallb (authorized l) (u_inl u));
        Done l
    end.

  (** [MAX_BLOCK_FUEL], const.h:141. *)
  Definition max_fuel : N := 600562500.

  (** The fee after execution, universaltx.cpp:276-290, 187-203. *)
  Definition fee_covers (u : utx) (fuel : N) : bool :=
    match u_min_fee u with
    | None => false
    | Some m => (0 <? u_fuel_rate u) && (fuel <=? max_fuel) &&
                (N.max m (fuel / 100 * u_fuel_rate u) <=? u_fee u)
    end.

  (** [ExecuteTx], universaltx.cpp:246-340. *)
  Definition run_utx (e : wenv) (u : utx) (w : world) : outcome world :=
    let w0 := mkWorld (wd_tx w) (wd_assets w) (wd_codes w) (wd_data w) (wd_rank w)
                (wd_vote_height w) (wd_reward w) (u_size u * 10) [] 0 in
    do w1 <- execute_all pk_keyid e (u_inl u) w0;
    do _ <- guard (negb (ev_late e (wd_ticks w1)));
    let w2 := burn_fuel w1 (N.of_nat (List.length (wd_runs w1)) * 10000) in
    do _ <- guard (fee_covers u (wd_fuel w2));
    Done w2.

  (** [ExecuteFullTx], tx.cpp:182-221. *)
  Definition full_utx (e : wenv) (u : utx) (w : world) : outcome world :=
    do (_, st) <- need (open_tx pk_keyid (ev_height e) (ev_index e) (u_uid u) (u_fee_symbol u)
                          (u_fee u) (wd_tx w));
    do w1 <- run_utx e u (with_tx w st);
    Done (with_tx w1 (close_tx (wd_tx w1))).

  (** [CheckAndExecuteTx], tx.h:192-194. *)
  Definition apply_utx (e : wenv) (u : utx) (w : world) : outcome world :=
    do _ <- check_utx u w;
    full_utx e u w.
End Universal.
