(** Model of fuel: the rate of a block, what a transaction burns, the fee for it, and the totals that
    a producer writes into a block and a node checks when it connects the block.

    Source: /repo/src/miner/miner.cpp (GetElementForBurn, CreateNewBlockForStableCoinRelease),
    /repo/src/main.cpp (ConnectBlock), /repo/src/tx/tx.cpp (GetTxMinFee, GetFuelFee, CheckFee),
    /repo/src/tx/contracttx.cpp, /repo/src/tx/universaltx.cpp, /repo/src/vm/luavm/luavm.cpp (Run),
    /repo/src/vm/luavm/luavmrunenv.cpp, /repo/src/vm/wasm/wasm_context.cpp, /repo/src/entities/contract.h,
    contract.cpp, /repo/src/persistence/block.h (the fuel fields of a header).

    Simplifications: everything else that checking and executing a transaction does (signatures,
    accounts, balances, the contract itself, the clock that limits a WASM run) is one function
    [rest] of the state and of the transaction as it was received; it says whether the transaction
    goes through, the state after it, and what the virtual machine has burned. The fees that
    governance has set are a function [gov] of the state. A contract's text is given by the lengths of
    its parts. Of the transactions without fuel only their fee matters. The time limit for packing
    cuts the list of candidates short, so the list is arbitrary. *)
From Coq Require Import List Bool NArith ZArith.
From Verif Require Import Prelude DexModel DoubleModel SingleModel.
Import ListNotations.
Open Scope N_scope.

(** ** Constants *)

(** const.h:140-146. *)
Definition default_burn_blocks : N := 50.
Definition max_block_fuel : N := 600562500.
Definition init_fuel_rate : N := 100.
Definition min_fuel_rate : N := 1.
Definition min_relay_fee : N := 1000.
(** const.h:191, 194, 215. *)
Definition max_code : N := 65536.
Definition max_memo : N := 100.
Definition reserved_ratio : N := 10.
(** wasm_constants.hpp:33-34. *)
Definition fuel_per_byte : N := 10.
Definition fuel_per_recipient : N := 10000.
(** [COIN], and [BCOIN_MAX_MONEY] with the main net's 210,000,000 coins, configuration.h:229. *)
Definition coin : N := 100000000.
Definition max_money : N := 210000000 * coin.

(** ** Transactions *)

(** LCONTRACT_DEPLOY_TX, LCONTRACT_INVOKE_TX, UCONTRACT_DEPLOY_TX, UCONTRACT_INVOKE_TX, UNIVERSAL_TX
    and all other types, which leave [fuel] alone. *)
Inductive kind := LuaDeploy | LuaCall | UniDeploy | UniCall | Uni | Plain.
Inductive symbol := Wicc | Wusd | Token.

(** [CBaseTx], tx.h:122-133, and the lengths of code, memo and ABI of a contract, contract.h:35-36,
    85-87. [x_fee] is what [GetFees] shows (tx.h:163, dextx.h:440). [x_size] is [GetSerializeSize],
    [x_wire] the size on the wire. [x_fuel] is the field [fuel], kept in memory only. *)
Record tx := mkTx {
  x_id : N; x_kind : kind; x_symbol : symbol; x_fee : N;
  x_code : N; x_memo : N; x_abi : N; x_size : N; x_wire : N; x_fuel : N }.

Definition with_fuel (t : tx) (f : N) : tx :=
  mkTx (x_id t) (x_kind t) (x_symbol t) (x_fee t) (x_code t) (x_memo t) (x_abi t) (x_size t) (x_wire t) f.

(** What a virtual machine reports: the result of [CLuaVM::Run] when the script ends well, the
    storage changes of a WASM run in bytes, and its number of recipients. *)
Record burn := mkBurn { u_run : N; u_sizes : list Z; u_recipients : N }.

(** [GetSizeOfCompactSize], serialize.h:208-214, and the size of a string, 566-570. *)
Definition compact_size (n : N) : N :=
  if n <? 253 then 1 else if n <=? 65535 then 3 else if n <=? 4294967295 then 5 else 9.
Definition string_size (n : N) : N := compact_size n + n.

(** [GetContractSize], contract.h:43-49 (Lua) and 103, 114-120 (universal, with the machine's type and
    the flag for upgrades). *)
Definition contract_size (t : tx) : N :=
  match x_kind t with
  | UniDeploy => 2 + string_size (x_code t) + string_size (x_memo t) + string_size (x_abi t)
  | _ => string_size (x_code t) + string_size (x_memo t)
  end.

(** [kTxTypeInfoTable], txbase.h:116, 117, 127, 128, 152: minimum fees in WICC before the release of the
    stable coin and after it, and in WUSD before and after it. *)
Definition fee_table (k : kind) : N * N * N * N :=
  match k with
  | LuaDeploy => (coin, coin, coin, coin)
  | LuaCall => (0, coin / 100, coin / 100, coin / 100)
  | UniDeploy => (0, coin, coin, coin)
  | UniCall => (0, coin / 100, coin / 100, coin / 100)
  | Uni => (0, coin / 1000, coin / 1000, coin / 1000)
  | Plain => (0, 0, 0, 0)
  end.

(** A conversion that may be undefined. *)
Definition defined {A} (x : option A) : outcome A := match x with Some a => Done a | None => Undefined end.

Section World.
  Context {St : Type}.
  (** The minimum fee of a type in a symbol when governance has set one ([GetMinerFee],
      sysparamdb.h:226-235). *)
  Variable gov : St -> kind -> symbol -> option N.
  (** All the rest of [CheckBaseTx], [CheckTx] and [ExecuteFullTx] (tx.cpp:90-180, 182-221), for the
      transaction at an index of the block and with a limit on the fuel of a Lua run. *)
  Variable rest : N -> N -> St -> tx -> option (St * burn).
  (** Whether the stable coin has been released at the height in question, and the block's rate. *)
  Variable r2 : bool.
  Variable rate : N.

  (** [GetTxMinFee], tx.cpp:50-76. *)
  Definition min_fee (st : St) (k : kind) (s : symbol) : option N :=
    match gov st k s with
    | Some f => Some f
    | None =>
        let '(w1, w2, u1, u2) := fee_table k in
        match s with
        | Wicc => Some (if r2 then w2 else w1)
        | Wusd => Some (if r2 then u2 else u1)
        | Token => None
        end
    end.

  (** [CheckFee], tx.cpp:353-372, with [CheckMinFee], 374-381. [kFeeSymbolSet] is WICC and WUSD,
      txbase.h:84-87. *)
  Definition check_fee (st : St) (t : tx) : bool :=
    (x_fee t <=? max_money) &&
    match x_symbol t with Token => false | _ => true end &&
    match min_fee st (x_kind t) (x_symbol t) with Some m => m <=? x_fee t | None => false end.

  (** [GetFuelLimit], contracttx.cpp:21-42. *)
  Definition fuel_limit (st : St) (t : tx) : outcome N :=
    if rate =? 0 then Reject
    else match min_fee st (x_kind t) (x_symbol t) with
      | None => Reject
      | Some m =>
          if x_fee t <? m then Reject
          else
            let reserved := mul64 m reserved_ratio / 100 in
            let gas := sub64 (x_fee t) reserved in
            let limit := N.min (mul64 (gas / rate) 100) max_block_fuel in
            if limit =? 0 then Reject else Done limit
      end.

  (** [CBaseTx::GetFuelFee], tx.cpp:86-88: [std::ceil(fuel / 100.0f) * fuelRate] in [float]. *)
  Definition base_fuel_fee (fuel : N) : outcome N :=
    if (fuel =? 0) || (rate =? 0) then Done 0
    else defined (s_to_u64 (smul (sceil (sdiv (s_of_N fuel) (s_of_N 100))) (s_of_N rate))).

  (** [GetFuelFee] of deployments, contracttx.cpp:111-119, 309-317: an exception when there is no
      minimum fee; it leaves the functions that ask, so the transaction or the block is refused. *)
  Definition deploy_fuel_fee (st : St) (t : tx) : outcome N :=
    match min_fee st (x_kind t) (x_symbol t) with
    | None => Reject
    | Some m =>
        do f <- defined (s_to_u64 (smul (sdiv (s_of_N (x_fuel t)) (s_of_N 100)) (s_of_N rate)));
        Done (N.max f m)
    end.

  Definition fuel_fee (st : St) (t : tx) : outcome N :=
    match x_kind t with
    | LuaDeploy | UniDeploy => deploy_fuel_fee st t
    | _ => base_fuel_fee (x_fuel t)
    end.

  (** The end of [CLuaVM::Run], luavm.cpp:332-338, and [ExecuteContract], luavmrunenv.cpp:41-52: a run
      that burned nothing, or whose result reads as -1, counts as failed. *)
  Definition lua_result (limit u : N) : outcome N :=
    let ret := if limit <? u then two64 - 1 else u in
    if (ret =? 0) || (ret =? two64 - 1) then Reject else Done ret.

  (** [update_storage_usage], wasm_context.cpp:294-298: the product as [int64_t], added when it is not
      negative. *)
  Definition storage_fuel (fuel : N) (size : Z) : N :=
    let usage := Z.to_N ((size * Z.of_N fuel_per_byte) mod Z.of_N two64) in
    if two64 / 2 <=? usage then fuel else add64 fuel usage.

  (** The fuel of a universal transaction, universaltx.cpp:267, 289. *)
  Definition universal_fuel (t : tx) (u : burn) : N :=
    add64 (fold_left storage_fuel (u_sizes u) (mul64 (x_size t) fuel_per_byte))
          (mul64 (u_recipients u) fuel_per_recipient).

  (** The fee check of a universal transaction, universaltx.cpp:187-203, 291-298. *)
  Definition universal_fee_ok (st : St) (t : tx) (fuel : N) : bool :=
    match min_fee st (x_kind t) (x_symbol t) with
    | None => false
    | Some m =>
        negb (rate =? 0) && (fuel <=? max_block_fuel) &&
        (N.max m (mul64 (fuel / 100) rate) <=? x_fee t)
    end.

  (** [CheckTx] of deployments as far as sizes and fees go, contracttx.cpp:50-67, 240-255, with
      [IsValid], contract.cpp:9-38. The fuel fee is that of the [fuel] the object holds at the time.
      The check of the fee per kilobyte is in [double]. *)
  Definition deploy_check (st : St) (t : tx) : outcome unit :=
    if (max_code <? x_code t) || (max_memo <? x_memo t) ||
       match x_kind t with UniDeploy => negb (x_abi t =? 0) | _ => false end then Reject
    else
      do f <- deploy_fuel_fee st t;
      if x_fee t <? f then Reject
      else
        let per_kb := dmul (ddiv (of_N (x_fee t - f)) (of_N (x_wire t))) (of_N 1000) in
        if match x_kind t with LuaDeploy => r2 | _ => true end && dlt per_kb (of_N min_relay_fee)
        then Reject else Done tt.

  (** [CheckAndExecuteTx], tx.h:192-194, for the types of contract transactions; the state after it and
      the object with the [fuel] it now holds. Lua deployments and calls are not subject to [CheckFee]
      (tx.cpp:132-139). *)
  Definition check_and_execute (i : N) (st : St) (t : tx) : outcome (St * tx) :=
    match x_kind t with
    | Plain =>
        match rest i 0 st (with_fuel t 0) with Some (st', _) => Done (st', t) | None => Reject end
    | LuaCall | UniCall =>
        if match x_kind t with UniCall => negb (check_fee st t) | _ => false end then Reject
        else
          do limit <- fuel_limit st t;
          match rest i limit st (with_fuel t 0) with
          | None => Reject
          | Some (st', u) => do f <- lua_result limit (u_run u); Done (st', with_fuel t f)
          end
    | LuaDeploy | UniDeploy =>
        if match x_kind t with UniDeploy => negb (check_fee st t) | _ => false end then Reject
        else
          do _ <- deploy_check st t;
          match rest i 0 st (with_fuel t 0) with
          | None => Reject
          | Some (st', _) => Done (st', with_fuel t (contract_size t))
          end
    | Uni =>
        if negb (check_fee st t) then Reject
        else match rest i 0 st (with_fuel t 0) with
          | None => Reject
          | Some (st', u) =>
              let f := universal_fuel t u in
              if universal_fee_ok st t f then Done (st', with_fuel t f) else Reject
          end
    end.

  (** ** The totals of a block *)

  (** Fuel, fuel fees, and the fees left for the producer in WICC and WUSD. *)
  Record totals := mkTotals { q_fuel : N; q_fuel_fee : N; q_wicc : N; q_wusd : N }.
  Definition no_totals : totals := mkTotals 0 0 0 0.

  (** main.cpp:1086, 1091-1100 and miner.cpp:536-546: the fuel fee of an executed transaction, with the
      two assertions on the symbol and on the amount of the fee. *)
  Definition settle (st : St) (t : tx) (q : totals) : outcome totals :=
    do f <- fuel_fee st t;
    match x_symbol t with
    | Token => Abort
    | s =>
        if x_fee t <? f then Abort
        else
          let gain := x_fee t - f in
          let fuel := add64 (q_fuel q) (x_fuel t) in
          let fees := add64 (q_fuel_fee q) f in
          match s with
          | Wicc => Done (mkTotals fuel fees (add64 (q_wicc q) gain) (q_wusd q))
          | _ => Done (mkTotals fuel fees (q_wicc q) (add64 (q_wusd q) gain))
          end
    end.

  (** The loop of [ConnectBlock] over the transactions after the reward, main.cpp:1061-1103. *)
  Fixpoint connect_txs (i : N) (st : St) (txs : list tx) (q : totals) : outcome (St * totals) :=
    match txs with
    | [] => Done (st, q)
    | t :: txs' =>
        do (st', t') <- check_and_execute i st t;
        if max_block_fuel <? add64 (q_fuel q) (x_fuel t') then Reject
        else do q' <- settle st' t' q; connect_txs (i + 1) st' txs' q'
    end.

  (** A block: its transactions after the reward, [nFuelFee] of the header (64 bits), and the fees that
      its reward transaction claims. *)
  Record block := mkBlock { k_txs : list tx; k_fuel_fee : N; k_reward : N * N }.

  (** [CBlockHeader::GetFuelFee], block.h:117: returns [uint32_t]. *)
  Definition header_fuel_fee (b : block) : N := k_fuel_fee b mod two32.

  (** [ConnectBlock] as far as fuel goes, main.cpp:1049-1133: the totals, the header's fuel fee, and the
      fees claimed by the reward of the kind in use since the stable coin's release. *)
  Definition connect_block (st : St) (b : block) : outcome (St * totals) :=
    do (st', q) <- connect_txs 1 st (k_txs b) no_totals;
    if negb (q_fuel_fee q =? header_fuel_fee b) then Reject
    else if negb ((fst (k_reward b) =? q_wicc q) && (snd (k_reward b) =? q_wusd q)) then Reject
    else Done (st', q).

  (** The loop of [CreateNewBlockForStableCoinRelease], miner.cpp:477-555: candidates that do not fit or
      do not go through are left out. [max_size] is the size limit, [size] the size so far. *)
  Fixpoint pack (max_size : N) (i : N) (st : St) (pool : list tx) (size : N) (q : totals)
    : outcome (St * list tx * totals) :=
    match pool with
    | [] => Done (st, [], q)
    | t :: pool' =>
        if max_size <=? size + x_size t then pack max_size i st pool' size q
        else match check_and_execute i st t with
          | Reject => pack max_size i st pool' size q
          | Abort => Abort
          | Undefined => Undefined
          | Done (st', t') =>
              if max_block_fuel <=? add64 (q_fuel q) (x_fuel t') then pack max_size i st pool' size q
              else
                do q' <- settle st' t' q;
                do r <- pack max_size (i + 1) st' pool' (size + x_size t) q';
                let '(st'', txs, q'') := r in Done (st'', t' :: txs, q'')
          end
    end.

  (** The block: miner.cpp:560-567. *)
  Definition assemble (max_size : N) (st : St) (pool : list tx) (size : N) : outcome (St * block) :=
    do r <- pack max_size 1 st pool size no_totals;
    let '(st', txs, q) := r in
    Done (st', mkBlock txs (q_fuel_fee q) (q_wicc q, q_wusd q)).
End World.

(** ** The rate of a block *)

(** What the block index holds: [nFuelRate] and [nFuelFee], block.h:225-226, 239-240. The second comes
    from the 32-bit [GetFuelFee]. *)
Record entry := mkEntry { e_rate : N; e_fee : N }.

(** [MAX_BLOCK_FUEL * 0.75] and [MAX_BLOCK_FUEL * 0.85] in [double], miner.cpp:73, 75; the constants are
    the doubles nearest to the fractions. *)
Definition low_mark : double := dmul (of_N max_block_fuel) (ddiv (of_Z 75) (of_Z 100)).
Definition high_mark : double := dmul (of_N max_block_fuel) (ddiv (of_Z 85) (of_Z 100)).

(** [pIndex->nFuelRate * 0.9] and [* 1.1], converted to [uint32_t], miner.cpp:74, 76. *)
Definition scaled (r : N) (tenths : Z) : outcome N :=
  match to_u64 (dmul (of_N r) (ddiv (of_Z tenths) (of_Z 10))) with
  | Some v => if v <? two32 then Done v else Undefined
  | None => Undefined
  end.

(** The loop over the last blocks, miner.cpp:67-70. *)
Fixpoint fuel_of (l : list entry) (acc : N) : outcome N :=
  match l with
  | [] => Done acc
  | e :: l' =>
      if e_rate e =? 0 then Undefined
      else fuel_of l' (add64 acc (mul64 (e_fee e / e_rate e) 100))
  end.

(** [GetElementForBurn], miner.cpp:54-88, for the chain whose newest block comes first; [n] is the
    setting -blocksizeforburn (a positive number, 50 unless configured). *)
Definition element_for_burn (n : N) (chain : list entry) : outcome N :=
  match chain with
  | [] => Done init_fuel_rate
  | tip :: _ =>
      let height := N.of_nat (length chain) - 1 in
      if (Z.of_N height - 1 <=? Z.of_N n * 2)%Z then Done init_fuel_rate
      else
        do total <- fuel_of (firstn (N.to_nat n) chain) 0;
        if n =? 0 then Undefined
        else
          let average := total / n in
          do new <-
            (if dlt (of_N average) low_mark then scaled (e_rate tip) 9
             else if dlt high_mark (of_N average) then scaled (e_rate tip) 11
             else Done (e_rate tip));
          Done (if new <? min_fuel_rate then min_fuel_rate else new)
  end.
