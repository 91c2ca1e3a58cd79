(** Model of how accounts get registration ids: the checks on a transaction that bear on it, each
    kind of transaction that creates or registers accounts, the genesis block, and blocks connected
    to and disconnected from the chain.

    Source: /repo/src/tx/tx.cpp, accountregtx.cpp, cointransfertx.cpp, contracttx.cpp,
    coinminttx.cpp, blockrewardtx.cpp; /repo/src/main.cpp (ProcessGenesisBlock, ConnectBlock);
    /repo/src/miner/miner.cpp (VerifyRewardTx); /repo/src/entities/id.h, id.cpp.

    Simplifications: signatures, fees that are too small, forks in force, permissions and every
    check that does not concern accounts and their ids are left out (they can only lead to more
    refusals). What a transaction does to the fields of an account other than its key id,
    registration id and public key is given with the transaction, except for transfers and
    deployments. A refused transaction makes its block refused, and a refused block changes nothing
    (main.cpp:1077-1081: the block's cache is dropped). Disconnecting a block restores the state
    before it (C04). *)
From Coq Require Import String List Bool NArith.
From Verif Require Import Prelude AccountModel TxModel DexModel.
Import ListNotations.
Open Scope N_scope.

(** [CRegID(uint32_t, uint16_t)], id.cpp:20-23, called with a height and an index of type [int32_t]
    (tx.cpp:341): both are cut to their width. *)
Definition position (height index : N) : regid := (height mod two32, index mod two16).

(** The index -1 of a block reward that has matured (main.cpp:1194), as a [uint32_t]. *)
Definition mature_index : N := two32 - 1.

(** [BLOCK_REWARD_MATURITY], const.h:183. *)
Definition maturity : nat := 100.

(** The fields of an account other than its identity. *)
Record content := mkContent {
  o_tokens : list (string * token); o_votes : N; o_vote_height : N; o_vote_epoch : N; o_perms : N }.

Definition with_content (a : account) (c : content) : account :=
  mkAccount (a_keyid a) (a_regid a) (a_pubkey a) (o_tokens c) (o_votes c) (o_vote_height c)
    (o_vote_epoch c) (o_perms c).

(** A transaction looks an account up, creates it if it is to and the id allows it (as in
    luavmrunenv.cpp:291-303, 337-348 and proposal.cpp:214-221, 240-247), and changes its content. *)
Record visit := mkVisit { v_uid : uid; v_create : bool; v_content : content }.

Inductive tx :=
| TRegister (u : uid) (fee_symbol : string) (fee : N)                    (* CAccountRegisterTx *)
| TBase (u : uid) (fee_symbol : string) (fee : N) (to : uid) (amount : N) (* CBaseCoinTransferTx *)
| TCoin (c : coin_tx) (friction : N) (fcoin : regid) (order_id : N -> N)  (* CCoinTransferTx *)
| TDeploy (u : uid) (fee_symbol : string) (fee : N) (fuel : option (regid * N))
                              (* CLuaContractDeployTx, CUniversalContractDeployTx *)
| TMint (u : uid) (symbol : string) (amount : N)                         (* CCoinMintTx *)
| TOther (u : uid) (fee_symbol : string) (fee : N) (vs : list visit)     (* any other sent by someone *)
| TSystem (vs : list visit).         (* CBlockPriceMedianTx, CCDPInterestForceSettleTx *)

(** What a block reward holds: [CBlockRewardTx], blockrewardtx.h:12-15, or [CUCoinBlockRewardTx],
    blockrewardtx.h:55-59, with a map of fees and the inflation. *)
Inductive reward :=
| RPlain (fees : N)
| RCoins (fees : list (string * N)) (inflated : N).

Section Regid.
  (** [CPubKey::GetKeyId], [Hash160] of the bytes of a registration id (contracttx.cpp:84), and
      [CPubKey::IsFullyValid]. *)
  Variable pk_keyid : N -> N.
  Variable address : regid -> N.
  Variable valid : N -> bool.
  (** [GetVer2GenesisHeight]. *)
  Variable mint_height : N.
  (** Heights of the test net at which the fees of a reward are not checked, main.cpp:1127-1128. *)
  Variable lenient : N -> bool.

  (** [CAccountDBCache::GetAccount(CUserID)], accountdb.cpp:16-48. *)
  Definition stored (st : txst) (u : uid) : option account :=
    match u with
    | UReg r =>
        if regid_empty r then None
        else match fget regid_eqb (t_reg st) r with
             | Some k => l_get (t_acc st) k
             | None => None
             end
    | UKey k => l_get (t_acc st) k
    | UPub p => l_get (t_acc st) (pk_keyid p)
    | UNull => None
    end.

  (** [CAccount::HasOwnerPubKey] and [IsRegistered], account.h:186-187. *)
  Definition has_owner (a : account) : bool :=
    match a_pubkey a with Some p => valid p | None => false end.
  Definition registered (a : account) : bool := negb (regid_empty (a_regid a)).

  Definition is_reg (u : uid) : bool := match u with UReg _ => true | _ => false end.
  Definition is_null (u : uid) : bool := match u with UNull => true | _ => false end.

  (** [CBaseTx::GetAccount] on a fresh transaction: whether the sender exists, tx.cpp:101-102. *)
  Definition sender (st : txst) (u : uid) : option account :=
    match get_account pk_keyid (mkTx (t_acc st) (t_reg st) [] None (t_orders st)) u with
    | (Some k, st1) => fget N.eqb (t_mem st1) k
    | (None, _) => None
    end.

  (** [CheckBaseTx], tx.cpp:90-180, and the [CheckTx] of each kind: accountregtx.cpp:19-46,
      cointransfertx.cpp:12-27 and 85-119, contracttx.cpp:47-75 and 234-262, coinminttx.cpp:11-14. *)
  Definition check_tx (height : N) (t : tx) (st : txst) : bool :=
    match t with
    | TRegister u _ _ =>
        match sender st u, u with
        | Some a, UPub p => valid p && negb (has_owner a)
        | _, _ => false
        end
    | TBase u _ _ to _ =>
        match sender st u with
        | Some _ => (is_reg u || is_pub u) && match to with UReg _ | UKey _ => true | _ => false end
        | None => false
        end
    | TCoin c _ _ _ =>
        match sender st (c_uid c) with
        | Some _ => (is_reg (c_uid c) || is_pub (c_uid c)) &&
                    negb (existsb (fun x => is_null (x_to x)) (c_xfers c))
        | None => false
        end
    | TDeploy u _ _ _ =>
        match sender st u with
        | Some a => is_reg u && has_owner a
        | None => false
        end
    | TMint _ _ _ => height =? mint_height
    | TOther u _ _ _ =>
        match sender st u with
        | Some _ => is_reg u || is_pub u
        | None => false
        end
    | TSystem _ => true
    end.

  (** [NewAccount] and then [RegisterAccount] without a public key, as in contracttx.cpp:86-89: when
      the memory of the transaction already has an account of that key, [emplace] keeps it
      (tx.cpp:315) and only the table of ids is written. *)
  Definition register_contract (st : txst) (k : N) (r : regid) : txst :=
    let reg := fput regid_eqb (t_reg st) r k in
    match fget N.eqb (t_mem st) k with
    | Some _ => mkTx (t_acc st) reg (t_mem st) (t_key st) (t_orders st)
    | None =>
        let a := new_account k in
        mkTx (t_acc st) reg
          (fput N.eqb (t_mem st) k
             (mkAccount k r None (a_tokens a) (a_received_votes a) (a_last_vote_height a)
                (a_last_vote_epoch a) (a_perms a)))
          (t_key st) (t_orders st)
    end.

  (** [ExecuteTx] of a deployment, contracttx.cpp:77-109 and 264-307; [fuel] is what a universal
      contract pays to the reserve when its fee is in WUSD (lines 293-304). *)
  Definition deploy_body (r : regid) (fuel : option (regid * N)) (st : txst) : option txst :=
    let st1 := register_contract st (address r) r in
    match fuel with
    | None => Some st1
    | Some (f, amount) =>
        match get_account pk_keyid st1 (UReg f) with
        | (None, _) => None
        | (Some k, st2) =>
            match m_operate st2 k WUSD AddFree amount None with
            | (true, st3) => Some st3
            | (false, _) => None
            end
        end
    end.

  (** One visit, and a list of them. *)
  Definition exec_visit (v : visit) (st : txst) : option txst :=
    let found :=
      match get_account pk_keyid st (v_uid v) with
      | (Some k, st1) => Some (k, st1)
      | (None, st1) =>
          if v_create v then
            match v_uid v with
            | UKey k => Some (k, new_mem_account st1 k)
            | UPub p => Some (pk_keyid p, new_mem_account st1 (pk_keyid p))
            | _ => None
            end
          else None
      end in
    match found with
    | None => None
    | Some (k, st1) =>
        match fget N.eqb (t_mem st1) k with
        | None => None
        | Some a => Some (set_mem st1 (fput N.eqb (t_mem st1) k (with_content a (v_content v))))
        end
    end.

  Fixpoint exec_visits (vs : list visit) (st : txst) : option txst :=
    match vs with
    | [] => Some st
    | v :: vs => match exec_visit v st with Some st => exec_visits vs st | None => None end
    end.

  (** [ExecuteTx] of a minting, coinminttx.cpp:16-47. *)
  Definition mint_body (r : regid) (u : uid) (symbol : string) (amount : N) (st : txst)
    : option txst :=
    let target :=
      match u with
      | UNull => Some (address r, register_contract st (address r) r)
      | UPub p =>
          let k := pk_keyid p in
          let st1 := match get_account pk_keyid st u with
                     | (Some _, st1) => st1
                     | (None, st1) => new_mem_account st1 k
                     end in
          match fget N.eqb (t_mem st1) k with
          | Some a => Some (k, if registered a then st1
                               else register_account st1 k p (fst r) (snd r))
          | None => None
          end
      | _ => None
      end in
    match target with
    | None => None
    | Some (k, st1) =>
        match m_operate st1 k symbol AddFree amount None with
        | (true, st2) => Some st2
        | (false, _) => None
        end
    end.

  (** [ExecuteFullTx], tx.cpp:182-221, without a sender: prices, forced settlement, minting. *)
  Definition execute_system (body : txst -> option txst) (st0 : txst) : option txst :=
    match body (mkTx (t_acc st0) (t_reg st0) [] None (t_orders st0)) with
    | None => None
    | Some st =>
        let '(acc, reg) := save_all (t_acc st) (t_reg st) (t_mem st) in
        Some (mkTx acc reg (t_mem st) (t_key st) (t_orders st))
    end.

  Definition env_at (r : regid) (friction : N) (fcoin : regid) (order_id : N -> N) : tenv :=
    mkEnv (fst r) (snd r) friction fcoin order_id.
  Definition plain (r : regid) : tenv := env_at r 0 (0, 0) (fun _ => 0).

  (** [ExecuteFullTx] of a transaction at a position. *)
  Definition execute_tx (r : regid) (t : tx) (st : txst) : option txst :=
    match t with
    | TRegister u fs fee => execute_full pk_keyid (plain r) u fs fee (fun _ st => Some st) st
    | TBase u fs fee to amount => exec_base_transfer pk_keyid (plain r) u fs fee to amount st
    | TCoin c friction fcoin order_id =>
        exec_coin_transfer pk_keyid (env_at r friction fcoin order_id) c st
    | TDeploy u fs fee fuel =>
        execute_full pk_keyid (plain r) u fs fee (fun _ => deploy_body r fuel) st
    | TMint u s amount => execute_system (mint_body r u s amount) st
    | TOther u fs fee vs => execute_full pk_keyid (plain r) u fs fee (fun _ => exec_visits vs) st
    | TSystem vs => execute_system (exec_visits vs) st
    end.

  (** [CheckAndExecuteTx], tx.h:192-194. *)
  Definition apply_tx (height index : N) (t : tx) (st : txst) : option txst :=
    if check_tx height t st then execute_tx (position height index) t st else None.

  (** The loop over the transactions of a block, main.cpp:1061-1103. *)
  Fixpoint apply_txs (height index : N) (ts : list tx) (st : txst) : option txst :=
    match ts with
    | [] => Some st
    | t :: ts =>
        match apply_tx height index t st with
        | Some st => apply_txs height (index + 1) ts st
        | None => None
        end
    end.

  (** A block: the account of its reward, the producer whose turn it is (C32 says who), its other
      transactions, what its reward holds, what they pay in fees less fuel in WICC and WUSD
      (main.cpp:1091-1100; FuelModel says how much), the inflation due (main.cpp:1137-1140), and the
      accounts that are changed with the release of the stable coin (main.cpp:1159-1162). *)
  Record block := mkBlock {
    b_reward : uid; b_producer : regid; b_txs : list tx; b_amounts : reward; b_fees : N * N;
    b_inflation : N; b_changes : list (uid * content) }.

  (** [VerifyRewardTx], miner.cpp:201-211 and 238-244: the account of the reward is that of the
      producer. *)
  Definition verify_reward (b : block) (st : txst) : bool :=
    match stored st (UReg (b_producer b)), stored st (b_reward b) with
    | Some d, Some a => regid_eqb (a_regid d) (a_regid a)
    | _, _ => false
    end.

  (** The check of what a reward holds, main.cpp:1117-1145. *)
  Fixpoint amounts_eqb (l m : list (string * N)) : bool :=
    match l, m with
    | [], [] => true
    | (s, v) :: l, (t, w) :: m => String.eqb s t && (v =? w) && amounts_eqb l m
    | _, _ => false
    end.
  Definition amounts_right (height : N) (b : block) : bool :=
    match b_amounts b with
    | RPlain n => n =? fst (b_fees b)
    | RCoins fs i =>
        (lenient height || amounts_eqb fs [(WICC, fst (b_fees b)); (WUSD, snd (b_fees b))])
        && (i =? b_inflation b)
    end.

  (** [ExecuteTx] of a reward that has matured, blockrewardtx.cpp:14-30 and 58-89. *)
  Definition add_coins (k : N) (s : string) (v : N) (st : txst) : option txst :=
    match m_operate st k s AddFree v None with (true, st) => Some st | (false, _) => None end.
  Fixpoint add_fees (k : N) (fs : list (string * N)) (st : txst) : option txst :=
    match fs with
    | [] => Some st
    | (s, v) :: fs =>
        if String.eqb s WICC || String.eqb s WUSD
        then match add_coins k s v st with Some st => add_fees k fs st | None => None end
        else None
    end.
  Definition pay_reward (w : reward) (k : N) (st : txst) : option txst :=
    match w with
    | RPlain n => add_coins k WICC n st
    | RCoins fs i => match add_fees k fs st with Some st => add_coins k WICC i st | None => None end
    end.

  (** [ExecuteFullTx] of a block reward, tx.cpp:182-221: with index 0 in its own block it pays
      nothing, with index -1 it pays. *)
  Definition execute_reward (r : regid) (u : uid) (paid : option reward) (st : txst) : option txst :=
    execute_full pk_keyid (plain r) u WICC 0
      (fun k st => match paid with None => Some st | Some w => pay_reward w k st end) st.

  (** Accounts changed without a transaction, main.cpp:921-972. *)
  Fixpoint apply_changes (cs : list (uid * content)) (st : txst) : option txst :=
    match cs with
    | [] => Some st
    | (u, c) :: cs =>
        match stored st u with
        | None => None
        | Some a =>
            let '(acc, reg) := save_account (t_acc st) (t_reg st) (with_content a c) in
            apply_changes cs (mkTx acc reg (t_mem st) (t_key st) (t_orders st))
        end
    end.

  (** [ConnectBlock], main.cpp:1036-1202, at a height; [mature] is the block whose reward is now
      due. *)
  Definition connect_at (height : N) (mature : option block) (b : block) (st : txst)
    : option txst :=
    if negb (verify_reward b st) then None
    else
      match apply_txs height 1 (b_txs b) st with
      | None => None
      | Some st1 =>
          if negb (amounts_right height b) then None
          else
          match execute_reward (position height 0) (b_reward b) None st1 with
          | None => None
          | Some st2 =>
              match apply_changes (b_changes b) st2 with
              | None => None
              | Some st3 =>
                  match mature with
                  | None => Some st3
                  | Some m => execute_reward (position height mature_index) (b_reward m) (Some (b_amounts m)) st3
                  end
              end
          end
      end.

  (** The chain above the genesis block, the tip first: each block with the state after it. *)
  Notation chain := (list (block * txst)) (only parsing).

  Definition tip (g : txst) (ch : chain) : txst :=
    match ch with [] => g | (_, st) :: _ => st end.
  Definition height_of (ch : chain) : N := N.of_nat (List.length ch).

  (** The block whose reward is due when the next one is connected, main.cpp:1180-1187: 100 blocks
      before it, but not the genesis block. *)
  Definition due (ch : chain) : option block :=
    match nth_error ch (maturity - 1) with Some (b, _) => Some b | None => None end.

  Inductive event := Connect (b : block) | Disconnect.

  Definition step (g : txst) (ch : chain) (e : event) : chain :=
    match e with
    | Connect b =>
        match connect_at (height_of ch + 1) (due ch) b (tip g ch) with
        | Some st => (b, st) :: ch
        | None => ch
        end
    | Disconnect => List.tl ch
    end.

  Definition run (g : txst) (es : list event) (ch : chain) : chain := fold_left (step g) es ch.

  (** The genesis block, main.cpp:766-847: rewards and votes, each from index 1 on. A failed
      assertion is [None]. *)
  Inductive gtx :=
  | GReward (p : N) (c : content)
  | GVote (voter : regid) (candidates : list (uid * content)) (c : content).

  Definition uid_eqb (a b : uid) : bool :=
    match a, b with
    | UReg r, UReg s => regid_eqb r s
    | UKey k, UKey l => k =? l
    | UPub p, UPub q => p =? q
    | UNull, UNull => true
    | _, _ => false
    end.

  Definition save (st : txst) (a : account) : txst :=
    let '(acc, reg) := save_account (t_acc st) (t_reg st) a in
    mkTx acc reg (t_mem st) (t_key st) (t_orders st).

  (** The candidates of a vote, main.cpp:800-833: each gets the next id, and a key id only if it is
      given by a public key. *)
  Fixpoint genesis_candidates (voter : uid) (j : N) (cs : list (uid * content)) (st : txst)
    : option txst :=
    match cs with
    | [] => Some st
    | (u, c) :: cs =>
        if uid_eqb voter u then genesis_candidates voter j cs st
        else
          match stored st u with
          | Some _ => None
          | None =>
              let '(k, p) := match u with UPub p => (pk_keyid p, Some p) | _ => (0, None) end in
              genesis_candidates voter (j + 1) cs
                (save st (with_content (mkAccount k (position 0 j) p [] 0 0 0 0) c))
          end
    end.

  Definition genesis_tx (i : N) (g : gtx) (st : txst) : option txst :=
    match g with
    | GReward p c =>
        if i <=? 1
        then Some (save st (with_content (mkAccount (pk_keyid p) (position 0 i) (Some p) [] 0 0 0 0) c))
        else None
    | GVote r cs c =>
        match stored st (UReg r) with
        | None => None
        | Some a =>
            match genesis_candidates (UReg r) i cs st with
            | None => None
            | Some st => Some (save st (with_content a c))
            end
        end
    end.

  Fixpoint genesis_from (i : N) (gs : list gtx) (st : txst) : option txst :=
    match gs with
    | [] => Some st
    | g :: gs => match genesis_tx i g st with Some st => genesis_from (i + 1) gs st | None => None end
    end.

  Definition genesis (gs : list gtx) : option txst := genesis_from 1 gs (mkTx [] [] [] None []).
End Regid.
