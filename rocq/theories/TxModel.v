(** Model of what every transaction shares: its in-memory account objects, account lookup by
    any kind of user id, registration, fee deduction, saving; and of the coin transfer
    transactions.

    Source: /repo/src/tx/tx.cpp, /repo/src/tx/cointransfertx.cpp,
    /repo/src/persistence/accountdb.cpp.

    Simplifications: memo, receipts and the validation-state messages are left out; a failed
    [ExecuteFullTx] is [None], because its caller drops the cache the transaction wrote to. *)
From Coq Require Import String List Bool NArith.
From Verif Require Import Prelude AccountModel.
Import ListNotations.
Open Scope N_scope.

(** [CUserID], id.h:128-: a registration id, key id, public key or nothing. *)
Inductive uid := UReg (r : regid) | UKey (k : N) | UPub (p : N) | UNull.

(** The state a transaction works on: [accountCache] and [regId2KeyIdCache] of the block's
    cache (accountdb.h), the transaction's [account_map] and the key of [sp_tx_account]
    (tx.h), and the active orders it may add to (order id, frozen amount; dexdb.h). *)
Record txst := mkTx {
  t_acc : ledger;
  t_reg : list (regid * N);
  t_mem : list (N * account);
  t_key : option N;
  t_orders : list (N * N) }.

Definition set_mem (st : txst) (m : list (N * account)) : txst :=
  mkTx (t_acc st) (t_reg st) m (t_key st) (t_orders st).

Section Tx.
  (** [CPubKey::GetKeyId]: the hash of a public key. *)
  Variable pk_keyid : N -> N.

  (** [CAccountDBCache::GetKeyId(CUserID)], accountdb.cpp:99-117. *)
  Definition get_key_id (reg : list (regid * N)) (u : uid) : option N :=
    match u with
    | UReg r => fget regid_eqb reg r
    | UPub p => Some (pk_keyid p)
    | UKey k => Some k
    | UNull => None
    end.

  (** [CAccount::IsSelfUid], account.cpp:559-569. *)
  Definition is_self_uid (a : account) (u : uid) : bool :=
    match u with
    | UKey k => a_keyid a =? k
    | UReg r => negb (regid_empty (a_regid a)) && regid_eqb (a_regid a) r
    | UPub p => match a_pubkey a with Some q => q =? p | None => false end
    | UNull => false
    end.

  (** [CBaseTx::GetAccount], tx.cpp:290-311. The account object is identified by its key in
      [account_map]; [None] is a null pointer. [accountCache.GetData] never returns an
      account with empty key id. *)
  Definition get_account (st : txst) (u : uid) : option N * txst :=
    let self :=
      match t_key st with
      | Some k =>
          match fget N.eqb (t_mem st) k with
          | Some a => if negb (a_keyid a =? 0) && is_self_uid a u then Some k else None
          | None => None
          end
      | None => None
      end in
    match self with
    | Some k => (Some k, st)
    | None =>
        match get_key_id (t_reg st) u with
        | None => (None, st)
        | Some k =>
            match fget N.eqb (t_mem st) k with
            | Some _ => (Some k, st)
            | None =>
                match l_get (t_acc st) k with
                | None => (None, st)
                | Some a => (Some k, set_mem st (fput N.eqb (t_mem st) k a))
                end
            end
        end
    end.

  (** [CBaseTx::NewAccount], tx.cpp:313-317; [emplace] keeps an existing entry. *)
  Definition new_mem_account (st : txst) (k : N) : txst :=
    match fget N.eqb (t_mem st) k with
    | Some _ => st
    | None => set_mem st (fput N.eqb (t_mem st) k (new_account k))
    end.

  (** [CBaseTx::RegisterAccount], tx.cpp:339-351; the fields it changes. *)
  Definition register_account (st : txst) (k : N) (p : N) (height index : N) : txst :=
    match fget N.eqb (t_mem st) k with
    | None => st
    | Some a =>
        let a' := mkAccount (a_keyid a) (height, index) (Some p) (a_tokens a)
                    (a_received_votes a) (a_last_vote_height a) (a_last_vote_epoch a)
                    (a_perms a) in
        mkTx (t_acc st) (fput regid_eqb (t_reg st) (height, index) (a_keyid a))
             (fput N.eqb (t_mem st) k a') (t_key st) (t_orders st)
    end.

  (** [OperateBalance] on objects of [account_map]. *)
  Definition m_operate (st : txst) (who : N) (s : string) (o : balance_op) (v : N)
      (other : option N) : bool * txst :=
    let '(b, m) := l_operate (t_mem st) who s o v other in (b, set_mem st m).

  (** [CAccountDBCache::SaveAccount], accountdb.cpp:123-130. *)
  Definition save_account (acc : ledger) (reg : list (regid * N)) (a : account)
    : ledger * list (regid * N) :=
    (l_put acc (a_keyid a) a,
     if regid_empty (a_regid a) then reg else fput regid_eqb reg (a_regid a) (a_keyid a)).

  (** [CBaseTx::SaveAllAccounts], tx.cpp:319-326. *)
  Fixpoint save_all (acc : ledger) (reg : list (regid * N)) (m : list (N * account))
    : ledger * list (regid * N) :=
    match m with
    | [] => (acc, reg)
    | (_, a) :: m' => let '(acc', reg') := save_account acc reg a in save_all acc' reg' m'
    end.

  (** [RATIO_BOOST], const.h; [SYMB::WUSD]. *)
  Definition ratio_boost : N := 10000.
  Definition WUSD : string := "WUSD".
  Definition WICC : string := "WICC".
  Definition WGRT : string := "WGRT".

  (** [CalcAmountByRatio], util.h:462-470 (128-bit product, boost nonzero). *)
  Definition calc_amount_by_ratio (amount ratio boost : N) : option N :=
    let c := amount * ratio / boost in
    if two64 - 1 <? c then None else Some c.

  (** [SingleTransfer], tx.h. *)
  Record xfer := mkXfer { x_to : uid; x_symbol : string; x_amount : N }.

  (** What the transfer reads from its context: block height and index, the friction-fee
      ratio in force, the reserve account, and the hash that names the system order of
      transfer [i] (cointransfertx.cpp:164-166). *)
  Record tenv := mkEnv {
    e_height : N; e_index : N; e_friction : N; e_fcoin : regid; e_order_id : N -> N }.

  (** [CDexDBCache::CreateActiveOrder], dexdb.cpp: refuses an existing id. *)
  Definition create_order (st : txst) (id amount : N) : option txst :=
    if fmem N.eqb (t_orders st) id then None
    else Some (mkTx (t_acc st) (t_reg st) (t_mem st) (t_key st)
                 (fput N.eqb (t_orders st) id amount)).

  (** One round of the loop of [CCoinTransferTx::ExecuteTx], cointransfertx.cpp:127-201.
      [sender] is [sp_tx_account]; [n] the number of transfers; [from_pub] says whether
      [txUid] is a public key. *)
  Definition exec_xfer (e : tenv) (from_pub : bool) (n : nat) (sender i : N) (x : xfer)
      (st : txst) : option txst :=
    let after_friction : option (txst * N) :=
      if String.eqb (x_symbol x) WUSD then                          (* lines 132-174 *)
        match calc_amount_by_ratio (x_amount x) (e_friction e) ratio_boost with
        | None => None
        | Some fee =>
            if 0 <? fee then
              match get_account st (UReg (e_fcoin e)) with
              | (None, _) => None
              | (Some f, st1) =>
                  match m_operate st1 sender WUSD SubFree fee (Some f) with
                  | (false, _) => None
                  | (true, st2) =>
                      match m_operate st2 f WUSD Freeze fee None with
                      | (false, _) => None
                      | (true, st3) =>
                          match create_order st3 (e_order_id e i) fee with
                          | None => None
                          | Some st4 => Some (st4, sub64 (x_amount x) fee)
                          end
                      end
                  end
              end
            else Some (st, x_amount x)
        end
      else Some (st, x_amount x) in
    match after_friction with
    | None => None
    | Some (st1, actual) =>
        let dest : option (N * txst) :=                             (* lines 176-188 *)
          match get_account st1 (x_to x) with
          | (Some d, st2) => Some (d, st2)
          | (None, st2) =>
              match x_to x with
              | UKey k => Some (k, new_mem_account st2 k)
              | UPub p => Some (pk_keyid p, new_mem_account st2 (pk_keyid p))
              | _ => None
              end
          end in
        match dest with
        | None => None
        | Some (d, st2) =>
            let registered :=
              match fget N.eqb (t_mem st2) d with
              | Some a => negb (regid_empty (a_regid a))
              | None => false
              end in
            let st3 :=                                              (* lines 190-193 *)
              match x_to x with
              | UPub p =>
                  if negb from_pub && Nat.eqb n 1 && negb registered
                  then register_account st2 d p (e_height e) (e_index e)
                  else st2
              | _ => st2
              end in
            match m_operate st3 sender (x_symbol x) SubFree actual (Some d) with
            | (true, st4) => Some st4                               (* lines 195-200 *)
            | (false, _) => None
            end
        end
    end.

  Fixpoint exec_xfers (e : tenv) (from_pub : bool) (n : nat) (sender i : N) (xs : list xfer)
      (st : txst) : option txst :=
    match xs with
    | [] => Some st
    | x :: xs' =>
        match exec_xfer e from_pub n sender i x st with
        | None => None
        | Some st' => exec_xfers e from_pub n sender (i + 1) xs' st'
        end
    end.

  Record coin_tx := mkCoinTx {
    c_uid : uid; c_fee_symbol : string; c_fee : N; c_xfers : list xfer }.

  Definition is_pub (u : uid) : bool := match u with UPub _ => true | _ => false end.

  (** The part of [ExecuteFullTx] before and after [ExecuteTx], tx.cpp:182-221, around a
      body that gets the sender's key. *)
  Definition execute_full (e : tenv) (u : uid) (fee_symbol : string) (fee : N)
      (body : N -> txst -> option txst) (st0 : txst) : option txst :=
    let st := mkTx (t_acc st0) (t_reg st0) [] None (t_orders st0) in     (* ClearMemData *)
    match get_account st u with
    | (None, _) => None
    | (Some k, st1) =>
        let st2 := mkTx (t_acc st1) (t_reg st1) (t_mem st1) (Some k) (t_orders st1) in
        let registered :=
          match fget N.eqb (t_mem st2) k with
          | Some a => negb (regid_empty (a_regid a))
          | None => false
          end in
        let st3 :=                                                       (* lines 328-337 *)
          match u with
          | UPub p =>
              if registered then st2
              else register_account st2 k p (e_height e) (e_index e)
          | _ => st2
          end in
        let charged :=                                                   (* lines 200-204 *)
          if 0 <? fee then m_operate st3 k fee_symbol SubFree fee None else (true, st3) in
        match charged with
        | (false, _) => None
        | (true, st4) =>
            match body k st4 with
            | None => None
            | Some st5 =>
                let '(acc, reg) := save_all (t_acc st5) (t_reg st5) (t_mem st5) in
                Some (mkTx acc reg (t_mem st5) (t_key st5) (t_orders st5))
            end
        end
    end.

  (** [CCoinTransferTx]: full execution. *)
  Definition exec_coin_transfer (e : tenv) (tx : coin_tx) (st : txst) : option txst :=
    execute_full e (c_uid tx) (c_fee_symbol tx) (c_fee tx)
      (fun k => exec_xfers e (is_pub (c_uid tx)) (List.length (c_xfers tx)) k 0 (c_xfers tx)) st.

  (** [CBaseCoinTransferTx::ExecuteTx], cointransfertx.cpp:29-50: one transfer of WICC to a
      registration id or key id. *)
  Definition exec_base_body (to : uid) (amount : N) (sender : N) (st : txst) : option txst :=
    let dest :=
      match get_account st to with
      | (Some d, st2) => Some (d, st2)
      | (None, st2) =>
          match to with UKey k => Some (k, new_mem_account st2 k) | _ => None end
      end in
    match dest with
    | None => None
    | Some (d, st2) =>
        match m_operate st2 sender WICC SubFree amount (Some d) with
        | (true, st3) => Some st3
        | (false, _) => None
        end
    end.

  Definition exec_base_transfer (e : tenv) (u : uid) (fee_symbol : string) (fee : N)
      (to : uid) (amount : N) (st : txst) : option txst :=
    execute_full e u fee_symbol fee (exec_base_body to amount) st.

  (** A transaction body made of balance operations on accounts looked up by user id, in the
      way every [ExecuteTx] uses [GetAccount] and [OperateBalance]; an account that cannot be
      found or an operation that fails makes the transaction fail. *)
  Fixpoint exec_ops (rs : list (uid * string * balance_op * N * option uid)) (st : txst)
    : option txst :=
    match rs with
    | [] => Some st
    | (who, s, o, v, other) :: rs' =>
        match get_account st who with
        | (None, _) => None
        | (Some k, st1) =>
            let op :=
              match other with
              | None => Some (None, st1)
              | Some u => match get_account st1 u with
                          | (Some j, st2) => Some (Some j, st2)
                          | (None, _) => None
                          end
              end in
            match op with
            | None => None
            | Some (j, st2) =>
                match m_operate st2 k s o v j with
                | (true, st3) => exec_ops rs' st3
                | (false, _) => None
                end
            end
        end
    end.
End Tx.
