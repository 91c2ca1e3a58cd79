(** Model of what a Lua contract can do with coins: the accounts a contract keeps for its
    users, the calls by which a running script asks for payments, and what the node does
    with these requests when the script has ended.

    Source: /repo/src/vm/luavm/appaccount.h, appaccount.cpp, luavmrunenv.cpp, lmylib.cpp,
    luavm.cpp; /repo/src/tx/contracttx.cpp, tx.cpp.

    Simplifications: the interpreter itself is not modelled. A run is the list of the calls
    the script makes that can move coins, with the values these calls pass after their
    conversion from Lua numbers and tables, and with whether the script ended without an
    error and within its fuel; since the list is arbitrary, this covers every script,
    whatever it reads in between. Base58 text is given by two functions between key ids and
    bytes. Receipts and the script's own key-value data are left out. Only the accounts of
    the invoked contract are kept: a run touches no other (luavmrunenv.cpp:459, 516). *)
From Coq Require Import String List Bool NArith ZArith.
From Verif Require Import Prelude AccountModel TxModel DexModel.
Import ListNotations.
Open Scope N_scope.

Notation bytes := (list N) (only parsing).

Fixpoint bytes_eqb (x y : list N) : bool :=
  match x, y with
  | [], [] => true
  | a :: x', b :: y' => (a =? b) && bytes_eqb x' y'
  | _, _ => false
  end.

(** The order of [std::map<vector<uint8_t>, ...>] keys: lexicographic. *)
Fixpoint bytes_ltb (x y : list N) : bool :=
  match x, y with
  | _, [] => false
  | [], _ :: _ => true
  | a :: x', b :: y' => if a =? b then bytes_ltb x' y' else a <? b
  end.

(** Conversions between [int64_t] and [uint64_t], and from [uint32_t] to [int32_t] and back
    (two's complement). *)
Definition two63 : Z := 9223372036854775808%Z.
Definition u64 (z : Z) : N := Z.to_N (z mod Z.of_N two64).
Definition i64 (n : N) : Z :=
  if n <? 9223372036854775808 then Z.of_N n else (Z.of_N n - Z.of_N two64)%Z.
Definition i32 (n : N) : Z := if n <? 2147483648 then Z.of_N n else (Z.of_N n - 4294967296)%Z.
Definition u32 (z : Z) : N := Z.to_N (z mod 4294967296).

(** [SafeAdd] and [SafeSubtract] on [uint64_t] and [int64_t], SafeInt3.hpp: refuse what does
    not fit. *)
Definition safe_add (a b : N) : option N := if a + b <? two64 then Some (a + b) else None.
Definition safe_int (z : Z) : option Z :=
  if ((- two63 <=? z) && (z <? two63))%Z then Some z else None.

(** [CAppCFund], appaccount.h:22-54: coins of a user that become free at a height. *)
Record fund := mkFund { f_value : N; f_height : Z; f_tag : bytes }.

(** [CAppUserAccount], appaccount.h:132-173, without its own copy of the user id. *)
Record appacct := mkApp { p_free : N; p_funds : list fund }.

(** [CAppFundOperate], appaccount.h:63-130: [o_type] is 1 to 4 for ADD_FREE_OP, SUB_FREE_OP,
    ADD_TAG_OP and SUB_TAG_OP (appaccount.h:56-61); [o_tag] is what the first [o_taglen]
    bytes of [vFundTag] hold when [o_taglen] is at most 40. *)
Record appop := mkOp {
  o_type : N; o_height : N; o_money : Z; o_user : bytes; o_taglen : N; o_tag : bytes }.

Definition max_tag : N := 40.                                        (* appaccount.h:24 *)

(** [CAppCFund(const CAppFundOperate&)], appaccount.cpp:49-56, with the assertion of
    [GetFundTagV], appaccount.h:107-110. *)
Definition fund_of (o : appop) : outcome fund :=
  do _ <- asserted (0 <? o_height o);
  do _ <- asserted (o_taglen o <=? max_tag);
  Done (mkFund (u64 (o_money o)) (i32 (o_height o)) (o_tag o)).

Definition same_fund (f g : fund) : bool :=
  bytes_eqb (f_tag f) (f_tag g) && (f_height f =? f_height g)%Z.

(** [CAppUserAccount::AddAppCFund], appaccount.cpp:84-97, with [MergeCFund], :37-47. *)
Fixpoint add_fund (l : list fund) (f : fund) : outcome (list fund) :=
  match l with
  | [] => Done [f]
  | g :: l' =>
      if same_fund g f then
        do _ <- asserted (0 <? f_value f);
        do v <- need (safe_add (f_value f) (f_value g));
        Done (mkFund v (f_height g) (f_tag g) :: l')
      else do r <- add_fund l' f; Done (g :: r)
  end.

(** [CAppUserAccount::MinusAppCFund], appaccount.cpp:144-162; the search and what is done
    with the fund found. *)
Fixpoint take_fund (l : list fund) (f : fund) : outcome (list fund) :=
  match l with
  | [] => Reject
  | g :: l' =>
      if same_fund g f then
        if f_value f <=? f_value g then
          if f_value g =? f_value f then Done l'
          else Done (mkFund (f_value g - f_value f) (f_height g) (f_tag g) :: l')
        else Reject
      else do r <- take_fund l' f; Done (g :: r)
  end.
Definition minus_fund (l : list fund) (f : fund) : outcome (list fund) :=
  do _ <- asserted (0 <? f_height f)%Z; take_fund l f.

(** The loop of [CAppUserAccount::AutoMergeFreezeToFree], appaccount.cpp:109-120: whether
    it went through, and the free amount it reached, also when it gives up. *)
Fixpoint free_up (h : Z) (l : list fund) (free : N) : bool * N :=
  match l with
  | [] => (true, free)
  | f :: l' =>
      if (f_height f <=? h)%Z then
        match safe_add free (f_value f) with
        | Some v => free_up h l' v
        | None => (false, free)
        end
      else free_up h l' free
  end.

(** [CAppUserAccount::AutoMergeFreezeToFree], appaccount.cpp:108-129: the flag, and the account
    afterwards. *)
Definition auto_merge (h : Z) (a : appacct) : bool * appacct :=
  match free_up h (p_funds a) (p_free a) with
  | (true, v) => (true, mkApp v (filter (fun f => negb (f_height f <=? h)%Z) (p_funds a)))
  | (false, v) => (false, mkApp v (p_funds a))
  end.

(** [CAppUserAccount::Operate] of one operation, appaccount.cpp:184-220. Its receipt reads
    [GetFundTag], appaccount.h:112-114, which goes past the end of the array when the length
    is too large. *)
Definition operate_app (a : appacct) (o : appop) : outcome appacct :=
  match o_type o with
  | 1 => do v <- need (safe_add (p_free a) (u64 (o_money o))); Done (mkApp v (p_funds a))
  | 2 => if u64 (o_money o) <=? p_free a
         then Done (mkApp (p_free a - u64 (o_money o)) (p_funds a)) else Reject
  | 3 =>
      if max_tag <? o_taglen o then Undefined
      else do f <- fund_of o; do l <- add_fund (p_funds a) f; Done (mkApp (p_free a) l)
  | 4 =>
      if max_tag <? o_taglen o then Undefined
      else do f <- fund_of o; do l <- minus_fund (p_funds a) f; Done (mkApp (p_free a) l)
  | _ => Reject
  end.

(** [CAppUserAccount::Operate] of a list, appaccount.cpp:174-182. *)
Fixpoint operate_list (a : appacct) (os : list appop) : outcome appacct :=
  match os with
  | [] => Done a
  | o :: os' => do a' <- operate_app a o; operate_list a' os'
  end.

(** [CAppFundOperate::ToString] as far as it can go wrong, appaccount.cpp:257-277. *)
Definition printed (o : appop) : outcome unit :=
  do _ <- asserted (o_taglen o <=? max_tag);
  if o_type o <=? 4 then Done tt else Undefined.

Fixpoint all_printed (os : list appop) : outcome unit :=
  match os with
  | [] => Done tt
  | o :: os' => do _ <- printed o; all_printed os'
  end.

(** Whom a requested payment names: 6 bytes of registration id, or an address, here already
    decoded; 0 is the key id of text that is no address (key.cpp:372-379). *)
Inductive target := TReg (r : regid) | TAddr (k : N).

(** [CVmOperate]: [w_op] is 1 for ADD_FREE and 2 for SUB_FREE (types.h:63-66). *)
Record vmop := mkOut { w_to : target; w_op : N; w_money : N }.

(** [AssetTransfer], luavmrunenv.h:43-48. *)
Record transfer := mkTransfer {
  y_contract : bool; y_to : uid; y_symbol : string; y_amount : N }.

(** The calls of a script that can move coins, lmylib.cpp:2598-2623. *)
Inductive call :=
| WriteOutput (o : vmop)
| WriteOutAppOperate (o : appop)
| TransferContractAsset (recv : bytes)
| TransferSomeAsset (recv : bytes) (height money taglen : N) (tag : bytes)
| TransferAccountAssets (ts : list transfer).

(** What the run is given, luavmrunenv.h:27-41: fork version (version.h:53-58), height of the
    block, height of the tip of the active chain, token and amount sent along, whether the
    log of this category is written, and the tokens that exist. *)
Record lenv := mkLenv {
  n_ver : N; n_height : Z; n_tip : Z; n_symbol : string; n_amount : N; n_log : bool;
  n_asset : string -> bool }.

Definition ver_r2 : N := 10002.

(** A run of a script: its calls; whether it ended well (luavm.cpp:313-338); whether the
    global [gCheckAccount] is true at the end (luavm.cpp:319-330). *)
Record script := mkScript { s_calls : list call; s_ends : bool; s_check : bool }.

(** The records a contract keeps for its users. *)
Notation apps := (list (list N * appacct)) (only parsing).

(** [CLuaVMRunEnv] while a script runs: the transaction's accounts, [vmOperateOutput],
    [mapAppFundOperate] and [transfer_count]. *)
Record vm := mkVm {
  m_tx : txst; m_out : list vmop; m_ops : list (bytes * list appop); m_count : N }.

Definition max_output : N := 100.                                    (* luavmrunenv.cpp:13 *)

(** [BCOIN_MAX_MONEY], configuration.h:229. *)
Definition max_money : N := 21000000000000000.

(** [InsertOutAPPOperte], luavmrunenv.cpp:420-429, on an ordered map. *)
Fixpoint insert_op (l : list (list N * list appop)) (u : bytes) (o : appop)
  : list (list N * list appop) :=
  match l with
  | [] => [(u, [o])]
  | (v, os) :: l' =>
      if bytes_eqb u v then (v, os ++ [o]) :: l'
      else if bytes_ltb u v then (u, [o]) :: (v, os) :: l'
      else (v, os) :: insert_op l' u o
  end.

Section Lua.
  Variable pk_keyid : N -> N.
  (** [CKeyID::ToAddress] and [CKeyID(string)]. *)
  Variable addr_of : N -> list N.
  Variable key_of : list N -> N.

  (** The key ids of the sender ([sp_tx_account]) and of the contract ([sp_app_account]). *)
  Variables sender contract : N.
  Variable e : lenv.

  (** [CLuaVMRunEnv::GetAccount], luavmrunenv.cpp:410-418. *)
  Definition vm_account (st : txst) (u : uid) : option N * txst :=
    let self k := match fget N.eqb (t_mem st) k with
                  | Some a => is_self_uid a u | None => false end in
    if self contract then (Some contract, st)
    else if self sender then (Some sender, st)
    else get_account pk_keyid st u.

  (** The account found, or a new one for a key id: luavmrunenv.cpp:291-303 and 335-348. *)
  Definition find_or_new (st : txst) (u : uid) : option (N * txst) :=
    match vm_account st u with
    | (Some k, st') => Some (k, st')
    | (None, st') => match u with UKey k => Some (k, new_mem_account st' k) | _ => None end
    end.

  (** [CLuaVMRunEnv::GetAccountID], luavmrunenv.cpp:82-98: an address whose account has a
      registration id stands for that id; the account is read from the cache, not from the
      transaction. *)
  Definition account_id (st : txst) (t : target) : uid :=
    match t with
    | TReg r => UReg r
    | TAddr k =>
        if k =? 0 then UKey 0
        else match l_get (t_acc st) k with
             | Some a => if regid_empty (a_regid a) then UKey k else UReg (a_regid a)
             | None => UKey k
             end
    end.

  (** The registration ids that the run reads off the two account objects. *)
  Definition regid_at (st : txst) (k : N) : regid :=
    match fget N.eqb (t_mem st) k with Some a => a_regid a | None => (0, 0) end.

  (** [CLuaVMRunEnv::CheckOperate], luavmrunenv.cpp:113-169: the loop, with the sums so far. *)
  Fixpoint check_outs (st : txst) (outs : list vmop) (add sub : N) : outcome unit :=
    match outs with
    | [] => guard (add =? sub)
    | o :: outs' =>
        match w_op o with
        | 1 => do a <- need (safe_add add (w_money o)); check_outs st outs' a sub
        | 2 =>
            match account_id st (w_to o) with
            | UReg r =>
                do _ <- asserted (negb (regid_empty (regid_at st contract)));
                do _ <- guard (regid_eqb r (regid_at st contract));
                do s <- need (safe_add sub (w_money o));
                check_outs st outs' add s
            | _ => Reject
            end
        | _ => Reject
        end
    end.

  Definition balance_op_of (n : N) : balance_op :=
    match n with 1 => AddFree | 2 => SubFree | _ => OpNull end.

  Definition uid_empty (u : uid) : bool :=
    match u with UReg r => regid_empty r | UKey k => k =? 0 | _ => true end.
  Definition is_reg (u : uid) : bool := match u with UReg _ => true | _ => false end.

  (** [CLuaVMRunEnv::OperateAccount], luavmrunenv.cpp:260-322. *)
  Fixpoint operate_accounts (outs : list vmop) (st : txst) : outcome txst :=
    match outs with
    | [] => Done st
    | o :: outs' =>
        let u := account_id st (w_to o) in
        if uid_empty u then
          if (n_ver e <=? ver_r2) && negb (is_reg u) then            (* lines 277-289 *)
            if ok (operate_balance (new_account 0) WICC (balance_op_of (w_op o)) (w_money o) NoPeer)
            then operate_accounts outs' st else Reject
          else Reject
        else
          do r <- need (find_or_new st u);
          let '(k, st1) := r in
          match m_operate st1 k WICC (balance_op_of (w_op o)) (w_money o) None with
          | (true, st2) => operate_accounts outs' st2
          | (false, _) => Reject
          end
    end.

  (** The two sums of [CLuaVMRunEnv::CheckAppAcctOperate], luavmrunenv.cpp:173-203. *)
  Fixpoint sum_list (os : list appop) (add sub : Z) : option (Z * Z) :=
    match os with
    | [] => Some (add, sub)
    | o :: os' =>
        if (o_type o =? 1) || (o_type o =? 3) then
          match safe_int (o_money o + add) with Some a => sum_list os' a sub | None => None end
        else if (o_type o =? 2) || (o_type o =? 4) then
          match safe_int (o_money o + sub) with Some s => sum_list os' add s | None => None end
        else sum_list os' add sub
    end.
  Fixpoint sum_map (m : list (list N * list appop)) (add sub : Z) : option (Z * Z) :=
    match m with
    | [] => Some (add, sub)
    | (_, os) :: m' =>
        match sum_list os add sub with Some (a, s) => sum_map m' a s | None => None end
    end.

  (** What the contract pays out, luavmrunenv.cpp:214-236. *)
  Fixpoint paid_out (st : txst) (outs : list vmop) (sum : N) : option N :=
    match outs with
    | [] => Some sum
    | o :: outs' =>
        let mine := match account_id st (w_to o) with
                    | UReg r => regid_eqb r (regid_at st contract) | _ => false end in
        if mine && (w_op o =? 2) then
          if (i64 (w_money o) <? 0)%Z then None
          else match safe_add (w_money o) sum with
               | Some s => paid_out st outs' s
               | None => None
               end
        else paid_out st outs' sum
    end.

  (** [CLuaVMRunEnv::CheckAppAcctOperate], luavmrunenv.cpp:171-258. *)
  Definition check_app (st : txst) (outs : list vmop) (m : list (list N * list appop)) : bool :=
    match sum_map m 0 0 with
    | None => false
    | Some (a, s) =>
        match safe_int (a - s), paid_out st outs 0 with
        | Some sum, Some out =>
            match safe_int (i64 (n_amount e) - i64 out) with
            | Some d => (sum =? d)%Z
            | None => false
            end
        | _, _ => false
        end
    end.

  (** One user of [CLuaVMRunEnv::OperateAppAccount], luavmrunenv.cpp:480-517, with
      [GetAppUserAccount], :455-473. *)
  Definition operate_user (P : apps) (u : bytes) (os : list appop) : outcome (list (list N * appacct)) :=
    do a <- match fget bytes_eqb P u with
            | None => Done (mkApp 0 [])
            | Some a => match auto_merge (n_height e) a with
                        | (true, a') => Done a' | (false, _) => Reject end
            end;
    match auto_merge (n_height e) a with
    | (false, _) => Reject
    | (true, a1) =>
        match operate_list a1 os with
        | Done a2 => Done (fput bytes_eqb P u a2)
        | Reject => if n_log e then do _ <- all_printed os; Reject else Reject
        | Abort => Abort
        | Undefined => Undefined
        end
    end.

  (** [CLuaVMRunEnv::OperateAppAccount], luavmrunenv.cpp:475-521. *)
  Fixpoint operate_users (P : apps) (m : list (list N * list appop))
    : outcome (list (list N * appacct)) :=
    match m with
    | [] => Done P
    | (u, os) :: m' => do P' <- operate_user P u os; operate_users P' m'
    end.

  (** The loop of [CLuaVMRunEnv::TransferAccountAsset], luavmrunenv.cpp:330-366: stops at the
      first transfer that fails and keeps those before. *)
  Fixpoint transfer_all (ts : list transfer) (st : txst) : bool * txst :=
    match ts with
    | [] => (true, st)
    | t :: ts' =>
        match find_or_new st (y_to t) with
        | None => (false, st)
        | Some (d, st1) =>
            match m_operate st1 (if y_contract t then contract else sender) (y_symbol t)
                    SubFree (y_amount t) (Some d) with
            | (true, st2) => transfer_all ts' st2
            | (false, st2) => (false, st2)
            end
        end
    end.

  (** [ParseAccountAssetTransfer], lmylib.cpp:2277-2327: an address that is none is let
      through, with the empty key id (lmylib.cpp:616-620); an empty registration id is not. *)
  Definition parsed (t : transfer) : bool :=
    negb (match y_to t with UReg r => regid_empty r | UKey _ => false | _ => true end) &&
    n_asset e (y_symbol t) && negb (y_amount t =? 0) && (y_amount t <=? max_money).

  Definition with_ops (v : vm) (m : list (list N * list appop)) : vm :=
    mkVm (m_tx v) (m_out v) m (m_count v).

  (** The address under which the sender's coins in the contract are kept:
      lmylib.cpp:2025-2028 and 2133-2136. *)
  Definition send_key (st : txst) : list N :=
    addr_of (match fget regid_eqb (t_reg st) (regid_at st sender) with Some k => k | None => 0 end).

  (** Take [o] from the sender's account in the contract and give it to [recv]. *)
  Definition insert_pair (m : list (list N * list appop)) (from recv : bytes) (h : N) (money : Z)
      (taglen : N) (tag : bytes) (sub add : N) : list (list N * list appop) :=
    insert_op (insert_op m from (mkOp sub h money from taglen tag))
              recv (mkOp add h money recv taglen tag).

  Fixpoint move_funds (m : list (list N * list appop)) (from recv : bytes) (l : list fund)
    : list (list N * list appop) :=
    match l with
    | [] => m
    | f :: l' =>
        move_funds (insert_pair m from recv (u32 (f_height f)) (i64 (f_value f))
                      (N.of_nat (List.length (f_tag f))) (f_tag f) 4 3) from recv l'
    end.

  (** One call of a script: the value it returns to the script and the state afterwards. *)
  Definition step (P : apps) (v : vm) (c : call) : outcome (bool * vm) :=
    match c with
    | WriteOutput o =>                      (* lmylib.cpp:1583-1600, luavmrunenv.cpp:441-447 *)
        let outs := m_out v ++ [o] in
        Done (N.of_nat (List.length outs) + m_count v <=? max_output,
              mkVm (m_tx v) outs (m_ops v) (m_count v))
    | WriteOutAppOperate o =>               (* lmylib.cpp:1773-1836, 1939-1973 *)
        let n := N.of_nat (List.length (o_user o)) in
        if (n <? 1) || (max_tag <? n) then Done (false, v)
        else if (ver_r2 <=? n_ver e) && (o_money o <? 0)%Z then Done (false, v)
        else Done (true, with_ops v (insert_op (m_ops v) (o_user o) o))
    | TransferContractAsset recv =>         (* lmylib.cpp:2011-2110 *)
        let st := m_tx v in
        if negb (N.of_nat (List.length recv) =? 34) then Done (false, v)
        else
          do _ <- asserted (negb (regid_empty (regid_at st contract)));
          do _ <- asserted (negb (regid_empty (regid_at st sender)));
          let from := send_key st in
          if bytes_eqb from recv then Done (false, v)
          else if key_of recv =? 0 then Done (false, v)
          else match fget bytes_eqb P from with
               | None => Done (false, v)
               | Some a =>
                   let '(_, a1) := auto_merge (n_tip e) a in
                   let m1 := if 0 <? p_free a1
                             then insert_pair (m_ops v) from recv 0 (i64 (p_free a1)) 0 [] 2 1
                             else m_ops v in
                   Done (true, with_ops v (move_funds m1 from recv (p_funds a1)))
               end
    | TransferSomeAsset recv h money taglen tag =>   (* lmylib.cpp:2112-2196 *)
        let st := m_tx v in
        if negb (N.of_nat (List.length recv) =? 34) then Done (false, v)
        else
          do _ <- asserted (negb (regid_empty (regid_at st sender)));
          let from := send_key st in
          if bytes_eqb from recv then Done (false, v)
          else if key_of recv =? 0 then Done (false, v)
          else if money =? 0 then Done (false, v)
          else if (i32 h <? 0)%Z then Done (false, v)
          else
            do _ <- asserted (taglen <=? max_tag);
            let frozen := 0 <? h in
            Done (true, with_ops v (insert_pair (m_ops v) from recv h (i64 money) taglen tag
                                      (if frozen then 4 else 2) (if frozen then 3 else 1)))
    | TransferAccountAssets ts =>           (* lmylib.cpp:2329-2397, luavmrunenv.cpp:324-371 *)
        if n_ver e <? ver_r2 then Reject                            (* lmylib.cpp:2670-2678 *)
        else if (N.of_nat (List.length ts) =? 0) || negb (forallb parsed ts) then Done (false, v)
        else
          let cnt := m_count v + N.of_nat (List.length ts) in
          if max_output <? N.of_nat (List.length (m_out v)) + cnt
          then Done (false, mkVm (m_tx v) (m_out v) (m_ops v) cnt)
          else let '(b, st) := transfer_all ts (m_tx v) in
               Done (b, mkVm st (m_out v) (m_ops v) cnt)
    end.

  Fixpoint steps (P : apps) (v : vm) (cs : list call) : outcome vm :=
    match cs with
    | [] => Done v
    | c :: cs' => do r <- step P v c; steps P (snd r) cs'
    end.

  (** [CLuaVMRunEnv::ExecuteContract], luavmrunenv.cpp:30-80. *)
  Definition execute_contract (P : apps) (sc : script) (st : txst)
    : outcome (txst * list (list N * appacct)) :=
    do v <- steps P (mkVm st [] [] 0) (s_calls sc);
    do _ <- guard (s_ends sc);
    do _ <- check_outs (m_tx v) (m_out v) 0 0;
    do st2 <- operate_accounts (m_out v) (m_tx v);
    do _ <- guard (negb (s_check sc && String.eqb (n_symbol e) WICC) ||
                   check_app st2 (m_out v) (m_ops v));
    do _ <- asserted (negb (regid_empty (regid_at st2 contract)) ||
                      (N.of_nat (List.length (m_ops v)) =? 0));      (* GetContractRegID, :373-376 *)
    do P' <- operate_users P (m_ops v);
    Done (st2, P').
End Lua.

Section Invoke.
  Variable pk_keyid : N -> N.
  Variable addr_of : N -> list N.
  Variable key_of : list N -> N.

  (** A call of a contract as a transaction: the sender, the fee, the contract, whether it is
      of the newer kind ([CUniversalContractInvokeTx]); for that kind, the fuel it burnt in
      fees and the account that gets it if fees are paid in WUSD. *)
  Record invoke := mkInvoke {
    i_uid : uid; i_fee_symbol : string; i_fee : N; i_app : regid; i_universal : bool;
    i_fuel : N; i_reserve : regid }.

  (** [ExecuteTx] of the two kinds, contracttx.cpp:160-207 and 370-431; the fuel limit and the
      lookup of the code are taken as done. *)
  Definition invoke_body (e : lenv) (i : invoke) (sc : script) (P : apps) (k : N) (st : txst)
    : outcome (txst * list (list N * appacct)) :=
    match get_account pk_keyid st (UReg (i_app i)) with
    | (None, _) => Reject
    | (Some c, st1) =>
        let moved := if i_universal i || (0 <? n_amount e)
                     then m_operate st1 k (n_symbol e) SubFree (n_amount e) (Some c)
                     else (true, st1) in
        match moved with
        | (false, _) => Reject
        | (true, st2) =>
            do r <- execute_contract pk_keyid addr_of key_of k c e P sc st2;
            let '(st3, P') := r in
            if i_universal i && String.eqb (i_fee_symbol i) WUSD then   (* lines 418-428 *)
              match get_account pk_keyid st3 (UReg (i_reserve i)) with
              | (None, _) => Reject
              | (Some f, st4) =>
                  match m_operate st4 f WUSD AddFree (i_fuel i) None with
                  | (true, st5) => Done (st5, P')
                  | (false, _) => Reject
                  end
              end
            else Done (st3, P')
        end
    end.

  (** [CBaseTx::ExecuteFullTx] before [ExecuteTx], tx.cpp:182-205: the sender's key and the
      state with the fee taken. *)
  Definition open_tx (height index : N) (u : uid) (fee_symbol : string) (fee : N) (st0 : txst)
    : option (N * txst) :=
    let st := mkTx (t_acc st0) (t_reg st0) [] None (t_orders st0) in     (* ClearMemData *)
    match get_account pk_keyid st u with
    | (None, _) => None
    | (Some k, st1) =>
        let st2 := mkTx (t_acc st1) (t_reg st1) (t_mem st1) (Some k) (t_orders st1) in
        let registered :=
          match fget N.eqb (t_mem st2) k with
          | Some a => negb (regid_empty (a_regid a))
          | None => false
          end in
        let st3 :=                                                       (* lines 328-337 *)
          match u with
          | UPub p => if registered then st2 else register_account st2 k p height index
          | _ => st2
          end in
        let charged :=                                                   (* lines 200-204 *)
          if 0 <? fee then m_operate st3 k fee_symbol SubFree fee None else (true, st3) in
        match charged with
        | (false, _) => None
        | (true, st4) => Some (k, st4)
        end
    end.

  (** [CBaseTx::SaveAllAccounts], tx.cpp:319-326: an account without key id is not written,
      because the cache refuses the empty key (dbaccess.h:408-411). *)
  Definition close_tx (st : txst) : txst :=
    let '(acc, reg) := save_all (t_acc st) (t_reg st)
                         (filter (fun ka : N * account => negb (fst ka =? 0)) (t_mem st)) in
    mkTx acc reg (t_mem st) (t_key st) (t_orders st).

  (** The whole transaction: the state and the contract's records afterwards. *)
  Definition invoke_tx (height index : N) (e : lenv) (i : invoke) (sc : script) (P : apps)
      (st : txst) : outcome (txst * list (list N * appacct)) :=
    do r <- need (open_tx height index (i_uid i) (i_fee_symbol i) (i_fee i) st);
    let '(k, st4) := r in
    do q <- invoke_body e i sc P k st4;
    let '(st5, P') := q in
    Done (close_tx st5, P').
End Invoke.
