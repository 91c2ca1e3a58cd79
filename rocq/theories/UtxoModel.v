(** Model of the UTXO transactions: outputs with spending conditions, their validation and
    their execution.

    Source: /repo/src/tx/coinutxotx.cpp, /repo/src/entities/utxo.h,
    /repo/src/persistence/txutxodb.cpp.

    Simplifications: caches are finite maps (c01_layered_cache_is_a_map); accounts are looked
    up and changed directly in the ledger (c50_transaction_acts_on_ledger). Transaction ids,
    key ids, hashes, signatures and passwords are numbers; hash functions and signature
    verification are parameters. The memo check and receipts are left out. The node has its
    transaction index switched on (without it every spend is refused, coinutxotx.cpp:13). *)
From Coq Require Import String List Bool NArith ZArith.
From Verif Require Import Prelude AccountModel TxModel TxSpec.
Import ListNotations.
Open Scope N_scope.

(** [UtxoCondType], utxo.h:17-30. *)
Definition IP2SA : N := 11.  Definition IP2MA : N := 12.  Definition IP2PH : N := 13.
Definition OP2SA : N := 111. Definition OP2MA : N := 112. Definition OP2PH : N := 113.
Definition OCLAIM_LOCK : N := 114. Definition ORECLAIM_LOCK : N := 115.

(** The condition objects, utxo.h:47-248: the C++ class with its fields. A password is its
    length and its contents. *)
Inductive payload :=
| InSingle
| InMulti (m n : N) (uids : list uid) (sigs : list N)
| InPassword (len pw : N)
| OutSingle (u : uid)
| OutMulti (dest : N)
| OutPassword (proof_required : bool) (h : N)
| OutClaim (height : N)
| OutReclaim (height : N).

(** [CUtxoCondStorageBean], utxo.h:251-: a null pointer (type byte 0 on the stream), or an
    object. Its [cond_type] always is that of its class: the reader sets it from the byte that
    selects the class (utxo.h:376). *)
Inductive cond := CNull | Cond (p : payload).

Definition tag (p : payload) : N :=
  match p with
  | InSingle => IP2SA | InMulti _ _ _ _ => IP2MA | InPassword _ _ => IP2PH
  | OutSingle _ => OP2SA | OutMulti _ => OP2MA | OutPassword _ _ => OP2PH
  | OutClaim _ => OCLAIM_LOCK | OutReclaim _ => ORECLAIM_LOCK
  end.

(** [CUtxoInput], [CUtxoOutput] and [CCoinUtxoTransferTx], utxo.h, coinutxotx.h:24-48;
    [ux_id] is the transaction's hash. *)
Record uin := mkUin { in_txid : N; in_index : N; in_conds : list cond }.
Record uout := mkUout { out_amount : N; out_conds : list cond }.
Record utx := mkUtx {
  ux_id : N; ux_uid : uid; ux_fee_symbol : string; ux_fee : N;
  ux_symbol : string; ux_vins : list uin; ux_vouts : list uout }.

(** A key of [tx_utxo_cache] and one of [tx_utxo_password_proof_cache], txutxodb.h. *)
Notation ukey := (N * N)%type (only parsing).
Definition ukey_eqb (a b : ukey) : bool := pair_eqb N.eqb N.eqb a b.
Notation pkey := (N * N * (N * N))%type (only parsing).
Definition pkey_eqb (a b : pkey) : bool := pair_eqb ukey_eqb regid_eqb a b.

(** What the transactions work on. [u_index] holds the transactions of connected blocks, found
    through the transaction index; those of the block being connected, [u_block], are added to
    it only when the block is done (main.cpp:1164-1171). *)
Record ustate := mkU {
  u_ledger : list (N * account);
  u_reg : list (regid * N);
  u_set : list (ukey * N);                  (* tx_utxo_cache *)
  u_proofs : list (pkey * N);               (* tx_utxo_password_proof_cache *)
  u_index : list (N * utx);
  u_block : list (N * utx) }.

(** Block height, position in the block, the governed limits UTXO_VIN_SIZE and UTXO_VOUT_SIZE,
    and the minimum fee of the transaction type. *)
Record uenv := mkUenv { v_height : N; v_index : N; v_vins : N; v_vouts : N; v_minfee : N }.

(** Outcome of a check: passed, refused, or a null pointer is dereferenced. *)
Inductive verdict := Pass | Refuse | Fault.

Definition both (a : verdict) (b : verdict) : verdict :=
  match a with Pass => b | _ => a end.
Definition when (b : bool) : verdict := if b then Pass else Refuse.

Section Utxo.
  Variable pk_keyid : N -> N.
  (** [Hash160] of the redeem script of [m], [n] and the parties' key ids (lines 45-74). *)
  Variable ms_keyid : N -> N -> list N -> N.
  (** [ComputeUtxoMultisignHash], lines 77-83: transaction id, index, spender, script. *)
  Variable ms_hash : N -> N -> N -> (N * N * list N) -> N.
  (** [VerifySignature]: hash, signature, public key. *)
  Variable verify : N -> N -> N -> bool.
  (** The hash of the creator's key id and a password (lines 235-236), and that of the proof
      (lines 214-218): password, creator, spender, transaction id, index. *)
  Variable pw_hash : N -> N -> N.
  Variable proof_hash : N -> N -> N -> N -> N -> N.

  Definition account_of (st : ustate) (u : uid) : option account :=
    match find pk_keyid (u_reg st) (u_ledger st) u with
    | Some k => l_get (u_ledger st) k
    | None => None
    end.

  (** The key ids of the listed parties, lines 55-63. *)
  Fixpoint party_keys (st : ustate) (us : list uid) : option (list N) :=
    match us with
    | [] => Some []
    | u :: us' =>
        match account_of st u with
        | None => None
        | Some a => match party_keys st us' with None => None | Some ks => Some (a_keyid a :: ks) end
        end
    end.

  (** The inner loop of [VerifyMultiSig], lines 96-105: whether a signature passes; [None]: the
      function returns false. *)
  Fixpoint sig_passes (st : ustate) (h sig : N) (us : list uid) : option bool :=
    match us with
    | [] => Some false
    | u :: us' =>
        match account_of st u with
        | None => None
        | Some a =>
            match a_pubkey a with
            | None => None
            | Some p => if verify h sig p then Some true else sig_passes st h sig us'
            end
        end
    end.

  (** The outer loop, lines 94-106: [verifyPassNum]. *)
  Fixpoint count_passes (st : ustate) (h : N) (us : list uid) (sigs : list N) : option N :=
    match sigs with
    | [] => Some 0
    | sig :: sigs' =>
        match sig_passes st h sig us with
        | None => None
        | Some b =>
            match count_passes st h us sigs' with
            | None => None
            | Some n => Some ((if b then 1 else 0) + n)
            end
        end
    end.

  (** [VerifyMultiSig], lines 85-110. *)
  Definition verify_multisig (st : ustate) (h m : N) (us : list uid) (sigs : list N) : bool :=
    if N.of_nat (List.length sigs) <? m then false
    else match party_keys st us with
         | None => false
         | Some _ =>
             match count_passes st h us sigs with
             | None => false
             | Some n => m <=? n
             end
         end.

  (** The first input condition of a type, lines 144-178 and 198-245. *)
  Fixpoint first_cond (t : N) (cs : list cond) : option (option payload) :=
    match cs with
    | [] => Some None
    | CNull :: _ => None
    | Cond p :: cs' => if tag p =? t then Some (Some p) else first_cond t cs'
    end.

  Definition uid_none (u : uid) : bool := match u with UNull => true | _ => false end.

  (** [CheckUtxoOutCondition], lines 112-312. [prev] is [Some creator] for a condition of the
      output being spent by [inp], [None] for one of a new output. [acct] is the account of
      the transaction. *)
  Definition check_cond (e : uenv) (st : ustate) (acct : account) (prev : option uid)
      (inp : uin) (c : cond) : verdict :=
    match c with
    | CNull => Fault
    | Cond (OutSingle u) =>                                          (* lines 118-137 *)
        match prev with
        | Some _ =>
            match account_of st u with
            | None => Refuse
            | Some a => when (a_keyid a =? a_keyid acct)
            end
        | None => when (negb (uid_none u))
        end
    | Cond (OutMulti dest) =>                                        (* lines 139-191 *)
        match prev with
        | Some _ =>
            match first_cond IP2MA (in_conds inp) with
            | None => Fault
            | Some (Some (InMulti m n us sigs)) =>
                if n <? m then Refuse
                else if (20 <? m) || (20 <? n) then Refuse
                else if negb (N.of_nat (List.length us) =? n) then Refuse
                else
                  match party_keys st us with
                  | None => Refuse
                  | Some ks =>
                      if negb (dest =? ms_keyid m n ks) then Refuse
                      else when (verify_multisig st
                                   (ms_hash (in_txid inp) (in_index inp) (a_keyid acct) (m, n, ks))
                                   m us sigs)
                  end
            | Some _ => Refuse
            end
        | None => when (negb (dest =? 0))
        end
    | Cond (OutPassword req h) =>                                    (* lines 193-258 *)
        match prev with
        | Some creator =>
            match first_cond IP2PH (in_conds inp) with
            | None => Fault
            | Some (Some (InPassword len pw)) =>
                if 256 <? len then Refuse
                else
                  match account_of st creator with
                  | None => Refuse
                  | Some ca =>
                      let proved :=
                        if req then
                          match fget pkey_eqb (u_proofs st)
                                  (in_txid inp, in_index inp, a_regid acct) with
                          | None => false
                          | Some proof =>
                              proof_hash pw (a_keyid ca) (a_keyid acct) (in_txid inp) (in_index inp)
                                =? proof
                          end
                        else true in
                      when (proved && (h =? pw_hash (a_keyid ca) pw))
                  end
            | Some _ => Refuse
            end
        | None => when (negb (h =? 0))
        end
    | Cond (OutClaim h) =>                                           (* lines 259-275 *)
        match prev with
        | Some _ => when (negb (v_height e <=? h))
        | None => when (negb (h =? 0))
        end
    | Cond (OutReclaim h) =>                                         (* lines 276-304 *)
        match prev with
        | Some creator =>
            let key :=
              match creator with
              | UKey k => Some k
              | _ => match account_of st creator with Some a => Some (a_keyid a) | None => None end
              end in
            match key with
            | None => Refuse
            | Some k =>
                if k =? a_keyid acct
                then when (negb ((h =? 0) || (v_height e <=? h))) else Pass
            end
        | None => when (negb (h =? 0))
        end
    | Cond _ => Refuse                                               (* lines 305-309 *)
    end.

  (** The loops over the conditions of one output, lines 353-363 and 375-386; [seen] is the set
      of types met so far. *)
  Fixpoint check_conds (e : uenv) (st : ustate) (acct : account) (prev : option uid)
      (inp : uin) (seen : list N) (cs : list cond) : verdict :=
    match cs with
    | [] => Pass
    | c :: cs' =>
        both (check_cond e st acct prev inp c)
          (match c with
           | CNull => Fault
           | Cond p =>
               if existsb (N.eqb (tag p)) seen then Refuse
               else check_conds e st acct prev inp (tag p :: seen) cs'
           end)
    end.

  Definition has_tag (t : N) (cs : list cond) : bool :=
    existsb (fun c => match c with Cond p => tag p =? t | CNull => false end) cs.

  (** [GetUtxoTxFromChain], lines 12-42, then [vouts[index]] after the range check of line 348
      (16-bit size). *)
  Definition prev_out (st : ustate) (i : uin) : option (utx * uout) :=
    match fget N.eqb (u_index st) (in_txid i) with
    | None => None
    | Some p =>
        if N.of_nat (List.length (ux_vouts p)) mod two16 <? in_index i + 1 then None
        else match nth_error (ux_vouts p) (N.to_nat (in_index i)) with
             | Some o => Some (p, o)
             | None => None
             end
    end.

  (** Lines 342-369: the verdict, and the total with 64-bit wrap-around. *)
  Fixpoint check_ins (e : uenv) (st : ustate) (acct : account) (is : list uin) (total : N)
    : verdict * N :=
    match is with
    | [] => (Pass, total)
    | i :: is' =>
        match prev_out st i with
        | None => (Refuse, total)
        | Some (p, o) =>
            match both (check_conds e st acct (Some (ux_uid p)) i [] (out_conds o))
                    (when (negb (has_tag IP2SA (out_conds o) && has_tag IP2MA (out_conds o)))) with
            | Pass => check_ins e st acct is' (add64 total (out_amount o))
            | v => (v, total)
            end
        end
    end.

  Definition no_input : uin := mkUin 0 0 [].

  (** Lines 371-392. *)
  Fixpoint check_outs (e : uenv) (st : ustate) (acct : account) (os : list uout) (total : N)
    : verdict * N :=
    match os with
    | [] => (Pass, total)
    | o :: os' =>
        if out_amount o =? 0 then (Refuse, total)
        else
          match both (check_conds e st acct None no_input [] (out_conds o))
                  (when (negb (has_tag OP2SA (out_conds o) && has_tag OP2MA (out_conds o)))) with
          | Pass => check_outs e st acct os' (add64 total (out_amount o))
          | v => (v, total)
          end
    end.

  (** [CAccount::GetBalance] with FREE_VALUE, account.cpp:14-31. *)
  Definition free_balance (a : account) (s : string) : option N :=
    match fget String.eqb (a_tokens a) s with Some t => Some (free t) | None => None end.

  (** [CCoinUtxoTransferTx::CheckTx], lines 314-405. *)
  Definition check_transfer (e : uenv) (st : ustate) (tx : utx) : verdict :=
    match account_of st (ux_uid tx) with
    | None => Refuse
    | Some acct =>
        let nin := N.of_nat (List.length (ux_vins tx)) in
        let nout := N.of_nat (List.length (ux_vouts tx)) in
        if v_vins e <? nin then Refuse
        else if v_vouts e <? nout then Refuse
        else if (nin =? 0) && (nout =? 0) then Refuse
        else if ux_fee tx <? mul64 (add64 (mul64 2 nin) nout) (v_minfee e) then Refuse
        else
          let '(vi, tin) := check_ins e st acct (ux_vins tx) 0 in
          let '(vo, tout) := check_outs e st acct (ux_vouts tx) 0 in
          both vi (both vo
            (match free_balance acct (ux_symbol tx) with
             | None => Refuse
             | Some b => when (negb (add64 b tin <? add64 tout (ux_fee tx)))
             end))
    end.

  (** The input loop of [ExecuteTx], lines 413-435: unspent outputs, proofs and the total. *)
  Fixpoint exec_ins (index : list (N * utx)) (rg : regid) (is : list uin)
      (set : list (ukey * N)) (proofs : list (pkey * N)) (total : N)
    : option (list (ukey * N) * list (pkey * N) * N) :=
    match is with
    | [] => Some (set, proofs, total)
    | i :: is' =>
        let k := (in_txid i, in_index i) in
        if negb (fmem ukey_eqb set k) then None
        else
          match fget N.eqb index (in_txid i) with
          | None => None
          | Some p =>
              match nth_error (ux_vouts p) (N.to_nat (in_index i)) with
              | None => None
              | Some o =>
                  exec_ins index rg is' (fdel ukey_eqb set k)
                    (fdel pkey_eqb proofs (k, rg)) (add64 total (out_amount o))
              end
          end
    end.

  (** The output loop, lines 437-446; the index is 16 bits wide. *)
  Fixpoint exec_outs (id i : N) (os : list uout) (set : list (ukey * N)) (total : N)
    : list (ukey * N) * N :=
    match os with
    | [] => (set, total)
    | o :: os' =>
        exec_outs id ((i + 1) mod two16) os' (fput ukey_eqb set (id, i) 1)
          (add64 total (out_amount o))
    end.

  (** [ExecuteFullTx] around [CCoinUtxoTransferTx::ExecuteTx] (lines 410-469): registration of
      the sender, fee, inputs, outputs, balance. *)
  Definition exec_transfer (e : uenv) (st : ustate) (tx : utx) : option ustate :=
    match find pk_keyid (u_reg st) (u_ledger st) (ux_uid tx) with
    | None => None
    | Some k =>
        let '(reg, L0) := entered pk_keyid (v_height e) (v_index e) (ux_uid tx)
                            (u_reg st) (u_ledger st) in
        let charged :=
          if 0 <? ux_fee tx then l_operate L0 k (ux_fee_symbol tx) SubFree (ux_fee tx) None
          else (true, L0) in
        match charged with
        | (false, _) => None
        | (true, L1) =>
            match l_get L1 k with
            | None => None
            | Some acct =>
                match exec_ins (u_index st) (a_regid acct) (ux_vins tx) (u_set st) (u_proofs st) 0 with
                | None => None
                | Some (set1, proofs1, tin) =>
                    let '(set2, tout) := exec_outs (ux_id tx) 0 (ux_vouts tx) set1 0 in
                    match free_balance acct (ux_symbol tx) with
                    | None => None
                    | Some b =>
                        if add64 b tin <? tout then None
                        else
                          let moved :=
                            if tin <? tout
                            then l_operate L1 k (ux_symbol tx) SubFree (tout - tin) None
                            else if tout <? tin
                            then l_operate L1 k (ux_symbol tx) AddFree (tin - tout) None
                            else (true, L1) in
                          match moved with
                          | (false, _) => None
                          | (true, L2) =>
                              Some (mkU L2 reg set2 proofs1 (u_index st)
                                      (u_block st ++ [(ux_id tx, tx)]))
                          end
                    end
                end
            end
        end
    end.

  (** [CCoinUtxoPasswordProofTx], lines 475-504: sender, output, proof. The fee is part of
      [AElse] below. *)
  Definition exec_proof (st : ustate) (u : uid) (txid index proof : N) : option ustate :=
    if (txid =? 0) || (proof =? 0) then None
    else
      match account_of st u with
      | None => None
      | Some a =>
          Some (mkU (u_ledger st) (u_reg st) (u_set st)
                  (fput pkey_eqb (u_proofs st) (txid, index, a_regid a) proof)
                  (u_index st) (u_block st))
      end.

  (** What can happen: a transfer, a password proof, the end of a block, or anything else,
      which may change accounts and registrations but no UTXO state. *)
  Inductive uaction :=
  | ATransfer (e : uenv) (tx : utx)
  | AProof (u : uid) (txid index proof : N)
  | AEndBlock
  | AElse (ledger' : list (N * account)) (reg' : list (regid * N)).

  Definition ustep (st : ustate) (a : uaction) : option ustate :=
    match a with
    | ATransfer e tx =>
        match check_transfer e st tx with
        | Pass => exec_transfer e st tx
        | _ => None
        end
    | AProof u txid index proof => exec_proof st u txid index proof
    | AEndBlock =>
        Some (mkU (u_ledger st) (u_reg st) (u_set st) (u_proofs st)
                (u_index st ++ u_block st) [])
    | AElse L reg =>
        Some (mkU L reg (u_set st) (u_proofs st) (u_index st) (u_block st))
    end.
End Utxo.
