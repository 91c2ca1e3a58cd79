(** Model of accounts and balance operations.

    Source: /repo/src/entities/account.h, /repo/src/entities/account.cpp. *)
From Coq Require Import String List Bool NArith.
From Verif Require Import Prelude.
Import ListNotations.
Open Scope N_scope.

(** [CAccountToken], account.h:70-93. The five amounts are [uint64_t]. *)
Record token := mkToken {
  free : N; frozen : N; staked : N; voted : N; pledged : N }.

(** The default constructor, account.h:79. *)
Definition token0 : token := mkToken 0 0 0 0 0.

(** [CRegID], id.h:45-: height (uint32) and index (uint16); (0,0) is the empty one
    (id.h:84). *)
Notation regid := (N * N)%type (only parsing).
Definition regid_empty (r : regid) : bool := (fst r =? 0) && (snd r =? 0).
Definition regid_eqb (a b : regid) : bool := pair_eqb N.eqb N.eqb a b.

(** [CAccount], account.h:101-118. The key id is a number (160 bits), public keys are
    numbers ([None] = not valid); [miner_pubkey] and [sigHash] are left out: nothing
    modelled reads them. *)
Record account := mkAccount {
  a_keyid : N;
  a_regid : regid;
  a_pubkey : option N;
  a_tokens : list (string * token);
  a_received_votes : N;
  a_last_vote_height : N;
  a_last_vote_epoch : N;
  a_perms : N }.

(** [kAccountAllPerms], account.h:58: all 64 bits, of which ten have a meaning (account.h:31-43);
    default of [perms_sum] (account.h:117-118). *)
Definition all_perms : N := two64 - 1.

(** [CAccount(const CKeyID&)], account.h:141. *)
Definition new_account (k : N) : account :=
  mkAccount k (0, 0) None [] 0 0 0 all_perms.

(** [CAccount::GetToken], account.cpp:281-287. *)
Definition get_token (a : account) (s : string) : token :=
  match fget String.eqb (a_tokens a) s with Some t => t | None => token0 end.

(** [CAccount::SetToken], account.cpp:289-292. *)
Definition set_token (a : account) (s : string) (t : token) : account :=
  mkAccount (a_keyid a) (a_regid a) (a_pubkey a) (fput String.eqb (a_tokens a) s t)
    (a_received_votes a) (a_last_vote_height a) (a_last_vote_epoch a) (a_perms a).

(** [BalanceOpType], commons/types.h:63-76 (NULL_OP is [OpNull]; any value outside the enum takes
    the same [default] branch, account.cpp:173). *)
Inductive balance_op :=
| OpNull | AddFree | SubFree | Stake | Unstake | Freeze | Unfreeze | Vote | Unvote
| Pledge | Unpledge | DexDeal.

(** [pOtherAccount] of [OperateBalance]: absent, the same object, or another object. *)
Inductive peer := NoPeer | SelfPeer | Peer (a : account).

(** A receipt without its textual code: from, to (None = CNullID), token, amount;
    account.cpp:176. *)
Record receipt := mkReceipt {
  r_from : option N; r_to : option N; r_symbol : string; r_amount : N }.

(** Result of [OperateBalance]: the returned flag, this account and the peer afterwards
    (also when the call fails: the code mutates before some of its checks), the receipt
    appended on success. *)
Record op_result := mkRes {
  ok : bool; self' : account; peer' : peer; rcpt : option receipt }.

(** Move inside one account: the cases STAKE .. UNPLEDGE of the switch,
    account.cpp:84-155. [take] and [give] are the debited and the credited amount. *)
Definition internal_move (a : account) (s : string) (v : N)
    (take : token -> N) (move : token -> N -> token) : op_result :=
  let t := get_token a s in
  let a0 := set_token a s t in               (* account.cpp:36: [tokens[symbol]] creates it *)
  if take t <? v then mkRes false a0 NoPeer None
  else mkRes true (set_token a0 s (move t v)) NoPeer
         (Some (mkReceipt (Some (a_keyid a)) None s v)).

Definition stake_move (t : token) (v : N) : token :=
  mkToken (free t - v) (frozen t) (add64 (staked t) v) (voted t) (pledged t).
Definition unstake_move (t : token) (v : N) : token :=
  mkToken (add64 (free t) v) (frozen t) (staked t - v) (voted t) (pledged t).
Definition freeze_move (t : token) (v : N) : token :=
  mkToken (free t - v) (add64 (frozen t) v) (staked t) (voted t) (pledged t).
Definition unfreeze_move (t : token) (v : N) : token :=
  mkToken (add64 (free t) v) (frozen t - v) (staked t) (voted t) (pledged t).
Definition vote_move (t : token) (v : N) : token :=
  mkToken (free t - v) (frozen t) (staked t) (add64 (voted t) v) (pledged t).
Definition unvote_move (t : token) (v : N) : token :=
  mkToken (add64 (free t) v) (frozen t) (staked t) (voted t - v) (pledged t).
Definition pledge_move (t : token) (v : N) : token :=
  mkToken (free t - v) (frozen t) (staked t) (voted t) (add64 (pledged t) v).
Definition unpledge_move (t : token) (v : N) : token :=
  mkToken (add64 (free t) v) (frozen t) (staked t) (voted t) (pledged t - v).

(** [free_amount += v] and [free_amount -= v] (the latter only after its check). *)
Definition add_free (t : token) (v : N) : token :=
  mkToken (add64 (free t) v) (frozen t) (staked t) (voted t) (pledged t).
Definition sub_free (t : token) (v : N) : token :=
  mkToken (free t - v) (frozen t) (staked t) (voted t) (pledged t).
Definition sub_frozen (t : token) (v : N) : token :=
  mkToken (free t) (frozen t - v) (staked t) (voted t) (pledged t).

(** The peer of the internal cases is ignored by the code (no case reads it). *)
Definition with_peer (p : peer) (r : op_result) : op_result :=
  mkRes (ok r) (self' r) p (rcpt r).

(** [CAccount::OperateBalance], account.cpp:33-179. *)
Definition operate_balance (a : account) (s : string) (o : balance_op) (v : N) (p : peer)
  : op_result :=
  let t := get_token a s in
  let a0 := set_token a s t in                                       (* line 36 *)
  let same_key := match p with Peer b => a_keyid a =? a_keyid b | _ => false end in
  if same_key then mkRes false a0 p None                             (* lines 42-45 *)
  else
  match o with
  | AddFree =>                                                       (* lines 48-66 *)
      let a1 := set_token a0 s (add_free t v) in
      match p with
      | NoPeer => mkRes true a1 NoPeer (Some (mkReceipt None (Some (a_keyid a)) s v))
      | SelfPeer =>
          let pt := get_token a1 s in
          if free pt <? v then mkRes false a1 SelfPeer None
          else mkRes true (set_token a1 s (sub_free pt v)) SelfPeer
                 (Some (mkReceipt (Some (a_keyid a)) (Some (a_keyid a)) s v))
      | Peer b =>
          let pt := get_token b s in
          if free pt <? v then mkRes false a1 p None
          else mkRes true a1 (Peer (set_token b s (sub_free pt v)))
                 (Some (mkReceipt (Some (a_keyid a)) (Some (a_keyid b)) s v))
      end
  | SubFree =>                                                       (* lines 67-83 *)
      if free t <? v then mkRes false a0 p None
      else
        let a1 := set_token a0 s (sub_free t v) in
        match p with
        | NoPeer => mkRes true a1 NoPeer (Some (mkReceipt (Some (a_keyid a)) None s v))
        | SelfPeer =>
            mkRes true (set_token a1 s (add_free (get_token a1 s) v)) SelfPeer
              (Some (mkReceipt (Some (a_keyid a)) (Some (a_keyid a)) s v))
        | Peer b =>
            mkRes true a1 (Peer (set_token b s (add_free (get_token b s) v)))
              (Some (mkReceipt (Some (a_keyid a)) (Some (a_keyid b)) s v))
        end
  | Stake => with_peer p (internal_move a s v free stake_move)       (* lines 84-92 *)
  | Unstake => with_peer p (internal_move a s v staked unstake_move) (* lines 93-101 *)
  | Freeze => with_peer p (internal_move a s v free freeze_move)     (* lines 102-110 *)
  | Unfreeze => with_peer p (internal_move a s v frozen unfreeze_move) (* lines 111-119 *)
  | Vote => with_peer p (internal_move a s v free vote_move)         (* lines 120-128 *)
  | Unvote => with_peer p (internal_move a s v voted unvote_move)    (* lines 129-137 *)
  | Pledge => with_peer p (internal_move a s v free pledge_move)     (* lines 138-146 *)
  | Unpledge => with_peer p (internal_move a s v pledged unpledge_move) (* lines 147-155 *)
  | DexDeal =>                                                       (* lines 156-172 *)
      match p with
      | NoPeer => mkRes false a0 NoPeer None
      | SelfPeer =>
          if frozen t <? v then mkRes false a0 p None
          else
            let a1 := set_token a0 s (sub_frozen t v) in
            mkRes true (set_token a1 s (add_free (get_token a1 s) v)) SelfPeer
              (Some (mkReceipt (Some (a_keyid a)) (Some (a_keyid a)) s v))
      | Peer b =>
          if frozen t <? v then mkRes false a0 p None
          else
            mkRes true (set_token a0 s (sub_frozen t v))
              (Peer (set_token b s (add_free (get_token b s) v)))
              (Some (mkReceipt (Some (a_keyid a)) (Some (a_keyid b)) s v))
      end
  | OpNull => mkRes false a0 p None                                  (* line 173 *)
  end.

(** [CAccount::CheckPerms], account.h:150-155. *)
Definition check_perms (perms_sum req : N) : bool :=
  if perms_sum <? req then false else req =? N.land perms_sum req.

(** A ledger: the accounts by key id ([accountCache], accountdb.h). *)
Notation ledger := (list (N * account)) (only parsing).

Definition l_get (L : ledger) (k : N) : option account := fget N.eqb L k.
Definition l_put (L : ledger) (k : N) (a : account) : ledger := fput N.eqb L k a.

(** A balance operation on accounts of a ledger, used by the transaction models: the two
    account objects are looked up, [OperateBalance] is called, and both are written back.
    Aliasing ([who] = [other]) is the same-object case, since transactions hand out one
    object per key id (tx.cpp:290-311; see TxModel.v, which shows that the in-memory
    account map behaves like this). Returns the flag and the ledger afterwards. *)
Definition l_operate (L : ledger) (who : N) (s : string) (o : balance_op) (v : N)
    (other : option N) : bool * ledger :=
  match l_get L who with
  | None => (false, L)
  | Some a =>
      match other with
      | None =>
          let r := operate_balance a s o v NoPeer in (ok r, l_put L who (self' r))
      | Some k =>
          if k =? who then
            let r := operate_balance a s o v SelfPeer in (ok r, l_put L who (self' r))
          else
            match l_get L k with
            | None => (false, L)
            | Some b =>
                let r := operate_balance a s o v (Peer b) in
                let L1 := l_put L who (self' r) in
                (ok r, match peer' r with Peer b' => l_put L1 k b' | _ => L1 end)
            end
      end
  end.
