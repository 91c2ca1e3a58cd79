(** The memory of recent transaction ids (persistence/txdb.cpp), the checks of a block that use it
    (main.cpp), and the pool's check (tx/txmempool.cpp).

    Not modelled: what transactions do (a block whose transactions do not execute is rejected for
    that as well), the limits on sizes and fuel, the count of median transactions, reading blocks
    from the disk (it succeeds). Heights do not overflow [int32_t]. The id of a transaction
    determines it: its type and its valid height are functions of the id. *)
From Coq Require Import List Bool NArith ZArith Lia.
From Verif Require Import Prelude DexModel.
Import ListNotations.
Open Scope N_scope.

(** Reward, median and other transactions (tx.h, [IsBlockRewardTx] and [IsPriceMedianTx]). *)
Inductive rkind := KReward | KMedian | KOther.

(** One layer of [CTxMemCache]: [txids], txdb.h. *)
Notation tmap := (list (N * bool)) (only parsing).

(** [HasTx], txdb.cpp:35-45: the first layer with an entry decides. *)
Fixpoint has (s : list tmap) (t : N) : bool :=
  match s with
  | [] => false
  | m :: s => match fget N.eqb m t with Some x => x | None => has s t end
  end.

(** [AddBlockTx], txdb.cpp:17-22. A block is the list of the ids of its transactions. *)
Fixpoint add_txs (b : list N) (m : tmap) : tmap :=
  match b with [] => m | t :: b => add_txs b (fput N.eqb m t true) end.
(** [RemoveBlockTx], txdb.cpp:24-33; [based]: there is a layer below. *)
Fixpoint remove_txs (based : bool) (b : list N) (m : tmap) : tmap :=
  match b with
  | [] => m
  | t :: b => remove_txs based b (if based then fput N.eqb m t false else fdel N.eqb m t)
  end.
(** [BatchWrite] into a layer with nothing below it, txdb.cpp:47-56; [Flush], txdb.cpp:58-63. *)
Fixpoint write_txs (top m : tmap) : tmap :=
  match top with
  | [] => m
  | (t, x) :: top => write_txs top (if x then fput N.eqb m t true else fdel N.eqb m t)
  end.

(** A chain: its blocks, the last first. The height of the first is 0. *)
Notation rchain := (list (list N)) (only parsing).
Definition rheight (c : rchain) : N := N.of_nat (length c) - 1.
(** The block [k] below the tip. *)
Definition back_block (c : rchain) (k : N) : option (list N) := nth_error c (N.to_nat k).

Section Replay.
(** The type and the valid height of the transaction with an id; [TxCacheHeight], chainparams.cpp:423. *)
Variable kind : N -> rkind.
Variable vh : N -> Z.
Variable H : N.

(** [IsValidHeight], tx.cpp:78-84. *)
Definition valid_at (cur : N) (t : N) : bool :=
  match kind t with
  | KReward | KMedian => true
  | KOther =>
      let half := Z.of_N (H / 2) in
      ((vh t <=? Z.of_N cur + half)%Z && (Z.of_N cur - half <=? vh t)%Z)
  end.

Definition is_reward (t : N) : bool := match kind t with KReward => true | _ => false end.
Fixpoint distinct (l : list N) : bool :=
  match l with [] => true | t :: l => negb (existsb (N.eqb t) l) && distinct l end.
(** [CheckBlock], main.cpp:1835-1836, 1849-1853 and 1865-1866: the first transaction is a reward, no other is, and no id
    occurs twice. *)
Definition check_block (b : list N) : bool :=
  match b with
  | [] => false
  | t :: l => is_reward t && forallb (fun t => negb (is_reward t)) l && distinct b
  end.

(** The checks of each transaction but the first, main.cpp:1061-1070. [cur]: the height of the block
    before. *)
Definition tx_ok (cur : N) (s : list tmap) (t : N) : bool := negb (has s t) && valid_at cur t.
(** [ConnectBlock] on a stack of layers, main.cpp:1053-1070 and 1243-1262. *)
Definition r_connect (c : rchain) (b : list N) (top : tmap) (base : list tmap) : outcome (rchain * tmap) :=
  do _ <- guard (check_block b);
  do _ <- guard (forallb (tx_ok (rheight c) (top :: base)) (tl b));
  let c1 := b :: c in
  let m := add_txs b top in
  if H <? rheight c1 then
    do old <- need (back_block c1 H);
    Done (c1, remove_txs (match base with [] => false | _ => true end) old m)
  else Done (c1, m).

(** [DisconnectBlock], main.cpp:654-675. The first block is never disconnected. *)
Definition r_disconnect (c : rchain) (top : tmap) (base : list tmap) : outcome (rchain * tmap) :=
  match c with
  | [] | [_] => Undefined
  | b :: c0 =>
      let m := remove_txs (match base with [] => false | _ => true end) b top in
      if H <? rheight c then
        do old <- need (back_block c H);
        Done (c0, add_txs old m)
      else Done (c0, m)
  end.

(** [ConnectTip] and [DisconnectTip], main.cpp:1342-1420: a layer on the global cache, flushed into it. *)
Definition r_connect_tip (c : rchain) (b : list N) (m : tmap) : outcome (rchain * tmap) :=
  do r <- r_connect c b [] [m];
  Done (fst r, write_txs (snd r) m).
Definition r_disconnect_tip (c : rchain) (m : tmap) : outcome (rchain * tmap) :=
  do r <- r_disconnect c [] [m];
  Done (fst r, write_txs (snd r) m).

(** The load at a start, init.cpp:819-833: the last [H] blocks. *)
Fixpoint load (k : nat) (c : rchain) (m : tmap) : tmap :=
  match k, c with
  | S k, b :: c => load k c (add_txs b m)
  | _, _ => m
  end.
(** The reload on request, rpctx.cpp:840-854: from the block [H] below the tip, or the first, up. *)
Fixpoint add_blocks (l : list (list N)) (m : tmap) : tmap :=
  match l with [] => m | b :: l => add_blocks l (add_txs b m) end.
Definition reload_cache (c : rchain) : tmap := add_blocks (rev (firstn (S (N.to_nat H)) c)) [].

(** [ActivateBestChain] at a start comes before the load, init.cpp:816: the blocks that are stored,
    but were not connected in what was written to the disk, are connected with nothing in memory. *)
Fixpoint connect_all (c : rchain) (bs : list (list N)) (m : tmap) : outcome (rchain * tmap) :=
  match bs with
  | [] => Done (c, m)
  | b :: bs => do r <- r_connect_tip c b m; connect_all (fst r) bs (snd r)
  end.
Definition boot (c : rchain) (pending : list (list N)) : outcome (rchain * tmap) :=
  do r <- connect_all c pending [];
  Done (fst r, load (N.to_nat H) (fst r) (snd r)).

(** [ProcessForkedChain], main.cpp:1747-1805: on a copy of the global cache blocks are disconnected;
    blocks of the fork are connected on one layer on it, which is flushed into the copy. *)
Fixpoint r_back (k : nat) (c : rchain) (copy : tmap) : outcome (rchain * tmap) :=
  match k with
  | O => Done (c, copy)
  | S k => do r <- r_disconnect c copy []; r_back k (fst r) (snd r)
  end.
Fixpoint r_on (c : rchain) (bs : list (list N)) (top copy : tmap) : outcome (rchain * tmap) :=
  match bs with
  | [] => Done (c, top)
  | b :: bs => do r <- r_connect c b top [copy]; r_on (fst r) bs (snd r) copy
  end.
Definition r_fork (c : rchain) (bs : list (list N)) (copy : tmap) : outcome (rchain * tmap) :=
  do r <- r_on c bs [] copy;
  Done (fst r, write_txs (snd r) copy).

(** ** A node *)
Record rworld := mkRw { r_chain : list (list N); r_cache : list (N * bool);
  r_forks : list (list (list N) * list (N * bool)) }.
(** A block is connected, disconnected; the node restarts with all it knows on the disk; the memory is
    reloaded on request; a fork is opened [k] blocks back; blocks are connected on a fork. *)
Inductive revent := RConnect (b : list N) | RDisconnect | RRestart | RReload | ROpen (k : nat)
  | RExtend (i : nat) (bs : list (list N)).
Definition rstep (w : rworld) (e : revent) : outcome rworld :=
  match e with
  | RConnect b => do r <- r_connect_tip (r_chain w) b (r_cache w); Done (mkRw (fst r) (snd r) (r_forks w))
  | RDisconnect => do r <- r_disconnect_tip (r_chain w) (r_cache w); Done (mkRw (fst r) (snd r) (r_forks w))
  | RRestart => do r <- boot (r_chain w) []; Done (mkRw (fst r) (snd r) [])
  | RReload => Done (mkRw (r_chain w) (reload_cache (r_chain w)) (r_forks w))
  | ROpen k => do r <- r_back k (r_chain w) (r_cache w); Done (mkRw (r_chain w) (r_cache w) (r :: r_forks w))
  | RExtend i bs =>
      do f <- need (nth_error (r_forks w) i);
      do r <- r_fork (fst f) bs (snd f);
      Done (mkRw (r_chain w) (r_cache w) (r :: r_forks w))
  end.
(** A node that only has the first block; its transactions are not put into the memory (main.cpp:1009-1014). *)
Definition rstart (g : list N) : rworld := mkRw [g] [] [].

(** ** The pool and the producer *)

(** [CheckTxInMemPool] without the execution, txmempool.cpp:98-111: the height is that of the next
    block. *)
Definition pool_ok (w : rworld) (t : N) : bool :=
  valid_at (rheight (r_chain w) + 1) t && negb (has [r_cache w] t).
(** [ReScanMemPoolTx], txmempool.cpp:139-155, for transactions that execute. *)
Definition rescan (w : rworld) (pool : list N) : list N := filter (pool_ok w) pool.
(** [GetPriorityTx], miner.cpp:98-109: what a producer takes from the pool, in some order. *)
Definition candidates (w : rworld) (pool : list N) : list N :=
  filter (fun t => negb (is_reward t) && negb (has [r_cache w] t)) pool.
End Replay.
