(** The pool of transactions (tx/txmempool.cpp), what changes of the chain do to it (main.cpp), the
    loop that fills a producer's block (miner/miner.cpp) and the one that executes a block (main.cpp).

    The state of a chain maps keys to values; the value 0 stands for a key that is not there. What a
    transaction checks and does is left open: a check, what an execution writes or that it fails, the
    fuel it uses, and the keys read by both are functions of the context, the transaction and the
    state. Disconnecting a block brings back the state from before it (C04). The memory of recent ids
    holds those of the last [H] blocks (C27).

    Not modelled: failing reads of blocks from the disk (system errors end a round early), the limit
    on the time an execution may take, the prices that a producer writes into a median, what else happens to a block around its transactions
    ([joins]), threads: each event holds [cs_main] (main.cpp:238, 1507; chainmessage.cpp:486;
    miner.cpp:308, 441). *)
From Coq Require Import List Bool NArith ZArith Lia.
From Verif Require Import Prelude.
Import ListNotations.
Open Scope N_scope.

(** A state, and a layer of a cache on it: a map of the entries it holds (dbaccess.h:506-550). *)
Notation pstate := (N -> N) (only parsing).
Notation layer := (list (N * N)) (only parsing).
Definition held (l : layer) (k : N) : option N :=
  match find (fun e => fst e =? k) l with Some e => Some (snd e) | None => None end.
(** What is read through a layer, dbaccess.h:507-527. *)
Definition upd (s : pstate) (l : layer) : pstate :=
  fun k => match held l k with Some v => v | None => s k end.
(** A key that is read and is found below is copied into the layer, dbaccess.h:513-517. *)
Definition warm1 (s : pstate) (l : layer) (k : N) : layer :=
  match held l k with
  | Some _ => l
  | None => if s k =? 0 then l else (k, s k) :: l
  end.
Definition warm (s : pstate) (ks : list N) (l : layer) : layer := fold_left (warm1 s) ks l.

(** A transaction: its id, its declared height, its type: one that is valid at every height
    (tx.cpp:79-80), one that may not be sent on (tx.h:202); its size. *)
Record ptx := mkP { p_id : N; p_valid : Z; p_always : bool; p_forbid : bool; p_size : N }.
(** [CTxExecuteContext], tx.h:94-113, but for the cache and the place for the verdict. *)
Record pctx := mkX { x_height : N; x_index : N; x_rate : N; x_time : N; x_prev : N; x_bp : N }.
(** A block without its reward. *)
Record pblock := mkPB { b_id : N; b_time : N; b_bp : N; b_rate : N; b_txs : list ptx }.

(** A node: the first block, the blocks after it, the last first, each with the state from before it;
    the state; [memPoolTxs] in the order of ids; the layer [cw] of the pool. *)
Record pnode := mkNode {
  n_first : pblock; n_chain : list (pblock * (N -> N)); n_base : N -> N;
  n_pool : list ptx; n_layer : list (N * N) }.

Definition n_height (n : pnode) : N := N.of_nat (length (n_chain n)).
Definition n_blocks (n : pnode) : list pblock := map fst (n_chain n) ++ [n_first n].
Definition n_tip (n : pnode) : pblock := hd (n_first n) (n_blocks n).
(** The time of the block before the tip, or of the tip if it is the first, main.cpp:265 and txmempool.cpp:119. *)
Definition n_prev_time (n : pnode) : N :=
  match n_blocks n with _ :: b :: _ => b_time b | b :: _ => b_time b | [] => 0 end.

Section Pool.
(** [TxCacheHeight], chainparams.cpp:423. *)
Variable H : N.
(** [GetElementForBurn] of the blocks up to the tip, miner.cpp:54-87 (see FuelModel). *)
Variable burn : list pblock -> N.
(** [CheckBaseTx] and [CheckTx]; the writes of [ExecuteFullTx], if it succeeds; [fuel] after it; the
    keys read by the one and by the other. *)
Variable check : pctx -> ptx -> (N -> N) -> bool.
Variable exec : pctx -> ptx -> (N -> N) -> option (list (N * N)).
Variable fuel_of : pctx -> ptx -> (N -> N) -> N.
Variable check_reads exec_reads : pctx -> ptx -> (N -> N) -> list N.
(** [IsStandardTx], main.cpp:193-215, or that the node is not on the main net. *)
Variable standard : ptx -> bool.
(** [ConnectBlock], main.cpp:988-1271: the writes of a block that is accepted on a chain and state. *)
Variable joins : list pblock -> (N -> N) -> pblock -> option (list (N * N)).

(** [IsValidHeight], tx.cpp:78-84. *)
Definition p_valid_at (cur : N) (t : ptx) : bool :=
  p_always t || ((p_valid t <=? Z.of_N cur + Z.of_N (H / 2))%Z && (Z.of_N cur - Z.of_N (H / 2) <=? p_valid t)%Z).
(** [HasTx], txdb.cpp:35-45: the ids of the last [H] blocks. *)
Definition n_known (n : pnode) (t : N) : bool :=
  existsb (fun b => existsb (fun u => p_id u =? t) (b_txs b)) (map fst (firstn (N.to_nat H) (n_chain n))).
(** The context of the pool: the height of the next block, all else that of the tip,
    main.cpp:262-270 and txmempool.cpp:97-120. *)
Definition pool_ctx (n : pnode) (i : N) : pctx :=
  mkX (n_height n + 1) i (burn (n_blocks n)) (b_time (n_tip n)) (n_prev_time n) (b_bp (n_tip n)).

(** [CheckTxInMemPool], txmempool.cpp:91-133: whether the transaction stays, and the layer after it. *)
Definition check_in_pool (n : pnode) (l : layer) (t : ptx) (i : N) : bool * layer :=
  if negb (p_valid_at (n_height n + 1) t) then (false, l)
  else if n_known n (p_id t) then (false, l)
  else
    let s := upd (n_base n) l in
    let l1 := warm (n_base n) (exec_reads (pool_ctx n i) t s) l in
    match exec (pool_ctx n i) t s with
    | None => (false, l1)
    | Some w => (true, w ++ l1)
    end.

(** Insertion into the map of ids. *)
Fixpoint put (t : ptx) (l : list ptx) : list ptx :=
  match l with
  | [] => [t]
  | u :: r => if p_id t <? p_id u then t :: l else u :: put t r
  end.
Definition exists_in (id : N) (l : list ptx) : bool := existsb (fun u => p_id u =? id) l.
Definition remove_id (id : N) (l : list ptx) : list ptx := filter (fun u => negb (p_id u =? id)) l.
Definition set_pool (n : pnode) (p : list ptx) (l : layer) : pnode :=
  mkNode (n_first n) (n_chain n) (n_base n) p l.

(** [AcceptToMemoryPool] and [AddUnchecked], main.cpp:236-304 and txmempool.cpp:67-79. [spare]: the
    limits on free transactions and on fees let it pass. The answer: whether it was accepted. *)
Definition accept (n : pnode) (t : ptx) (spare : bool) : bool * pnode :=
  if exists_in (p_id t) (n_pool n) then (false, n)
  else if p_forbid t then (false, n)
  else if negb (standard t) then (false, n)
  else
    let s := upd (n_base n) (n_layer n) in
    let l1 := warm (n_base n) (check_reads (pool_ctx n 0) t s) (n_layer n) in
    if negb (check (pool_ctx n 0) t s) then (false, set_pool n (n_pool n) l1)
    else if negb spare then (false, set_pool n (n_pool n) l1)
    else
      match check_in_pool n l1 t (N.of_nat (length (n_pool n))) with
      | (false, l2) => (false, set_pool n (n_pool n) l2)
      | (true, l2) => (true, set_pool n (put t (n_pool n)) l2)
      end.

(** [ReScanMemPoolTx], txmempool.cpp:139-155: an empty layer, all transactions in the order of ids;
    the index counts those that are thrown out. *)
Fixpoint rescan_from (n : pnode) (l : layer) (i : N) (p : list ptx) : list ptx * layer :=
  match p with
  | [] => ([], l)
  | t :: p =>
      match check_in_pool n l t i with
      | (false, l1) => rescan_from n l1 (i + 1) p
      | (true, l1) => let r := rescan_from n l1 (i + 1) p in (t :: fst r, snd r)
      end
  end.
Definition rescan (n : pnode) : pnode :=
  let r := rescan_from n [] 0 (n_pool n) in set_pool n (fst r) (snd r).

(** [ConnectTip], main.cpp:1392-1431: the transactions of the block leave the pool, the layer stays. *)
Definition connect_tip (n : pnode) (b : pblock) : option pnode :=
  match joins (n_blocks n) (n_base n) b with
  | None => None
  | Some w =>
      Some (mkNode (n_first n) ((b, n_base n) :: n_chain n) (upd (n_base n) w)
              (filter (fun u => negb (exists_in (p_id u) (b_txs b))) (n_pool n)) (n_layer n))
  end.

(** [DisconnectTip], main.cpp:1344-1389: each transaction of the block is offered to the pool, and
    removed from it if refused. The first block is not disconnected. *)
Fixpoint offer (n : pnode) (l : list ptx) : pnode :=
  match l with
  | [] => n
  | t :: l =>
      if p_forbid t then offer n l
      else match accept n t true with
           | (true, n1) => offer n1 l
           | (false, n1) => offer (set_pool n1 (remove_id (p_id t) (n_pool n1)) (n_layer n1)) l
           end
  end.
Definition disconnect_tip (n : pnode) : pnode :=
  match n_chain n with
  | [] => n
  | (b, s) :: c => offer (mkNode (n_first n) c s (n_pool n) (n_layer n)) (b_txs b)
  end.
Fixpoint disconnect (k : nat) (n : pnode) : pnode :=
  match k with O => n | S k => disconnect k (disconnect_tip n) end.

(** A round of [ActivateBestChain], main.cpp:1547-1576: [k] blocks are disconnected and the pool
    rescanned if there were any; the blocks of the best chain are connected until one is refused; the
    pool is rescanned after the last of them. *)
Fixpoint connect_on (n : pnode) (bs : list pblock) : pnode :=
  match bs with
  | [] => n
  | b :: r =>
      match connect_tip n b with
      | None => n
      | Some n1 => match r with [] => rescan n1 | _ => connect_on n1 r end
      end
  end.
Definition go_back (k : nat) (n : pnode) : pnode :=
  match k with O => n | S _ => rescan (disconnect k n) end.
Definition round (n : pnode) (k : nat) (bs : list pblock) : pnode := connect_on (go_back k n) bs.

(** [ConnectBlockOnFinChain], main.cpp:1487-1502, for a block on the tip: the pool is rescanned in
    any case. *)
Definition fin_connect (n : pnode) (b : pblock) : pnode :=
  rescan (match connect_tip n b with Some n1 => n1 | None => n end).

(** Events: a transaction arrives, one is dropped by request (rpctx.cpp:1046-1047), keys are read
    through the layer (rpctx.cpp:1216, wallet.cpp:263), the chain changes. *)
Inductive pevent :=
  | Submit (t : ptx) (spare : bool) | Drop (id : N) | Look (ks : list N)
  | Round (k : nat) (bs : list pblock) | Fin (b : pblock).
Definition pstep (n : pnode) (e : pevent) : pnode :=
  match e with
  | Submit t spare => snd (accept n t spare)
  | Drop id => rescan (set_pool n (remove_id id (n_pool n)) (n_layer n))
  | Look ks => set_pool n (n_pool n) (warm (n_base n) ks (n_layer n))
  | Round k bs => round n k bs
  | Fin b => fin_connect n b
  end.
Fixpoint prun (n : pnode) (es : list pevent) : pnode :=
  match es with [] => n | e :: es => prun (pstep n e) es end.
(** At the start the pool is empty (init.cpp:727). *)
Definition pstart (g : pblock) (s : N -> N) : pnode := mkNode g [] s [] [].

(** ** A producer's block *)

(** [MAX_BLOCK_FUEL], the limit on sizes. *)
Variable max_fuel cap : N.
(** [CheckAndExecuteTx], tx.h:192-194, on a layer of its own that is flushed if it succeeds. *)
Definition try_tx (s : pstate) (x : pctx) (t : ptx) (l : layer) : option (list (N * N)) * layer :=
  let v := upd s l in
  let l1 := warm s (check_reads x t v) l in
  if negb (check x t v) then (None, l1)
  else (exec x t v, warm s (exec_reads x t v) l1).

(** [CreateNewBlockForStableCoinRelease], miner.cpp:477-555, its loop: candidates in the order of
    priority, each with whether there is time left for it; [i], [size] and [fuel] so far; the
    transactions taken and the layer. *)
Fixpoint pack (mk : N -> pctx) (s : pstate) (l : layer) (i size fuel : N) (cs : list (ptx * bool)) : list ptx * layer :=
  match cs with
  | [] => ([], l)
  | (t, time_left) :: cs =>
      if negb time_left then ([], l)
      else if cap <=? add64 size (p_size t) then pack mk s l i size fuel cs
      else
        match try_tx s (mk (i + 1)) t l with
        | (None, l1) => pack mk s l1 i size fuel cs
        | (Some w, l1) =>
            let f := fuel_of (mk (i + 1)) t (upd s l) in
            if max_fuel <=? add64 fuel f then pack mk s l1 i size fuel cs
            else let r := pack mk s (w ++ l1) (i + 1) (add64 size (p_size t)) (add64 fuel f) cs in (t :: fst r, snd r)
        end
  end.
(** [GetPriorityTx], miner.cpp:98-109: the candidates from the pool, but for their order. *)
Definition pick (n : pnode) : list ptx := filter (fun t => negb (n_known n (p_id t))) (n_pool n).

(** [ConnectBlock], main.cpp:1061-1088, its loop over the transactions of a block. *)
Fixpoint run_block (n : pnode) (mk : N -> pctx) (l : layer) (i fuel : N) (ts : list ptx) : option (list (N * N)) :=
  match ts with
  | [] => Some l
  | t :: ts =>
      if n_known n (p_id t) then None
      else if negb (p_valid_at (n_height n) t) then None
      else
        match try_tx (n_base n) (mk i) t l with
        | (None, _) => None
        | (Some w, l1) =>
            let f := add64 fuel (fuel_of (mk i) t (upd (n_base n) l)) in
            if max_fuel <? f then None else run_block n mk (w ++ l1) (i + 1) f ts
        end
  end.
End Pool.
