(** Model of the intake of blocks: what a node does with a block that a peer sends or that it has
    made itself, up to and around the choice of the chain, and the store of blocks that arrive before
    their predecessors.

    Source: /repo/src/main.cpp (PruneOrphanBlocks, ConnectBlock's first part, AddToBlockIndex,
    CheckBlock, AcceptBlock, IsSuperMajority, ProcessBlock), /repo/src/p2p/chainmessage.cpp
    (ProcessBlockMessage), /repo/src/persistence/cachewrapper.cpp (GetBlockBpRegid).

    Simplifications: a block's hash and whether its Merkle root fits are fields of the block. The
    disk does not fail and has room. The fuel rate that has to follow a block, the verdict on a block
    that does not extend the tip, the blocks that are connected while the chain is chosen and the
    tip that comes out are parameters (they are the subject of FuelModel, BestWorld and SchedModel);
    of connecting a block only the assertions on the release of the stable coin are kept. The
    release heights come in their order, so that version 2 rules apply from the first of them on.
    Messages to peers, the height shown as that of the network, and relaying are left out. *)
From Coq Require Import List Bool NArith ZArith.
From Verif Require Import Prelude DexModel SchedModel.
Import ListNotations.
Open Scope N_scope.

(** Kinds of transaction that the intake tells apart. *)
Inductive kind := KReward | KMedian | KMint | KOther.
Definition is_reward k := match k with KReward => true | _ => false end.
Definition is_median k := match k with KMedian => true | _ => false end.
Definition is_mint k := match k with KMint => true | _ => false end.

(** A transaction: its id, its kind, and whether its sender is given as a registration id. *)
Record itx := mkItx { x_id : N; x_kind : kind; x_regid : bool }.

(** A block. The null hash is 0. [k_root]: the Merkle root in the header is that of the
    transactions. *)
Record blk := mkBlk {
  k_hash : N; k_prev : N; k_height : N; k_time : Z; k_version : Z; k_rate : N; k_nonce : N;
  k_size : N; k_root : bool; k_txs : list itx }.

(** The constants of a network. [p_mint_height]: height of the block that creates the first stable
    coins; [p_mints]: ids of its transactions after the first. *)
Record params := mkParams {
  p_rules : rules; p_genesis : N; p_mint_height : N; p_mints : list N; p_main : bool;
  p_test : bool }.

(** const.h:151, 161, configuration.h:226, chainparams.h:112. *)
Definition max_size : N := 4000000.
Definition max_orphans : N := 750.
Definition current_version : Z := 1.
Definition max_nonce : N := 1000.

(** Conversion of uint32_t to int32_t. *)
Definition signed32 (h : N) : Z :=
  if h <? 2147483648 then Z.of_N h else (Z.of_N h - 4294967296)%Z.

(** Whether all elements differ; the set of ids in [CheckBlock], main.cpp:1845-1848, 1865. *)
Fixpoint distinct (l : list N) : bool :=
  match l with [] => true | x :: l => negb (existsb (N.eqb x) l) && distinct l end.

(** Whether the block is the first block of the network. *)
Definition genuine (p : params) (b : blk) : bool :=
  (k_height b =? 0) && (k_hash b =? p_genesis p).

(** [CheckBlock], main.cpp:1819-1880. *)
Definition check_block (p : params) (clock : Z) (b : blk) : bool :=
  let n := N.of_nat (length (k_txs b)) in
  let h := signed32 (k_height b) in
  negb (n =? 0) && (n <=? max_size) && (k_size b <=? max_size)
  && (genuine p b || (k_version b =? current_version)%Z)
  && (k_time b <=? clock + interval (p_rules p) h + 2)%Z
  && match k_txs b with t :: _ => is_reward (x_kind t) | [] => false end
  && (genuine p b || negb (existsb (fun t => is_reward (x_kind t)) (tl (k_txs b))))
  && ((h <? r_ver2 (p_rules p))%Z
      || (N.of_nat (length (filter (fun t => is_median (x_kind t)) (k_txs b))) =? 1))
  && distinct (map x_id (k_txs b))
  && k_root b
  && (k_nonce b <=? max_nonce).

(** What the node knows: the blocks of its index, the tip of the active chain, and whether it has
    been told to shut down ([StartShutdown], reached by [AbortNode], main.cpp:2207-2213). *)
Record chain := mkChain { c_index : list blk; c_tip : N; c_stopping : bool }.

Definition known (c : chain) (h : N) : bool := existsb (fun b => k_hash b =? h) (c_index c).
Definition lookup (c : chain) (h : N) : option blk := find (fun b => k_hash b =? h) (c_index c).

(** [IsSuperMajority], main.cpp:1990-1999, going back [n] blocks from the one with hash [h]. *)
Fixpoint newer (c : chain) (n : nat) (h : N) : N :=
  match n with
  | O => 0
  | S n => match lookup c h with
           | None => 0
           | Some b => (if (2 <=? k_version b)%Z then 1 else 0) + newer c n (k_prev b)
           end
  end.
Definition upgraded (p : params) (c : chain) (h : N) : bool :=
  if p_test p then 75 <=? newer c 100 h else 950 <=? newer c 1000 h.

(** The block at the release of the stable coin, [ConnectBlock], main.cpp:1019-1034: four
    transactions of which the last three create coins, with the given ids on the main net. *)
Definition release_shape (p : params) (b : blk) : bool :=
  (N.of_nat (length (k_txs b)) =? 4) && (N.of_nat (length (p_mints p)) =? 3)
  && forallb (fun tm => is_mint (x_kind (fst tm)) && (negb (p_main p) || (x_id (fst tm) =? snd tm)))
             (combine (tl (k_txs b)) (p_mints p)).

(** The assertions made first when a block is connected, main.cpp:1019-1034. *)
Definition connect_first (p : params) (b : blk) : outcome unit :=
  if (k_height b =? p_mint_height p) && negb (release_shape p b) then Abort else Done tt.

Section Intake.
  Variable p : params.
  (** [GetElementForBurn] of the block with the given hash. *)
  Variable rate : list blk -> N -> N.
  (** [ProcessForkedChain], main.cpp:1702-1817: the blocks it connects and its verdict. *)
  Variable forked : chain -> blk -> list N * bool.
  (** [ActivateBestChain], main.cpp:1506-1588: the blocks it tries to connect, the tip it comes to
      and what it returns. *)
  Variable best : chain -> list N * N * bool.

  (** Connecting blocks of the index. *)
  Fixpoint connect_all (c : chain) (l : list N) : outcome unit :=
    match l with
    | [] => Done tt
    | h :: l =>
        do _ <- match lookup c h with Some b => connect_first p b | None => Done tt end;
        connect_all c l
    end.

  (** [GetBlockBpRegid], cachewrapper.cpp:323-335; [false] stands for the exception. *)
  Definition bp_given (b : blk) : bool :=
    (k_height b =? 0) || match k_txs b with t :: _ => x_regid t | [] => false end.

  (** [AddToBlockIndex], main.cpp:1590-1647. The exception of [GetBlockBpRegid] is caught in
      [AcceptBlock], main.cpp:1954-1957, which tells the node to shut down; the block stays in the
      index. *)
  Definition add_to_index (c : chain) (b : blk) : outcome (chain * bool) :=
    if known c (k_hash b) then Done (c, false)
    else
      let c := mkChain (c_index c ++ [b]) (c_tip c) (c_stopping c) in
      if negb (bp_given b) then Done (mkChain (c_index c) (c_tip c) true, false)
      else
        let '(tried, tip, ok) := best c in
        do _ <- connect_all c tried;
        Done (mkChain (c_index c) (if known c tip then tip else c_tip c) (c_stopping c), ok).

  (** [AcceptBlock], main.cpp:1882-1988. *)
  Definition accept (c : chain) (b : blk) : outcome (chain * bool) :=
    if known c (k_hash b) then Done (c, false)
    else if negb ((k_height b =? 0) || known c (k_prev b)) then Abort
    else if negb (k_height b =? 0) && negb (k_rate b =? rate (c_index c) (k_prev b))
    then Done (c, false)
    else if genuine p b then add_to_index c b
    else
      match lookup c (k_prev b) with
      | None => Done (c, false)
      | Some a =>
          if negb (k_height b =? k_height a + 1) then Done (c, false)
          else if (k_time b <=? k_time a)%Z
                  || (k_time b - k_time a <? interval (p_rules p) (signed32 (k_height b)))%Z
          then Done (c, false)
          else
            do ok <- (if k_hash a =? c_tip c then Done true
                      else let '(tried, ok) := forked c b in
                           do _ <- connect_all c tried; Done ok);
            if negb ok then Done (c, false)
            else if (k_version b <? 2)%Z && upgraded p c (k_hash a) then Done (c, false)
            else add_to_index c b
      end.

  (** A block kept until its predecessor arrives, chainmessage.h:46-51. *)
  Record orphan := mkOrphan { o_hash : N; o_prev : N; o_height : Z; o_block : blk }.

  (** The store: memory of the blocks kept ([q_heap], by address), [mapOrphanBlocks],
      [mapOrphanBlocksByPrev] and [setOrphanBlock], main.cpp:69-70, 97. *)
  Record pool := mkPool {
    q_next : N; q_heap : list (N * orphan); q_by_hash : list (N * N); q_by_prev : list (N * N);
    q_set : list N }.

  Definition empty_pool : pool := mkPool 0 [] [] [] [].

  (** Following a pointer; that of a block given back to memory is undefined. *)
  Definition deref (q : pool) (a : N) : outcome orphan :=
    match find (fun e => fst e =? a) (q_heap q) with Some e => Done (snd e) | None => Undefined end.
  Definition release (q : pool) (a : N) : pool :=
    mkPool (q_next q) (filter (fun e => negb (fst e =? a)) (q_heap q)) (q_by_hash q) (q_by_prev q)
           (q_set q).

  (** The set of pointers ordered by height alone ([COrphanBlockComparator], main.cpp:86-97). All
      of its elements are followed; a search follows some of them. *)
  Fixpoint set_insert (q : pool) (a : N) (l : list N) : outcome (list N) :=
    match l with
    | [] => Done [a]
    | x :: l =>
        do o <- deref q a;
        do y <- deref q x;
        if (o_height o =? o_height y)%Z then Done (x :: l)
        else if (o_height o <? o_height y)%Z then Done (a :: x :: l)
        else do l <- set_insert q a l; Done (x :: l)
    end.
  Fixpoint set_erase (q : pool) (a : N) (l : list N) : outcome (list N) :=
    match l with
    | [] => Done []
    | x :: l =>
        do o <- deref q a;
        do y <- deref q x;
        do l <- set_erase q a l;
        Done (if (o_height o =? o_height y)%Z then l else x :: l)
    end.
  Fixpoint set_last (l : list N) : option N :=
    match l with [] => None | [x] => Some x | _ :: l => set_last l end.

  (** Removal from [mapOrphanBlocksByPrev] of the entry under [prev] that leads to a block with the
      given hash, main.cpp:385-393. *)
  Fixpoint erase_prev (q : pool) (prev hash : N) (l : list (N * N)) : outcome (list (N * N)) :=
    match l with
    | [] => Done []
    | (k, a) :: l =>
        if k =? prev
        then do o <- deref q a;
             if o_hash o =? hash then Done l
             else do l <- erase_prev q prev hash l; Done ((k, a) :: l)
        else do l <- erase_prev q prev hash l; Done ((k, a) :: l)
    end.
  Definition without (h : N) (l : list (N * N)) : list (N * N) :=
    filter (fun e => negb (fst e =? h)) l.

  (** [PruneOrphanBlocks], main.cpp:373-397. The last element of an empty set is undefined. *)
  Definition prune (q : pool) (height : Z) : outcome (pool * bool) :=
    if N.of_nat (length (q_by_prev q)) <=? max_orphans then Done (q, true)
    else
      match set_last (q_set q) with
      | None => Undefined
      | Some a =>
          do o <- deref q a;
          if (o_height o <=? height)%Z then Done (q, false)
          else
            do s <- set_erase q a (q_set q);
            do l <- erase_prev q (o_prev o) (o_hash o) (q_by_prev q);
            Done (release (mkPool (q_next q) (q_heap q) (without (o_hash o) (q_by_hash q)) l s) a,
                  true)
      end.

  (** Keeping a block, main.cpp:2141-2151. *)
  Definition keep (q : pool) (b : blk) : outcome pool :=
    let a := q_next q in
    let o := mkOrphan (k_hash b) (k_prev b) (signed32 (k_height b)) b in
    let q := mkPool (a + 1) ((a, o) :: q_heap q) (q_by_hash q) (q_by_prev q) (q_set q) in
    let by_hash := if existsb (fun e => fst e =? k_hash b) (q_by_hash q) then q_by_hash q
                   else (k_hash b, a) :: q_by_hash q in
    do s <- set_insert q a (q_set q);
    Done (mkPool (q_next q) (q_heap q) by_hash (q_by_prev q ++ [(k_prev b, a)]) s).

  (** The inner loop over the blocks that follow one that has been taken in, main.cpp:2180-2199:
      entries left, chain, store, hashes of those taken in. *)
  Fixpoint take_kids (kids : list (N * N)) (c : chain) (q : pool) (taken : list N)
    : outcome (chain * pool * list N) :=
    match kids with
    | [] => Done (c, q, taken)
    | (_, a) :: kids =>
        do o <- deref q a;
        do (c, ok) <- accept c (o_block o);
        do s <- set_erase q a (q_set q);
        let q := mkPool (q_next q) (q_heap q) (without (o_hash o) (q_by_hash q)) (q_by_prev q) s in
        take_kids kids c (release q a) (if ok then taken ++ [o_hash o] else taken)
    end.

  (** The loop over the work queue, main.cpp:2176-2201. The steps allowed are one for each block
      that can be taken in; running out of them is undefined. *)
  Fixpoint work (steps : nat) (queue : list N) (c : chain) (q : pool) : outcome (chain * pool) :=
    match queue with
    | [] => Done (c, q)
    | h :: queue =>
        match steps with
        | O => Undefined
        | S steps =>
            do (c, q, taken) <- take_kids (filter (fun e => fst e =? h) (q_by_prev q)) c q [];
            work steps (queue ++ taken) c
                 (mkPool (q_next q) (q_heap q) (q_by_hash q) (without h (q_by_prev q)) (q_set q))
        end
    end.

  Record node := mkNode { n_chain : chain; n_pool : pool }.

  (** [ProcessBlock], main.cpp:2106-2205. [peer]: the block comes from a peer. *)
  Definition process (peer : bool) (clock : Z) (n : node) (b : blk) : outcome (node * bool) :=
    let c := n_chain n in
    let q := n_pool n in
    if known c (k_hash b) then Done (n, false)
    else if existsb (fun e => fst e =? k_hash b) (q_by_hash q) then Done (n, false)
    else if negb (check_block p clock b) then Done (n, false)
    else if negb (k_prev b =? 0) && negb (known c (k_prev b))
    then
      if peer
      then do (q, ok) <- prune q (signed32 (k_height b));
           if ok then do q <- keep q b; Done (mkNode c q, true) else Done (mkNode c q, true)
      else Done (n, true)
    else
      do (c, ok) <- accept c b;
      if negb ok then Done (mkNode c q, false)
      else do (c, q) <- work (S (length (q_heap q))) [k_hash b] c q; Done (mkNode c q, true).

  (** A block that arrives. [e_final]: height of the last block held final by all. *)
  Record event := mkEvent { e_peer : bool; e_clock : Z; e_final : N; e_block : blk }.

  (** [ProcessBlockMessage], chainmessage.cpp:697-727, and a block of the node's own. *)
  Definition arrive (n : node) (e : event) : outcome node :=
    if e_peer e && (k_height (e_block e) <? e_final e) then Done n
    else do (n, _) <- process (e_peer e) (e_clock e) n (e_block e); Done n.

  Fixpoint run (n : node) (l : list event) : outcome node :=
    match l with [] => Done n | e :: l => do n <- arrive n e; run n l end.

  (** A node that knows the first block only. *)
  Definition start (g : blk) : node := mkNode (mkChain [g] (k_hash g) false) empty_pool.
End Intake.
