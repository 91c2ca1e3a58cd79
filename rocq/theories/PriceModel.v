(** Model of the prices fed by producers: the cache of price points over the last blocks, the median
    of them, and what connecting and disconnecting blocks and a restart do to the cache.

    Source: /repo/src/persistence/pricefeeddb.cpp, pricefeeddb.h, /repo/src/tx/pricefeedtx.cpp,
    /repo/src/tx/blockpricemediantx.cpp (CalcMedianPriceDetails and the comparison), /repo/src/main.cpp
    (ConnectBlock, DisconnectBlock, ConnectTip, DisconnectTip, ProcessForkedChain), /repo/src/init.cpp.

    Simplifications: coin pairs and registration ids are numbers. Of a block only price feeds and
    price medians are kept; other transactions, and the checks of a feed that do not concern this
    cache (CheckTx, the stake and the seat of the sender), are left out. The pairs that may be fed
    and the size of the window, which governance sets, are given with the block in which they are
    read. The stored medians are part of the state database, which undo restores
    (c04_block_undo_restores), so they are kept with the block that set them. Reading a block from
    disk does not fail. *)
From Coq Require Import List Bool NArith.
From Verif Require Import Prelude DexModel.
Import ListNotations.
Open Scope N_scope.

(** ** The cache of price points *)

(** [BlockUserPriceMap], [CoinPricePointMap], pricefeeddb.h:26-27: by pair, height and sender. One
    [CPricePointMemCache] (pricefeeddb.h:42-87) is a [book]; with its bases it is a list of books,
    the newest first. *)
Notation cellmap := (list (N * N)) (only parsing).
Notation book := (list (N * list (N * list (N * N)))) (only parsing).

Definition cells_of (b : book) (p : N) : list (N * cellmap) :=
  match fget N.eqb b p with Some m => m | None => [] end.
Definition cell (b : book) (p h : N) : option cellmap := fget N.eqb (cells_of b p) h.
Definition cell_or_empty (b : book) (p h : N) : cellmap :=
  match cell b p h with Some c => c | None => [] end.
Definition set_cell (b : book) (p h : N) (c : cellmap) : book :=
  fput N.eqb b p (fput N.eqb (cells_of b p) h c).

(** [CConsecutiveBlockPrice::AddUserPrice], pricefeeddb.cpp:20-22. *)
Definition add_user_price (b : book) (p h r price : N) : book :=
  set_cell b p h (fput N.eqb (cell_or_empty b p h) r price).

(** [ExistBlockUserPrice], pricefeeddb.cpp:29-34, 145-155. *)
Fixpoint exist_price (s : list book) (h r p : N) : bool :=
  match s with
  | [] => false
  | b :: s => fmem N.eqb (cell_or_empty b p h) r || exist_price s h r p
  end.

(** [AddPrice], pricefeeddb.cpp:123-143: stops at a price that exists; what was added stays. *)
Fixpoint add_prices (h r : N) (pps : list (N * N)) (top : book) (base : list book) : bool * book :=
  match pps with
  | [] => (true, top)
  | (p, price) :: pps =>
      if exist_price (top :: base) h r p then (false, top)
      else add_prices h r pps (add_user_price top p h r price) base
  end.

(** ** Blocks *)

(** A transaction: a price feed with its sender and points, the median with its prices, or another. *)
Inductive ptx := TFeed (r : N) (pps : list (N * N)) | TMedian (prices : list (N * N)) | TOther.
(** The transactions after the first, the pairs that may be fed (in order) and the window when the
    median is computed, and the window after the block. *)
Record pblock := mkPblock { b_txs : list ptx; b_pairs : list N; b_window_at : N; b_window : N }.

(** The feeds at the front of a block: the loops of [AddPriceByBlock] and [DeleteBlockFromCache],
    pricefeeddb.cpp:169-176 and 183-193, stop at the first other transaction. *)
Fixpoint front_feeds (l : list ptx) : list (N * list (N * N)) :=
  match l with
  | TFeed r pps :: l => (r, pps) :: front_feeds l
  | _ => []
  end.

(** [AddPriceByBlock], pricefeeddb.cpp:157-179. The result of [AddPrice] is not looked at. *)
Fixpoint add_feeds (h : N) (fs : list (N * list (N * N))) (top : book) (base : list book) : book :=
  match fs with
  | [] => top
  | (r, pps) :: fs => add_feeds h fs (snd (add_prices h r pps top base)) base
  end.
Definition add_block (h : N) (b : pblock) (top : book) (base : list book) : book :=
  if Nat.ltb (S (length (b_txs b))) 3 then top else add_feeds h (front_feeds (b_txs b)) top base.

(** [DeleteBlockFromCache], pricefeeddb.cpp:181-209. *)
Definition clear_cells (h : N) (ps : list N) (top : book) : book :=
  fold_left (fun t p => set_cell t p h []) ps top.
Definition delete_block (h : N) (b : pblock) (top : book) : book :=
  let t := clear_cells h (map fst (concat (map snd (front_feeds (b_txs b))))) top in
  clear_cells h (keys t) t.

(** [BatchWrite] and [Flush], pricefeeddb.cpp:211-239. *)
Definition write_cell (p : N) (base : book) (hc : N * cellmap) : book :=
  let '(h, c) := hc in
  match c with
  | [] => fput N.eqb base p (fdel N.eqb (cells_of base p) h)
  | _ => fold_left (fun b rp =>
           let old := cell_or_empty b p h in
           set_cell b p h (if fmem N.eqb old (fst rp) then old else fput N.eqb old (fst rp) (snd rp))) c base
  end.
Definition batch_write (top base : book) : book :=
  fold_left (fun b pm => fold_left (write_cell (fst pm)) (snd pm) b) top base.

(** ** The median *)

(** [GetBlockUserPrices], pricefeeddb.cpp:241-264. *)
Fixpoint gather_cells (m : list (N * cellmap)) (expired : list N) (got : list (N * cellmap))
  : list N * list (N * cellmap) :=
  match m with
  | [] => (expired, got)
  | (h, []) :: m => gather_cells m (h :: expired) got
  | (h, c) :: m =>
      if existsb (N.eqb h) expired || fmem N.eqb got h then gather_cells m expired got
      else gather_cells m expired (fput N.eqb got h c)
  end.
Fixpoint gather (s : list book) (p : N) (expired : list N) (got : list (N * cellmap)) : list (N * cellmap) :=
  match s with
  | [] => got
  | b :: s => let '(expired, got) := gather_cells (cells_of b p) expired got in gather s p expired got
  end.

(** [sort] of numbers. *)
Fixpoint insert (x : N) (l : list N) : list N :=
  match l with
  | [] => [x]
  | y :: l => if x <=? y then x :: y :: l else y :: insert x l
  end.
Definition sorted (l : list N) : list N := fold_right insert [] l.

(** [ComputeMedianNumber], pricefeeddb.cpp:326-333. The sum is one of uint64_t. *)
Definition median (l : list N) : N :=
  let n := length l in
  if Nat.ltb n 2 then nth 0 l 0
  else
    let s := sorted l in
    if Nat.eqb (Nat.modulo n 2) 0
    then add64 (nth (Nat.div n 2 - 1) s 0) (nth (Nat.div n 2) s 0) / 2
    else nth (Nat.div n 2) s 0.

(** [CMedianPriceDetail], price.h:69-72: the price and the height of the last feed. *)
Notation detail := (N * N)%type (only parsing).

(** The heights [h], [h - 1], ... *)
Fixpoint downs (k : nat) (h : N) : list N :=
  match k with O => [] | S k => h :: downs k (h - 1) end.
Definition prices_at (got : list (N * cellmap)) (h : N) : list N :=
  match fget N.eqb got h with Some c => map snd c | None => [] end.

(** [ComputeBlockMedianPrice], pricefeeddb.cpp:275-324. *)
Definition block_median (h w : N) (got : list (N * cellmap)) : detail :=
  match got with
  | [] => (0, 0)
  | _ =>
      let begin := if w <? h then h - w else 0 in
      (median (concat (map (prices_at got) (downs (N.to_nat (h - begin)) h))),
       if (begin <? h) && fmem N.eqb got h then h else 0)
  end.

(** [GetMedianPrice], pricefeeddb.cpp:335-358. *)
Definition median_price (s : list book) (latest : list (N * detail)) (h w p : N) : detail :=
  let d := block_median h w (gather s p [] []) in
  match fget N.eqb latest p with
  | None => d
  | Some old => if fst d =? 0 then old else if snd d =? h then d else (fst d, snd old)
  end.

(** [CalcMedianPriceDetails], pricefeeddb.cpp:372-411. *)
Definition calc_details (s : list book) (latest : list (N * detail)) (h w : N) (pairs : list N) : list (N * detail) :=
  filter (fun x => negb (fst (snd x) =? 0)) (map (fun p => (p, median_price s latest h w p)) pairs).

(** [EqualToCalculatedPrices], blockpricemediantx.cpp:222-239. *)
Fixpoint same_prices (a : list (N * N)) (b : list (N * detail)) : bool :=
  match a, b with
  | [], [] => true
  | (p, x) :: a, (q, d) :: b => (p =? q) && (x =? fst d) && same_prices a b
  | _, _ => false
  end.
Definition equal_prices (claimed : list (N * N)) (calc : list (N * detail)) : bool :=
  same_prices (filter (fun x => negb (snd x =? 0)) claimed) calc.

(** ** Connecting and disconnecting *)

(** A chain: its blocks, the last first, each with the medians stored after it. The height of the
    first block is 0. *)
Notation chain := (list (pblock * list (N * detail))) (only parsing).
Definition tip_height (c : chain) : N := N.of_nat (length c) - 1.
Definition stored (c : chain) : list (N * detail) := match c with [] => [] | (_, d) :: _ => d end.
Definition block_at (c : chain) (h : N) : option pblock :=
  if h <? N.of_nat (length c) then
    match nth_error c (length c - 1 - N.to_nat h) with Some (b, _) => Some b | None => None end
  else None.

(** [PushBlock], pricefeeddb.cpp:63-91: forget the block that leaves the window. [c]: the chain with
    the new block. *)
Definition push_block (c : chain) (w : N) (top : book) : outcome book :=
  let h := tip_height c in
  if w <? h then
    do b <- need (block_at c (h - w));
    Done (delete_block (h - w) b top)
  else Done top.

(** [UndoBlock], pricefeeddb.cpp:93-121: forget the block that is disconnected, and load the one that
    enters the window. [c]: the chain with the block; [w]: the window after the undo. A null block
    index is dereferenced. *)
Definition undo_block (c : chain) (w : N) (top : book) (base : list book) : outcome book :=
  let h := tip_height c in
  match c with
  | [] => Undefined
  | (b, _) :: _ =>
      let t := delete_block h b top in
      if w <? h then
        match block_at c (h - w) with
        | None => Undefined
        | Some b' => Done (add_block (h - w) b' t base)
        end
      else Done t
  end.

(** The transactions of a block in [ConnectBlock], main.cpp:1063-1108: feeds go to the cache
    (pricefeedtx.cpp:85-88), the median is computed, compared and stored
    (blockpricemediantx.cpp:124-155). *)
Fixpoint run_txs (h : N) (b : pblock) (l : list ptx) (latest : list (N * detail)) (top : book) (base : list book)
  : outcome (list (N * detail) * book) :=
  match l with
  | [] => Done (latest, top)
  | TFeed r pps :: l =>
      let '(ok, top) := add_prices h r pps top base in
      do _ <- guard ok;
      run_txs h b l latest top base
  | TMedian claimed :: l =>
      let calc := calc_details (top :: base) latest h (b_window_at b) (b_pairs b) in
      do _ <- guard (equal_prices claimed calc);
      run_txs h b l calc top base
  | TOther :: l => run_txs h b l latest top base
  end.

(** [CheckBlock], main.cpp:1858-1861: one median in a block. *)
Definition is_median (t : ptx) : bool := match t with TMedian _ => true | _ => false end.

(** [ConnectBlock] on a cache: main.cpp:1264 after the transactions. *)
Definition connect_block (c : chain) (b : pblock) (top : book) (base : list book) : outcome (chain * book) :=
  do _ <- guard (Nat.eqb (length (filter is_median (b_txs b))) 1);
  do r <- run_txs (N.of_nat (length c)) b (b_txs b) (stored c) top base;
  let c1 := (b, fst r) :: c in
  do t <- push_block c1 (b_window b) (snd r);
  Done (c1, t).

(** The window that is in force after a chain. *)
Definition window_of (c : chain) : N := match c with [] => 0 | (b, _) :: _ => b_window b end.

(** [DisconnectBlock] on a cache: main.cpp:678, after the state was undone. *)
Definition disconnect_block (c : chain) (top : book) (base : list book) : outcome (chain * book) :=
  match c with
  | [] | [_] => Undefined
  | _ :: c0 => do t <- undo_block c (window_of c0) top base; Done (c0, t)
  end.

(** [ConnectTip] and [DisconnectTip], main.cpp:1342-1420: a new cache on the global one, flushed into
    it. *)
Definition connect_tip (c : chain) (b : pblock) (base : book) : outcome (chain * book) :=
  do r <- connect_block c b [] [base];
  Done (fst r, batch_write (snd r) base).
Definition disconnect_tip (c : chain) (base : book) : outcome (chain * book) :=
  do r <- disconnect_block c [] [base];
  Done (fst r, batch_write (snd r) base).

(** [ReleadBlocks], pricefeeddb.cpp:39-61, at a start (init.cpp:836): as many blocks as the window has. *)
Fixpoint reload (k : nat) (c : chain) (top : book) : book :=
  match k, c with
  | S k, (b, _) :: c' => reload k c' (add_block (tip_height c) b top [])
  | _, _ => top
  end.
Definition restart (c : chain) : book := reload (N.to_nat (window_of c)) c [].

(** [ActivateBestChain] at a start, init.cpp:816, comes before the load: the blocks that are stored, but
    were not connected in what was written to the disk, are connected with nothing in memory. *)
Fixpoint connect_stored (c : chain) (bs : list pblock) (base : book) : outcome (chain * book) :=
  match bs with
  | [] => Done (c, base)
  | b :: bs => do r <- connect_tip c b base; connect_stored (fst r) bs (snd r)
  end.
Definition boot (c : chain) (pending : list pblock) : outcome (chain * book) :=
  do r <- connect_stored c pending [];
  Done (fst r, reload (N.to_nat (window_of (fst r))) (fst r) (snd r)).

(** [ProcessForkedChain], main.cpp:1747-1805: on a copy of the global cache blocks are disconnected,
    then the blocks of the fork are connected on one new cache on top of it, which is flushed into
    the copy. The copy is kept for further blocks of the fork. *)
Fixpoint fork_back (k : nat) (c : chain) (copy : book) : outcome (chain * book) :=
  match k with
  | O => Done (c, copy)
  | S k => do r <- disconnect_block c copy []; fork_back k (fst r) (snd r)
  end.
Fixpoint fork_on (c : chain) (bs : list pblock) (top base : book) : outcome (chain * book) :=
  match bs with
  | [] => Done (c, top)
  | b :: bs => do r <- connect_block c b top [base]; fork_on (fst r) bs (snd r) base
  end.
Definition fork_connect (c : chain) (bs : list pblock) (copy : book) : outcome (chain * book) :=
  do r <- fork_on c bs [] copy;
  Done (fst r, batch_write (snd r) copy).

(** ** A node *)
Record pworld := mkPw { w_chain : list (pblock * list (N * (N * N))); w_book : list (N * list (N * list (N * N)));
  w_forks : list (list (pblock * list (N * (N * N))) * list (N * list (N * list (N * N)))) }.
(** A block is connected, disconnected; the node restarts; a fork is opened that leaves the chain [k]
    blocks back; blocks are connected on a fork. *)
Inductive pevent := EConnect (b : pblock) | EDisconnect | ERestart | EOpen (k : nat) | EExtend (i : nat) (bs : list pblock).
Definition pstep (w : pworld) (e : pevent) : outcome pworld :=
  match e with
  | EConnect b => do r <- connect_tip (w_chain w) b (w_book w); Done (mkPw (fst r) (snd r) (w_forks w))
  | EDisconnect => do r <- disconnect_tip (w_chain w) (w_book w); Done (mkPw (fst r) (snd r) (w_forks w))
  | ERestart => Done (mkPw (w_chain w) (restart (w_chain w)) [])
  | EOpen k => do r <- fork_back k (w_chain w) (w_book w); Done (mkPw (w_chain w) (w_book w) (r :: w_forks w))
  | EExtend i bs =>
      do f <- need (nth_error (w_forks w) i);
      do r <- fork_connect (fst f) bs (snd f);
      Done (mkPw (w_chain w) (w_book w) (r :: w_forks w))
  end.
(** A node that only has the first block. *)
Definition pstart (b : pblock) : pworld := mkPw [(b, [])] [] [].
