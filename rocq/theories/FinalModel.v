(** Model of the finality of blocks, continued: messages of block producers, and a node's history.

    Source: /repo/src/miner/pbftmanager.cpp, pbftcontext.h, pbftcontext.cpp,
    /repo/src/p2p/chainmessage.cpp, protocol.h, protocol.cpp, /repo/src/main.cpp
    (ProcessForkedChain, AddToBlockIndex, AcceptBlock, LoadBlockIndexDB), /repo/src/init.cpp.
    Simplifications: see SelectModel.v. Block producers are numbers. Messages the node got before
    are not told apart (it drops them); a message is given with whether its signer's account exists
    and the signature fits. A set of messages is a list of different ones in the order they came.
    The producers the node signs for are given with each event: none if it does not sign, or
    signed for the block before. *)
From Coq Require Import List Bool NArith ZArith Sorted Permutation.
From Verif Require Import Prelude AccountModel DexModel ContainerModel ChainModel SelectModel.
Import ListNotations.
Open Scope Z_scope.

(** [CPBFTMessage], protocol.h:328-359; a null [preBlockHash] is [None]. *)
Record msg := mkMsg { m_height : Z; m_miner : N; m_block : N; m_prev : option N }.

(** Whether two messages are equivalent for a [std::set], by [operator<], protocol.cpp:184-190. *)
Definition msg_same (a b : msg) : bool :=
  (m_height a =? m_height b) && (m_miner a =? m_miner b)%N && (m_block a =? m_block b)%N.
Definition add_msg (l : list msg) (m : msg) : list msg := if existsb (msg_same m) l then l else l ++ [m].

(** [CPBFTContext], pbftcontext.h:94-108: the producers after each block, and the messages. *)
Record pbft := mkPbft {
  p_lists : fifo (K := N) (V := list N);
  p_confirm : fifo (K := N) (V := list msg);
  p_final : fifo (K := N) (V := list msg) }.

(** The constructors, pbftcontext.h:32-36, 101-103. *)
Definition pbft_new : pbft := mkPbft (fifo_sized 500) (fifo_sized 500) (fifo_sized 500).

(** [SaveMinersByHash], pbftcontext.cpp:25-34. *)
Definition add_miner (l : list N) (m : N) : list N := if existsb (N.eqb m) l then l else l ++ [m].
Definition save_miners (p : pbft) (b : N) (delegates : list N) : outcome pbft :=
  do f <- fifo_insert N.eqb (p_lists p) b (fold_left add_miner delegates []);
  Done (mkPbft f (p_confirm p) (p_final p)).

(** [SaveMessageByBlock], pbftcontext.h:66-81: what it returns too. *)
Definition save_msg (f : fifo (K := N) (V := list msg)) (b : N) (m : msg)
  : outcome (fifo (K := N) (V := list msg) * nat) :=
  match fifo_find N.eqb f b with
  | None => do f1 <- fifo_insert N.eqb f b [m]; Done (f1, 1%nat)
  | Some v => let v1 := add_msg v m in Done (fifo_update N.eqb f b v1, length v1)
  end.

(** [GetFinalBlockMinerCount], pbftmanager.cpp:21-31, with [current] the number of active delegates. *)
Definition need_count (p : pbft) (current : nat) (pre : option N) : nat :=
  let n := match pre with
           | None => current
           | Some h => match fifo_find N.eqb (p_lists p) h with
                       | Some l => length l
                       | None => current
                       end
           end in
  (n - n / 3)%nat.

(** The loop that counts, pbftmanager.cpp:137-144, 186-193, 219-226, 266-273. *)
Fixpoint counted (miners : list N) (need count : nat) (ms : list msg) : bool :=
  match ms with
  | [] => false
  | m :: ms =>
      let c := (if existsb (N.eqb (m_miner m)) miners then S count else count) in
      if Nat.leb need c then true else counted miners need c ms
  end.

(** The condition for a block, pbftmanager.cpp:130-145, 180-194, 211-227, 260-274: [f] holds the
    messages. *)
Definition enough (p : pbft) (f : fifo (K := N) (V := list msg)) (need : nat) (b prev : N) : bool :=
  match fifo_find N.eqb f b with
  | None => false
  | Some ms =>
      match fifo_find N.eqb (p_lists p) prev with
      | None => false
      | Some miners => if Nat.leb need (length ms) then counted miners need 0 ms else false
      end
  end.

(** The height of a block that is pointed to. *)
Definition height_at (t : list (N * node)) (p : option N) : outcome Z :=
  do n <- deref t p; Done (n_height n).

(** [UpdateLocalFinBlock(height)], pbftmanager.cpp:69-84. *)
Definition local_to (t : list (N * node)) (act : list (option N)) (now : Z) (f : fin) (h : Z)
  : outcome (fin * bool) :=
  do old <- (match local_fin act f with None => Done (-1) | Some b => height_at t (Some b) end);
  if h <=? old then Done (f, false)
  else match c_at act h with
       | None => Done (f, false)
       | Some b => Done (mkFin (Some b) now (f_global f) (f_hash f) (f_record f), true)
       end.

(** [UpdateGlobalFinBlock(height)], pbftmanager.cpp:86-113. *)
Definition global_to (t : list (N * node)) (act : list (option N)) (f : fin) (h : Z)
  : outcome (fin * bool) :=
  match local_fin act f with
  | None => Done (f, false)
  | Some l =>
      do lh <- height_at t (Some l);
      if lh <? h then Done (f, false)
      else
        do stop <- (match global_fin act f with
                    | None => Done false
                    | Some g =>
                        do gh <- height_at t (Some g);
                        Done ((h <=? gh)
                              || match c_at act gh with
                                 | None => false
                                 | Some x => negb (N.eqb x g)
                                 end)
                    end);
        if stop : bool then Done (f, false)
        else match c_at act h with
             | None => Done (f, false)
             | Some b => do bh <- height_at t (Some b);
                         Done (mkFin (f_local f) (f_time f) (Some b) (Some b) (Some (bh, b)), true)
             end
  end.

(** The walks down from the tip, pbftmanager.cpp:126-151 and 208-233, over at most [k] blocks: the
    first height that has enough messages. [floor] is the height of the block that is final. *)
Fixpoint sweep (t : list (N * node)) (act : list (option N)) (p : pbft)
  (f : fifo (K := N) (V := list msg)) (need : nat) (floor : Z) (k : nat) (h : Z) : outcome (option Z) :=
  match k with
  | O => Done None
  | S k =>
      if (floor <? h) && (0 <? h) then
        match c_at act h with
        | None => Undefined
        | Some b =>
            do n <- deref t (Some b);
            match n_prev n with
            | None => Undefined
            | Some q => if enough p f need b q then Done (Some h)
                        else sweep t act p f need floor k (h - 1)
            end
        end
      else Done None
  end.

(** [UpdateLocalFinBlock(pIndex)], pbftmanager.cpp:115-153, and [UpdateGlobalFinBlock(pIndex)],
    200-235. *)
Definition local_index (t : list (N * node)) (act : list (option N)) (p : pbft) (current : nat)
  (now : Z) (f : fin) (b : N) : outcome (fin * bool) :=
  do n <- deref t (Some b);
  if n_height n =? 0 then Done (f, false)
  else
    do _ <- deref t (n_prev n);
    do floor <- height_at t (local_fin act f);
    do r <- sweep t act p (p_confirm p) (need_count p current (n_prev n)) floor 10 (n_height n);
    match r with None => Done (f, false) | Some h => local_to t act now f h end.
Definition global_index (t : list (N * node)) (act : list (option N)) (p : pbft) (current : nat)
  (f : fin) (b : N) : outcome (fin * bool) :=
  do n <- deref t (Some b);
  if n_height n =? 0 then Done (f, false)
  else
    do _ <- deref t (n_prev n);
    do floor <- height_at t (global_fin act f);
    do r <- sweep t act p (p_final p) (need_count p current (n_prev n)) floor 50 (n_height n);
    match r with None => Done (f, false) | Some h => global_to t act f h end.

(** What both functions for messages check, pbftmanager.cpp:157-194 and 244-275, given the block
    that is final so far and the messages: the height that has enough messages. *)
Definition by_msg (t : list (N * node)) (act : list (option N)) (p : pbft) (current : nat)
  (ms : fifo (K := N) (V := list msg)) (old : option N) (m : msg) (count : nat) : outcome (option Z) :=
  let need := need_count p current (m_prev m) in
  if Nat.ltb count need then Done None
  else match old with
       | None => Done None
       | Some o =>
           do oh <- height_at t (Some o);
           if m_height m <=? oh then Done None
           else match c_at act (m_height m) with
                | None => Done None
                | Some b =>
                    do n <- deref t (Some b);
                    match n_prev n with
                    | None => Done None
                    | Some q =>
                        if negb (N.eqb b (m_block m)) then Done None
                        else if enough p ms need b q then Done (Some (n_height n)) else Done None
                    end
                end
       end.

(** [UpdateLocalFinBlock(msg, count)], pbftmanager.cpp:155-198, and [UpdateGlobalFinBlock(msg,
    count)], 242-277. *)
Definition local_msg (t : list (N * node)) (act : list (option N)) (p : pbft) (current : nat)
  (now : Z) (f : fin) (m : msg) (count : nat) : outcome (fin * bool) :=
  do r <- by_msg t act p current (p_confirm p) (local_fin act f) m count;
  match r with None => Done (f, false) | Some h => local_to t act now f h end.
Definition global_msg (t : list (N * node)) (act : list (option N)) (p : pbft) (current : nat)
  (f : fin) (m : msg) (count : nat) : outcome (fin * bool) :=
  do r <- by_msg t act p current (p_final p) (global_fin act f) m count;
  match r with None => Done (f, false) | Some h => global_to t act f h end.

(** [CheckPBFTMessage], pbftmanager.cpp:428-474: the difference of the heights is one of uint32_t. *)
Definition check_msg (t : list (N * node)) (act : list (option N)) (f : fin) (signed : bool) (m : msg)
  : outcome bool :=
  do lh <- (match local_fin act f with None => Done 0 | Some b => height_at t (Some b) end);
  if (500 <? (m_height m - c_height act) mod 2 ^ 32) || (m_height m <? lh) then Done false
  else Done (opt_eqb (c_at act (m_height m)) (Some (m_block m)) && signed).

(** The messages of the node's own producers for a block: [BroadcastBlockConfirm] and
    [BroadcastBlockFinality], pbftmanager.cpp:357-414 and 301-356. *)
Definition own_msgs (t : list (N * node)) (p : pbft) (own : list N)
  (f : fifo (K := N) (V := list msg)) (b : N) : outcome (fifo (K := N) (V := list msg)) :=
  do n <- deref t (Some b);
  match n_prev n with
  | None => Done f
  | Some q =>
      let ds := match fifo_find N.eqb (p_lists p) q with Some l => l | None => [] end in
      fold_left (fun r d => do f <- r;
                   if existsb (N.eqb d) own
                   then do x <- save_msg f b (mkMsg (n_height n) d b (Some q)); Done (fst x)
                   else Done f) ds (Done f)
  end.

(** The node. *)
Record world := mkWorld { w_sel : sel; w_fin : fin; w_pbft : pbft; w_seq : N }.

Definition w_tree (w : world) := s_tree (w_sel w).
Definition w_act (w : world) := s_act (w_sel w).

(** What comes with a block: the time; the verdicts when it is activated, and after how many rounds
    that is given up here; which earlier blocks of a fork are in the cache of forks and how they
    fare when they are connected again; how deep a fork may be; whether the other checks are passed;
    the active delegates afterwards (or that there are none) and how many there are; and the
    producers the node signs for. *)
Record around := mkAround {
  o_now : Z; o_verdict : nat -> N -> verdict; o_rounds : nat; o_cached : N -> bool; o_fork : N -> bool;
  o_depth : Z; o_fine : bool; o_delegates : option (list N); o_current : nat; o_own : list N }.

(** The walk of [ProcessForkedChain], main.cpp:1709-1740: the blocks to connect again, the last
    first ([None] if the fork is too deep). *)
Fixpoint fork_walk (t : list (N * node)) (act : list (option N)) (cached : N -> bool) (depth : Z)
  (fuel : nat) (found : bool) (p : option N) : outcome (option (list N)) :=
  do y <- c_contains t act p;
  if y then
    do h <- height_at t p;
    Done (if depth <? c_height act - h then None else Some [])
  else
    match p with
    | None => Undefined
    | Some b =>
        do n <- deref t p;
        do h <- height_at t (n_prev n);
        if depth <? c_height act - h then Done None
        else match fuel with
             | O => Undefined
             | S fuel =>
                 let found1 := found || cached b in
                 do r <- fork_walk t act cached depth fuel found1 (n_prev n);
                 Done (match r with
                       | None => None
                       | Some l => Some (if found1 then l else b :: l)
                       end)
             end
    end.

(** The blocks connected again, main.cpp:1784-1798: each that is accepted loses its mark, but
    [setBlockIndexValid] is left alone. *)
Fixpoint rehabilitate (t : list (N * node)) (ok : N -> bool) (l : list N)
  : outcome (list (N * node) * bool) :=
  match l with
  | [] => Done (t, true)
  | b :: l =>
      if ok b then do n <- deref t (Some b); rehabilitate (fput N.eqb t b (marked n false)) ok l
      else Done (t, false)
  end.

(** [ProcessForkedChain], main.cpp:1702-1817. The check of the reward transaction at its end is
    one of the other checks. *)
Definition process_fork (w : world) (e : around) (prev : N) : outcome (list (N * node) * bool) :=
  do h <- height_at (w_tree w) (Some prev);
  do r <- fork_walk (w_tree w) (w_act w) (o_cached e) (o_depth e) (Z.to_nat h) false (Some prev);
  match r with
  | None => Done (w_tree w, false)
  | Some l => rehabilitate (w_tree w) (o_fork e) (rev l)
  end.

(** [AcceptBlock], main.cpp:1882-1988, with [AddToBlockIndex], 1590-1646: the new state and whether
    the block was accepted. *)
Section Accept.
  Variable addr : N -> N.

  Definition accept_block (w : world) (e : around) (b prev : N) : outcome (world * bool) :=
    do _ <- guard (negb (fmem N.eqb (w_tree w) b));
    do _ <- asserted (fmem N.eqb (w_tree w) prev);
    do k <- (if opt_eqb (Some prev) (c_tip (w_act w)) then Done (w_tree w, true)
             else process_fork w e prev);
    let s0 := mkSel (fst k) (s_valid (w_sel w)) (w_act w) (s_most (w_sel w)) in
    if negb (snd k && o_fine e) then Done (mkWorld s0 (w_fin w) (w_pbft w) (w_seq w), false)
    else
      do t1 <- add_index (fst k) b prev (w_seq w);
      let s1 := mkSel t1 (b :: s_valid (w_sel w)) (w_act w) (s_most (w_sel w)) in
      do a <- activate addr (o_rounds e) (o_verdict e) (o_now e) s1 (w_fin w) (Some b);
      let s2 := fst (fst a) in
      let f2 := snd (fst a) in
      let ok := match snd a with Best => true | Kept r => r | Error => false end in
      let w2 := mkWorld s2 f2 (w_pbft w) (w_seq w + 1) in
      if ok && opt_eqb (c_tip (s_act s2)) (Some b) then
        do p1 <- (match o_delegates e with
                  | Some ds => save_miners (w_pbft w) b ds
                  | None => Done (w_pbft w)
                  end);
        do c1 <- own_msgs (s_tree s2) p1 (o_own e) (p_confirm p1) b;
        let p2 := mkPbft (p_lists p1) c1 (p_final p1) in
        do u <- local_index (s_tree s2) (s_act s2) p2 (o_current e) (o_now e) f2 b;
        if snd u then
          do c2 <- own_msgs (s_tree s2) p2 (o_own e) (p_final p2) b;
          let p3 := mkPbft (p_lists p2) (p_confirm p2) c2 in
          do g <- global_index (s_tree s2) (s_act s2) p3 (o_current e) (fst u) b;
          Done (mkWorld s2 (fst g) p3 (w_seq w + 1), true)
        else Done (mkWorld s2 (fst u) p2 (w_seq w + 1), true)
      else Done (w2, ok).

  (** [ProcessBlockConfirmMessage], chainmessage.cpp:816-856. *)
  Definition on_confirm (w : world) (now : Z) (current : nat) (own : list N) (signed : bool) (m : msg)
    : outcome world :=
    do y <- check_msg (w_tree w) (w_act w) (w_fin w) signed m;
    if negb y then Done w
    else
      do c <- save_msg (p_confirm (w_pbft w)) (m_block m) m;
      let p := mkPbft (p_lists (w_pbft w)) (fst c) (p_final (w_pbft w)) in
      do u <- local_msg (w_tree w) (w_act w) p current now (w_fin w) m (snd c);
      if snd u then
        match local_fin (w_act w) (fst u) with
        | None => Undefined
        | Some l => do c2 <- own_msgs (w_tree w) p own (p_final p) l;
                    Done (mkWorld (w_sel w) (fst u) (mkPbft (p_lists p) (p_confirm p) c2) (w_seq w))
        end
      else Done (mkWorld (w_sel w) (fst u) p (w_seq w)).

  (** [ProcessBlockFinalityMessage], chainmessage.cpp:859-896. *)
  Definition on_final (w : world) (current : nat) (signed : bool) (m : msg) : outcome world :=
    do y <- check_msg (w_tree w) (w_act w) (w_fin w) signed m;
    if negb y then Done w
    else
      do c <- save_msg (p_final (w_pbft w)) (m_block m) m;
      let p := mkPbft (p_lists (w_pbft w)) (p_confirm (w_pbft w)) (fst c) in
      do u <- global_msg (w_tree w) (w_act w) p current (w_fin w) m (snd c);
      Done (mkWorld (w_sel w) (fst u) p (w_seq w)).

  (** A restart: the index is loaded, main.cpp:2225-2247, the chain set to the block it ended with,
      2268-2280, and the best chain activated, init.cpp:814-817. [disk] tells which marks are on
      disk, [order] is the order of the loaded entries by height. *)
  Definition restart (w : world) (rounds : nat) (disk : N -> bool) (order : list N) (now : Z)
    (v : nat -> N -> verdict) : outcome (world * bool) :=
    do t <- build_skips (load_indexes (store (remark disk (w_tree w)))) order;
    let valid := filter (fun b => match fget N.eqb t b with Some n => negb (n_failed n) | None => false end)
                        order in
    do c <- c_set_tip t [] (c_tip (w_act w));
    let f := mkFin None 0 None None (f_record (w_fin w)) in
    do a <- activate addr rounds v now (mkSel t valid (fst c) []) f None;
    Done (mkWorld (fst (fst a)) (snd (fst a)) pbft_new 1,
          match snd a with Best => true | Kept r => r | Error => false end).

  (** The start with the first block alone, [InitBlockIndex], main.cpp:2395-2429. *)
  Definition genesis_world (g : N) : world :=
    mkWorld (mkSel [(g, mkNode None None 0 1 false)] [g] [Some g] [Some g])
            (mkFin None 0 None None None) pbft_new 2.
End Accept.

(** What happens to a node; the addresses of index entries are given each time. *)
Inductive event :=
| EBlock (addr : N -> N) (e : around) (b prev : N)
| EConfirm (now : Z) (current : nat) (own : list N) (signed : bool) (m : msg)
| EFinal (current : nat) (signed : bool) (m : msg)
| ERestart (addr : N -> N) (rounds : nat) (disk : N -> bool) (order : list N) (now : Z)
    (v : nat -> N -> verdict).
Definition next (w : world) (e : event) : outcome world :=
  match e with
  | EBlock addr e b prev => do r <- accept_block addr w e b prev; Done (fst r)
  | EConfirm now current own signed m => on_confirm w now current own signed m
  | EFinal current signed m => on_final w current signed m
  | ERestart addr rounds disk order now v => do r <- restart addr w rounds disk order now v; Done (fst r)
  end.
