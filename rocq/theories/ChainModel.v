(** Model of the block index: predecessor and skip links, chains of blocks, block locators.

    Source: /repo/src/main.cpp (GetSkipHeight, GetAncestor, BuildSkip, AddToBlockIndex,
    LoadBlockIndexDB), /repo/src/chain/chain.h, chain.cpp, /repo/src/persistence/block.h,
    blockdb.cpp (InsertBlockIndex, LoadBlockIndexes).

    Simplifications: a block's hash stands for the block and for the pointer to its index entry;
    there is one entry for each hash (mapBlockIndex). Of an entry the links, the height, the
    sequence number and whether it is marked as failed are kept; files, times and versions are
    left out. *)
From Coq Require Import List Bool NArith ZArith.
From Verif Require Import Prelude AccountModel DexModel.
Import ListNotations.
Open Scope Z_scope.

Notation bid := N (only parsing).

(** [CBlockIndex], block.h:193-220, the members that matter; [pprev], [pskip], [height],
    [nSequenceId], and whether [nStatus & BLOCK_FAILED_MASK]. *)
Record node := mkNode {
  n_prev : option bid; n_skip : option bid; n_height : Z; n_seq : N; n_failed : bool }.

(** A change of the mark alone. *)
Definition marked (n : node) (f : bool) : node :=
  mkNode (n_prev n) (n_skip n) (n_height n) (n_seq n) f.

(** [mapBlockIndex]. *)
Notation tree := (list (N * node)) (only parsing).

Definition MAX_HEIGHT : Z := 2147483647.       (* the largest int32_t *)

(** Following a pointer: undefined for a null pointer. *)
Definition deref (t : tree) (p : option bid) : outcome node :=
  match p with
  | Some b => match fget N.eqb t b with Some n => Done n | None => Undefined end
  | None => Undefined
  end.

(** [InvertLowestOne], main.cpp:2015, for numbers that are not negative. *)
Definition invert_lowest_one (n : Z) : Z := Z.land n (n - 1).

(** [GetSkipHeight], main.cpp:2018-2026. *)
Definition skip_height (h : Z) : Z :=
  if h <? 2 then 0
  else if Z.odd h then invert_lowest_one (invert_lowest_one (h - 1)) + 1
  else invert_lowest_one h.

(** The loop of [GetAncestor], main.cpp:2034-2046. Each round goes to a lower height, so [fuel]
    rounds are enough if it starts at that height. *)
Fixpoint walk (t : tree) (fuel : nat) (p : option bid) (hw target : Z) : outcome (option bid) :=
  if hw <=? target then Done p
  else
    match fuel with
    | O => Undefined
    | S fuel =>
        let hs := skip_height hw in
        let hsp := skip_height (hw - 1) in
        do n <- deref t p;
        if (hs =? target) || ((target <? hs) && negb ((hsp <? hs - 2) && (target <=? hsp)))
        then walk t fuel (n_skip n) hs target
        else walk t fuel (n_prev n) (hw - 1) target
    end.

(** [GetAncestor], main.cpp:2028-2048. *)
Definition get_ancestor (t : tree) (p : option bid) (h : Z) : outcome (option bid) :=
  do n <- deref t p;
  if (n_height n <? h) || (h <? 0) then Done None
  else walk t (Z.to_nat (n_height n)) p (n_height n) h.

(** [BuildSkip], main.cpp:2054-2057: the new value of [pskip]. *)
Definition build_skip (t : tree) (n : node) : outcome (option bid) :=
  match n_prev n with
  | None => Done (n_skip n)
  | Some p => get_ancestor t (Some p) (skip_height (n_height n))
  end.

(** The part of [AddToBlockIndex] that makes the entry, main.cpp:1590-1612, with sequence number
    [seq]. A height beyond the largest int32_t is undefined. *)
Definition add_index (t : tree) (b : bid) (prev : bid) (seq : N) : outcome tree :=
  do _ <- guard (negb (fmem N.eqb t b));
  let t1 := fput N.eqb t b (mkNode None None 0 seq false) in
  match fget N.eqb t1 prev with
  | None => Done t1
  | Some m =>
      if n_height m =? MAX_HEIGHT then Undefined
      else
        let n := mkNode (Some prev) None (n_height m + 1) seq false in
        let t2 := fput N.eqb t b n in
        do s <- build_skip t2 n;
        Done (fput N.eqb t b (mkNode (Some prev) s (n_height m + 1) seq false))
  end.

(** What is read from disk about a block: hash, predecessor, height, failed or not,
    blockdb.cpp:49-59; the predecessor is missing for the first block (a null hash,
    blockdb.cpp:84-86). *)
Notation stored := (N * (option N * Z * bool))%type (only parsing).

(** What is written to disk about the blocks: block.h:343-368, main.cpp:1620-1624. *)
Definition store (t : tree) : list stored :=
  map (fun x => (fst x, (n_prev (snd x), n_height (snd x), n_failed (snd x)))) t.

(** Other marks: not every mark made in memory is written to disk. *)
Definition remark (g : bid -> bool) (t : tree) : tree :=
  map (fun x => (fst x, marked (snd x) (g (fst x)))) t.

(** [LoadBlockIndexes], blockdb.cpp:31-75, when the predecessors are there too; the sequence
    numbers are 0 (block.h:220). *)
Definition load_indexes (l : list stored) : tree :=
  map (fun x => (fst x, mkNode (fst (fst (snd x))) None (snd (fst (snd x))) 0 (snd (snd x)))) l.

(** The loop of [LoadBlockIndexDB] that builds the skip links, main.cpp:2238-2247, over the
    entries in the order given. *)
Fixpoint build_skips (t : tree) (order : list bid) : outcome tree :=
  match order with
  | [] => Done t
  | b :: order =>
      do n <- deref t (Some b);
      do s <- build_skip t n;
      build_skips (fput N.eqb t b (mkNode (n_prev n) s (n_height n) (n_seq n) (n_failed n))) order
  end.

(** [CChain], chain.h:13-15: the vector of pointers. *)
Notation chain := (list (option N)) (only parsing).

Definition opt_eqb (a b : option bid) : bool :=
  match a, b with
  | Some x, Some y => N.eqb x y
  | None, None => true
  | _, _ => false
  end.

(** [Height], chain.cpp:43-45. *)
Definition c_height (c : chain) : Z := Z.of_nat (length c) - 1.

(** [operator[]], chain.cpp:23-27. *)
Definition c_at (c : chain) (h : Z) : option bid :=
  if (h <? 0) || (Z.of_nat (length c) <=? h) then None else nth (Z.to_nat h) c None.

(** [Genesis] and [Tip], chain.cpp:12-20. *)
Definition c_genesis (c : chain) : option bid := match c with [] => None | x :: _ => x end.
Definition c_tip (c : chain) : option bid := match c with [] => None | _ => c_at c (c_height c) end.

(** [Contains], chain.cpp:30-32. *)
Definition c_contains (t : tree) (c : chain) (p : option bid) : outcome bool :=
  do n <- deref t p; Done (opt_eqb (c_at c (n_height n)) p).

(** [Next], chain.cpp:35-40. *)
Definition c_next (t : tree) (c : chain) (p : option bid) : outcome (option bid) :=
  do y <- c_contains t c p;
  do n <- deref t p;
  Done (if y then c_at c (n_height n + 1) else None).

(** [vector::resize] and an assignment to an element; the latter is undefined out of range. *)
Definition resize (c : chain) (n : nat) : chain := firstn n c ++ repeat None (n - length c).
Fixpoint assign (c : chain) (i : nat) (v : option bid) : chain :=
  match c, i with
  | [], _ => []
  | _ :: c, O => v :: c
  | x :: c, S i => x :: assign c i v
  end.

(** The loop of [SetTip], chain.cpp:53-56: one round for each height. *)
Fixpoint set_loop (t : tree) (fuel : nat) (c : chain) (p : option bid)
  : outcome (chain * option bid) :=
  match p with
  | None => Done (c, None)
  | Some _ =>
      do n <- deref t p;
      if (n_height n <? 0) || (Z.of_nat (length c) <=? n_height n) then Undefined
      else if opt_eqb (nth (Z.to_nat (n_height n)) c None) p then Done (c, p)
      else match fuel with
           | O => Undefined
           | S fuel => set_loop t fuel (assign c (Z.to_nat (n_height n)) p) (n_prev n)
           end
  end.

(** [SetTip], chain.cpp:47-58: the new chain and the forking point. *)
Definition c_set_tip (t : tree) (c : chain) (p : option bid) : outcome (chain * option bid) :=
  match p with
  | None => Done ([], None)
  | Some _ =>
      do n <- deref t p;
      let len := Z.to_nat (n_height n + 1) in
      set_loop t len (resize c len) p
  end.

(** The inner loop of [GetLocator], chain.cpp:78-79. *)
Fixpoint into_chain (t : tree) (fuel : nat) (c : chain) (p : option bid) : outcome (option bid) :=
  do y <- c_contains t c p;
  if y then Done p
  else match fuel with
       | O => Undefined
       | S fuel => do n <- deref t p; into_chain t fuel c (n_prev n)
       end.

(** The loop of [GetLocator], chain.cpp:67-87: the hashes it appends when [vHave] has [have]
    elements. Each round goes to a lower height. [nStep] beyond the largest int32_t is undefined. *)
Fixpoint locator_loop (t : tree) (fuel : nat) (c : chain) (p : option bid) (step : Z) (have : nat)
  : outcome (list bid) :=
  match p with
  | None => Done []
  | Some b =>
      match fuel with
      | O => Undefined
      | S fuel =>
          do n <- deref t p;
          if n_height n =? 0 then Done [b]
          else
            let h := Z.max (n_height n - step) 0 in
            do p1 <- (if h <? n_height n then get_ancestor t p h else Done p);
            do n1 <- deref t p1;
            do p2 <- into_chain t (Z.to_nat (n_height n1)) c p1;
            do n2 <- deref t p2;
            let p3 := if h <? n_height n2 then c_at c h else p2 in
            let more := (10 <? Z.of_nat (have + 1)) in
            if more && (MAX_HEIGHT <? step * 2) then Undefined
            else do r <- locator_loop t fuel c p3 (if more then step * 2 else step) (have + 1);
                 Done (b :: r)
      end
  end.

(** [GetLocator], chain.cpp:60-90. *)
Definition get_locator (t : tree) (c : chain) (p : option bid) : outcome (list bid) :=
  let p := match p with None => c_tip c | Some _ => p end in
  match p with
  | None => Done []
  | Some _ => do n <- deref t p; locator_loop t (S (Z.to_nat (n_height n))) c p 1 0
  end.

(** [FindFork], chain.cpp:92-104; hashes that are not known are passed over. *)
Fixpoint find_fork (t : tree) (c : chain) (have : list bid) : outcome (option bid) :=
  match have with
  | [] => Done (c_genesis c)
  | h :: have =>
      if fmem N.eqb t h then
        do y <- c_contains t c (Some h);
        if y then Done (Some h) else find_fork t c have
      else find_fork t c have
  end.

(** [CChainActive], chain.h:55-62, with the block kept beside the chain ([None] is an empty block),
    and its [SetTip], chain.cpp:108-116. *)
Record active := mkActive { a_chain : chain; a_block : option bid }.
Definition a_set_tip (t : tree) (a : active) (p : option bid) (block : bid) : outcome active :=
  do r <- c_set_tip t (a_chain a) p;
  Done (mkActive (fst r) (match snd r with Some _ => Some block | None => None end)).

(** What happens to the active chain when the node starts (LoadBlockIndexDB, main.cpp:2280, with
    the chain still empty), when [ConnectTip] ends (main.cpp:1393, 1425) and when [DisconnectTip]
    ends (main.cpp:1345-1346, 1374). *)
Definition a_start (t : tree) (b : bid) : outcome active := a_set_tip t (mkActive [] None) (Some b) b.
Definition a_connect (t : tree) (a : active) (b : bid) : outcome active :=
  do n <- deref t (Some b);
  do _ <- asserted (opt_eqb (n_prev n) (c_tip (a_chain a)));
  a_set_tip t a (Some b) b.
Definition a_disconnect (t : tree) (a : active) : outcome active :=
  match c_tip (a_chain a) with
  | None => Abort
  | Some b => do n <- deref t (Some b); a_set_tip t a (n_prev n) b
  end.
