(** Model of the choice of the active chain, and of the finality of blocks.

    Source: /repo/src/main.cpp (InvalidBlockFound, ConnectTip, DisconnectTip, FindMostWorkChain,
    ConnectBlockOnFinChain, ActivateBestChain, AddToBlockIndex, ProcessForkedChain, AcceptBlock,
    LoadBlockIndexDB), /repo/src/persistence/block.h, /repo/src/miner/pbftmanager.cpp,
    pbftcontext.h, pbftcontext.cpp, /repo/src/p2p/chainmessage.cpp, protocol.h, protocol.cpp.

    Simplifications: connecting a block gives one of three verdicts, chosen freely for every
    attempt (what blocks do to accounts is left out); disconnecting a block always works; reading
    and writing files always works. The mark that a block failed and the mark that a predecessor
    failed are one mark. Each event runs alone, though some of the code runs without the main lock.
    The calls of an operator (invalidateblock, reconsiderblock, disconnectblock) are left out, and
    so is the process dying between a write to a cache and its flush. *)
From Coq Require Import List Bool NArith ZArith.
From Verif Require Import Prelude AccountModel DexModel ContainerModel ChainModel.
Import ListNotations.
Open Scope Z_scope.

Notation tree := (list (N * node)) (only parsing).
Notation chain := (list (option N)) (only parsing).
Notation bid := N (only parsing).

(** What ConnectTip finds, main.cpp:1391-1431: the block is connected; a rule is broken
    ([state.IsInvalid()]; a possible corruption is never reported, main.cpp:995-996 clears it); or
    anything else went wrong. *)
Inductive verdict := VOk | VInvalid | VError.

(** [chainActive], [chainMostWork], [mapBlockIndex], [setBlockIndexValid]. *)
Record sel := mkSel { s_tree : tree; s_valid : list bid; s_act : chain; s_most : chain }.

(** The members of [CPBFTMan], pbftmanager.h:19-23, with the record in the database
    ([WriteGlobalFinBlock], [ReadGlobalFinBlock], blockdb.cpp:180-186). A hash that is null is
    [None]. *)
Record fin := mkFin {
  f_local : option bid; f_time : Z; f_global : option bid; f_hash : option bid;
  f_record : option (Z * bid) }.

Definition drop_bid (l : list bid) (b : bid) : list bid := filter (fun x => negb (N.eqb b x)) l.

Section Select.
  (** The address of the index entry of a block. *)
  Variable addr : bid -> N.

  (** [CBlockIndexWorkComparator], block.h:308-326. *)
  Definition less (t : tree) (a b : bid) : outcome bool :=
    do na <- deref t (Some a);
    do nb <- deref t (Some b);
    Done (if negb (n_height na =? n_height nb) then n_height na <? n_height nb
          else if negb (n_seq na =? n_seq nb)%N then (n_seq nb <? n_seq na)%N
          else (addr b <? addr a)%N).

  (** The last element of the set, [rbegin()]. *)
  Fixpoint greatest (t : tree) (l : list bid) : outcome (option bid) :=
    match l with
    | [] => Done None
    | x :: l =>
        do r <- greatest t l;
        match r with
        | None => Done (Some x)
        | Some y => do c <- less t x y; Done (Some (if c then y else x))
        end
    end.

  (** A block marked as failed and taken out of the set, main.cpp:1464-1465, 536-539. *)
  Definition fail_block (t : tree) (valid : list bid) (b : bid) : outcome (tree * list bid) :=
    do n <- deref t (Some b);
    Done (fput N.eqb t b (marked n true), drop_bid valid b).

  (** The first loop of [FindMostWorkChain], main.cpp:1439-1442: one round for each block at most. *)
  Fixpoint pop_failed (t : tree) (fuel : nat) (valid : list bid) (most : chain)
    : outcome (list bid * chain) :=
    match c_tip most with
    | None => Done (valid, most)
    | Some m =>
        do n <- deref t (Some m);
        if n_failed n then
          match fuel with
          | O => Undefined
          | S fuel =>
              do r <- c_set_tip t most (n_prev n);
              pop_failed t fuel (drop_bid valid m) (fst r)
          end
        else Done (valid, most)
    end.

  (** The walk from the candidate to the active chain, main.cpp:1457-1472: the first block found
      that is marked as failed. *)
  Fixpoint first_failed (t : tree) (act : chain) (fuel : nat) (p : option bid) : outcome (option bid) :=
    match p with
    | None => Done None
    | Some b =>
        do y <- c_contains t act p;
        if y then Done None
        else
          do n <- deref t p;
          if n_failed n then Done (Some b)
          else match fuel with O => Undefined | S fuel => first_failed t act fuel (n_prev n) end
    end.

  (** The blocks above the failed one, main.cpp:1462-1467. *)
  Fixpoint mark_path (t : tree) (valid : list bid) (fuel : nat) (p : option bid) (stop : bid)
    : outcome (tree * list bid) :=
    match p with
    | None => Undefined
    | Some b =>
        if N.eqb b stop then Done (t, valid)
        else
          match fuel with
          | O => Undefined
          | S fuel =>
              do n <- deref t p;
              do r <- fail_block t valid b;
              mark_path (fst r) (snd r) fuel (n_prev n) stop
          end
    end.

  (** The second loop of [FindMostWorkChain], main.cpp:1444-1478: the candidate it ends with, [None]
      if the set is empty. *)
  Fixpoint choose (t : tree) (valid : list bid) (act : chain) (fuel : nat)
    : outcome (tree * list bid * option bid) :=
    do g <- greatest t valid;
    match g with
    | None => Done (t, valid, None)
    | Some x =>
        do nx <- deref t (Some x);
        do y <- first_failed t act (Z.to_nat (n_height nx)) (Some x);
        match y with
        | None => Done (t, valid, Some x)
        | Some y =>
            match fuel with
            | O => Undefined
            | S fuel =>
                do r <- mark_path t valid (Z.to_nat (n_height nx)) (Some x) y;
                choose (fst r) (snd r) act fuel
            end
        end
    end.

  (** [FindMostWorkChain], main.cpp:1435-1485. *)
  Definition find_most (s : sel) : outcome sel :=
    do p <- pop_failed (s_tree s) (length (s_most s)) (s_valid s) (s_most s);
    do r <- choose (s_tree s) (fst p) (s_act s) (length (fst p));
    let t := fst (fst r) in
    let valid := snd (fst r) in
    match snd r with
    | None => Done (mkSel t valid (s_act s) (snd p))
    | Some x =>
        do better <- (match c_tip (snd p) with None => Done true | Some m => less t m x end);
        if better : bool then do m <- c_set_tip t (snd p) (Some x); Done (mkSel t valid (s_act s) (fst m))
        else Done (mkSel t valid (s_act s) (snd p))
    end.

  (** [ConnectTip], main.cpp:1391-1431, with [InvalidBlockFound], 519-542. *)
  Definition connect_tip (v : verdict) (s : sel) (b : bid) : outcome sel :=
    do n <- deref (s_tree s) (Some b);
    do _ <- asserted (opt_eqb (n_prev n) (c_tip (s_act s)));
    match v with
    | VOk => do r <- c_set_tip (s_tree s) (s_act s) (Some b);
             Done (mkSel (s_tree s) (s_valid s) (fst r) (s_most s))
    | VInvalid => do r <- fail_block (s_tree s) (s_valid s) b;
                  Done (mkSel (fst r) (snd r) (s_act s) (s_most s))
    | VError => Done s
    end.

  (** [DisconnectTip], main.cpp:1344-1388. *)
  Definition disconnect_tip (s : sel) : outcome sel :=
    match c_tip (s_act s) with
    | None => Abort
    | Some b =>
        do n <- deref (s_tree s) (Some b);
        do r <- c_set_tip (s_tree s) (s_act s) (n_prev n);
        Done (mkSel (s_tree s) (s_valid s) (fst r) (s_most s))
    end.

  (** [GetLocalFinIndex], pbftmanager.cpp:33-36, and [GetGlobalFinIndex], 39-42. *)
  Definition local_fin (act : chain) (f : fin) : option bid :=
    match f_local f with Some b => Some b | None => c_at act 0 end.
  Definition global_fin (act : chain) (f : fin) : option bid :=
    match f_global f with Some b => Some b | None => c_at act 0 end.

  (** [GetGlobalFinBlockHash], pbftmanager.cpp:44-62: the hash, and what is remembered. *)
  Definition global_hash (act : chain) (f : fin) : option bid * fin :=
    match f_global f with
    | Some b => (Some b, f)
    | None =>
        match f_hash f with
        | Some h => (Some h, f)
        | None =>
            let h := match f_record f with
                     | Some r => Some (snd r)
                     | None => c_at act 0
                     end in
            (h, mkFin (f_local f) (f_time f) (f_global f) h (f_record f))
        end
    end.

  (** Whether the active chain may be left, main.cpp:1519-1545: scanning down from height [k - 1]. *)
  Inductive leave := Free | Held | Hole.
  Fixpoint scan (t : tree) (act most : chain) (now : Z) (f : fin) (k : nat) : outcome (leave * fin) :=
    match k with
    | O => Done (Free, f)
    | S k =>
        match c_at act (Z.of_nat k) with
        | None => Done (Hole, f)
        | Some x =>
            do y <- c_contains t most (Some x);
            if y then Done (Free, f)
            else
              let local := opt_eqb (local_fin act f) (Some x) in
              if local && negb (60 <? now - f_time f) then Done (Held, f)
              else
                let f1 := if local then mkFin (c_at act 0) (f_time f) (f_global f) (f_hash f) (f_record f)
                          else f in
                let (h, f2) := global_hash act f1 in
                if opt_eqb h (Some x) then Done (Held, f2) else scan t act most now f2 k
        end
    end.

  (** [ConnectBlockOnFinChain], main.cpp:1487-1504: the new state and what it returns. *)
  Definition connect_on_fin (v : verdict) (s : sel) (new : option bid) : outcome (sel * bool) :=
    match new with
    | None => Done (s, true)
    | Some b =>
        do n <- deref (s_tree s) (Some b);
        if opt_eqb (c_tip (s_act s)) (n_prev n) then
          do s1 <- connect_tip v s b;
          Done (s1, match v with VError => false | _ => true end)
        else Done (s, true)
    end.

  (** The loop that disconnects, main.cpp:1548-1554. *)
  Fixpoint disconnect_all (fuel : nat) (s : sel) : outcome sel :=
    match c_tip (s_act s) with
    | None => Done s
    | Some b =>
        do y <- c_contains (s_tree s) (s_most s) (Some b);
        if y then Done s
        else match fuel with
             | O => Undefined
             | S fuel => do s1 <- disconnect_tip s; disconnect_all fuel s1
             end
    end.

  (** The loop that connects, main.cpp:1557-1576: how it ended. *)
  Inductive ended := Complete | Again | Failed.
  Fixpoint connect_all (fuel : nat) (v : bid -> verdict) (s : sel) : outcome (sel * ended) :=
    do y <- c_contains (s_tree s) (s_act s) (c_tip (s_most s));
    if y then Done (s, Complete)
    else
      match fuel with
      | O => Undefined
      | S fuel =>
          match c_at (s_most s) (c_height (s_act s) + 1) with
          | None => Undefined
          | Some b =>
              do s1 <- connect_tip (v b) s b;
              match v b with
              | VOk => connect_all fuel v s1
              | VInvalid => Done (s1, Again)
              | VError => Done (s1, Failed)
              end
          end
      end.

  (** How [ActivateBestChain] ended: on the best chain, kept on the final chain, or with an error
      ([true] or [false] is what it returns in the middle case). *)
  Inductive result := Best | Kept (ok : bool) | Error.

  (** [ActivateBestChain], main.cpp:1506-1588: [fuel] rounds, the verdicts of a round given by its
      number. *)
  Fixpoint activate (fuel : nat) (v : nat -> bid -> verdict) (now : Z) (s : sel) (f : fin)
    (new : option bid) : outcome (sel * fin * result) :=
    match fuel with
    | O => Undefined
    | S fuel =>
        do s1 <- find_most s;
        match c_tip (s_most s1) with
        | None => Done (s1, f, Best)
        | Some _ =>
            do r <- scan (s_tree s1) (s_act s1) (s_most s1) now f (length (s_act s1));
            match fst r with
            | Hole => Done (s1, snd r, Best)
            | Held =>
                do k <- connect_on_fin (match new with Some b => v fuel b | None => VOk end) s1 new;
                Done (fst k, snd r, Kept (snd k))
            | Free =>
                do s2 <- disconnect_all (length (s_act s1)) s1;
                do e <- connect_all (length (s_most s2)) (v fuel) s2;
                match snd e with
                | Complete => Done (fst e, snd r, Best)
                | Failed => Done (fst e, snd r, Error)
                | Again => activate fuel v now (fst e) (snd r) new
                end
            end
        end
    end.
End Select.
