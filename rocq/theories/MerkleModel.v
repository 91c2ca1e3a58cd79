(** Model of Merkle trees: the root of a block, branches, and partial trees for filtered blocks.

    Source: /repo/src/persistence/block.cpp, /repo/src/chain/merkletree.h, merkletree.cpp,
    /repo/src/main.cpp (CheckBlock).

    Simplifications: hashes are the elements of any type; [comb] is the double hash of two of
    them. Positions and counts are natural numbers: the 32-bit arithmetic of the code is exact as
    long as there are fewer than 2^30 transactions, and a block has at most 4 000 000 bytes.
    [vMatch] has the length of [vTxid], as in the only call (merkletree.cpp:139-149). *)
From Coq Require Import List Bool Arith NArith.
Import ListNotations.
Open Scope nat_scope.

Section Merkle.
  Context {H : Type}.
  Variable comb : H -> H -> H.
  Variable zero : H.                            (* uint256() *)

  (** One round of the outer loop of [BuildMerkleTree], block.cpp:34-38: element [i] is combined
      with element [min(i + 1, nSize - 1)]. *)
  Fixpoint pair_up (l : list H) : list H :=
    match l with
    | [] => []
    | [x] => [comb x x]
    | x :: y :: r => comb x y :: pair_up r
    end.

  (** The rows that the outer loop appends, block.cpp:33-40. *)
  Fixpoint more_rows (fuel : nat) (l : list H) : list (list H) :=
    match fuel with
    | O => []
    | S fuel => match l with
                | _ :: _ :: _ => pair_up l :: more_rows fuel (pair_up l)
                | _ => []
                end
    end.

  (** [vMerkleTree] after [BuildMerkleTree], block.cpp:27-41. *)
  Definition tree_rows (ids : list H) : list (list H) := ids :: more_rows (length ids) ids.
  Definition merkle_tree (ids : list H) : list H := concat (tree_rows ids).

  (** What [BuildMerkleTree] returns, block.cpp:41. *)
  Definition merkle_root (ids : list H) : H := last (merkle_tree ids) zero.

  (** [index ^ 1] for an index that is not negative. *)
  Definition flip (i : nat) : nat := if Nat.even i then i + 1 else i - 1.

  (** The loop of [GetMerkleBranch], block.cpp:48-54, over the rows with more than one element;
      [vMerkleTree[j + i]] is element [i] of the row that starts at [j]. *)
  Fixpoint branch_loop (rows : list (list H)) (i : nat) : list H :=
    match rows with
    | [] => []
    | row :: rows' =>
        if 1 <? length row
        then nth (Nat.min (flip i) (length row - 1)) row zero :: branch_loop rows' (i / 2)
        else []
    end.
  Definition merkle_branch (ids : list H) (i : nat) : list H := branch_loop (tree_rows ids) i.

  (** [CheckMerkleBranch], block.cpp:58-69, for an index that is not negative. *)
  Fixpoint check_branch (x : H) (br : list H) (i : nat) : H :=
    match br with
    | [] => x
    | o :: br' => check_branch (if Nat.odd i then comb o x else comb x o) br' (i / 2)
    end.

  (** [CalcTreeWidth], merkletree.h:61-63. *)
  Definition width (n h : nat) : nat := (n + 2 ^ h - 1) / 2 ^ h.

  (** [CalcHash], merkletree.cpp:11-26. *)
  Fixpoint calc_hash (n : nat) (h pos : nat) (ids : list H) : H :=
    match h with
    | O => nth pos ids zero
    | S h => let left := calc_hash n h (pos * 2) ids in
             let right := if pos * 2 + 1 <? width n h then calc_hash n h (pos * 2 + 1) ids else left in
             comb left right
    end.

  (** Whether a leaf below node [pos] of height [h] is selected, merkletree.cpp:30-32. *)
  Definition covers (n h pos : nat) (mask : list bool) : bool :=
    existsb (fun p => nth p mask false)
            (seq (pos * 2 ^ h) (Nat.min ((pos + 1) * 2 ^ h) n - pos * 2 ^ h)).

  (** [TraverseAndBuild], merkletree.cpp:28-44: the bits and hashes it appends. *)
  Fixpoint build (n : nat) (h pos : nat) (ids : list H) (mask : list bool) : list bool * list H :=
    match h with
    | O => ([covers n 0 pos mask], [calc_hash n 0 pos ids])
    | S h' =>
        if covers n h pos mask then
          let l := build n h' (pos * 2) ids mask in
          let r := if pos * 2 + 1 <? width n h' then build n h' (pos * 2 + 1) ids mask else ([], []) in
          (true :: fst l ++ fst r, snd l ++ snd r)
        else ([false], [calc_hash n h pos ids])
    end.

  (** The members of [CPartialMerkleTree], merkletree.h:49-58. *)
  Record partial := mkPartial { p_count : nat; p_bits : list bool; p_hashes : list H; p_bad : bool }.

  (** The height of the tree, merkletree.cpp:84-86, 109-111; the loop ends within [n] rounds. *)
  Fixpoint height_loop (fuel n h : nat) : nat :=
    match fuel with
    | O => h
    | S fuel => if 1 <? width n h then height_loop fuel n (S h) else h
    end.
  Definition tree_height (n : nat) : nat := height_loop n n 0.

  (** The constructor, merkletree.cpp:77-90. *)
  Definition partial_new (ids : list H) (mask : list bool) : partial :=
    let n := length ids in
    let r := build n (tree_height n) 0 ids mask in
    mkPartial n (fst r) (snd r) false.

  (** What [TraverseAndExtract] works on: the bits and hashes not used yet, the matches found, and
      [fBad]. *)
  Record cursor := mkCursor { q_bits : list bool; q_hashes : list H; q_match : list H; q_bad : bool }.

  (** [TraverseAndExtract], merkletree.cpp:46-75. *)
  Fixpoint extract (n : nat) (h pos : nat) (q : cursor) : H * cursor :=
    match q_bits q with
    | [] => (zero, mkCursor [] (q_hashes q) (q_match q) true)
    | b :: bs =>
        let leaf :=
          match q_hashes q with
          | [] => (zero, mkCursor bs [] (q_match q) true)
          | x :: xs => (x, mkCursor bs xs
                             (if (h =? 0) && b then q_match q ++ [x] else q_match q) (q_bad q))
          end in
        match h with
        | O => leaf
        | S h' =>
            if b then
              let l := extract n h' (pos * 2) (mkCursor bs (q_hashes q) (q_match q) (q_bad q)) in
              let r := if pos * 2 + 1 <? width n h' then extract n h' (pos * 2 + 1) (snd l)
                       else (fst l, snd l) in
              (comb (fst l) (fst r), snd r)
            else leaf
        end
    end.

  (** [MAX_BLOCK_SIZE / 60], const.h:151, merkletree.cpp:100. *)
  Definition MAX_TXS : N := 66666.

  (** [ExtractMatches], merkletree.cpp:94-125: the root, [zero] on failure, and the matches. *)
  Definition extract_matches (t : partial) : H * list H :=
    if p_count t =? 0 then (zero, [])
    else if (MAX_TXS <? N.of_nat (p_count t))%N then (zero, [])
    else if p_count t <? length (p_hashes t) then (zero, [])
    else if length (p_bits t) <? length (p_hashes t) then (zero, [])
    else
      let r := extract (p_count t) (tree_height (p_count t)) 0
                 (mkCursor (p_bits t) (p_hashes t) [] (p_bad t)) in
      let used := length (p_bits t) - length (q_bits (snd r)) in
      if q_bad (snd r) then (zero, q_match (snd r))
      else if negb ((used + 7) / 8 =? (length (p_bits t) + 7) / 8) then (zero, q_match (snd r))
      else if negb (length (q_hashes (snd r)) =? 0) then (zero, q_match (snd r))
      else (fst r, q_match (snd r)).

  (** Up to eight bits in a byte, least significant first, merkletree.h:89-91. *)
  Fixpoint byte_of (bs : list bool) : N :=
    match bs with [] => 0%N | b :: bs => (2 * byte_of bs + N.b2n b)%N end.
  Fixpoint pack (fuel : nat) (bs : list bool) : list N :=
    match fuel, bs with
    | S fuel, _ :: _ => byte_of (firstn 8 bs) :: pack fuel (skipn 8 bs)
    | _, _ => []
    end.

  (** The eight bits of a byte, merkletree.h:84-86. *)
  Definition bits_of (b : N) : list bool := map (fun i => N.testbit b (N.of_nat i)) (seq 0 8).

  (** Writing a partial tree and reading it again, merkletree.h:77-93: count and hashes are
      unchanged (c04), the bits go through bytes. *)
  Definition sent (t : partial) : partial :=
    mkPartial (p_count t) (concat (map bits_of (pack (length (p_bits t)) (p_bits t))))
              (p_hashes t) false.

  (** The two checks of [CheckBlock] that concern us, main.cpp:1845-1872: ids differ, and the root
      is that of the header. *)
  Variable eqb : H -> H -> bool.
  Fixpoint distinct (l : list H) : bool :=
    match l with [] => true | x :: l => negb (existsb (eqb x) l) && distinct l end.
  Definition check_ids (root : H) (ids : list H) : bool :=
    match ids with [] => false | _ => distinct ids && eqb root (merkle_root ids) end.
End Merkle.
Arguments mkPartial {H}.
Arguments p_count {H}.
Arguments p_bits {H}.
Arguments p_hashes {H}.
Arguments p_bad {H}.
Arguments mkCursor {H}.
Arguments q_bits {H}.
Arguments q_hashes {H}.
Arguments q_match {H}.
Arguments q_bad {H}.
Arguments sent {H}.
