(** The theorems about Merkle trees: C31, C61 and C62. *)
From Coq Require Import List Bool Arith NArith Lia.
From Coq Require Import ZifyBool ZifyNat ZifyN.
From Verif Require Import MerkleModel MerkleSpec MerkleProofs.
Import ListNotations.
Open Scope nat_scope.

(** * C31: a filtered block proves exactly the selected transactions *)
Section C31.
  Context {H : Type}.
  Variable comb : H -> H -> H.
  Variable zero : H.

  (** The partial tree made from any ids and any selection gives back the selected ids, in order,
      and the root of the block; so does the one read by the peer it was sent to. *)
  Theorem c31_extract : forall ids mask r,
    ids <> [] -> length mask = length ids -> (N.of_nat (length ids) <= MAX_TXS)%N ->
    root_of comb ids r ->
    merkle_root comb zero ids = r
    /\ extract_matches comb zero (partial_new comb zero ids mask) = (r, selected ids mask)
    /\ extract_matches comb zero (sent (partial_new comb zero ids mask)) = (r, selected ids mask).
  Proof.
    intros ids mask r N E M R.
    assert (X : merkle_root comb zero ids = r)
      by (eapply root_fun; [now apply merkle_root_ok|easy]).
    split; [easy|]. rewrite <- X. split.
    - pose proof (extract_padded comb zero ids mask [] E N M) as Y. cbn zeta in Y.
      rewrite app_nil_r in Y. apply Y. cbn [length]. now rewrite Nat.add_0_r.
    - unfold sent.
      destruct (pack_bits comb zero (length (p_bits (partial_new comb zero ids mask)))
                          (p_bits (partial_new comb zero ids mask)) (le_n _)) as (k & P & Q).
      rewrite P. apply (extract_padded comb zero ids mask (repeat false k) E N M).
      cbn zeta. now rewrite repeat_length.
  Qed.

  (** Whatever a peer sends: if it names the right number of transactions and gives the root of
      the block, then what is extracted are ids of the block, in their order. *)
  Theorem c31_sound : forall ids bits hashes ms r,
    collision_free comb -> ids <> [] -> root_of comb ids r -> r <> zero ->
    extract_matches comb zero (mkPartial (length ids) bits hashes false) = (r, ms) ->
    exists mask, length mask = length ids /\ ms = selected ids mask.
  Proof.
    intros ids bits hashes ms r Fr N R Z E. unfold extract_matches in E.
    cbn [p_count p_bits p_hashes p_bad] in E.
    destruct (length ids =? 0); [injection E as <- _; easy|].
    destruct (MAX_TXS <? N.of_nat (length ids))%N; [injection E as <- _; easy|].
    destruct (length ids <? length hashes); [injection E as <- _; easy|].
    destruct (length bits <? length hashes); [injection E as <- _; easy|].
    destruct (extract comb zero (length ids) (tree_height (length ids)) 0 _) as [x q] eqn:X.
    cbn [fst snd] in E. destruct (q_bad q) eqn:B; [injection E as <- _; easy|].
    destruct (negb _); [injection E as <- _; easy|].
    destruct (negb _); [injection E as <- _; easy|]. injection E as -> <-.
    assert (T : level comb (tree_height (length ids)) ids = [r]).
    { rewrite (top_level comb zero) by easy. f_equal. eapply root_fun; [now apply merkle_root_ok|easy]. }
    assert (P : 0 < length ids) by (destruct ids; [easy|cbn; lia]).
    destruct (tree_height_ok comb zero _ P) as [W _].
    destruct (extract_sound comb zero Fr ids (tree_height (length ids)) 0
                (mkCursor bits hashes [] false) q) as (m & L & Ms); [lia| |easy|].
    - rewrite T. exact X.
    - rewrite (slice_top comb zero) in L, Ms by easy. exists m. split; [easy|exact Ms].
  Qed.

  (** With a wrong number of transactions an inner node passes for an id. *)
  Theorem c31_count_refuted : forall a b c d, exists t,
    extract_matches comb zero t = (merkle_root comb zero [a; b; c; d], [comb a b]).
  Proof.
    intros a b c d. exists (mkPartial 2 [true; true; false] [comb a b; comb c d] false). reflexivity.
  Qed.
End C31.

(** * C61: a Merkle branch leads from a transaction to the root, and only from it *)
Section C61.
  Context {H : Type}.
  Variable comb : H -> H -> H.
  Variable zero : H.

  Theorem c61_branch : forall ids i r, i < length ids -> root_of comb ids r ->
    check_branch comb (nth i ids zero) (merkle_branch comb zero ids i) i = r.
  Proof.
    intros ids i r L R. assert (N : ids <> []) by (destruct ids; [cbn in L; lia|easy]).
    transitivity (merkle_root comb zero ids).
    - unfold merkle_branch, merkle_root, merkle_tree, tree_rows. now apply branch_ok.
    - eapply root_fun; [now apply merkle_root_ok|easy].
  Qed.

  (** Another branch of the same length that leads to the root starts from the same id. *)
  Theorem c61_unique : forall ids i r x br, collision_free comb ->
    i < length ids -> root_of comb ids r ->
    length br = length (merkle_branch comb zero ids i) ->
    check_branch comb x br i = r -> x = nth i ids zero.
  Proof.
    intros ids i r x br Fr L R Lb E. rewrite <- (c61_branch ids i r L R) in E.
    now apply (check_inj comb Fr) in E.
  Qed.
End C61.

(** * C62: the Merkle root of an accepted block fixes its transactions *)
Section C62.
  Context {H : Type}.
  Variable comb : H -> H -> H.
  Variable zero : H.
  Variable eqb : H -> H -> bool.
  Hypothesis eqb_ok : forall a b, eqb a b = true <-> a = b.

  Lemma distinct_nodup l : distinct eqb l = true -> NoDup l.
  Proof.
    induction l as [|x l IH]; cbn; [constructor|]. intros E. apply andb_true_iff in E.
    destruct E as [A B]. constructor; [|auto]. intros I. apply negb_true_iff in A.
    assert (existsb (eqb x) l = true); [|congruence]. apply existsb_exists. exists x.
    split; [easy|]. now apply eqb_ok.
  Qed.

  (** If no id is itself a combination of two hashes, two lists of ids accepted with the same root
      are the same list. *)
  Theorem c62_content : forall root ids1 ids2, collision_free comb ->
    (forall x a b, In x ids1 \/ In x ids2 -> x <> comb a b) ->
    check_ids comb zero eqb root ids1 = true -> check_ids comb zero eqb root ids2 = true ->
    ids1 = ids2.
  Proof.
    intros root ids1 ids2 Fr Lf C1 C2.
    assert (N1 : ids1 <> []) by (destruct ids1; [discriminate|easy]).
    assert (N2 : ids2 <> []) by (destruct ids2; [discriminate|easy]).
    assert (A1 : distinct eqb ids1 = true /\ root = merkle_root comb zero ids1).
    { unfold check_ids in C1. destruct ids1; [discriminate|]. apply andb_true_iff in C1.
      split; [apply C1|]. now apply eqb_ok. }
    assert (A2 : distinct eqb ids2 = true /\ root = merkle_root comb zero ids2).
    { unfold check_ids in C2. destruct ids2; [discriminate|]. apply andb_true_iff in C2.
      split; [apply C2|]. now apply eqb_ok. }
    destruct A1 as [D1 R1], A2 as [D2 R2]. apply distinct_nodup in D1, D2.
    pose proof (top_level comb zero ids1 N1) as T1. pose proof (top_level comb zero ids2 N2) as T2.
    rewrite <- R1 in T1. rewrite <- R2 in T2.
    assert (K : tree_height (length ids1) = tree_height (length ids2)).
    { apply (same_height comb zero Fr _ _ ids1 ids2 N1 N2 Lf). now rewrite T1, T2. }
    rewrite K in T1. apply (level_inj_nodup comb Fr (tree_height (length ids2))); [easy|easy|congruence].
  Qed.

  (** For lists of the same length the root alone is enough. *)
  Theorem c62_same_length : forall ids1 ids2 r, collision_free comb -> length ids1 = length ids2 ->
    root_of comb ids1 r -> root_of comb ids2 r -> ids1 = ids2.
  Proof.
    intros ids1 ids2 r Fr L R1 R2.
    assert (N1 : ids1 <> []) by (intros ->; inversion R1).
    assert (N2 : ids2 <> []) by (intros ->; inversion R2).
    pose proof (top_level comb zero ids1 N1) as T1. pose proof (top_level comb zero ids2 N2) as T2.
    rewrite (root_fun comb ids1 _ r (merkle_root_ok comb zero ids1 N1) R1) in T1.
    rewrite (root_fun comb ids2 _ r (merkle_root_ok comb zero ids2 N2) R2) in T2.
    rewrite L in T1. apply (level_inj comb zero Fr (tree_height (length ids2))); [easy|congruence].
  Qed.

  (** Neither condition can be left out: with a repeated id, or with ids that are combinations,
      different lists have the same root. *)
  Theorem c62_repeated_refuted : forall a b c,
    merkle_root comb zero [a; b; c] = merkle_root comb zero [a; b; c; c].
  Proof. reflexivity. Qed.
  Theorem c62_inner_refuted : forall a b c d,
    merkle_root comb zero [comb a b; comb c d] = merkle_root comb zero [a; b; c; d].
  Proof. reflexivity. Qed.
End C62.

Section Instance.
  (** Hashes as binary trees, for which combining is free of collisions. *)
  Inductive tree := Leaf (n : nat) | Node (l r : tree).
  Fixpoint tree_eqb (a b : tree) : bool :=
    match a, b with
    | Leaf n, Leaf m => n =? m
    | Node l r, Node l' r' => tree_eqb l l' && tree_eqb r r'
    | _, _ => false
    end.
  Definition five : list tree := map Leaf [1; 2; 3; 4; 5].

  Example node_free : collision_free Node.
  Proof. intros a b c d E. injection E as -> ->. auto. Qed.

  Example c31_example :
    extract_matches Node (Leaf 0) (sent (partial_new Node (Leaf 0) five [false; true; false; false; true]))
    = (merkle_root Node (Leaf 0) five, [Leaf 2; Leaf 5])
    /\ p_hashes (partial_new Node (Leaf 0) five [false; true; false; false; true])
       = [Leaf 1; Leaf 2; Node (Leaf 3) (Leaf 4); Leaf 5].
  Proof. vm_compute. auto. Qed.

  Example c61_example :
    check_branch Node (Leaf 5) (merkle_branch Node (Leaf 0) five 4) 4 = merkle_root Node (Leaf 0) five
    /\ length (merkle_branch Node (Leaf 0) five 4) = 3.
  Proof. vm_compute. auto. Qed.

  Example c62_example :
    check_ids Node (Leaf 0) tree_eqb (merkle_root Node (Leaf 0) five) five = true
    /\ check_ids Node (Leaf 0) tree_eqb (merkle_root Node (Leaf 0) five) (five ++ [Leaf 5]) = false
    /\ (forall x a b, In x five -> x <> Node a b).
  Proof.
    split; [vm_compute; reflexivity|]. split; [vm_compute; reflexivity|].
    intros x a b I. cbn in I. intuition (subst; discriminate).
  Qed.
End Instance.

Print Assumptions c31_extract.
Print Assumptions c31_sound.
Print Assumptions c31_count_refuted.
Print Assumptions c61_branch.
Print Assumptions c61_unique.
Print Assumptions c62_content.
Print Assumptions c62_same_length.
Print Assumptions c62_repeated_refuted.
Print Assumptions c62_inner_refuted.
