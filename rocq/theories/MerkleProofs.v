(** Proofs about Merkle trees. *)
From Coq Require Import List Bool Arith NArith Lia.
From Coq Require Import ZifyBool ZifyNat ZifyN.
From Verif Require Import MerkleModel MerkleSpec.
Import ListNotations.
Open Scope nat_scope.

Lemma existsb_ext {A} (f g : A -> bool) l : (forall x, In x l -> f x = g x) -> existsb f l = existsb g l.
Proof.
  induction l as [|x l IH]; cbn; [easy|]. intros E. rewrite E, IH by auto. easy.
Qed.

Section Merkle.
  Context {H : Type}.
  Variable comb : H -> H -> H.
  Variable zero : H.

  (** * Rows *)
  Fixpoint level (k : nat) (l : list H) : list H :=
    match k with O => l | S k => pair_up comb (level k l) end.

  Lemma pair_up_length l : length (pair_up comb l) = (length l + 1) / 2.
  Proof.
    enough (G : forall n l, length l <= n -> length (pair_up comb l) = (length l + 1) / 2) by eauto.
    intros n. induction n as [|n IH]; intros [|x [|y r]] L; cbn in L; try reflexivity; try lia.
    cbn [pair_up length]. rewrite IH by lia.
    replace (S (S (length r)) + 1) with (length r + 1 + 1 * 2) by lia.
    rewrite Nat.div_add by lia. lia.
  Qed.

  Lemma pair_up_nth p l : 2 * p < length l ->
    nth p (pair_up comb l) zero
    = comb (nth (p * 2) l zero) (if p * 2 + 1 <? length l then nth (p * 2 + 1) l zero else nth (p * 2) l zero).
  Proof.
    revert l. induction p as [|p IH]; intros l L.
    - destruct l as [|x [|y r]]; cbn in L; try lia; reflexivity.
    - destruct l as [|x [|y r]]; cbn in L; try lia.
      cbn [pair_up nth]. rewrite IH by lia.
      replace (S p * 2) with (S (S (p * 2))) by lia. cbn [nth].
      replace (S (S (p * 2)) + 1) with (S (S (p * 2 + 1))) by lia. cbn [nth length].
      replace (S (S (p * 2 + 1)) <? S (S (length r))) with (p * 2 + 1 <? length r); [easy|].
      destruct (Nat.ltb_spec (p * 2 + 1) (length r)), (Nat.ltb_spec (S (S (p * 2 + 1))) (S (S (length r)))); easy || lia.
  Qed.

  Lemma pow2_pos h : 0 < 2 ^ h.
  Proof. apply Nat.neq_0_lt_0, Nat.pow_nonzero. lia. Qed.

  Lemma width_zero n : width n 0 = n.
  Proof. unfold width. cbn [Nat.pow]. rewrite Nat.div_1_r. lia. Qed.
  Lemma width_succ n h : width n (S h) = (width n h + 1) / 2.
  Proof.
    unfold width. pose proof (pow2_pos h) as P.
    transitivity ((n + 2 ^ h - 1 + 1 * 2 ^ h) / 2 ^ h / 2).
    - rewrite Nat.div_div by lia. rewrite (Nat.mul_comm (2 ^ h) 2).
      cbn [Nat.pow]. f_equal. lia.
    - rewrite Nat.div_add by lia. reflexivity.
  Qed.
  Lemma level_length k l : length (level k l) = width (length l) k.
  Proof.
    induction k as [|k IH]; [now rewrite width_zero|].
    cbn [level]. rewrite pair_up_length, IH, width_succ. reflexivity.
  Qed.
  Lemma below_width n h p : p < width n h <-> p * 2 ^ h < n.
  Proof.
    unfold width. pose proof (pow2_pos h) as P.
    split; intros L.
    - destruct (Nat.lt_ge_cases (p * 2 ^ h) n) as [C|C]; [easy|exfalso].
      assert ((n + 2 ^ h - 1) / 2 ^ h < p + 1).
      { apply Nat.div_lt_upper_bound; [lia|]. rewrite Nat.mul_add_distr_l, (Nat.mul_comm _ p). lia. }
      assert (G : (n + 2 ^ h - 1) / 2 ^ h <= p).
      { lia. }
      lia.
    - assert (p + 1 <= (n + 2 ^ h - 1) / 2 ^ h); [|lia].
      apply Nat.div_le_lower_bound; [lia|]. rewrite Nat.mul_add_distr_l, (Nat.mul_comm _ p). lia.
  Qed.
  Lemma width_child n h p : p < width n (S h) -> p * 2 < width n h.
  Proof.
    rewrite !below_width. cbn [Nat.pow]. intros L.
    replace (p * 2 * 2 ^ h) with (p * (2 ^ h + (2 ^ h + 0))) by lia. exact L.
  Qed.

  Lemma calc_hash_level ids h p : p < width (length ids) h ->
    calc_hash comb zero (length ids) h p ids = nth p (level h ids) zero.
  Proof.
    revert p. induction h as [|h IH]; intros p L; [reflexivity|].
    pose proof (width_child _ _ _ L) as C. cbn [calc_hash level].
    rewrite pair_up_nth by (rewrite level_length; lia). rewrite level_length, IH by easy.
    destruct (Nat.ltb_spec (p * 2 + 1) (width (length ids) h)); [|easy].
    now rewrite IH.
  Qed.

  (** * The root *)
  Lemma next_pair_up l : next_row comb l (pair_up comb l).
  Proof.
    enough (G : forall n l, length l <= n -> next_row comb l (pair_up comb l)) by eauto.
    intros n. induction n as [|n IH]; intros [|x [|y r]] L; cbn in L; try constructor; try lia.
    apply IH. lia.
  Qed.
  Lemma next_fun l a : next_row comb l a -> a = pair_up comb l.
  Proof. induction 1; cbn; congruence. Qed.
  Lemma root_fun l a b : root_of comb l a -> root_of comb l b -> a = b.
  Proof.
    intros A. revert b. induction A as [x|x y l l' r N R IH]; intros b B; inversion B; subst; [easy|].
    apply IH. apply next_fun in N. match goal with Q : next_row _ _ _ |- _ => apply next_fun in Q end.
    congruence.
  Qed.

  Lemma last_app {A} (a b : list A) d : b <> [] -> last (a ++ b) d = last b d.
  Proof.
    intros N. induction a as [|x a IH]; [easy|]. cbn [app last].
    destruct (a ++ b) eqn:E; [apply app_eq_nil in E; easy|]. exact IH.
  Qed.
  Lemma rows_root fuel l : l <> [] -> length l <= fuel ->
    root_of comb l (last (concat (l :: more_rows comb fuel l)) zero).
  Proof.
    revert l. induction fuel as [|fuel IH]; intros l N L; [destruct l; cbn in L; easy || lia|].
    destruct l as [|x [|y r]]; [easy|cbn; constructor|].
    cbn [more_rows concat]. rewrite last_app.
    - econstructor; [apply next_pair_up|]. apply IH; [cbn; discriminate|].
      rewrite pair_up_length. cbn [length] in *.
      apply Nat.lt_succ_r, Nat.div_lt_upper_bound; lia.
    - cbn. discriminate.
  Qed.
  Lemma merkle_root_ok ids : ids <> [] -> root_of comb ids (merkle_root comb zero ids).
  Proof. intros N. now apply rows_root. Qed.

  Lemma level_root k l r : (forall j, j < k -> 1 < length (level j l)) -> level k l = [r] -> root_of comb l r.
  Proof.
    revert r. enough (G : forall m x, (forall j, j < k -> 1 < length (level j l)) -> m <= k ->
      root_of comb (level m l) x -> root_of comb l x).
    { intros r A E. apply (G k r A (le_n k)). rewrite E. constructor. }
    induction m as [|m IH]; intros x A Le R; [exact R|]. apply IH; [easy|lia|].
    specialize (A m ltac:(lia)). destruct (level m l) as [|a [|b t]] eqn:E; cbn in A; try lia.
    econstructor; [apply next_pair_up|]. cbn [level] in R. now rewrite E in R.
  Qed.

  Lemma height_loop_ok fuel n h : width n (h + fuel) <= 1 -> (forall j, j < h -> 1 < width n j) ->
    width n (height_loop fuel n h) <= 1 /\ (forall j, j < height_loop fuel n h -> 1 < width n j).
  Proof.
    revert h. induction fuel as [|fuel IH]; intros h A B; cbn [height_loop].
    - rewrite Nat.add_0_r in A. auto.
    - destruct (Nat.ltb_spec 1 (width n h)) as [C|C]; [|auto].
      apply IH; [now rewrite Nat.add_succ_r in A|]. intros j L.
      destruct (Nat.eq_dec j h) as [->|N]; [easy|apply B; lia].
  Qed.
  Lemma width_le_one n h : n <= 2 ^ h -> width n h <= 1.
  Proof.
    intros L. unfold width. pose proof (pow2_pos h).
    assert ((n + 2 ^ h - 1) / 2 ^ h < 2); [|lia]. apply Nat.div_lt_upper_bound; lia.
  Qed.
  Lemma tree_height_ok n : 0 < n ->
    width n (tree_height n) = 1 /\ (forall j, j < tree_height n -> 1 < width n j).
  Proof.
    intros P. destruct (height_loop_ok n n 0) as [A B].
    - apply width_le_one. cbn. apply Nat.lt_le_incl, Nat.pow_gt_lin_r. lia.
    - lia.
    - split; [|exact B]. assert (0 < width n (tree_height n)); [|unfold tree_height in *; lia].
      apply below_width. lia.
  Qed.
  Lemma top_level ids : ids <> [] -> level (tree_height (length ids)) ids = [merkle_root comb zero ids].
  Proof.
    intros N. assert (P : 0 < length ids) by (destruct ids; [easy|cbn; lia]).
    destruct (tree_height_ok _ P) as [A B].
    pose proof (level_length (tree_height (length ids)) ids) as L. rewrite A in L.
    destruct (level (tree_height (length ids)) ids) as [|r [|]] eqn:E; cbn in L; try lia.
    f_equal. apply root_fun with ids; [|now apply merkle_root_ok].
    apply level_root with (tree_height (length ids)); [|easy].
    intros j J. rewrite level_length. now apply B.
  Qed.

  (** * Slices: the leaves below a node *)
  Definition slice {A} (h p : nat) (l : list A) : list A := firstn (2 ^ h) (skipn (p * 2 ^ h) l).

  Lemma firstn_plus {A} a b (l : list A) : firstn (a + b) l = firstn a l ++ firstn b (skipn a l).
  Proof.
    revert l. induction a as [|a IH]; intros l; [easy|]. destruct l as [|x l]; cbn.
    - now rewrite firstn_nil.
    - now rewrite IH.
  Qed.
  Lemma skipn_plus {A} a b (l : list A) : skipn a (skipn b l) = skipn (b + a) l.
  Proof.
    revert l. induction b as [|b IH]; intros l; [easy|]. destruct l as [|x l]; cbn.
    - now rewrite skipn_nil.
    - apply IH.
  Qed.
  Lemma slice_succ {A} h p (l : list A) : slice (S h) p l = slice h (p * 2) l ++ slice h (p * 2 + 1) l.
  Proof.
    unfold slice. replace (2 ^ S h) with (2 ^ h + 2 ^ h) by (cbn; lia). rewrite firstn_plus, skipn_plus.
    replace (p * (2 ^ h + 2 ^ h)) with (p * 2 * 2 ^ h) by lia.
    replace ((p * 2 + 1) * 2 ^ h) with (p * 2 * 2 ^ h + 2 ^ h) by lia. reflexivity.
  Qed.
  Lemma slice_beyond {A} h p (l : list A) : ~ p < width (length l) h -> slice h p l = [].
  Proof.
    rewrite below_width. intros N. unfold slice. rewrite skipn_all2 by lia. apply firstn_nil.
  Qed.
  Lemma slice_length {A B} h p (a : list A) (b : list B) : length a = length b ->
    length (slice h p a) = length (slice h p b).
  Proof. intros E. unfold slice. rewrite !firstn_length, !skipn_length, E. easy. Qed.
  Lemma slice_nonempty {A} h p (l : list A) : p < width (length l) h -> 0 < length (slice h p l).
  Proof.
    rewrite below_width. intros L. unfold slice. rewrite firstn_length, skipn_length.
    pose proof (pow2_pos h). lia.
  Qed.
  Lemma slice_leaf {A} p (l : list A) d : p < length l -> slice 0 p l = [nth p l d].
  Proof.
    intros L. unfold slice. cbn [Nat.pow]. rewrite Nat.mul_1_r.
    revert l L. induction p as [|p IH]; intros [|x l] L; cbn in L; try lia; [easy|].
    cbn [skipn nth]. apply IH. lia.
  Qed.
  Lemma slice_top {A} (l : list A) : l <> [] -> slice (tree_height (length l)) 0 l = l.
  Proof.
    intros N. unfold slice. cbn [Nat.mul skipn]. apply firstn_all2.
    assert (P : 0 < length l) by (destruct l; [easy|cbn; lia]).
    destruct (tree_height_ok _ P) as [A0 _].
    destruct (Nat.le_gt_cases (length l) (2 ^ tree_height (length l))) as [C|C]; [easy|exfalso].
    assert (1 < width (length l) (tree_height (length l))); [|lia]. apply below_width. lia.
  Qed.

  Lemma map_nth_seq {A} (l : list A) d a k : a + k <= length l ->
    map (fun p => nth p l d) (seq a k) = firstn k (skipn a l).
  Proof.
    revert a l. induction k as [|k IH]; intros a l L; [easy|].
    cbn [seq map]. rewrite (IH (S a) l) by lia.
    clear IH. revert l L. induction a as [|a IHa]; intros l L.
    - destruct l as [|x l]; cbn in L; [lia|reflexivity].
    - destruct l as [|x l]; cbn in L; [lia|]. cbn [nth skipn]. apply IHa. lia.
  Qed.
  Lemma covers_slice n h p mask : length mask = n ->
    covers n h p mask = existsb (fun b => b) (slice h p mask).
  Proof.
    intros E. unfold covers, slice.
    set (a := p * 2 ^ h). replace ((p + 1) * 2 ^ h) with (a + 2 ^ h) by (unfold a; lia).
    transitivity (existsb (fun b => b) (map (fun p => nth p mask false) (seq a (Nat.min (a + 2 ^ h) n - a)))).
    - generalize (seq a (Nat.min (a + 2 ^ h) n - a)). intros l.
      induction l as [|x l IH]; cbn; [easy|]. now rewrite IH.
    - f_equal. destruct (Nat.le_gt_cases n a) as [C|C].
      + replace (Nat.min (a + 2 ^ h) n - a) with 0 by lia. rewrite skipn_all2 by lia.
        now rewrite firstn_nil.
      + rewrite map_nth_seq by lia. destruct (Nat.le_gt_cases (a + 2 ^ h) n) as [D|D].
        * f_equal. lia.
        * rewrite !firstn_all2; [easy| |]; rewrite skipn_length; lia.
  Qed.

  Lemma selected_app (a1 a2 : list H) m1 m2 : length a1 = length m1 ->
    selected (a1 ++ a2) (m1 ++ m2) = selected a1 m1 ++ selected a2 m2.
  Proof.
    revert m1. induction a1 as [|x a1 IH]; intros [|b m1] L; cbn in L; try lia; [easy|].
    cbn. rewrite IH by lia. now destruct b.
  Qed.
  Lemma selected_none (a : list H) m : existsb (fun b => b) m = false -> selected a m = [].
  Proof.
    revert m. induction a as [|x a IH]; intros [|b m] E; cbn in *; try easy.
    apply orb_false_iff in E. destruct E as [-> E]. now apply IH.
  Qed.

  (** * Building and extracting *)
  Section Build.
    Variables (ids : list H) (mask : list bool).
    Hypothesis same : length mask = length ids.
    Let n := length ids.

    Lemma extract_build h p rb rh ms bad : p < width n h ->
      extract comb zero n h p (mkCursor (fst (build comb zero n h p ids mask) ++ rb)
                                        (snd (build comb zero n h p ids mask) ++ rh) ms bad)
      = (nth p (level h ids) zero,
         mkCursor rb rh (ms ++ selected (slice h p ids) (slice h p mask)) bad).
    Proof.
      revert p rb rh ms bad. induction h as [|h IH]; intros p rb rh ms bad L.
      - rewrite width_zero in L. cbn [build fst snd app extract q_bits q_hashes q_match q_bad].
        rewrite covers_slice by easy.
        rewrite (slice_leaf p ids zero), (slice_leaf p mask false) by (unfold n in L; lia).
        cbn [calc_hash level existsb Nat.eqb andb]. rewrite orb_false_r. cbn [selected].
        destruct (nth p mask false); [easy|now rewrite app_nil_r].
      - pose proof (width_child _ _ _ L) as C. cbn [build]. rewrite covers_slice by easy.
        destruct (existsb (fun b => b) (slice (S h) p mask)) eqn:Ex.
        + cbn [fst snd app extract q_bits q_hashes q_match q_bad].
          rewrite <- !app_assoc. rewrite IH by easy. cbn [fst snd].
          rewrite !slice_succ, selected_app by (apply slice_length; lia).
          cbn [level]. rewrite pair_up_nth by (rewrite level_length; fold n; lia).
          rewrite level_length. fold n.
          destruct (Nat.ltb_spec (p * 2 + 1) (width n h)) as [D|D].
          * rewrite IH by easy. cbn [fst snd]. now rewrite app_assoc.
          * cbn [fst snd app]. rewrite (slice_beyond h (p * 2 + 1) ids) by (fold n; lia).
            cbn [selected]. now rewrite app_nil_r.
        + cbn [fst snd app extract q_bits q_hashes q_match q_bad Nat.eqb andb].
          unfold n. rewrite calc_hash_level by exact L. rewrite selected_none by easy. now rewrite app_nil_r.
    Qed.

    Lemma build_sizes h p : p < width n h ->
      length (snd (build comb zero n h p ids mask)) <= length (slice h p ids)
      /\ length (snd (build comb zero n h p ids mask)) <= length (fst (build comb zero n h p ids mask)).
    Proof.
      revert p. induction h as [|h IH]; intros p L; cbn [build].
      - cbn [fst snd length]. split; [|lia]. apply (slice_nonempty 0 p ids). exact L.
      - destruct (covers n (S h) p mask).
        + pose proof (width_child _ _ _ L) as C. destruct (IH _ C) as [A B].
          rewrite slice_succ. cbn [fst snd length]. rewrite !app_length.
          destruct (Nat.ltb_spec (p * 2 + 1) (width n h)) as [D|D].
          * destruct (IH _ D) as [A' B']. lia.
          * cbn. lia.
        + cbn [fst snd length]. split; [|lia]. apply (slice_nonempty (S h) p ids). exact L.
    Qed.
  End Build.

  (** A partial tree with some padding after its bits. *)
  Lemma extract_padded ids mask pad : length mask = length ids -> ids <> [] ->
    (N.of_nat (length ids) <= MAX_TXS)%N ->
    (let b := length (p_bits (partial_new comb zero ids mask)) in
     (b + 7) / 8 = (b + length pad + 7) / 8) ->
    let t := partial_new comb zero ids mask in
    extract_matches comb zero (mkPartial (p_count t) (p_bits t ++ pad) (p_hashes t) false)
    = (merkle_root comb zero ids, selected ids mask).
  Proof.
    intros E N M Pd t. unfold extract_matches, t, partial_new in *.
    cbn [p_count p_bits p_hashes p_bad] in *.
    assert (P : 0 < length ids) by (destruct ids; [easy|cbn; lia]).
    destruct (tree_height_ok _ P) as [W _].
    assert (W0 : 0 < width (length ids) (tree_height (length ids))) by lia.
    destruct (build_sizes ids mask E (tree_height (length ids)) 0 W0) as [A B].
    rewrite slice_top in A by easy.
    set (r := build comb zero (length ids) (tree_height (length ids)) 0 ids mask) in *.
    destruct (Nat.eqb_spec (length ids) 0); [lia|].
    destruct (N.ltb_spec MAX_TXS (N.of_nat (length ids))); [lia|].
    destruct (Nat.ltb_spec (length ids) (length (snd r))); [lia|].
    destruct (Nat.ltb_spec (length (fst r ++ pad)) (length (snd r))) as [C|C];
      [rewrite app_length in C; lia|].
    pose proof (extract_build ids mask E (tree_height (length ids)) 0 pad [] [] false W0) as X.
    fold r in X. rewrite app_nil_r in X. rewrite X. cbn [fst snd q_bits q_hashes q_match q_bad app].
    rewrite app_length in *. replace (length (fst r) + length pad - length pad) with (length (fst r)) by lia.
    rewrite Pd, Nat.eqb_refl. cbn [negb length Nat.eqb].
    rewrite top_level, !slice_top by (destruct mask; cbn in *; easy || lia || (try rewrite <- E; easy)).
    cbn [nth]. rewrite <- E, slice_top; [easy|]. intros ->. cbn in E. lia.
  Qed.

  (** * Packing bits *)
  Lemma byte_bit bs i : N.testbit (byte_of bs) (N.of_nat i) = nth i bs false.
  Proof.
    revert i. induction bs as [|b bs IH]; intros i; [now destruct i|]. cbn [byte_of].
    destruct i as [|i]; cbn [nth].
    - apply N.testbit_0_r.
    - rewrite Nat2N.inj_succ, N.testbit_succ_r. apply IH.
  Qed.
  Lemma bits_byte bs : length bs <= 8 -> bits_of (byte_of bs) = bs ++ repeat false (8 - length bs).
  Proof.
    intros L. unfold bits_of. erewrite map_ext by (intros; apply byte_bit).
    destruct bs as [|? bs]; [reflexivity|].
    do 8 (destruct bs as [|? bs]; [reflexivity|]). cbn in L. lia.
  Qed.
  Lemma pack_bits fuel bs : length bs <= fuel -> exists k,
    concat (map bits_of (pack fuel bs)) = bs ++ repeat false k
    /\ (length bs + 7) / 8 = (length bs + k + 7) / 8.
  Proof.
    revert bs. induction fuel as [|fuel IH]; intros bs L.
    - destruct bs; [|cbn in L; lia]. exists 0. easy.
    - destruct bs as [|b bs]; [now exists 0|].
      set (l := b :: bs) in *. change (pack (S fuel) l) with (byte_of (firstn 8 l) :: pack fuel (skipn 8 l)).
      cbn [map concat]. rewrite bits_byte by (rewrite firstn_length; lia).
      destruct (Nat.le_gt_cases (length l) 8) as [S|S].
      + rewrite firstn_all2, skipn_all2 by lia. assert (E : pack fuel (@nil bool) = []) by now destruct fuel.
        rewrite E. cbn [map concat]. exists (8 - length l). rewrite app_nil_r. split; [easy|].
        assert (0 < length l) by (unfold l; cbn; lia).
        replace (length l + (8 - length l) + 7) with (7 + 1 * 8) by lia. rewrite Nat.div_add by lia.
        replace (length l + 7) with ((length l - 1) + 1 * 8) by lia. rewrite Nat.div_add by lia.
        rewrite Nat.div_small by lia. reflexivity.
      + destruct (IH (skipn 8 l)) as (k & E & D); [rewrite skipn_length; lia|].
        rewrite E. exists k. rewrite firstn_length, Nat.min_l by lia. cbn [repeat Nat.sub].
        rewrite app_nil_r, app_assoc, firstn_skipn. split; [easy|].
        rewrite skipn_length in D.
        replace (length l + 7) with (length l - 8 + 7 + 1 * 8) by lia.
        replace (length l + k + 7) with (length l - 8 + k + 7 + 1 * 8) by lia.
        rewrite !Nat.div_add by lia. now rewrite D.
  Qed.

  (** * Soundness *)
  Section Sound.
    Hypothesis free : collision_free comb.

    Lemma extract_grows n h p q x q' : extract comb zero n h p q = (x, q') -> q_bad q' = false ->
      q_bad q = false /\ exists ms, q_match q' = q_match q ++ ms.
    Proof.
      revert p q x q'. induction h as [|h IH]; intros p q x q' E B; cbn [extract] in E;
        destruct (q_bits q) as [|b bs]; try (injection E as <- <-; cbn in B; discriminate).
      - destruct (q_hashes q) as [|y ys]; [injection E as <- <-; cbn in B; discriminate|].
        injection E as <- <-. cbn in *. split; [easy|]. destruct b; [eauto|]. exists []. now rewrite app_nil_r.
      - destruct b.
        + destruct (extract comb zero n h (p * 2) _) as [xl ql] eqn:El. cbn [fst snd] in E.
          destruct (p * 2 + 1 <? width n h).
          * destruct (extract comb zero n h (p * 2 + 1) ql) as [xr qr] eqn:Er. cbn [fst snd] in E.
            injection E as <- <-. destruct (IH _ _ _ _ Er B) as (B1 & m1 & E1).
            destruct (IH _ _ _ _ El B1) as (B2 & m2 & E2). cbn in B2, E2. split; [easy|].
            exists (m2 ++ m1). now rewrite E1, E2, app_assoc.
          * injection E as <- <-. destruct (IH _ _ _ _ El B) as (B2 & m2 & E2). cbn in B2, E2. eauto.
        + destruct (q_hashes q) as [|y ys]; [injection E as <- <-; cbn in B; discriminate|].
          injection E as <- <-. cbn in *. split; [easy|]. exists []. now rewrite app_nil_r.
    Qed.

    Lemma extract_sound ids h p q q' : p < width (length ids) h ->
      extract comb zero (length ids) h p q = (nth p (level h ids) zero, q') -> q_bad q' = false ->
      exists m, length m = length (slice h p ids) /\ q_match q' = q_match q ++ selected (slice h p ids) m.
    Proof.
      revert p q q'. induction h as [|h IH]; intros p q q' L E B; cbn [extract] in E.
      - rewrite width_zero in L. rewrite (slice_leaf p ids zero L).
        destruct (q_bits q) as [|b bs]; [injection E as _ <-; discriminate|].
        destruct (q_hashes q) as [|y ys]; [injection E as _ <-; discriminate|].
        injection E as -> <-. cbn [q_match Nat.eqb andb level]. exists [b]. split; [easy|].
        cbn. destruct b; [easy|now rewrite app_nil_r].
      - pose proof (width_child _ _ _ L) as C.
        destruct (q_bits q) as [|b bs]; [injection E as _ <-; discriminate|].
        destruct b.
        + destruct (extract comb zero (length ids) h (p * 2) _) as [xl ql] eqn:El. cbn [fst snd] in E.
          cbn [level] in E. rewrite pair_up_nth in E by (rewrite level_length; lia).
          rewrite level_length in E. rewrite slice_succ.
          destruct (Nat.ltb_spec (p * 2 + 1) (width (length ids) h)) as [D|D].
          * destruct (extract comb zero (length ids) h (p * 2 + 1) ql) as [xr qr] eqn:Er.
            cbn [fst snd] in E. injection E as E <-. apply free in E. destruct E as [-> ->].
            destruct (extract_grows _ _ _ _ _ _ Er B) as (B1 & _).
            destruct (IH _ _ _ C El B1) as (m1 & L1 & E1).
            destruct (IH _ _ _ D Er B) as (m2 & L2 & E2). cbn [q_match] in E1.
            exists (m1 ++ m2). rewrite !app_length, selected_app by easy. split; [lia|].
            now rewrite E2, E1, app_assoc.
          * cbn [fst snd] in E. injection E as E <-. apply free in E. destruct E as [-> _].
            destruct (IH _ _ _ C El B) as (m1 & L1 & E1). cbn [q_match] in E1.
            rewrite (slice_beyond h (p * 2 + 1) ids) by lia. rewrite app_nil_r. eauto.
        + destruct (q_hashes q) as [|y ys]; [injection E as _ <-; discriminate|].
          injection E as _ <-. cbn [q_match Nat.eqb andb].
          exists (repeat false (length (slice (S h) p ids))). rewrite repeat_length. split; [easy|].
          rewrite selected_none; [now rewrite app_nil_r|].
          induction (length (slice (S h) p ids)); cbn; easy.
    Qed.

    Lemma pair_up_inj l1 l2 : length l1 = length l2 -> pair_up comb l1 = pair_up comb l2 -> l1 = l2.
    Proof.
      enough (G : forall n l1 l2, length l1 <= n -> length l1 = length l2 ->
                    pair_up comb l1 = pair_up comb l2 -> l1 = l2) by eauto.
      intros n. induction n as [|n IH]; intros [|x [|y r]] [|x' [|y' r']] Le L E; cbn in Le, L; try lia; try easy.
      - cbn in E. injection E as E. apply free in E. now destruct E as [-> _].
      - cbn [pair_up] in E. injection E as E1 E2. apply free in E1. destruct E1 as [-> ->].
        f_equal. f_equal. apply IH; [lia|lia|easy].
    Qed.
    Lemma level_inj k l1 l2 : length l1 = length l2 -> level k l1 = level k l2 -> l1 = l2.
    Proof.
      intros L. induction k as [|k IH]; [easy|]. cbn [level]. intros E. apply IH.
      apply pair_up_inj; [|easy]. now rewrite !level_length, L.
    Qed.

    (** ** Rows without repetition *)
    Lemma pair_up_in x l : In x (pair_up comb l) ->
      exists a b, x = comb a b /\ In a l /\ In b l.
    Proof.
      enough (G : forall n l, length l <= n -> In x (pair_up comb l) ->
                    exists a b, x = comb a b /\ In a l /\ In b l) by eauto.
      intros n. induction n as [|n IH]; intros [|a [|b r]] L I; cbn in L; try lia; try easy.
      - destruct I as [<-|[]]. exists a, a. cbn. auto.
      - destruct I as [<-|I]; [exists a, b; cbn; auto|].
        destruct (IH r) as (c & d & E & Ic & Id); [lia|easy|]. exists c, d. cbn. auto.
    Qed.
    Lemma pair_up_nodup l : NoDup l -> NoDup (pair_up comb l).
    Proof.
      enough (G : forall n l, length l <= n -> NoDup l -> NoDup (pair_up comb l)) by eauto.
      intros n. induction n as [|n IH]; intros [|a [|b r]] L D; cbn in L; try lia; try constructor.
      - easy.
      - constructor.
      - intros I. apply pair_up_in in I. destruct I as (c & d & E & Ic & Id).
        apply free in E. destruct E as [-> ->]. inversion D as [|? ? Na Db]; subst. apply Na. now right.
      - apply IH; [lia|]. inversion D as [|? ? Na Db]; subst. now inversion Db.
    Qed.
    Lemma pair_up_inj_nodup l1 l2 : NoDup l1 -> NoDup l2 -> pair_up comb l1 = pair_up comb l2 -> l1 = l2.
    Proof.
      enough (G : forall n l1 l2, length l1 <= n -> NoDup l1 -> NoDup l2 ->
                    pair_up comb l1 = pair_up comb l2 -> l1 = l2) by eauto.
      intros n. induction n as [|n IH]; intros [|x [|y r]] [|x' [|y' r']] Le D1 D2 E; cbn in Le; try lia; try easy.
      - cbn in E. injection E as E. apply free in E. now destruct E as [-> _].
      - cbn in E. injection E as E _. apply free in E. destruct E as [<- <-].
        inversion D2 as [|? ? Na Db]; subst. destruct Na. now left.
      - cbn in E. injection E as E _. apply free in E. destruct E as [-> ->].
        inversion D1 as [|? ? Na Db]; subst. destruct Na. now left.
      - cbn [pair_up] in E. injection E as E1 E2. apply free in E1. destruct E1 as [-> ->].
        f_equal. f_equal. inversion D1 as [|? ? _ D1']; subst. inversion D1' as [|? ? _ D1'']; subst.
        inversion D2 as [|? ? _ D2']; subst. inversion D2' as [|? ? _ D2'']; subst.
        apply IH; [lia|easy|easy|easy].
    Qed.
    Lemma level_nodup k l : NoDup l -> NoDup (level k l).
    Proof. intros D. induction k as [|k IH]; [easy|]. now apply pair_up_nodup. Qed.
    Lemma level_inj_nodup k l1 l2 : NoDup l1 -> NoDup l2 -> level k l1 = level k l2 -> l1 = l2.
    Proof.
      intros D1 D2. induction k as [|k IH]; [easy|]. cbn [level]. intros E. apply IH.
      apply pair_up_inj_nodup; [now apply level_nodup|now apply level_nodup|easy].
    Qed.

    (** The leftmost path tells the height, when no leaf is a combination. *)
    Lemma head_path k l : l <> [] -> exists a, nth 0 (level k l) zero = a /\
      (k = 0 -> a = nth 0 l zero) /\ (forall j, k = S j -> exists b, a = comb (nth 0 (level j l) zero) b).
    Proof.
      intros N. exists (nth 0 (level k l) zero). split; [easy|]. split; [now intros ->|].
      intros j ->. cbn [level]. rewrite pair_up_nth.
      - eexists. reflexivity.
      - rewrite level_length. apply below_width. destruct l; [easy|cbn; lia].
    Qed.
    Lemma same_height k1 k2 l1 l2 : l1 <> [] -> l2 <> [] ->
      (forall x a b, In x l1 \/ In x l2 -> x <> comb a b) ->
      nth 0 (level k1 l1) zero = nth 0 (level k2 l2) zero -> k1 = k2.
    Proof.
      intros N1 N2 Lf. revert k2. induction k1 as [|k1 IH]; intros [|k2] E; [easy| | |].
      - destruct (head_path (S k2) l2 N2) as (a & A & _ & B). destruct (B k2 eq_refl) as (b & C).
        exfalso. apply (Lf (nth 0 l1 zero) (nth 0 (level k2 l2) zero) b).
        + left. apply nth_In. destruct l1; [easy|cbn; lia].
        + change (level 0 l1) with l1 in E. congruence.
      - destruct (head_path (S k1) l1 N1) as (a & A & _ & B). destruct (B k1 eq_refl) as (b & C).
        exfalso. apply (Lf (nth 0 l2 zero) (nth 0 (level k1 l1) zero) b).
        + right. apply nth_In. destruct l2; [easy|cbn; lia].
        + change (level 0 l2) with l2 in E. congruence.
      - f_equal. apply IH.
        destruct (head_path (S k1) l1 N1) as (a & A & _ & B). destruct (B k1 eq_refl) as (b & C).
        destruct (head_path (S k2) l2 N2) as (a' & A' & _ & B'). destruct (B' k2 eq_refl) as (b' & C').
        assert (X : comb (nth 0 (level k1 l1) zero) b = comb (nth 0 (level k2 l2) zero) b') by congruence.
        apply free in X. apply X.
    Qed.
  End Sound.

  (** * Branches *)
  Lemma flip_case i : (Nat.even i = true /\ flip i = i + 1 /\ i = i / 2 * 2)
                   \/ (Nat.even i = false /\ flip i = i - 1 /\ i = i / 2 * 2 + 1).
  Proof.
    unfold flip. rewrite <- Nat.negb_odd. destruct (Nat.odd i) eqn:E; cbn [negb].
    - right. split; [easy|]. split; [easy|]. apply Nat.odd_spec in E. destruct E as (k & ->).
      replace (2 * k + 1) with (1 + k * 2) by lia. rewrite Nat.div_add by lia. cbn. lia.
    - left. split; [easy|]. split; [easy|]. assert (Ev : Nat.even i = true) by (rewrite <- Nat.negb_odd, E; easy).
      apply Nat.even_spec in Ev. destruct Ev as (k & ->). rewrite (Nat.mul_comm 2 k), Nat.div_mul by lia. lia.
  Qed.

  Lemma branch_ok fuel l i : length l <= fuel -> i < length l ->
    check_branch comb (nth i l zero) (branch_loop zero (l :: more_rows comb fuel l) i) i
    = last (concat (l :: more_rows comb fuel l)) zero.
  Proof.
    revert l i. induction fuel as [|fuel IH]; intros l i Le L; [lia|].
    destruct l as [|x [|y r]]; [cbn in L; lia|cbn in L; assert (i = 0) by lia; subst; reflexivity|].
    set (l := x :: y :: r) in *.
    assert (L2 : 2 <= length l) by (unfold l; cbn; lia).
    change (more_rows comb (S fuel) l) with (pair_up comb l :: more_rows comb fuel (pair_up comb l)).
    cbn [branch_loop]. destruct (Nat.ltb_spec 1 (length l)); [|lia].
    assert (Lp : length (pair_up comb l) = (length l + 1) / 2) by apply pair_up_length.
    assert (Half : (length l + 1) / 2 <= fuel) by (apply Nat.lt_succ_r, Nat.div_lt_upper_bound; lia).
    assert (Pos : i / 2 < length (pair_up comb l)).
    { rewrite Lp. assert (i / 2 + 1 <= (length l + 1) / 2); [|lia].
      apply Nat.div_le_lower_bound; [lia|].
      destruct (flip_case i) as [(_ & _ & Q)|(_ & _ & Q)]; revert Q; generalize (i / 2); intros; lia. }
    transitivity (check_branch comb (nth (i / 2) (pair_up comb l) zero)
                    (branch_loop zero (pair_up comb l :: more_rows comb fuel (pair_up comb l)) (i / 2)) (i / 2)).
    - cbn [check_branch]. f_equal.
      destruct (flip_case i) as [(Ev & Fl & Q)|(Ev & Fl & Q)].
      + rewrite <- Nat.negb_even, Ev. cbn [negb]. rewrite pair_up_nth by lia. rewrite <- Q, Fl.
        destruct (Nat.ltb_spec (i + 1) (length l)) as [C|C].
        * rewrite Nat.min_l by lia. reflexivity.
        * rewrite Nat.min_r by lia. replace (length l - 1) with i by lia. reflexivity.
      + rewrite <- Nat.negb_even, Ev. cbn [negb]. rewrite pair_up_nth by lia. rewrite Fl.
        rewrite <- Q. rewrite Nat.min_l by lia.
        replace (i - 1) with (i / 2 * 2) by lia.
        destruct (Nat.ltb_spec i (length l)); [reflexivity|lia].
    - rewrite IH by lia. symmetry. cbn [concat]. apply last_app.
      unfold l. cbn. discriminate.
  Qed.

  Section BranchSound.
    Hypothesis free : collision_free comb.
    Lemma check_inj br1 br2 i x1 x2 : length br1 = length br2 ->
      check_branch comb x1 br1 i = check_branch comb x2 br2 i -> x1 = x2.
    Proof.
      revert br2 i x1 x2. induction br1 as [|o1 br1 IH]; intros [|o2 br2] i x1 x2 L E; cbn in L; try lia; [exact E|].
      cbn [check_branch] in E. apply IH in E; [|lia]. destruct (Nat.odd i); apply free in E; easy.
    Qed.
  End BranchSound.
End Merkle.
