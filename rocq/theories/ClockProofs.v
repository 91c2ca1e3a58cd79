(** Proofs about the filter of medians and the warning. *)
From Coq Require Import List Bool ZArith Lia Sorting.Sorted Sorting.Permutation.
From Coq Require Import ZifyBool ZifyNat.
From Verif Require Import ClockModel ClockSpec.
Import ListNotations.
Open Scope Z_scope.

(** ** Sorting *)

Lemma insert_perm x l : Permutation (x :: l) (insert x l).
Proof.
  induction l as [|y l IH]; [reflexivity|]. cbn. destruct (x <=? y); [reflexivity|].
  rewrite perm_swap. now constructor.
Qed.
Lemma sort_perm l : Permutation l (sort l).
Proof. induction l as [|x l IH]; [reflexivity|]. cbn. rewrite <- insert_perm. now constructor. Qed.
Lemma insert_sorted x l : StronglySorted Z.le l -> StronglySorted Z.le (insert x l).
Proof.
  induction 1 as [|y l S IH F]; cbn; [repeat constructor|].
  destruct (Z.leb_spec x y) as [L|L].
  - constructor; [now constructor|]. constructor; [exact L|]. eapply Forall_impl; [|exact F]. intros; lia.
  - constructor; [exact IH|]. rewrite <- insert_perm. constructor; [lia|exact F].
Qed.
Lemma sort_sorted l : StronglySorted Z.le (sort l).
Proof. induction l as [|x l IH]; [constructor|]. now apply insert_sorted. Qed.

(** ** Counting *)

Lemma filter_perm (p : Z -> bool) l l' : Permutation l l' ->
  length (List.filter p l) = length (List.filter p l').
Proof.
  induction 1 as [|x l l' _ IH|x y l|l l' l'' _ IH1 _ IH2]; cbn; [reflexivity| | |congruence].
  - destruct (p x); cbn; congruence.
  - destruct (p x), (p y); reflexivity.
Qed.
Lemma filter_none (p : Z -> bool) l : Forall (fun x => p x = false) l -> List.filter p l = [].
Proof. induction 1 as [|x l H _ IH]; [reflexivity|]. cbn. now rewrite H. Qed.
Lemma filter_le (p : Z -> bool) l : (length (List.filter p l) <= length l)%nat.
Proof. induction l as [|x l IH]; [reflexivity|]. cbn. destruct (p x); cbn; lia. Qed.

Lemma below_le m s : StronglySorted Z.le s -> forall i, (i < length s)%nat -> m <= nth i s 0 ->
  (below m s <= i)%nat.
Proof.
  unfold below. induction 1 as [|x s S IH F]; intros i L N; [cbn in L; lia|]. destruct i as [|i].
  - cbn in N. rewrite filter_none; [cbn; lia|]. constructor; [lia|].
    eapply Forall_impl; [|exact F]. cbn. intros; lia.
  - cbn in L, N. specialize (IH i ltac:(lia) N). cbn. destruct (x <? m); cbn; lia.
Qed.
Lemma above_le m s : StronglySorted Z.le s -> forall j, (j < length s)%nat -> nth j s 0 <= m ->
  (above m s + j + 1 <= length s)%nat.
Proof.
  unfold above. induction 1 as [|x s S IH F]; intros j L N; [cbn in L; lia|]. destruct j as [|j].
  - cbn in N |- *. replace (m <? x) with false by lia. pose proof (filter_le (fun x => m <? x) s). lia.
  - cbn in L, N. specialize (IH j ltac:(lia) N). cbn.
    rewrite Forall_forall in F. assert (X : In (nth j s 0) s) by (apply nth_In; lia). apply F in X.
    replace (m <? x) with false by lia. lia.
Qed.
Lemma middle_sorted m s i j : StronglySorted Z.le s -> (i < length s)%nat -> (j < length s)%nat ->
  (2 * i <= length s)%nat -> (length s <= 2 * (j + 1))%nat -> m <= nth i s 0 -> nth j s 0 <= m -> middle m s.
Proof.
  intros S Li Lj I J A B. pose proof (below_le m s S i Li A). pose proof (above_le m s S j Lj B).
  split; lia.
Qed.
Lemma middle_perm m l l' : Permutation l l' -> middle m l -> middle m l'.
Proof.
  intros P (A & B). unfold middle, below, above in *.
  now rewrite <- !(filter_perm _ _ _ P), <- (Permutation_length P).
Qed.
Lemma sorted_nth s : StronglySorted Z.le s -> forall i, (S i < length s)%nat -> nth i s 0 <= nth (S i) s 0.
Proof.
  induction 1 as [|x s S IH F]; intros i L; [cbn in L; lia|]. destruct i as [|i].
  - cbn in *. rewrite Forall_forall in F. apply F. apply nth_In. lia.
  - cbn in L. apply (IH i). lia.
Qed.
Lemma odd_half n : Nat.odd n = true -> (n = 2 * (n / 2) + 1)%nat.
Proof.
  intros H. apply Nat.odd_spec in H. destruct H as (k & ->).
  assert (E : ((2 * k + 1) / 2 = k)%nat).
  { rewrite Nat.mul_comm, Nat.div_add_l by lia. now rewrite Nat.add_0_r. }
  now rewrite E.
Qed.
Lemma even_half n : Nat.odd n = false -> (n = 2 * (n / 2))%nat.
Proof.
  intros H. rewrite <- Nat.negb_even in H. apply negb_false_iff, Nat.even_spec in H. destruct H as (k & ->).
  assert (E : ((2 * k) / 2 = k)%nat) by (rewrite Nat.mul_comm; apply Nat.div_mul; discriminate).
  now rewrite E.
Qed.
Lemma median_middle f m : v_sorted f = sort (v_values f) -> median f = Some m -> middle m (v_values f).
Proof.
  intros E H. apply (middle_perm m (v_sorted f)); [rewrite E; symmetry; apply sort_perm|].
  assert (S : StronglySorted Z.le (v_sorted f)) by (rewrite E; apply sort_sorted). unfold median in H.
  set (s := v_sorted f) in *. destruct (Nat.eqb_spec (length s) 0) as [Z0|N0]; [discriminate|].
  destruct (Nat.odd (length s)) eqn:O.
  - apply odd_half in O. assert (Hm : m = nth (length s / 2) s 0) by congruence. clear H. subst m. apply middle_sorted with (length s / 2)%nat (length s / 2)%nat;
      [exact S|lia|lia|lia|lia|apply Z.le_refl|apply Z.le_refl].
  - apply even_half in O. destruct (int64 _) eqn:B; [|discriminate].
    assert (Hm : m = Z.quot (nth (length s / 2 - 1) s 0 + nth (length s / 2) s 0) 2) by congruence.
    clear H B. subst m.
    set (k := (length s / 2)%nat) in *.
    pose proof (sorted_nth s S (k - 1) ltac:(lia)) as L. replace (Datatypes.S (k - 1)) with k in L by lia.
    set (a := nth (k - 1) s 0) in *. set (b := nth k s 0) in *.
    assert (Q : a <= Z.quot (a + b) 2 <= b).
    { Z.to_euclidean_division_equations. lia. }
    apply middle_sorted with k (k - 1)%nat; [exact S|lia|lia|lia|lia|apply Q|apply Q].
Qed.

(** ** The filter *)

Lemma inputs_values l : forall f, v_sorted f = sort (v_values f) -> (0 < v_size f)%nat ->
  (length (v_values f) <= v_size f)%nat ->
  let g := fold_left input l f in
  v_values g = last_of (v_size f) (v_values f ++ l) /\ v_sorted g = sort (v_values g) /\ v_size g = v_size f.
Proof.
  induction l as [|x l IH]; intros f S P L; cbn [fold_left].
  - rewrite app_nil_r. unfold last_of. now replace (length (v_values f) - v_size f)%nat with 0%nat by lia.
  - assert (L' : (length (v_values (input f x)) <= v_size f)%nat).
    { cbn [input v_values]. rewrite app_length. cbn.
      destruct (Nat.eqb_spec (length (v_values f)) (v_size f)); [|lia].
      destruct (v_values f); cbn in *; lia. }
    destruct (IH (input f x) eq_refl P L') as (A & B & C). cbn zeta in *. split; [|now split].
    rewrite A. cbn [input v_size v_values]. unfold last_of.
    destruct (Nat.eqb_spec (length (v_values f)) (v_size f)) as [E|N].
    + destruct (v_values f) as [|y v]; [cbn in E; lia|]. cbn [tl]. rewrite <- app_assoc. cbn [app].
      replace (length (y :: v ++ x :: l) - v_size f)%nat with (Datatypes.S (length (v ++ x :: l) - v_size f))%nat.
      2: { cbn [length] in E |- *. rewrite app_length. cbn [length]. lia. }
      reflexivity.
    + rewrite <- app_assoc. reflexivity.
Qed.

(** ** The clock *)

Lemma matches_zero l : forall b, In 0 l -> matches l b <> Some false.
Proof.
  assert (T : forall k, matches k true <> Some false).
  { induction k as [|x k IH]; cbn [matches]; [discriminate|]. destruct (abs64 x) as [a|]; [|discriminate].
    destruct (a <=? 1); exact IH. }
  induction l as [|x l IH]; intros b H; [destruct H|]. cbn [matches].
  destruct H as [->|H].
  - apply T.
  - destruct (abs64 x); [|discriminate]. now apply IH.
Qed.

Definition good (c : clock) : Prop :=
  c_offset c = 0 /\ c_done c = false /\ c_warning c = false /\ v_size (c_offsets c) = 200%nat /\
  ((length (v_values (c_offsets c)) < 200)%nat /\ In 0 (v_values (c_offsets c)) \/
   length (v_values (c_offsets c)) = 200%nat).

Lemma good_step c now ip time c' : good c -> add_time_data c now ip time = Some c' -> good c'.
Proof.
  intros (O & D & W & V & S) E. unfold add_time_data in E.
  destruct (int64 (time - now)); [|discriminate]. cbn [negb] in E.
  destruct (existsb (Z.eqb ip) (c_known c)).
  { inversion E; subst. unfold good. auto. }
  set (f := input (c_offsets c) (time - now)) in *.
  assert (F : v_size f = 200%nat /\
    ((length (v_values f) < 200)%nat /\ In 0 (v_values f) \/ length (v_values f) = 200%nat)).
  { split; [exact V|]. unfold f. cbn [input v_values]. rewrite V, app_length. cbn [length].
    destruct (Nat.eqb_spec (length (v_values (c_offsets c))) 200) as [E2|N2].
    - right. destruct (v_values (c_offsets c)); cbn in *; lia.
    - destruct S as [(L & I)|S]; [|contradiction].
      destruct (Nat.eq_dec (length (v_values (c_offsets c))) 199) as [E3|N3]; [right; lia|].
      left. split; [lia|]. apply in_or_app. now left. }
  destruct F as (F1 & F2).
  set (c1 := {| c_known := ip :: c_known c; c_offsets := f; c_offset := c_offset c; c_done := c_done c;
                c_warning := c_warning c |}) in *.
  assert (G : good c1) by (unfold good, c1; cbn; auto).
  destruct ((5 <=? length (v_values f))%nat && Nat.odd (length (v_values f))) eqn:B; [|congruence].
  destruct (median f); [|discriminate]. destruct (abs64 z); [|discriminate].
  destruct ((1 <? z0) && negb (c_done c)); [|congruence].
  destruct F2 as [(L & I)|F2].
  2: { rewrite F2 in B. discriminate. }
  assert (I' : In 0 (v_sorted f)).
  { change (v_sorted f) with (sort (v_values f)). now rewrite <- sort_perm. }
  pose proof (matches_zero (v_sorted f) false I') as M.
  destruct (matches (v_sorted f) false) as [[|]|]; congruence.
Qed.
Lemma good_hears l : forall c c', good c -> hears c l = Some c' -> good c'.
Proof.
  induction l as [|((now, ip), time) l IH]; intros c c' G E; cbn [hears] in E; [congruence|].
  destruct (add_time_data c now ip time) as [c1|] eqn:A; [|discriminate].
  apply (IH c1); [|exact E]. now apply good_step with c now ip time.
Qed.
Lemma good_new : good new_clock.
Proof. unfold good. cbn. repeat split. left. split; [lia|now left]. Qed.

(** What is in the filter. *)
Lemma step_filter c now ip time c' : add_time_data c now ip time = Some c' ->
  (existsb (Z.eqb ip) (c_known c) = true /\ c' = c) \/
  (existsb (Z.eqb ip) (c_known c) = false /\ c_known c' = ip :: c_known c /\
   c_offsets c' = input (c_offsets c) (time - now)).
Proof.
  unfold add_time_data. intros E. destruct (int64 (time - now)); [|discriminate]. cbn [negb] in E.
  destruct (existsb (Z.eqb ip) (c_known c)); [left; split; congruence|]. right. split; [reflexivity|].
  destruct (_ && _) in E; [|inversion E; now split].
  destruct (median _) in E; [|discriminate]. destruct (abs64 _) in E; [|discriminate].
  destruct (_ && _) in E; [|inversion E; now split].
  destruct (matches _ _) as [[|]|] in E; inversion E; now split.
Qed.
Lemma hears_filter l : forall c c', hears c l = Some c' ->
  c_offsets c' = fold_left input (first_told (c_known c) l) (c_offsets c).
Proof.
  induction l as [|((now, ip), time) l IH]; intros c c' E; cbn [hears first_told] in *; [inversion E; reflexivity|].
  destruct (add_time_data c now ip time) as [c1|] eqn:A; [|discriminate].
  destruct (step_filter _ _ _ _ _ A) as [(K & ->)|(K & K1 & K2)]; rewrite K; [now apply IH|].
  cbn [fold_left]. rewrite <- K2, <- K1. now apply IH.
Qed.

(** ** Nothing overflows *)

Definition small (x : Z) : Prop := -9223372036854775808 < x < 9223372036854775808.
Lemma abs64_small x : small x -> exists a, abs64 x = Some a.
Proof.
  unfold small, abs64, int64. intros H. destruct (0 <=? x); [now eexists|].
  replace (_ && _) with true by lia. now eexists.
Qed.
Lemma matches_small l : Forall small l -> forall b, exists r, matches l b = Some r.
Proof.
  induction 1 as [|x l H _ IH]; intros b; [now exists b|]. cbn [matches].
  destruct (abs64_small x H) as (a & ->). apply IH.
Qed.
Lemma step_defined c now ip time : Forall small (v_values (c_offsets c)) ->
  0 <= now < 9223372036854775808 -> 0 <= time < 9223372036854775808 ->
  exists c', add_time_data c now ip time = Some c' /\ Forall small (v_values (c_offsets c')).
Proof.
  intros S Hn Ht.
  assert (V : Forall small (v_values (input (c_offsets c) (time - now)))).
  { cbn [input v_values]. apply Forall_app. split.
    - destruct (_ =? _)%nat; [|exact S]. destruct (v_values (c_offsets c)); [constructor|now inversion S].
    - constructor; [unfold small; lia|constructor]. }
  assert (D : exists c', add_time_data c now ip time = Some c').
  { unfold add_time_data. replace (int64 (time - now)) with true by (unfold int64; lia). cbn [negb].
    destruct (existsb _ _); [now eexists|].
    destruct (_ && _) eqn:B; [|now eexists].
    apply andb_true_iff in B. destruct B as (_ & B).
    assert (P : Forall small (v_sorted (input (c_offsets c) (time - now)))).
    { cbn [input v_sorted]. now rewrite <- sort_perm. }
    assert (Ls : length (v_sorted (input (c_offsets c) (time - now))) =
                 length (v_values (input (c_offsets c) (time - now)))).
    { cbn [input v_sorted v_values]. symmetry. apply Permutation_length, sort_perm. }
    set (f := input (c_offsets c) (time - now)) in *. unfold median. rewrite Ls, B.
    destruct (Nat.eqb_spec (length (v_values f)) 0) as [E0|N0]; [rewrite E0 in B; discriminate|].
    destruct (abs64_small (nth (length (v_values f) / 2) (v_sorted f) 0)) as (a & ->).
    { rewrite Forall_forall in P. apply P, nth_In. rewrite Ls. apply odd_half in B. lia. }
    destruct (_ && _); [|now eexists].
    destruct (matches_small _ P false) as ([|] & ->); now eexists. }
  destruct D as (c' & D). exists c'. split; [exact D|].
  destruct (step_filter _ _ _ _ _ D) as [(_ & ->)|(_ & _ & E)]; [exact S|]. now rewrite E.
Qed.
Lemma hears_defined l : sane l -> forall c, Forall small (v_values (c_offsets c)) ->
  exists c', hears c l = Some c'.
Proof.
  induction 1 as [|((now, ip), time) l (Hn & Ht) _ IH]; intros c S; [now exists c|]. cbn [hears].
  destruct (step_defined c now ip time S Hn Ht) as (c1 & -> & S1). now apply IH.
Qed.
