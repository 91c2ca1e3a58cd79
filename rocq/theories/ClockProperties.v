(** C105: the node's idea of the time, and what peers tell about it. *)
From Coq Require Import List Bool ZArith Lia Sorting.Sorted Sorting.Permutation.
From Verif Require Import ClockModel ClockSpec ClockProofs.
Import ListNotations.
Open Scope Z_scope.

(** Whatever peers tell, the adjusted time is that of the node's own clock, and which blocks are refused
    as blocks from the future depends on nothing else. *)
Theorem c105_clock l c : hears new_clock l = Some c ->
  (forall now, adjusted_time c now = now) /\
  forall now interval time, too_new c now interval time = true <-> now + interval + 2 < time.
Proof.
  intros H. destruct (good_hears l _ _ good_new H) as (O & _).
  unfold too_new, adjusted_time. rewrite O. split; [lia|]. intros now interval time.
  rewrite Z.add_0_r. apply Z.ltb_lt.
Qed.
Print Assumptions c105_clock.

(** Five peers that are an hour ahead. *)
Definition hour_ahead : list told :=
  [(1600000000, 1, 1600003600); (1600000001, 2, 1600003601); (1600000002, 2, 77); (1600000002, 3, 1600003602);
   (1600000003, 4, 1600003603); (1600000004, 5, 1600003604); (1600000004, 6, 1600003604)].
Example c105_clock_example : exists c, hears new_clock hour_ahead = Some c /\
  median (c_offsets c) = Some 3600 /\ adjusted_time c 1600000010 = 1600000010 /\
  too_new c 1600000010 3 1600000016 = true /\ too_new c 1600000010 3 1600000015 = false.
Proof. eexists. split; [vm_compute; reflexivity|]. vm_compute. repeat split; reflexivity. Qed.

(** Nothing overflows with times from 1970 on. *)
Theorem c105_defined l : sane l -> exists c, hears new_clock l = Some c.
Proof. intros S. apply hears_defined; [exact S|]. repeat constructor. Qed.
Print Assumptions c105_defined.

Lemma hour_sane : sane hour_ahead.
Proof. unfold sane, hour_ahead. repeat (constructor; [split; split; vm_compute; congruence|]). constructor. Qed.
Example c105_defined_example : sane hour_ahead /\ sane [(0, 1, 9223372036854775807); (9223372036854775807, 2, 0)].
Proof.
  split; [exact hour_sane|]. unfold sane. repeat (constructor; [split; split; vm_compute; congruence|]). constructor.
Qed.

(** But a peer can tell times before: a difference that leaves 64 bits, or four that have no absolute
    value. *)
Theorem c105_overflow_refuted :
  hears new_clock [(1600000000, 1, -9223372036854775808)] = None /\
  let l := map (fun ip => (1600000000, ip, -9223372036854775808 + 1600000000)) [1; 2; 3] in
  (exists c, hears new_clock l = Some c) /\
  hears new_clock (l ++ [(1600000000, 4, -9223372036854775808 + 1600000000)]) = None.
Proof. split; [vm_compute; reflexivity|]. split; [eexists|]; vm_compute; reflexivity. Qed.
Print Assumptions c105_overflow_refuted.

(** One difference is kept for each address, that of the first time it told, and the last 200 of them
    after a zero. *)
Theorem c105_samples l c : hears new_clock l = Some c ->
  v_values (c_offsets c) = last_of 200 (0 :: first_told [] l) /\
  (length (v_values (c_offsets c)) <= 200)%nat.
Proof.
  intros H. rewrite (hears_filter l _ _ H).
  destruct (inputs_values (first_told [] l) (new_filter 200 0) eq_refl ltac:(cbn; lia) ltac:(cbn; lia))
    as (A & _ & _).
  change (c_known new_clock) with (@nil Z). change (c_offsets new_clock) with (new_filter 200 0).
  rewrite A. split; [reflexivity|]. unfold last_of. rewrite skipn_length. cbn [v_size new_filter]. lia.
Qed.
Print Assumptions c105_samples.

Example c105_samples_example : exists c, hears new_clock hour_ahead = Some c /\
  v_values (c_offsets c) = [0; 3600; 3600; 3600; 3600; 3600; 3600] /\ c_known c = [6; 5; 4; 3; 2; 1].
Proof. eexists. split; [vm_compute; reflexivity|]. vm_compute. split; reflexivity. Qed.

(** The filter gives a median of the last values: at most half of them lie below, and at most half
    above. *)
Theorem c105_median size initial l : (0 < size)%nat ->
  let f := fold_left input l (new_filter size initial) in
  v_values f = last_of size (initial :: l) /\
  Permutation (v_values f) (v_sorted f) /\ StronglySorted Z.le (v_sorted f) /\
  (forall m, median f = Some m -> middle m (last_of size (initial :: l))) /\
  (Nat.odd (length (v_values f)) = true -> exists m, median f = Some m /\ In m (v_values f)).
Proof.
  intros P f. destruct (inputs_values l (new_filter size initial) eq_refl P P) as (A & B & C).
  fold f in A, B, C. cbn [v_size new_filter] in A.
  assert (Q : Permutation (v_values f) (v_sorted f)) by (rewrite B; apply sort_perm).
  split; [exact A|]. split; [exact Q|]. split; [rewrite B; apply sort_sorted|]. split.
  - intros m M. change (initial :: l) with (v_values (new_filter size initial) ++ l).
    rewrite <- A. now apply median_middle.
  - intros O. unfold median. rewrite <- (Permutation_length Q), O.
    pose proof (odd_half _ O) as H. replace (length (v_values f) =? 0)%nat with false by (symmetry; apply Nat.eqb_neq; lia).
    eexists. split; [reflexivity|]. apply (Permutation_in _ (Permutation_sym Q)), nth_In.
    rewrite <- (Permutation_length Q). lia.
Qed.
Print Assumptions c105_median.

Example c105_median_example :
  let f := fold_left input [20; 10; 3; 7; 18; 0; 30] (new_filter 5 15) in
  v_values f = [3; 7; 18; 0; 30] /\ median f = Some 7 /\
  median (fold_left input [20] (new_filter 5 15)) = Some 17 /\
  median (fold_left input [-20] (new_filter 5 15)) = Some (-2).
Proof. vm_compute. repeat split; reflexivity. Qed.

(** A node whose clock differs from that of all its peers should be warned.  It never is: the zero with
    which the filter begins counts as a peer that agrees, and when it is gone there are 200 differences,
    which is even. *)
Theorem c105_warning_refuted :
  (exists l c, sane l /\ all_differ l /\ hears new_clock l = Some c) /\
  forall l c, hears new_clock l = Some c -> c_warning c = false.
Proof.
  split.
  - destruct (c105_defined hour_ahead hour_sane) as (c & H). exists hour_ahead, c.
    split; [exact hour_sane|]. split; [|exact H].
    split; [|vm_compute; lia]. unfold hour_ahead. repeat (constructor; [vm_compute; reflexivity|]). constructor.
  - intros l c H. destruct (good_hears l _ _ good_new H) as (_ & _ & W & _). exact W.
Qed.
Print Assumptions c105_warning_refuted.
