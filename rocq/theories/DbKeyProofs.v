(** Proofs about the database key layout. *)
From Coq Require Import List String Bool NArith Lia PeanoNat.
From Verif Require Import DbKeyModel.
Import ListNotations.
Local Open Scope string_scope.

Lemma strip_app pre s : strip pre (pre ++ s) = Some s.
Proof.
  induction pre as [|a pre IH]; simpl; [reflexivity|].
  rewrite Ascii.eqb_refl. exact IH.
Qed.

Lemma strip_some pre s r : strip pre s = Some r -> s = pre ++ r.
Proof.
  revert s. induction pre as [|a pre IH]; intros s; simpl.
  - intros H. inversion H. reflexivity.
  - destruct s as [|b s]; [discriminate|]. destruct (Ascii.eqb_spec a b); [|discriminate].
    intros H. subst. f_equal. apply IH. exact H.
Qed.

(** Two strings one of which is a prefix of the other. *)
Fixpoint comparable (a b : string) : bool :=
  match a, b with
  | EmptyString, _ => true
  | _, EmptyString => true
  | String x a', String y b' => Ascii.eqb x y && comparable a' b'
  end.

Lemma app_comparable a b s t : a ++ s = b ++ t -> comparable a b = true.
Proof.
  revert b. induction a as [|x a IH]; intros b H; [destruct b; reflexivity|].
  destruct b as [|y b]; [reflexivity|]. simpl in *. inversion H; subst.
  rewrite Ascii.eqb_refl. simpl. apply IH. assumption.
Qed.

Definition prefixes : list nat := seq 1 (List.length prefix_table - 2).

Definition no_collision : bool :=
  forallb (fun p => forallb (fun q =>
    Nat.eqb p q || negb (dbname_eqb (prefix_db p) (prefix_db q))
    || negb (comparable (key_prefix p) (key_prefix q))) prefixes) prefixes.

Lemma no_collision_true : no_collision = true.
Proof. vm_compute. reflexivity. Qed.

Lemma dbname_eqb_refl d : dbname_eqb d d = true.
Proof. destruct d; reflexivity. Qed.

Lemma valid_prefix_in p : valid_prefix p = true -> In p prefixes.
Proof.
  unfold valid_prefix, prefixes. rewrite andb_true_iff, !Nat.ltb_lt. intros [A B].
  apply in_seq. simpl in *. lia.
Qed.

Lemma string_app_inj a s t : a ++ s = a ++ t -> s = t.
Proof. induction a; simpl; intros H; [exact H|]. inversion H. auto. Qed.

Lemma gen_db_key_inj p q e f :
  valid_prefix p = true -> valid_prefix q = true -> prefix_db p = prefix_db q ->
  gen_db_key p e = gen_db_key q f -> p = q /\ e = f.
Proof.
  intros Vp Vq D E. pose proof no_collision_true as H. unfold no_collision in H.
  rewrite forallb_forall in H. specialize (H p (valid_prefix_in p Vp)).
  rewrite forallb_forall in H. specialize (H q (valid_prefix_in q Vq)).
  rewrite D, dbname_eqb_refl in H. simpl in H. rewrite orb_false_r in H.
  unfold gen_db_key in E. rewrite (app_comparable _ _ _ _ E) in H. simpl in H.
  rewrite orb_false_r in H. apply Nat.eqb_eq in H. subst q. split; [reflexivity|].
  apply string_app_inj in E. exact E.
Qed.

Definition nonempty_names : bool :=
  forallb (fun p => negb (String.eqb (key_prefix p) "")) prefixes.
Lemma nonempty_names_true : nonempty_names = true.
Proof. vm_compute. reflexivity. Qed.

Lemma parse_gen p e : valid_prefix p = true -> parse_db_key p (gen_db_key p e) = Some e.
Proof.
  intros V. pose proof nonempty_names_true as H. unfold nonempty_names in H.
  rewrite forallb_forall in H. specialize (H p (valid_prefix_in p V)).
  unfold parse_db_key, gen_db_key. destruct (key_prefix p) as [|a pre] eqn:E.
  - discriminate.
  - exact (strip_app (String a pre) e).
Qed.

Lemma parse_other p q e :
  valid_prefix p = true -> valid_prefix q = true -> prefix_db p = prefix_db q -> p <> q ->
  parse_db_key q (gen_db_key p e) = None.
Proof.
  intros Vp Vq D N. destruct (parse_db_key q (gen_db_key p e)) as [r|] eqn:E; [|reflexivity].
  exfalso. unfold parse_db_key in E. destruct (key_prefix q) as [|a pre] eqn:Q; [discriminate|].
  rewrite <- Q in E. assert (G : gen_db_key p e = gen_db_key q r).
  { unfold gen_db_key at 2. apply strip_some. rewrite <- E, Q. reflexivity. }
  apply gen_db_key_inj in G; [|assumption..]. destruct G. congruence.
Qed.

Definition names_parse : bool :=
  forallb (fun p => Nat.eqb (parse_key_prefix_type (key_prefix p)) p) prefixes.
Lemma names_parse_true : names_parse = true.
Proof. vm_compute. reflexivity. Qed.

Lemma parse_type p : valid_prefix p = true -> parse_key_prefix_type (key_prefix p) = p.
Proof.
  intros V. pose proof names_parse_true as H. unfold names_parse in H.
  rewrite forallb_forall in H. apply Nat.eqb_eq. apply H. apply valid_prefix_in. exact V.
Qed.

Lemma wrapper_registered p : In p wrapper_prefixes -> undo_registered (N.of_nat p) = true.
Proof.
  assert (H : forallb (fun p => undo_registered (N.of_nat p)) wrapper_prefixes = true)
    by (vm_compute; reflexivity).
  rewrite forallb_forall in H. apply H.
Qed.
