(** Lemmas about the finite maps, sums and 64-bit arithmetic of Prelude.v. *)
From Coq Require Import List Bool NArith ZArith Lia Permutation String.
From Coq Require Import ZifyBool ZifyNat ZifyN.
From Verif Require Import Prelude.
Import ListNotations.
Open Scope N_scope.

Ltac Zify.zify_post_hook ::= Z.div_mod_to_equations.

Lemma add64_small a b : a + b < two64 -> add64 a b = a + b.
Proof. intros. unfold add64. apply N.mod_small; assumption. Qed.

Lemma sub64_small a b : b <= a -> a < two64 -> sub64 a b = a - b.
Proof.
  intros. unfold sub64. replace (a + two64 - b) with ((a - b) + 1 * two64) by lia.
  rewrite N.mod_add by (unfold two64; lia). apply N.mod_small; lia.
Qed.

Lemma mul64_small a b : a * b < two64 -> mul64 a b = a * b.
Proof. intros. unfold mul64. apply N.mod_small; assumption. Qed.

Lemma add64_lt a b : add64 a b < two64.
Proof. unfold add64. apply N.mod_lt. unfold two64; lia. Qed.

Lemma sub64_lt a b : sub64 a b < two64.
Proof. unfold sub64. apply N.mod_lt. unfold two64; lia. Qed.

Section FMapFacts.
  Context {K V : Type}.
  Variable eqb : K -> K -> bool.
  Hypothesis eqb_ok : forall a b, eqb a b = true <-> a = b.

  Lemma eqb_same k : eqb k k = true.
  Proof. apply eqb_ok; reflexivity. Qed.

  Lemma eqb_diff (a b : K) : a <> b -> eqb a b = false.
  Proof. intros H. destruct (eqb a b) eqn:E; auto. apply eqb_ok in E; congruence. Qed.

  Lemma eqb_case (a b : K) : {a = b} + {a <> b}.
  Proof. destruct (eqb a b) eqn:E; [left; apply eqb_ok; auto | right; intros ->;
    rewrite eqb_same in E; discriminate]. Qed.

  Implicit Types m : list (K * V).

  Lemma fget_put_same m k v : fget eqb (fput eqb m k v) k = Some v.
  Proof.
    induction m as [|[k' v'] m IH]; simpl.
    - now rewrite eqb_same.
    - destruct (eqb k k') eqn:E; simpl; rewrite E; auto.
  Qed.

  Lemma fget_put_other m k v k' : k' <> k -> fget eqb (fput eqb m k v) k' = fget eqb m k'.
  Proof.
    intros H. induction m as [|[k0 v0] m IH]; simpl.
    - now rewrite eqb_diff.
    - destruct (eqb k k0) eqn:E; simpl.
      + apply eqb_ok in E; subst k0. now rewrite eqb_diff.
      + destruct (eqb k' k0); auto.
  Qed.

  Lemma fget_put m k v k' :
    fget eqb (fput eqb m k v) k' = if eqb k' k then Some v else fget eqb m k'.
  Proof.
    destruct (eqb k' k) eqn:E.
    - apply eqb_ok in E; subst. apply fget_put_same.
    - apply fget_put_other. intros ->. rewrite eqb_same in E; discriminate.
  Qed.

  Lemma fget_del_same m k : fget eqb (fdel eqb m k) k = None.
  Proof.
    induction m as [|[k' v'] m IH]; simpl; auto.
    destruct (eqb k k') eqn:E; simpl; auto. now rewrite E.
  Qed.

  Lemma fget_del_other m k k' : k' <> k -> fget eqb (fdel eqb m k) k' = fget eqb m k'.
  Proof.
    intros H. induction m as [|[k0 v0] m IH]; simpl; auto.
    destruct (eqb k k0) eqn:E; simpl.
    - apply eqb_ok in E; subst k0. now rewrite eqb_diff.
    - destruct (eqb k' k0); auto.
  Qed.

  Lemma fget_del m k k' :
    fget eqb (fdel eqb m k) k' = if eqb k' k then None else fget eqb m k'.
  Proof.
    destruct (eqb k' k) eqn:E.
    - apply eqb_ok in E; subst. apply fget_del_same.
    - apply fget_del_other. intros ->. rewrite eqb_same in E; discriminate.
  Qed.

  Lemma fget_in m k v : fget eqb m k = Some v -> In (k, v) m.
  Proof.
    induction m as [|[k' v'] m IH]; simpl; [discriminate|].
    destruct (eqb k k') eqn:E; intros H.
    - apply eqb_ok in E; subst. inversion H; auto.
    - auto.
  Qed.

  Lemma fget_none m k : fget eqb m k = None <-> ~ In k (keys m).
  Proof.
    induction m as [|[k' v'] m IH]; simpl; [intuition|].
    destruct (eqb k k') eqn:E.
    - apply eqb_ok in E; subst. split; [discriminate | intuition].
    - rewrite IH. split; [|intuition]. intros H [->|H1]; auto. rewrite eqb_same in E; discriminate.
  Qed.

  Lemma fget_some_key m k v : fget eqb m k = Some v -> In k (keys m).
  Proof. intros H. apply fget_in in H. apply (in_map fst) in H. exact H. Qed.

  Lemma in_fget m k v : NoDup (keys m) -> In (k, v) m -> fget eqb m k = Some v.
  Proof.
    induction m as [|[k' v'] m IH]; simpl; [intuition|].
    intros Hn [H|H].
    - inversion H; subst. now rewrite eqb_same.
    - inversion Hn; subst. rewrite eqb_diff; auto. intros ->. apply H2.
      apply (in_map fst) in H. exact H.
  Qed.

  Lemma keys_put_in m k v x : In x (keys (fput eqb m k v)) <-> x = k \/ In x (keys m).
  Proof.
    induction m as [|[k' v'] m IH]; simpl; [intuition|].
    destruct (eqb k k') eqn:E; simpl.
    - apply eqb_ok in E; subst. intuition.
    - rewrite IH. intuition.
  Qed.

  Lemma keys_del_in m k x : In x (keys (fdel eqb m k)) <-> x <> k /\ In x (keys m).
  Proof.
    induction m as [|[k' v'] m IH]; simpl; [intuition|].
    destruct (eqb k k') eqn:E; simpl.
    - apply eqb_ok in E; subst. rewrite IH. intuition congruence.
    - rewrite IH. split.
      + intros [->|H]; intuition. subst. rewrite eqb_same in E; discriminate.
      + intuition.
  Qed.

  Lemma nodup_put m k v : NoDup (keys m) -> NoDup (keys (fput eqb m k v)).
  Proof.
    induction m as [|[k' v'] m IH]; simpl; intros Hn.
    - constructor; [intros [] | constructor].
    - inversion Hn; subst. destruct (eqb k k') eqn:E; simpl.
      + constructor; auto.
      + constructor; auto. rewrite keys_put_in. intros [->|H]; auto.
        rewrite eqb_same in E; discriminate.
  Qed.

  Lemma nodup_del m k : NoDup (keys m) -> NoDup (keys (fdel eqb m k)).
  Proof.
    induction m as [|[k' v'] m IH]; simpl; intros Hn; auto.
    inversion Hn; subst. destruct (eqb k k') eqn:E; simpl; auto.
    constructor; auto. rewrite keys_del_in. intuition.
  Qed.

  Lemma del_absent m k : fget eqb m k = None -> fdel eqb m k = m.
  Proof.
    induction m as [|[k' v'] m IH]; simpl; auto.
    destruct (eqb k k'); [discriminate|]. intros. f_equal. auto.
  Qed.

  Lemma msum_put f m k v :
    NoDup (keys m) -> msum f (fput eqb m k v) + fval eqb f m k = msum f m + f v.
  Proof.
    unfold fval. induction m as [|[k' v'] m IH]; simpl; intros Hn.
    - lia.
    - inversion Hn; subst. destruct (eqb k k') eqn:E; simpl.
      + lia.
      + specialize (IH H2). destruct (fget eqb m k); lia.
  Qed.

  Lemma msum_del f m k :
    NoDup (keys m) -> msum f (fdel eqb m k) + fval eqb f m k = msum f m.
  Proof.
    unfold fval. induction m as [|[k' v'] m IH]; simpl; intros Hn.
    - lia.
    - inversion Hn; subst. destruct (eqb k k') eqn:E; simpl.
      + apply eqb_ok in E; subst. rewrite del_absent; [lia|]. apply fget_none; auto.
      + specialize (IH H2). destruct (fget eqb m k); lia.
  Qed.

  Lemma fval_le_msum f m k : NoDup (keys m) -> fval eqb f m k <= msum f m.
  Proof. intros H. pose proof (msum_del f m k H). lia. Qed.

  (** Two maps with the same value at every key have the same sum. *)
  Lemma msum_ext f m1 m2 :
    NoDup (keys m1) -> NoDup (keys m2) ->
    (forall k, fval eqb f m1 k = fval eqb f m2 k) -> msum f m1 = msum f m2.
  Proof.
    revert m2. induction m1 as [|[k v] m1 IH]; intros m2 H1 H2 He.
    - simpl. clear H1. induction m2 as [|[k v] m2 IH2]; simpl; auto.
      inversion H2; subst. rewrite <- IH2; auto.
      + specialize (He k). unfold fval in He. simpl in He. rewrite eqb_same in He. lia.
      + intros k'. specialize (He k'). unfold fval in *. simpl in *.
        destruct (eqb k' k) eqn:E; auto. apply eqb_ok in E; subst.
        rewrite (proj2 (fget_none m2 k)); auto.
    - simpl. inversion H1; subst. rewrite (IH (fdel eqb m2 k)).
      + pose proof (msum_del f m2 k H2). specialize (He k). unfold fval in He at 1.
        simpl in He. rewrite eqb_same in He. lia.
      + assumption.
      + now apply nodup_del.
      + intros k'. unfold fval. rewrite fget_del. destruct (eqb k' k) eqn:E.
        * apply eqb_ok in E; subst. rewrite (proj2 (fget_none m1 k)); auto.
        * specialize (He k'). unfold fval in He. simpl in He. rewrite E in He. exact He.
  Qed.

  Lemma msum_app f m1 m2 : msum f (m1 ++ m2) = msum f m1 + msum f m2.
  Proof. induction m1 as [|[k v] m1 IH]; simpl; auto. rewrite IH. lia. Qed.

  Lemma msum_le f g m : (forall k v, In (k, v) m -> f v <= g v) -> msum f m <= msum g m.
  Proof.
    induction m as [|[k v] m IH]; simpl; intros H; [lia|].
    pose proof (H k v (or_introl eq_refl)). assert (msum f m <= msum g m) by (apply IH; eauto). lia.
  Qed.

  Lemma msum_plus f g m : msum (fun v => f v + g v) m = msum f m + msum g m.
  Proof. induction m as [|[k v] m IH]; simpl; auto. rewrite IH. lia. Qed.

  Lemma msum_eq f g m : (forall k v, In (k, v) m -> f v = g v) -> msum f m = msum g m.
  Proof.
    induction m as [|[k v] m IH]; simpl; intros H; auto.
    rewrite (H k v); auto. f_equal. apply IH; eauto.
  Qed.

  Lemma msum_perm f m1 m2 : Permutation m1 m2 -> msum f m1 = msum f m2.
  Proof.
    induction 1 as [|[? ?]|[? ?] [? ?]|]; simpl; lia.
  Qed.
End FMapFacts.

Lemma nsum_app l1 l2 : nsum (l1 ++ l2) = nsum l1 + nsum l2.
Proof. induction l1 as [|x l1 IH]; cbn [nsum app]; [lia | rewrite IH; lia]. Qed.

Lemma nsum_perm l1 l2 : Permutation l1 l2 -> nsum l1 = nsum l2.
Proof. induction 1; cbn [nsum]; lia. Qed.

Lemma nsum_repeat x n : nsum (repeat x n) = x * N.of_nat n.
Proof. induction n as [|n IH]; cbn [nsum repeat]; [lia | rewrite IH; lia]. Qed.

Lemma msum_nsum {K V} (f : V -> N) (m : list (K * V)) :
  msum f m = nsum (map (fun kv => f (snd kv)) m).
Proof. induction m as [|[k v] m IH]; cbn [msum nsum map snd]; auto. now rewrite IH. Qed.

Lemma N_eqb_ok : forall a b : N, (a =? b) = true <-> a = b.
Proof. intros; apply N.eqb_eq. Qed.

Lemma String_eqb_ok : forall a b : string, String.eqb a b = true <-> a = b.
Proof. intros; apply String.eqb_eq. Qed.


Lemma pair_eqb_ok {A B} (ea : A -> A -> bool) (eb : B -> B -> bool) :
  (forall a b, ea a b = true <-> a = b) -> (forall a b, eb a b = true <-> a = b) ->
  forall x y, pair_eqb ea eb x y = true <-> x = y.
Proof.
  intros Ha Hb [a b] [c d]. unfold pair_eqb. simpl. rewrite andb_true_iff, Ha, Hb.
  split; [intros [-> ->]; auto | intros H; inversion H; auto].
Qed.
