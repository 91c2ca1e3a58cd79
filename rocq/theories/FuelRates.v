(** Proofs about the rate of fuel (FuelModel.v, FuelSpec.v). *)
From Coq Require Import List Bool NArith ZArith Lia.
From Coq Require Import ZifyBool ZifyNat ZifyN.
From Verif Require Import Prelude PreludeFacts DexModel DoubleModel SingleModel FuelModel FuelSpec FuelFloat.
Import ListNotations.
Open Scope N_scope.

(** ** Rates *)

Lemma chain_nonempty n c : fuel_chain n c -> c <> [].
Proof. intros H. inversion H; discriminate. Qed.

Lemma chain_fees n c : fuel_chain n c -> Forall (fun e => e_fee e < two32) c.
Proof. induction 1; constructor; auto. Qed.

(** At first the rate is the initial one. *)
Lemma chain_early n c : fuel_chain n c -> N.of_nat (length c) <= 2 * n + 3 ->
  Forall (fun e => e_rate e = 100) c.
Proof.
  induction 1 as [f F|c r f C IH E F]; intros L.
  - constructor; auto.
  - cbn [length] in L. constructor; [|apply IH; lia].
    cbn [e_rate]. unfold element_for_burn in E. destruct c as [|t c']; [injection E as <-; reflexivity|].
    cbn [length] in *.
    replace (Z.of_N (N.of_nat (S (length c')) - 1) - 1 <=? Z.of_N n * 2)%Z with true in E
      by (symmetry; apply Z.leb_le; lia).
    injection E as <-. reflexivity.
Qed.

(** What the next rate can be, whatever the load. *)
Lemma next_rate n t c r : element_for_burn n (t :: c) = Done r -> e_rate t < 2 ^ 31 ->
  2 * n + 2 < N.of_nat (length (t :: c)) ->
  r <= N.max 1 (e_rate t * 11 / 10) /\ 1 <= r.
Proof.
  intros E R L. unfold element_for_burn in E. cbn [length] in *.
  replace (Z.of_N (N.of_nat (S (length c)) - 1) - 1 <=? Z.of_N n * 2)%Z with false in E
    by (symmetry; apply Z.leb_gt; lia).
  destruct (fuel_of _ 0) as [total| | |]; cbn [bind] in E; try discriminate.
  destruct (n =? 0); [discriminate|].
  rewrite (scaled_down _ R), (scaled_up _ R) in E.
  assert (e_rate t * 9 / 10 <= e_rate t * 11 / 10) by (apply N.div_le_mono; lia).
  assert (e_rate t <= e_rate t * 11 / 10).
  { apply N.div_le_lower_bound; lia. }
  destruct (dlt (of_N (total / n)) low_mark); [|destruct (dlt high_mark (of_N (total / n)))];
    cbn [bind] in E; injection E as <-; unfold min_fuel_rate;
    match goal with |- context [?a <? 1] => destruct (N.ltb_spec a 1) end; lia.
Qed.

(** Below ten the rate cannot rise. *)
Lemma stuck n t c r : fuel_chain n (t :: c) -> element_for_burn n (t :: c) = Done r ->
  e_rate t < 10 -> r < 10.
Proof.
  intros C E R.
  destruct (N.leb_spec (N.of_nat (length (t :: c))) (2 * n + 3)) as [L|L].
  - pose proof (chain_early _ _ C L) as A. inversion A. lia.
  - destruct (next_rate n t c r E) as [B _]; [lia|lia|].
    assert (e_rate t * 11 / 10 < 10) by (apply N.div_lt_upper_bound; lia). lia.
Qed.

Lemma stuck_forever n newer t c : fuel_chain n (newer ++ t :: c) -> e_rate t < 10 ->
  Forall (fun e => e_rate e < 10) newer.
Proof.
  induction newer as [|e newer IH]; intros C R; [constructor|].
  cbn [app] in C.
  assert (fuel_chain n (newer ++ t :: c) /\ element_for_burn n (newer ++ t :: c) = Done (e_rate e)) as [C' E].
  { inversion C as [f F X|c0 r f C' E F X]; subst.
    - destruct newer; discriminate.
    - split; auto. }
  specialize (IH C' R). constructor; auto.
  destruct newer as [|e' newer].
  - cbn [app] in *. apply (stuck _ _ _ _ C' E R).
  - cbn [app] in *. inversion IH. apply (stuck _ _ _ _ C' E). auto.
Qed.

(** Consecutive rates grow by at most a tenth. *)
Fixpoint slow (l : list entry) : Prop :=
  match l with
  | a :: ((b :: _) as l') => 10 * e_rate a <= 11 * e_rate b /\ slow l'
  | _ => True
  end.

Lemma slow_firstn k l : slow l -> slow (firstn k l).
Proof.
  revert l. induction k as [|k IH]; intros [|a l]; cbn [firstn]; auto; try exact (fun _ => I).
  destruct l as [|b l]; [destruct k; cbn; auto|]. intros [A B].
  specialize (IH (b :: l) B). destruct k as [|k]; cbn [firstn] in *; [exact I|].
  split; auto.
Qed.

Definition C : N := 100 * (two32 - 1).
Definition g (j : N) : N := 11 ^ j * 10 ^ (50 - j).
Fixpoint gsum (j : N) (k : nat) : N := match k with O => 0 | S k' => g j + gsum (j + 1) k' end.

Lemma units_bound l j r : slow l -> Forall (fun e => 1 <= e_rate e /\ e_fee e < two32) l ->
  match l with [] => True | e :: _ => 10 ^ j * r <= 11 ^ j * e_rate e end ->
  j + N.of_nat (length l) <= 50 ->
  units l * (r * 10 ^ 50) <= C * gsum j (length l).
Proof.
  revert j. induction l as [|e l IH]; intros j S A H L; [cbn [units]; lia|].
  cbn [units length gsum] in *. inversion A as [|? ? [R F] A']; subst.
  assert (e_fee e / e_rate e * 100 * (r * 10 ^ 50) <= C * g j) as Step.
  { assert (e_fee e / e_rate e * 100 * e_rate e <= C) as U.
    { pose proof (N.mul_div_le (e_fee e) (e_rate e)). unfold C. unfold two32 in *. nia. }
    replace (10 ^ 50) with (10 ^ j * 10 ^ (50 - j)) by (rewrite <- N.pow_add_r; f_equal; lia).
    unfold g. set (u := e_fee e / e_rate e * 100) in *.
    replace (u * (r * (10 ^ j * 10 ^ (50 - j)))) with (u * (10 ^ j * r) * 10 ^ (50 - j)) by ring.
    apply N.le_trans with (u * (11 ^ j * e_rate e) * 10 ^ (50 - j)).
    - apply N.mul_le_mono_r. apply N.mul_le_mono_l. auto.
    - replace (u * (11 ^ j * e_rate e) * 10 ^ (50 - j)) with (u * e_rate e * (11 ^ j * 10 ^ (50 - j))) by ring.
      apply N.mul_le_mono_r. auto. }
  assert (units l * (r * 10 ^ 50) <= C * gsum (j + 1) (length l)) as Rec.
  { apply IH; auto.
    - destruct l; [exact I|]. apply S.
    - destruct l as [|e' l]; auto. destruct S as [S1 _].
      rewrite !N.pow_add_r, !N.pow_1_r.
      replace (10 ^ j * 10 * r) with (10 * (10 ^ j * r)) by ring.
      replace (11 ^ j * 11 * e_rate e') with (11 ^ j * (11 * e_rate e')) by ring.
      apply N.le_trans with (10 * (11 ^ j * e_rate e)); [apply N.mul_le_mono_l; auto|].
      replace (10 * (11 ^ j * e_rate e)) with (11 ^ j * (10 * e_rate e)) by ring.
      apply N.mul_le_mono_l. auto.
    - lia. }
  rewrite N.mul_add_distr_r, N.mul_add_distr_l. apply N.add_le_mono; auto.
Qed.

Lemma units_small l : Forall (fun e => 1 <= e_rate e /\ e_fee e < two32) l ->
  units l <= N.of_nat (length l) * C.
Proof.
  induction 1 as [|e l [R F] _ IH]; cbn [units length]; [lia|].
  assert (e_fee e / e_rate e <= two32 - 1).
  { apply N.le_trans with (e_fee e); [apply N.div_le_upper_bound; nia|lia]. }
  unfold C in *. lia.
Qed.

Lemma fuel_of_units l acc : Forall (fun e => 1 <= e_rate e /\ e_fee e < two32) l ->
  acc + units l < two64 -> fuel_of l acc = Done (acc + units l).
Proof.
  intros A. revert acc. induction A as [|e l [R F] A IH]; intros acc H; cbn [fuel_of units] in *.
  - f_equal. lia.
  - replace (e_rate e =? 0) with false by (symmetry; apply N.eqb_neq; lia).
    unfold add64, mul64. rewrite (N.mod_small (e_fee e / e_rate e * 100)) by lia.
    rewrite N.mod_small by lia. rewrite IH by lia. f_equal. lia.
Qed.

Lemma firstn_fits {A} (P : A -> Prop) k l : Forall P l -> Forall P (firstn k l).
Proof.
  revert l. induction k; intros [|a l] H; cbn [firstn]; auto. inversion H. constructor; auto.
Qed.

Definition good (e : entry) : Prop := 1 <= e_rate e <= highest_rate /\ e_fee e < two32.

Lemma good_fits l : Forall good l -> Forall (fun e => 1 <= e_rate e /\ e_fee e < two32) l.
Proof. apply Forall_impl. intros e [A B]. lia. Qed.

(** The exact next rate. *)
Lemma next_exact t c : Forall good (t :: c) -> 102 < N.of_nat (length (t :: c)) ->
  element_for_burn 50 (t :: c) = Done
    (N.max 1 (if load 50 (t :: c) <? 450421875 then e_rate t * 9 / 10
              else if 510478125 <? load 50 (t :: c) then e_rate t * 11 / 10
              else e_rate t)).
Proof.
  intros G L. unfold element_for_burn, load.
  set (w := firstn (N.to_nat 50) (t :: c)). cbn [length] in L.
  replace (Z.of_N (N.of_nat (length (t :: c)) - 1) - 1 <=? Z.of_N 50 * 2)%Z with false
    by (symmetry; apply Z.leb_gt; cbn [length]; lia).
  assert (Forall (fun e => 1 <= e_rate e /\ e_fee e < two32) w) as W.
  { apply firstn_fits. apply good_fits. auto. }
  assert (units w <= 50 * C) as U.
  { eapply N.le_trans; [apply units_small; auto|]. apply N.mul_le_mono_r.
    unfold w. rewrite firstn_length. lia. }
  rewrite (fuel_of_units w 0 W) by (unfold C, two32, two64 in *; lia).
  cbn [bind]. change (50 =? 0) with false. cbn iota. rewrite N.add_0_l.
  assert (units w / 50 < 2 ^ 53) as B.
  { apply N.div_lt_upper_bound; [lia|]. unfold C, two32 in U. lia. }
  inversion G as [|? ? [[R1 R2] _] _]; subst.
  rewrite below_low, above_high by auto.
  unfold highest_rate in R2. rewrite (scaled_down (e_rate t)), (scaled_up (e_rate t)) by lia.
  set (a := units w / 50) in *.
  destruct (a <? 450421875); [|destruct (510478125 <? a)]; cbn [bind]; unfold min_fuel_rate;
    match goal with |- context [?a <? 1] => destruct (N.ltb_spec a 1) end; f_equal; lia.
Qed.

Lemma big_sum : C * gsum 0 50 < 19586 * 10 ^ 50 * (50 * 510478126).
Proof. vm_compute. reflexivity. Qed.

(** A rise above the high mark needs a rate that is not too high already. *)
Lemma rise t c : slow (t :: c) -> Forall good (t :: c) -> (50 <= length (t :: c))%nat ->
  510478125 < load 50 (t :: c) -> e_rate t <= 19585.
Proof.
  intros S G L H. unfold load in H. set (w := firstn (N.to_nat 50) (t :: c)) in H.
  assert (length w = 50)%nat as LW by (unfold w; rewrite firstn_length; lia).
  assert (510478126 * 50 <= units w) as U.
  { assert (510478126 <= units w / 50) as X by lia.
    pose proof (N.mul_div_le (units w) 50 ltac:(lia)). lia. }
  assert (units w * (e_rate t * 10 ^ 50) <= C * gsum 0 (length w)) as B.
  { apply units_bound.
    - apply slow_firstn. auto.
    - apply firstn_fits. apply good_fits. auto.
    - unfold w. change (N.to_nat 50) with 50%nat. cbn [firstn]. lia.
    - lia. }
  rewrite LW in B. pose proof big_sum as K.
  destruct (N.leb_spec (e_rate t) 19585) as [|X]; auto. exfalso.
  assert (19586 * 10 ^ 50 * (50 * 510478126) <= units w * (e_rate t * 10 ^ 50)).
  { replace (19586 * 10 ^ 50 * (50 * 510478126)) with (510478126 * 50 * (19586 * 10 ^ 50)) by ring.
    apply N.mul_le_mono; auto. apply N.mul_le_mono_r. lia. }
  lia.
Qed.

Lemma chain_good c : fuel_chain 50 c -> Forall good c /\ slow c.
Proof.
  induction 1 as [f F|c r f C [G S] E F].
  - split; [|exact I]. constructor; auto. split; cbn; auto. unfold init_fuel_rate, highest_rate. lia.
  - destruct c as [|t c]; [exfalso; apply (chain_nonempty _ _ C); auto|].
    pose proof G as G0. inversion G as [|? ? [[R1 R2] Fe] G']; subst.
    assert (10 * r <= 11 * e_rate t /\ 1 <= r <= highest_rate) as [A B].
    { destruct (N.leb_spec (N.of_nat (length (t :: c))) 102) as [L|L].
      - assert (r = 100 /\ e_rate t = 100) as [-> ->].
        { pose proof (chain_early _ _ C ltac:(lia)) as X. inversion X as [|? ? Xt _]; subst.
          assert (fuel_chain 50 (mkEntry r f :: t :: c)) as Y by (constructor; auto).
          pose proof (chain_early _ _ Y) as Z. cbn [length] in Z, L. specialize (Z ltac:(lia)).
          inversion Z as [|? ? Z1 _]; subst. cbn [e_rate] in Z1. split; assumption. }
        unfold highest_rate. lia.
      - rewrite (next_exact t c G0 L) in E. injection E as E.
        assert (e_rate t * 9 / 10 <= e_rate t) by (apply N.div_le_upper_bound; lia).
        pose proof (N.mul_div_le (e_rate t * 11) 10 ltac:(lia)) as M.
        destruct (load 50 (t :: c) <? 450421875); [lia|].
        destruct (N.ltb_spec 510478125 (load 50 (t :: c))) as [X|X]; [|lia].
        assert (e_rate t <= 19585) as Y by (apply (rise t c); [exact S|exact G0|clear - L; cbn [length] in *; lia|exact X]).
        assert (e_rate t * 11 / 10 < 21544) by (apply N.div_lt_upper_bound; lia).
        unfold highest_rate. split; [|lia]. lia. }
    split; [constructor; auto; split; auto|]. split; auto.
Qed.

Lemma chain_next c : fuel_chain 50 c ->
  exists r, element_for_burn 50 c = Done r /\ 1 <= r <= highest_rate.
Proof.
  intros H. destruct (chain_good c H) as [G S].
  destruct c as [|t c]; [exfalso; apply (chain_nonempty _ _ H); auto|].
  assert (exists r, element_for_burn 50 (t :: c) = Done r) as [r E].
  { destruct (N.leb_spec (N.of_nat (length (t :: c))) 102) as [L|L].
    - exists 100. unfold element_for_burn.
      replace (Z.of_N (N.of_nat (length (t :: c)) - 1) - 1 <=? Z.of_N 50 * 2)%Z with true; auto.
      symmetry. apply Z.leb_le. lia.
    - rewrite next_exact by auto. eexists. reflexivity. }
  exists r. split; auto.
  assert (fuel_chain 50 (mkEntry r 0 :: t :: c)) as Y.
  { constructor; auto. unfold two32. lia. }
  destruct (chain_good _ Y) as [GY _]. inversion GY as [|? ? [B _] _]; subst. exact B.
Qed.
