(** Proofs about the choice of the active chain. *)
From Coq Require Import List Bool NArith ZArith Lia Permutation Sorted.
From Coq Require Import ZifyBool ZifyNat ZifyN.
From Verif Require Import Prelude PreludeFacts AccountModel DexModel DexProofs ContainerModel ChainSpec
  ChainModel ChainProofs SelectModel.
Import ListNotations.
Open Scope Z_scope.

(** ** Marks *)

(** [t'] is [t] with other marks. *)
Inductive remarks : list (N * node) -> list (N * node) -> Prop :=
| re_same t : remarks t t
| re_put t t' b n f : remarks t t' -> fget N.eqb t' b = Some n ->
    remarks t (fput N.eqb t' b (marked n f)).

Lemma remarks_trans t1 t2 t3 : remarks t1 t2 -> remarks t2 t3 -> remarks t1 t3.
Proof. intros A B. induction B; [easy|]. econstructor; eauto. Qed.
Lemma remarks_links t t' : remarks t t' -> same_links t t'.
Proof.
  intros R. induction R as [t|t t' b n f R IH E]; [now intros x|].
  apply (same_trans t t'); [easy|]. now apply same_put with n.
Qed.
Lemma remarks_proper par t t' : remarks t t' -> proper par t -> proper par t'.
Proof.
  intros R P. induction R as [t|t t' b n f R IH E]; [easy|]. apply proper_mark; auto.
Qed.
Lemma remarks_grown l t t' : remarks t t' -> grown l t -> grown l t'.
Proof.
  intros R P. induction R as [t|t t' b n f R IH E]; [easy|]. apply grown_mark; auto.
Qed.
Lemma remarks_keys t t' : remarks t t' -> keys t' = keys t.
Proof.
  intros R. induction R as [t|t t' b n f R IH E]; [easy|]. rewrite <- IH. clear IH R.
  induction t' as [|[x m] t' IH]; [discriminate|]. cbn [fget fput keys map] in *.
  destruct (N.eqb_spec b x) as [->|D]; cbn [map fst]; [easy|]. f_equal. now apply IH.
Qed.

Lemma drop_in l b x : In x (drop_bid l b) <-> In x l /\ x <> b.
Proof.
  unfold drop_bid. rewrite filter_In. split; intros (A & B); split; auto.
  - intros ->. now rewrite N.eqb_refl in B.
  - destruct (N.eqb_spec b x) as [->|]; [now elim B|reflexivity].
Qed.

Lemma deref_fget t b n : deref t (Some b) = Done n -> fget N.eqb t b = Some n.
Proof. intros D. destruct (deref_done t _ n D) as (x & X & E). congruence. Qed.

Lemma fail_remarks t valid b r : fail_block t valid b = Done r ->
  remarks t (fst r) /\ snd r = drop_bid valid b.
Proof.
  unfold fail_block. intros H. step H as n E. injection H as <-. cbn [fst snd]. split; [|easy].
  econstructor; [constructor|]. now apply deref_fget.
Qed.
Lemma path_remarks fuel : forall t valid p stop r, mark_path t valid fuel p stop = Done r -> remarks t (fst r).
Proof.
  induction fuel as [|fuel IH]; intros t valid p stop r H; cbn [mark_path] in H;
    destruct p as [b|]; try discriminate; destruct (N.eqb b stop); try discriminate.
  - injection H as <-. constructor.
  - injection H as <-. constructor.
  - step H as n E. step H as k F. apply fail_remarks in F. eapply remarks_trans; [apply F|]. eauto.
Qed.

Section Addr.
  Variable addr : N -> N.

  Lemma choose_remarks act fuel : forall t valid r, choose addr t valid act fuel = Done r ->
    remarks t (fst (fst r)).
  Proof.
    induction fuel as [|fuel IH]; intros t valid r H; cbn [choose] in H; step H as g G;
      (destruct g as [x|]; [|injection H as <-; constructor]);
      step H as nx X; step H as y Y; destruct y as [y|]; try discriminate;
      try (injection H as <-; constructor).
    step H as k K. apply path_remarks in K. eapply remarks_trans; eauto.
  Qed.
  Lemma most_remarks s s' : find_most addr s = Done s' ->
    remarks (s_tree s) (s_tree s') /\ s_act s' = s_act s.
  Proof.
    unfold find_most. intros H. step H as p P. step H as r R. apply choose_remarks in R. cbn zeta in H.
    destruct (snd r) as [x|]; [|injection H as <-; auto].
    step H as better B. destruct better; [step H as m M|]; injection H as <-; auto.
  Qed.
End Addr.

(** ** The tip moves *)
Section Moves.
  Variable par : N -> option N.

  (** The chain [c] ends with the known block [b]. *)
  Definition ends (t : list (N * node)) (c : list (option N)) (b : N) : Prop := known t b /\ line par b c.

  Lemma ends_tip t c b : linked par t -> ends t c b -> c_tip c = Some b.
  Proof. intros L (K & Ln). now apply (line_tip par t). Qed.
  Lemma ends_was t c b : ends t c b -> was par t c.
  Proof. intros (K & Ln). right. eauto. Qed.
  Lemma ends_set t c b c' f : linked par t -> one_root par t -> known t b -> was par t c ->
    c_set_tip t c (Some b) = Done (c', f) -> ends t c' b.
  Proof.
    intros L Ro K W E. destruct (set_tip_ok par t b c L Ro K W) as (c2 & f2 & E2 & Ln & _).
    rewrite E in E2. injection E2 as <- <-. split; auto.
  Qed.
  Lemma ends_remarks t t' c b : remarks t t' -> ends t c b -> ends t' c b.
  Proof.
    intros R (K & Ln). split; [|easy]. apply remarks_links in R. eapply same_known; eauto.
  Qed.
  (** All chains begin with the same block. *)
  Lemma ends_first t c b : linked par t -> ends t c b ->
    exists g, c_at c 0 = Some g /\ back par b g /\ par g = None /\ known t g.
  Proof.
    intros L (K & Ln). destruct (height_gen par t b L K) as [B (g & U & N)]. exists g.
    split; [|split; [red; eauto|split; [easy|exact (up_known par t b _ g L K U)]]].
    apply (line_at par t b c 0 g L K Ln). split; [lia|]. now rewrite Z.sub_0_r.
  Qed.
  Lemma ends_same_first t c b c' b' : linked par t -> one_root par t -> ends t c b -> ends t c' b' ->
    c_at c' 0 = c_at c 0.
  Proof.
    intros L Ro E E'. destruct (ends_first t c b L E) as (g & G & _ & N & K).
    destruct (ends_first t c' b' L E') as (g' & G' & _ & N' & K'). rewrite G, G'.
    f_equal. now apply Ro.
  Qed.

  Definition good (t : list (N * node)) : Prop := linked par t /\ one_root par t.
  Lemma good_remarks t t' : remarks t t' -> good t -> good t'.
  Proof.
    intros R (L & Ro). apply remarks_links in R. split; [now apply same_linked with t|now apply same_root with t].
  Qed.

  Lemma connect_moves v s b s' T : connect_tip v s b = Done s' -> good (s_tree s) ->
    ends (s_tree s) (s_act s) T ->
    remarks (s_tree s) (s_tree s')
    /\ exists T', ends (s_tree s') (s_act s') T' /\ back par T' T
       /\ (v <> VOk -> T' = T) /\ (v = VOk -> T' = b /\ par b = Some T) /\ s_most s' = s_most s.
  Proof.
    unfold connect_tip. intros H (L & Ro) E. step H as n D. apply deref_fget in D.
    step H as u A. unfold asserted in A. destruct (opt_eqb (n_prev n) (c_tip (s_act s))) eqn:Q; [|discriminate].
    apply opt_eqb_true in Q. rewrite (ends_tip _ _ T L E) in Q. destruct L as (Lp & Lr).
    rewrite (Lp b n D) in Q. destruct v.
    - step H as r S. injection H as <-. cbn [s_tree s_act s_most]. split; [constructor|]. exists b.
      destruct r as [c f]. split; [|split; [exists 1%nat; now apply up_one|split; [easy|auto]]].
      apply (ends_set _ (s_act s) b c f); [now split|easy|now exists n|eapply ends_was; eauto|easy].
    - step H as r S. injection H as <-. cbn [s_tree s_act s_most]. apply fail_remarks in S. destruct S as [S _].
      split; [easy|]. exists T. split; [eapply ends_remarks; eauto|].
      split; [apply back_refl|]. split; [easy|]. split; [discriminate|easy].
    - injection H as <-. split; [constructor|]. exists T. split; [easy|]. split; [apply back_refl|].
      split; [easy|]. split; [discriminate|easy].
  Qed.

  Lemma disconnect_moves s s' T p : disconnect_tip s = Done s' -> good (s_tree s) ->
    ends (s_tree s) (s_act s) T -> par T = Some p ->
    s_tree s' = s_tree s /\ s_most s' = s_most s /\ s_valid s' = s_valid s /\ ends (s_tree s) (s_act s') p.
  Proof.
    unfold disconnect_tip. intros H (L & Ro) E P. rewrite (ends_tip _ _ T L E) in H.
    step H as n D. apply deref_fget in D. pose proof L as (Lp & _ & Lc). rewrite (Lp T n D), P in H.
    step H as r S. injection H as <-. cbn. split; [easy|]. split; [easy|]. split; [easy|]. destruct r as [c f].
    apply (ends_set _ (s_act s) p c f); auto; [eapply Lc; eauto|eapply ends_was; eauto].
  Qed.

  Lemma disconnect_all_moves z fuel : forall s s' T, disconnect_all fuel s = Done s' -> good (s_tree s) ->
    ends (s_tree s) (s_act s) T -> back par T z -> c_contains (s_tree s) (s_most s) (Some z) = Done true ->
    s_tree s' = s_tree s /\ s_most s' = s_most s /\ s_valid s' = s_valid s
    /\ exists T', ends (s_tree s) (s_act s') T' /\ back par T T' /\ back par T' z
       /\ c_contains (s_tree s) (s_most s) (Some T') = Done true.
  Proof.
    induction fuel as [|fuel IH]; intros s s' T H G E B C; cbn [disconnect_all] in H;
      rewrite (ends_tip _ _ T (proj1 G) E) in H; step H as y Y; destruct y; try discriminate.
    - injection H as <-. split; [easy|]. split; [easy|]. split; [easy|]. exists T.
      split; [easy|]. split; [apply back_refl|]. split; [easy|easy].
    - injection H as <-. split; [easy|]. split; [easy|]. split; [easy|]. exists T.
      split; [easy|]. split; [apply back_refl|]. split; [easy|easy].
    - destruct B as (k & U). destruct k as [|k]; [inversion U; subst; congruence|].
      inversion U as [|b p k' a P V]; subst. step H as s1 S1.
      destruct (disconnect_moves s s1 T p S1 G E P) as (Tr & Mo & Va & E1).
      rewrite <- Tr in G, E1, C. rewrite <- Mo in C.
      destruct (IH s1 s' p H G E1 ltac:(red; eauto) C) as (Tr2 & Mo2 & Va2 & T' & E2 & B2 & B3 & C2).
      rewrite <- Tr, <- Mo, <- Va. split; [easy|]. split; [easy|]. split; [easy|]. exists T'. split; [easy|].
      split; [|split; easy]. apply (back_trans par T p); [exists 1%nat; now apply up_one|easy].
  Qed.

  Lemma connect_all_moves v fuel : forall s r T, connect_all fuel v s = Done r -> good (s_tree s) ->
    ends (s_tree s) (s_act s) T ->
    remarks (s_tree s) (s_tree (fst r)) /\ s_most (fst r) = s_most s
    /\ exists T', ends (s_tree (fst r)) (s_act (fst r)) T' /\ back par T' T.
  Proof.
    induction fuel as [|fuel IH]; intros s r T H G E; cbn [connect_all] in H; step H as y Y;
      destruct y; try discriminate.
    - injection H as <-. split; [constructor|]. split; [easy|]. exists T. split; [easy|apply back_refl].
    - injection H as <-. split; [constructor|]. split; [easy|]. exists T. split; [easy|apply back_refl].
    - destruct (c_at (s_most s) (c_height (s_act s) + 1)) as [b|]; [|discriminate].
      step H as s1 S1. destruct (connect_moves (v b) s b s1 T S1 G E) as (R & T1 & E1 & B1 & _ & _ & Mo).
      destruct (v b).
      + pose proof (good_remarks _ _ R G) as G1. destruct (IH s1 r T1 H G1 E1) as (R2 & Mo2 & T2 & E2 & B2).
        split; [eapply remarks_trans; eauto|]. split; [congruence|]. exists T2. split; [easy|].
        eapply back_trans; eauto.
      + injection H as <-. cbn [fst]. eauto 6.
      + injection H as <-. cbn [fst]. eauto 6.
  Qed.

  (** ** The final block *)

  (** [F] is the block that is final, remembered and on record. *)
  Definition fixed (act : list (option N)) (f : fin) (F : N) : Prop :=
    fst (global_hash act f) = Some F
    /\ match f_record f with Some r => snd r = F | None => c_at act 0 = Some F end
    /\ (forall g, f_global f = Some g -> exists h, f_record f = Some (h, g)).

  Lemma fixed_act act act' f F : c_at act' 0 = c_at act 0 -> fixed act f F -> fixed act' f F.
  Proof.
    intros E (A & B & C). unfold fixed, global_hash in *.
    destruct (f_global f), (f_hash f), (f_record f); cbn [fst] in *; rewrite ?E; auto.
  Qed.
  Lemma fixed_hash act f F : fixed act f F ->
    global_hash act f = (Some F, snd (global_hash act f)) /\ fixed act (snd (global_hash act f)) F
    /\ f_global (snd (global_hash act f)) = f_global f
    /\ f_record (snd (global_hash act f)) = f_record f.
  Proof.
    intros (A & B & C). split; [now rewrite <- A; destruct (global_hash act f)|].
    unfold fixed, global_hash in *.
    destruct (f_global f) as [g|] eqn:G; cbn [fst snd f_global f_hash f_record] in *; [now rewrite G; auto 6|].
    destruct (f_hash f) as [h|] eqn:H; cbn [fst snd f_global f_hash f_record] in *; [now rewrite G, H; auto 6|].
    rewrite A. destruct (f_record f); cbn; auto 6.
  Qed.
  Lemma fixed_local act f F b : fixed act f F ->
    fixed act (mkFin b (f_time f) (f_global f) (f_hash f) (f_record f)) F.
  Proof. intros (A & B & C). unfold fixed, global_hash in *. cbn [f_global f_hash f_record].
    destruct (f_global f), (f_hash f), (f_record f); auto. Qed.

  Lemma scan_free t act most now F k : forall f r, scan t act most now f k = Done r -> fixed act f F ->
    fixed act (snd r) F /\ f_global (snd r) = f_global f /\ f_record (snd r) = f_record f
    /\ (fst r = Free -> (k <= length act)%nat ->
          (exists j z, (j < k)%nat /\ c_at act (Z.of_nat j) = Some z
             /\ c_contains t most (Some z) = Done true
             /\ forall i, (j < i < k)%nat -> c_at act (Z.of_nat i) <> Some F)
          \/ (forall i, (i < k)%nat -> c_at act (Z.of_nat i) <> Some F)).
  Proof.
    induction k as [|k IH]; intros f r H Fx; cbn [scan] in H.
    - injection H as <-. cbn [fst snd]. split; [easy|]. split; [easy|]. split; [easy|].
      intros _ _. right. intros i. lia.
    - destruct (c_at act (Z.of_nat k)) as [x|] eqn:X.
      2:{ injection H as <-. cbn [fst snd]. split; [easy|]. split; [easy|]. split; [easy|]. discriminate. }
      step H as y Y. destruct y.
      + injection H as <-. cbn [fst snd]. split; [easy|]. split; [easy|]. split; [easy|].
        intros _ Len. left. exists k, x. split; [lia|]. split; [easy|]. split; [easy|]. intros i. lia.
      + cbn zeta in H. destruct (opt_eqb (local_fin act f) (Some x) && negb (60 <? now - f_time f)).
        { injection H as <-. cbn [fst snd]. split; [easy|]. split; [easy|]. split; [easy|]. discriminate. }
        set (f1 := if opt_eqb (local_fin act f) (Some x)
                   then mkFin (c_at act 0) (f_time f) (f_global f) (f_hash f) (f_record f) else f) in H.
        assert (F1 : fixed act f1 F /\ f_global f1 = f_global f /\ f_record f1 = f_record f).
        { unfold f1. destruct (opt_eqb (local_fin act f) (Some x)); [|easy].
          split; [now apply fixed_local|easy]. }
        destruct F1 as (F1 & G1 & R1). destruct (fixed_hash act f1 F F1) as (E & F2 & G2 & R2).
        rewrite E in H. cbn iota in H. set (f2 := snd (global_hash act f1)) in *.
        destruct (opt_eqb (Some F) (Some x)) eqn:Q.
        { injection H as <-. cbn [fst snd]. split; [easy|]. split; [congruence|]. split; [congruence|]. discriminate. }
        assert (Nx : Some x <> Some F).
        { intros W. injection W as ->. rewrite (proj2 (opt_eqb_true (Some F) (Some F)) eq_refl) in Q. discriminate. }
        destruct (IH f2 r H F2) as (A & B & C & D). split; [easy|]. split; [congruence|]. split; [congruence|].
        intros Fr Len. destruct (D Fr ltac:(lia)) as [(j & z & Lj & Z & Cz & Ab)|Ab].
        * left. exists j, z. split; [lia|]. split; [easy|]. split; [easy|]. intros i Li.
          destruct (Nat.eq_dec i k) as [->|]; [now rewrite X|]. apply Ab. lia.
        * right. intros i Li. destruct (Nat.eq_dec i k) as [->|]; [now rewrite X|]. apply Ab. lia.
  Qed.

  (** A block of the chain that is not passed on the way down. *)
  Lemma not_passed t act most T F : linked par t -> ends t act T -> back par T F ->
    ((exists j z, (j < length act)%nat /\ c_at act (Z.of_nat j) = Some z
        /\ c_contains t most (Some z) = Done true
        /\ forall i, (j < i < length act)%nat -> c_at act (Z.of_nat i) <> Some F)
     \/ (forall i, (i < length act)%nat -> c_at act (Z.of_nat i) <> Some F)) ->
    exists z, back par T z /\ c_contains t most (Some z) = Done true /\ back par z F.
  Proof.
    intros L (K & Ln) (k & U) A.
    pose proof (line_length par t T act L K Ln) as Le. pose proof (height_up par t T k F L K U) as HF.
    assert (KF : known t F) by exact (up_known par t T k F L K U).
    destruct (height_gen par t F L KF) as [BF _].
    assert (AtF : c_at act (height_of t F) = Some F).
    { apply (line_at par t T act _ F L K Ln). split; [lia|].
      now replace (Z.to_nat (height_of t T - height_of t F)) with k by lia. }
    destruct A as [(j & z & Lj & Z & Cz & Ab)|Ab].
    - apply (line_at par t T act _ z L K Ln) in Z. destruct Z as (Rj & Uz). exists z.
      split; [red; eauto|]. split; [easy|].
      destruct (Z.le_gt_cases (height_of t F) (Z.of_nat j)) as [Le2|Gt].
      + apply (back_linear par T z F _ k Uz U). lia.
      + exfalso. apply (Ab (Z.to_nat (height_of t F))); [lia|]. rewrite Z2Nat.id by lia. exact AtF.
    - exfalso. apply (Ab (Z.to_nat (height_of t F))); [lia|]. rewrite Z2Nat.id by lia. exact AtF.
  Qed.

  (** If the chain may be left, then for a chain that parts from it at the final block or above. *)
  Lemma scan_above t act most now f r T F : scan t act most now f (length act) = Done r ->
    linked par t -> ends t act T -> back par T F -> fixed act f F -> fst r = Free ->
    exists z, back par T z /\ c_contains t most (Some z) = Done true /\ back par z F.
  Proof.
    intros H L E B Fx Fr.
    destruct (scan_free t act most now F (length act) f r H Fx) as (_ & _ & _ & A).
    apply (not_passed t act most T F L E B (A Fr (Nat.le_refl _))).
  Qed.

  (** The same for a block confirmed not long ago. *)
  Lemma scan_local t act most now X k : forall f r, scan t act most now f k = Done r ->
    f_local f = Some X -> now - f_time f <= 60 ->
    f_local (snd r) = Some X /\ f_time (snd r) = f_time f
    /\ (fst r = Free -> (k <= length act)%nat ->
          (exists j z, (j < k)%nat /\ c_at act (Z.of_nat j) = Some z
             /\ c_contains t most (Some z) = Done true
             /\ forall i, (j < i < k)%nat -> c_at act (Z.of_nat i) <> Some X)
          \/ (forall i, (i < k)%nat -> c_at act (Z.of_nat i) <> Some X)).
  Proof.
    induction k as [|k IH]; intros f r H Lf Tm; cbn [scan] in H.
    - injection H as <-. cbn [fst snd]. split; [easy|]. split; [easy|]. intros _ _. right. intros i. lia.
    - destruct (c_at act (Z.of_nat k)) as [x|] eqn:Ex.
      2:{ injection H as <-. cbn [fst snd]. split; [easy|]. split; [easy|]. discriminate. }
      step H as y Y. destruct y.
      + injection H as <-. cbn [fst snd]. split; [easy|]. split; [easy|].
        intros _ Len. left. exists k, x. split; [lia|]. split; [easy|]. split; [easy|]. intros i. lia.
      + cbn zeta in H. unfold local_fin in H. rewrite Lf in H.
        assert (Nt : negb (60 <? now - f_time f) = true) by (destruct (Z.ltb_spec 60 (now - f_time f)); [lia|easy]).
        rewrite Nt, andb_true_r in H. destruct (opt_eqb (Some X) (Some x)) eqn:Q.
        { injection H as <-. cbn [fst snd]. split; [easy|]. split; [easy|]. discriminate. }
        assert (Nx : Some x <> Some X).
        { intros W. injection W as ->. rewrite (proj2 (opt_eqb_true (Some X) (Some X)) eq_refl) in Q. discriminate. }
        assert (Fs : f_local (snd (global_hash act f)) = f_local f /\ f_time (snd (global_hash act f)) = f_time f).
        { unfold global_hash. destruct (f_global f), (f_hash f); auto. }
        destruct (global_hash act f) as [h f2]. cbn [snd] in Fs. destruct Fs as (Fl & Ft).
        destruct (opt_eqb h (Some x)).
        { injection H as <-. cbn [fst snd]. split; [congruence|]. split; [congruence|]. discriminate. }
        destruct (IH f2 r H) as (A & C & D); [congruence|lia|]. split; [easy|]. split; [congruence|].
        intros Fr Len. destruct (D Fr ltac:(lia)) as [(j & z & Lj & Z & Cz & Ab)|Ab].
        * left. exists j, z. split; [lia|]. split; [easy|]. split; [easy|]. intros i Li.
          destruct (Nat.eq_dec i k) as [->|]; [now rewrite Ex|]. apply Ab. lia.
        * right. intros i Li. destruct (Nat.eq_dec i k) as [->|]; [now rewrite Ex|]. apply Ab. lia.
  Qed.

  (** ** Activation never leaves the final block *)
  Lemma activate_safe addr v now new F fuel : forall s f T r,
    activate addr fuel v now s f new = Done r -> good (s_tree s) -> ends (s_tree s) (s_act s) T ->
    back par T F -> fixed (s_act s) f F ->
    remarks (s_tree s) (s_tree (fst (fst r)))
    /\ f_global (snd (fst r)) = f_global f /\ f_record (snd (fst r)) = f_record f
    /\ exists T', ends (s_tree (fst (fst r))) (s_act (fst (fst r))) T' /\ back par T' F
       /\ fixed (s_act (fst (fst r))) (snd (fst r)) F.
  Proof.
    induction fuel as [|fuel IH]; intros s f T r H G E B Fx; cbn [activate] in H; [discriminate|].
    step H as s1 M. destruct (most_remarks addr s s1 M) as (R1 & A1).
    pose proof (good_remarks _ _ R1 G) as G1. pose proof (ends_remarks _ _ _ T R1 E) as E1.
    rewrite <- A1 in E1, Fx.
    destruct (c_tip (s_most s1)) as [mt|].
    2:{ injection H as <-. cbn [fst snd]. eauto 10. }
    step H as q Q. pose proof (scan_free _ _ _ _ F _ _ _ Q Fx) as (Fq & Gq & Rq & _).
    destruct (fst q) eqn:Lv.
    - destruct (scan_above _ _ _ _ _ _ T F Q (proj1 G1) E1 B Fx Lv) as (z & Bz & Cz & Fz).
      step H as s2 D. destruct (disconnect_all_moves z _ s1 s2 T D G1 E1 Bz Cz) as (Tr & Mo & Va & T2 & E2 & B2 & B3 & C2).
      rewrite <- Tr in E2. pose proof G1 as G2. rewrite <- Tr in G2.
      step H as e C. destruct (connect_all_moves (v fuel) _ s2 e T2 C G2 E2) as (R3 & Mo3 & T3 & E3 & B4).
      assert (R13 : remarks (s_tree s) (s_tree (fst e))).
      { eapply remarks_trans; [exact R1|]. now rewrite <- Tr. }
      assert (B5 : back par T3 F).
      { apply (back_trans par T3 T2); [easy|]. apply (back_trans par T2 z); easy. }
      assert (F3 : fixed (s_act (fst e)) (snd q) F).
      { apply (fixed_act (s_act s1)); [|easy].
        pose proof (good_remarks _ _ R3 G2) as G3.
        apply (ends_same_first (s_tree (fst e)) _ T _ T3 (proj1 G3) (proj2 G3)); [|easy].
        apply (ends_remarks (s_tree s2)); [easy|]. now rewrite Tr. }
      destruct (snd e).
      + injection H as <-. cbn [fst snd]. eauto 10.
      + pose proof (good_remarks _ _ R3 G2) as G3.
        destruct (IH (fst e) (snd q) T3 r H G3 E3 B5 F3) as (R4 & Gg & Rr & T4 & E4 & B6 & F4).
        split; [eapply remarks_trans; eauto|]. split; [congruence|]. split; [congruence|]. eauto.
      + injection H as <-. cbn [fst snd]. eauto 10.
    - step H as k C. injection H as <-. cbn [fst snd]. unfold connect_on_fin in C.
      destruct new as [b|].
      2:{ injection C as <-. cbn [fst snd]. eauto 10. }
      step C as n D. destruct (opt_eqb (c_tip (s_act s1)) (n_prev n)).
      2:{ injection C as <-. cbn [fst snd]. eauto 10. }
      step C as s2 S2. injection C as <-. cbn [fst snd].
      destruct (connect_moves _ s1 b s2 T S2 G1 E1) as (R2 & T2 & E2 & B2 & _).
      split; [eapply remarks_trans; eauto|]. split; [easy|]. split; [easy|]. exists T2. split; [easy|].
      split; [eapply back_trans; eauto|]. apply (fixed_act (s_act s1)); [|easy].
      pose proof (good_remarks _ _ R2 G1) as G2.
      apply (ends_same_first (s_tree s2) _ T _ T2 (proj1 G2) (proj2 G2)); [|easy].
      now apply (ends_remarks (s_tree s1)).
    - injection H as <-. cbn [fst snd]. eauto 10.
  Qed.

  (** A block confirmed at most 60 seconds ago is not left either. *)
  Lemma activate_local addr v now new X fuel : forall s f T r,
    activate addr fuel v now s f new = Done r -> good (s_tree s) -> ends (s_tree s) (s_act s) T ->
    back par T X -> f_local f = Some X -> now - f_time f <= 60 ->
    exists T', ends (s_tree (fst (fst r))) (s_act (fst (fst r))) T' /\ back par T' X.
  Proof.
    induction fuel as [|fuel IH]; intros s f T r H G E B Lf Tm; cbn [activate] in H; [discriminate|].
    step H as s1 M. destruct (most_remarks addr s s1 M) as (R1 & A1).
    pose proof (good_remarks _ _ R1 G) as G1. pose proof (ends_remarks _ _ _ T R1 E) as E1.
    rewrite <- A1 in E1.
    destruct (c_tip (s_most s1)) as [mt|].
    2:{ injection H as <-. cbn [fst snd]. eauto. }
    step H as q Q. destruct (scan_local _ _ _ _ X _ _ _ Q Lf Tm) as (Lq & Tq & A).
    destruct (fst q) eqn:Lv.
    - destruct (not_passed _ _ _ T X (proj1 G1) E1 B (A eq_refl (Nat.le_refl _))) as (z & Bz & Cz & Fz).
      step H as s2 D. destruct (disconnect_all_moves z _ s1 s2 T D G1 E1 Bz Cz) as (Tr & Mo & Va & T2 & E2 & B2 & B3 & C2).
      rewrite <- Tr in E2. pose proof G1 as G2. rewrite <- Tr in G2.
      step H as e C. destruct (connect_all_moves (v fuel) _ s2 e T2 C G2 E2) as (R3 & Mo3 & T3 & E3 & B4).
      assert (B5 : back par T3 X).
      { apply (back_trans par T3 T2); [easy|]. apply (back_trans par T2 z); easy. }
      destruct (snd e).
      + injection H as <-. cbn [fst snd]. eauto.
      + apply (IH (fst e) (snd q) T3 r H (good_remarks _ _ R3 G2) E3 B5 Lq). lia.
      + injection H as <-. cbn [fst snd]. eauto.
    - step H as k C. injection H as <-. cbn [fst snd]. unfold connect_on_fin in C.
      destruct new as [b|].
      2:{ injection C as <-. cbn [fst snd]. eauto. }
      step C as n D. destruct (opt_eqb (c_tip (s_act s1)) (n_prev n)).
      2:{ injection C as <-. cbn [fst snd]. eauto. }
      step C as s2 S2. injection C as <-. cbn [fst snd].
      destruct (connect_moves _ s1 b s2 T S2 G1 E1) as (R2 & T2 & E2 & B2 & _).
      exists T2. split; [easy|]. eapply back_trans; eauto.
    - injection H as <-. cbn [fst snd]. eauto.
  Qed.
End Moves.
