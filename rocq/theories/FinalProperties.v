(** Finality of blocks: C29, C30. *)
From Coq Require Import List Bool NArith ZArith Lia.
From Coq Require Import ZifyBool ZifyNat ZifyN.
From Verif Require Import Prelude PreludeFacts AccountModel DexModel DexProofs ContainerModel ChainSpec
  ChainModel ChainProofs SelectModel SelectProofs FinalModel FinalSpec FinalProofs.
Import ListNotations.
Open Scope Z_scope.

(** ** C29: what is final stays *)

(** At every point of a node's history there is one final block; from then on it stays on the active
    chain, over forks, messages and restarts, and later final blocks come after it. *)
Theorem c29_final_stays g es w w' : lives g es w -> after w w' ->
  exists F F', final_of w = Some F /\ final_of w' = Some F'
    /\ on_chain w F /\ on_chain w' F /\ on_chain w' F' /\ back (prev_of w') F' F.
Proof.
  intros Lv Af. destruct (lives_stands g es w Lv) as (l & T & F & St).
  destruct (after_stands w w' Af l es T F St) as (l' & es' & T' & F' & St' & Ex & B).
  exists F, F'. split; [eapply stands_final; eauto|]. split; [eapply stands_final; eauto|].
  pose proof (st_back _ _ _ _ _ St) as Bt. pose proof (st_back _ _ _ _ _ St') as Bt'.
  split; [now apply (stands_on l es w T F)|].
  split; [apply (stands_on l' es' w' T' F'); [easy|]; now apply (back_trans _ T' F')|].
  split; [now apply (stands_on l' es' w' T' F')|].
  destruct B as (k & U). exists k. apply (stands_up l' es' w' T' F' St'); [|easy].
  destruct Bt' as (j & V). pose proof (proj1 (good_grown _ _ (st_grown _ _ _ _ _ St'))) as L.
  exact (up_known _ _ _ _ _ L (proj1 (st_ends _ _ _ _ _ St')) V).
Qed.
Print Assumptions c29_final_stays.

(** A block once known stays known, with the same predecessor, so the blocks before a final block
    are settled too. *)
Theorem c29_known_stays g es w w' b : lives g es w -> after w w' -> fmem N.eqb (w_tree w) b = true ->
  fmem N.eqb (w_tree w') b = true /\ prev_of w' b = prev_of w b.
Proof.
  intros Lv Af M. destruct (lives_stands g es w Lv) as (l & T & F & St).
  destruct (after_stands w w' Af l es T F St) as (l' & es' & T' & F' & St' & Ex & _).
  unfold fmem in *. destruct (fget N.eqb (w_tree w) b) as [n|] eqn:E; [|discriminate].
  assert (K : known (w_tree w) b) by now exists n.
  destruct (grown_proper _ _ (st_grown _ _ _ _ _ St)) as [_ Kn].
  destruct (grown_proper _ _ (st_grown _ _ _ _ _ St')) as [_ Kn'].
  destruct (Ex b (proj1 (Kn b) K)) as (I & P). apply Kn' in I.
  rewrite (stands_prev l' es' w' T' F' b St' I), (stands_prev l es w T F b St K).
  destruct I as (n' & E'). now rewrite E'.
Qed.
Print Assumptions c29_known_stays.

(** Nor does a block leave the active chain that was confirmed at most 60 seconds ago. *)
Theorem c29_recent_stays g es w w' addr e b prev X : lives g es w ->
  next w (EBlock addr e b prev) = Done w' ->
  f_local (w_fin w) = Some X -> on_chain w X -> o_now e - f_time (w_fin w) <= 60 -> on_chain w' X.
Proof.
  intros Lv H Lf On Tm. destruct (lives_stands g es w Lv) as (l & T & F & St).
  cbn [next] in H. step H as r R. injection H as <-.
  now apply (accept_local l es w T F addr e b prev r X St R Lf On Tm).
Qed.
Print Assumptions c29_recent_stays.

(** ** C30: a final block has the producers' backing *)

(** When the final block changes, it changes for a block that was spoken for by at least two thirds
    (of the number the node counts with) of the producers after the block before it. *)
Theorem c30_quorum g es w e w' F F' : lives g es w -> legal w e -> next w e = Done w' ->
  final_of w = Some F -> final_of w' = Some F' -> F' <> F ->
  exists pre current n q Q, basis e = Some (pre, current) /\ counted_on (e :: es) pre current n
    /\ prev_of w' F' = Some q /\ spoken (e :: es) q F' (quorum n) Q.
Proof.
  intros Lv Lg H Ff Ff' Ne. destruct (lives_stands g es w Lv) as (l & T & F0 & St).
  destruct (step_ok l es w T F0 e w' St Lg H) as (l' & T' & F1 & St' & Ex & Mv).
  rewrite (stands_final _ _ _ _ _ St) in Ff. injection Ff as ->.
  rewrite (stands_final _ _ _ _ _ St') in Ff'. injection Ff' as ->.
  destruct Mv as [->|(_ & _ & pre & current & n & q & Q & Ba & Co & Pr & Sp)]; [easy|].
  exists pre, current, n, q, Q. split; [easy|]. split; [easy|]. split; [|easy].
  rewrite (stands_prev l' (e :: es) w' T' F' F' St'); [easy|].
  destruct (st_back _ _ _ _ _ St') as (j & V).
  pose proof (proj1 (good_grown _ _ (st_grown _ _ _ _ _ St'))) as L.
  exact (up_known _ _ _ _ _ L (proj1 (st_ends _ _ _ _ _ St')) V).
Qed.
Print Assumptions c30_quorum.

(** Two nodes that make different blocks final after the same block, when both know its producers
    [ds] and count with their number, are told so by the same producers, at least a third of all. *)
Theorem c30_conflict g1 es1 w1 e1 w1' F1 X g2 es2 w2 e2 w2' F2 Y q ds :
  lives g1 es1 w1 -> legal w1 e1 -> next w1 e1 = Done w1' -> final_of w1 = Some F1 ->
  final_of w1' = Some X -> X <> F1 -> prev_of w1' X = Some q ->
  lives g2 es2 w2 -> legal w2 e2 -> next w2 e2 = Done w2' -> final_of w2 = Some F2 ->
  final_of w2' = Some Y -> Y <> F2 -> prev_of w2' Y = Some q ->
  (forall d, producers (e1 :: es1) q d -> d = ds) -> (forall d, producers (e2 :: es2) q d -> d = ds) ->
  (forall pre current n, basis e1 = Some (pre, current) -> counted_on (e1 :: es1) pre current n ->
     n = length (nodup N.eq_dec ds)) ->
  (forall pre current n, basis e2 = Some (pre, current) -> counted_on (e2 :: es2) pre current n ->
     n = length (nodup N.eq_dec ds)) ->
  exists B, NoDup B /\ incl B ds /\ (length (nodup N.eq_dec ds) <= 3 * length B)%nat
    /\ forall x, In x B -> spoke (e1 :: es1) x X /\ spoke (e2 :: es2) x Y.
Proof.
  intros L1 G1 N1 O1 X1 D1 P1 L2 G2 N2 O2 X2 D2 P2 Pd1 Pd2 C1 C2.
  destruct (c30_quorum g1 es1 w1 e1 w1' F1 X) as (pr1 & cu1 & n1 & q1 & Q1 & B1 & K1 & R1 & S1); auto.
  destruct (c30_quorum g2 es2 w2 e2 w2' F2 Y) as (pr2 & cu2 & n2 & q2 & Q2 & B2 & K2 & R2 & S2); auto.
  rewrite P1 in R1. injection R1 as <-. rewrite P2 in R2. injection R2 as <-.
  destruct S1 as (d1 & T1 & V1 & I1 & Z1 & W1). destruct S2 as (d2 & T2 & V2 & I2 & Z2 & W2).
  rewrite (Pd1 d1 T1) in I1. rewrite (Pd2 d2 T2) in I2.
  rewrite (C1 _ _ _ B1 K1) in Z1. rewrite (C2 _ _ _ B2 K2) in Z2.
  destruct (common_members Q1 Q2 (nodup N.eq_dec ds) V1 V2) as (B & NB & IB & LB).
  { intros x I. apply nodup_In. now apply I1. }
  { intros x I. apply nodup_In. now apply I2. }
  exists B. split; [easy|]. split; [intros x I; apply I1; now apply IB|].
  split; [|intros x I; destruct (IB x I); auto].
  set (n := length (nodup N.eq_dec ds)) in *. unfold quorum in *. pose proof (Nat.div_mod_eq n 3). lia.
Qed.
Print Assumptions c30_conflict.

(** Messages count for the last block of the chain only: others are dropped. *)
Theorem c30_tip_only g es w signed m : lives g es w -> (0 <= m_height m < 2 ^ 32)%Z ->
  check_msg (w_tree w) (w_act w) (w_fin w) signed m = Done true ->
  signed = true /\ c_tip (w_act w) = Some (m_block m).
Proof.
  intros Lv Bm C. destruct (lives_stands g es w Lv) as (l & T & F & St).
  pose proof (good_grown _ _ (st_grown _ _ _ _ _ St)) as G. pose proof (st_ends _ _ _ _ _ St) as E.
  destruct (check_known _ _ _ _ _ _ T G E C) as (S1 & At & K & Hh). split; [easy|].
  unfold check_msg in C. step C as lh Lh. destruct (_ || _) eqn:O; [discriminate|]. clear C.
  apply orb_false_iff in O. destruct O as [O _]. apply Z.ltb_ge in O.
  destruct E as (KT & Ln). destruct G as (L & _).
  destruct (height_gen _ _ _ L KT) as [HT _]. pose proof (line_height _ _ _ _ L KT Ln) as HL.
  rewrite HL in O. pose proof At as At2.
  apply (line_at _ _ _ _ _ _ L KT Ln) in At2. destruct At2 as [R _].
  assert (m_height m = height_of (w_tree w) T).
  { unfold MAX_HEIGHT in HT. clear - O R HT. 
    destruct (Z.eq_dec (m_height m) (height_of (w_tree w) T)) as [|Ne]; [easy|].
    rewrite <- (Z.mod_unique (m_height m - height_of (w_tree w) T) (2 ^ 32) (-1)
                  (m_height m - height_of (w_tree w) T + 2 ^ 32)) in O; lia. }
  rewrite (line_tip _ _ _ _ L KT Ln). rewrite H in At.
  pose proof (line_tip _ _ _ _ L KT Ln) as Tp. unfold c_tip in Tp.
  destruct (w_act w) eqn:A; [discriminate|]. rewrite <- A in *. rewrite HL in Tp. congruence.
Qed.
Print Assumptions c30_tip_only.

(** ** Instances *)
Section Instance.
  Let addr (b : N) : N := b.
  (** A block that passes every check, with the producers after it and those the node signs for. *)
  Let plain (now : Z) (ds : list N) (own : list N) : around :=
    mkAround now (fun _ _ => VOk) 5 (fun _ => false) (fun _ => true) 100 true (Some ds) (length ds) own.
  Let first : world := genesis_world 10.

  (** Blocks 11 and 12 after the first one; the node signs for the only producer, so 12 is final. *)
  Let e1 := EBlock addr (plain 1000 [7%N] []) 11 10.
  Let e2 := EBlock addr (plain 1001 [7%N] [7%N]) 12 11.
  (** A fork from block 11 that is longer. *)
  Let e3 := EBlock addr (plain 2000 [7%N] []) 13 11.
  Let e4 := EBlock addr (plain 2001 [7%N] []) 14 13.

  Let run (w : outcome world) (e : event) : outcome world := do w <- w; next w e.
  Let view (o : outcome world) : option (list (option N) * option N) :=
    match o with Done w => Some (w_act w, final_of w) | _ => None end.

  (** The longer fork does not displace block 12 … *)
  Example c29_kept : view (fold_left run [e1; e2; e3; e4] (Done first))
    = Some ([Some 10%N; Some 11%N; Some 12%N], Some 12%N).
  Proof. vm_compute. reflexivity. Qed.
  (** … not even after a restart … *)
  Example c29_kept_restart :
    view (fold_left run [e1; e2; e3; e4; ERestart addr 5 (fun _ => false) [10; 11; 12; 13; 14]%N 3000 (fun _ _ => VOk)]
           (Done first))
    = Some ([Some 10%N; Some 11%N; Some 12%N], Some 12%N).
  Proof. vm_compute. reflexivity. Qed.
  (** … but does if block 12 was not made final. *)
  Example c29_displaced :
    view (fold_left run [e1; EBlock addr (plain 1001 [7%N] []) 12 11; e3; e4] (Done first))
    = Some ([Some 10%N; Some 11%N; Some 13%N; Some 14%N], Some 10%N).
  Proof. vm_compute. reflexivity. Qed.

  Lemma run_lives g es : forall w0 es0 w, lives g es0 w0 ->
    (forall e, In e es -> match e with ERestart _ _ _ _ _ _ => False | _ => True end) ->
    fold_left run es (Done w0) = Done w -> lives g (rev es ++ es0) w.
  Proof.
    induction es as [|e es IH]; intros w0 es0 w Lv Nr H; cbn [fold_left rev app] in *; [now injection H as <-|].
    destruct (run (Done w0) e) as [w1| | |] eqn:E; cbn [run bind] in E.
    2-4: exfalso; clear - H; induction es as [|e' es IH]; cbn in H; [discriminate|now apply IH].
    rewrite <- app_assoc. cbn [app]. apply (IH w1); [|intros x I; apply Nr; now right|exact H].
    apply (lives_next g es0 w0 e w1 Lv); [|exact E]. specialize (Nr e (or_introl eq_refl)). now destruct e.
  Qed.

  Let got (o : outcome world) : world := match o with Done w => w | _ => first end.
  Let past : world := Eval vm_compute in got (fold_left run [e1; e2] (Done first)).
  Let later1 : world := Eval vm_compute in got (run (Done past) e3).
  Let later2 : world := Eval vm_compute in got (run (Done later1) e4).

  Example c29_instance : exists w w', lives 10 [e2; e1] w /\ after w w' /\ final_of w = Some 12%N
    /\ final_of w' = Some 12%N /\ (c_height (w_act w) < tall w' 14)%Z.
  Proof.
    exists past, later2. split; [|split; [|vm_compute; auto]].
    - apply (run_lives 10 [e1; e2] first []); [constructor|now intros e [<-|[<-|[]]]|].
      vm_compute. reflexivity.
    - apply (after_next past later1 e4); [|easy|vm_compute; reflexivity].
      apply (after_next past past e3); [constructor|easy|vm_compute; reflexivity].
  Qed.

  (** Block 12 confirmed but not final: the fork is held off for 60 seconds. *)
  Let confirmed := EConfirm 1002 1 [] true (mkMsg 2 7 12 (Some 11%N)).
  Let quiet := EBlock addr (plain 1001 [7%N] []) 12 11.
  Example c29_recent_instance :
    view (fold_left run [e1; quiet; confirmed; EBlock addr (plain 1062 [7%N] []) 13 11;
                         EBlock addr (plain 1062 [7%N] []) 14 13] (Done first))
    = Some ([Some 10%N; Some 11%N; Some 12%N], Some 10%N)
    /\ view (fold_left run [e1; quiet; confirmed; EBlock addr (plain 1062 [7%N] []) 13 11;
                            EBlock addr (plain 1063 [7%N] []) 14 13] (Done first))
       = Some ([Some 10%N; Some 11%N; Some 13%N; Some 14%N], Some 10%N).
  Proof. vm_compute. auto. Qed.

  (** Two nodes make blocks 12 and 13 final; the only producer spoke for both. *)
  Let once : world := Eval vm_compute in got (run (Done first) e1).
  Let e2' := EBlock addr (plain 1001 [7%N] [7%N]) 13 11.
  Let other : world := Eval vm_compute in got (run (Done once) e2').
  Lemma once_lives : lives 10 [e1] once.
  Proof.
    apply (run_lives 10 [e1] first []); [constructor|now intros e [<-|[]]|vm_compute; reflexivity].
  Qed.
  Lemma once_producers e d : producers [e; e1] 11 d ->
    (match e with EBlock _ _ b _ => b <> 11%N | _ => True end) -> d = [7%N].
  Proof.
    intros (a & x & p & [X|[X|[]]] & D) Ne.
    - rewrite X in Ne. easy.
    - pose proof (f_equal (fun e => match e with EBlock _ e _ _ => o_delegates e | _ => None end) X) as Y.
      cbn in Y. rewrite D in Y. now injection Y as <-.
  Qed.
  Example c30_conflict_instance : exists B, NoDup B /\ incl B [7%N] /\ (1 <= 3 * length B)%nat
    /\ forall x, In x B -> spoke [e2; e1] x 12 /\ spoke [e2'; e1] x 13.
  Proof.
    apply (c30_conflict 10 [e1] once e2 past 10 12 10 [e1] once e2' other 10 13 11 [7%N]);
      try (vm_compute; reflexivity); try discriminate; try exact once_lives; try exact I.
    - intros d P. now apply (once_producers e2).
    - intros d P. now apply (once_producers e2').
    - intros pre c n X [->|(h & ds & -> & P & ->)]; cbn in X; injection X as <- <-; [easy|].
      now rewrite (once_producers e2 ds P).
    - intros pre c n X [->|(h & ds & -> & P & ->)]; cbn in X; injection X as <- <-; [easy|].
      now rewrite (once_producers e2' ds P).
  Qed.
  Example c30_quorum_instance : exists pre current n q Q, basis e2 = Some (pre, current)
    /\ counted_on [e2; e1] pre current n /\ prev_of past 12 = Some q /\ spoken [e2; e1] q 12 (quorum n) Q.
  Proof.
    apply (c30_quorum 10 [e1] once e2 past 10 12 once_lives); try (vm_compute; reflexivity); try discriminate.
  Qed.
  Example c30_tip_instance :
    check_msg (w_tree past) (w_act past) (w_fin past) true (mkMsg 2 7 12 (Some 11%N)) = Done true
    /\ (let w := got (fold_left run [e1; quiet] (Done first)) in
        check_msg (w_tree w) (w_act w) (w_fin w) true (mkMsg 1 7 11 (Some 10%N)) = Done false
        /\ local_fin (w_act w) (w_fin w) = Some 10%N).
  Proof. vm_compute. auto. Qed.

  (** A single producer after block 11, then seven after block 12. Block 13 should need five of the
      seven. A message that names block 11 as the block before is enough if one of the seven signs. *)
  Let s2 := EBlock addr (plain 1001 [1; 2; 3; 4; 5; 6; 7]%N []) 12 11.
  Let s1 := EBlock addr (plain 1000 [1%N] []) 11 10.
  Let s3 := EBlock addr (plain 1002 [1; 2; 3; 4; 5; 6; 7]%N []) 13 12.
  Let false_msg := mkMsg 3 1 13 (Some 11%N).
  Let s4 := EConfirm 1003 7 [] true false_msg.
  Let s5 := EFinal 7 true false_msg.

  Let before : world := Eval vm_compute in got (fold_left run [s1; s2; s3; s4] (Done first)).
  Let raised1 : world := Eval vm_compute in got (next before s5).

  (** The number of producers counted need not be that of the block before: the messages name it. *)
  Theorem c30_number_refuted : exists g es w e w' F X q ds,
    lives g es w /\ legal w e /\ next w e = Done w' /\ final_of w = Some F /\ final_of w' = Some X /\ X <> F
    /\ prev_of w' X = Some q /\ (forall d, producers (e :: es) q d -> d = ds) /\ quorum (length ds) = 5%nat
    /\ forall Q k, spoken (e :: es) q X k Q -> (k <= 1)%nat.
  Proof.
    exists 10%N, [s4; s3; s2; s1], before, s5, raised1, 10%N, 13%N, 12%N, [1; 2; 3; 4; 5; 6; 7]%N.
    split.
    { apply (run_lives 10 [s1; s2; s3; s4] first []); [constructor| |vm_compute; reflexivity].
      now intros e [<-|[<-|[<-|[<-|[]]]]]. }
    split; [easy|]. split; [vm_compute; reflexivity|].
    split; [vm_compute; reflexivity|]. split; [vm_compute; reflexivity|]. split; [discriminate|].
    split; [vm_compute; reflexivity|].
    split.
    { intros d (a & e & p & [X|[X|[X|[X|[X|[]]]]]] & D); try discriminate X.
      pose proof (f_equal (fun e => match e with EBlock _ e _ _ => o_delegates e | _ => None end) X) as Y.
      cbn in Y. rewrite D in Y. now injection Y as <-. }
    split; [reflexivity|]. intros Q k (ds & _ & Nd & _ & Lk & Sp).
    assert (One : forall x, In x Q -> x = 1%N).
    { intros x I. destruct (Sp x I) as [(c & m & [X|[X|[X|[X|[X|[]]]]]] & M1 & M2)
        |[(a & e & p & [X|[X|[X|[X|[X|[]]]]]] & M)|(n & c & o & m & [X|[X|[X|[X|[X|[]]]]]] & M1 & M2)]];
        try discriminate X.
      - pose proof (f_equal (fun e => match e with EFinal _ _ m => m_miner m | _ => 0%N end) X) as Y.
        cbn in Y. congruence.
      - pose proof (f_equal (fun e => match e with EBlock _ e _ _ => o_own e | _ => [] end) X) as Y.
        cbn in Y. rewrite <- Y in M. destruct M.
      - pose proof (f_equal (fun e => match e with EConfirm _ _ o _ _ => o | _ => [] end) X) as Y.
        cbn in Y. rewrite <- Y in M2. destruct M2. }
    destruct Q as [|x [|y Q]]; cbn in Lk; try lia.
    inversion_clear Nd as [|? ? Na _]. exfalso. apply Na. left.
    rewrite (One x), (One y); cbn; auto.
  Qed.
  Print Assumptions c30_number_refuted.
End Instance.
