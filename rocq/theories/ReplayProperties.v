(** Claims on repeated transactions (C27) and on what the pool holds for the next block (C69). *)
From Coq Require Import List Bool NArith ZArith Lia Arith ZifyBool ZifyNat ZifyN.
From Verif Require Import Prelude PreludeFacts DexModel DexProofs ReplayModel ReplaySpec ReplayProofs.
Import ListNotations.
Open Scope N_scope.

(** ** C27 *)
Lemma removelast_nth {A} (c : list A) j b : nth_error (removelast c) j = Some b -> nth_error c j = Some b /\ (S j < length c)%nat.
Proof.
  revert j. induction c as [|x c IH]; intros j E; [now destruct j|]. destruct c as [|y c]; [now destruct j|].
  cbn [removelast] in E. destruct j as [|j]; cbn [nth_error] in *.
  - split; [easy|cbn; lia].
  - destruct (IH j E) as [P Q]. split; [easy|cbn [length] in *; lia].
Qed.
Lemma nth_removelast {A} (c : list A) j b : nth_error c j = Some b -> (S j < length c)%nat -> nth_error (removelast c) j = Some b.
Proof.
  revert j. induction c as [|x c IH]; intros j E L; [easy|]. destruct c as [|y c]; [cbn in L; lia|].
  cbn [removelast]. destruct j as [|j]; [easy|]. cbn [nth_error] in E |- *. apply IH; [easy|cbn [length] in *; lia].
Qed.
Lemma nodup_filter_concat (f : N -> bool) l : (forall j b, nth_error l j = Some b -> NoDup b) ->
  (forall j j' b b' t, nth_error l j = Some b -> nth_error l j' = Some b' -> In t b -> In t b' -> f t = true -> j = j') ->
  NoDup (filter f (concat l)).
Proof.
  induction l as [|b l IH]; intros A B; [constructor|]. cbn [concat]. rewrite filter_app.
  assert (P : NoDup (filter f (concat l))).
  { apply IH; [intros j; apply (A (S j))|]. intros j j' b0 b0' t E E' J J' T.
    assert (Q : S j = S j') by (eapply (B (S j) (S j')); eauto). lia. }
  assert (N : NoDup (filter f b)) by (apply NoDup_filter, (A O b eq_refl)).
  assert (X : forall t, In t (filter f b) -> ~ In t (filter f (concat l))).
  { intros t I J. apply filter_In in I as [I T]. apply filter_In in J as [J _]. apply in_concat_nth in J as (j & b0 & E & J).
    pose proof (B O (S j) b b0 t eq_refl E I J T). discriminate. }
  clear - P N X. induction N as [|x m NI N IH]; [easy|]. cbn. constructor.
  - intros I. apply in_app_or in I as [I|I]; [easy|]. eapply X; [now left|exact I].
  - apply IH. intros t I. apply X. now right.
Qed.

(** No transaction but rewards and medians is confirmed twice on a chain a node knows of, after
    whatever history of connecting, disconnecting, forks, restarts and reloads. *)
Theorem c27_once kind vh H g w c m : 0 < H -> rlives kind vh H g w -> rheld w c m ->
  NoDup (filter (ordinary kind) (confirmed_later c)).
Proof.
  intros HP L HH. destruct (lives_good kind vh H HP g w c m L HH) as [G _]. apply nodup_filter_concat.
  - intros j b E. apply removelast_nth in E as [E Q]. exact (i_dup _ _ _ _ _ G j b E Q).
  - intros j j' b b' t E E' J J' T. apply removelast_nth in E as [E Q]. apply removelast_nth in E' as [E' Q'].
    exact (i_once _ _ _ _ _ G j j' b b' t E Q E' Q' J J' T).
Qed.
Print Assumptions c27_once.

Lemma in_confirmed c t : c <> [] -> In t (confirmed c) <-> In t (confirmed_later c) \/ In t (last c []).
Proof.
  intros N. destruct (exists_last N) as (l & z & ->). unfold confirmed, confirmed_later.
  rewrite removelast_last, last_last, concat_app. cbn [concat]. rewrite app_nil_r. apply in_app_iff.
Qed.

(** A transaction of which the valid height is in force is remembered exactly if it is on the chain. *)
Theorem c27_known kind vh H g w c m t : 0 < H -> rlives kind vh H g w -> rheld w c m ->
  kind t = KOther -> ~ In t g -> in_force kind vh H (rheight c) t ->
  (has [m] t = true <-> In t (confirmed c)).
Proof.
  intros HP L HH K NG F. destruct (lives_good kind vh H HP g w c m L HH) as [G <-]. split.
  - exact (i_sound _ _ _ _ _ G t).
  - intros I. apply in_confirmed in I; [|exact (i_some _ _ _ _ _ G)]. destruct I as [I|I]; [|easy].
    apply in_concat_nth in I as (j & b & E & J). apply removelast_nth in E as [E Q].
    refine (recall kind vh H c _ j b t G E Q J _ F). unfold ordinary. now rewrite K.
Qed.
Print Assumptions c27_known.

Lemma accepts_spec kind vh H c m b : accepts kind vh H c m b <->
  formed kind b /\ forall t, In t (tl b) -> has [m] t = false /\ in_force kind vh H (rheight c) t.
Proof.
  unfold accepts, r_connect_tip, r_connect. rewrite <- check_spec. split.
  - intros (m' & R). step R as x E. step E as u1 G1. step E as u2 G2. apply guard_done in G1. apply guard_done in G2.
    split; [easy|]. intros t I. rewrite forallb_forall in G2. specialize (G2 t I). apply andb_true_iff in G2 as [A B].
    apply negb_true_iff in A. apply valid_spec in B. easy.
  - intros [C A]. rewrite C. cbn [guard bind].
    assert (F : forallb (tx_ok kind vh H (rheight c) [[]; m]) (tl b) = true).
    { apply forallb_forall. intros t I. destruct (A t I) as [P Q]. unfold tx_ok. rewrite empty_has, P. cbn. now apply valid_spec. }
    rewrite F. cbn [guard bind]. destruct (N.ltb_spec H (rheight (b :: c))) as [L|L].
    + unfold back_block. destruct (nth_error (b :: c) (N.to_nat H)) as [old|] eqn:E.
      * cbn [need bind fst snd]. eauto.
      * apply nth_error_None in E. unfold rheight in L. lia.
    + cbn [bind fst snd]. eauto.
Qed.

(** The verdict on a further block, as far as repetitions and valid heights go, depends on the chain
    only: any transaction that is on the chain already makes it refused. Of medians on the chain and
    of transactions of the first block nothing is said. *)
Theorem c27_verdict kind vh H g w c m b : 0 < H -> rlives kind vh H g w -> rheld w c m ->
  (forall t, In t (tl b) -> ~ In t g) ->
  (forall t, In t (tl b) -> kind t = KMedian -> ~ In t (confirmed c)) ->
  (accepts kind vh H c m b <->
   formed kind b /\ forall t, In t (tl b) -> in_force kind vh H (rheight c) t /\ ~ In t (confirmed c)).
Proof.
  intros HP L HH NG NM. rewrite accepts_spec. split; intros [F A]; (split; [easy|]); intros t I.
  - destruct (A t I) as [P Q]. split; [easy|]. destruct (kind t) eqn:K.
    + destruct F as (r & l & -> & _ & NR & _). destruct (NR t I K).
    + now apply NM.
    + intros J. apply (c27_known kind vh H g w c m t HP L HH K (NG t I) Q) in J. congruence.
  - destruct (A t I) as [Q N]. split; [|easy]. destruct (has [m] t) eqn:X; [|easy].
    destruct (lives_good kind vh H HP g w c m L HH) as [G _]. apply (i_sound _ _ _ _ _ G) in X. easy.
Qed.
Print Assumptions c27_verdict.

(** ** C69 *)

(** A block of a producer: a reward, transactions taken from the rescanned pool, and some of its own
    that are new and in force. It is accepted exactly if none of its transactions has the highest
    valid height the pool lets in. *)
Theorem c69_edge kind vh H w pool r l :
  formed kind (r :: l) ->
  (forall t, In t l -> In t (candidates kind w (rescan kind vh H w pool))
     \/ (has [r_cache w] t = false /\ in_force kind vh H (rheight (r_chain w)) t)) ->
  (accepts kind vh H (r_chain w) (r_cache w) (r :: l) <->
   forall t, In t l -> kind t = KOther -> vh t <> (Z.of_N (rheight (r_chain w)) + 1 + Z.of_N (H / 2))%Z).
Proof.
  intros F A. rewrite accepts_spec. cbn [tl]. split.
  - intros [_ B] t I K. destruct (B t I) as [_ Q]. specialize (Q K). lia.
  - intros B. split; [easy|]. intros t I. destruct (A t I) as [J|J]; [|easy].
    unfold candidates, rescan in J. apply filter_In in J as [J P]. apply andb_true_iff in P as [_ P]. apply negb_true_iff in P.
    split; [easy|]. intros K. apply filter_In in J as [_ J]. unfold pool_ok in J. apply andb_true_iff in J as [J _].
    apply valid_spec in J. specialize (J K). specialize (B t I K). set (h := Z.of_N (H / 2)) in *. clearbody h.
    clear - J B. lia.
Qed.
Print Assumptions c69_edge.

(** The pool holds nothing that is confirmed. *)
Theorem c69_unconfirmed kind vh H g w pool t : 0 < H -> rlives kind vh H g w ->
  In t (rescan kind vh H w pool) -> kind t = KOther -> ~ In t (confirmed_later (r_chain w)).
Proof.
  intros HP L I K J. unfold rescan in I. apply filter_In in I as [_ I]. unfold pool_ok in I.
  apply andb_true_iff in I as [V N]. apply negb_true_iff in N. apply valid_spec in V. specialize (V K).
  destruct (lives_good kind vh H HP g w _ _ L (or_introl (conj eq_refl eq_refl))) as [G _].
  apply in_concat_nth in J as (j & b & E & J). apply removelast_nth in E as [E Q].
  assert (O : ordinary kind t = true) by (unfold ordinary; now rewrite K).
  pose proof (i_valid _ _ _ _ _ G j b t E Q J O K) as F. unfold rheight in V.
  assert (X : (j < N.to_nat H)%nat).
  { assert (Q2 : 2 * (H / 2) <= H) by (apply N.mul_div_le; easy). set (h := H / 2) in *. clearbody h.
    set (n := length (r_chain w)) in *. clearbody n. clear - V F Q Q2. lia. }
  rewrite (i_known _ _ _ _ _ G j b t E Q X J O) in N. discriminate.
Qed.
Print Assumptions c69_unconfirmed.

(** ** Instances: a window of 4 blocks. Ids end in 0 for rewards, in 1 for medians; the valid height of
    the others is in the other digits. *)
Section Instance.
Let kd (t : N) : rkind := match t mod 10 with 0 => KReward | 1 => KMedian | _ => KOther end.
Let hv (t : N) : Z := Z.of_N (t / 10).
Let got (o : outcome rworld) : rworld := match o with Done w => w | _ => rstart [] end.
Fixpoint rrun (w : rworld) (l : list revent) : outcome rworld :=
  match l with [] => Done w | e :: l => do w' <- rstep kd hv 4 w e; rrun w' l end.
Lemma rrun_lives g w l w' : rlives kd hv 4 g w -> rrun w l = Done w' -> rlives kd hv 4 g w'.
Proof.
  revert w. induction l as [|e l IH]; intros w L R; cbn [rrun] in R.
  - injection R as <-. exact L.
  - step R as x E. eapply IH; [|exact R]. eapply rl_step; eassumption.
Qed.
(** Five blocks; the last two are replaced by a fork that confirms 35 again, on the fork. *)
Let evs := [RConnect [10; 11; 22]; RConnect [20; 21; 25; 32]; RConnect [30; 31; 34]; RConnect [40; 41; 35];
  RConnect [50; 51; 52]; ROpen 2; RExtend 0 [[140; 141; 35; 36]; [150; 151; 54]]; RReload;
  RDisconnect; RDisconnect; RConnect [140; 141; 35; 36]; RRestart; RConnect [150; 151; 54]].
Let w1 : rworld := Eval vm_compute in got (rrun (rstart [0; 5]) evs).
Lemma w1_lives : rlives kd hv 4 [0; 5] w1.
Proof. apply (rrun_lives [0; 5] (rstart [0; 5]) evs); [constructor|vm_compute; reflexivity]. Qed.
Example c27_once_ex : NoDup (filter (ordinary kd) (confirmed_later (r_chain w1)))
  /\ filter (ordinary kd) (confirmed_later (r_chain w1)) = [54; 35; 36; 34; 25; 32; 22].
Proof.
  split; [|vm_compute; reflexivity].
  apply (c27_once kd hv 4 [0; 5] w1 _ (r_cache w1) eq_refl w1_lives). now left.
Qed.
Example c27_known_ex : has [r_cache w1] 34 = true /\ has [r_cache w1] 37 = false.
Proof.
  assert (K : forall t, in_force kd hv 4 (rheight (r_chain w1)) t -> kd t = KOther -> ~ In t [0; 5] ->
    has [r_cache w1] t = true <-> In t (confirmed (r_chain w1))).
  { intros t F O N. exact (c27_known kd hv 4 [0; 5] w1 _ _ t eq_refl w1_lives (or_introl (conj eq_refl eq_refl)) O N F). }
  split; [apply K|]; [vm_compute; easy|reflexivity|cbn; lia|cbn; tauto|reflexivity].
Qed.
(** A good block, one that repeats a transaction, and one with a transaction that is out of force. *)
Example c27_verdict_ex : accepts kd hv 4 (r_chain w1) (r_cache w1) [60; 61; 55; 72]
  /\ ~ accepts kd hv 4 (r_chain w1) (r_cache w1) [60; 61; 54]
  /\ ~ accepts kd hv 4 (r_chain w1) (r_cache w1) [60; 61; 82].
Proof.
  assert (L := c27_verdict kd hv 4 [0; 5] w1 (r_chain w1) (r_cache w1)).
  specialize (fun b => L b eq_refl w1_lives (or_introl (conj eq_refl eq_refl))).
  split; [|split].
  - apply L.
    + cbn. lia.
    + intros t [<- |[<- |[<- |[]]]]; cbn; intros; try discriminate. intuition discriminate.
    + split.
      * exists 60, [61; 55; 72]. split; [easy|]. split; [easy|]. split; [intros t [<- |[<- |[<- |[]]]]; easy|].
        now apply distinct_spec.
      * intros t [<- |[<- |[<- |[]]]]; (split; [vm_compute; easy|cbn; intuition discriminate]).
  - intros A. apply L in A.
    + destruct A as [_ A]. destruct (A 54) as [_ N]; [cbn; tauto|]. apply N. cbn. tauto.
    + cbn. lia.
    + intros t [<- |[<- |[]]]; cbn; intros; try discriminate. intuition discriminate.
  - intros A. apply L in A.
    + destruct A as [_ A]. destruct (A 82) as [N _]; [cbn; tauto|]. specialize (N eq_refl). vm_compute in N. now apply N.
    + cbn. lia.
    + intros t [<- |[<- |[]]]; cbn; intros; try discriminate. intuition discriminate.
Qed.

(** Medians have no valid height and are looked for in the memory only: the same one is accepted again
    when it has left the memory. *)
Theorem c27_median_refuted : exists kind vh H g w, 0 < H /\ rlives kind vh H g w
  /\ (exists t, kind t = KMedian /\ count_occ N.eq_dec (confirmed (r_chain w)) t = 2%nat).
Proof.
  set (es := [RConnect [10; 11]; RConnect [20; 21]; RConnect [30; 31]; RConnect [40; 41]; RConnect [50; 51]; RConnect [60; 11]]).
  set (w := got (rrun (rstart [0]) es)). exists kd, hv, 4, [0], w. split; [reflexivity|]. split.
  - apply (rrun_lives [0] (rstart [0]) es); [constructor|vm_compute; reflexivity].
  - exists 11. split; [reflexivity|vm_compute; reflexivity].
Qed.
Print Assumptions c27_median_refuted.
(** Rewards are not looked for at all. *)
Theorem c27_reward_refuted : exists kind vh H g w, 0 < H /\ rlives kind vh H g w
  /\ (exists t, kind t = KReward /\ count_occ N.eq_dec (confirmed (r_chain w)) t = 2%nat).
Proof.
  set (es := [RConnect [10; 11]; RConnect [10; 21]]).
  set (w := got (rrun (rstart [0]) es)). exists kd, hv, 4, [0], w. split; [reflexivity|]. split.
  - apply (rrun_lives [0] (rstart [0]) es); [constructor|vm_compute; reflexivity].
  - exists 10. split; [reflexivity|vm_compute; reflexivity].
Qed.
Print Assumptions c27_reward_refuted.

Lemma not_accepts_reject kind vh H c m b : r_connect_tip kind vh H c b m = Reject -> ~ accepts kind vh H c m b.
Proof. intros R (m' & A). congruence. Qed.
(** Two nodes with the same chain differ about a block that repeats a median, if one of them has
    reloaded its memory on request: that loads one block more. *)
Theorem c27_split_refuted : exists kind vh H g w1 w2 b, 0 < H /\ rlives kind vh H g w1 /\ rlives kind vh H g w2
  /\ r_chain w1 = r_chain w2
  /\ accepts kind vh H (r_chain w1) (r_cache w1) b /\ ~ accepts kind vh H (r_chain w2) (r_cache w2) b.
Proof.
  set (es := [RConnect [10; 11]; RConnect [20; 21]; RConnect [30; 31]; RConnect [40; 41]; RConnect [50; 51]]).
  set (v1 := got (rrun (rstart [0]) es)). set (v2 := got (rrun (rstart [0]) (es ++ [RReload]))).
  exists kd, hv, 4, [0], v1, v2, [60; 11]. split; [reflexivity|]. split; [|split; [|split; [|split]]].
  - apply (rrun_lives [0] (rstart [0]) es); [constructor|vm_compute; reflexivity].
  - apply (rrun_lives [0] (rstart [0]) (es ++ [RReload])); [constructor|vm_compute; reflexivity].
  - vm_compute. reflexivity.
  - eexists. vm_compute. reflexivity.
  - apply not_accepts_reject. vm_compute. reflexivity.
Qed.
Print Assumptions c27_split_refuted.
(** The transactions of the first block are not in the memory of a node that has not restarted: they
    are not noticed when they come again. *)
Theorem c27_first_refuted : exists kind vh H g w t, 0 < H /\ rlives kind vh H g w /\ kind t = KOther
  /\ count_occ N.eq_dec (confirmed (r_chain w)) t = 2%nat.
Proof.
  set (w := got (rrun (rstart [0; 5]) [RConnect [10; 11; 5]])). exists kd, hv, 4, [0; 5], w, 5.
  split; [reflexivity|]. split; [|split; vm_compute; reflexivity].
  apply (rrun_lives [0; 5] (rstart [0; 5]) [RConnect [10; 11; 5]]); [constructor|vm_compute; reflexivity].
Qed.
Print Assumptions c27_first_refuted.
(** At a start the stored blocks are connected before the memory is loaded: one that repeats a
    transaction is refused by the running node and accepted at the start. *)
Theorem c27_start_refuted : exists kind vh H g w b c' m' t, 0 < H /\ rlives kind vh H g w
  /\ ~ accepts kind vh H (r_chain w) (r_cache w) b
  /\ boot kind vh H (r_chain w) [b] = Done (c', m')
  /\ kind t = KOther /\ count_occ N.eq_dec (confirmed_later c') t = 2%nat.
Proof.
  set (es := [RConnect [10; 11; 22]; RConnect [20; 21; 25; 32]]).
  set (w := got (rrun (rstart [0]) es)). exists kd, hv, 4, [0], w, [30; 31; 25]. do 2 eexists. exists 25.
  split; [reflexivity|]. split; [|split; [|split; [|split]]].
  - apply (rrun_lives [0] (rstart [0]) es); [constructor|vm_compute; reflexivity].
  - apply not_accepts_reject. vm_compute. reflexivity.
  - vm_compute. reflexivity.
  - reflexivity.
  - vm_compute. reflexivity.
Qed.
Print Assumptions c27_start_refuted.

(** The tip is at height 5: a block from the pool, and its own median. *)
Example c69_edge_ex : accepts kd hv 4 (r_chain w1) (r_cache w1) [60; 72; 61; 45]
  /\ ~ accepts kd hv 4 (r_chain w1) (r_cache w1) [60; 82; 61; 45].
Proof.
  split.
  - apply (c69_edge kd hv 4 w1 [72; 82; 45; 54; 99] 60 [72; 61; 45]).
    + apply check_spec. reflexivity.
    + intros t [<- |[<- |[<- |[]]]]; [left; vm_compute; tauto|right; vm_compute; easy|left; vm_compute; tauto].
    + intros t [<- |[<- |[<- |[]]]]; vm_compute; easy.
  - assert (E := c69_edge kd hv 4 w1 [72; 82; 45; 54; 99] 60 [82; 61; 45]).
    intros A. refine (proj1 (E _ _) A 82 (or_introl eq_refl) eq_refl eq_refl).
    + apply check_spec. reflexivity.
    + intros t [<- |[<- |[<- |[]]]]; [left; vm_compute; tauto|right; vm_compute; easy|left; vm_compute; tauto].
Qed.
Example c69_unconfirmed_ex : rescan kd hv 4 w1 [72; 82; 45; 54; 99] = [72; 82; 45] /\ ~ In 45 (confirmed_later (r_chain w1)).
Proof.
  split; [vm_compute; reflexivity|].
  apply (c69_unconfirmed kd hv 4 [0; 5] w1 [72; 82; 45; 54; 99] 45 eq_refl w1_lives); [vm_compute; tauto|reflexivity].
Qed.
(** One transaction with the highest valid height the pool lets in stops every producer that takes it:
    the pool keeps it, producers take it, and any block with it is refused. *)
Theorem c69_edge_refuted : exists kind vh H g w pool t, 0 < H /\ rlives kind vh H g w
  /\ In t (candidates kind w (rescan kind vh H w pool))
  /\ forall b, In t (tl b) -> ~ accepts kind vh H (r_chain w) (r_cache w) b.
Proof.
  exists kd, hv, 4, [0; 5], w1, [82], 82. split; [reflexivity|]. split; [exact w1_lives|]. split; [vm_compute; tauto|].
  intros b I A. apply accepts_spec in A as [_ A]. destruct (A 82 I) as [_ F]. specialize (F eq_refl). vm_compute in F. now apply F.
Qed.
Print Assumptions c69_edge_refuted.
End Instance.
