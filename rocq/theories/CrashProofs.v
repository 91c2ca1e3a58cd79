(** Proofs about crashes. *)
From Coq Require Import List Bool NArith Lia.
From Verif Require Import CrashModel CrashSpec.
Import ListNotations.
Local Open Scope N_scope.

Lemma put_spec v t k e t' k' :
  put v t k e t' k' = if (t' =? t) && (k' =? k) then e else v t' k'.
Proof. reflexivity. Qed.

Lemma same_refl v : same v v. Proof. intros t k. reflexivity. Qed.
Lemma same_sym v w : same v w -> same w v. Proof. intros H t k. now rewrite H. Qed.
Lemma same_trans v w x : same v w -> same w x -> same v x.
Proof. intros H1 H2 t k. now rewrite H1. Qed.
Lemma same_put v w t k e : same v w -> same (put v t k e) (put w t k e).
Proof. intros H t' k'. rewrite !put_spec. now rewrite H. Qed.

Lemma best_same v w : same v w -> best v = best w.
Proof. intros H. unfold best. now rewrite H. Qed.
Lemma best_put v h : best (put v BEST_BLOCKHASH 0 (Some h)) = h.
Proof. reflexivity. Qed.

Lemma effect_same p : forall v w, same v w ->
  match effect p v, effect p w with
  | Some v', Some w' => same v' w'
  | None, None => True
  | _, _ => False
  end.
Proof.
  induction p as [| |t k next IH|t k e next IH]; intros v w H; cbn; auto.
  - rewrite (H t k). now apply IH.
  - apply IH. now apply same_put.
Qed.

Lemma over_push m d t k e : same (over (push m t k e) d) (put (over m d) t k e).
Proof.
  intros t' k'. unfold over, push. rewrite put_spec. destruct ((t' =? t) && (k' =? k)); reflexivity.
Qed.

Lemma over_onto m b d : same (over (onto m b) d) (over m (over b d)).
Proof. intros t k. unfold over, onto. destruct (m t k); reflexivity. Qed.

(** Restoring old entries, newest first, on a plain state. *)
Definition back (u : undo) (v : view) : view :=
  fold_left (fun v e => put v (fst (fst e)) (snd (fst e)) (snd e)) (rev u) v.

Lemma fold_back_same l : forall v w, same v w ->
  same (fold_left (fun v (e : N * N * option N) => put v (fst (fst e)) (snd (fst e)) (snd e)) l v)
       (fold_left (fun v e => put v (fst (fst e)) (snd (fst e)) (snd e)) l w).
Proof.
  induction l as [|e l IH]; intros v w H; cbn; [exact H|]. apply IH. now apply same_put.
Qed.

Lemma back_same u v w : same v w -> same (back u v) (back u w).
Proof. apply fold_back_same. Qed.

Lemma revert_back u m d : same (over (revert u m) d) (back u (over m d)).
Proof.
  unfold revert, back. generalize (rev u). intros l. revert m.
  induction l as [|e l IH]; intros m; cbn; [apply same_refl|].
  eapply same_trans; [apply IH|]. apply fold_back_same. apply over_push.
Qed.

Lemma back_app u w v : back (u ++ w) v = back u (back w v).
Proof. unfold back. now rewrite rev_app_distr, fold_left_app. Qed.

Lemma put_put v t k e e' : same (put (put v t k e) t k e') (put v t k e').
Proof. intros t' k'. rewrite !put_spec. destruct ((t' =? t) && (k' =? k)); reflexivity. Qed.

Lemma put_comm v t k e t' k' e' : same (put (put (put v t k e) t' k' e') t k e) (put (put v t' k' e') t k e).
Proof.
  intros a b. rewrite !put_spec. destruct ((a =? t) && (b =? k)); reflexivity.
Qed.

(** The entry at (t, k) of what is restored on top of does not matter if that entry is set afterwards. *)
Lemma put_back_put u w t k e e' :
  same (put (back u (put w t k e)) t k e') (put (back u w) t k e').
Proof.
  unfold back. generalize (rev u). intros l.
  assert (G : forall v v', (forall a b, (a =? t) && (b =? k) = false -> v a b = v' a b) ->
            forall a b, (a =? t) && (b =? k) = false ->
              fold_left (fun v (e : N * N * option N) => put v (fst (fst e)) (snd (fst e)) (snd e)) l v a b =
              fold_left (fun v e => put v (fst (fst e)) (snd (fst e)) (snd e)) l v' a b).
  { induction l as [|x l IH]; intros v v' H a b Hab; cbn; [now apply H|].
    apply IH; [|exact Hab]. intros a' b' H'. rewrite !put_spec.
    destruct ((a' =? fst (fst x)) && (b' =? snd (fst x))); [reflexivity|]. now apply H. }
  intros a b. rewrite !put_spec. destruct ((a =? t) && (b =? k)) eqn:E; [reflexivity|].
  apply G; [|exact E]. intros a' b' H'. rewrite put_spec. now rewrite H'.
Qed.

Lemma put_id v t k : same (put v t k (v t k)) v.
Proof.
  intros a b. rewrite put_spec. destruct ((a =? t) && (b =? k)) eqn:E; [|reflexivity].
  apply andb_true_iff in E. destruct E as [E1 E2]. apply N.eqb_eq in E1, E2. now subst.
Qed.

Lemma execute_spec p d : forall m u m' u', execute p d m u = Some (m', u') ->
  (exists v1, effect p (over m d) = Some v1 /\ same v1 (over m' d)) /\
  exists w, u' = u ++ w /\ forall v, same v (over m' d) -> same (back w v) (over m d).
Proof.
  induction p as [| |t k next IH|t k e next IH]; intros m u m' u' H; cbn in H.
  - injection H as <- <-. split.
    + eexists. split; [reflexivity|apply same_refl].
    + exists []. rewrite app_nil_r. split; [reflexivity|]. intros v Hv. exact Hv.
  - discriminate.
  - destruct (IH _ _ _ _ _ H) as [H1 H2]. split; [exact H1|exact H2].
  - destruct (IH _ _ _ _ H) as [(v1 & E1 & S1) (w & Hw & Hb)]. split.
    + cbn. pose proof (effect_same next _ _ (over_push m d t k e)) as G. rewrite E1 in G.
      destruct (effect next (put (over m d) t k e)) as [v2|]; [|contradiction].
      exists v2. split; [reflexivity|]. eapply same_trans; [apply same_sym; exact G|exact S1].
    + exists ((t, k, over m d t k) :: w). split.
      * rewrite Hw, <- app_assoc. reflexivity.
      * intros v Hv. change ((t, k, over m d t k) :: w) with ([(t, k, over m d t k)] ++ w).
        rewrite back_app. cbn. specialize (Hb v Hv).
        eapply same_trans; [apply same_put; exact Hb|].
        eapply same_trans; [apply same_put; apply over_push|].
        eapply same_trans; [apply put_put|]. apply put_id.
Qed.

Lemma execute_some p d v : same d v -> forall v1, effect p v = Some v1 ->
  exists m u, execute p d nothing [] = Some (m, u).
Proof.
  intros Hs v1.
  assert (G : forall p m u v, same (over m d) v -> effect p v = Some v1 ->
              exists m' u', execute p d m u = Some (m', u')).
  { clear p v Hs. intros p. induction p as [| |t k next IH|t k e next IH]; intros m u v Hs H; cbn in *.
    - now exists m, u.
    - discriminate.
    - rewrite (Hs t k). eapply IH; [exact Hs|exact H].
    - eapply IH; [|exact H]. eapply same_trans; [apply over_push|]. now apply same_put. }
  intros H. apply (G p nothing [] v); [|exact H]. intros t k. apply Hs.
Qed.

Lemma execute_writes p d : writes_state p -> forall m u m' u', execute p d m u = Some (m', u') ->
  (forall t k, m t k <> None -> In t state_tables) -> forall t k, m' t k <> None -> In t state_tables.
Proof.
  induction p as [| |t k next IH|t k e next IH]; intros Hw m u m' u' H Hm; cbn in *.
  - injection H as <- <-. exact Hm.
  - discriminate.
  - eapply IH; [apply Hw|exact H|exact Hm].
  - destruct Hw as [Ht Hw]. apply (IH Hw _ _ _ _ H). intros t' k'. unfold push.
    destruct ((t' =? t) && (k' =? k)) eqn:E; [|apply Hm]. intros _.
    apply andb_true_iff in E. destruct E as [E _]. apply N.eqb_eq in E. now subst.
Qed.

Lemma execute_log p d : writes_state p -> forall m u m' u', execute p d m u = Some (m', u') ->
  (forall x, In x u -> In (fst (fst x)) state_tables) -> forall x, In x u' -> In (fst (fst x)) state_tables.
Proof.
  induction p as [| |t k next IH|t k e next IH]; intros Hw m u m' u' H Hm; cbn in *.
  - injection H as <- <-. exact Hm.
  - discriminate.
  - eapply IH; [apply Hw|exact H|exact Hm].
  - destruct Hw as [Ht Hw]. apply (IH Hw _ _ _ _ H). intros x Hx. apply in_app_or in Hx.
    destruct Hx as [Hx|[Hx|[]]]; [now apply Hm|]. subst x. exact Ht.
Qed.

Lemma best_in : In BEST_BLOCKHASH state_tables.
Proof.
  assert (H : existsb (N.eqb BEST_BLOCKHASH) state_tables = true) by (vm_compute; reflexivity).
  apply existsb_exists in H. destruct H as (x & Hx & E). apply N.eqb_eq in E. now subst.
Qed.

(** Every table of the state is flushed. *)
Lemma all_flushed t : In t state_tables -> existsb (N.eqb t) flush_order = true.
Proof.
  intros H. assert (G : forallb (fun t => existsb (N.eqb t) flush_order) state_tables = true) by (vm_compute; reflexivity).
  rewrite forallb_forall in G. now apply G.
Qed.

Section Chain.
  Variable tree : N -> option (N * prog).
  Variable genesis : N.
  Variable init : view.
  Hypothesis ok : blocks_ok tree genesis.

  Notation CS := (chain_state tree genesis init).

  Lemma cs_same h v w : CS h v -> same v w -> CS h w.
  Proof.
    intros H. revert w. destruct H; intros w Hw.
    - constructor. eapply same_trans; [apply same_sym; exact Hw|exact H].
    - econstructor; eauto. eapply same_trans; [apply same_sym; exact Hw|eassumption].
  Qed.

  Lemma cs_det h v : CS h v -> forall w, CS h w -> same v w.
  Proof.
    destruct ok as [Hg _].
    induction 1 as [v Hv|h prev p v v1 v' Ht Hc IH He Hv]; intros w Hw.
    - inversion Hw as [w' Hw'|]; subst.
      + eapply same_trans; [exact Hv|]. now apply same_sym.
      + congruence.
    - inversion Hw as [w' Hw'|h2 prev2 p2 w0 w1 w' Ht2 Hc2 He2 Hw']; subst.
      + congruence.
      + assert (prev2 = prev /\ p2 = p) as [-> ->] by (split; congruence).
        specialize (IH _ Hc2). pose proof (effect_same p _ _ IH) as G. rewrite He, He2 in G.
        eapply same_trans; [exact Hv|]. eapply same_trans; [apply same_put; exact G|].
        now apply same_sym.
  Qed.

  Lemma cs_entry h v : CS h v -> v BEST_BLOCKHASH 0 = Some h.
  Proof. destruct 1 as [v Hv|h prev p v v1 v' Ht Hc He Hv]; rewrite Hv; reflexivity. Qed.

  Lemma cs_best h v : CS h v -> best v = h.
  Proof. intros H. unfold best. now rewrite (cs_entry _ _ H). Qed.

  Lemma cs_known h v : CS h v -> (h =? genesis) || match tree h with Some _ => true | None => false end = true.
  Proof.
    destruct 1 as [v Hv|h prev p v v1 v' Ht Hc He Hv]; [now rewrite N.eqb_refl|]. rewrite Ht. apply orb_true_r.
  Qed.

  (** ** Without crashes amid a flush *)

  Definition undo_right (us : N -> option undo) : Prop :=
    forall h u, us h = Some u -> exists prev p v m,
      tree h = Some (prev, p) /\ CS prev v /\ execute p v nothing [] = Some (m, u).

  Record good (n : node) : Prop := mkGood {
    g_sees : CS (tip n) (sees n);
    g_disk : exists h, CS h (disk n);
    g_undo : undo_right (undos n);
    g_mem : forall t k, mem n t k <> None -> In t state_tables }.

  Lemma fresh_good : good (fresh genesis init).
  Proof.
    constructor; cbn.
    - constructor. intros t k. reflexivity.
    - exists genesis. constructor. apply same_refl.
    - intros h u H. discriminate.
    - intros t k H. now elim H.
  Qed.

  Lemma execute_same p d d' : same d d' -> forall m u, 
    execute p d m u = execute p d' m u.
  Proof.
    intros Hs. induction p as [| |t k next IH|t k e next IH]; intros m u; cbn; auto.
    - replace (over m d t k) with (over m d' t k); [apply IH|]. unfold over. now rewrite Hs.
    - replace (over m d t k) with (over m d' t k); [apply IH|]. unfold over. now rewrite Hs.
  Qed.

  Lemma connect_good n h n' : good n -> connect tree n h = Next n' -> good n'.
  Proof.
    intros G H. unfold connect in H. destruct (tree h) as [[prev p]|] eqn:Et; [|injection H as <-; exact G].
    destruct (negb (prev =? tip n)) eqn:E1; [injection H as <-; exact G|].
    destruct (negb (prev =? best (sees n))) eqn:E2; [discriminate|].
    destruct (execute p (sees n) nothing []) as [[m u]|] eqn:Ex; [|injection H as <-; exact G].
    apply negb_false_iff, N.eqb_eq in E1. subst prev.
    destruct G as [G1 G2 G3 G4]. injection H as <-.
    destruct (execute_spec _ _ _ _ _ _ Ex) as [(v1 & He & Hs) _].
    assert (He' : effect p (sees n) = Some v1).
    { rewrite <- He. reflexivity. }
    assert (Hnew : CS h (sees (mkNode (disk n) (onto (push m BEST_BLOCKHASH 0 (Some h)) (mem n)) h
                              (match undos n h with
                               | Some _ => undos n
                               | None => fun h' => if h' =? h then Some u else undos n h'
                               end)))).
    { econstructor; [exact Et|exact G1|exact He'|].
      eapply same_trans; [apply over_onto|]. cbn [disk mem].
      eapply same_trans; [apply over_push|]. apply same_put. apply same_sym. exact Hs. }
    constructor.
    - exact Hnew.
    - exact G2.
    - cbn. destruct (undos n h) eqn:Eu; [exact G3|]. intros h' u' Hu'.
      destruct (N.eqb_spec h' h) as [->|Hne]; [|now apply G3].
      injection Hu' as <-. exists (tip n), p, (sees n), m. auto.
    - cbn. intros t k. unfold onto. destruct (push m BEST_BLOCKHASH 0 (Some h) t k) eqn:Ep.
      + intros _. unfold push in Ep.
        destruct ((t =? BEST_BLOCKHASH) && (k =? 0)) eqn:E.
        * apply andb_true_iff in E. destruct E as [E _]. apply N.eqb_eq in E. subst t.
          exact best_in.
        * destruct ok as [_ Hw]. refine (execute_writes p _ (Hw _ _ _ Et) _ _ _ _ Ex _ t k _); [|congruence].
          intros t' k' Hn. now elim Hn.
      + apply G4.
  Qed.

  Lemma disconnect_good n n' : good n -> disconnect tree n = Next n' -> good n'.
  Proof.
    intros G H. unfold disconnect in H. destruct (tree (tip n)) as [[prev p]|] eqn:Et; [|injection H as <-; exact G].
    unfold disconnect_block in H.
    destruct (negb (tip n =? best (over (mem n) (disk n)))); [discriminate|].
    destruct (undos n (tip n)) as [u|] eqn:Eu; [|injection H as <-; exact G].
    injection H as <-. destruct G as [G1 G2 G3 G4].
    destruct (G3 _ _ Eu) as (prev' & p' & v & m & Et' & Hc & Hx).
    assert (prev' = prev /\ p' = p) as [-> ->] by (split; congruence).
    destruct (execute_spec _ _ _ _ _ _ Hx) as [(v1 & He & Hs) (w & Hw & Hb)].
    cbn in Hw. subst w.
    assert (He' : effect p v = Some v1).
    { rewrite <- He. reflexivity. }
    assert (Hsee : same (sees n) (put (over m v) BEST_BLOCKHASH 0 (Some (tip n)))).
    { eapply cs_det; [exact G1|]. econstructor; [exact Et|exact Hc|exact He'|]. apply same_put. now apply same_sym. }
    constructor; cbn.
    - eapply cs_same; [exact Hc|]. apply same_sym.
      unfold sees. cbn [mem disk].
      eapply same_trans; [apply over_push|].
      eapply same_trans; [apply same_put; apply revert_back|].
      eapply same_trans; [apply same_put; apply back_same; exact Hsee|].
      eapply same_trans; [apply put_back_put|].
      eapply same_trans; [apply same_put; apply Hb; apply same_refl|].
      rewrite <- (cs_entry _ _ Hc).
      intros t k. rewrite put_spec. destruct ((t =? BEST_BLOCKHASH) && (k =? 0)) eqn:E; [|reflexivity].
      apply andb_true_iff in E. destruct E as [E1 E2]. apply N.eqb_eq in E1, E2. now subst.
    - exact G2.
    - exact G3.
    - destruct ok as [_ Hwr].
      assert (Hl : forall x, In x u -> In (fst (fst x)) state_tables).
      { apply (execute_log _ _ (Hwr _ _ _ Et) _ _ _ _ Hx). intros x []. }
      assert (Hr : forall l (m0 : pending), (forall x, In x l -> In (fst (fst x)) state_tables) ->
                (forall t k, m0 t k <> None -> In t state_tables) ->
                forall t k, fold_left (fun m e => push m (fst (fst e)) (snd (fst e)) (snd e)) l m0 t k <> None ->
                In t state_tables).
      { induction l as [|x l IH]; intros m0 Hx0 Hm0; cbn; [exact Hm0|].
        apply IH; [intros y Hy; apply Hx0; now right|]. intros t k. unfold push.
        destruct ((t =? fst (fst x)) && (k =? snd (fst x))) eqn:E; [|apply Hm0]. intros _.
        apply andb_true_iff in E. destruct E as [E _]. apply N.eqb_eq in E. subst t. apply Hx0. now left. }
      intros t k. unfold push. destruct ((t =? BEST_BLOCKHASH) && (k =? 0)) eqn:E.
      + intros _. apply andb_true_iff in E. destruct E as [E _]. apply N.eqb_eq in E. subst t.
        exact best_in.
      + apply Hr; [|exact G4]. intros x Hx0. apply Hl. now apply in_rev.
  Qed.

  Lemma flushed_all n : (forall t k, mem n t k <> None -> In t state_tables) ->
    same (flushed (length flush_order) n) (sees n).
  Proof.
    intros Hm t k. unfold flushed. rewrite firstn_all.
    destruct (existsb (N.eqb t) flush_order) eqn:E; [reflexivity|].
    unfold sees, over. destruct (mem n t k) as [e|] eqn:Em; [|reflexivity].
    rewrite all_flushed in E; [discriminate|]. apply (Hm t k). congruence.
  Qed.

  Lemma flush_sees n : (forall t k, mem n t k <> None -> In t state_tables) -> same (sees (flush n)) (sees n).
  Proof.
    intros Hm t k. unfold sees at 1, flush, over. cbn [mem disk].
    destruct (existsb (N.eqb t) flush_order) eqn:E.
    - apply flushed_all. exact Hm.
    - destruct (mem n t k) as [e|] eqn:Em.
      + rewrite all_flushed in E; [discriminate|]. apply (Hm t k). congruence.
      + apply flushed_all. exact Hm.
  Qed.

  Lemma flush_good n : good n -> good (flush n).
  Proof.
    intros [G1 G2 G3 G4]. constructor.
    - eapply cs_same; [exact G1|]. apply same_sym. now apply flush_sees.
    - exists (tip n). cbn. eapply cs_same; [exact G1|]. apply same_sym. now apply flushed_all.
    - exact G3.
    - cbn [flush mem]. intros t k H. destruct (existsb (N.eqb t) flush_order); [now elim H|]. now apply (G4 t k).
  Qed.

  Lemma restart_good d us n' : (exists h, CS h d) -> undo_right us -> restart tree genesis d us = Next n' -> good n'.
  Proof.
    intros [h Hd] Hu H. unfold restart in H. destruct (_ || _); [|discriminate]. injection H as <-.
    constructor; cbn.
    - rewrite (cs_best _ _ Hd). eapply cs_same; [exact Hd|]. intros t k. reflexivity.
    - now exists h.
    - exact Hu.
    - intros t k Hn. now elim Hn.
  Qed.

  Lemma happens_good n e n' : good n -> outside_flush e -> happens tree genesis n e = Next n' -> good n'.
  Proof.
    intros G Ho H. destruct e; cbn in *.
    - eapply connect_good; eauto.
    - eapply disconnect_good; eauto.
    - injection H as <-. now apply flush_good.
    - destruct G as [G1 G2 G3 G4]. eapply restart_good; eauto.
    - contradiction.
  Qed.

  Lemma history_good es : forall n n', good n -> Forall outside_flush es -> history tree genesis n es = Next n' -> good n'.
  Proof.
    induction es as [|e es IH]; intros n n' G Ho H; cbn in H.
    - injection H as <-. exact G.
    - inversion Ho; subst. destruct (happens tree genesis n e) as [| |n1] eqn:E; try discriminate.
      eapply IH; [eapply happens_good; eauto|assumption|exact H].
  Qed.

  (** ** With crashes anywhere *)

  Inductive path (us : N -> option undo) : N -> Prop :=
  | PGenesis : path us genesis
  | PBlock h prev p : tree h = Some (prev, p) -> us h <> None -> path us prev -> path us h.

  Lemma path_mono us us' h : (forall x, us x <> None -> us' x <> None) -> path us h -> path us' h.
  Proof. intros Hm. induction 1; econstructor; eauto. Qed.

  Lemma path_known us h : path us h -> (h =? genesis) || match tree h with Some _ => true | None => false end = true.
  Proof. destruct 1 as [|h prev p Ht]; [now rewrite N.eqb_refl|]. rewrite Ht. apply orb_true_r. Qed.

  Record sound (n : node) : Prop := mkSound {
    s_best : best (sees n) = tip n;
    s_tip : path (undos n) (tip n);
    s_disk : path (undos n) (best (disk n)) }.

  Lemma fresh_sound : sound (fresh genesis init).
  Proof. constructor; cbn; constructor. Qed.

  Lemma best_push m d h : best (over (push m BEST_BLOCKHASH 0 (Some h)) d) = h.
  Proof. reflexivity. Qed.

  Lemma connect_sound n h : sound n -> exists n', connect tree n h = Next n' /\ sound n'.
  Proof.
    intros S. unfold connect. destruct (tree h) as [[prev p]|] eqn:Et; [|eauto].
    destruct (negb (prev =? tip n)) eqn:E1; [eauto|].
    destruct S as [S1 S2 S3].
    apply negb_false_iff, N.eqb_eq in E1. subst prev. rewrite S1, N.eqb_refl. cbn [negb].
    destruct (execute p (sees n) nothing []) as [[m u]|] eqn:Ex.
    - eexists. split; [reflexivity|].
      assert (Hm : forall x, undos n x <> None ->
                 match undos n h with
                 | Some _ => undos n
                 | None => fun h' => if h' =? h then Some u else undos n h'
                 end x <> None).
      { intros x Hx. destruct (undos n h) eqn:Eu; [exact Hx|]. destruct (x =? h); [discriminate|exact Hx]. }
      constructor; cbn [sees mem disk tip undos].
      + reflexivity.
      + econstructor; [exact Et| |eapply path_mono; [exact Hm|exact S2]].
        destruct (undos n h) eqn:Eu; [congruence|]. rewrite N.eqb_refl. discriminate.
      + eapply path_mono; [exact Hm|exact S3].
    - exists n. split; [reflexivity|now constructor].
  Qed.

  Lemma path_prev us h prev p : path us h -> tree h = Some (prev, p) -> us h <> None /\ path us prev.
  Proof.
    intros H Ht. destruct H as [|h prev' p' Ht' Hu Hp].
    - destruct ok as [Hg _]. congruence.
    - assert (prev' = prev) by congruence. subst. auto.
  Qed.

  Lemma disconnect_sound n : sound n -> exists n', disconnect tree n = Next n' /\ sound n'.
  Proof.
    intros [S1 S2 S3]. unfold disconnect. destruct (tree (tip n)) as [[prev p]|] eqn:Et.
    - destruct (path_prev _ _ _ _ S2 Et) as [Hu Hp].
      unfold disconnect_block. unfold sees in S1. rewrite S1, N.eqb_refl. cbn [negb].
      destruct (undos n (tip n)) as [u|] eqn:Eu; [|congruence].
      eexists. split; [reflexivity|]. constructor; cbn; [reflexivity|exact Hp|exact S3].
    - exists n. split; [reflexivity|]. now constructor.
  Qed.

  Lemma flushed_best k n : best (flushed k n) = best (sees n) \/ best (flushed k n) = best (disk n).
  Proof. unfold best, flushed. destruct (existsb _ _); auto. Qed.

  Lemma restart_sound d us : path us (best d) -> exists n', restart tree genesis d us = Next n' /\ sound n'.
  Proof.
    intros Hp. unfold restart. rewrite (path_known _ _ Hp). eexists. split; [reflexivity|].
    constructor; cbn; [reflexivity|exact Hp|exact Hp].
  Qed.

  Lemma flush_best n : best (flushed (length flush_order) n) = best (sees n).
  Proof. reflexivity. Qed.

  Lemma happens_sound n e : sound n -> exists n', happens tree genesis n e = Next n' /\ sound n'.
  Proof.
    intros S. destruct e; cbn [happens].
    - now apply connect_sound.
    - now apply disconnect_sound.
    - eexists. split; [reflexivity|]. destruct S as [S1 S2 S3]. constructor.
      + change (tip (flush n)) with (tip n). rewrite <- S1. reflexivity.
      + exact S2.
      + cbn [flush disk undos]. rewrite flush_best, S1. exact S2.
    - apply restart_sound. apply S.
    - apply restart_sound. destruct S as [S1 S2 S3].
      destruct (flushed_best k n) as [-> | ->]; [now rewrite S1|exact S3].
  Qed.

  Lemma history_sound es : forall n, sound n -> exists n', history tree genesis n es = Next n' /\ sound n'.
  Proof.
    induction es as [|e es IH]; intros n S; cbn [history]; [eauto|].
    destruct (happens_sound n e S) as (n1 & -> & S1). now apply IH.
  Qed.

  Lemma verify_sound depth : forall d us m h, path us h -> best (over m d) = h ->
    verify_from tree depth d us m h = Some true.
  Proof.
    induction depth as [|depth IH]; intros d us m h Hp Hb; cbn [verify_from];
      (destruct (tree h) as [[prev p]|] eqn:Et; [|reflexivity]);
      destruct (path_prev _ _ _ _ Hp Et) as [Hu Hpp]; unfold disconnect_block;
      rewrite Hb, N.eqb_refl; cbn [negb]; (destruct (us h) as [u|]; [|congruence]).
    - reflexivity.
    - apply IH; [exact Hpp|]. reflexivity.
  Qed.

  (** ** What a crash amid a flush leaves *)

  Lemma crash_in n k n' : happens tree genesis n (ECrashIn k) = Next n' ->
    disk n' = flushed k n /\ same (sees n') (flushed k n) /\ tip n' = best (flushed k n).
  Proof.
    cbn. unfold restart. destruct (_ || _); [|discriminate]. intros H. injection H as <-.
    repeat split.
  Qed.

  Lemma flushed_in k n t k' : In t (firstn k flush_order) -> flushed k n t k' = sees n t k'.
  Proof.
    intros H. unfold flushed. replace (existsb (N.eqb t) (firstn k flush_order)) with true; [reflexivity|].
    symmetry. apply existsb_exists. exists t. split; [exact H|apply N.eqb_refl].
  Qed.

  Lemma flushed_out k n t k' : ~ In t (firstn k flush_order) -> flushed k n t k' = disk n t k'.
  Proof.
    intros H. unfold flushed. destruct (existsb (N.eqb t) (firstn k flush_order)) eqn:E; [|reflexivity].
    apply existsb_exists in E. destruct E as (x & Hx & Ex). apply N.eqb_eq in Ex. subst. contradiction.
  Qed.

  Lemma in_line_iff n k n' : good n -> happens tree genesis n (ECrashIn k) = Next n' ->
    (in_line tree genesis init n' <->
     (tip n' = tip n /\ forall t k', ~ In t (firstn k flush_order) -> disk n t k' = sees n t k') \/
     (tip n' = best (disk n) /\ forall t k', In t (firstn k flush_order) -> disk n t k' = sees n t k')).
  Proof.
    intros [G1 [h G2] G3 G4] H. destruct (crash_in _ _ _ H) as (_ & Hs & Ht).
    assert (Hh : best (disk n) = h) by (eapply cs_best; eauto).
    unfold in_line. split.
    - intros Hl. destruct (flushed_best k n) as [Hb|Hb].
      + left. assert (Et : tip n' = tip n) by (rewrite Ht, Hb; eapply cs_best; eauto).
        split; [exact Et|]. rewrite Et in Hl. pose proof (cs_det _ _ Hl _ G1) as D.
        intros t k' Hn. rewrite <- (D t k'), (Hs t k'). symmetry. now apply flushed_out.
      + right. assert (Et : tip n' = h) by (rewrite Ht, Hb; exact Hh).
        split; [now rewrite Hh|]. rewrite Et in Hl. pose proof (cs_det _ _ Hl _ G2) as D.
        intros t k' Hn. rewrite <- (D t k'), (Hs t k'). now apply flushed_in.
    - intros [[Et Hd]|[Et Hd]]; rewrite Et.
      + eapply cs_same; [exact G1|]. intros t k'. rewrite (Hs t k').
        destruct (in_dec N.eq_dec t (firstn k flush_order)) as [i|i].
        * now rewrite flushed_in.
        * rewrite flushed_out by exact i. symmetry. now apply Hd.
      + rewrite Hh. eapply cs_same; [exact G2|]. intros t k'. rewrite (Hs t k').
        destruct (in_dec N.eq_dec t (firstn k flush_order)) as [i|i].
        * rewrite flushed_in by exact i. now apply Hd.
        * now rewrite flushed_out.
  Qed.
End Chain.
