(** Proofs about block undo. *)
From Coq Require Import List Bool NArith Lia.
From Verif Require Import KvModel KvSpec KvProofs UndoModel UndoSpec.
Import ListNotations.
Local Open Scope N_scope.

Set Implicit Arguments.

Section UndoP.
  Variables K V : Type.
  Variable Keqb : K -> K -> bool.
  Variable emptyK : N -> K -> bool.
  Variable emptyV : N -> V -> bool.
  Variable set_empty : N -> V -> V.
  Variable empty_value : N -> V.
  Hypothesis Keqb_spec : forall a b, reflect (a = b) (Keqb a b).
  Hypothesis set_empty_ok : forall p v, emptyV p (set_empty p v) = true.
  Hypothesis empty_value_ok : forall p, emptyV p (empty_value p) = true.

  Notation store := (store K V).
  Notation exec_op := (exec_op Keqb emptyK emptyV set_empty empty_value).
  Notation exec_tx := (exec_tx Keqb emptyK emptyV set_empty empty_value).
  Notation exec_block := (exec_block Keqb emptyK emptyV set_empty empty_value).

  Implicit Types (s t : store) (w : N -> store).
  Notation st_contents := (st_contents Keqb emptyV).
  Notation w_eq := (w_eq Keqb emptyV).

  Lemma same_kind_refl s : same_kind s s.
  Proof. destruct s; exact I. Qed.
  Lemma same_kind_trans (a b c : store) : same_kind a b -> same_kind b c -> same_kind a c.
  Proof. destruct a, b, c; simpl; tauto. Qed.
  Lemma same_kind_sym (a b : store) : same_kind a b -> same_kind b a.
  Proof. destruct a, b; simpl; tauto. Qed.

  Lemma w_eq_refl w : w_eq w w.
  Proof. split; intros; [reflexivity|apply same_kind_refl]. Qed.
  Lemma w_eq_trans a b c : w_eq a b -> w_eq b c -> w_eq a c.
  Proof.
    intros [A B] [C D]. split; intros.
    - rewrite A. apply C.
    - eapply same_kind_trans; [apply B|apply D].
  Qed.
  Lemma w_eq_sym a b : w_eq a b -> w_eq b a.
  Proof.
    intros [A B]. split; intros; [symmetry; apply A|apply same_kind_sym, B].
  Qed.

  Implicit Types (m : logmap K V) (es : list (entry K V)).

  Fixpoint lm_get (m : logmap K V) (p : N) : list (entry K V) :=
    match m with
    | [] => []
    | (q, l) :: m' => if N.eqb p q then l else lm_get m' p
    end.

  Fixpoint lm_sorted (m : logmap K V) : Prop :=
    match m with
    | [] => True
    | (q, _) :: m' => (forall r l, In (r, l) m' -> q < r) /\ lm_sorted m'
    end.

  Lemma logmap_add_In m p es q l :
    In (q, l) (logmap_add m p es) -> q = p \/ exists l', In (q, l') m.
  Proof.
    induction m as [|[r t] m IH]; simpl.
    - intros [H|[]]. inversion H; auto.
    - destruct (N.eqb_spec p r) as [->|].
      + simpl. intros [H|H]; [inversion H; subst; auto|]. right. exists l. auto.
      + destruct (N.ltb p r).
        * simpl. intros [H|[H|H]]; [inversion H; auto|inversion H; subst; eauto|eauto].
        * simpl. intros [H|H]; [inversion H; subst; eauto|].
          destruct (IH H) as [?|[l' ?]]; eauto.
  Qed.

  Lemma logmap_add_sorted m p es : lm_sorted m -> lm_sorted (logmap_add m p es).
  Proof.
    induction m as [|[r t] m IH]; simpl; intros H.
    - split; [intros ? ? []|exact I].
    - destruct H as [H1 H2]. destruct (N.eqb_spec p r) as [->|].
      + simpl. auto.
      + destruct (N.ltb_spec p r).
        * simpl. split; [|auto]. intros q l [E|E].
          -- inversion E; subst. assumption.
          -- specialize (H1 _ _ E). lia.
        * simpl. split; [|auto]. intros q l E.
          apply logmap_add_In in E. destruct E as [->|[l' E]]; [lia|eauto].
  Qed.

  Lemma logmap_add_get m p es q :
    lm_sorted m ->
    lm_get (logmap_add m p es) q = if N.eqb q p then lm_get m p ++ es else lm_get m q.
  Proof.
    assert (NF : forall m0 p0, (forall r l, In (r, l) m0 -> p0 < r) -> lm_get m0 p0 = []).
    { induction m0 as [|[r t] m0 IH]; simpl; intros p0 H; [reflexivity|].
      assert (p0 < r) by (eapply H; left; reflexivity).
      destruct (N.eqb_spec p0 r); [lia|]. apply IH. intros; eapply H; right; eauto. }
    induction m as [|[r t] m IH]; simpl; intros H.
    - destruct (N.eqb_spec q p); reflexivity.
    - destruct H as [H1 H2]. destruct (N.eqb_spec p r) as [->|].
      + simpl. destruct (N.eqb_spec q r); reflexivity.
      + destruct (N.ltb_spec p r); simpl.
        * destruct (N.eqb_spec q p) as [->|].
          -- rewrite (NF m p); [reflexivity|]. intros r0 l0 E. specialize (H1 _ _ E). lia.
          -- reflexivity.
        * destruct (N.eqb_spec q r) as [->|].
          -- destruct (N.eqb_spec r p); [congruence|reflexivity].
          -- apply IH. exact H2.
  Qed.

  (** Effect of undoing a list of entries on what the store reads as. *)
  Definition undo_spec (p : N) (s : store) (f : K -> option V) (es : list (entry K V)) : option (K -> option V) :=
    match s with
    | Comp _ => match comp_entries es with
                | Some t => Some (undo_plain Keqb (emptyV p) f t) | None => None end
    | Simp _ => match simp_entries es with
                | Some t => Some (fun k => match t with [] => f k | v :: _ => norm (emptyV p) v end)
                | None => None end
    end.

  Lemma comp_entries_app_some (a b : list (entry K V)) x y :
    comp_entries a = Some x -> comp_entries b = Some y -> comp_entries (a ++ b) = Some (x ++ y).
  Proof.
    revert x. induction a as [|[[k|] v] a IH]; simpl; intros x Ha Hb.
    - inversion Ha; subst. exact Hb.
    - destruct (comp_entries a) as [t|]; [|discriminate]. inversion Ha; subst.
      rewrite (IH t eq_refl Hb). reflexivity.
    - discriminate.
  Qed.

  Lemma simp_entries_app_some (a b : list (entry K V)) x y :
    simp_entries a = Some x -> simp_entries b = Some y -> simp_entries (a ++ b) = Some (x ++ y).
  Proof.
    revert x. induction a as [|[[k|] v] a IH]; simpl; intros x Ha Hb.
    - inversion Ha; subst. exact Hb.
    - discriminate.
    - destruct (simp_entries a) as [t|]; [|discriminate]. inversion Ha; subst.
      rewrite (IH t eq_refl Hb). reflexivity.
  Qed.

  Lemma comp_entries_map (l : list (K * V)) :
    comp_entries (map (fun kv => (Some (fst kv), snd kv)) l) = Some l.
  Proof. induction l as [|[k v] l IH]; simpl; [reflexivity|]. rewrite IH. reflexivity. Qed.
  Lemma simp_entries_map (l : list V) :
    simp_entries (map (fun v => (@None K, v)) l) = Some l.
  Proof. induction l as [|v l IH]; simpl; [reflexivity|]. rewrite IH. reflexivity. Qed.

  (** [restores p s f es g]: undoing [es] on anything reading as [f] gives [g]. *)
  Definition restores (p : N) (s : store) (f : K -> option V) (es : list (entry K V))
    (g : K -> option V) : Prop :=
    exists h, undo_spec p s f es = Some h /\ forall k, h k = g k.

  Lemma restores_nil p s f g : (forall k, f k = g k) -> restores p s f [] g.
  Proof.
    intros H. unfold restores, undo_spec. destruct s; simpl; eexists; split;
      try reflexivity; intros k; simpl; auto.
  Qed.

  Lemma restores_app p s f g h a b :
    restores p s f b g -> restores p s g a h -> restores p s f (a ++ b) h.
  Proof.
    unfold restores, undo_spec. destruct s as [c|c].
    - intros (x & Hx & Ex) (y & Hy & Ey).
      destruct (comp_entries b) as [tb|] eqn:Cb; [|discriminate].
      destruct (comp_entries a) as [ta|] eqn:Ca; [|discriminate].
      rewrite (comp_entries_app_some _ _ Ca Cb).
      inversion Hx; subst x. inversion Hy; subst y.
      eexists; split; [reflexivity|]. intros k. rewrite undo_plain_app.
      rewrite <- Ey. apply undo_plain_ext. intros k'. apply Ex.
    - intros (x & Hx & Ex) (y & Hy & Ey).
      destruct (simp_entries b) as [tb|] eqn:Cb; [|discriminate].
      destruct (simp_entries a) as [ta|] eqn:Ca; [|discriminate].
      rewrite (simp_entries_app_some _ _ Ca Cb).
      inversion Hx; subst x. inversion Hy; subst y.
      eexists; split; [reflexivity|]. intros k. specialize (Ex k). specialize (Ey k).
      destruct ta; simpl in *; [|exact Ey]. destruct tb; simpl in *; congruence.
  Qed.

  Lemma restores_kind p s t f es g : same_kind s t -> restores p s f es g -> restores p t f es g.
  Proof. destruct s, t; simpl; tauto. Qed.

  Lemma undo_store_ok p s es f g :
    st_wf s -> (forall k, st_contents p s k = f k) -> restores p s f es g ->
    exists s', undo_store Keqb s es = Some s' /\ st_wf s' /\ same_kind s s' /\
               forall k, st_contents p s' k = g k.
  Proof.
    unfold restores, undo_spec, undo_store. destruct s as [c|c]; simpl.
    - intros W Hf (h & Hh & Eh). destruct (comp_entries es) as [t|]; [|discriminate].
      inversion Hh; subst h. eexists. split; [reflexivity|]. simpl.
      split; [exact (undo_list_wf Keqb (emptyK p) Keqb_spec t W)|]. split; [exact I|].
      intros k. rewrite (undo_list_refines Keqb (emptyK p) (emptyV p) Keqb_spec t f W Hf). apply Eh.
    - intros W Hf (h & Hh & Eh). destruct (simp_entries es) as [t|]; [|discriminate].
      inversion Hh; subst h. eexists. split; [reflexivity|]. simpl.
      split; [apply s_undo_list_wf; assumption|]. split; [exact I|].
      intros k. rewrite s_undo_list_contents by exact W. rewrite <- Eh.
      destruct t; [apply Hf; exact k|reflexivity].
  Qed.

  (** One logged call: the new log of every prefix restores every store. *)
  Definition undoes (w : world K V) (m : logmap K V) (w0 : world K V) : Prop :=
    forall p, restores p (w p) (st_contents p (w p)) (lm_get m p) (st_contents p (w0 p)).

  Lemma exec_op_ok w m w0 po :
    w_wf w -> lm_sorted m -> undoes w m w0 ->
    let '(w', m') := exec_op (w, m) po in
    w_wf w' /\ lm_sorted m' /\ undoes w' m' w0 /\ (forall p, same_kind (w p) (w' p)) /\
    (forall q, In q (map fst m') -> q = fst po \/ In q (map fst m)).
  Proof.
    intros W S U. destruct po as [p o]. unfold UndoModel.exec_op.
    pose proof (W p) as Wp.
    assert (KEYS : forall es q, In q (map fst (logmap_add m p es)) -> q = p \/ In q (map fst m)).
    { intros es q H. apply in_map_iff in H. destruct H as ([q' l] & <- & H).
      apply logmap_add_In in H. destruct H as [->|[l' H]]; [auto|].
      right. apply in_map_iff. exists (q', l'). auto. }
    (* generic step: the store at p becomes s', with entries es restoring it *)
    assert (G : forall s' es,
      st_wf s' -> same_kind (w p) s' ->
      restores p s' (st_contents p s') es (st_contents p (w p)) ->
      let m' := match es with [] => m | _ => logmap_add m p es end in
      w_wf (wupd w p s') /\ lm_sorted m' /\ undoes (wupd w p s') m' w0 /\
      (forall q, same_kind (w q) (wupd w p s' q)) /\
      (forall q, In q (map fst m') -> q = p \/ In q (map fst m))).
    { intros s' es Ws Ks R m'.
      assert (SM : lm_sorted m').
      { subst m'. destruct es; [exact S|apply logmap_add_sorted; exact S]. }
      assert (LG : forall q, lm_get m' q = if N.eqb q p then lm_get m p ++ es else lm_get m q).
      { intros q. subst m'. destruct es as [|e es].
        - destruct (N.eqb_spec q p) as [->|]; [rewrite app_nil_r|]; reflexivity.
        - apply logmap_add_get. exact S. }
      split.
      { intros q. unfold wupd. destruct (N.eqb_spec q p); [exact Ws|apply W]. }
      split; [exact SM|]. split.
      { intros q. rewrite LG. unfold wupd. destruct (N.eqb_spec q p) as [->|].
        - eapply restores_app; [exact R|]. eapply restores_kind; [exact Ks|]. apply U.
        - apply U. }
      split.
      { intros q. unfold wupd. destruct (N.eqb_spec q p) as [->|]; [exact Ks|apply same_kind_refl]. }
      intros q. subst m'. destruct es; [auto|apply KEYS]. }
    destruct (w p) as [c|c] eqn:Ep; simpl in Wp.
    - pose proof (step_wf Keqb (emptyK p) (emptyV p) (set_empty p) (empty_value p) Keqb_spec
                    (Some []) o Wp) as W'.
      destruct (step_log Keqb (emptyK p) (emptyV p) (set_empty p) (empty_value p) Keqb_spec (set_empty_ok p)
                  (empty_value_ok p) [] o Wp) as (ext & L & R).
      destruct (step Keqb (emptyK p) (emptyV p) (set_empty p) (empty_value p) (c, Some []) o)
        as [a [s' lg]]. simpl in *. subst lg.
      apply (G (Comp s')); [exact W'|exact I|].
      unfold restores, undo_spec. rewrite comp_entries_map. eexists; split; [reflexivity|].
      intros k. simpl. apply R.
    - pose proof (sstep_wf (emptyV p) (set_empty p) (empty_value p) (Some []) (to_sop o) Wp) as W'.
      destruct (sstep_log (emptyV p) (set_empty p) (empty_value p) (set_empty_ok p) (empty_value_ok p) [] (to_sop o) Wp)
        as (ext & L & R).
      destruct (sstep (emptyV p) (set_empty p) (empty_value p) (c, Some []) (to_sop o))
        as [a [s' lg]]. simpl in *. subst lg.
      apply (G (Simp s')); [exact W'|exact I|].
      unfold restores, undo_spec. rewrite simp_entries_map. eexists; split; [reflexivity|].
      intros k. simpl. destruct ext; simpl in *; congruence.
  Qed.

  Lemma exec_ops_ok ops : forall w m w0,
    w_wf w -> lm_sorted m -> undoes w m w0 ->
    let '(w', m') := fold_left exec_op ops (w, m) in
    w_wf w' /\ lm_sorted m' /\ undoes w' m' w0 /\ (forall p, same_kind (w p) (w' p)) /\
    (forall q, In q (map fst m') -> In q (map fst ops) \/ In q (map fst m)).
  Proof.
    induction ops as [|po ops IH]; intros w m w0 W S U.
    - simpl. repeat split; auto. intros; apply same_kind_refl.
    - cbn [fold_left]. pose proof (exec_op_ok po W S U) as H.
      destruct (exec_op (w, m) po) as [w1 m1]. destruct H as (W1 & S1 & U1 & K1 & I1).
      specialize (IH w1 m1 w0 W1 S1 U1).
      destruct (fold_left exec_op ops (w1, m1)) as [w2 m2].
      destruct IH as (W2 & S2 & U2 & K2 & I2).
      repeat split; auto.
      + intros p. eapply same_kind_trans; [apply K1|apply K2].
      + intros q Hq. simpl. destruct (I2 q Hq) as [?|Hq1]; [tauto|].
        destruct (I1 q Hq1) as [->|?]; tauto.
  Qed.

  Lemma exec_tx_ok w ops :
    w_wf w ->
    let '(w', m) := exec_tx w ops in
    w_wf w' /\ lm_sorted m /\ undoes w' m w /\ (forall p, same_kind (w p) (w' p)) /\
    (forall q, In q (map fst m) -> In q (map fst ops)).
  Proof.
    intros W. unfold UndoModel.exec_tx.
    assert (U : undoes w [] w).
    { intros p. apply restores_nil. reflexivity. }
    pose proof (@exec_ops_ok ops w ([] : logmap K V) w W I U) as H.
    destruct (fold_left exec_op ops (w, [])) as [w' m].
    destruct H as (A & B & C & D & E). repeat split; auto.
    intros q Hq. destruct (E q Hq) as [?|[]]; assumption.
  Qed.

  (** Undoing one transaction's log map. *)
  Lemma undo_tx_ok reg m : forall w w',
    lm_sorted m -> w_wf w ->
    (forall q, In q (map fst m) -> reg q = true) ->
    (forall p, restores p (w p) (st_contents p (w p)) (lm_get m p) (st_contents p (w' p))) ->
    (forall p, same_kind (w p) (w' p)) ->
    let '(ok, w2) := undo_tx Keqb reg w m in
    ok = true /\ w_wf w2 /\ w_eq w2 w'.
  Proof.
    induction m as [|[q l] m IH]; intros w w' S W R U KD.
    - simpl. split; [reflexivity|]. split; [exact W|]. split; [|exact KD].
      intros p k. specialize (U p). destruct U as (h & Hh & Eh). unfold undo_spec in Hh.
      simpl in Hh. rewrite <- Eh. destruct (w p); simpl in Hh; inversion Hh; reflexivity.
    - simpl in S. destruct S as [S1 S2]. simpl.
      rewrite (R q) by (left; reflexivity).
      pose proof (U q) as Uq. simpl in Uq. rewrite N.eqb_refl in Uq.
      destruct (undo_store_ok (W q) (fun k => eq_refl) Uq) as (s' & -> & Ws & Ks & Cs).
      apply IH.
      + exact S2.
      + intros p. unfold wupd. destruct (N.eqb_spec p q); [exact Ws|apply W].
      + intros p Hp. apply R. right. exact Hp.
      + intros p. unfold wupd. destruct (N.eqb_spec p q) as [->|Hpq].
        * assert (NG : lm_get m q = []).
          { clear -S1. induction m as [|[r t] m IH]; simpl; [reflexivity|].
            assert (q < r) by (eapply S1; left; reflexivity).
            destruct (N.eqb_spec q r); [lia|]. apply IH. intros; eapply S1; right; eauto. }
          rewrite NG. apply restores_nil. exact Cs.
        * specialize (U p). simpl in U. destruct (N.eqb_spec p q); [congruence|exact U].
      + intros p. unfold wupd. destruct (N.eqb_spec p q) as [->|]; [|apply KD].
        eapply same_kind_trans; [apply same_kind_sym; exact Ks|apply KD].
  Qed.

  Lemma restores_feq p s f f' es g :
    (forall k, f k = f' k) -> restores p s f es g -> restores p s f' es g.
  Proof.
    intros E (h & Hh & Eh). unfold restores, undo_spec in *. destruct s as [c|c].
    - destruct (comp_entries es) as [t|]; [|discriminate]. inversion Hh; subst h.
      eexists; split; [reflexivity|]. intros k. rewrite <- Eh.
      apply undo_plain_ext. intros; symmetry; apply E.
    - destruct (simp_entries es) as [t|]; [|discriminate]. inversion Hh; subst h.
      eexists; split; [reflexivity|]. intros k. rewrite <- Eh. destruct t; auto.
  Qed.

  Lemma undoes_w_eq w w1 m w0 : w_eq w1 w -> undoes w m w0 -> undoes w1 m w0.
  Proof.
    intros [E Kd] U p. eapply restores_kind; [apply same_kind_sym, Kd|].
    eapply restores_feq; [|apply U]. intros k. symmetry. apply E.
  Qed.

  Definition block_step :=
    fun '(w, u) ops => let '(w', m) := exec_tx w ops in (w', u ++ [m] : list (logmap K V)).

  Lemma exec_block_acc txs : forall w u,
    fold_left block_step txs (w, u) =
    (fst (fold_left block_step txs (w, [])), u ++ snd (fold_left block_step txs (w, []))).
  Proof.
    induction txs as [|ops txs IH]; intros w u; cbn [fold_left].
    - simpl. rewrite app_nil_r. reflexivity.
    - unfold block_step at 2 4 6. destruct (exec_tx w ops) as [w' m].
      rewrite (IH w' (u ++ [m])), (IH w' ([] ++ [m])). cbn [fst snd].
      rewrite <- app_assoc. reflexivity.
  Qed.

  Lemma undo_txs_app reg (u1 : list (logmap K V)) : forall u2 w,
    undo_txs Keqb reg w (u1 ++ u2) =
    let '(ok, w') := undo_txs Keqb reg w u1 in
    if ok then undo_txs Keqb reg w' u2 else (false, w').
  Proof.
    induction u1 as [|m u1 IH]; intros u2 w; simpl; [reflexivity|].
    destruct (undo_tx Keqb reg w m) as [[|] w']; [apply IH|reflexivity].
  Qed.

  Lemma exec_block_wf txs : forall w,
    w_wf w ->
    w_wf (fst (exec_block w txs)) /\ forall p, same_kind (w p) (fst (exec_block w txs) p).
  Proof.
    unfold UndoModel.exec_block. fold block_step.
    induction txs as [|ops txs IH]; intros w W; cbn [fold_left].
    - split; [exact W|intros; apply same_kind_refl].
    - unfold block_step at 2 4. pose proof (exec_tx_ok ops W) as H.
      destruct (exec_tx w ops) as [w1 m]. destruct H as (W1 & S1 & U1 & K1 & I1).
      rewrite exec_block_acc. cbn [fst]. destruct (IH w1 W1) as [A B].
      split; [exact A|]. intros p. eapply same_kind_trans; [apply K1|apply B].
  Qed.

  Lemma undo_block_ok reg txs : forall w w2,
    w_wf w -> w_wf w2 ->
    (forall p, In p (map fst (concat txs)) -> reg p = true) ->
    w_eq w2 (fst (exec_block w txs)) ->
    let '(ok, w3) := undo_block Keqb reg w2 (snd (exec_block w txs)) in
    ok = true /\ w_wf w3 /\ w_eq w3 w.
  Proof.
    unfold UndoModel.exec_block. fold block_step.
    induction txs as [|ops txs IH]; intros w w2 W W2 R E.
    - simpl in *. auto.
    - cbn [fold_left] in *. unfold block_step at 2 in E. unfold block_step at 2.
      pose proof (exec_tx_ok ops W) as H.
      destruct (exec_tx w ops) as [w1 m]. destruct H as (W1 & S1 & U1 & K1 & I1).
      rewrite exec_block_acc in E. rewrite exec_block_acc. cbn [fst snd] in *.
      simpl in R. rewrite map_app in R.
      specialize (IH w1 w2 W1 W2 (fun p H => R p (in_or_app _ _ _ (or_intror H))) E).
      unfold undo_block in *. rewrite rev_app_distr. cbn [app rev].
      rewrite undo_txs_app.
      destruct (undo_txs Keqb reg w2 (rev (snd (fold_left block_step txs (w1, []))))) as [ok w3].
      destruct IH as (-> & W3 & E3). cbn [undo_txs].
      assert (U3 : undoes w3 m w) by (eapply undoes_w_eq; eassumption).
      pose proof (@undo_tx_ok reg m w3 w S1 W3) as T.
      assert (T1 : forall q, In q (map fst m) -> reg q = true).
      { intros q Hq. apply R. apply in_or_app. left. apply I1. exact Hq. }
      specialize (T T1 U3).
      assert (T2 : forall p, same_kind (w3 p) (w p)).
      { intros p. eapply same_kind_trans; [apply (proj2 E3)|apply same_kind_sym, K1]. }
      specialize (T T2).
      destruct (undo_tx Keqb reg w3 m) as [ok w4]. destruct T as (-> & A & B). auto.
  Qed.
End UndoP.
