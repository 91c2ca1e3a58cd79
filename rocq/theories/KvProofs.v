(** Proofs about the layered key-value caches. *)
From Coq Require Import List Bool.
From Verif Require Import KvModel KvSpec.
Import ListNotations.

Set Implicit Arguments.

Section KvP.
  Variables K V : Type.
  Variable Keqb : K -> K -> bool.
  Variable emptyK : K -> bool.
  Variable emptyV : V -> bool.
  Variable set_empty : V -> V.
  Variable empty_value : V.
  Hypothesis Keqb_spec : forall a b, reflect (a = b) (Keqb a b).
  Hypothesis set_empty_ok : forall v, emptyV (set_empty v) = true.
  Hypothesis empty_value_ok : emptyV empty_value = true.

  Notation afind := (afind Keqb).
  Notation aset := (aset Keqb).
  Notation aerase := (aerase Keqb).
  Notation contents := (contents Keqb emptyV).
  Notation get_data_it := (get_data_it Keqb).

  Implicit Types (s : stack K V) (m d top base b : amap K V) (v : V) (k : K) (ls : list (amap K V)).

  Lemma Keqb_refl k : Keqb k k = true.
  Proof. destruct (Keqb_spec k k); congruence. Qed.

  Lemma afind_aset m k v k' :
    afind (aset m k v) k' = if Keqb k' k then Some v else afind m k'.
  Proof.
    induction m as [|[k0 v0] m IH]; simpl.
    - destruct (Keqb_spec k' k); reflexivity.
    - destruct (Keqb_spec k k0) as [->|Hk]; simpl.
      + destruct (Keqb_spec k' k0); reflexivity.
      + destruct (Keqb_spec k' k0) as [->|Hk'].
        * destruct (Keqb_spec k0 k); [congruence|reflexivity].
        * exact IH.
  Qed.

  Lemma afind_aerase m k k' :
    afind (aerase m k) k' = if Keqb k' k then None else afind m k'.
  Proof.
    induction m as [|[k0 v0] m IH]; simpl.
    - destruct (Keqb k' k); reflexivity.
    - destruct (Keqb_spec k k0) as [->|Hk]; simpl; rewrite ?IH.
      + destruct (Keqb_spec k' k0); reflexivity.
      + destruct (Keqb_spec k' k0) as [->|Hk']; [|reflexivity].
        destruct (Keqb_spec k0 k); [congruence|reflexivity].
  Qed.

  Lemma find_afind m k :
    find (fun kv : K * V => Keqb k (fst kv)) m =
    match find (fun kv : K * V => Keqb k (fst kv)) m with
    | Some kv => Some kv | None => None end.
  Proof. destruct (find _ m); reflexivity. Qed.

  Lemma first_entry_cons m rest k :
    first_entry Keqb (m :: rest) k =
    match afind m k with Some v => Some v | None => first_entry Keqb rest k end.
  Proof.
    simpl. induction m as [|[k0 v0] m IH]; simpl; [reflexivity|].
    destruct (Keqb k k0); [reflexivity|exact IH].
  Qed.

  (** Raw lookup through the layers, markers included. *)
  Fixpoint raw (ls : list (amap K V)) (d : amap K V) (k : K) : option V :=
    match ls with
    | [] => afind d k
    | m :: r => match afind m k with Some v => Some v | None => raw r d k end
    end.

  Lemma first_entry_raw ls d k : first_entry Keqb (ls ++ [d]) k = raw ls d k.
  Proof.
    induction ls as [|m ls IH].
    - simpl app. rewrite first_entry_cons. simpl. destruct (afind d k); reflexivity.
    - change ((m :: ls) ++ [d]) with (m :: (ls ++ [d])). rewrite first_entry_cons, IH.
      reflexivity.
  Qed.

  Definition ob (r : option V) : option V :=
    match r with Some v => norm emptyV v | None => None end.

  Lemma contents_raw s k : contents s k = ob (raw (layers s) (db s) k).
  Proof. unfold contents. rewrite first_entry_raw. reflexivity. Qed.

  Lemma get_data_it_fst ls d k : fst (get_data_it ls d k) = raw ls d k.
  Proof.
    induction ls as [|m ls IH]; simpl; [reflexivity|].
    destruct (afind m k); [reflexivity|].
    destruct (get_data_it ls d k) as [r b]; simpl in *. subst r.
    destruct (raw ls d k); reflexivity.
  Qed.

  Lemma get_data_it_raw ls d k k' :
    raw (snd (get_data_it ls d k)) d k' = raw ls d k'.
  Proof.
    induction ls as [|m ls IH]; simpl; [reflexivity|].
    destruct (afind m k) eqn:E; [reflexivity|].
    pose proof (get_data_it_fst ls d k) as F.
    destruct (get_data_it ls d k) as [r b]; simpl in *. subst r.
    destruct (raw ls d k) eqn:R; simpl; rewrite ?afind_aset, ?IH; [|reflexivity].
    destruct (Keqb_spec k' k) as [->|]; [|reflexivity].
    rewrite E, R. reflexivity.
  Qed.

  Lemma get_data_it_length ls d k : length (snd (get_data_it ls d k)) = length ls.
  Proof.
    induction ls as [|m ls IH]; simpl; [reflexivity|].
    destruct (afind m k); [reflexivity|].
    destruct (get_data_it ls d k) as [r b]; simpl in *.
    destruct r; simpl; congruence.
  Qed.

  Lemma raw_on_top ls d k v k' :
    ls <> [] ->
    raw (on_top (fun m => aset m k v) ls) d k' = if Keqb k' k then Some v else raw ls d k'.
  Proof.
    destruct ls as [|m ls]; intros H; [congruence|]. simpl. rewrite afind_aset.
    destruct (Keqb k' k); reflexivity.
  Qed.

  Lemma on_top_length (f : amap K V -> amap K V) ls : length (on_top f ls) = length ls.
  Proof. destruct ls; reflexivity. Qed.

  Lemma afind_fold_base top base k :
    afind (flush_to_base Keqb top base) k =
    match afind (rev top) k with Some v => Some v | None => afind base k end.
  Proof.
    unfold flush_to_base. revert base.
    induction top as [|[k0 v0] top IH]; intros base; simpl; [reflexivity|].
    rewrite IH, afind_aset.
    assert (A : forall l, afind (l ++ [(k0, v0)]) k =
                match afind l k with Some v => Some v | None =>
                  if Keqb k k0 then Some v0 else None end).
    { induction l as [|[k1 v1] l IHl]; simpl; [reflexivity|].
      destruct (Keqb k k1); [reflexivity|exact IHl]. }
    rewrite A. destruct (afind (rev top) k); [reflexivity|].
    destruct (Keqb k k0); reflexivity.
  Qed.

  Lemma afind_In m k v : afind m k = Some v -> In (k, v) m.
  Proof.
    induction m as [|[k0 v0] m IH]; simpl; [discriminate|].
    destruct (Keqb_spec k k0) as [->|]; intros H.
    - inversion H; subst; auto.
    - auto.
  Qed.

  Lemma In_afind m k v : nodup m -> In (k, v) m -> afind m k = Some v.
  Proof.
    unfold nodup. induction m as [|[k0 v0] m IH]; simpl; [tauto|].
    intros ND. inversion ND as [|? ? Hnin ND' Heq]; subst. intros [H|H].
    - inversion H; subst. rewrite Keqb_refl. reflexivity.
    - destruct (Keqb_spec k k0) as [->|]; [|auto].
      exfalso. apply Hnin. apply in_map_iff. exists (k0, v). auto.
  Qed.

  Lemma afind_rev m k : nodup m -> afind (rev m) k = afind m k.
  Proof.
    intros ND.
    assert (ND' : nodup (rev m)).
    { unfold nodup in *. rewrite map_rev. apply NoDup_rev. exact ND. }
    destruct (afind m k) eqn:E.
    - apply In_afind; [exact ND'|]. apply in_rev. rewrite rev_involutive.
      apply afind_In. exact E.
    - destruct (afind (rev m) k) eqn:E'; [|reflexivity].
      apply afind_In in E'. apply in_rev in E'. apply In_afind in E'; congruence.
  Qed.

  Lemma aset_keys m k v x : In x (map fst (aset m k v)) <-> x = k \/ In x (map fst m).
  Proof.
    induction m as [|[k0 v0] m IH]; simpl.
    - intuition.
    - destruct (Keqb_spec k k0) as [->|]; simpl; [|rewrite IH]; intuition.
  Qed.

  Lemma aset_nodup m k v : nodup m -> nodup (aset m k v).
  Proof.
    unfold nodup. induction m as [|[k0 v0] m IH]; simpl; intros ND.
    - constructor; [simpl; tauto|constructor].
    - inversion ND as [|? ? Hnin ND' Heq]; subst.
      destruct (Keqb_spec k k0) as [->|Hk]; simpl; [constructor; assumption|].
      constructor; [|auto]. rewrite aset_keys. intros [?|?]; [congruence|contradiction].
  Qed.

  Lemma aerase_nodup m k : nodup m -> nodup (aerase m k).
  Proof.
    unfold nodup. induction m as [|[k0 v0] m IH]; simpl; intros ND; [constructor|].
    inversion ND as [|? ? Hnin ND' Heq]; subst.
    destruct (Keqb k k0); [auto|]. simpl. constructor; [|auto].
    intros H. apply Hnin. clear -H. induction m as [|[k1 v1] m IH]; simpl in *; [tauto|].
    destruct (Keqb k k1); simpl in *; intuition.
  Qed.

  Lemma afind_fold_db top d k :
    afind (flush_to_db Keqb emptyV top d) k =
    match afind (rev top) k with
    | Some v => if emptyV v then None else Some v
    | None => afind d k end.
  Proof.
    unfold flush_to_db. revert d.
    induction top as [|[k0 v0] top IH]; intros d; simpl; [reflexivity|].
    rewrite IH.
    assert (A : forall l, afind (l ++ [(k0, v0)]) k =
                match afind l k with Some v => Some v | None =>
                  if Keqb k k0 then Some v0 else None end).
    { induction l as [|[k1 v1] l IHl]; simpl; [reflexivity|].
      destruct (Keqb k k1); [reflexivity|exact IHl]. }
    rewrite A. destruct (afind (rev top) k); [reflexivity|].
    destruct (emptyV v0) eqn:E; rewrite ?afind_aerase, ?afind_aset;
      destruct (Keqb k k0); rewrite ?E; reflexivity.
  Qed.

  Notation db_no_empty := (db_no_empty Keqb emptyV).

  Lemma get_data_it_nodup ls d k :
    Forall (@nodup K V) ls -> Forall (@nodup K V) (snd (get_data_it ls d k)).
  Proof.
    induction ls as [|m ls IH]; simpl; intros H; [constructor|].
    inversion H; subst.
    destruct (afind m k); [exact H|].
    specialize (IH H3). destruct (get_data_it ls d k) as [r b]; simpl in *.
    destruct r; simpl; constructor; auto. apply aset_nodup. assumption.
  Qed.

  Lemma flush_layers_raw i ls d k :
    Forall (@nodup K V) ls ->
    ob (raw (fst (flush_layers Keqb emptyV i ls d)) (snd (flush_layers Keqb emptyV i ls d)) k)
    = ob (raw ls d k).
  Proof.
    revert i. induction ls as [|m ls IH]; intros i H; simpl; [reflexivity|].
    inversion H; subst.
    destruct i as [|i].
    - destruct ls as [|b rest]; simpl.
      + rewrite afind_fold_db, afind_rev by assumption.
        destruct (afind m k) as [v|]; [|reflexivity].
        simpl. unfold norm. destruct (emptyV v) eqn:E; simpl; unfold norm; rewrite ?E; reflexivity.
      + rewrite afind_fold_base, afind_rev by assumption.
        destruct (afind m k); reflexivity.
    - specialize (IH i H3).
      destruct (flush_layers Keqb emptyV i ls d) as [b' d'] eqn:E; simpl in *.
      destruct (afind m k); [reflexivity|exact IH].
  Qed.

  Lemma flush_to_base_nodup m b : nodup b -> nodup (flush_to_base Keqb m b).
  Proof.
    unfold flush_to_base. revert b. induction m as [|kv m IH]; intros b H; simpl; [exact H|].
    apply IH. apply aset_nodup. exact H.
  Qed.

  Lemma flush_to_db_nodup m b : nodup b -> nodup (flush_to_db Keqb emptyV m b).
  Proof.
    unfold flush_to_db. revert b. induction m as [|kv m IH]; intros b H; simpl; [exact H|].
    apply IH. destruct (emptyV (snd kv)); [apply aerase_nodup | apply aset_nodup]; exact H.
  Qed.

  Lemma flush_wf i s : wf s -> wf (flush Keqb emptyV i s).
  Proof.
    destruct s as [ls d]. unfold wf, flush. simpl. intros (H1 & H2 & H3).
    revert i. induction ls as [|m ls IH]; intros i; [congruence|].
    inversion H2; subst. destruct i as [|i]; simpl.
    - destruct ls as [|b rest]; simpl.
      + split; [congruence|]. split; [|apply flush_to_db_nodup; assumption].
        constructor; [constructor|constructor].
      + split; [congruence|]. inversion H5; subst.
        split; [|assumption]. constructor; [constructor|].
        constructor; [apply flush_to_base_nodup; assumption|assumption].
    - destruct ls as [|b rest].
      + simpl. split; [congruence|]. split; assumption.
      + assert (HH : b :: rest <> []) by congruence.
        specialize (IH HH H5 i).
        destruct (flush_layers Keqb emptyV i (b :: rest) d) as [b' d']; simpl in *.
        destruct IH as (A & B & C).
        split; [congruence|]. split; [constructor|]; assumption.
  Qed.

  Lemma flush_contents i s k : wf s -> contents (flush Keqb emptyV i s) k = contents s k.
  Proof.
    intros (H1 & H2 & H3). rewrite !contents_raw. unfold flush.
    pose proof (flush_layers_raw i (db s) k H2) as F.
    destruct (flush_layers Keqb emptyV i (layers s) (db s)) as [ls d]. exact F.
  Qed.

  Lemma step_wf s lg o :
    wf s -> wf (fst (snd (step Keqb emptyK emptyV set_empty empty_value (s, lg) o))).
  Proof.
    intros W. pose proof W as (H1 & H2 & H3).
    assert (G : forall k, wf (mkStack (snd (get_data_it (layers s) (db s) k)) (db s))).
    { intros k. split; [|split; [apply get_data_it_nodup|]; assumption].
      simpl. pose proof (get_data_it_length (layers s) (db s) k) as L.
      intros E. rewrite E in L. destruct (layers s); [congruence|discriminate]. }
    assert (T : forall k v, wf (mkStack (on_top (fun m => aset m k v)
                  (snd (get_data_it (layers s) (db s) k))) (db s))).
    { intros k v. destruct (G k) as (A & B & C). simpl in *.
      destruct (snd (get_data_it (layers s) (db s) k)) as [|m ls]; [congruence|].
      simpl. split; [simpl; congruence|]. inversion B; subst.
      split; [constructor; [apply aset_nodup|]|]; assumption. }
    destruct o as [k|k|k v|k|i]; simpl.
    - unfold get_data. destruct (emptyK k); [exact W|].
      specialize (G k). destruct (get_data_it (layers s) (db s) k); exact G.
    - unfold has_data. destruct (emptyK k); [exact W|].
      specialize (G k). destruct (get_data_it (layers s) (db s) k); exact G.
    - unfold set_data. destruct (emptyK k); [exact W|].
      specialize (T k v). destruct (get_data_it (layers s) (db s) k); exact T.
    - unfold erase_data. destruct (emptyK k); [exact W|].
      specialize (G k). specialize (T k).
      destruct (get_data_it (layers s) (db s) k) as [r ls]; simpl in *.
      destruct r as [v|]; [|exact G]. destruct (emptyV v); [exact G|apply T].
    - apply flush_wf. exact W.
  Qed.

  (** One step refines the plain map. *)
  Lemma step_refines s lg o f :
    wf s -> (forall k, contents s k = f k) ->
    fst (step Keqb emptyK emptyV set_empty empty_value (s, lg) o) =
      fst (plain_step Keqb emptyK emptyV f o) /\
    (forall k, contents (fst (snd (step Keqb emptyK emptyV set_empty empty_value (s, lg) o))) k =
       snd (plain_step Keqb emptyK emptyV f o) k).
  Proof.
    intros W Hf. pose proof W as (H1 & H2 & H3).
    assert (G : forall k k', ob (raw (snd (get_data_it (layers s) (db s) k)) (db s) k') = f k').
    { intros k k'. rewrite get_data_it_raw, <- contents_raw. apply Hf. }
    assert (F : forall k, ob (fst (get_data_it (layers s) (db s) k)) = f k).
    { intros k. rewrite get_data_it_fst, <- contents_raw. apply Hf. }
    assert (NE : forall k, snd (get_data_it (layers s) (db s) k) <> []).
    { intros k E. pose proof (get_data_it_length (layers s) (db s) k) as L.
      rewrite E in L. destruct (layers s); [congruence|discriminate]. }
    destruct o as [k|k|k v|k|i]; simpl.
    - unfold get_data. destruct (emptyK k); [split; [reflexivity|exact Hf]|].
      specialize (G k). specialize (F k).
      destruct (get_data_it (layers s) (db s) k) as [r ls]; simpl in *.
      split.
      + f_equal. rewrite <- F. destruct r; reflexivity.
      + intros k'. rewrite contents_raw. apply G.
    - unfold has_data. destruct (emptyK k); [split; [reflexivity|exact Hf]|].
      specialize (G k). specialize (F k).
      destruct (get_data_it (layers s) (db s) k) as [r ls]; simpl in *.
      split.
      + f_equal. rewrite <- F. destruct r as [v|]; [|reflexivity].
        simpl. unfold norm. destruct (emptyV v); reflexivity.
      + intros k'. rewrite contents_raw. apply G.
    - unfold set_data. destruct (emptyK k) eqn:EK; [split; [reflexivity|exact Hf]|].
      specialize (G k). specialize (NE k).
      destruct (get_data_it (layers s) (db s) k) as [r ls]; simpl in *.
      split; [reflexivity|]. intros k'. rewrite contents_raw. simpl.
      rewrite raw_on_top by exact NE. unfold plain_set.
      destruct (Keqb k' k); [reflexivity|apply G].
    - unfold erase_data. destruct (emptyK k) eqn:EK; [split; [reflexivity|exact Hf]|].
      specialize (G k). specialize (F k). specialize (NE k).
      destruct (get_data_it (layers s) (db s) k) as [r ls]; simpl in *.
      destruct r as [v|]; simpl in *.
      + unfold norm in F. destruct (emptyV v) eqn:EV; simpl.
        * split; [reflexivity|]. intros k'. rewrite contents_raw. simpl. rewrite G.
          unfold plain_set. destruct (Keqb_spec k' k); congruence.
        * split; [reflexivity|]. intros k'. rewrite contents_raw. simpl.
          rewrite raw_on_top by exact NE. unfold plain_set.
          destruct (Keqb k' k); [|apply G]. simpl. unfold norm.
          rewrite set_empty_ok. reflexivity.
      + split; [reflexivity|]. intros k'. rewrite contents_raw. simpl. rewrite G.
        unfold plain_set. destruct (Keqb_spec k' k); congruence.
    - split; [reflexivity|]. intros k. rewrite flush_contents by exact W. apply Hf.
  Qed.

  Lemma run_refines os : forall s lg f,
    wf s -> (forall k, contents s k = f k) ->
    fst (run Keqb emptyK emptyV set_empty empty_value (s, lg) os) =
      fst (plain_run Keqb emptyK emptyV f os) /\
    (forall k, contents (fst (snd (run Keqb emptyK emptyV set_empty empty_value (s, lg) os))) k =
       snd (plain_run Keqb emptyK emptyV f os) k).
  Proof.
    induction os as [|o os IH]; intros s lg f W Hf; cbn [run plain_run].
    - split; [reflexivity|exact Hf].
    - destruct (step_refines lg o f W Hf) as [A B].
      pose proof (step_wf lg o W) as W'.
      destruct (step Keqb emptyK emptyV set_empty empty_value (s, lg) o) as [a [s1 lg1]].
      destruct (plain_step Keqb emptyK emptyV f o) as [a' f1]. simpl in *. subst a'.
      destruct (IH s1 lg1 f1 W' B) as [C D].
      destruct (run Keqb emptyK emptyV set_empty empty_value (s1, lg1) os) as [l st2].
      destruct (plain_run Keqb emptyK emptyV f1 os) as [l' f2]. simpl in *.
      split; [congruence|exact D].
  Qed.

  Lemma run_wf os : forall s lg,
    wf s -> wf (fst (snd (run Keqb emptyK emptyV set_empty empty_value (s, lg) os))).
  Proof.
    induction os as [|o os IH]; intros s lg W; cbn [run plain_run]; [exact W|].
    pose proof (step_wf lg o W) as W'.
    destruct (step Keqb emptyK emptyV set_empty empty_value (s, lg) o) as [a [s1 lg1]].
    simpl in W'. specialize (IH s1 lg1 W').
    destruct (run Keqb emptyK emptyV set_empty empty_value (s1, lg1) os) as [l st2].
    exact IH.
  Qed.

  (** Undo. *)
  Definition undo_plain (f : plain K V) (l : list (K * V)) : plain K V :=
    fold_left (fun g e => plain_set Keqb g (fst e) (norm emptyV (snd e))) (rev l) f.

  Lemma undo_data_wf s e : wf s -> wf (undo_data Keqb s e).
  Proof.
    intros (H1 & H2 & H3). destruct s as [[|m ls] d]; [simpl in H1; congruence|].
    simpl in *. inversion H2; subst.
    split; [simpl; congruence|]. split; [constructor; [apply aset_nodup|]|]; assumption.
  Qed.

  Lemma undo_list_refines l : forall s f,
    wf s -> (forall k, contents s k = f k) ->
    forall k, contents (undo_data_list Keqb s l) k = undo_plain f l k.
  Proof.
    unfold undo_data_list, undo_plain. induction (rev l) as [|e r IH]; intros s f W Hf k; simpl.
    - apply Hf.
    - apply IH; [apply undo_data_wf; exact W|]. intros k'. rewrite contents_raw.
      destruct W as (H1 & _). simpl. rewrite raw_on_top by exact H1. unfold plain_set.
      destruct (Keqb k' (fst e)); [reflexivity|]. rewrite <- contents_raw. apply Hf.
  Qed.

  Lemma undo_list_wf l : forall s, wf s -> wf (undo_data_list Keqb s l).
  Proof.
    unfold undo_data_list. induction (rev l) as [|e r IH]; intros s W; simpl; [exact W|].
    apply IH. apply undo_data_wf. exact W.
  Qed.

  Lemma undo_plain_app f l1 l2 : undo_plain f (l1 ++ l2) = undo_plain (undo_plain f l2) l1.
  Proof. unfold undo_plain. rewrite rev_app_distr, fold_left_app. reflexivity. Qed.

  Lemma undo_plain_ext l : forall f g, (forall k, f k = g k) -> forall k, undo_plain f l k = undo_plain g l k.
  Proof.
    unfold undo_plain. induction (rev l) as [|e r IH]; intros f g H k; simpl; [apply H|].
    apply IH. intros k'. unfold plain_set. destruct (Keqb k' (fst e)); [reflexivity|apply H].
  Qed.

  (** What one step appends to an attached log, and that undoing it restores the content. *)
  Lemma step_log s l o :
    wf s ->
    exists ext,
      snd (snd (step Keqb emptyK emptyV set_empty empty_value (s, Some l) o)) = Some (l ++ ext) /\
      forall k, undo_plain (contents (fst (snd (step Keqb emptyK emptyV set_empty empty_value
                              (s, Some l) o)))) ext k = contents s k.
  Proof.
    intros W.
    destruct (step_refines (Some l) o (contents s) W (fun k => eq_refl (contents s k))) as [_ R].
    destruct o as [k|k|k v|k|i].
    - exists []. rewrite app_nil_r. split.
      + simpl. destruct (get_data _ _ _ s k); reflexivity.
      + intros k'. unfold undo_plain. simpl rev. simpl fold_left. rewrite R. reflexivity.
    - exists []. rewrite app_nil_r. split.
      + simpl. destruct (has_data _ _ _ s k); reflexivity.
      + intros k'. unfold undo_plain. simpl rev. simpl fold_left. rewrite R. reflexivity.
    - destruct (emptyK k) eqn:EK.
      + exists []. rewrite app_nil_r. split.
        * simpl. unfold set_data. rewrite EK. reflexivity.
        * intros k'. unfold undo_plain. simpl rev. simpl fold_left. rewrite R. simpl.
          rewrite EK. reflexivity.
      + exists [(k, match raw (layers s) (db s) k with Some o => o | None => empty_value end)].
        split.
        * simpl. unfold set_data. rewrite EK.
          pose proof (get_data_it_fst (layers s) (db s) k) as F.
          destruct (get_data_it (layers s) (db s) k) as [r ls]. simpl in *. subst r. reflexivity.
        * intros k'. unfold undo_plain. simpl rev. simpl fold_left. unfold plain_set. simpl fst.
          simpl snd. destruct (Keqb_spec k' k) as [->|N].
          -- rewrite contents_raw. destruct (raw (layers s) (db s) k); simpl; [reflexivity|].
             unfold norm. rewrite empty_value_ok. reflexivity.
          -- rewrite R. simpl. rewrite EK. simpl. unfold plain_set.
             destruct (Keqb_spec k' k); [congruence|reflexivity].
    - destruct (emptyK k) eqn:EK.
      + exists []. rewrite app_nil_r. split.
        * simpl. unfold erase_data. rewrite EK. reflexivity.
        * intros k'. unfold undo_plain. simpl rev. simpl fold_left. rewrite R. simpl.
          rewrite EK. reflexivity.
      + destruct (raw (layers s) (db s) k) as [o|] eqn:E; [destruct (emptyV o) eqn:EV|].
        * exists []. rewrite app_nil_r. split.
          -- simpl. unfold erase_data. rewrite EK.
             pose proof (get_data_it_fst (layers s) (db s) k) as F.
             destruct (get_data_it (layers s) (db s) k) as [r ls]. simpl in *. rewrite E in F.
             subst r. rewrite EV. reflexivity.
          -- intros k'. unfold undo_plain. simpl rev. simpl fold_left. rewrite R. simpl.
             rewrite EK. simpl. unfold plain_set. destruct (Keqb_spec k' k) as [->|]; [|reflexivity].
             rewrite contents_raw, E. simpl. unfold norm. rewrite EV. reflexivity.
        * exists [(k, o)]. split.
          -- simpl. unfold erase_data. rewrite EK.
             pose proof (get_data_it_fst (layers s) (db s) k) as F.
             destruct (get_data_it (layers s) (db s) k) as [r ls]. simpl in *. rewrite E in F.
             subst r. rewrite EV. reflexivity.
          -- intros k'. unfold undo_plain. simpl rev. simpl fold_left. unfold plain_set. simpl fst.
             simpl snd. destruct (Keqb_spec k' k) as [->|N].
             ++ rewrite contents_raw, E. reflexivity.
             ++ rewrite R. simpl. rewrite EK. simpl. unfold plain_set.
                destruct (Keqb_spec k' k); [congruence|reflexivity].
        * exists []. rewrite app_nil_r. split.
          -- simpl. unfold erase_data. rewrite EK.
             pose proof (get_data_it_fst (layers s) (db s) k) as F.
             destruct (get_data_it (layers s) (db s) k) as [r ls]. simpl in *. rewrite E in F.
             subst r. reflexivity.
          -- intros k'. unfold undo_plain. simpl rev. simpl fold_left. rewrite R. simpl.
             rewrite EK. simpl. unfold plain_set. destruct (Keqb_spec k' k) as [->|]; [|reflexivity].
             rewrite contents_raw, E. reflexivity.
    - exists []. rewrite app_nil_r. split; [reflexivity|].
      intros k'. unfold undo_plain. simpl rev. simpl fold_left. rewrite R. reflexivity.
  Qed.

  Lemma run_log os : forall s l,
    wf s ->
    exists ext,
      snd (snd (run Keqb emptyK emptyV set_empty empty_value (s, Some l) os)) = Some (l ++ ext) /\
      forall k, undo_plain (contents (fst (snd (run Keqb emptyK emptyV set_empty empty_value
                              (s, Some l) os)))) ext k = contents s k.
  Proof.
    induction os as [|o os IH]; intros s l W.
    - exists []. rewrite app_nil_r. split; reflexivity.
    - cbn [run]. destruct (step_log l o W) as (e1 & L1 & U1).
      assert (W1 : wf (fst (snd (step Keqb emptyK emptyV set_empty empty_value (s, Some l) o))))
        by exact (step_wf (Some l) o W).
      destruct (step Keqb emptyK emptyV set_empty empty_value (s, Some l) o) as [a [s1 lg1]].
      simpl in *. subst lg1.
      destruct (IH s1 (l ++ e1) W1) as (e2 & L2 & U2).
      destruct (run Keqb emptyK emptyV set_empty empty_value (s1, Some (l ++ e1)) os)
        as [lr [s2 lg2]]. simpl in *. subst lg2.
      exists (e1 ++ e2). rewrite app_assoc. split; [reflexivity|].
      intros k. rewrite undo_plain_app. rewrite <- U1. apply undo_plain_ext. exact U2.
  Qed.

  Lemma run_undo os s s2 l :
    wf s -> wf s2 ->
    snd (snd (run Keqb emptyK emptyV set_empty empty_value (s, Some []) os)) = Some l ->
    (forall k, contents s2 k =
       contents (fst (snd (run Keqb emptyK emptyV set_empty empty_value (s, Some []) os))) k) ->
    forall k, contents (undo_data_list Keqb s2 l) k = contents s k.
  Proof.
    intros W W2 HL HC k. destruct (run_log os [] W) as (e & L & U).
    rewrite L in HL. simpl in HL. inversion HL; subst e. clear HL.
    rewrite (undo_list_refines l _ W2 HC). apply U.
  Qed.

  (** The database never holds an empty value. *)
  Lemma flush_db_no_empty i s : wf s -> db_no_empty s -> db_no_empty (flush Keqb emptyV i s).
  Proof.
    destruct s as [ls d]. unfold wf, db_no_empty, flush. simpl. intros (_ & H2 & _) HD.
    revert i. induction ls as [|m ls IH]; intros i; simpl; [exact HD|].
    inversion H2; subst. destruct i as [|i].
    - destruct ls as [|b rest]; simpl; [|exact HD].
      intros k v. rewrite afind_fold_db. destruct (afind (rev m) k) as [w|].
      + destruct (emptyV w) eqn:E; intros X; [discriminate|congruence].
      + apply HD.
    - specialize (IH H3 i). destruct (flush_layers Keqb emptyV i ls d) as [b' d']. exact IH.
  Qed.

  Lemma step_db_no_empty s lg o :
    wf s -> db_no_empty s ->
    db_no_empty (fst (snd (step Keqb emptyK emptyV set_empty empty_value (s, lg) o))).
  Proof.
    intros W H. destruct o as [k|k|k v|k|i]; simpl.
    - unfold get_data. destruct (emptyK k); [exact H|].
      destruct (get_data_it (layers s) (db s) k); exact H.
    - unfold has_data. destruct (emptyK k); [exact H|].
      destruct (get_data_it (layers s) (db s) k); exact H.
    - unfold set_data. destruct (emptyK k); [exact H|].
      destruct (get_data_it (layers s) (db s) k); exact H.
    - unfold erase_data. destruct (emptyK k); [exact H|].
      destruct (get_data_it (layers s) (db s) k) as [[v|] ls]; [|exact H].
      destruct (emptyV v); exact H.
    - apply flush_db_no_empty; assumption.
  Qed.

  Lemma run_db_no_empty os : forall s lg,
    wf s -> db_no_empty s ->
    db_no_empty (fst (snd (run Keqb emptyK emptyV set_empty empty_value (s, lg) os))).
  Proof.
    induction os as [|o os IH]; intros s lg W H; cbn [run plain_run]; [exact H|].
    pose proof (step_wf lg o W) as W'.
    pose proof (step_db_no_empty lg o W H) as H'.
    destruct (step Keqb emptyK emptyV set_empty empty_value (s, lg) o) as [a [s1 lg1]].
    simpl in *. specialize (IH s1 lg1 W' H').
    destruct (run Keqb emptyK emptyV set_empty empty_value (s1, lg1) os) as [l st2].
    exact IH.
  Qed.

  (** Flushing every layer from the top down leaves the database alone answering. *)
  Fixpoint flush_all_from (i n : nat) (s : stack K V) : stack K V :=
    match n with
    | O => s
    | S n' => flush_all_from (S i) n' (flush Keqb emptyV i s)
    end.

  Lemma flush_all_contents n : forall i s k, wf s ->
    contents (flush_all_from i n s) k = contents s k /\ wf (flush_all_from i n s).
  Proof.
    induction n as [|n IH]; intros i s k W; simpl; [auto|].
    destruct (IH (S i) (flush Keqb emptyV i s) k (flush_wf i W)) as [A B].
    rewrite A. split; [apply flush_contents; exact W|exact B].
  Qed.

  Lemma flush_layers_at pre m suf d i :
    i = length pre ->
    flush_layers Keqb emptyV i (pre ++ m :: suf) d =
    match suf with
    | [] => (pre ++ [[]], flush_to_db Keqb emptyV m d)
    | b :: rest => (pre ++ [] :: flush_to_base Keqb m b :: rest, d)
    end.
  Proof.
    revert i. induction pre as [|p pre IH]; intros i Hi; subst i; simpl.
    - destruct suf; reflexivity.
    - rewrite (IH (length pre) eq_refl). destruct suf; reflexivity.
  Qed.

  Lemma flush_all_empty n : forall pre suf d,
    length suf = n -> Forall (fun m => m = []) pre ->
    Forall (fun m => m = []) (layers (flush_all_from (length pre) n (mkStack (pre ++ suf) d))).
  Proof.
    induction n as [|n IH]; intros pre suf d Hn HP; simpl.
    - destruct suf; [|discriminate]. rewrite app_nil_r. exact HP.
    - destruct suf as [|m suf]; [discriminate|]. simpl in Hn. injection Hn as Hn.
      unfold flush. simpl. rewrite (flush_layers_at pre m suf d eq_refl).
      assert (HP' : Forall (fun m : amap K V => m = []) (pre ++ [[]])).
      { apply Forall_app. split; [exact HP|]. constructor; [reflexivity|constructor]. }
      destruct suf as [|b rest].
      + simpl in Hn. subst n. simpl. exact HP'.
      + specialize (IH (pre ++ [[]]) (flush_to_base Keqb m b :: rest) d Hn HP').
        rewrite app_length, PeanoNat.Nat.add_comm in IH. simpl in IH.
        rewrite <- app_assoc in IH. simpl in IH. exact IH.
  Qed.

End KvP.

(** Single-value caches. *)
Section SimpleP.
  Variable V : Type.
  Variable emptyV : V -> bool.
  Variable set_empty : V -> V.
  Variable empty_value : V.
  Hypothesis set_empty_ok : forall v, emptyV (set_empty v) = true.
  Hypothesis empty_value_ok : emptyV empty_value = true.

  Notation scontents := (scontents emptyV).

  Implicit Types (s : sstack V).

  Fixpoint sraw (ls : list (option V)) (d : option V) : option V :=
    match ls with
    | [] => d
    | Some v :: _ => Some v
    | None :: r => sraw r d
    end.

  Lemma first_some_sraw ls d : first_some (ls ++ [d]) = sraw ls d.
  Proof.
    induction ls as [|[v|] ls IH]; simpl; [destruct d|..]; auto.
  Qed.

  Definition sob (r : option V) : option V :=
    match r with Some v => norm emptyV v | None => None end.

  Lemma scontents_raw s : scontents s = sob (sraw (slayers s) (sdb s)).
  Proof. unfold scontents. rewrite first_some_sraw. reflexivity. Qed.

  Lemma gdp_fst ls d : fst (get_data_ptr ls d) = sraw ls d.
  Proof.
    induction ls as [|[v|] ls IH]; simpl; auto.
    destruct (get_data_ptr ls d); exact IH.
  Qed.

  Lemma gdp_raw ls d : sraw (snd (get_data_ptr ls d)) d = sraw ls d.
  Proof.
    induction ls as [|[v|] ls IH]; simpl; auto.
    pose proof (gdp_fst ls d) as F.
    destruct (get_data_ptr ls d) as [r b]; simpl in *. subst r.
    destruct (sraw ls d); [reflexivity|exact IH].
  Qed.

  Lemma gdp_length (ls : list (option V)) d : length (snd (get_data_ptr ls d)) = length ls.
  Proof.
    induction ls as [|[v|] ls IH]; simpl; auto.
    destruct (get_data_ptr ls d) as [r b]; simpl in *. congruence.
  Qed.

  Lemma sraw_on_top ls d v : ls <> [] -> sraw (s_on_top (Some v) ls) d = Some v.
  Proof. destruct ls; [congruence|reflexivity]. Qed.

  Lemma s_flush_contents i s : scontents (s_flush emptyV i s) = scontents s.
  Proof.
    rewrite !scontents_raw. destruct s as [ls d]. unfold s_flush. simpl.
    revert i. induction ls as [|m ls IH]; intros i; simpl; [reflexivity|].
    destruct i as [|i].
    - destruct m as [v|]; simpl; [|reflexivity].
      destruct ls as [|b rest]; simpl; [|reflexivity].
      unfold norm. destruct (emptyV v) eqn:E; simpl; unfold norm; rewrite ?E; reflexivity.
    - specialize (IH i). destruct (s_flush_layers emptyV i ls d) as [b' d']; simpl in *.
      destruct m; [reflexivity|exact IH].
  Qed.

  Lemma s_flush_wf i s : swf s -> swf (s_flush emptyV i s).
  Proof.
    destruct s as [ls d]. unfold swf, s_flush. simpl.
    destruct ls as [|m ls]; [congruence|]. intros _. destruct i as [|i]; simpl.
    - destruct m; [destruct ls|]; simpl; congruence.
    - destruct (s_flush_layers emptyV i ls d); simpl; congruence.
  Qed.

  Lemma sstep_wf s lg o : swf s -> swf (fst (snd (sstep emptyV set_empty empty_value (s, lg) o))).
  Proof.
    intros W.
    assert (G : snd (get_data_ptr (slayers s) (sdb s)) <> []).
    { intros E. pose proof (gdp_length (slayers s) (sdb s)) as L. rewrite E in L.
      unfold swf in W. destruct (slayers s); [congruence|discriminate]. }
    assert (T : forall v, s_on_top (Some v) (snd (get_data_ptr (slayers s) (sdb s))) <> []).
    { intros v. destruct (snd (get_data_ptr (slayers s) (sdb s))); simpl; congruence. }
    destruct o as [| |v| |i]; simpl; unfold s_get, s_has, s_set, s_erase.
    1-4: destruct (get_data_ptr (slayers s) (sdb s)) as [r ls]; simpl in *.
    - exact G.
    - exact G.
    - apply T.
    - destruct r as [o|]; [destruct (emptyV o)|]; simpl; auto. apply T.
    - apply s_flush_wf. exact W.
  Qed.

  Lemma sstep_refines s lg o :
    swf s ->
    fst (sstep emptyV set_empty empty_value (s, lg) o) = fst (splain_step emptyV (scontents s) o) /\
    scontents (fst (snd (sstep emptyV set_empty empty_value (s, lg) o))) =
      snd (splain_step emptyV (scontents s) o).
  Proof.
    intros W. unfold swf in W.
    assert (G : snd (get_data_ptr (slayers s) (sdb s)) <> []).
    { intros E. pose proof (gdp_length (slayers s) (sdb s)) as L. rewrite E in L.
      destruct (slayers s); [congruence|discriminate]. }
    pose proof (gdp_fst (slayers s) (sdb s)) as F.
    pose proof (gdp_raw (slayers s) (sdb s)) as R.
    pose proof (fun v => @sraw_on_top (snd (get_data_ptr (slayers s) (sdb s))) (sdb s) v G) as T.
    destruct o as [| |v| |i]; simpl; unfold s_get, s_has, s_set, s_erase.
    1-4: try rewrite (scontents_raw s);
         destruct (get_data_ptr (slayers s) (sdb s)) as [r ls]; simpl in *; subst r.
    - split.
      + f_equal.
      + rewrite scontents_raw. simpl. rewrite R. reflexivity.
    - split.
      + f_equal. destruct (sraw (slayers s) (sdb s)) as [v|]; [|reflexivity].
        simpl. unfold norm. destruct (emptyV v); reflexivity.
      + rewrite scontents_raw. simpl. rewrite R. reflexivity.
    - split; [reflexivity|]. rewrite scontents_raw. simpl. rewrite T. reflexivity.
    - destruct (sraw (slayers s) (sdb s)) as [v|]; simpl.
      + destruct (emptyV v) eqn:E; simpl.
        * split; [reflexivity|]. rewrite scontents_raw. simpl. rewrite R. simpl. unfold norm.
          rewrite E. reflexivity.
        * split; [reflexivity|]. rewrite scontents_raw. simpl. rewrite T. simpl. unfold norm.
          rewrite set_empty_ok. reflexivity.
      + split; [reflexivity|]. rewrite scontents_raw. simpl. rewrite R. reflexivity.
    - split; [reflexivity|]. apply s_flush_contents.
  Qed.

  Lemma srun_refines os : forall s lg,
    swf s ->
    fst (srun emptyV set_empty empty_value (s, lg) os) = fst (splain_run emptyV (scontents s) os) /\
    scontents (fst (snd (srun emptyV set_empty empty_value (s, lg) os))) =
      snd (splain_run emptyV (scontents s) os).
  Proof.
    induction os as [|o os IH]; intros s lg W; cbn [srun splain_run]; [auto|].
    destruct (sstep_refines lg o W) as [A B]. pose proof (sstep_wf lg o W) as W'.
    destruct (sstep emptyV set_empty empty_value (s, lg) o) as [a [s1 lg1]].
    destruct (splain_step emptyV (scontents s) o) as [a' f1]. simpl in *. subst a' f1.
    destruct (IH s1 lg1 W') as [C D].
    destruct (srun emptyV set_empty empty_value (s1, lg1) os) as [l st2].
    destruct (splain_run emptyV (scontents s1) os) as [l' f2]. simpl in *.
    split; [congruence|exact D].
  Qed.

  Lemma srun_wf os : forall s lg,
    swf s -> swf (fst (snd (srun emptyV set_empty empty_value (s, lg) os))).
  Proof.
    induction os as [|o os IH]; intros s lg W; cbn [srun splain_run]; [exact W|].
    pose proof (sstep_wf lg o W) as W'.
    destruct (sstep emptyV set_empty empty_value (s, lg) o) as [a [s1 lg1]].
    simpl in W'. specialize (IH s1 lg1 W').
    destruct (srun emptyV set_empty empty_value (s1, lg1) os) as [l st2]. exact IH.
  Qed.

  (** Undoing: the oldest logged value wins. *)
  Lemma s_undo_list_contents l : forall s,
    swf s -> scontents (s_undo_list s l) =
      match l with [] => scontents s | v :: _ => norm emptyV v end.
  Proof.
    intros s W. unfold s_undo_list.
    assert (H : forall r s, swf s -> scontents (fold_left (@s_undo V) r s) =
              match rev r with [] => scontents s | v :: _ => norm emptyV v end).
    { induction r as [|v r IH]; intros s0 W0; simpl; [reflexivity|].
      rewrite IH.
      - destruct (rev r) as [|w t]; simpl; [|reflexivity].
        rewrite scontents_raw. simpl. rewrite sraw_on_top by exact W0. reflexivity.
      - unfold swf in *. destruct s0 as [[|x ls] d]; simpl in *; congruence. }
    rewrite H by exact W. rewrite rev_involutive. reflexivity.
  Qed.

  Lemma s_undo_list_wf l : forall s, swf s -> swf (s_undo_list s l).
  Proof.
    unfold s_undo_list. induction (rev l) as [|v r IH]; intros s W; simpl; [exact W|].
    apply IH. unfold swf in *. destruct s as [[|x ls] d]; simpl in *; congruence.
  Qed.

  Lemma sstep_log s l o :
    swf s ->
    exists ext,
      snd (snd (sstep emptyV set_empty empty_value (s, Some l) o)) = Some (l ++ ext) /\
      match ext with
      | [] => scontents (fst (snd (sstep emptyV set_empty empty_value (s, Some l) o))) = scontents s
      | v :: _ => norm emptyV v = scontents s
      end.
  Proof.
    intros W. destruct (sstep_refines (Some l) o W) as [_ R].
    pose proof (gdp_fst (slayers s) (sdb s)) as F.
    destruct o as [| |v| |i].
    - exists []. rewrite app_nil_r. split; [|exact R]. simpl. unfold s_get.
      destruct (get_data_ptr (slayers s) (sdb s)); reflexivity.
    - exists []. rewrite app_nil_r. split; [|exact R]. simpl. unfold s_has.
      destruct (get_data_ptr (slayers s) (sdb s)); reflexivity.
    - exists [match sraw (slayers s) (sdb s) with Some o => o | None => empty_value end].
      split.
      + simpl. unfold s_set. destruct (get_data_ptr (slayers s) (sdb s)) as [r ls].
        simpl in *. subst r. reflexivity.
      + rewrite scontents_raw. destruct (sraw (slayers s) (sdb s)); simpl; [reflexivity|].
        unfold norm. rewrite empty_value_ok. reflexivity.
    - destruct (sraw (slayers s) (sdb s)) as [o|] eqn:E; [destruct (emptyV o) eqn:EV|].
      + exists []. rewrite app_nil_r. split.
        * simpl. unfold s_erase. destruct (get_data_ptr (slayers s) (sdb s)) as [r ls].
          simpl in *. subst r. rewrite EV. reflexivity.
        * rewrite R. simpl. rewrite scontents_raw, E. simpl. unfold norm. rewrite EV. reflexivity.
      + exists [o]. split.
        * simpl. unfold s_erase. destruct (get_data_ptr (slayers s) (sdb s)) as [r ls].
          simpl in *. subst r. rewrite EV. reflexivity.
        * rewrite scontents_raw, E. reflexivity.
      + exists []. rewrite app_nil_r. split.
        * simpl. unfold s_erase. destruct (get_data_ptr (slayers s) (sdb s)) as [r ls].
          simpl in *. subst r. reflexivity.
        * rewrite R. simpl. rewrite scontents_raw, E. reflexivity.
    - exists []. rewrite app_nil_r. split; [reflexivity|exact R].
  Qed.

  Lemma srun_log os : forall s l,
    swf s ->
    exists ext,
      snd (snd (srun emptyV set_empty empty_value (s, Some l) os)) = Some (l ++ ext) /\
      match ext with
      | [] => scontents (fst (snd (srun emptyV set_empty empty_value (s, Some l) os))) = scontents s
      | v :: _ => norm emptyV v = scontents s
      end.
  Proof.
    induction os as [|o os IH]; intros s l W.
    - exists []. rewrite app_nil_r. split; reflexivity.
    - cbn [srun]. destruct (sstep_log l o W) as (e1 & L1 & U1).
      assert (W1 : swf (fst (snd (sstep emptyV set_empty empty_value (s, Some l) o))))
        by exact (sstep_wf (Some l) o W).
      destruct (sstep emptyV set_empty empty_value (s, Some l) o) as [a [s1 lg1]].
      simpl in *. subst lg1.
      destruct (IH s1 (l ++ e1) W1) as (e2 & L2 & U2).
      destruct (srun emptyV set_empty empty_value (s1, Some (l ++ e1)) os) as [lr [s2 lg2]].
      simpl in *. subst lg2. exists (e1 ++ e2). rewrite app_assoc. split; [reflexivity|].
      destruct e1 as [|v1 e1]; simpl; [|exact U1].
      destruct e2; congruence.
  Qed.

  Lemma srun_undo os s s2 l :
    swf s -> swf s2 ->
    snd (snd (srun emptyV set_empty empty_value (s, Some []) os)) = Some l ->
    scontents s2 = scontents (fst (snd (srun emptyV set_empty empty_value (s, Some []) os))) ->
    scontents (s_undo_list s2 l) = scontents s.
  Proof.
    intros W W2 HL HC. destruct (srun_log os [] W) as (e & L & U).
    rewrite L in HL. simpl in HL. inversion HL; subst e. clear HL.
    rewrite s_undo_list_contents by exact W2. destruct l; congruence.
  Qed.

  (** The assertion at dbaccess.h:750: what is read from the database is never empty. *)
  Lemma simple_db_nonempty os : forall s lg,
    (forall v, sdb s = Some v -> emptyV v = false) ->
    forall v, sdb (fst (snd (srun emptyV set_empty empty_value (s, lg) os))) = Some v ->
    emptyV v = false.
  Proof.
    induction os as [|o os IH]; intros s lg H; cbn [srun]; [exact H|].
    assert (H' : forall v, sdb (fst (snd (sstep emptyV set_empty empty_value (s, lg) o))) = Some v ->
                 emptyV v = false).
    { destruct o as [| |v| |i]; simpl; unfold s_get, s_has, s_set, s_erase.
      1-4: destruct (get_data_ptr (slayers s) (sdb s)) as [r ls]; simpl; try exact H.
      - destruct r as [o|]; [destruct (emptyV o)|]; exact H.
      - destruct s as [ls d]. unfold s_flush. simpl in *. revert i.
        induction ls as [|m ls IHl]; intros i; simpl; [exact H|].
        destruct i as [|i].
        + destruct m as [w|]; [|exact H]. destruct ls; [|exact H]. simpl. intros v.
          destruct (emptyV w) eqn:E; intros X; [discriminate|congruence].
        + specialize (IHl i). destruct (s_flush_layers emptyV i ls d). exact IHl. }
    destruct (sstep emptyV set_empty empty_value (s, lg) o) as [a [s1 lg1]]. simpl in H'.
    specialize (IH s1 lg1 H').
    destruct (srun emptyV set_empty empty_value (s1, lg1) os) as [l st2]. exact IH.
  Qed.
End SimpleP.
