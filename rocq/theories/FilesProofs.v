(** Proofs about the files of blocks and undo data. *)
From Coq Require Import List Bool NArith Lia FinFun.
From Coq Require Import ZifyBool ZifyNat ZifyN.
From Verif Require Import FilesModel FilesSpec.
Import ListNotations.
Open Scope N_scope.

Lemma kind_eqb_spec a b : reflect (a = b) (kind_eqb a b).
Proof. destruct a, b; constructor; congruence. Qed.

Definition sz (k : kind) (i : finfo) : N := match k with Blk => f_size i | Rev => f_undo i end.
Definition at_disk (d : disk) (k : kind) (f : N) : N := sz k (info_or_null (d_info d) f).
Arguments at_disk : simpl never.

(** ** Single steps *)

(** A step that leaves what is below the limits [lim], with information between [lim] and [top]. *)
Definition safe (lim top : kind -> N -> N) (s : step) : Prop :=
  match s with
  | Truncate k f len => lim k f <= len
  | Allocate _ _ _ => True
  | Info f i => forall k, lim k f <= sz k i <= top k f
  | Byte k f pos _ => lim k f <= pos
  end.
Definition same_below (lim : kind -> N -> N) (d d' : disk) : Prop :=
  forall k f i x, i < lim k f -> d_file d k f i = Some x -> d_file d' k f i = Some x.
Definition between (lim top : kind -> N -> N) (d : disk) : Prop :=
  forall k f, lim k f <= at_disk d k f <= top k f.

Lemma set_file_at d k f c k' f' :
  d_file (set_file d k f c) k' f' = if kind_eqb k' k && (f' =? f) then c else d_file d k' f'.
Proof. reflexivity. Qed.
Lemma safe_step lim top d s : safe lim top s -> between lim top d ->
  same_below lim d (make d s) /\ between lim top (make d s).
Proof.
  intros S B. destruct s as [k f len|k f len|f i|k f pos x]; cbn [make safe] in *.
  - split; [|exact B]. intros k' f' j y Hj Hy. rewrite set_file_at.
    destruct (kind_eqb_spec k' k) as [->|]; [|exact Hy].
    destruct (N.eqb_spec f' f) as [->|]; [|exact Hy]. cbn.
    replace (j <? len) with true by lia. now rewrite Hy.
  - split; [|exact B]. intros k' f' j y Hj Hy. rewrite set_file_at.
    destruct (kind_eqb_spec k' k) as [->|]; [|exact Hy].
    destruct (N.eqb_spec f' f) as [->|]; [|exact Hy]. cbn. now rewrite Hy.
  - split; [intros k' f' j y _ Hy; exact Hy|]. intros k' f'.
    unfold at_disk, info_or_null. cbn. destruct (N.eqb_spec f' f) as [->|]; [apply S|apply B].
  - split; [|exact B]. intros k' f' j y Hj Hy. rewrite set_file_at.
    destruct (kind_eqb_spec k' k) as [->|]; [|exact Hy].
    destruct (N.eqb_spec f' f) as [->|]; [|exact Hy]. cbn.
    replace (j =? pos) with false by lia. now rewrite Hy.
Qed.
Lemma safe_steps lim top l : forall d, Forall (safe lim top) l -> between lim top d ->
  same_below lim d (make_all d l) /\ between lim top (make_all d l).
Proof.
  induction l as [|s l IH]; intros d S B; [now split|]. inversion S; subst.
  destruct (safe_step lim top d s) as (E & B'); [assumption..|].
  destruct (IH (make d s)) as (E' & B''); [assumption..|]. split; [|exact B''].
  intros k f i x Hi Hx. apply E'; [exact Hi|]. now apply E.
Qed.
Lemma make_all_app d a b : make_all d (a ++ b) = make_all (make_all d a) b.
Proof. apply fold_left_app. Qed.

Lemma bytes_safe lim top k f b : forall pos, lim k f <= pos -> Forall (safe lim top) (bytes_at k f pos b).
Proof.
  induction b as [|x b IH]; intros pos H; constructor; [exact H|]. apply IH. lia.
Qed.
Lemma bytes_info d k f b : forall pos, d_info (make_all d (bytes_at k f pos b)) = d_info d.
Proof. revert d. induction b as [|x b IH]; intros d pos; [reflexivity|].
  exact (IH (make d (Byte k f pos x)) (pos + 1)).
Qed.
Lemma bytes_before k f b : forall pos d j, j < pos ->
  forall x, d_file d k f j = Some x -> d_file (make_all d (bytes_at k f pos b)) k f j = Some x.
Proof.
  induction b as [|y b IH]; intros pos d j Hj x Hx; [exact Hx|]. cbn [bytes_at].
  change (make_all d (Byte k f pos y :: bytes_at k f (pos + 1) b))
    with (make_all (make d (Byte k f pos y)) (bytes_at k f (pos + 1) b)).
  apply IH; [lia|]. cbn [make]. rewrite set_file_at.
  destruct (kind_eqb_spec k k); [|congruence]. rewrite N.eqb_refl. cbn.
  replace (j =? pos) with false by lia. now rewrite Hx.
Qed.
Lemma bytes_read k f b : forall pos d, reads (d_file (make_all d (bytes_at k f pos b)) k f) pos b.
Proof.
  induction b as [|y b IH]; intros pos d i x Hi; [destruct i; discriminate|]. cbn [bytes_at].
  change (make_all d (Byte k f pos y :: bytes_at k f (pos + 1) b))
    with (make_all (make d (Byte k f pos y)) (bytes_at k f (pos + 1) b)).
  destruct i as [|i].
  - cbn in Hi. inversion Hi; subst. rewrite N.add_0_r. apply bytes_before; [lia|].
    cbn [make]. rewrite set_file_at. destruct (kind_eqb_spec k k); [|congruence]. rewrite N.eqb_refl.
    cbn. now rewrite N.eqb_refl.
  - cbn in Hi. specialize (IH (pos + 1) (make d (Byte k f pos y)) i x Hi).
    replace (pos + N.of_nat (S i)) with (pos + 1 + N.of_nat i) by lia. exact IH.
Qed.
Lemma reads_tail c pos a b : reads c pos (a ++ b) -> reads c (pos + N.of_nat (length a)) b.
Proof.
  intros H i x Hi. rewrite <- N.add_assoc, <- Nat2N.inj_add. apply H.
  rewrite nth_error_app2 by lia. replace (length a + i - length a)%nat with i by lia. exact Hi.
Qed.
Lemma reads_same lim d d' k f pos b : same_below lim d d' -> pos + N.of_nat (length b) <= lim k f ->
  reads (d_file d k f) pos b -> reads (d_file d' k f) pos b.
Proof.
  intros S L R i x Hi. assert (i < length b)%nat by (apply nth_error_Some; congruence).
  apply S; [lia|]. now apply R.
Qed.

(** ** Plans *)

Section Plans.
  Variable magic : list N.
  Hypothesis magic_length : length magic = 4%nat.
  Notation header := (header magic).
  Notation write_block := (write_block magic).
  Notation write_undo := (write_undo magic).

  Lemma header_length n : length (header n) = 8%nat.
  Proof. unfold header. rewrite app_length, magic_length. reflexivity. Qed.

  (** What holds of the information in memory and on disk. *)
  Definition ahead (d : disk) (m : memory) : Prop :=
    forall k, at_disk d k (m_last m) <= sz k (m_info m).
  Definition capped (top : kind -> N -> N) (d : disk) (m : memory) : Prop :=
    (forall k f, at_disk d k f <= top k f) /\ forall k, sz k (m_info m) <= top k (m_last m).

  Definition plan_ok (top : kind -> N -> N) (d : disk) (p : plan) : Prop :=
    Forall (safe (at_disk d) top) (p_steps p) /\
    ahead (make_all d (p_steps p)) (p_memory p) /\
    (forall k, sz k (m_info (p_memory p)) <= top k (m_last (p_memory p))) /\
    match p_result p with
    | Placed k f pos b => reads (d_file (make_all d (p_steps p)) k f) pos b /\
        pos + N.of_nat (length b) <= at_disk (make_all d (p_steps p)) k f /\
        8 <= at_disk (make_all d (p_steps p)) k f
    | _ => True
    end.

  Lemma leave_ok top d add : forall t m u s m' u',
    ahead d m -> capped top d m -> (forall f, top Blk f + add < 4294967296) ->
    leave t (d_info d) m add u = Some (s, m', u') ->
    Forall (safe (at_disk d) top) s /\ d_info (make_all d s) = d_info d /\ ahead d m' /\
    capped top d m' /\ f_size (m_info m') + add < max_file.
  Proof.
    induction t as [|t IH]; intros m u s m' u' A C T E; [discriminate|]. cbn [leave] in E.
    destruct (N.ltb_spec (w32 (f_size (m_info m) + add)) max_file) as [L|L].
    - inversion E; subst. split; [constructor|]. split; [reflexivity|]. split; [exact A|].
      split; [exact C|]. destruct C as (_ & C). specialize (C Blk). cbn in C.
      specialize (T (m_last m')). unfold w32 in L. rewrite N.mod_small in L by lia. exact L.
    - destruct (leave t (d_info d) {| m_last := m_last m + 1;
        m_info := info_or_null (d_info d) (m_last m + 1); m_cached := m_cached m |} add true)
        as [((s1, m1), u1)|] eqn:E1; [|discriminate]. inversion E; subst.
      assert (A2 : ahead d {| m_last := m_last m + 1; m_info := info_or_null (d_info d) (m_last m + 1);
        m_cached := m_cached m |}) by (intros k; apply N.le_refl).
      assert (C2 : capped top d {| m_last := m_last m + 1; m_info := info_or_null (d_info d) (m_last m + 1);
        m_cached := m_cached m |}) by (split; [apply C|]; intros k; apply C).
      destruct (IH _ _ _ _ _ A2 C2 T E1) as (S1 & I1 & R1).
      split; [|split; [|exact R1]].
      + constructor; [exact (A Blk)|]. constructor; [exact (A Rev)|exact S1].
      + change (make_all d (Truncate Blk (m_last m) (f_size (m_info m)) ::
          Truncate Rev (m_last m) (f_undo (m_info m)) :: s1))
          with (make_all (make (make d (Truncate Blk (m_last m) (f_size (m_info m))))
            (Truncate Rev (m_last m) (f_undo (m_info m)))) s1).
        clear -I1. revert I1.
        assert (Q : forall s a b, d_info a = d_info b -> d_info (make_all a s) = d_info (make_all b s)).
        { induction s as [|x s IH]; intros a b H; [exact H|]. apply IH. destruct x; cbn; congruence. }
        intros I1. rewrite <- I1. apply Q. reflexivity.
  Qed.

  Lemma at_info d f i k g : at_disk (make d (Info f i)) k g = if g =? f then sz k i else at_disk d k g.
  Proof. unfold at_disk, info_or_null. cbn. destruct (g =? f); reflexivity. Qed.
  Lemma at_same d d' : d_info d = d_info d' -> forall k f, at_disk d k f = at_disk d' k f.
  Proof. unfold at_disk. now intros ->. Qed.

  (** Writing an entry after its information: used for both kinds of files. *)
  Lemma entry_ok top d k f i pos n b alloc :
    (forall j, at_disk d j f <= sz j i <= top j f) -> at_disk d k f <= pos ->
    sz k i = pos + 8 + N.of_nat (length b) ->
    let l := Info f i :: alloc ++ bytes_at k f pos (header n ++ b) in
    (alloc = [] \/ exists len, alloc = [Allocate k f len]) ->
    Forall (safe (at_disk d) top) l /\ (forall j g, at_disk (make_all d l) j g = at_disk (make d (Info f i)) j g) /\
    reads (d_file (make_all d l) k f) (pos + 8) b.
  Proof.
    intros Hi Hp Hs l Ha. split; [|split].
    - unfold l. constructor; [exact Hi|]. apply Forall_app. split; [|now apply bytes_safe].
      destruct Ha as [->|(len & ->)]; repeat constructor.
    - intros j g. apply at_same. unfold l.
      change (make_all d (Info f i :: alloc ++ bytes_at k f pos (header n ++ b)))
        with (make_all (make d (Info f i)) (alloc ++ bytes_at k f pos (header n ++ b))).
      rewrite make_all_app, bytes_info. destruct Ha as [->|(len & ->)]; reflexivity.
    - unfold l.
      change (make_all d (Info f i :: alloc ++ bytes_at k f pos (header n ++ b)))
        with (make_all (make d (Info f i)) (alloc ++ bytes_at k f pos (header n ++ b))).
      rewrite make_all_app.
      replace (pos + 8) with (pos + N.of_nat (length (header n))) by (rewrite header_length; lia).
      apply reads_tail, bytes_read.
  Qed.

  (** The same with a preceding list of steps that leave the information. *)
  Lemma block_ok top d m b space : ahead d m -> capped top d m ->
    (forall f, max_file <= top Blk f /\ top Blk f + 4000008 < 4294967296) ->
    N.of_nat (length b) <= 4000000 -> plan_ok top d (write_block d m b space).
  Proof.
    intros A C T L. unfold write_block.
    assert (W : w32 (N.of_nat (length b) + 8) = N.of_nat (length b) + 8) by (apply N.mod_small; lia).
    rewrite W. set (add := N.of_nat (length b) + 8).
    destruct (leave (S (S (length (d_info d)))) (d_info d) m add false) as [((s, m1), u)|] eqn:E.
    2: { split; [constructor|]. split; [exact A|]. split; [apply C|exact I]. }
    assert (T2 : forall f, top Blk f + add < 4294967296) by (intros f; specialize (T f); unfold add; lia).
    destruct (leave_ok top d add _ _ _ _ _ _ A C T2 E) as (S1 & I1 & A1 & C1 & F1).
    assert (W1 : w32 (f_size (m_info m1) + add) = f_size (m_info m1) + add).
    { apply N.mod_small. unfold max_file in F1. lia. }
    rewrite W1.
    assert (W2 : w32 (f_size (m_info m1) + 8) = f_size (m_info m1) + 8).
    { apply N.mod_small. unfold max_file in F1. unfold add in F1. lia. }
    rewrite W2.
    set (i := {| f_size := f_size (m_info m1) + add; f_undo := f_undo (m_info m1) |}).
    assert (P : forall j, at_disk d j (m_last m1) <= sz j i <= top j (m_last m1)).
    { intros j. pose proof (A1 j) as Aj. destruct C1 as (_ & C1). specialize (C1 j). specialize (T (m_last m1)).
      destruct j; cbn in *; [|lia]. unfold add in *. lia. }
    set (d1 := make_all d s).
    assert (D1 : forall k f, at_disk d1 k f = at_disk d k f) by (apply at_same; exact I1).
    assert (fin : forall alloc cached,
      (alloc = [] \/ exists len, alloc = [Allocate Blk (m_last m1) len]) ->
      plan_ok top d {| p_steps := s ++ Info (m_last m1) i :: alloc ++
          bytes_at Blk (m_last m1) (f_size (m_info m1)) (header (N.of_nat (length b)) ++ b);
        p_memory := {| m_last := m_last m1; m_info := i; m_cached := cached |};
        p_result := Placed Blk (m_last m1) (f_size (m_info m1) + 8) b |}).
    { intros alloc cached Ha.
      assert (E1 := entry_ok top d1 Blk (m_last m1) i (f_size (m_info m1)) (N.of_nat (length b)) b alloc).
      destruct E1 as (Q1 & Q2 & Q3); [intros j; rewrite D1; apply P| | |exact Ha|].
      { rewrite D1. exact (A1 Blk). }
      { unfold i, add. cbn. lia. }
      split; [|split; [|split]]; cbn [p_steps p_memory p_result].
      - apply Forall_app. split; [exact S1|]. eapply Forall_impl; [|exact Q1].
        intros x Hx. destruct x; cbn in *; rewrite <- ?D1; try exact Hx.
        intros j. rewrite <- D1. apply Hx.
      - rewrite make_all_app. intros j. rewrite Q2, at_info. cbn. rewrite N.eqb_refl. lia.
      - intros j. apply P.
      - rewrite make_all_app. split; [exact Q3|]. rewrite Q2, at_info, N.eqb_refl. unfold i, add. cbn. lia. }
    destruct (preallocate blk_chunk (f_size (m_info m1)) (f_size (m_info m1) + add) space) as [|len|].
    - apply (fin []). now left.
    - (* the allocation comes before the information *)
      assert (fin' := fin [] (if u then Some (m_last m1) else m_cached m1) (or_introl eq_refl)).
      destruct fin' as (G1 & G2 & G3 & G4). cbn [p_steps p_memory p_result app] in *.
      assert (R : forall x, make_all d (s ++ Allocate Blk (m_last m1) len :: x) =
        make_all (make d1 (Allocate Blk (m_last m1) len)) x) by (intros x; now rewrite make_all_app).
      set (d2 := make d1 (Allocate Blk (m_last m1) len)) in *.
      assert (D2 : forall k f, at_disk d2 k f = at_disk d k f) by (intros k f; rewrite <- D1; reflexivity).
      assert (E1 := entry_ok top d2 Blk (m_last m1) i (f_size (m_info m1)) (N.of_nat (length b)) b []).
      destruct E1 as (Q1 & Q2 & Q3); [intros j; rewrite D2; apply P| | |now left|].
      { rewrite D2. exact (A1 Blk). }
      { unfold i, add. cbn. lia. }
      cbn [app] in Q1, Q2, Q3.
      split; [|split; [|split]]; cbn [p_steps p_memory p_result].
      + apply Forall_app. apply Forall_app in G1. destruct G1 as (G1 & G1').
        split; [exact G1|]. constructor; [exact I|exact G1'].
      + rewrite R. intros j. rewrite Q2, at_info. cbn. rewrite N.eqb_refl. lia.
      + exact G3.
      + rewrite R. split; [exact Q3|]. rewrite Q2, at_info, N.eqb_refl. unfold i, add. cbn. lia.
    - split; [exact S1|]. split; [|split; [|exact I]]; cbn [p_steps p_memory p_result].
      + intros j. fold d1. rewrite D1. apply P.
      + intros j. apply P.
  Qed.

  Lemma note_ok top d m f p b : ahead d m -> capped top d m ->
    (forall k, sz k (if m_last m =? f then m_info m else info_or_null (d_info d) f) +
       match k with Blk => N.of_nat (length b) + 8 | Rev => 0 end <= top k f) ->
    top Blk f < 4294967296 -> N.of_nat (length b) <= 4000000 ->
    reads (d_file d Blk f) p b -> p <= at_disk d Blk f + 8 -> plan_ok top d (note_block d m f p b).
  Proof.
    intros A C T T' L R G. unfold note_block.
    assert (W : w32 (N.of_nat (length b) + 8) = N.of_nat (length b) + 8) by (apply N.mod_small; lia).
    rewrite W. set (i0 := if m_last m =? f then m_info m else info_or_null (d_info d) f) in *.
    assert (Ai : forall k, at_disk d k f <= sz k i0).
    { intros k. unfold i0. destruct (N.eqb_spec (m_last m) f) as [<-|]; [apply A|apply N.le_refl]. }
    pose proof (T Blk) as TB. pose proof (T Rev) as TR. cbn in TB, TR.
    assert (W1 : w32 (f_size i0 + (N.of_nat (length b) + 8)) = f_size i0 + (N.of_nat (length b) + 8)).
    { apply N.mod_small. lia. }
    rewrite W1. pose proof (Ai Blk) as AB. pose proof (Ai Rev) as AR. cbn [sz] in AB, AR.
    split; [|split; [|split]]; cbn [p_steps p_memory p_result].
    - constructor; [|constructor]. intros k. destruct k; cbn [sz f_size f_undo]; lia.
    - intros k. cbn [make_all fold_left]. rewrite at_info. cbn. rewrite N.eqb_refl. lia.
    - intros k. destruct k; cbn; lia.
    - split; [exact R|]. cbn [make_all fold_left]. rewrite at_info, N.eqb_refl. cbn [sz f_size]. lia.
  Qed.

  Lemma undo_ok top d m f u c space : ahead d m -> capped top d m ->
    (at_disk d Rev f + (N.of_nat (length u) + 40) <= top Rev f) ->
    (f = m_last m -> sz Rev (m_info m) + (N.of_nat (length u) + 40) <= top Rev f) ->
    top Rev f < 4294967296 -> length c = 32%nat -> plan_ok top d (write_undo d m f u c space).
  Proof.
    intros A C T Tm T' Lc. unfold write_undo.
    assert (W : w32 (N.of_nat (length u) + 40) = N.of_nat (length u) + 40) by (apply N.mod_small; lia).
    rewrite W. clear W.
    destruct (if f =? m_last m then Some (m_info m) else info_of (d_info d) f) as [i0|] eqn:E.
    2: { split; [constructor|]. split; [exact A|]. split; [apply C|exact I]. }
    assert (H0 : (forall k, at_disk d k f <= sz k i0 <= top k f) /\
                 f_undo i0 + (N.of_nat (length u) + 40) <= top Rev f).
    { destruct (N.eqb_spec f (m_last m)) as [->|N].
      - inversion E; subst i0. split; [|now apply Tm]. intros k. split; [apply A|apply C].
      - assert (Q : forall k, at_disk d k f = sz k i0) by (intros k; unfold at_disk, info_or_null; now rewrite E).
        split; [|now rewrite Q in T]. intros k. rewrite Q. split; [lia|]. rewrite <- Q. apply C. }
    destruct H0 as (H0 & H1).
    assert (W1 : w32 (f_undo i0 + (N.of_nat (length u) + 40)) = f_undo i0 + (N.of_nat (length u) + 40)).
    { apply N.mod_small. lia. }
    rewrite W1.
    assert (W2 : w32 (f_undo i0 + 8) = f_undo i0 + 8) by (apply N.mod_small; lia). rewrite W2.
    set (i := {| f_size := f_size i0; f_undo := f_undo i0 + (N.of_nat (length u) + 40) |}).
    assert (P : forall j, at_disk d j f <= sz j i <= top j f).
    { intros j. specialize (H0 j). destruct j; cbn [sz f_size f_undo i] in *; lia. }
    set (m2 := if f =? m_last m then {| m_last := m_last m; m_info := i; m_cached := m_cached m |} else m).
    assert (M2 : forall x, (forall k g, at_disk x k g = at_disk (make d (Info f i)) k g) -> ahead x m2).
    { intros x Hx k. rewrite Hx, at_info. unfold m2. destruct (N.eqb_spec f (m_last m)) as [->|N]; cbn.
      - rewrite N.eqb_refl. lia.
      - destruct (N.eqb_spec (m_last m) f); [congruence|apply A]. }
    assert (M3 : forall k, sz k (m_info m2) <= top k (m_last m2)).
    { intros k. unfold m2. destruct (N.eqb_spec f (m_last m)) as [->|N]; cbn; [apply P|apply C]. }
    assert (fin : forall alloc, (alloc = [] \/ exists len, alloc = [Allocate Rev f len]) ->
      plan_ok top d {| p_steps := Info f i :: alloc ++
          bytes_at Rev f (f_undo i0) (header (N.of_nat (length u)) ++ u ++ c);
        p_memory := m2; p_result := Placed Rev f (f_undo i0 + 8) (u ++ c) |}).
    { intros alloc Ha.
      destruct (entry_ok top d Rev f i (f_undo i0) (N.of_nat (length u)) (u ++ c) alloc) as (Q1 & Q2 & Q3).
      - exact P.
      - apply (H0 Rev).
      - unfold i. cbn. rewrite app_length, Lc. lia.
      - exact Ha.
      - split; [exact Q1|]. split; [now apply M2|]. split; [exact M3|]. cbn [p_result p_steps].
        split; [exact Q3|]. rewrite Q2, at_info, N.eqb_refl. unfold i. cbn. rewrite app_length, Lc. lia. }
    destruct (preallocate rev_chunk (f_undo i0) (f_undo i0 + (N.of_nat (length u) + 40)) space) as [|len|].
    - apply (fin []). now left.
    - apply (fin [Allocate Rev f len]). right. now exists len.
    - split; [constructor; [exact P|constructor]|]. split; [|split; [exact M3|exact I]].
      cbn [p_steps p_memory make_all fold_left]. now apply M2.
  Qed.

  (** ** Histories *)

  Definition tops (uu nn : N -> N) (k : kind) (f : N) : N :=
    match k with Blk => max_file + nn f | Rev => uu f end.
  Definition inv (uu nn : N -> N) (n : node) : Prop :=
    ahead (n_disk n) (n_memory n) /\ capped (tops uu nn) (n_disk n) (n_memory n) /\
    forall k f pos b, In (k, f, pos, b) (n_placed n) ->
      reads (d_file (n_disk n) k f) pos b /\ pos + N.of_nat (length b) <= at_disk (n_disk n) k f /\
      8 <= at_disk (n_disk n) k f.

  Lemma end_of_le uu nn n f : inv uu nn n -> end_of (n_placed n) f <= at_disk (n_disk n) Blk f.
  Proof.
    intros (_ & _ & P). induction (n_placed n) as [|(((k, g), pos), b) l IH]; [apply N.le_0_l|].
    cbn [end_of]. assert (Q : end_of l f <= at_disk (n_disk n) Blk f) by (apply IH; intros; apply P; now right).
    destruct (kind_eqb_spec k Blk) as [->|]; [|exact Q]. destruct (N.eqb_spec g f) as [->|]; [|exact Q].
    cbn. destruct (P Blk f pos b) as (_ & E & _); [now left|]. lia.
  Qed.

  Definition undo_of (e : event) (f : N) : N :=
    match deed_of e with
    | Some (WriteUndo g u c _) => if g =? f then N.of_nat (length u) + 40 else 0
    | _ => 0
    end.
  Definition noted_of (e : event) (f : N) : N :=
    match deed_of e with
    | Some (NoteBlock g _ b) => if g =? f then N.of_nat (length b) + 8 else 0
    | _ => 0
    end.

  Lemma capped_mono t t' d m : (forall k f, t k f <= t' k f) -> capped t d m -> capped t' d m.
  Proof.
    intros L (A & B). split.
    - intros k f. specialize (A k f). specialize (L k f). lia.
    - intros k. specialize (B k). specialize (L k (m_last m)). lia.
  Qed.

  Definition found (n : node) (x : deed) : Prop :=
    match x with NoteBlock f p b => p <= end_of (n_placed n) f + 8 | _ => True end.

  Lemma deed_plan uu nn n x e : inv uu nn n -> deed_ok n x -> found n x -> deed_of e = Some x ->
    (forall f, uu f + undo_of e f < 4294967296 /\ nn f + noted_of e f < 2147483648) ->
    plan_ok (tops (fun f => uu f + undo_of e f) (fun f => nn f + noted_of e f)) (n_disk n)
      (plan_of magic (n_disk n) (n_memory n) x).
  Proof.
    intros I K F De B. pose proof I as (A & C & P).
    set (top' := tops (fun f => uu f + undo_of e f) (fun f => nn f + noted_of e f)).
    assert (M : forall k f, tops uu nn k f <= top' k f) by (intros [|] f; unfold top'; cbn [tops]; lia).
    assert (C' := capped_mono _ _ _ _ M C).
    destruct x as [b space|f p b|f u c space]; cbn [plan_of].
    - apply block_ok; [exact A|exact C'| |exact K]. intros f. specialize (B f). unfold top'. cbn [tops].
      unfold max_file. lia.
    - destruct K as (K & R). pose proof (end_of_le uu nn n f I) as EL. cbn in F.
      assert (Nf : noted_of e f = N.of_nat (length b) + 8) by (unfold noted_of; now rewrite De, N.eqb_refl).
      apply note_ok; [exact A|exact C'| | |exact K|exact R|lia].
      + intros k.
        assert (H : sz k (if m_last (n_memory n) =? f then m_info (n_memory n)
                          else info_or_null (d_info (n_disk n)) f) <= tops uu nn k f).
        { destruct (N.eqb_spec (m_last (n_memory n)) f) as [<-|]; apply C. }
        unfold top'. destruct k; cbn [tops] in *; lia.
      + specialize (B f). unfold top'. cbn [tops]. unfold max_file. lia.
    - assert (Uf : undo_of e f = N.of_nat (length u) + 40) by (unfold undo_of; now rewrite De, N.eqb_refl).
      apply undo_ok; [exact A|exact C'| | | |exact K].
      + destruct C as (C & _). specialize (C Rev f). unfold top'. cbn [tops] in *. lia.
      + intros ->. destruct C as (_ & C). specialize (C Rev). unfold top'. cbn [tops] in *. lia.
      + specialize (B f). unfold top'. cbn [tops]. lia.
  Qed.

  Lemma kept_below top d d' : (forall k f, at_disk d k f <= top k f) ->
    forall l, Forall (safe (at_disk d) top) l -> d' = make_all d l ->
    same_below (at_disk d) d d' /\ between (at_disk d) top d'.
  Proof. intros H l S ->. apply safe_steps; [exact S|]. intros k f. split; [lia|apply H]. Qed.

  Lemma placed_kept uu nn n d' top : inv uu nn n -> same_below (at_disk (n_disk n)) (n_disk n) d' ->
    between (at_disk (n_disk n)) top d' ->
    forall k f pos b, In (k, f, pos, b) (n_placed n) ->
      reads (d_file d' k f) pos b /\ pos + N.of_nat (length b) <= at_disk d' k f /\ 8 <= at_disk d' k f.
  Proof.
    intros (_ & _ & P) S B k f pos b H. destruct (P k f pos b H) as (R & E & G). specialize (B k f).
    split; [|lia]. eapply reads_same; [exact S|exact E|exact R].
  Qed.

  Lemma inv_mono uu nn uu' nn' n : (forall f, uu f <= uu' f /\ nn f <= nn' f) -> inv uu nn n -> inv uu' nn' n.
  Proof.
    intros L (A & C & P). split; [exact A|]. split; [|exact P]. eapply capped_mono; [|exact C].
    intros [|] f; cbn [tops]; specialize (L f); lia.
  Qed.

  Lemma inv_step uu nn n e : inv uu nn n ->
    match deed_of e with Some x => deed_ok n x /\ found n x | None => True end ->
    (forall f, uu f + undo_of e f < 4294967296 /\ nn f + noted_of e f < 2147483648) ->
    inv (fun f => uu f + undo_of e f) (fun f => nn f + noted_of e f) (happens magic n e).
  Proof.
    intros I K B. pose proof I as (A & C & P).
    set (top' := tops (fun f => uu f + undo_of e f) (fun f => nn f + noted_of e f)).
    assert (M : forall k f, tops uu nn k f <= top' k f) by (intros [|] f; unfold top'; cbn [tops]; lia).
    assert (C' := capped_mono _ _ _ _ M C).
    destruct e as [x| |x j]; cbn [deed_of] in K.
    - destruct K as (K & F). destruct (deed_plan uu nn n x (Does x) I K F eq_refl B) as (S & A' & T & R).
      fold top' in S, T. cbn [happens].
      destruct (kept_below top' (n_disk n) _ (proj1 C') _ S eq_refl) as (Q1 & Q2).
      split; [exact A'|]. split; [split; [intros k f; apply Q2|exact T]|].
      cbn [n_disk n_placed]. intros k f pos b H.
      pose proof (placed_kept uu nn n _ _ I Q1 Q2 k f pos b) as Old.
      destruct (p_result (plan_of magic (n_disk n) (n_memory n) x)) as [k0 f0 pos0 b0| |]; [|now apply Old..].
      destruct H as [H|H]; [|now apply Old]. inversion H; subst. exact R.
    - cbn [happens]. eapply inv_mono; [|split; [exact A|split; [exact C|exact P]]]. intros f. lia.
    - destruct K as (K & F). destruct (deed_plan uu nn n x (Dies x j) I K F eq_refl B) as (S & _).
      fold top' in S. cbn [happens].
      assert (S' : Forall (safe (at_disk (n_disk n)) top')
        (firstn j (p_steps (plan_of magic (n_disk n) (n_memory n) x)))).
      { rewrite <- (firstn_skipn j) in S. apply Forall_app in S. apply S. }
      destruct (kept_below top' (n_disk n) _ (proj1 C') _ S' eq_refl) as (Q1 & Q2).
      split; [intros k; apply N.le_refl|]. split; [split; [intros k f; apply Q2|intros k; apply Q2]|].
      cbn [n_disk n_placed]. now apply (placed_kept uu nn n _ _ I Q1 Q2).
  Qed.

  Lemma inv_run : forall l uu nn n, inv uu nn n -> history_ok magic n l -> gapless magic n l ->
    (forall f, uu f + undo_total l f < 4294967296 /\ nn f + noted_total l f < 2147483648) ->
    exists uu' nn', inv uu' nn' (run magic n l).
  Proof.
    induction l as [|e l IH]; intros uu nn n I H G B; [now exists uu, nn|].
    destruct H as (H & H'), G as (G & G').
    apply (IH _ _ _ (inv_step uu nn n e I ltac:(clear IH; destruct e as [x| |x j]; cbn in *;
      [split; [exact H|destruct x; exact G || exact Logic.I]|exact Logic.I|
       split; [exact H|destruct x; exact G || exact Logic.I]])
      ltac:(intros f; specialize (B f); cbn [undo_total noted_total] in B; unfold undo_of, noted_of; lia)) H' G').
    intros f. specialize (B f). cbn [undo_total noted_total] in B. unfold undo_of, noted_of. lia.
  Qed.
  Lemma inv_fresh files : inv (fun _ => 0) (fun _ => 0) (fresh files).
  Proof.
    split; [intros k; apply N.le_refl|]. split; [|intros k f pos b []].
    split; [intros k f|intros k]; destruct k; apply N.le_0_l.
  Qed.
  Lemma inv_all files l : history_ok magic (fresh files) l -> gapless magic (fresh files) l -> within l ->
    exists uu nn, inv uu nn (run magic (fresh files) l).
  Proof. intros H G W. apply (inv_run l _ _ _ (inv_fresh files) H G). intros f. exact (W f). Qed.

  Lemma kept files l : history_ok magic (fresh files) l -> gapless magic (fresh files) l -> within l ->
    all_readable (run magic (fresh files) l).
  Proof.
    intros H G W. destruct (inv_all files l H G W) as (uu & nn & _ & _ & P).
    intros k f pos b E. now apply P.
  Qed.

  Lemma undo_place files l f pos b u c : history_ok magic (fresh files) l -> gapless magic (fresh files) l ->
    within l -> In (Blk, f, pos, b) (n_placed (run magic (fresh files) l)) ->
    exists q, p_result (write_undo (n_disk (run magic (fresh files) l)) (n_memory (run magic (fresh files) l))
                          f u c true) = Placed Rev f q (u ++ c).
  Proof.
    intros H G W E. destruct (inv_all files l H G W) as (uu & nn & _ & _ & P).
    destruct (P _ _ _ _ E) as (_ & _ & Q). set (n := run magic (fresh files) l) in *.
    unfold write_undo.
    assert (X : (if f =? m_last (n_memory n) then Some (m_info (n_memory n)) else info_of (d_info (n_disk n)) f)
                <> None).
    { destruct (f =? m_last (n_memory n)); [discriminate|]. unfold at_disk, info_or_null in Q.
      destruct (info_of (d_info (n_disk n)) f); [discriminate|]. cbn in Q. lia. }
    destruct (if f =? m_last (n_memory n) then Some (m_info (n_memory n)) else info_of (d_info (n_disk n)) f)
      as [i|]; [|congruence].
    unfold preallocate.
    destruct (w32 (f_undo i + rev_chunk - 1) / rev_chunk <? _); eexists; reflexivity.
  Qed.

  (** ** The loop ends *)

  Lemma info_in l f i : info_of l f = Some i -> In f (map fst l).
  Proof.
    induction l as [|(g, j) l IH]; [discriminate|]. cbn. destruct (N.eqb_spec f g); [now left|].
    intros H. right. now apply IH.
  Qed.
  Lemma leave_in l add : add < max_file -> forall t m u, m_info m = info_or_null l (m_last m) ->
    leave t l m add u = None -> forall j, (j < t)%nat -> In (m_last m + N.of_nat j) (map fst l).
  Proof.
    clear magic_length. intros A. induction t as [|t IH]; intros m u M E j J; [lia|]. cbn [leave] in E.
    destruct (N.ltb_spec (w32 (f_size (m_info m) + add)) max_file) as [L|L]; [discriminate|].
    destruct j as [|j].
    - rewrite N.add_0_r. rewrite M in L. unfold info_or_null in L.
      destruct (info_of l (m_last m)) as [i|] eqn:X; [exact (info_in _ _ _ X)|].
      cbn in L. unfold w32 in L. rewrite N.mod_small in L; unfold max_file in *; lia.
    - replace (m_last m + N.of_nat (S j)) with (m_last m + 1 + N.of_nat j) by lia.
      destruct (leave t l {| m_last := m_last m + 1; m_info := info_or_null l (m_last m + 1);
        m_cached := m_cached m |} add true) as [((s, m'), u')|] eqn:X; [discriminate|].
      apply (IH {| m_last := m_last m + 1; m_info := info_or_null l (m_last m + 1);
        m_cached := m_cached m |} true eq_refl X). lia.
  Qed.
  Lemma leave_ends l add m u : add < max_file -> leave (S (S (length l))) l m add u <> None.
  Proof.
    clear magic_length. intros A E. set (t := S (length l)) in E. cbn [leave] in E. destruct (_ <? _); [discriminate|].
    destruct (leave t l {| m_last := m_last m + 1; m_info := info_or_null l (m_last m + 1);
        m_cached := m_cached m |} add true) as [((s, m'), u')|] eqn:X; [discriminate|].
    assert (H := leave_in l add A t {| m_last := m_last m + 1; m_info := info_or_null l (m_last m + 1);
        m_cached := m_cached m |} true eq_refl X). cbn [m_last] in H.
    set (s := map (fun j => m_last m + 1 + N.of_nat j) (seq 0 t)).
    assert (D : NoDup s).
    { apply FinFun.Injective_map_NoDup; [|apply seq_NoDup]. intros x y Q. lia. }
    assert (J : incl s (map fst l)).
    { intros x Hx. apply in_map_iff in Hx. destruct Hx as (j & <- & Hj). apply in_seq in Hj. apply H. lia. }
    pose proof (NoDup_incl_length D J) as L. unfold s in L. rewrite !map_length, seq_length in L.
    unfold t in L. lia.
  Qed.
  Lemma block_place d m b : N.of_nat (length b) <= 4000000 ->
    exists f pos, p_result (write_block d m b true) = Placed Blk f pos b.
  Proof.
    clear magic_length. intros L. unfold write_block.
    assert (A : w32 (N.of_nat (length b) + 8) < max_file).
    { unfold w32. rewrite N.mod_small; unfold max_file; lia. }
    pose proof (leave_ends (d_info d) _ m false A) as E.
    destruct (leave _ _ _ _ _) as [((s, m1), u)|]; [|congruence].
    unfold preallocate.
    destruct (w32 (f_size (m_info m1) + blk_chunk - 1) / blk_chunk <? _); do 2 eexists; reflexivity.
  Qed.
End Plans.
