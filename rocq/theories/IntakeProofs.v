(** Proofs on the intake of blocks. *)
From Coq Require Import List Bool NArith ZArith Permutation Lia ZifyBool ZifyNat ZifyN.
From Verif Require Import Prelude DexModel SchedModel IntakeModel IntakeSpec.
Import ListNotations.
Open Scope N_scope.

(** * The index *)
Lemma known_iff c h : known c h = true <-> exists b, In b (c_index c) /\ k_hash b = h.
Proof.
  unfold known. rewrite existsb_exists. split; intros (b & I & E); exists b; split; auto;
    [apply N.eqb_eq in E; exact E | apply N.eqb_eq; exact E].
Qed.

Lemma known_app l b t s l0 t0 s0 h : l = l0 ++ [b] ->
  known (mkChain l t s) h = known (mkChain l0 t0 s0) h || (k_hash b =? h).
Proof. intros ->. unfold known. cbn [c_index]. rewrite existsb_app. cbn. now rewrite orb_false_r. Qed.

Lemma known_index c c' h : c_index c = c_index c' -> known c h = known c' h.
Proof. unfold known. now intros ->. Qed.

Lemma lookup_some c h b : lookup c h = Some b -> In b (c_index c) /\ k_hash b = h.
Proof. unfold lookup. intro E. apply find_some in E. rewrite N.eqb_eq in E. exact E. Qed.

Lemma lookup_known c h : known c h = true -> exists b, lookup c h = Some b.
Proof.
  intro K. unfold known in K. unfold lookup. apply existsb_exists in K. destruct K as (b & I & E).
  destruct (find (fun b0 => k_hash b0 =? h) (c_index c)) as [x|] eqn:F; [eauto|].
  pose proof (find_none _ _ F b I) as X. cbn in X. congruence.
Qed.

Section Proofs.
  Variable p : params.
  Variable rate : list blk -> N -> N.
  Variable forked : chain -> blk -> list N * bool.
  Variable best : chain -> list N * N * bool.
  Notation accept := (accept p rate forked best).
  Notation add_to_index := (add_to_index p best).
  Notation take_kids := (take_kids p rate forked best).
  Notation work := (work p rate forked best).
  Notation process := (process p rate forked best).
  Notation arrive := (arrive p rate forked best).
  Notation run := (run p rate forked best).

  (** Whether blocks have the shape asked of them at the release; the claim is made under [F]. *)
  Variable F : Prop.
  Definition fits (b : blk) : Prop := k_height b = p_mint_height p -> release_shape p b = true.
  Definition all_fit (c : chain) : Prop := F -> forall b, In b (c_index c) -> fits b.

  Lemma connect_all_spec c l : all_fit c ->
    match connect_all p c l with Done _ => True | Abort => ~ F | _ => False end.
  Proof.
    intros A. induction l as [|h l IH]; [exact I|]. cbn [connect_all].
    destruct (lookup c h) as [b|] eqn:L; [|exact IH].
    destruct (lookup_some _ _ _ L) as [Ib _].
    unfold connect_first.
    destruct ((k_height b =? p_mint_height p) && negb (release_shape p b)) eqn:E; cbn [bind].
    - intros f. apply andb_true_iff in E as [E1 E2]. apply N.eqb_eq in E1.
      specialize (A f b Ib E1). rewrite A in E2. discriminate.
    - exact IH.
  Qed.

  Definition follows (a b : blk) : Prop :=
    k_prev b = k_hash a /\ k_height b = k_height a + 1 /\ (k_time a < k_time b)%Z /\
    (interval (p_rules p) (signed32 (k_height b)) <= k_time b - k_time a)%Z.

  (** What taking in a block can come to: nothing has changed; or the block is in the index. *)
  Definition accepted_ok (c : chain) (b : blk) (c' : chain) (ok : bool) : Prop :=
    (c' = c /\ ok = false) \/
    (c_index c' = c_index c ++ [b] /\ known c (k_hash b) = false /\
     (c_tip c' = c_tip c \/ known c' (c_tip c') = true) /\
     c_stopping c' = c_stopping c || negb (bp_given b) /\
     (ok = true -> bp_given b = true) /\
     (ok = false -> bp_given b = true -> exists c0, snd (best c0) = false) /\
     (genuine p b = true \/ exists a, lookup c (k_prev b) = Some a /\ follows a b)).

  Lemma add_spec c b : all_fit c -> (F -> fits b) ->
    (genuine p b = true \/ exists a, lookup c (k_prev b) = Some a /\ follows a b) ->
    match add_to_index c b with
    | Done (c', ok) => accepted_ok c b c' ok
    | Abort => ~ F
    | _ => False
    end.
  Proof.
    intros A B Q. unfold IntakeModel.add_to_index. destruct (known c (k_hash b)) eqn:K.
    - left. auto.
    - destruct (bp_given b) eqn:G; cbn [negb].
      + destruct (best _) as [[tried tip] ok] eqn:Eb.
        assert (A' : all_fit (mkChain (c_index c ++ [b]) (c_tip c) (c_stopping c))).
        { intros f x I. cbn [c_index] in I. apply in_app_or in I as [I|[<-|[]]]; [now apply A|now apply B]. }
        pose proof (connect_all_spec _ tried A') as S.
        destruct (connect_all _ _ _); cbn [bind]; auto.
        right. cbn [c_index c_tip c_stopping]. rewrite G. cbn [negb]. rewrite orb_false_r.
        repeat split; auto.
        * destruct (known (mkChain (c_index c ++ [b]) (c_tip c) (c_stopping c)) tip) eqn:Kt; [right|left; auto].
          erewrite known_index; [exact Kt|reflexivity].
        * intros -> _. eexists. rewrite Eb. reflexivity.
      + right. cbn [c_index c_tip c_stopping]. rewrite G. cbn [negb]. rewrite orb_true_r.
        repeat split; auto; discriminate.
  Qed.

  Lemma accept_spec c b : all_fit c -> (F -> fits b) ->
    k_height b = 0 \/ known c (k_prev b) = true ->
    match accept c b with
    | Done (c', ok) => accepted_ok c b c' ok
    | Abort => ~ F
    | _ => False
    end.
  Proof.
    intros A B H. unfold IntakeModel.accept. destruct (known c (k_hash b)) eqn:K; [left; auto|].
    replace ((k_height b =? 0) || known c (k_prev b)) with true
      by (destruct H as [H|H]; [rewrite (proj2 (N.eqb_eq _ _) H); reflexivity | rewrite H; now rewrite orb_true_r]).
    cbn [negb].
    destruct (negb (k_height b =? 0) && negb (k_rate b =? rate (c_index c) (k_prev b))); [left; auto|].
    destruct (genuine p b) eqn:G; [now apply add_spec; [| |left]|].
    destruct (lookup c (k_prev b)) as [a|] eqn:La; [|left; auto].
    destruct (k_height b =? k_height a + 1) eqn:Eh; cbn [negb]; [|left; auto]. apply N.eqb_eq in Eh.
    destruct ((k_time b <=? k_time a)%Z ||
              (k_time b - k_time a <? interval (p_rules p) (signed32 (k_height b)))%Z) eqn:Et; [left; auto|].
    apply orb_false_iff in Et as [Et1 Et2]. apply Z.leb_gt in Et1. apply Z.ltb_ge in Et2.
    assert (Q : match (if k_hash a =? c_tip c then Done true
                else let '(tried, ok) := forked c b in do _ <- connect_all p c tried; Done ok)
                with Done _ => True | Abort => ~ F | _ => False end).
    { destruct (k_hash a =? c_tip c); [exact I|]. destruct (forked c b) as [tried ok].
      pose proof (connect_all_spec _ tried A) as S. destruct (connect_all p c tried); cbn [bind]; auto. }
    destruct (if k_hash a =? c_tip c then Done true
                else let '(tried, ok) := forked c b in do _ <- connect_all p c tried; Done ok);
      cbn [bind]; auto.
    destruct a0; cbn [negb]; [|left; auto].
    destruct ((k_version b <? 2)%Z && upgraded p c (k_hash a)); [left; auto|].
    apply add_spec; auto. right. exists a. split; [exact La|].
    split; [symmetry; exact (proj2 (lookup_some _ _ _ La))|auto].
  Qed.

  (** * The store *)
  Definition in_heap (q : pool) (a : N) (o : orphan) : Prop := In (a, o) (q_heap q).

  Lemma deref_iff q a o : NoDup (map fst (q_heap q)) -> (deref q a = Done o <-> in_heap q a o).
  Proof.
    unfold deref, in_heap. induction (q_heap q) as [|[x y] l IH]; intros ND; cbn.
    - split; [discriminate|intros []].
    - inversion ND as [|? ? NI ND']; subst. cbn in NI. destruct (x =? a) eqn:E.
      + apply N.eqb_eq in E as ->. split.
        * intros [= ->]. now left.
        * intros [[= ->]|I]; [reflexivity|]. exfalso. apply NI. apply in_map_iff. now exists (a, o).
      + rewrite (IH ND'). apply N.eqb_neq in E. split; [now right|].
        intros [[= -> ->]|I]; [congruence|exact I].
  Qed.

  Lemma deref_heap q q' a : q_heap q = q_heap q' -> deref q a = deref q' a.
  Proof. unfold deref. now intros ->. Qed.

  (** [prevs] stands in the place of the second table, which has stale entries inside the loop. *)
  Record store_ok (q : pool) (prevs : list (N * N)) : Prop := {
    so_heap : NoDup (map fst (q_heap q));
    so_next : forall a o, in_heap q a o -> a < q_next q;
    so_hash_once : NoDup (map fst (q_by_hash q));
    so_hash : forall h a, In (h, a) (q_by_hash q) <-> exists o, in_heap q a o /\ o_hash o = h;
    so_prev_once : NoDup (map snd prevs);
    so_prev : forall k a, In (k, a) prevs <-> exists o, in_heap q a o /\ o_prev o = k;
    so_set : forall a, In a (q_set q) -> exists o, in_heap q a o;
    so_shape : forall a o, in_heap q a o ->
      o_hash o = k_hash (o_block o) /\ o_prev o = k_prev (o_block o) /\
      o_height o = signed32 (k_height (o_block o)) }.

  Lemma set_erase_spec q a o : NoDup (map fst (q_heap q)) -> in_heap q a o -> forall l,
    (forall x, In x l -> exists y, in_heap q x y) ->
    exists l', set_erase q a l = Done l' /\
      forall x, In x l' <-> In x l /\ exists y, in_heap q x y /\ o_height y <> o_height o.
  Proof.
    intros ND Ia. induction l as [|x l IH]; intros H.
    - exists []. split; [reflexivity|]. intros x. split; [intros []|intros [[] _]].
    - destruct IH as (l' & E & Q); [intros y I; apply H; now right|].
      destruct (H x (or_introl eq_refl)) as (y & Iy).
      cbn [set_erase]. rewrite (proj2 (deref_iff _ _ _ ND) Ia), (proj2 (deref_iff _ _ _ ND) Iy), E.
      cbn [bind]. eexists. split; [reflexivity|].
      assert (U : forall y', in_heap q x y' -> y' = y).
      { intros y' I'. apply (deref_iff _ _ _ ND) in I'. apply (deref_iff _ _ _ ND) in Iy. congruence. }
      destruct (o_height o =? o_height y)%Z eqn:Eh.
      + apply Z.eqb_eq in Eh. intros z. rewrite Q. split.
        * intros [I R]. split; [now right|exact R].
        * intros [[->|I] R]; [|auto]. destruct R as (y' & I' & N'). rewrite (U _ I') in N'. congruence.
      + apply Z.eqb_neq in Eh. intros z. cbn [In]. rewrite Q. split.
        * intros [->|[I R]]; [|auto]. split; [now left|]. exists y. auto.
        * intros [[->|I] R]; auto.
  Qed.

  Lemma set_insert_spec q a o : NoDup (map fst (q_heap q)) -> in_heap q a o -> forall l,
    (forall x, In x l -> exists y, in_heap q x y) ->
    exists l', set_insert q a l = Done l' /\ l' <> [] /\ (forall x, In x l' -> x = a \/ In x l) /\
      (forall x, In x l -> In x l').
  Proof.
    intros ND Ia. induction l as [|x l IH]; intros H.
    - exists [a]. split; [reflexivity|]. split; [discriminate|]. split; [|intros x []].
      intros x [->|[]]. now left.
    - destruct IH as (l' & E & _ & Q & K); [intros y I; apply H; now right|].
      destruct (H x (or_introl eq_refl)) as (y & Iy).
      cbn [set_insert]. rewrite (proj2 (deref_iff _ _ _ ND) Ia), (proj2 (deref_iff _ _ _ ND) Iy).
      cbn [bind]. destruct (o_height o =? o_height y)%Z.
      { exists (x :: l). repeat split; auto; discriminate. }
      destruct (o_height o <? o_height y)%Z.
      { exists (a :: x :: l). repeat split; try discriminate; [|intros; now right].
        intros z [->|I]; auto. }
      rewrite E. cbn [bind]. exists (x :: l'). split; [reflexivity|]. split; [discriminate|]. split.
      + intros z [->|I]; [right; now left|]. destruct (Q _ I); [now left|right; now right].
      + intros z [->|I]; [now left|]. right. now apply K.
  Qed.

  Lemma without_in h l k a : In (k, a) (without h l) <-> In (k, a) l /\ k <> h.
  Proof.
    unfold without. rewrite filter_In. cbn [fst]. rewrite negb_true_iff, N.eqb_neq. reflexivity.
  Qed.

  Lemma nodup_filter {A B} (f : A -> B) (t : A -> bool) l : NoDup (map f l) -> NoDup (map f (filter t l)).
  Proof.
    induction l as [|x l IH]; cbn; intros ND; [constructor|].
    inversion ND as [|? ? NI ND']; subst. destruct (t x); cbn; auto. constructor; auto.
    intros I. apply NI. apply in_map_iff in I as (y & E & I). apply filter_In in I as [I _].
    apply in_map_iff. eauto.
  Qed.

  Lemma release_heap q a x y : in_heap (release q a) x y <-> in_heap q x y /\ x <> a.
  Proof.
    unfold in_heap, release. cbn [q_heap]. rewrite filter_In. cbn [fst].
    rewrite negb_true_iff, N.eqb_neq. reflexivity.
  Qed.

  (** The address of a block found by its hash is the only one. *)
  Lemma hash_unique q l a a' o o' : store_ok q l -> in_heap q a o -> in_heap q a' o' ->
    o_hash o = o_hash o' -> a = a' /\ o = o'.
  Proof.
    intros S I I' E. assert (X : a = a').
    { pose proof (proj2 (so_hash _ _ S (o_hash o) a) (ex_intro _ o (conj I eq_refl))) as A.
      pose proof (proj2 (so_hash _ _ S (o_hash o) a') (ex_intro _ o' (conj I' (eq_sym E)))) as A'.
      pose proof (so_hash_once _ _ S) as ND. clear - A A' ND.
      induction (q_by_hash q) as [|[h x] l IH]; [destruct A|]. cbn in ND. inversion ND as [|? ? NI ND']; subst.
      destruct A as [[= -> ->]|A], A' as [[= ->]|A'].
      - reflexivity.
      - exfalso. apply NI. apply in_map_iff. now exists (o_hash o, a').
      - exfalso. apply NI. apply in_map_iff. subst. now exists (o_hash o, a).
      - auto. }
    subst a'. split; [reflexivity|].
    apply (deref_iff _ _ _ (so_heap _ _ S)) in I. apply (deref_iff _ _ _ (so_heap _ _ S)) in I'. congruence.
  Qed.

  (** Dropping one block from all the tables. *)
  Lemma drop_ok q a o prevs prevs' s :
    store_ok q prevs -> in_heap q a o ->
    (forall k x, In (k, x) prevs' <-> In (k, x) prevs /\ x <> a) -> NoDup (map snd prevs') ->
    (forall x, In x s -> In x (q_set q) /\ exists y, in_heap q x y /\ o_height y <> o_height o) ->
    forall bp, store_ok (release (mkPool (q_next q) (q_heap q) (without (o_hash o) (q_by_hash q)) bp s) a) prevs'.
  Proof.
    intros S Ia P PN Q bp. set (q' := mkPool _ _ _ bp s).
    assert (Hh : forall x y, in_heap q' x y <-> in_heap q x y) by (intros; reflexivity).
    constructor.
    - unfold release. cbn [q_heap]. apply nodup_filter. exact (so_heap _ _ S).
    - intros x y I. apply release_heap in I as [I _]. exact (so_next _ _ S x y I).
    - unfold release. cbn [q_by_hash]. apply nodup_filter. exact (so_hash_once _ _ S).
    - intros h x. unfold release at 1. cbn [q_by_hash q']. rewrite without_in, (so_hash _ _ S). split.
      + intros ((y & I & E) & N'). exists y. split; [|exact E]. apply release_heap. split; [exact I|].
        intros ->. apply N'. rewrite <- E. f_equal.
        apply (deref_iff _ _ _ (so_heap _ _ S)) in I. apply (deref_iff _ _ _ (so_heap _ _ S)) in Ia. congruence.
      + intros (y & I & E). apply release_heap in I as [I N']. split; [exists y; auto|].
        intros ->. apply N'. eapply hash_unique; eauto.
    - exact PN.
    - intros k x. rewrite P, (so_prev _ _ S). split.
      + intros ((y & I & E) & N'). exists y. split; [|exact E]. apply release_heap. auto.
      + intros (y & I & E). apply release_heap in I as [I N']. split; [exists y; auto|exact N'].
    - unfold release at 1. cbn [q_set q']. intros x I. destruct (Q x I) as (_ & y & Iy & N').
      exists y. apply release_heap. split; [exact Iy|]. intros ->. apply N'. f_equal.
      apply (deref_iff _ _ _ (so_heap _ _ S)) in Iy. apply (deref_iff _ _ _ (so_heap _ _ S)) in Ia. congruence.
    - intros x y I. apply release_heap in I as [I _]. exact (so_shape _ _ S x y I).
  Qed.

  Lemma filter_shorter {A} (t : A -> bool) l : (length (filter t l) <= length l)%nat.
  Proof. induction l as [|x l IH]; cbn; [lia|]. destruct (t x); cbn; lia. Qed.

  Lemma release_shorter q a o : in_heap q a o ->
    (length (q_heap (release q a)) < length (q_heap q))%nat.
  Proof.
    unfold in_heap, release. cbn [q_heap]. induction (q_heap q) as [|[x y] l IH]; intros I; [destruct I|].
    cbn [filter fst]. destruct I as [[= -> ->]|I].
    - rewrite N.eqb_refl. cbn [negb length]. pose proof (filter_shorter (fun e : N * orphan => negb (fst e =? a)) l). lia.
    - specialize (IH I). destruct (negb (x =? a)); cbn [length]; lia.
  Qed.

  (** Stores and chains that go together: no kept block is in the index. *)
  Definition apart (c : chain) (q : pool) : Prop :=
    forall a o, in_heap q a o -> known c (o_hash o) = false.
  Definition heap_fits (q : pool) : Prop := F -> forall a o, in_heap q a o -> fits (o_block o).

  Lemma accepted_known c b c' ok h : accepted_ok c b c' ok -> known c h = true -> known c' h = true.
  Proof.
    intros [[-> _]|(E & _)] K; [exact K|]. apply known_iff in K as (x & I & E').
    apply known_iff. exists x. rewrite E. split; [apply in_or_app; now left|exact E'].
  Qed.

  (** Follows from the claims on one round of the loop. *)
  Definition gone (c' : chain) (o : orphan) : Prop :=
    known c' (o_prev o) = true /\
    (known c' (o_hash o) = true \/
     exists c, incl (c_index c) (c_index c') /\ accept c (o_block o) = Done (c, false)).

  Lemma gone_more c c' o : incl (c_index c) (c_index c') -> gone c o -> gone c' o.
  Proof.
    intros I [A B]. assert (M : forall h, known c h = true -> known c' h = true).
    { intros h K. apply known_iff in K as (b & Ib & E). apply known_iff. exists b. auto. }
    split; [auto|]. destruct B as [B|(c0 & I0 & B)]; [auto|]. right. exists c0. split; [|exact B].
    intros x Ix. auto.
  Qed.

  Lemma kids_spec h kids : forall others c q taken,
    store_ok q (kids ++ others) -> (forall e, In e kids -> fst e = h) -> known c h = true ->
    all_fit c -> heap_fits q -> apart c q ->
    match take_kids kids c q taken with
    | Done (c', q', taken') =>
        store_ok q' others /\ all_fit c' /\ heap_fits q' /\ apart c' q' /\
        q_by_prev q' = q_by_prev q /\
        incl (c_index c) (c_index c') /\
        (known c (c_tip c) = true -> known c' (c_tip c') = true) /\
        (length (q_heap q') + (length taken' - length taken) <= length (q_heap q))%nat /\
        (length taken <= length taken')%nat /\
        (forall x o, in_heap q' x o -> in_heap q x o) /\
        (forall x o, in_heap q x o -> In x (map snd kids) \/ in_heap q' x o) /\
        (forall x o, in_heap q x o -> In x (map snd kids) -> gone c' o) /\
        (forall g, In g taken -> In g taken') /\
        (forall g, In g taken' -> In g taken \/ known c' g = true) /\
        ((forall a o, in_heap q a o -> bp_given (o_block o) = true) ->
          c_stopping c' = c_stopping c /\
          ((forall c0, snd (best c0) = true) -> forall g, known c' g = true -> known c g = true \/ In g taken')) /\
        (forall P : blk -> Prop, (forall b, In b (c_index c) -> P b) ->
           (forall a o, in_heap q a o -> P (o_block o)) -> forall b, In b (c_index c') -> P b) /\
        (forall J : chain -> Prop, (forall c0 b c1 ok, J c0 -> accepted_ok c0 b c1 ok -> J c1) -> J c -> J c')
    | Abort => ~ F
    | _ => False
    end.
  Proof.
    induction kids as [|[k a] kids IH]; intros others c q taken S Hk Kh A HF Ap.
    - cbn [IntakeModel.take_kids]. cbn [app] in S.
      split; [exact S|]. split; [exact A|]. split; [exact HF|]. split; [exact Ap|]. split; [reflexivity|].
      split; [apply incl_refl|]. split; [auto|]. split; [lia|]. split; [lia|].
      split; [auto|]. split; [auto|]. split; [intros ? ? ? []|]. split; [auto|]. split; [auto|].
      split; [intros _; split; [reflexivity|auto]|]. split; auto.
    - cbn [IntakeModel.take_kids].
      assert (Ek : k = h) by exact (Hk (k, a) (or_introl eq_refl)). subst k.
      destruct (proj1 (so_prev _ _ S h a) (or_introl eq_refl)) as (o & Io & Eo).
      rewrite (proj2 (deref_iff _ _ _ (so_heap _ _ S)) Io). cbn [bind].
      destruct (so_shape _ _ S _ _ Io) as (Sh & Sp & _).
      assert (Kp : known c (k_prev (o_block o)) = true) by (rewrite <- Sp, Eo; exact Kh).
      pose proof (accept_spec c (o_block o) A (fun f => HF f _ _ Io) (or_intror Kp)) as AS.
      destruct (accept c (o_block o)) as [[c1 ok]| | |] eqn:EA; cbn [bind]; auto.
      destruct (set_erase_spec q a o (so_heap _ _ S) Io (q_set q) (so_set _ _ S)) as (s & Es & Qs).
      rewrite Es. cbn [bind].
      set (q1 := release (mkPool (q_next q) (q_heap q) (without (o_hash o) (q_by_hash q)) (q_by_prev q) s) a).
      assert (ND : NoDup (a :: map snd (kids ++ others))) by exact (so_prev_once _ _ S).
      inversion ND as [|? ? NIa ND']; subst.
      assert (S1 : store_ok q1 (kids ++ others)).
      { apply (drop_ok q a o ((o_prev o, a) :: kids ++ others)); auto.
        - intros k x. cbn [In]. split.
          + intros I. split; [now right|]. intros ->. apply NIa. apply in_map_iff. now exists (k, a).
          + intros [[[= <- <-]|I] N']; [congruence|exact I].
        - intros x I. apply Qs. exact I. }
      assert (Hh1 : forall x y, in_heap q1 x y <-> in_heap q x y /\ x <> a).
      { intros x y. unfold q1. rewrite release_heap. reflexivity. }
      assert (I1 : incl (c_index c) (c_index c1)).
      { destruct AS as [[-> _]|(E1 & _)]; [apply incl_refl|]. rewrite E1. intros x Ix. apply in_or_app. now left. }
      assert (A1 : all_fit c1).
      { destruct AS as [[-> _]|(E1 & _)]; [exact A|]. intros f b Ib. rewrite E1 in Ib.
        apply in_app_or in Ib as [Ib|[<-|[]]]; [now apply A|exact (HF f _ _ Io)]. }
      assert (HF1 : heap_fits q1) by (intros f x y I; apply Hh1 in I as [I _]; exact (HF f _ _ I)).
      assert (K1 : forall g, known c1 g = true -> known c g = true \/ g = o_hash o).
      { intros g Kg. destruct AS as [[-> _]|(E1 & _)]; [auto|]. apply known_iff in Kg as (b & Ib & Eb).
        rewrite E1 in Ib. apply in_app_or in Ib as [Ib|[<-|[]]].
        - left. apply known_iff. eauto.
        - right. congruence. }
      assert (Ap1 : apart c1 q1).
      { intros x y I. apply Hh1 in I as [I N']. pose proof (Ap _ _ I) as X.
        destruct (known c1 (o_hash y)) eqn:Ky; [|reflexivity]. destruct (K1 _ Ky) as [K|E]; [congruence|].
        exfalso. apply N'. exact (proj1 (hash_unique q _ x a y o S I Io E)). }
      assert (Kh1 : known c1 (o_prev o) = true) by (eapply accepted_known; eauto).
      specialize (IH others c1 q1 (if ok then taken ++ [o_hash o] else taken) S1
                    (fun e I => Hk e (or_intror I)) Kh1 A1 HF1 Ap1).
      destruct (take_kids kids c1 q1 (if ok then taken ++ [o_hash o] else taken)) as [[[c' q'] taken']| | |]; auto.
      destruct IH as (R1 & R2 & R3 & R4 & R5 & R6 & R7 & R8 & R9 & R10 & R11 & R12 & R13 & R14 & R15 & R16 & R17).
      split; [exact R1|]. split; [exact R2|]. split; [exact R3|]. split; [exact R4|].
      split; [rewrite R5; reflexivity|].
      split; [eapply incl_tran; eauto|].
      assert (Sn : (length (q_heap q1) < length (q_heap q))%nat).
      { exact (release_shorter (mkPool (q_next q) (q_heap q) (without (o_hash o) (q_by_hash q)) (q_by_prev q) s) a o Io). }
      assert (Gone : gone c' o).
      { split; [|destruct AS as [[-> ->]|(E1 & _)]].
        - apply known_iff in Kh1 as (b & Ib & Eb). apply known_iff. exists b. auto.
        - right. exists c. auto.
        - left. apply known_iff. exists (o_block o). split; [|now symmetry]. apply R6. rewrite E1.
          apply in_or_app. right. now left. }
      split.
      { intros Kt. apply R7. pose proof (fun h => accepted_known c (o_block o) c1 ok h AS) as M.
        destruct AS as [[-> _]|(_ & _ & [T|T] & _)]; [exact Kt| |exact T]. rewrite T. auto. }
      split. { destruct ok; rewrite ?app_length in *; cbn [length] in *; lia. }
      split. { destruct ok; rewrite ?app_length in *; cbn [length] in *; lia. }
      split. { intros x y I. apply R10 in I. apply Hh1 in I as [I _]. exact I. }
      split.
      { intros x y I. cbn [map snd In]. destruct (N.eq_dec x a) as [->|Nx]; [auto|].
        destruct (R11 x y (proj2 (Hh1 x y) (conj I Nx))) as [J|J]; auto. }
      split.
      { intros x y I J. cbn [map snd In] in J. destruct (N.eq_dec x a) as [->|Nx].
        - replace y with o; [exact Gone|].
          apply (deref_iff _ _ _ (so_heap _ _ S)) in I. apply (deref_iff _ _ _ (so_heap _ _ S)) in Io. congruence.
        - apply (R12 x y); [apply Hh1; auto|]. destruct J as [J|J]; [congruence|exact J]. }
      split. { intros g I. apply R13. destruct ok; [apply in_or_app; now left|exact I]. }
      split.
      { intros g I. destruct (R14 g I) as [J|J]; [|auto]. destruct ok; [|auto].
        apply in_app_or in J as [J|[<-|[]]]; [auto|]. right. destruct AS as [[_ X]|(E1 & _)]; [discriminate|].
        apply known_iff. exists (o_block o). split; [|now symmetry]. apply R6. rewrite E1. apply in_or_app. right. now left. }
      split.
      { intros G. assert (G1 : forall x y, in_heap q1 x y -> bp_given (o_block y) = true)
          by (intros x y I; apply Hh1 in I as [I _]; exact (G _ _ I)).
        destruct (R15 G1) as [T1 T2]. split.
        - rewrite T1. destruct AS as [[-> _]|(_ & _ & _ & Z & _)]; [reflexivity|].
          rewrite Z, (G _ _ Io). cbn. now rewrite orb_false_r.
        - intros B g Kg. destruct (T2 B g Kg) as [K|K]; [|auto]. destruct (K1 _ K) as [K'| ->]; [auto|].
          destruct AS as [[-> _]|(_ & _ & _ & _ & _ & Z & _)]; [auto|].
          destruct ok; [right; apply R13; apply in_or_app; right; now left|].
          destruct (Z eq_refl (G _ _ Io)) as (c0 & X). rewrite B in X. discriminate. }
      split; [|intros J HJ Jc; apply (R17 J HJ); exact (HJ _ _ _ _ Jc AS)].
      intros P Pi Ph b Ib. apply R16; auto.
      + intros x Ix. destruct AS as [[-> _]|(E1 & _)]; [auto|]. rewrite E1 in Ix.
        apply in_app_or in Ix as [Ix|[<-|[]]]; [auto|exact (Ph _ _ Io)].
      + intros x y I. apply Hh1 in I as [I _]. exact (Ph _ _ I).
  Qed.

  Lemma parts {A} (t : A -> bool) l : Permutation l (filter t l ++ filter (fun x => negb (t x)) l).
  Proof.
    induction l as [|x l IH]; cbn; [constructor|]. destruct (t x); cbn.
    - now constructor.
    - apply Permutation_cons_app. exact IH.
  Qed.

  Lemma store_perm q l l' : store_ok q l -> Permutation l l' -> store_ok q l'.
  Proof.
    intros S E. destruct S. constructor; auto.
    - eapply Permutation_NoDup; [|exact so_prev_once0]. now apply Permutation_map.
    - intros k a. rewrite <- so_prev0. split; apply Permutation_in; [now symmetry|exact E].
  Qed.

  Lemma store_same q q' l : store_ok q l -> q_next q' = q_next q -> q_heap q' = q_heap q ->
    q_by_hash q' = q_by_hash q -> q_set q' = q_set q -> store_ok q' l.
  Proof.
    destruct q as [n h bh bp s], q' as [n' h' bh' bp' s']. cbn. intros S -> -> -> ->.
    destruct S. constructor; auto.
  Qed.

  Definition bounded (q : pool) : Prop :=
    (length (q_by_prev q) <= N.to_nat 751)%nat /\
    (length (q_by_prev q) = N.to_nat 751 -> q_set q <> []).

  Definition pool_good (c : chain) (q : pool) : Prop :=
    store_ok q (q_by_prev q) /\ bounded q /\ heap_fits q /\ apart c q.

  Lemma work_spec steps : forall queue c q,
    pool_good c q -> all_fit c -> (forall h, In h queue -> known c h = true) ->
    (length queue + length (q_heap q) <= steps)%nat ->
    match work steps queue c q with
    | Done (c', q') =>
        pool_good c' q' /\ all_fit c' /\ incl (c_index c) (c_index c') /\
        (known c (c_tip c) = true -> known c' (c_tip c') = true) /\
        (forall x o, in_heap q' x o -> in_heap q x o) /\
        (forall x o, in_heap q x o -> in_heap q' x o \/ gone c' o) /\
        ((forall a o, in_heap q a o -> bp_given (o_block o) = true) ->
          c_stopping c' = c_stopping c /\
          ((forall c0, snd (best c0) = true) -> (forall a o, in_heap q a o -> known c (o_prev o) = true -> In (o_prev o) queue) ->
           forall a o, in_heap q' a o -> known c' (o_prev o) = false)) /\
        (forall P : blk -> Prop, (forall b, In b (c_index c) -> P b) ->
           (forall a o, in_heap q a o -> P (o_block o)) -> forall b, In b (c_index c') -> P b) /\
        (forall J : chain -> Prop, (forall c0 b c1 ok, J c0 -> accepted_ok c0 b c1 ok -> J c1) -> J c -> J c')
    | Abort => ~ F
    | _ => False
    end.
  Proof.
    induction steps as [|steps IH]; intros queue c q PG A Kq L.
    - destruct queue as [|h queue]; [|cbn in L; lia]. cbn [IntakeModel.work].
      repeat (split; [solve [auto using incl_refl]|]). split; [|split; auto].
      intros _. split; [reflexivity|]. intros _ W a o I.
      destruct (known c (o_prev o)) eqn:K; [destruct (W a o I K)|reflexivity].
    - destruct queue as [|h queue].
      { cbn [IntakeModel.work]. repeat (split; [solve [auto using incl_refl]|]). split; [|split; auto].
        intros _. split; [reflexivity|]. intros _ W a o I.
        destruct (known c (o_prev o)) eqn:K; [destruct (W a o I K)|reflexivity]. }
      cbn [IntakeModel.work]. destruct PG as (S & B & HF & Ap).
      set (kids := filter (fun e => fst e =? h) (q_by_prev q)).
      assert (Kids : forall e, In e kids -> fst e = h).
      { intros e I. apply filter_In in I as [_ I]. now apply N.eqb_eq. }
      assert (Sk : store_ok q (kids ++ without h (q_by_prev q))) by (eapply store_perm; [exact S|apply parts]).
      pose proof (kids_spec h kids (without h (q_by_prev q)) c q [] Sk Kids (Kq h (or_introl eq_refl)) A HF Ap) as KS.
      assert (E0 : kids = [] -> take_kids kids c q [] = Done (c, q, [])) by (intros ->; reflexivity).
      destruct (take_kids kids c q []) as [[[c1 q1] taken]| | |]; cbn [bind]; auto.
      destruct KS as (R1 & R2 & R3 & R4 & R5 & R6 & R7 & R8 & R9 & R10 & R11 & R12 & R13 & R14 & R15 & R16 & R17).
      set (q2 := mkPool (q_next q1) (q_heap q1) (q_by_hash q1) (without h (q_by_prev q1)) (q_set q1)).
      assert (PG2 : pool_good c1 q2).
      { split; [|split; [|split; [exact R3|exact R4]]].
        - cbn [q_by_prev q2]. rewrite R5. eapply store_same; [exact R1|reflexivity..].
        - unfold bounded. cbn [q_by_prev q2 q_set]. rewrite R5. destruct B as [B1 B2].
          pose proof (Permutation_length (parts (fun e => fst e =? h) (q_by_prev q))) as PL.
          rewrite app_length in PL. fold kids in PL. fold (without h (q_by_prev q)) in PL.
          destruct kids as [|e kids'] eqn:Ek.
          + specialize (E0 eq_refl). injection E0 as _ -> _. cbn [length] in PL. split; [lia|].
            intros E. apply B2. lia.
          + cbn [length] in PL. split; lia. }
      assert (Kq2 : forall g, In g (queue ++ taken) -> known c1 g = true).
      { intros g I. apply in_app_or in I as [I|I].
        - pose proof (Kq g (or_intror I)) as K. apply known_iff in K as (b & Ib & Eb). apply known_iff. eauto.
        - destruct (R14 g I) as [[]|K]; exact K. }
      assert (L2 : (length (queue ++ taken) + length (q_heap q2) <= steps)%nat).
      { cbn [q_heap q2]. rewrite app_length. cbn [length] in *. lia. }
      specialize (IH (queue ++ taken) c1 q2 PG2 R2 Kq2 L2).
      destruct (work steps (queue ++ taken) c1 q2) as [[c' q']| | |]; auto.
      destruct IH as (T1 & T2 & T3 & T4 & T5 & T6 & T7 & T8 & T9).
      assert (H2 : forall x o, in_heap q2 x o <-> in_heap q1 x o) by (intros; reflexivity).
      split; [exact T1|]. split; [exact T2|]. split; [eapply incl_tran; eauto|]. split; [auto|].
      split; [intros x o I; apply R10; apply T5; exact I|].
      split.
      { intros x o I. destruct (R11 x o I) as [J|J].
        - right. eapply gone_more; [exact T3|]. exact (R12 x o I J).
        - exact (T6 x o J). }
      split.
      { intros G. destruct (R15 G) as [U1 U2].
        destruct (T7 (fun a o I => G a o (R10 _ _ I))) as [V1 V2]. split; [congruence|].
        intros Bo W. apply (V2 Bo). intros a o I K. pose proof (R10 _ _ I) as I0.
        apply in_or_app. destruct (U2 Bo _ K) as [K0|K0]; [|auto]. left.
        destruct (W a o I0 K0) as [E|J]; [|exact J]. exfalso.
        pose proof (proj2 (so_prev _ _ R1 (o_prev o) a) (ex_intro _ o (conj I eq_refl))) as Z.
        apply without_in in Z as [_ Z]. congruence. }
      split; [|intros J HJ Jc; apply (T9 J HJ); exact (R17 J HJ Jc)].
      intros P Pi Ph b Ib. apply T8; auto.
      + intros x Ix. apply (R16 P); auto.
      + intros a o I. exact (Ph _ _ (R10 _ _ I)).
  Qed.

  Lemma erase_prev_spec q a o : NoDup (map fst (q_heap q)) -> in_heap q a o ->
    (forall x y, in_heap q x y -> o_hash y = o_hash o -> x = a) -> forall l,
    (forall k x, In (k, x) l -> exists y, in_heap q x y /\ o_prev y = k) ->
    NoDup (map snd l) -> In (o_prev o, a) l ->
    exists l', erase_prev q (o_prev o) (o_hash o) l = Done l' /\
      (forall k x, In (k, x) l' <-> In (k, x) l /\ x <> a) /\
      NoDup (map snd l') /\ length l = S (length l').
  Proof.
    intros ND Ia U. induction l as [|[k x] l IH]; intros H NDl I; [destruct I|].
    inversion NDl as [|? ? NI NDl']; subst.
    assert (Other : x <> a -> exists l', erase_prev q (o_prev o) (o_hash o) l = Done l' /\
      (forall k0 x0, In (k0, x0) l' <-> In (k0, x0) l /\ x0 <> a) /\
      NoDup (map snd l') /\ length l = S (length l')).
    { intros Nx. apply IH; auto.
      - intros k0 x0 I0. apply H. now right.
      - destruct I as [[= _ E]|I]; [congruence|exact I]. }
    assert (Tail : x <> a -> exists l', (do l0 <- erase_prev q (o_prev o) (o_hash o) l; Done ((k, x) :: l0)) = Done l' /\
      (forall k0 x0, In (k0, x0) l' <-> In (k0, x0) ((k, x) :: l) /\ x0 <> a) /\
      NoDup (map snd l') /\ length ((k, x) :: l) = S (length l')).
    { intros Nx. destruct (Other Nx) as (l' & E & Q & N1 & L). rewrite E. cbn [bind].
      eexists. split; [reflexivity|]. split; [|split].
      - intros k0 x0. cbn [In]. rewrite Q. split.
        + intros [[= <- <-]|[J1 J2]]; auto.
        + intros [[J|J] N2]; auto.
      - cbn [map snd]. constructor; [|exact N1]. intros J. apply NI.
        apply in_map_iff in J as ([k1 x1] & E1 & J). cbn in E1. subst x1. apply Q in J as [J _].
        apply in_map_iff. now exists (k1, x).
      - cbn [length]. lia. }
    destruct (H k x (or_introl eq_refl)) as (y & Iy & Ek).
    cbn [erase_prev]. destruct (k =? o_prev o) eqn:E.
    - rewrite (proj2 (deref_iff _ _ _ ND) Iy). cbn [bind].
      destruct (o_hash y =? o_hash o) eqn:Eh.
      + apply N.eqb_eq in Eh. pose proof (U _ _ Iy Eh) as ->.
        exists l. split; [reflexivity|]. split; [|split; [exact NDl'|reflexivity]].
        intros k0 x0. cbn [In]. split.
        * intros J. split; [now right|]. intros ->. apply NI. apply in_map_iff. now exists (k0, a).
        * intros [[[= _ <-]|J] N2]; [congruence|exact J].
      + apply Tail. intros ->. apply N.eqb_neq in Eh. apply Eh. f_equal.
        apply (deref_iff _ _ _ ND) in Iy. apply (deref_iff _ _ _ ND) in Ia. congruence.
    - apply Tail. intros ->. apply N.eqb_neq in E. apply E. rewrite <- Ek. f_equal.
      apply (deref_iff _ _ _ ND) in Iy. apply (deref_iff _ _ _ ND) in Ia. congruence.
  Qed.

  Lemma set_last_in l : l <> [] -> exists x, set_last l = Some x /\ In x l.
  Proof.
    induction l as [|x l IH]; intros H; [congruence|]. destruct l as [|y l].
    - exists x. split; [reflexivity|now left].
    - destruct IH as (z & E & I); [discriminate|]. exists z. split; [exact E|now right].
  Qed.

  Lemma prune_spec c q height : pool_good c q ->
    exists q' ok, prune q height = Done (q', ok) /\ pool_good c q' /\
      (ok = true -> (length (q_by_prev q') <= N.to_nat 750)%nat) /\
      (ok = false -> q' = q /\ length (q_by_prev q) = N.to_nat 751 /\
         exists x o, in_heap q x o /\ (o_height o <= height)%Z) /\
      (forall x o, in_heap q' x o -> in_heap q x o) /\
      (forall x o, in_heap q x o -> in_heap q' x o \/
         length (q_by_prev q) = N.to_nat 751 /\ (height < o_height o)%Z).
  Proof.
    intros (S & [B1 B2] & HF & Ap). unfold prune.
    destruct (N.of_nat (length (q_by_prev q)) <=? max_orphans) eqn:E.
    - apply N.leb_le in E. unfold max_orphans in E. exists q, true.
      split; [reflexivity|]. split; [exact (conj S (conj (conj B1 B2) (conj HF Ap)))|]. split; [intros _; lia|].
      split; [discriminate|]. auto.
    - apply N.leb_gt in E. unfold max_orphans in E.
      assert (L : length (q_by_prev q) = N.to_nat 751) by lia.
      destruct (set_last_in (q_set q) (B2 L)) as (a & Ea & Ia). rewrite Ea.
      destruct (so_set _ _ S a Ia) as (o & Io).
      rewrite (proj2 (deref_iff _ _ _ (so_heap _ _ S)) Io). cbn [bind].
      destruct (o_height o <=? height)%Z eqn:Eh.
      + apply Z.leb_le in Eh. exists q, false. split; [reflexivity|]. split; [exact (conj S (conj (conj B1 B2) (conj HF Ap)))|].
        split; [discriminate|]. split; [|auto]. intros _. split; [reflexivity|]. split; [exact L|]. eauto.
      + apply Z.leb_gt in Eh.
        destruct (set_erase_spec q a o (so_heap _ _ S) Io (q_set q) (so_set _ _ S)) as (s & Es & Qs).
        rewrite Es. cbn [bind].
        destruct (erase_prev_spec q a o (so_heap _ _ S) Io) with (l := q_by_prev q) as (l & El & Ql & Nl & Ll).
        { intros x y Iy Ey. exact (proj1 (hash_unique q _ x a y o S Iy Io Ey)). }
        { intros k x I. apply (so_prev _ _ S). exact I. }
        { exact (so_prev_once _ _ S). }
        { apply (so_prev _ _ S). eauto. }
        rewrite El. cbn [bind]. eexists _, true. split; [reflexivity|].
        assert (Hh : forall x y, in_heap (release (mkPool (q_next q) (q_heap q) (without (o_hash o) (q_by_hash q)) l s) a) x y
                       <-> in_heap q x y /\ x <> a) by (intros x y; rewrite release_heap; reflexivity).
        split.
        { split; [|split; [|split]].
          - apply (drop_ok q a o (q_by_prev q)); auto. intros x I. apply Qs. exact I.
          - split; cbn [release q_by_prev q_set]; [lia|]. intros X. exfalso. lia.
          - intros f x y I. apply Hh in I as [I _]. exact (HF f _ _ I).
          - intros x y I. apply Hh in I as [I _]. exact (Ap _ _ I). }
        split; [intros _; cbn [release q_by_prev]; lia|]. split; [discriminate|].
        split; [intros x y I; apply Hh in I as [I _]; exact I|].
        intros x y I. destruct (N.eq_dec x a) as [->|Nx]; [|left; apply Hh; auto].
        right. split; [exact L|]. replace y with o; [exact Eh|].
        apply (deref_iff _ _ _ (so_heap _ _ S)) in I. apply (deref_iff _ _ _ (so_heap _ _ S)) in Io. congruence.
  Qed.

  Lemma keep_spec c q b : pool_good c q -> (length (q_by_prev q) <= N.to_nat 750)%nat ->
    known c (k_hash b) = false -> existsb (fun e => fst e =? k_hash b) (q_by_hash q) = false ->
    (F -> fits b) ->
    exists q', keep q b = Done q' /\ pool_good c q' /\
      forall x o, in_heap q' x o <-> in_heap q x o \/
        (x = q_next q /\ o = mkOrphan (k_hash b) (k_prev b) (signed32 (k_height b)) b).
  Proof.
    intros (S & [B1 B2] & HF & Ap) L Kb Eb Fb. unfold keep.
    set (a := q_next q). set (o := mkOrphan (k_hash b) (k_prev b) (signed32 (k_height b)) b).
    cbn [q_next q_heap q_by_hash q_by_prev q_set]. rewrite Eb.
    set (q1 := mkPool (a + 1) ((a, o) :: q_heap q) (q_by_hash q) (q_by_prev q) (q_set q)).
    assert (Fresh : forall y, ~ in_heap q a y).
    { intros y I. pose proof (so_next _ _ S _ _ I). unfold a in *. lia. }
    assert (H1 : forall x y, in_heap q1 x y <-> in_heap q x y \/ (x = a /\ y = o)).
    { intros x y. unfold in_heap, q1. cbn [q_heap In]. split.
      - intros [[= <- <-]|I]; auto.
      - intros [I|[-> ->]]; auto. }
    assert (ND1 : NoDup (map fst (q_heap q1))).
    { cbn [q1 q_heap map fst]. constructor; [|exact (so_heap _ _ S)]. intros I.
      apply in_map_iff in I as ([x y] & E & I). cbn in E. subst x. exact (Fresh y I). }
    assert (NH : forall y x, in_heap q x y -> o_hash y <> k_hash b).
    { intros y x I E. assert (X : existsb (fun e => fst e =? k_hash b) (q_by_hash q) = true).
      { apply existsb_exists. exists (k_hash b, x). split; [|apply N.eqb_refl].
        apply (so_hash _ _ S). eauto. }
      congruence. }
    destruct (set_insert_spec q1 a o ND1) with (l := q_set q) as (s & Es & Ns & Qs & _).
    { apply H1. auto. }
    { intros x I. destruct (so_set _ _ S x I) as (y & Iy). exists y. apply H1. auto. }
    rewrite Es. cbn [bind]. eexists. split; [reflexivity|].
    set (q2 := mkPool (a + 1) ((a, o) :: q_heap q) ((k_hash b, a) :: q_by_hash q) (q_by_prev q ++ [(k_prev b, a)]) s).
    assert (H2 : forall x y, in_heap q2 x y <-> in_heap q x y \/ (x = a /\ y = o)) by exact H1.
    split; [|exact H2]. split; [|split; [|split]].
    - constructor.
      + exact ND1.
      + intros x y I. apply H2 in I as [I|[-> _]]; cbn [q2 q_next].
        * pose proof (so_next _ _ S _ _ I). unfold a. lia.
        * lia.
      + cbn [q2 q_by_hash map fst]. constructor; [|exact (so_hash_once _ _ S)]. intros I.
        apply in_map_iff in I as ([h x] & E & I). cbn in E. subst h.
        apply (so_hash _ _ S) in I as (y & I & E). exact (NH _ _ I E).
      + intros h x. cbn [q2 q_by_hash In]. split.
        * intros [[= <- <-]|I].
          -- exists o. split; [apply H2; auto|reflexivity].
          -- apply (so_hash _ _ S) in I as (y & I & E). exists y. split; [apply H2; auto|exact E].
        * intros (y & I & E). apply H2 in I as [I|[-> ->]].
          -- right. apply (so_hash _ _ S). eauto.
          -- left. cbn in E. now subst h.
      + cbn [q2 q_by_prev]. rewrite map_app. cbn [map snd].
        apply (Permutation_NoDup (l := a :: map snd (q_by_prev q))); [apply Permutation_cons_append|].
        constructor; [|exact (so_prev_once _ _ S)]. intros I. apply in_map_iff in I as ([k x] & E & I).
        cbn in E. subst x. apply (so_prev _ _ S) in I as (y & I & _). exact (Fresh y I).
      + intros k x. cbn [q2 q_by_prev]. rewrite in_app_iff. cbn [In]. split.
        * intros [I|[[= <- <-]|[]]].
          -- apply (so_prev _ _ S) in I as (y & I & E). exists y. split; [apply H2; auto|exact E].
          -- exists o. split; [apply H2; auto|reflexivity].
        * intros (y & I & E). apply H2 in I as [I|[-> ->]].
          -- left. apply (so_prev _ _ S). eauto.
          -- right. left. cbn in E. now subst k.
      + intros x I. cbn [q2 q_set] in I. destruct (Qs x I) as [->|J].
        * exists o. apply H2. auto.
        * destruct (so_set _ _ S x J) as (y & Iy). exists y. apply H2. auto.
      + intros x y I. apply H2 in I as [I|[_ ->]]; [exact (so_shape _ _ S _ _ I)|]. cbn. auto.
    - split; cbn [q2 q_by_prev q_set]; [|intros _; exact Ns].
      rewrite app_length. cbn [length]. lia.
    - intros f x y I. apply H2 in I as [I|[_ ->]]; [exact (HF f _ _ I)|exact (Fb f)].
    - intros x y I. apply H2 in I as [I|[_ ->]]; [exact (Ap _ _ I)|exact Kb].
  Qed.

  (** * One block *)
  Definition node_good (n : node) : Prop :=
    pool_good (n_chain n) (n_pool n) /\ all_fit (n_chain n) /\ known (n_chain n) (c_tip (n_chain n)) = true.

  (** Of a block in the store: it is there still, or it has been pruned for the block [b], or it
      was handed over. *)
  Definition moved (n n' : node) (peer : bool) (b : blk) (o : orphan) : Prop :=
    (peer = true /\ known (n_chain n) (k_prev b) = false /\ n_chain n' = n_chain n /\
     length (q_by_prev (n_pool n)) = N.to_nat 751 /\ (signed32 (k_height b) < o_height o)%Z) \/
    gone (n_chain n') o.

  Definition held (q : pool) (b : blk) : Prop := exists a o, in_heap q a o /\ o_block o = b.

  Lemma process_spec peer clock n b : node_good n -> (F -> fits b) ->
    (F -> names_predecessor b) ->
    match process peer clock n b with
    | Done (n', ok) =>
        node_good n' /\ incl (c_index (n_chain n)) (c_index (n_chain n')) /\
        (forall x o, in_heap (n_pool n) x o -> in_heap (n_pool n') x o \/ moved n n' peer b o) /\
        (forall x o, in_heap (n_pool n') x o -> in_heap (n_pool n) x o \/
            (o_block o = b /\ k_prev b <> 0 /\ known (n_chain n) (k_prev b) = false /\
             check_block p clock b = true)) /\
        ((forall a o, in_heap (n_pool n) a o -> bp_given (o_block o) = true) -> bp_given b = true ->
          c_stopping (n_chain n') = c_stopping (n_chain n) /\
          ((forall c0, snd (best c0) = true) ->
           (forall a o, in_heap (n_pool n) a o -> known (n_chain n) (o_prev o) = false) ->
           forall a o, in_heap (n_pool n') a o -> known (n_chain n') (o_prev o) = false)) /\
        (forall P : blk -> Prop, (forall x, In x (c_index (n_chain n)) -> P x) ->
           (forall a o, in_heap (n_pool n) a o -> P (o_block o)) -> (check_block p clock b = true -> P b) ->
           forall x, In x (c_index (n_chain n')) -> P x) /\
        (forall J : chain -> Prop, (forall c0 b c1 ok, J c0 -> accepted_ok c0 b c1 ok -> J c1) ->
           J (n_chain n) -> J (n_chain n'))
    | Abort => ~ F
    | _ => False
    end.
  Proof.
    intros (PG & A & Kt) Fb Np. pose proof PG as (S & B & HF & Ap). unfold IntakeModel.process.
    assert (Same : node_good n /\ incl (c_index (n_chain n)) (c_index (n_chain n)) /\
        (forall x o, in_heap (n_pool n) x o -> in_heap (n_pool n) x o \/ moved n n peer b o) /\
        (forall x o, in_heap (n_pool n) x o -> in_heap (n_pool n) x o \/
            (o_block o = b /\ k_prev b <> 0 /\ known (n_chain n) (k_prev b) = false /\
             check_block p clock b = true)) /\
        ((forall a o, in_heap (n_pool n) a o -> bp_given (o_block o) = true) -> bp_given b = true ->
          c_stopping (n_chain n) = c_stopping (n_chain n) /\
          ((forall c0, snd (best c0) = true) ->
           (forall a o, in_heap (n_pool n) a o -> known (n_chain n) (o_prev o) = false) ->
           forall a o, in_heap (n_pool n) a o -> known (n_chain n) (o_prev o) = false)) /\
        (forall P : blk -> Prop, (forall x, In x (c_index (n_chain n)) -> P x) ->
           (forall a o, in_heap (n_pool n) a o -> P (o_block o)) -> (check_block p clock b = true -> P b) ->
           forall x, In x (c_index (n_chain n)) -> P x) /\
        (forall J : chain -> Prop, (forall c0 b c1 ok, J c0 -> accepted_ok c0 b c1 ok -> J c1) ->
           J (n_chain n) -> J (n_chain n))).
    { split; [exact (conj PG (conj A Kt))|]. split; [apply incl_refl|]. auto 9. }
    destruct (known (n_chain n) (k_hash b)) eqn:Kb; [exact Same|].
    destruct (existsb (fun e => fst e =? k_hash b) (q_by_hash (n_pool n))) eqn:Eb; [exact Same|].
    destruct (check_block p clock b) eqn:Cb; cbn [negb]; [|exact Same].
    destruct (negb (k_prev b =? 0) && negb (known (n_chain n) (k_prev b))) eqn:O.
    - apply andb_true_iff in O as [O1 O2]. rewrite negb_true_iff in O1, O2. apply N.eqb_neq in O1.
      destruct peer; [|exact Same].
      destruct (prune_spec _ _ (signed32 (k_height b)) PG) as (q1 & ok & E & PG1 & L1 & L2 & H1 & H2).
      rewrite E. cbn [bind]. destruct ok.
      + assert (Eb1 : existsb (fun e => fst e =? k_hash b) (q_by_hash q1) = false).
        { destruct (existsb _ (q_by_hash q1)) eqn:X; [|reflexivity]. exfalso.
          apply existsb_exists in X as ([h a] & I & Eh). cbn in Eh. apply N.eqb_eq in Eh. subst h.
          destruct PG1 as (S1 & _). apply (so_hash _ _ S1) in I as (o & I & Eo).
          assert (existsb (fun e => fst e =? k_hash b) (q_by_hash (n_pool n)) = true).
          { apply existsb_exists. exists (k_hash b, a). split; [|apply N.eqb_refl].
            apply (so_hash _ _ S). exists o. split; [apply H1; exact I|exact Eo]. }
          congruence. }
        destruct (keep_spec _ q1 b PG1 (L1 eq_refl) Kb Eb1 Fb) as (q2 & E2 & PG2 & H3).
        rewrite E2. cbn [bind n_chain n_pool].
        split; [exact (conj PG2 (conj A Kt))|]. split; [apply incl_refl|]. split.
        { intros x o I. destruct (H2 x o I) as [J|[J1 J2]]; [left; apply H3; auto|].
          right. left. auto. }
        split.
        { intros x o I. apply H3 in I as [I|[_ ->]]; [left; auto|]. right. cbn. auto. }
        split.
        { intros _ _. split; [reflexivity|]. intros _ W a o I.
          apply H3 in I as [I|[_ ->]]; [apply (W a); auto|]. exact O2. }
        split; auto.
      + destruct (L2 eq_refl) as (-> & _ & _). cbn [n_chain n_pool].
        destruct n as [c q]. exact Same.
    - assert (Pre : (k_height b = 0 \/ known (n_chain n) (k_prev b) = true) \/
                    (k_prev b = 0 /\ k_height b <> 0 /\ known (n_chain n) (k_prev b) = false)).
      { destruct (N.eq_dec (k_height b) 0) as [|Nh]; [auto|].
        destruct (known (n_chain n) (k_prev b)); [auto|]. right. split; [|auto].
        destruct (N.eq_dec (k_prev b) 0) as [|Nz]; [assumption|].
        apply N.eqb_neq in Nz. rewrite Nz in O. discriminate. }
      destruct Pre as [Pre|(X & Y & Z)].
      2:{ unfold IntakeModel.accept. rewrite Kb, Z, (proj2 (N.eqb_neq _ _) Y). cbn.
          intros f. destruct (Np f); congruence. }
      pose proof (accept_spec (n_chain n) b A Fb Pre) as AS.
      destruct (accept (n_chain n) b) as [[c1 ok]| | |]; cbn [bind]; auto.
      assert (I1 : incl (c_index (n_chain n)) (c_index c1)).
      { destruct AS as [[-> _]|(E1 & _)]; [apply incl_refl|]. rewrite E1. intros x Ix. apply in_or_app. now left. }
      assert (A1 : all_fit c1).
      { destruct AS as [[-> _]|(E1 & _)]; [exact A|]. intros f x Ix. rewrite E1 in Ix.
        apply in_app_or in Ix as [Ix|[<-|[]]]; [now apply A|exact (Fb f)]. }
      assert (T1 : known c1 (c_tip c1) = true).
      { pose proof (fun h => accepted_known (n_chain n) b c1 ok h AS) as M.
        destruct AS as [[-> _]|(_ & _ & [T|T] & _)]; [exact Kt| |exact T]. rewrite T. auto. }
      assert (K1 : forall g, known c1 g = true -> known (n_chain n) g = true \/ g = k_hash b).
      { intros g Kg. destruct AS as [[-> _]|(E1 & _)]; [auto|]. apply known_iff in Kg as (x & Ix & Ex).
        rewrite E1 in Ix. apply in_app_or in Ix as [Ix|[<-|[]]]; [|auto]. left. apply known_iff. eauto. }
      assert (Ap1 : apart c1 (n_pool n)).
      { intros x o I. pose proof (Ap _ _ I) as X. destruct (known c1 (o_hash o)) eqn:Ko; [|reflexivity].
        destruct (K1 _ Ko) as [K|E]; [congruence|]. exfalso.
        assert (existsb (fun e => fst e =? k_hash b) (q_by_hash (n_pool n)) = true); [|congruence].
        apply existsb_exists. exists (k_hash b, x). split; [|apply N.eqb_refl]. apply (so_hash _ _ S). eauto. }
      assert (PG1 : pool_good c1 (n_pool n)) by exact (conj S (conj B (conj HF Ap1))).
      assert (J1 : forall J : chain -> Prop, (forall c0 b c1 ok, J c0 -> accepted_ok c0 b c1 ok -> J c1) ->
                   J (n_chain n) -> J c1) by (intros J HJ Jc; exact (HJ _ _ _ _ Jc AS)).
      assert (P1 : forall P : blk -> Prop, (forall x, In x (c_index (n_chain n)) -> P x) -> P b ->
                   forall x, In x (c_index c1) -> P x).
      { intros P Pi Pb x Ix. destruct AS as [[-> _]|(E1 & _)]; [auto|]. rewrite E1 in Ix.
        apply in_app_or in Ix as [Ix|[<-|[]]]; auto. }
      destruct ok; cbn [negb].
      + destruct AS as [[_ X]|(E1 & _ & _ & St & Gb & _ & _)]; [discriminate|].
        assert (Kq : forall h, In h [k_hash b] -> known c1 h = true).
        { intros h [<-|[]]. apply known_iff. exists b. split; [|reflexivity]. rewrite E1. apply in_or_app.
          right. now left. }
        pose proof (work_spec (Datatypes.S (length (q_heap (n_pool n)))) [k_hash b] c1 (n_pool n) PG1 A1 Kq (le_n _)) as W.
        destruct (work _ _ _ _) as [[c2 q2]| | |]; cbn [bind n_chain n_pool]; auto.
        destruct W as (W1 & W2 & W3 & W4 & W5 & W6 & W7 & W8 & W9).
        split; [exact (conj W1 (conj W2 (W4 T1)))|]. split; [eapply incl_tran; eauto|].
        split. { intros x o I. destruct (W6 x o I) as [J|J]; [auto|]. right. right. exact J. }
        split; [intros x o I; left; auto|].
        split.
        { intros G Gb'. destruct (W7 G) as [V1 V2]. split.
          - rewrite V1, St, Gb'. cbn. now rewrite orb_false_r.
          - intros Bo Wt. apply (V2 Bo). intros a o I K. destruct (K1 _ K) as [K0|K0]; [|left; now symmetry].
            rewrite (Wt a o I) in K0. discriminate. }
        split; [|intros J HJ Jc; apply (W9 J HJ); exact (J1 J HJ Jc)].
        intros P Pi Ph Pb x Ix. apply (W8 P); [|exact Ph|exact Ix]. apply (P1 P); auto.
      + cbn [n_chain n_pool]. split; [exact (conj PG1 (conj A1 T1))|]. split; [exact I1|].
        split; [auto|]. split; [auto|]. split.
        { intros G Gb'. destruct AS as [[-> _]|(E1 & _ & _ & St & _ & Z & _)]; [auto|].
          split; [rewrite St, Gb'; cbn; now rewrite orb_false_r|].
          intros Bo. destruct (Z eq_refl Gb') as (c0 & X). rewrite Bo in X. discriminate. }
        split; [|exact J1].
        intros P Pi Ph Pb x Ix. apply (P1 P); auto.
  Qed.

  Lemma arrive_spec n e : node_good n -> (F -> fits (e_block e)) -> (F -> names_predecessor (e_block e)) ->
    match arrive n e with
    | Done n' =>
        node_good n' /\ incl (c_index (n_chain n)) (c_index (n_chain n')) /\
        (forall x o, in_heap (n_pool n) x o -> in_heap (n_pool n') x o \/ moved n n' (e_peer e) (e_block e) o) /\
        (forall x o, in_heap (n_pool n') x o -> in_heap (n_pool n) x o \/
            (o_block o = e_block e /\ k_prev (e_block e) <> 0 /\ known (n_chain n) (k_prev (e_block e)) = false /\
             check_block p (e_clock e) (e_block e) = true)) /\
        ((forall a o, in_heap (n_pool n) a o -> bp_given (o_block o) = true) -> bp_given (e_block e) = true ->
          c_stopping (n_chain n') = c_stopping (n_chain n) /\
          ((forall c0, snd (best c0) = true) ->
           (forall a o, in_heap (n_pool n) a o -> known (n_chain n) (o_prev o) = false) ->
           forall a o, in_heap (n_pool n') a o -> known (n_chain n') (o_prev o) = false)) /\
        (forall P : blk -> Prop, (forall x, In x (c_index (n_chain n)) -> P x) ->
           (forall a o, in_heap (n_pool n) a o -> P (o_block o)) ->
           (check_block p (e_clock e) (e_block e) = true -> P (e_block e)) ->
           forall x, In x (c_index (n_chain n')) -> P x) /\
        (forall J : chain -> Prop, (forall c0 b c1 ok, J c0 -> accepted_ok c0 b c1 ok -> J c1) ->
           J (n_chain n) -> J (n_chain n'))
    | Abort => ~ F
    | _ => False
    end.
  Proof.
    intros G Fb Np. unfold IntakeModel.arrive.
    destruct (e_peer e && (k_height (e_block e) <? e_final e)) eqn:E.
    - split; [exact G|]. split; [apply incl_refl|]. auto 9.
    - pose proof (process_spec (e_peer e) (e_clock e) n (e_block e) G Fb Np) as S.
      destruct (process (e_peer e) (e_clock e) n (e_block e)) as [[n' ok]| | |]; cbn [bind]; auto.
  Qed.

  Lemma run_spec l : forall n, node_good n ->
    (F -> forall e, In e l -> fits (e_block e) /\ names_predecessor (e_block e)) ->
    match run n l with
    | Done n' =>
        node_good n' /\
        (forall Q : blk -> Prop, (forall a o, in_heap (n_pool n) a o -> Q (o_block o)) ->
           (forall e, In e l -> Q (e_block e)) -> forall a o, in_heap (n_pool n') a o -> Q (o_block o)) /\
        ((forall a o, in_heap (n_pool n) a o -> bp_given (o_block o) = true) ->
         (forall e, In e l -> bp_given (e_block e) = true) ->
          c_stopping (n_chain n') = c_stopping (n_chain n) /\
          ((forall c0, snd (best c0) = true) ->
           (forall a o, in_heap (n_pool n) a o -> known (n_chain n) (o_prev o) = false) ->
           forall a o, in_heap (n_pool n') a o -> known (n_chain n') (o_prev o) = false)) /\
        (forall J : chain -> Prop, (forall c0 b c1 ok, J c0 -> accepted_ok c0 b c1 ok -> J c1) ->
           J (n_chain n) -> J (n_chain n'))
    | Abort => ~ F
    | _ => False
    end.
  Proof.
    induction l as [|e l IH]; intros n G H.
    - cbn [IntakeModel.run]. split; [exact G|]. split; [auto|]. split; auto.
    - cbn [IntakeModel.run].
      pose proof (arrive_spec n e G (fun f => proj1 (H f e (or_introl eq_refl)))
                    (fun f => proj2 (H f e (or_introl eq_refl)))) as S.
      destruct (arrive n e) as [n1| | |]; cbn [bind]; auto.
      destruct S as (G1 & I1 & M1 & N1 & W1 & P1 & J1).
      specialize (IH n1 G1 (fun f x I => H f x (or_intror I))).
      destruct (run n1 l) as [n2| | |]; auto.
      destruct IH as (G2 & Q2 & W2 & J2).
      split; [exact G2|]. split; [|split; [|intros J HJ Jc; apply (J2 J HJ); exact (J1 J HJ Jc)]].
      + intros Q Qh Ql. apply (Q2 Q).
        * intros a o I. destruct (N1 a o I) as [J|(-> & _)]; [exact (Qh _ _ J)|]. apply Ql. now left.
        * intros x I. apply Ql. now right.
      + intros Bh Bl.
        assert (Bh1 : forall a o, in_heap (n_pool n1) a o -> bp_given (o_block o) = true).
        { intros a o I. destruct (N1 a o I) as [J|(-> & _)]; [exact (Bh _ _ J)|]. apply Bl. now left. }
        destruct (W1 Bh (Bl e (or_introl eq_refl))) as [S1 V1].
        destruct (W2 Bh1 (fun x I => Bl x (or_intror I))) as [S2 V2].
        split; [congruence|]. intros Bo K. apply (V2 Bo). exact (V1 Bo K).
  Qed.

  (** What holds of the blocks that pass the checks holds of all that are kept or in the index. *)
  Lemma run_checked (P : blk -> Prop) l : forall n, node_good n ->
    (F -> forall e, In e l -> fits (e_block e) /\ names_predecessor (e_block e)) ->
    (forall x, In x (c_index (n_chain n)) -> P x) -> (forall a o, in_heap (n_pool n) a o -> P (o_block o)) ->
    (forall e, In e l -> check_block p (e_clock e) (e_block e) = true -> P (e_block e)) ->
    match run n l with
    | Done n' => (forall x, In x (c_index (n_chain n')) -> P x) /\ (forall a o, in_heap (n_pool n') a o -> P (o_block o))
    | _ => True
    end.
  Proof.
    induction l as [|e l IH]; intros n G H Pi Ph Pl; cbn [IntakeModel.run]; [auto|].
    pose proof (arrive_spec n e G (fun f => proj1 (H f e (or_introl eq_refl)))
                  (fun f => proj2 (H f e (or_introl eq_refl)))) as S.
    destruct (arrive n e) as [n1| | |]; cbn [bind]; auto.
    destruct S as (G1 & I1 & M1 & N1 & W1 & P1 & J1).
    apply IH; auto.
    - intros f x I. apply (H f). now right.
    - apply (P1 P Pi Ph). apply Pl. now left.
    - intros a o I. destruct (N1 a o I) as [J|(-> & _ & _ & C)]; [exact (Ph _ _ J)|]. apply Pl; [now left|exact C].
    - intros x I. apply Pl. now right.
  Qed.

  Lemma distinct_nodup l : distinct l = true -> NoDup l.
  Proof.
    induction l as [|x l IH]; cbn [distinct]; [constructor|]. intros E. apply andb_true_iff in E as [E1 E2].
    constructor; [|auto]. intros I. apply negb_true_iff in E1.
    assert (existsb (N.eqb x) l = true) by (apply existsb_exists; exists x; split; [exact I|apply N.eqb_refl]). congruence.
  Qed.

  Lemma one_of {A} (f : A -> bool) l : length (filter f l) = 1%nat ->
    exists a x r, l = a ++ x :: r /\ f x = true /\ forall y, In y (a ++ r) -> f y = false.
  Proof.
    induction l as [|y l IH]; cbn [filter]; [discriminate|]. destruct (f y) eqn:E.
    - cbn [length]. intros L. exists [], y, l. split; [reflexivity|]. split; [exact E|]. cbn. intros z I.
      destruct (f z) eqn:Z; [|reflexivity]. assert (J : In z (filter f l)) by (apply filter_In; auto).
      destruct (filter f l); [destruct J|discriminate].
    - intros L. destruct (IH L) as (a & x & r & -> & Fx & Q). exists (y :: a), x, r. split; [reflexivity|].
      split; [exact Fx|]. intros z [<-|I]; auto.
  Qed.

  Lemma check_form clock b : check_block p clock b = true ->
    well_formed p b /\ (k_time b <= clock + interval (p_rules p) (signed32 (k_height b)) + 2)%Z.
  Proof.
    unfold check_block. rewrite !andb_true_iff. intros ((((((((((_ & C2) & C3) & C4) & C5) & C6) & C7) & C8) & C9) & C10) & C11).
    assert (G : k_hash b <> p_genesis p -> genuine p b = false).
    { intros N. unfold genuine. apply N.eqb_neq in N. rewrite N. apply andb_false_r. }
    split; [|lia]. split.
    { destruct (k_txs b) as [|t ts]; [discriminate|]. exists t, ts. split; [reflexivity|].
      split; [destruct (x_kind t); try discriminate; reflexivity|]. intros N x I E. rewrite (G N) in C7. cbn [orb tl] in C7.
      apply negb_true_iff in C7. assert (existsb (fun t => is_reward (x_kind t)) ts = true); [|congruence].
      apply existsb_exists. exists x. rewrite E. auto. }
    split; [now apply distinct_nodup|]. split; [apply N.leb_le; exact C2|]. split; [apply N.leb_le; exact C3|].
    split; [apply N.leb_le; exact C11|]. split; [exact C10|].
    split; [intros N; rewrite (G N) in C4; cbn [orb] in C4; apply Z.eqb_eq; exact C4|].
    intros Hh Hr. unfold signed32 in C8. rewrite (proj2 (N.ltb_lt _ _) Hh) in C8.
    rewrite (proj2 (Z.ltb_ge _ _) Hr) in C8. cbn [orb] in C8. apply N.eqb_eq in C8.
    destruct (one_of (fun t => is_median (x_kind t)) (k_txs b)) as (l & x & r & E & M & Q); [lia|].
    exists l, x, r. split; [exact E|]. split; [destruct (x_kind x); try discriminate; reflexivity|].
    intros y I Ky. specialize (Q y I). rewrite Ky in Q. discriminate.
  Qed.

  Lemma start_good g : (F -> fits g) -> node_good (start g).
  Proof.
    intros Fg. split; [|split].
    - split; [|split; [|split]].
      + constructor.
        * constructor.
        * intros a o [].
        * constructor.
        * intros h a. split; [intros []|intros (o & [] & _)].
        * constructor.
        * intros k a. split; [intros []|intros (o & [] & _)].
        * intros a [].
        * intros a o [].
      + split; cbn; [lia|]. intros E. exfalso. lia.
      + intros f a o [].
      + intros a o [].
    - intros f b [<-|[]]. exact (Fg f).
    - cbn. now rewrite N.eqb_refl.
  Qed.
End Proofs.

(** * What can be seen of the store *)
Section Kept.
  Variable p : params.
  Variable F : Prop.
  Notation node_good := (node_good p F).

  Lemma kept_iff n : node_good n -> forall b, In b (kept n) <-> held (n_pool n) b.
  Proof.
    intros ((S & _) & _) b. unfold kept, held. rewrite in_flat_map. split.
    - intros ([h a] & I & J). cbn [snd] in J. apply (so_hash _ _ S) in I as (o & I & E).
      rewrite (proj2 (deref_iff _ _ _ (so_heap _ _ S)) I) in J. destruct J as [<-|[]]. eauto.
    - intros (a & o & I & E). exists (o_hash o, a). split; [apply (so_hash _ _ S); eauto|].
      cbn [snd]. rewrite (proj2 (deref_iff _ _ _ (so_heap _ _ S)) I). left. exact E.
  Qed.

  Lemma kept_hashes n : node_good n -> map k_hash (kept n) = map fst (q_by_hash (n_pool n)).
  Proof.
    intros ((S & _) & _). unfold kept.
    assert (A : forall e, In e (q_by_hash (n_pool n)) -> exists o, deref (n_pool n) (snd e) = Done o /\ k_hash (o_block o) = fst e).
    { intros [h a] I. apply (so_hash _ _ S) in I as (o & I & E). exists o. cbn [fst snd].
      split; [exact (proj2 (deref_iff _ _ _ (so_heap _ _ S)) I)|].
      destruct (so_shape _ _ S _ _ I) as (X & _). congruence. }
    revert A. induction (q_by_hash (n_pool n)) as [|e l IH]; intros A; [reflexivity|].
    cbn [flat_map]. destruct (A e (or_introl eq_refl)) as (o & E & H). rewrite E. cbn [app map].
    rewrite H, IH; [reflexivity|]. intros x I. apply A. now right.
  Qed.

  Lemma kept_length n : node_good n -> length (kept n) = length (q_by_prev (n_pool n)).
  Proof.
    intros G. rewrite <- (map_length k_hash), (kept_hashes n G), map_length.
    destruct G as ((S & _) & _). set (q := n_pool n) in *.
    assert (L1 : length (q_by_hash q) = length (q_heap q)).
    { apply Nat.le_antisymm.
      - rewrite <- (map_length fst (q_heap q)), <- (map_length snd (q_by_hash q)). apply NoDup_incl_length.
        + pose proof (so_hash_once _ _ S) as ND. pose proof (so_hash _ _ S) as H. pose proof (so_heap _ _ S) as NH.
          assert (H' : forall h a, In (h, a) (q_by_hash q) -> exists o, in_heap q a o /\ o_hash o = h) by (intros; now apply H).
          clear H. revert H'. induction (q_by_hash q) as [|[h a] l IH]; intros H; [constructor|].
          cbn in ND. inversion ND as [|? ? NI ND']; subst. cbn. constructor.
          * intros I. apply in_map_iff in I as ([h' a'] & E & I). cbn in E. subst a'.
            destruct (H h a (or_introl eq_refl)) as (o & I1 & E1).
            destruct (H h' a (or_intror I)) as (o' & I2 & E2).
            apply (deref_iff _ _ _ NH) in I1. apply (deref_iff _ _ _ NH) in I2.
            apply NI. apply in_map_iff. exists (h', a). split; [cbn; congruence|exact I].
          * apply IH; auto. intros h' a' I. apply H. now right.
        + intros x I. apply in_map_iff in I as ([h a] & <- & I). apply (so_hash _ _ S) in I as (o & I & _).
          apply in_map_iff. now exists (a, o).
      - rewrite <- (map_length (fun e => o_hash (snd e)) (q_heap q)), <- (map_length fst (q_by_hash q)).
        apply NoDup_incl_length.
        + assert (U : forall a o a' o', In (a, o) (q_heap q) -> In (a', o') (q_heap q) -> o_hash o = o_hash o' -> a = a').
          { intros a o a' o' I I' E. exact (proj1 (hash_unique q _ a a' o o' S I I' E)). }
          pose proof (so_heap _ _ S) as NH. revert U. induction (q_heap q) as [|[a o] l IH]; intros U; [constructor|].
          cbn in NH. inversion NH as [|? ? NI NH']; subst. cbn. constructor.
          * intros I. apply in_map_iff in I as ([a' o'] & E & I). cbn in E.
            assert (a' = a) by (apply (U a' o' a o); [now right|now left|exact E]). subst a'.
            apply NI. apply in_map_iff. now exists (a, o').
          * apply IH; auto. intros x y x' y' I I' E. apply (U x y x' y'); auto; now right.
        + intros x I. apply in_map_iff in I as ([a o] & <- & I). apply in_map_iff. exists (o_hash o, a).
          split; [reflexivity|]. apply (so_hash _ _ S). now exists o. }
    rewrite L1. apply Nat.le_antisymm.
    - rewrite <- (map_length fst (q_heap q)), <- (map_length snd (q_by_prev q)). apply NoDup_incl_length; [exact (so_heap _ _ S)|].
      intros x I. apply in_map_iff in I as ([a o] & <- & I). apply in_map_iff. exists (o_prev o, a).
      split; [reflexivity|]. apply (so_prev _ _ S). now exists o.
    - rewrite <- (map_length fst (q_heap q)), <- (map_length snd (q_by_prev q)). apply NoDup_incl_length; [exact (so_prev_once _ _ S)|].
      intros x I. apply in_map_iff in I as ([k a] & <- & I). apply (so_prev _ _ S) in I as (o & I & _).
      apply in_map_iff. now exists (a, o).
  Qed.

  Lemma knows_iff n h : knows n h <-> known (n_chain n) h = true.
  Proof. unfold knows. now rewrite known_iff. Qed.

  (** There is always a hash that the node has not seen. *)
  Lemma new_hash n : exists h, h <> 0 /\ known (n_chain n) h = false /\
    existsb (fun e => fst e =? h) (q_by_hash (n_pool n)) = false.
  Proof.
    exists (1 + fold_right N.max 0 (map k_hash (c_index (n_chain n)) ++ map fst (q_by_hash (n_pool n)))).
    set (l := map k_hash _ ++ map fst _). set (m := fold_right N.max 0 l).
    assert (M : forall x, In x l -> x <= m).
    { unfold m. clearbody l. induction l as [|y l IH]; intros x []; cbn [fold_right]; [lia|].
      specialize (IH x H). lia. }
    split; [lia|]. split.
    - destruct (known _ _) eqn:K; [|reflexivity]. apply known_iff in K as (b & I & E).
      specialize (M (k_hash b) (in_or_app _ _ _ (or_introl (in_map _ _ _ I)))). lia.
    - destruct (existsb _ _) eqn:K; [|reflexivity]. apply existsb_exists in K as (e & I & E).
      apply N.eqb_eq in E. specialize (M (fst e) (in_or_app _ _ _ (or_intror (in_map _ _ _ I)))). lia.
  Qed.
End Kept.

Lemma releases_fits p b : length (p_mints p) = 3%nat -> releases p b -> fits p b.
Proof.
  intros L R E. destruct (R E) as (r & x & y & z & Et & Ek & Ei).
  destruct (p_mints p) as [|m1 [|m2 [|m3 [|m4 ms]]]] eqn:Em; try discriminate L.
  unfold release_shape. rewrite Et, Em. cbn in *. injection Ek as -> -> ->. cbn.
  destruct (p_main p); cbn; [|reflexivity]. injection (Ei eq_refl) as -> -> ->. now rewrite !N.eqb_refl.
Qed.

Lemma producer_given b : names_producer b -> bp_given b = true.
Proof.
  intros H. unfold bp_given. destruct (k_height b =? 0) eqn:E; [reflexivity|]. apply N.eqb_neq in E.
  destruct (H E) as (t & ts & -> & R). exact R.
Qed.
