(** Proofs about the block index and chains. *)
From Coq Require Import List Bool NArith ZArith Lia Permutation Sorted.
From Coq Require Import ZifyBool ZifyNat ZifyN.
From Verif Require Import Prelude PreludeFacts AccountModel DexModel DexProofs ChainModel ChainSpec.
Import ListNotations.
Open Scope Z_scope.

(** ** Skip heights *)

Lemma land_le a b : 0 <= b -> Z.land a b <= b.
Proof.
  intros B. assert (E : b - Z.land a b = Z.ldiff b (Z.land a b)).
  { apply Z.sub_nocarry_ldiff. apply Z.bits_inj'. intros n _. rewrite Z.ldiff_spec, Z.land_spec, Z.bits_0.
    destruct (Z.testbit a n), (Z.testbit b n); reflexivity. }
  assert (0 <= Z.ldiff b (Z.land a b)) by (apply Z.ldiff_nonneg; now left).
  lia.
Qed.

Lemma invert_bounds n : 0 <= n -> 0 <= invert_lowest_one n <= n.
Proof.
  intros P. unfold invert_lowest_one. split; [apply Z.land_nonneg; now left|].
  rewrite Z.land_comm. now apply land_le.
Qed.
Lemma invert_less n : 1 <= n -> invert_lowest_one n <= n - 1.
Proof. intros P. unfold invert_lowest_one. apply land_le. lia. Qed.

Lemma skip_bounds h : 1 <= h -> 0 <= skip_height h < h.
Proof.
  intros P. unfold skip_height. destruct (Z.ltb_spec h 2) as [L|L]; [lia|].
  destruct (Z.odd h) eqn:O.
  - assert (h <> 2) by (intros ->; discriminate).
    pose proof (invert_less (h - 1) ltac:(lia)) as A.
    pose proof (invert_bounds (h - 1) ltac:(lia)) as B.
    pose proof (invert_bounds (invert_lowest_one (h - 1)) ltac:(lia)) as C. lia.
  - pose proof (invert_less h ltac:(lia)). pose proof (invert_bounds h ltac:(lia)). lia.
Qed.
Lemma skip_nonneg h : 0 <= skip_height h.
Proof.
  destruct (Z.le_gt_cases 1 h); [apply skip_bounds; lia|]. unfold skip_height.
  destruct (Z.ltb_spec h 2); lia.
Qed.

(** ** Going back *)
Section Up.
  Variable par : N -> option N.

  Lemma up_det b k a a' : up par b k a -> up par b k a' -> a = a'.
  Proof.
    intros U. revert a'. induction U as [b|b p k a E U IH]; intros a' V; inversion V; subst; [easy|].
    apply IH. congruence.
  Qed.
  Lemma up_app b k x j a : up par b k x -> up par x j a -> up par b (k + j) a.
  Proof. intros U V. induction U; cbn [Nat.add]; [easy|]. econstructor; eauto. Qed.
  Lemma up_split k : forall b j a, up par b (k + j) a -> exists x, up par b k x /\ up par x j a.
  Proof.
    induction k as [|k IH]; intros b j a U; cbn [Nat.add] in U.
    - exists b. split; [constructor|easy].
    - inversion U as [|b' p k' a' E V]; subst. destruct (IH p j a V) as (x & X & Y).
      exists x. split; [econstructor; eauto|easy].
  Qed.
  Lemma up_between b k j x a : up par b k x -> up par b j a -> (k <= j)%nat -> up par x (j - k) a.
  Proof.
    intros U V L. replace j with (k + (j - k))%nat in V by lia.
    destruct (up_split k b (j - k)%nat a V) as (y & Y & Z). now rewrite (up_det b k x y U Y).
  Qed.
  Lemma up_one b p : par b = Some p -> up par b 1 p.
  Proof. intros E. econstructor; [eauto|constructor]. Qed.

  Lemma generation_det b n m : generation par b n -> generation par b m -> n = m.
  Proof.
    intros (g & U & G) (g' & U' & G').
    destruct (Nat.lt_trichotomy n m) as [L|[L|L]]; [|easy|].
    - pose proof (up_between b n m g g' U U' ltac:(lia)) as V.
      replace (m - n)%nat with (S (m - n - 1)) in V by lia. inversion V; subst; congruence.
    - pose proof (up_between b m n g' g U' U ltac:(lia)) as V.
      replace (n - m)%nat with (S (n - m - 1)) in V by lia. inversion V; subst; congruence.
  Qed.
  Lemma generation_up b n k a : generation par b n -> up par b k a ->
    (k <= n)%nat /\ generation par a (n - k).
  Proof.
    intros (g & U & G) V. destruct (Nat.le_gt_cases k n) as [L|L].
    - split; [easy|]. exists g. split; [|easy]. eapply up_between; eauto.
    - pose proof (up_between b n k g a U V ltac:(lia)) as W.
      replace (k - n)%nat with (S (k - n - 1)) in W by lia. inversion W; subst; congruence.
  Qed.
  Lemma up_exists b n k : generation par b n -> (k <= n)%nat -> exists a, up par b k a.
  Proof.
    intros (g & U & _) L. replace n with (k + (n - k))%nat in U by lia.
    destruct (up_split _ _ _ _ U) as (x & X & _). eauto.
  Qed.
  Lemma back_trans a b c : back par a b -> back par b c -> back par a c.
  Proof. intros (k & U) (j & V). exists (k + j)%nat. eapply up_app; eauto. Qed.
  Lemma back_refl b : back par b b.
  Proof. exists 0%nat. constructor. Qed.
  Lemma back_antisym a b n : generation par a n -> back par a b -> back par b a -> a = b.
  Proof.
    intros G (k & U) (j & V). pose proof (up_app _ _ _ _ _ U V) as W.
    destruct (generation_up a n (k + j) a G W) as [L G'].
    pose proof (generation_det _ _ _ G G'). assert (k = 0%nat) by lia. subst.
    now inversion U.
  Qed.
  (** Two blocks on the way back from a third: one is on the way back from the other. *)
  Lemma back_linear b x y kx ky : up par b kx x -> up par b ky y -> (kx <= ky)%nat -> back par x y.
  Proof. intros U V L. exists (ky - kx)%nat. eapply up_between; eauto. Qed.
End Up.

Lemma up_ext par par' : forall b k a, (forall x j, up par b j x -> par' x = par x) ->
  up par b k a -> up par' b k a.
Proof.
  intros b k a E U. induction U as [b|b p k a P U IH]; [constructor|].
  econstructor.
  - rewrite (E b 0%nat) by constructor. exact P.
  - apply IH. intros x j V. apply (E x (S j)). econstructor; eauto.
Qed.

(** ** Well formed trees *)
Definition height_of (t : list (N * node)) (b : N) : Z :=
  match fget N.eqb t b with Some n => n_height n | None => 0 end.
Definition known (t : list (N * node)) (b : N) : Prop := exists n, fget N.eqb t b = Some n.

(** The links are those of [par], and heights count predecessors. *)
Definition linked (par : N -> option N) (t : list (N * node)) : Prop :=
  (forall b n, fget N.eqb t b = Some n -> n_prev n = par b)
  /\ (forall b n, fget N.eqb t b = Some n -> 0 <= n_height n <= MAX_HEIGHT
        /\ generation par b (Z.to_nat (n_height n)))
  /\ (forall b n p, fget N.eqb t b = Some n -> par b = Some p -> known t p).
(** The skip links lead to the heights they should. *)
Definition skip_ok (par : N -> option N) (b : N) (n : node) : Prop :=
  par b <> None -> exists a, n_skip n = Some a
    /\ up par b (Z.to_nat (n_height n - skip_height (n_height n))) a.
Definition skips (par : N -> option N) (t : list (N * node)) : Prop :=
  forall b n, fget N.eqb t b = Some n -> skip_ok par b n.
(** All branches begin with the same block. *)
Definition one_root (par : N -> option N) (t : list (N * node)) : Prop :=
  forall a b, known t a -> known t b -> par a = None -> par b = None -> a = b.

Section Linked.
  Variable par : N -> option N.

  Lemma up_known t b k a : linked par t -> known t b -> up par b k a -> known t a.
  Proof.
    intros (_ & _ & C) K U. induction U as [b|b p k a P U IH]; [easy|]. apply IH.
    destruct K as (n & E). eauto.
  Qed.
  Lemma height_known t b n : fget N.eqb t b = Some n -> height_of t b = n_height n.
  Proof. intros E. unfold height_of. now rewrite E. Qed.
  Lemma height_gen t b : linked par t -> known t b ->
    0 <= height_of t b <= MAX_HEIGHT /\ generation par b (Z.to_nat (height_of t b)).
  Proof. intros (_ & G & _) (n & E). rewrite (height_known t b n E). eauto. Qed.
  Lemma height_up t b k a : linked par t -> known t b -> up par b k a ->
    height_of t a = height_of t b - Z.of_nat k.
  Proof.
    intros L K U. destruct (height_gen t b L K) as [B G].
    destruct (generation_up par b _ k a G U) as [Lk G'].
    destruct (height_gen t a L (up_known t b k a L K U)) as [B' G''].
    pose proof (generation_det par a _ _ G' G''). lia.
  Qed.
  Lemma height_zero t b : linked par t -> known t b -> (height_of t b = 0 <-> par b = None).
  Proof.
    intros L K. destruct (height_gen t b L K) as [B (g & U & G)]. split.
    - intros Z. rewrite Z in U. inversion U; subst; easy.
    - intros E. destruct (Z.to_nat (height_of t b)) as [|k] eqn:X; [lia|]. inversion U; subst; congruence.
  Qed.
  Lemma deref_known t b : known t b -> exists n, deref t (Some b) = Done n /\ fget N.eqb t b = Some n.
  Proof. intros (n & E). exists n. unfold deref. now rewrite E. Qed.
  Lemma deref_done t p n : deref t p = Done n -> exists b, p = Some b /\ fget N.eqb t b = Some n.
  Proof.
    unfold deref. destruct p as [b|]; [|discriminate]. destruct (fget N.eqb t b) eqn:E; [|discriminate].
    intros H. injection H as <-. eauto.
  Qed.

  Lemma walk_S t fuel p hw target : walk t (S fuel) p hw target =
    if hw <=? target then Done p
    else let hs := skip_height hw in
         let hsp := skip_height (hw - 1) in
         do n <- deref t p;
         if (hs =? target) || ((target <? hs) && negb ((hsp <? hs - 2) && (target <=? hsp)))
         then walk t fuel (n_skip n) hs target
         else walk t fuel (n_prev n) (hw - 1) target.
  Proof. reflexivity. Qed.

  (** The walk from [b] reaches the predecessor at the height asked for. *)
  Lemma walk_ok t fuel : forall b target, linked par t ->
    (forall x k n, up par b k x -> fget N.eqb t x = Some n -> n_height n > target -> skip_ok par x n) ->
    known t b -> 0 <= target <= height_of t b -> (Z.to_nat (height_of t b) <= fuel)%nat ->
    exists a, walk t fuel (Some b) (height_of t b) target = Done (Some a)
      /\ up par b (Z.to_nat (height_of t b - target)) a.
  Proof.
    induction fuel as [|fuel IH]; intros b target L Sk K T F.
    - assert (Z : height_of t b = 0) by lia. rewrite Z. cbn [walk].
      destruct (Z.leb_spec 0 target); [|lia]. exists b. split; [easy|].
      replace (Z.to_nat (0 - target)) with 0%nat by lia. constructor.
    - rewrite walk_S. destruct (Z.leb_spec (height_of t b) target) as [Le|Gt].
      + exists b. split; [easy|]. replace (Z.to_nat (height_of t b - target)) with 0%nat by lia. constructor.
      + cbn zeta. set (hs := skip_height (height_of t b)).
        set (hsp := skip_height (height_of t b - 1)).
        destruct (deref_known t b K) as (n & D & E). rewrite D. cbn [bind].
        assert (Hn := height_known t b n E).
        pose proof (skip_bounds (height_of t b) ltac:(lia)) as SB. fold hs in SB.
        assert (Np : par b <> None) by (intros X; apply (height_zero t b L K) in X; lia).
        pose proof L as (Lp & Lh & Lc).
        destruct ((hs =? target) || ((target <? hs) && negb ((hsp <? hs - 2) && (target <=? hsp)))) eqn:C.
        * assert (T2 : target <= hs) by (clear - C; lia).
          destruct (Sk b 0%nat n (up_here par b) E ltac:(lia) Np) as (s & Es & U).
          rewrite Es. rewrite <- Hn in U. fold hs in U.
          assert (Ks : known t s) by (eapply up_known; eauto).
          assert (Hs : height_of t s = hs) by (rewrite (height_up t b _ s L K U); lia).
          destruct (IH s target L) as (a & W & V); [|easy|lia|lia|].
          { intros x k m Ux Ex Hx. apply (Sk x (Z.to_nat (height_of t b - hs) + k)%nat m); [|easy|easy].
            eapply up_app; eauto. }
          rewrite Hs in W, V. exists a. split; [exact W|].
          pose proof (up_app par _ _ _ _ _ U V) as X.
          replace (Z.to_nat (height_of t b - hs) + Z.to_nat (hs - target))%nat
            with (Z.to_nat (height_of t b - target)) in X by lia. exact X.
        * rewrite (Lp b n E). destruct (par b) as [p|] eqn:P; [|easy].
          assert (U : up par b 1 p) by (now apply up_one).
          assert (Kp : known t p) by (eapply up_known; eauto).
          assert (Hp : height_of t p = height_of t b - 1) by (rewrite (height_up t b 1 p L K U); lia).
          destruct (IH p target L) as (a & W & V); [|easy|lia|lia|].
          { intros x k m Ux Ex Hx. apply (Sk x (1 + k)%nat m); [|easy|easy]. eapply up_app; eauto. }
          rewrite Hp in W, V. exists a. split; [exact W|].
          pose proof (up_app par _ _ _ _ _ U V) as X.
          replace (1 + Z.to_nat (height_of t b - 1 - target))%nat
            with (Z.to_nat (height_of t b - target)) in X by lia. exact X.
  Qed.

  Lemma ancestor_ok t b h : linked par t ->
    (forall x k n, up par b k x -> fget N.eqb t x = Some n -> n_height n > h -> skip_ok par x n) ->
    known t b ->
    (0 <= h <= height_of t b -> exists a, get_ancestor t (Some b) h = Done (Some a)
        /\ up par b (Z.to_nat (height_of t b - h)) a)
    /\ (h < 0 \/ height_of t b < h -> get_ancestor t (Some b) h = Done None).
  Proof.
    intros L Sk K. destruct (deref_known t b K) as (n & D & E). assert (Hn := height_known t b n E).
    unfold get_ancestor. rewrite D. cbn [bind]. rewrite <- Hn. split.
    - intros R. destruct (Z.ltb_spec (height_of t b) h); [lia|]. destruct (Z.ltb_spec h 0); [lia|].
      cbn [orb]. destruct (walk_ok t (Z.to_nat (height_of t b)) b h L Sk K) as (a & W & U); [lia|lia|].
      exists a. auto.
    - intros R. destruct (Z.ltb_spec (height_of t b) h); [easy|]. destruct (Z.ltb_spec h 0); [easy|]. lia.
  Qed.
End Linked.

(** ** Histories of the block index *)

(** The block index [t] after the blocks of [l] arrived, the newest first: the first has no
    predecessor, every other one arrives after its predecessor (AcceptBlock, main.cpp:1891,
    1902-1904). In between blocks are marked as failed or not, and the index is written to disk
    and loaded again. *)
Inductive grown : list (N * option N) -> list (N * node) -> Prop :=
| grown_first b prev seq t : prev <> b -> add_index [] b prev seq = Done t -> grown [(b, None)] t
| grown_next l t b prev seq t' : grown l t -> In prev (map fst l) ->
    add_index t b prev seq = Done t' -> grown ((b, Some prev) :: l) t'
| grown_mark l t b n f : grown l t -> fget N.eqb t b = Some n ->
    grown l (fput N.eqb t b (marked n f))
| grown_marks l t g : grown l t -> grown l (remark g t)
| grown_load l t order t' : grown l t -> Permutation order (keys t) ->
    StronglySorted (fun a b => height_of t a <= height_of t b) order ->
    build_skips (load_indexes (store t)) order = Done t' -> grown l t'.

Definition proper (par : N -> option N) (t : list (N * node)) : Prop :=
  linked par t /\ skips par t /\ one_root par t /\ NoDup (keys t).

Lemma fmem_true (t : list (N * node)) b : fmem N.eqb t b = true <-> known t b.
Proof.
  unfold fmem, known. destruct (fget N.eqb t b); split; try easy; [eauto|]. intros (n & E). discriminate.
Qed.
Lemma known_keys (t : list (N * node)) b : known t b <-> In b (keys t).
Proof.
  unfold known. destruct (fget N.eqb t b) eqn:E.
  - split; [intros _; now apply (fget_some_key N.eqb N_eqb_ok) in E|eauto].
  - pose proof (proj1 (fget_none N.eqb N_eqb_ok t b) E). split; [intros (n & X); congruence|easy].
Qed.

(** Two trees with the same links and heights. *)
Definition same_links (t t' : list (N * node)) : Prop :=
  forall b, option_map (fun n => (n_prev n, n_height n)) (fget N.eqb t b)
          = option_map (fun n => (n_prev n, n_height n)) (fget N.eqb t' b).
Lemma same_known t t' b : same_links t t' -> known t b -> known t' b.
Proof.
  intros S (n & E). specialize (S b). rewrite E in S. unfold known.
  destruct (fget N.eqb t' b) as [m|]; [eauto|discriminate].
Qed.
Lemma same_sym t t' : same_links t t' -> same_links t' t.
Proof. intros S b. now rewrite S. Qed.
Lemma same_trans t1 t2 t3 : same_links t1 t2 -> same_links t2 t3 -> same_links t1 t3.
Proof. intros A B b. now rewrite (A b), (B b). Qed.
Lemma same_get t t' b n : same_links t t' -> fget N.eqb t' b = Some n ->
  exists m, fget N.eqb t b = Some m /\ n_prev m = n_prev n /\ n_height m = n_height n.
Proof.
  intros S E. specialize (S b). rewrite E in S. destruct (fget N.eqb t b) as [m|]; [|discriminate].
  injection S as A B. eauto.
Qed.
Lemma same_height t t' b : same_links t t' -> height_of t b = height_of t' b.
Proof.
  intros S. specialize (S b). unfold height_of.
  destruct (fget N.eqb t b), (fget N.eqb t' b); cbn in S; congruence.
Qed.
Lemma same_linked par t t' : same_links t t' -> linked par t -> linked par t'.
Proof.
  intros S (A & B & C). split; [|split].
  - intros b n E. destruct (same_get t t' b n S E) as (m & Em & P & H). rewrite <- P. eauto.
  - intros b n E. destruct (same_get t t' b n S E) as (m & Em & P & H). rewrite <- H. eauto.
  - intros b n p E P. destruct (same_get t t' b n S E) as (m & Em & _). eapply same_known; eauto.
Qed.
Lemma same_root par t t' : same_links t t' -> one_root par t -> one_root par t'.
Proof.
  intros S R a b A B. apply same_sym in S. apply R; eapply same_known; eauto.
Qed.
Lemma same_put t b n m : fget N.eqb t b = Some n -> n_prev m = n_prev n -> n_height m = n_height n ->
  same_links t (fput N.eqb t b m).
Proof.
  intros E P H x. destruct (N.eq_dec x b) as [->|D].
  - rewrite fget_put_same, E by apply N_eqb_ok. cbn. congruence.
  - now rewrite fget_put_other by (auto using N_eqb_ok).
Qed.

Lemma proper_mark par t b n f : proper par t -> fget N.eqb t b = Some n ->
  proper par (fput N.eqb t b (marked n f)).
Proof.
  intros (L & S & R & D) E. assert (Q : same_links t (fput N.eqb t b (marked n f))) by now apply same_put with n.
  split; [now apply same_linked with t|]. split; [|split; [now apply same_root with t|]].
  - intros x m Ex. destruct (N.eq_dec x b) as [->|Dx].
    + rewrite fget_put_same in Ex by apply N_eqb_ok. injection Ex as <-. exact (S b n E).
    + rewrite fget_put_other in Ex by (auto using N_eqb_ok). eauto.
  - now apply nodup_put; [apply N_eqb_ok|].
Qed.

Lemma remark_get g t b : fget N.eqb (remark g t) b = option_map (fun n => marked n (g b)) (fget N.eqb t b).
Proof.
  induction t as [|[x n] t IH]; [reflexivity|]. cbn [remark map fget fst snd].
  destruct (N.eqb_spec b x) as [->|_]; [reflexivity|]. exact IH.
Qed.
Lemma remark_keys g t : keys (remark g t) = keys t.
Proof. unfold keys, remark. now rewrite map_map. Qed.
Lemma remark_links g t : same_links t (remark g t).
Proof. intros b. rewrite remark_get. now destruct (fget N.eqb t b). Qed.
Lemma proper_marks par g t : proper par t -> proper par (remark g t).
Proof.
  intros (L & S & R & D). pose proof (remark_links g t) as Q.
  split; [now apply same_linked with t|]. split; [|split; [now apply same_root with t|]].
  - intros x m Ex. rewrite remark_get in Ex. destruct (fget N.eqb t x) as [n|] eqn:E; [|discriminate].
    injection Ex as <-. exact (S x n E).
  - now rewrite remark_keys.
Qed.

(** Adding the first block. *)
Lemma add_first b prev seq : prev <> b ->
  add_index [] b prev seq = Done [(b, mkNode None None 0 seq false)].
Proof.
  intros D. unfold add_index. cbn [fmem fget guard negb bind fput].
  assert ((prev =? b)%N = false) by now apply N.eqb_neq. cbn [fget]. now rewrite H.
Qed.
Lemma proper_first b seq : proper (pred_in [(b, None)]) [(b, mkNode None None 0 seq false)].
Proof.
  assert (P : forall x, pred_in [(b, None)] x = None) by (intros x; cbn; now destruct (x =? b)%N).
  assert (K : forall x n, fget N.eqb [(b, mkNode None None 0 seq false)] x = Some n ->
                x = b /\ n = mkNode None None 0 seq false).
  { intros x n. cbn [fget]. destruct (N.eqb_spec x b); [|discriminate]. intros E. injection E as <-. auto. }
  split; [split; [|split]|split; [|split]].
  - intros x n E. destruct (K x n E) as [-> ->]. now rewrite P.
  - intros x n E. destruct (K x n E) as [-> ->]. cbn [n_height]. split; [unfold MAX_HEIGHT; lia|].
    exists b. split; [constructor|apply P].
  - intros x n p E. rewrite P. discriminate.
  - intros x n E X. now rewrite P in X.
  - intros x y (n & E) (m & F) _ _. destruct (K x n E), (K y m F). congruence.
  - constructor; [easy|constructor].
Qed.

(** Adding a block on top of a known one. *)
Lemma ext_generation par par' t b n : linked par t -> (forall x, known t x -> par' x = par x) ->
  known t b -> generation par b n -> generation par' b n.
Proof.
  intros L E K (g & U & G). exists g.
  assert (A : forall x j, up par b j x -> par' x = par x).
  { intros x j V. apply E. eapply up_known; eauto. }
  split; [now apply up_ext with par|]. rewrite (A g n U). exact G.
Qed.
Lemma ext_up par par' t b k a : linked par t -> (forall x, known t x -> par' x = par x) ->
  known t b -> up par b k a -> up par' b k a.
Proof.
  intros L E K U. apply up_ext with par; [|easy]. intros x j V. apply E. eapply up_known; eauto.
Qed.
Lemma ext_up_back par par' t b k a : linked par t -> (forall x, known t x -> par' x = par x) ->
  known t b -> up par' b k a -> up par b k a.
Proof.
  intros L E K U. induction U as [z|z p k a P U IH]; [constructor|]. rewrite E in P by easy.
  econstructor; [exact P|]. apply IH. destruct K as (q & Eq). destruct L as (_ & _ & C). exact (C z q p Eq P).
Qed.
Lemma linked_ext par par' t : (forall x, known t x -> par' x = par x) -> linked par t -> linked par' t.
Proof.
  intros E L. pose proof L as (A & B & C). split; [|split].
  - intros b n F. rewrite E by (red; eauto). eauto.
  - intros b n F. split; [apply (B b n F)|]. eapply ext_generation; eauto; [now exists n|apply (B b n F)].
  - intros b n p F. rewrite E by (red; eauto). eauto.
Qed.

Lemma add_next par t b prev seq : proper par t -> known t prev -> ~ known t b ->
  height_of t prev < MAX_HEIGHT ->
  exists t', add_index t b prev seq = Done t'
    /\ (forall par', par' b = Some prev -> (forall x, known t x -> par' x = par x) -> proper par' t')
    /\ (forall x, known t' x <-> x = b \/ known t x)
    /\ (forall x, x <> b -> fget N.eqb t' x = fget N.eqb t x)
    /\ exists s, fget N.eqb t' b = Some (mkNode (Some prev) s (height_of t prev + 1) seq false).
Proof.
  intros (L & Sk & R & D) K F Hm. destruct K as (m & Em). assert (Hp := height_known t prev m Em).
  assert (Db : prev <> b) by (intros ->; apply F; now exists m).
  unfold add_index. assert (M : fmem N.eqb t b = false).
  { destruct (fmem N.eqb t b) eqn:X; [|easy]. apply fmem_true in X. easy. }
  rewrite M. cbn [negb guard bind]. cbn zeta. rewrite fget_put_other, Em by (auto using N_eqb_ok).
  rewrite <- Hp. destruct (Z.eqb_spec (height_of t prev) MAX_HEIGHT) as [He|_]; [lia|].
  set (n := mkNode (Some prev) None (height_of t prev + 1) seq false).
  set (t2 := fput N.eqb t b n).
  (* any predecessor function that extends [par] *)
  assert (Ln : forall par', par' b = Some prev -> (forall x, known t x -> par' x = par x) -> linked par' t2).
  { intros par' Pb Px. pose proof (linked_ext par par' t Px L) as (A & B & C). split; [|split].
    - intros x y E. destruct (N.eq_dec x b) as [->|Dx].
      + unfold t2 in E. rewrite fget_put_same in E by apply N_eqb_ok. injection E as <-. now rewrite Pb.
      + unfold t2 in E. rewrite fget_put_other in E by (auto using N_eqb_ok). eauto.
    - intros x y E. destruct (N.eq_dec x b) as [->|Dx].
      + unfold t2 in E. rewrite fget_put_same in E by apply N_eqb_ok. injection E as <-. cbn [n n_height].
        destruct (B prev m Em) as (Bm & g & U & G). split; [lia|]. exists g. split; [|easy].
        replace (Z.to_nat (height_of t prev + 1)) with (S (Z.to_nat (n_height m))) by lia.
        econstructor; eauto.
      + unfold t2 in E. rewrite fget_put_other in E by (auto using N_eqb_ok). eauto.
    - intros x y p E P. unfold known, t2. destruct (N.eq_dec p b) as [->|Dp].
      + rewrite fget_put_same by apply N_eqb_ok. eauto.
      + rewrite fget_put_other by (auto using N_eqb_ok). destruct (N.eq_dec x b) as [->|Dx].
        * rewrite Pb in P. injection P as <-. eauto.
        * unfold t2 in E. rewrite fget_put_other in E by (auto using N_eqb_ok). exact (C x y p E P). }
  (* one of them, to run the code *)
  set (p0 := fun x => if (x =? b)%N then Some prev else par x).
  assert (P0 : p0 b = Some prev) by (unfold p0; now rewrite N.eqb_refl).
  assert (P1 : forall x, known t x -> p0 x = par x).
  { intros x Kx. unfold p0. destruct (N.eqb_spec x b) as [->|_]; [easy|reflexivity]. }
  pose proof (Ln p0 P0 P1) as L0.
  assert (Kp : known t2 prev) by (exists m; unfold t2; now rewrite fget_put_other by (auto using N_eqb_ok)).
  assert (H2 : height_of t2 prev = height_of t prev).
  { unfold height_of, t2. now rewrite fget_put_other by (auto using N_eqb_ok). }
  destruct (ancestor_ok p0 t2 prev (skip_height (height_of t prev + 1)) L0) as [An _]; [|easy|].
  { intros x k y U E Hx. assert (Kx : known t x).
    { assert (V : up par prev k x) by (eapply ext_up_back; eauto; now exists m).
      eapply up_known; eauto. now exists m. }
    assert (Dx : x <> b) by (intros ->; easy).
    unfold t2 in E. rewrite fget_put_other in E by (auto using N_eqb_ok).
    intros Np. rewrite P1 in Np by easy. destruct (Sk x y E Np) as (s & Es & Us). exists s. split; [easy|].
    apply (ext_up par p0 t); auto. }
  pose proof (height_gen par t prev L (ex_intro _ m Em)) as [Hb _].
  pose proof (skip_bounds (height_of t prev + 1) ltac:(lia)) as SB.
  destruct An as (s & G & U); [lia|]. rewrite H2 in U.
  unfold build_skip. cbn [n n_prev n_height]. fold n. rewrite G. cbn [bind].
  eexists. split; [reflexivity|]. set (n' := mkNode (Some prev) (Some s) (height_of t prev + 1) seq false).
  assert (Q : same_links t2 (fput N.eqb t b n')).
  { intros x. unfold t2. destruct (N.eq_dec x b) as [->|Dx].
    - now rewrite !fget_put_same by apply N_eqb_ok.
    - now rewrite !fget_put_other by (auto using N_eqb_ok). }
  split; [|split; [|split]].
  - intros par' Pb Px. split; [apply same_linked with t2; auto|]. split; [|split].
    + intros x y E. destruct (N.eq_dec x b) as [->|Dx].
      * rewrite fget_put_same in E by apply N_eqb_ok. injection E as <-. intros _. exists s. split; [easy|].
        cbn [n' n_height].
        assert (U' : up par' prev (Z.to_nat (height_of t prev - skip_height (height_of t prev + 1))) s).
        { assert (A : forall z, known t2 z -> par' z = p0 z).
          { intros z (q & Ez). destruct (N.eq_dec z b) as [->|Dz]; [congruence|].
            unfold t2 in Ez. rewrite fget_put_other in Ez by (auto using N_eqb_ok).
            rewrite Px, P1 by (now exists q). reflexivity. }
          apply (ext_up p0 par' t2); auto. }
        replace (Z.to_nat (height_of t prev + 1 - skip_height (height_of t prev + 1)))
          with (S (Z.to_nat (height_of t prev - skip_height (height_of t prev + 1)))) by lia.
        econstructor; eauto.
      * rewrite fget_put_other in E by (auto using N_eqb_ok). intros Np.
        assert (Kx : known t x) by now exists y. rewrite Px in Np by easy.
        destruct (Sk x y E Np) as (z & Ez & Uz). exists z. split; [easy|].
        apply (ext_up par par' t); auto.
    + intros x y Kx Ky Nx Ny.
      assert (Z : forall z, known (fput N.eqb t b n') z -> par' z = None -> known t z /\ par z = None).
      { intros z (q & Ez) Nz. destruct (N.eq_dec z b) as [->|Dz]; [congruence|].
        rewrite fget_put_other in Ez by (auto using N_eqb_ok). assert (known t z) by now exists q.
        split; [easy|]. now rewrite <- Px. }
      destruct (Z x Kx Nx), (Z y Ky Ny). now apply R.
    + now apply nodup_put; [apply N_eqb_ok|].
  - intros x. rewrite !known_keys. apply keys_put_in, N_eqb_ok.
  - intros x Dx. now apply fget_put_other; [apply N_eqb_ok|].
  - eexists. apply fget_put_same, N_eqb_ok.
Qed.

(** Loading. *)
Lemma load_get t b : fget N.eqb (load_indexes (store t)) b
  = option_map (fun n => mkNode (n_prev n) None (n_height n) 0 (n_failed n)) (fget N.eqb t b).
Proof.
  induction t as [|[x n] t IH]; [reflexivity|]. cbn [store load_indexes map fget fst snd].
  destruct (b =? x)%N; [reflexivity|]. exact IH.
Qed.
Lemma load_links t : same_links t (load_indexes (store t)).
Proof. intros b. rewrite load_get. now destruct (fget N.eqb t b). Qed.
Lemma load_keys t : keys (load_indexes (store t)) = keys t.
Proof. unfold keys, load_indexes, store. now rewrite !map_map. Qed.

Lemma build_skips_ok par : forall order done t, linked par t -> NoDup (keys t) ->
  (forall x n, In x done -> fget N.eqb t x = Some n -> skip_ok par x n) ->
  (forall x, known t x -> In x done \/ In x order) ->
  (forall x, In x order -> known t x) ->
  StronglySorted (fun a b => height_of t a <= height_of t b) order ->
  exists t', build_skips t order = Done t' /\ same_links t t' /\ skips par t' /\ NoDup (keys t').
Proof.
  induction order as [|b order IH]; intros done t L D Sk Cov Kn So; cbn [build_skips].
  - exists t. split; [easy|]. split; [easy|]. split; [|easy]. intros x n E.
    destruct (Cov x) as [I|[]]; [now exists n|]. eauto.
  - destruct (deref_known t b (Kn b (or_introl eq_refl))) as (n & Dn & E). rewrite Dn. cbn [bind].
    assert (Hn := height_known t b n E). assert (Kb : known t b) by now exists n.
    assert (X : exists s, build_skip t n = Done s
                 /\ skip_ok par b (mkNode (n_prev n) s (n_height n) (n_seq n) (n_failed n))).
    { unfold build_skip. pose proof L as (Lp & Lh & Lc). rewrite (Lp b n E).
      destruct (par b) as [p|] eqn:P.
      - assert (Kp : known t p) by eauto.
        assert (U : up par b 1 p) by now apply up_one.
        assert (Hp := height_up par t b 1 p L Kb U).
        pose proof (height_gen par t p L Kp) as [Bp _].
        pose proof (skip_bounds (n_height n) ltac:(lia)) as SB.
        destruct (ancestor_ok par t p (skip_height (n_height n)) L) as [An _]; [|easy|].
        { intros x k m Ux Ex Hx. apply (Sk x m); [|easy]. destruct (Cov x) as [I|I]; [now exists m|easy|].
          exfalso. assert (Hm := height_up par t p k x L Kp Ux).
          assert (height_of t b <= height_of t x).
          { destruct I as [<-|I]; [lia|]. inversion So as [|? ? _ Fa]; subst.
            rewrite Forall_forall in Fa. now apply Fa. }
          lia. }
        destruct An as (s & G & V); [lia|]. exists (Some s). split; [easy|]. intros _. exists s. split; [easy|].
        cbn [n_height].
        replace (Z.to_nat (n_height n - skip_height (n_height n)))
          with (S (Z.to_nat (height_of t p - skip_height (n_height n)))) by lia.
        econstructor; eauto.
      - exists (n_skip n). split; [easy|]. intros Np. congruence. }
    destruct X as (s & Bs & Ok). rewrite Bs. cbn [bind].
    set (n' := mkNode (n_prev n) s (n_height n) (n_seq n) (n_failed n)) in *.
    assert (Q : same_links t (fput N.eqb t b n')) by now apply same_put with n.
    destruct (IH (b :: done) (fput N.eqb t b n')) as (t' & R & Q' & S' & D').
    + now apply same_linked with t.
    + now apply nodup_put; [apply N_eqb_ok|].
    + intros x m I Ex. destruct (N.eq_dec x b) as [->|Dx].
      * rewrite fget_put_same in Ex by apply N_eqb_ok. injection Ex as <-. exact Ok.
      * rewrite fget_put_other in Ex by (auto using N_eqb_ok). destruct I as [I|I]; [congruence|eauto].
    + intros x Kx. apply (same_known _ t) in Kx; [|now apply same_sym].
      destruct (Cov x Kx) as [I|[I|I]]; [left; now right|left; now left|now right].
    + intros x I. apply (same_known t); [easy|]. apply Kn. now right.
    + inversion So as [|? ? So' _]; subst. clear - So' Q. induction So' as [|x l S IHs F]; constructor; [easy|].
      eapply Forall_impl; [|exact F]. intros y. cbn. now rewrite <- !(same_height t _ _ Q).
    + exists t'. split; [easy|]. split; [now apply same_trans with (fput N.eqb t b n')|easy].
Qed.

Lemma load_ok par t order : proper par t -> Permutation order (keys t) ->
  StronglySorted (fun a b => height_of t a <= height_of t b) order ->
  exists t', build_skips (load_indexes (store t)) order = Done t' /\ proper par t' /\ same_links t t'.
Proof.
  intros (L & Sk & R & D) Pm So. pose proof (load_links t) as Q.
  destruct (build_skips_ok par order [] (load_indexes (store t))) as (t' & B & Q' & S' & D').
  - now apply same_linked with t.
  - now rewrite load_keys.
  - easy.
  - intros x K. right. apply known_keys in K. rewrite load_keys in K.
    eapply Permutation_in; [apply Permutation_sym, Pm|easy].
  - intros x I. apply known_keys. rewrite load_keys. eapply Permutation_in; eauto.
  - clear - So Q. induction So as [|x l S IHs F]; constructor; [easy|].
    eapply Forall_impl; [|exact F]. intros y. cbn. now rewrite <- !(same_height t _ _ Q).
  - exists t'. assert (QQ : same_links t t') by (eapply same_trans; eauto). split; [easy|].
    split; [|easy]. split; [now apply same_linked with t|]. split; [easy|].
    split; [now apply same_root with t|easy].
Qed.

Lemma pred_in_here l b p : pred_in ((b, p) :: l) b = p.
Proof. cbn. now rewrite N.eqb_refl. Qed.
Lemma pred_in_other l b p x : x <> b -> pred_in ((b, p) :: l) x = pred_in l x.
Proof. intros D. cbn. now destruct (N.eqb_spec x b). Qed.

Lemma add_index_height t b prev seq t' n : fget N.eqb t prev = Some n -> prev <> b ->
  add_index t b prev seq = Done t' -> fmem N.eqb t b = false /\ n_height n <> MAX_HEIGHT.
Proof.
  intros E D. unfold add_index. destruct (fmem N.eqb t b); [discriminate|].
  cbn [negb guard bind]. cbn zeta. rewrite fget_put_other, E by (auto using N_eqb_ok).
  destruct (Z.eqb_spec (n_height n) MAX_HEIGHT); [discriminate|]. auto.
Qed.

Lemma grown_proper l t : grown l t -> proper (pred_in l) t /\ forall b, known t b <-> In b (map fst l).
Proof.
  intros G. induction G as [b prev seq t D A|l t b prev seq t' G IH I A|l t b n f G IH E|l t g G IH|l t order t' G IH Pm So B].
  - rewrite add_first in A by easy. injection A as <-. split; [apply proper_first|].
    intros x. rewrite known_keys. cbn. tauto.
  - destruct IH as [P K]. assert (Kp : known t prev) by now apply K.
    assert (Db : prev <> b).
    { intros ->. unfold add_index in A. apply fmem_true in Kp. now rewrite Kp in A. }
    destruct Kp as (m & Em). destruct (add_index_height t b prev seq t' m Em Db A) as [F H].
    assert (Nb : ~ known t b) by (intros X; apply fmem_true in X; congruence).
    assert (Kp : known t prev) by now exists m.
    pose proof (height_gen _ t prev (proj1 P) Kp) as [Hb _].
    destruct (add_next (pred_in l) t b prev seq P Kp Nb) as (t2 & A2 & Pr & K2 & _).
    { rewrite (height_known t prev m Em) in *. lia. }
    assert (t2 = t') by congruence. subst t2. split.
    + apply Pr; [apply pred_in_here|]. intros x Kx. apply pred_in_other. intros ->. easy.
    + intros x. rewrite K2, K. cbn. intuition.
  - destruct IH as [P K]. split; [now apply proper_mark|]. intros x. rewrite <- K, !known_keys.
    rewrite keys_put_in by apply N_eqb_ok. apply (fget_some_key N.eqb N_eqb_ok) in E. intuition. now subst.
  - destruct IH as [P K]. split; [now apply proper_marks|]. intros x. rewrite <- K, !known_keys.
    now rewrite remark_keys.
  - destruct IH as [P K]. destruct (load_ok (pred_in l) t order P Pm So) as (t2 & B2 & P2 & Q).
    assert (t2 = t') by congruence. subst t2. split; [easy|]. intros x. rewrite <- K.
    split; [apply same_known; now apply same_sym|now apply same_known].
Qed.

(** ** Chains *)

Lemma assign_length c : forall i v, length (assign c i v) = length c.
Proof. induction c as [|x c IH]; intros [|i] v; cbn; auto. Qed.
Lemma assign_nth c : forall i v k, (i < length c)%nat ->
  nth k (assign c i v) None = if Nat.eqb k i then v else nth k c None.
Proof.
  induction c as [|x c IH]; intros [|i] v [|k] L; cbn in *; try lia; try easy. apply IH. lia.
Qed.
Lemma resize_length c n : length (resize c n) = n.
Proof. unfold resize. rewrite app_length, firstn_length, repeat_length. lia. Qed.
Lemma resize_nth c n k : (k < n)%nat -> nth k (resize c n) None = nth k c None.
Proof.
  intros L. unfold resize. destruct (Nat.lt_ge_cases k (length c)) as [A|A].
  - rewrite app_nth1 by (rewrite firstn_length; lia).
    rewrite <- (firstn_skipn n c) at 2. rewrite app_nth1 by (rewrite firstn_length; lia). easy.
  - rewrite (nth_overflow c) by lia. rewrite app_nth2 by (rewrite firstn_length; lia).
    apply nth_repeat.
Qed.
Lemma opt_eqb_true a b : opt_eqb a b = true <-> a = b.
Proof.
  destruct a, b; cbn; split; try easy; [intros E; apply N.eqb_eq in E; congruence|].
  intros E. injection E as ->. apply N.eqb_refl.
Qed.

Section Chains.
  Variable par : N -> option N.

  (** The elements of a line, by height. *)
  Lemma line_at t b c h a : linked par t -> known t b -> line par b c ->
    (c_at c h = Some a <-> 0 <= h <= height_of t b /\ up par b (Z.to_nat (height_of t b - h)) a).
  Proof.
    intros L K (n & G & Ln & A). destruct (height_gen par t b L K) as [B G'].
    assert (n = Z.to_nat (height_of t b)) by (eapply generation_det; eauto). subst n.
    unfold c_at. split.
    - destruct (Z.ltb_spec h 0); [discriminate|]. destruct (Z.leb_spec (Z.of_nat (length c)) h); [discriminate|].
      cbn [orb]. intros E. split; [lia|].
      destruct (up_exists par b _ (Z.to_nat (height_of t b - h)) G) as (x & U); [lia|].
      pose proof (A (Z.to_nat (height_of t b - h)) x ltac:(lia) U) as X.
      replace (Z.to_nat (height_of t b) - Z.to_nat (height_of t b - h))%nat with (Z.to_nat h) in X by lia.
      apply (nth_error_nth _ _ None) in X. congruence.
    - intros (R & U). destruct (Z.ltb_spec h 0); [lia|].
      destruct (Z.leb_spec (Z.of_nat (length c)) h); [lia|]. cbn [orb].
      apply nth_error_nth. rewrite <- (A (Z.to_nat (height_of t b - h)) a ltac:(lia) U). f_equal. lia.
  Qed.
  Lemma line_length t b c : linked par t -> known t b -> line par b c ->
    Z.of_nat (length c) = height_of t b + 1.
  Proof.
    intros L K (n & G & Ln & A). destruct (height_gen par t b L K) as [B G'].
    assert (n = Z.to_nat (height_of t b)) by (eapply generation_det; eauto). lia.
  Qed.
  Lemma line_height t b c : linked par t -> known t b -> line par b c -> c_height c = height_of t b.
  Proof. intros L K H. unfold c_height. rewrite (line_length t b c L K H). lia. Qed.
  Lemma line_tip t b c : linked par t -> known t b -> line par b c -> c_tip c = Some b.
  Proof.
    intros L K H. unfold c_tip. pose proof (line_length t b c L K H) as X.
    destruct (height_gen par t b L K) as [B _]. destruct c; [cbn in X; lia|].
    rewrite (line_height t b _ L K H). apply (line_at t b _ (height_of t b) b L K H). split; [lia|].
    replace (Z.to_nat (height_of t b - height_of t b)) with 0%nat by lia. constructor.
  Qed.
  Lemma line_contains t b c x : linked par t -> known t b -> line par b c -> known t x ->
    exists y, c_contains t c (Some x) = Done y /\ (y = true <-> back par b x).
  Proof.
    intros L K H Kx. unfold c_contains. destruct (deref_known t x Kx) as (n & D & E). rewrite D. cbn [bind].
    eexists. split; [reflexivity|]. rewrite opt_eqb_true. rewrite <- (height_known t x n E).
    rewrite (line_at t b c _ x L K H). split.
    - intros (_ & U). red. eauto.
    - intros (k & U). pose proof (height_up par t b k x L K U). destruct (height_gen par t x L Kx).
      split; [lia|]. now replace (Z.to_nat (height_of t b - height_of t x)) with k by lia.
  Qed.
  Lemma line_of t b : linked par t -> known t b -> forall c, Z.of_nat (length c) = height_of t b + 1 ->
    (forall h a, 0 <= h <= height_of t b -> up par b (Z.to_nat (height_of t b - h)) a ->
       nth (Z.to_nat h) c None = Some a) -> line par b c.
  Proof.
    intros L K c Ln A. destruct (height_gen par t b L K) as [B G]. exists (Z.to_nat (height_of t b)).
    split; [easy|]. split; [lia|]. intros k a Lk U.
    pose proof (A (height_of t b - Z.of_nat k) a ltac:(lia)) as X.
    replace (Z.to_nat (height_of t b - (height_of t b - Z.of_nat k))) with k in X by lia.
    specialize (X U).
    replace (Z.to_nat (height_of t b - Z.of_nat k)) with (Z.to_nat (height_of t b) - k)%nat in X by lia.
    destruct (nth_error c (Z.to_nat (height_of t b) - k)) as [y|] eqn:Y.
    - apply (nth_error_nth _ _ None) in Y. congruence.
    - apply nth_error_None in Y. lia.
  Qed.

  (** What the chain held before: nothing, or a line. *)
  Definition was (t : list (N * node)) (c : list (option N)) : Prop :=
    c = [] \/ exists b0, known t b0 /\ line par b0 c.

  Lemma was_at t c h x : linked par t -> was t c -> c_at c h = Some x ->
    exists b0, known t b0 /\ line par b0 c /\ back par b0 x /\ height_of t x = h /\ known t x.
  Proof.
    intros L [->|(b0 & K & H)] E.
    - unfold c_at in E. cbn in E. destruct (h <? 0), (0 <=? h); try discriminate.
      destruct (Z.to_nat h); discriminate.
    - apply (line_at t b0 c h x L K H) in E. destruct E as (R & U). exists b0. split; [easy|]. split; [easy|].
      split; [red; eauto|]. split; [|eapply up_known; eauto].
      rewrite (height_up par t b0 _ x L K U). lia.
  Qed.
  Lemma was_nth t c h : 0 <= h -> was t c -> nth (Z.to_nat h) c None = c_at c h.
  Proof.
    intros P _. unfold c_at. destruct (Z.ltb_spec h 0); [lia|].
    destruct (Z.leb_spec (Z.of_nat (length c)) h); [|easy]. apply nth_overflow. lia.
  Qed.

  Lemma set_loop_ok t b c : linked par t -> known t b -> was t c ->
    forall fuel x k w, up par b k x -> (Z.to_nat (height_of t x) < fuel)%nat ->
    Z.of_nat (length w) = height_of t b + 1 ->
    (forall h, 0 <= h <= height_of t x -> nth (Z.to_nat h) w None = c_at c h) ->
    (forall h a, height_of t x < h <= height_of t b -> up par b (Z.to_nat (height_of t b - h)) a ->
       nth (Z.to_nat h) w None = Some a /\ c_at c h <> Some a) ->
    exists w' f, set_loop t fuel w (Some x) = Done (w', f) /\ line par b w'
      /\ match f with
         | Some f => exists b0, known t b0 /\ line par b0 c /\ fork_of par b0 b f
         | None => forall h a, up par b (Z.to_nat (height_of t b - h)) a -> 0 <= h -> c_at c h <> Some a
         end.
  Proof.
    intros L K W. induction fuel as [|fuel IH]; intros x k w U F Lw Below Above; [lia|].
    assert (Kx : known t x) by (eapply up_known; eauto).
    assert (Hx := height_up par t b k x L K U). destruct (height_gen par t x L Kx) as [Bx Gx].
    cbn [set_loop]. destruct (deref_known t x Kx) as (n & D & E). rewrite D. cbn [bind].
    rewrite <- (height_known t x n E).
    destruct (Z.ltb_spec (height_of t x) 0); [lia|].
    destruct (Z.leb_spec (Z.of_nat (length w)) (height_of t x)); [lia|]. cbn [orb].
    rewrite (Below (height_of t x)) by lia.
    assert (Ux : up par b (Z.to_nat (height_of t b - height_of t x)) x)
      by (now replace (Z.to_nat (height_of t b - height_of t x)) with k by lia).
    destruct (opt_eqb (c_at c (height_of t x)) (Some x)) eqn:Q.
    - apply opt_eqb_true in Q. exists w, (Some x). split; [easy|].
      destruct (was_at t c _ x L W Q) as (b0 & K0 & Hb & (j & B0) & _). split.
      + apply (line_of t b L K w Lw). intros h a R V.
        destruct (Z.le_gt_cases h (height_of t x)) as [Le|Gt]; [|now apply Above].
        rewrite Below by lia. apply (line_at t b0 c h a L K0 Hb).
        pose proof (height_up par t b0 j x L K0 B0) as Hj. split; [lia|].
        assert (V' : up par x (Z.to_nat (height_of t x - h)) a).
        { replace (Z.to_nat (height_of t x - h)) with (Z.to_nat (height_of t b - h) - k)%nat by lia.
          apply (up_between par b); [easy|easy|lia]. }
        replace (Z.to_nat (height_of t b0 - h)) with (j + Z.to_nat (height_of t x - h))%nat by lia.
        eapply up_app; eauto.
      + exists b0. split; [easy|]. split; [easy|]. split; [now exists j|]. split; [now exists k|].
        intros y (i & Vi) (i' & Vi'). assert (Ky : known t y) by (eapply up_known; eauto).
        assert (Hy := height_up par t b0 i y L K0 Vi). assert (Hy' := height_up par t b i' y L K Vi').
        destruct (Z.le_gt_cases (height_of t y) (height_of t x)) as [Le|Gt].
        * apply (back_linear par b x y k i'); [easy|easy|lia].
        * exfalso. destruct (height_gen par t y L Ky). destruct (Above (height_of t y) y) as [_ N]; [lia| |].
          { now replace (Z.to_nat (height_of t b - height_of t y)) with i' by lia. }
          apply N. apply (line_at t b0 c _ y L K0 Hb). split; [lia|].
          now replace (Z.to_nat (height_of t b0 - height_of t y)) with i by lia.
    - assert (Nq : c_at c (height_of t x) <> Some x) by (intros X; apply opt_eqb_true in X; congruence).
      assert (Above' : forall h a, height_of t x - 1 < h <= height_of t b ->
                up par b (Z.to_nat (height_of t b - h)) a ->
                nth (Z.to_nat h) (assign w (Z.to_nat (height_of t x)) (Some x)) None = Some a
                /\ c_at c h <> Some a).
      { intros h a R V. rewrite assign_nth by lia. destruct (Nat.eqb_spec (Z.to_nat h) (Z.to_nat (height_of t x))).
        - assert (h = height_of t x) by lia. subst h.
          assert (a = x) by (eapply up_det; eauto). subst a. auto.
        - apply Above; [lia|easy]. }
      pose proof L as (Lp & Lh & Lc). rewrite (Lp x n E). destruct (par x) as [p|] eqn:P.
      + assert (Up : up par x 1 p) by now apply up_one.
        assert (Hp := height_up par t x 1 p L Kx Up).
        destruct (height_gen par t p L (up_known par t x 1 p L Kx Up)) as [Bp _].
        destruct (IH p (k + 1)%nat (assign w (Z.to_nat (height_of t x)) (Some x))) as (w' & f & S & Rl & Rf).
        * eapply up_app; eauto.
        * lia.
        * now rewrite assign_length.
        * intros h R. rewrite assign_nth by lia.
          destruct (Nat.eqb_spec (Z.to_nat h) (Z.to_nat (height_of t x))); [lia|]. apply Below. lia.
        * intros h a R. apply Above'. lia.
        * exists w', f. auto.
      + assert (Z : height_of t x = 0) by (apply (height_zero par t x L Kx); easy).
        cbn [set_loop].
        assert (X : exists w' f, Done (assign w (Z.to_nat (height_of t x)) (Some x), None) = Done (w', f)
          /\ line par b w'
          /\ match f with
             | Some f => exists b0, known t b0 /\ line par b0 c /\ fork_of par b0 b f
             | None => forall h a, up par b (Z.to_nat (height_of t b - h)) a -> 0 <= h -> c_at c h <> Some a
             end).
        { do 2 eexists. split; [reflexivity|]. cbn beta iota. split.
          - apply (line_of t b L K); [now rewrite assign_length|]. intros h a R V. apply Above'; [lia|easy].
          - intros h a V R. destruct (Z.le_gt_cases h (height_of t b)) as [Le|Gt].
            + apply Above'; [lia|easy].
            + intros X. destruct (was_at t c h a L W X) as (b0 & _ & _ & _ & Ha & _).
              replace (Z.to_nat (height_of t b - h)) with 0%nat in V by lia. inversion V; subst. lia. }
        destruct fuel; exact X.
  Qed.

  Lemma set_tip_ok t b c : linked par t -> one_root par t -> known t b -> was t c ->
    exists c' f, c_set_tip t c (Some b) = Done (c', f) /\ line par b c'
      /\ match f with
         | Some f => exists b0, known t b0 /\ line par b0 c /\ fork_of par b0 b f
         | None => c = []
         end.
  Proof.
    intros L R K W. unfold c_set_tip. destruct (deref_known t b K) as (n & D & E). rewrite D. cbn [bind].
    rewrite <- (height_known t b n E). destruct (height_gen par t b L K) as [B G].
    set (len := Z.to_nat (height_of t b + 1)).
    destruct (set_loop_ok t b c L K W len b 0%nat (resize c len)) as (c' & f & S & Ln & Ff).
    - constructor.
    - lia.
    - rewrite resize_length. lia.
    - intros h P. rewrite resize_nth by lia. now apply (was_nth t c); [lia|].
    - intros h a P. lia.
    - exists c', f. split; [exact S|]. split; [easy|]. destruct f as [f|]; [easy|].
      destruct W as [W|(b0 & K0 & H0)]; [easy|]. exfalso.
      destruct G as (g & U & Ng). destruct (height_gen par t b0 L K0) as [B0 (g0 & U0 & Ng0)].
      assert (g = g0) by (apply R; [exact (up_known par t b _ g L K U)|exact (up_known par t b0 _ g0 L K0 U0)|easy|easy]). subst g0.
      apply (Ff 0 g); [now replace (Z.to_nat (height_of t b - 0)) with (Z.to_nat (height_of t b)) by lia|lia|].
      apply (line_at t b0 c 0 g L K0 H0). split; [lia|].
      now replace (Z.to_nat (height_of t b0 - 0)) with (Z.to_nat (height_of t b0)) by lia.
  Qed.
End Chains.

(** ** Locators *)

Definition stride (i : nat) : Z := if Nat.leb i 10 then 1 else 2 ^ Z.of_nat (i - 10).

Lemma behind_S i : behind (S i) = behind i + stride i.
Proof.
  unfold behind, stride. destruct (Nat.leb_spec (S i) 11), (Nat.leb_spec i 11), (Nat.leb_spec i 10); try lia.
  - assert (i = 11%nat) by lia. subst i. reflexivity.
  - replace (Z.of_nat (S i - 10)) with (Z.of_nat (i - 10) + 1) by lia. rewrite Z.pow_add_r by lia. lia.
Qed.
Lemma stride_pos i : 1 <= stride i.
Proof. unfold stride. destruct (Nat.leb i 10); [lia|]. assert (0 < 2 ^ Z.of_nat (i - 10)) by (apply Z.pow_pos_nonneg; lia). lia. Qed.
Lemma stride_S i : stride (S i) = if (10 <? Z.of_nat (i + 1)) then stride i * 2 else stride i.
Proof.
  unfold stride. destruct (Z.ltb_spec 10 (Z.of_nat (i + 1))), (Nat.leb_spec (S i) 10), (Nat.leb_spec i 10); try lia.
  - assert (i = 10%nat) by lia. subst i. reflexivity.
  - replace (Z.of_nat (S i - 10)) with (Z.of_nat (i - 10) + 1) by lia. rewrite Z.pow_add_r by lia. lia.
Qed.
Lemma behind_mono i j : (i <= j)%nat -> behind i <= behind j.
Proof.
  intros L. induction L; [lia|]. rewrite behind_S. pose proof (stride_pos m). lia.
Qed.
Lemma behind_pos i : 0 <= behind i.
Proof. apply (behind_mono 0 i). lia. Qed.
Lemma behind_far i : behind i < 2 ^ 30 + 9 -> (i <= 39)%nat.
Proof.
  intros L. destruct (Nat.le_gt_cases i 39); [easy|]. pose proof (behind_mono 40 i ltac:(lia)) as M.
  change (behind 40) with (2 ^ 30 + 9) in M. lia.
Qed.
Lemma stride_near i : (i <= 39)%nat -> stride i * 2 <= MAX_HEIGHT.
Proof.
  intros L. unfold stride. destruct (Nat.leb i 10); [unfold MAX_HEIGHT; lia|].
  assert (2 ^ Z.of_nat (i - 10) <= 2 ^ 29) by (apply Z.pow_le_mono_r; lia).
  change (2 ^ 29) with 536870912 in H. unfold MAX_HEIGHT. lia.
Qed.

Section Locators.
  Variable par : N -> option N.

  Lemma into_chain_ok t tip c : linked par t -> one_root par t -> known t tip -> line par tip c ->
    forall fuel x, known t x -> (Z.to_nat (height_of t x) <= fuel)%nat ->
    exists y, into_chain t fuel c (Some x) = Done (Some y) /\ fork_of par tip x y.
  Proof.
    intros L R K Ln. induction fuel as [|fuel IH]; intros x Kx F; cbn [into_chain];
    destruct (line_contains par t tip c x L K Ln Kx) as (y & E & Y); rewrite E; cbn [bind].
    - destruct y.
      + exists x. split; [easy|]. split; [now apply Y|]. split; [apply back_refl|]. now intros z _ B.
      + destruct (height_gen par t x L Kx) as [Bx _].
        assert (Px : par x = None) by (apply (height_zero par t x L Kx); lia).
        destruct (height_gen par t tip L K) as [_ (g & U & Pg)].
        assert (g = x) by (apply R; [exact (up_known par t tip _ g L K U)|easy|easy|easy]). subst g.
        assert (false = true) by (apply Y; red; eauto). discriminate.
    - destruct y.
      + exists x. split; [easy|]. split; [now apply Y|]. split; [apply back_refl|]. now intros z _ B.
      + assert (Nx : ~ back par tip x) by (intros X; apply Y in X; discriminate).
        destruct (deref_known t x Kx) as (n & D & En). rewrite D. cbn [bind].
        pose proof L as (Lp & Lh & Lc). rewrite (Lp x n En). destruct (par x) as [p|] eqn:P.
        * assert (Up : up par x 1 p) by now apply up_one.
          assert (Hp := height_up par t x 1 p L Kx Up).
          destruct (IH p) as (z & Ez & (Fa & Fb & Fc)); [exact (Lc x n p En P)|lia|].
          exists z. split; [easy|]. split; [easy|]. split.
          { eapply back_trans; [|exact Fb]. red; eauto. }
          intros w Wa (k & Wb). inversion Wb as [|x' p' k' a' Q V]; subst.
          { now elim Nx. }
          apply Fc; [easy|]. exists k'. congruence.
        * destruct (height_gen par t tip L K) as [_ (g & U & Pg)].
          assert (g = x) by (apply R; [exact (up_known par t tip _ g L K U)|easy|easy|easy]). subst g.
          elim Nx. red; eauto.
  Qed.

  (** One step back: to the height wanted, and from there into the chain. *)
  Lemma round_ok t tip c x st : proper par t -> known t tip -> line par tip c -> known t x ->
    0 < height_of t x -> 1 <= st ->
    let h := Z.max (height_of t x - st) 0 in
    exists a y p1 n1 n2,
      (if h <? height_of t x then get_ancestor t (Some x) h else Done (Some x)) = Done p1
      /\ deref t p1 = Done n1
      /\ into_chain t (Z.to_nat (n_height n1)) c p1 = Done (Some y)
      /\ deref t (Some y) = Done n2
      /\ (if h <? n_height n2 then c_at c h else Some y) = Some y
      /\ up par x (Z.to_nat (height_of t x - h)) a /\ fork_of par tip a y /\ known t y
      /\ height_of t y <= h.
  Proof.
    intros (L & Sk & R & D) K Ln Kx P S h.
    assert (B : 0 <= h <= height_of t x) by lia.
    destruct (ancestor_ok par t x h L) as [A _]; [|easy|].
    { intros z k n _ E _. exact (Sk z n E). }
    destruct (A B) as (a & G & U). assert (Ka : known t a) by exact (up_known par t x _ a L Kx U).
    assert (Ha := height_up par t x _ a L Kx U).
    destruct (deref_known t a Ka) as (n1 & D1 & E1).
    destruct (into_chain_ok t tip c L R K Ln (Z.to_nat (height_of t a)) a Ka (le_n _)) as (y & I & F).
    pose proof F as (F1 & (k & F2) & F3). assert (Ky : known t y) by exact (up_known par t a _ y L Ka F2).
    assert (Hy := height_up par t a _ y L Ka F2).
    destruct (deref_known t y Ky) as (n2 & D2 & E2).
    exists a, y, (Some a), n1, n2. destruct (Z.ltb_spec h (height_of t x)); [|lia].
    rewrite <- (height_known t a n1 E1), <- (height_known t y n2 E2).
    destruct (Z.ltb_spec h (height_of t y)); [lia|]. repeat (split; [easy|]). lia.
  Qed.

  Lemma loop_ok t tip c H : proper par t -> known t tip -> line par tip c -> H <= 2 ^ 30 + 9 ->
    forall fuel x i, known t x -> (Z.to_nat (height_of t x) < fuel)%nat ->
    behind i + height_of t x <= H ->
    exists l, locator_loop t fuel c (Some x) (stride i) i = Done (x :: l)
      /\ (forall a, In a l -> back par x a /\ back par tip a)
      /\ StronglySorted (fun a b => back par a b /\ a <> b) (x :: l)
      /\ par (last (x :: l) x) = None
      /\ (back par tip x -> forall j a, nth_error (x :: l) j = Some a ->
            up par x (Z.to_nat (Z.min (behind (i + j) - behind i) (height_of t x))) a).
  Proof.
    intros Pr K Ln B. pose proof Pr as (L & _). induction fuel as [|fuel IH]; intros x i Kx F Bi; [lia|].
    cbn [locator_loop]. destruct (deref_known t x Kx) as (n & D & E). rewrite D. cbn [bind].
    rewrite <- (height_known t x n E). destruct (height_gen par t x L Kx) as [Bx _].
    destruct (Z.eqb_spec (height_of t x) 0) as [Z0|Nz].
    - exists []. split; [easy|]. split; [easy|]. split; [constructor; constructor|]. split.
      + cbn. now apply (height_zero par t x L Kx).
      + intros _ [|j] a Ea; [|now destruct j]. injection Ea as <-.
        replace (Z.to_nat _) with 0%nat by (pose proof (behind_mono i (i + 0) ltac:(lia)); lia). constructor.
    - destruct (round_ok t tip c x (stride i) Pr K Ln Kx ltac:(lia) (stride_pos i))
        as (a & y & p1 & n1 & n2 & E1 & E2 & E3 & E4 & E5 & U & Fk & Ky & Hy).
      cbn zeta. rewrite E1. cbn [bind]. rewrite E2. cbn [bind]. rewrite E3. cbn [bind]. rewrite E4. cbn [bind].
      rewrite E5.
      pose proof (stride_pos i) as Sp. pose proof (behind_S i) as Bs.
      assert (N : (i <= 39)%nat) by (apply behind_far; lia).
      pose proof (stride_near i N) as Sn.
      destruct (Z.ltb_spec MAX_HEIGHT (stride i * 2)); [lia|]. rewrite andb_false_r.
      rewrite <- stride_S. replace (i + 1)%nat with (S i) by lia.
      destruct (height_gen par t y L Ky) as [By _].
      assert (Cl : behind (S i) + height_of t y <= H \/ height_of t y = 0).
      { clear - Bs Bi Hy Bx By. lia. }
      assert (Fy : (Z.to_nat (height_of t y) < fuel)%nat) by (clear - F Hy Nz Bx Sp; lia).
      pose proof Fk as (Fa & (ky & Fb) & Fc).
      assert (Bk : back par x y) by (eapply back_trans; red; eauto).
      assert (Lt : height_of t y < height_of t x) by (clear - Hy Nz Bx Sp; lia).
      assert (T : exists l, locator_loop t fuel c (Some y) (stride (S i)) (S i) = Done (y :: l)
        /\ (forall a, In a l -> back par y a /\ back par tip a)
        /\ StronglySorted (fun a b => back par a b /\ a <> b) (y :: l)
        /\ par (last (y :: l) y) = None
        /\ (back par tip y -> forall j a, nth_error (y :: l) j = Some a ->
            up par y (Z.to_nat (Z.min (behind (S i + j) - behind (S i)) (height_of t y))) a)).
      { destruct Cl as [Cl|Cl]; [now apply IH|].
        destruct fuel as [|fuel]; [lia|]. cbn [locator_loop].
        destruct (deref_known t y Ky) as (m & Dm & Em). rewrite Dm. cbn [bind].
        rewrite <- (height_known t y m Em), Cl. cbn [Z.eqb]. exists []. split; [easy|]. split; [easy|].
        split; [constructor; constructor|]. split.
        - cbn. now apply (height_zero par t y L Ky).
        - intros _ [|j] b Eb; [|now destruct j]. injection Eb as <-.
          replace (Z.to_nat _) with 0%nat
            by (pose proof (behind_mono (S i) (S i + 0) ltac:(lia)); lia). constructor. }
      destruct T as (l & El & T1 & T2 & T3 & T4). rewrite El. cbn [bind]. exists (y :: l).
      split; [easy|]. split.
      { intros b [<-|I]; [split; [easy|exact Fa]|]. destruct (T1 b I) as [T1a T1b]. split; [|easy].
        eapply back_trans; eauto. }
      split; [|split].
      + constructor; [easy|]. constructor.
        * split; [easy|]. intros ->. lia.
        * apply Forall_forall. intros b I. destruct (T1 b I) as [(kb & T1a) T1b]. split; [eapply back_trans; [exact Bk|now exists kb]|].
          intros ->. pose proof (height_up par t y kb b L Ky T1a). lia.
      + change (last (x :: y :: l) x) with (last (y :: l) x). rewrite <- T3.
        f_equal. clear. revert y. induction l as [|z l IHl]; intros y; [easy|].
        change (last (z :: l) x = last (z :: l) y).
        clear IHl. revert z. induction l as [|w l IHl]; intros z; [easy|]. apply (IHl w).
      + intros Tx [|j] b Eb.
        * injection Eb as <-.
          replace (Z.to_nat _) with 0%nat by (replace (i + 0)%nat with i by lia; lia). constructor.
        * cbn [nth_error] in Eb. pose proof (T4 Fa j b Eb) as V.
          assert (y = a).
          { assert (back par y a) as (kb & Yb).
            { apply Fc; [eapply back_trans; [exact Tx|red; eauto]|apply back_refl]. }
            assert (Ka : known t a) by exact (up_known par t x _ a L Kx U).
            assert (height_of t y = height_of t a).
            { pose proof (height_up par t a ky y L Ka Fb). pose proof (height_up par t y kb a L Ky Yb). lia. }
            pose proof (height_up par t y kb a L Ky Yb). assert (kb = 0%nat) by lia. subst kb.
            inversion Yb; easy. }
          subst a. pose proof (height_up par t x _ y L Kx U) as Hy2.
          replace (i + S j)%nat with (S i + j)%nat by lia.
          pose proof (behind_mono (S i) (S i + j) ltac:(lia)) as Bm.
          pose proof (up_app par x _ y _ b U V) as W.
          match type of W with up _ _ ?q _ => match goal with |- up _ _ ?q' _ => replace q' with q; [exact W|] end end.
          clear - Hy2 Bs Bm Bx Sp Nz Lt Hy. lia.
  Qed.
End Locators.

Lemma behind_next i : behind (S i) <= Z.max (behind i + 1) (2 * behind i - 9).
Proof.
  unfold behind. destruct (Nat.leb_spec (S i) 11), (Nat.leb_spec i 11); try lia.
  - assert (i = 11%nat) by lia. subst i. cbn. lia.
  - replace (Z.of_nat (S i - 10)) with (Z.of_nat (i - 10) + 1) by lia. rewrite Z.pow_add_r by lia. lia.
Qed.

Section Forks.
  Variable par : N -> option N.

  (** Above a certain height the step overflows. *)
  Lemma loop_over t tip c : proper par t -> known t tip -> line par tip c ->
    forall fuel x i, known t x -> back par tip x -> (Z.to_nat (height_of t x) < fuel)%nat ->
    2 ^ 30 + 9 < behind i + height_of t x -> (i <= 40)%nat ->
    locator_loop t fuel c (Some x) (stride i) i = Undefined.
  Proof.
    intros Pr K Ln. pose proof Pr as (L & _).
    induction fuel as [|fuel IH]; intros x i Kx Tx F Bi I; [lia|].
    pose proof (behind_mono i 40 I) as M. change (behind 40) with (2 ^ 30 + 9) in M.
    cbn [locator_loop]. destruct (deref_known t x Kx) as (n & D & E). rewrite D. cbn [bind].
    rewrite <- (height_known t x n E). destruct (height_gen par t x L Kx) as [Bx _].
    destruct (Z.eqb_spec (height_of t x) 0) as [Z0|Nz]; [lia|].
    destruct (round_ok par t tip c x (stride i) Pr K Ln Kx ltac:(lia) (stride_pos i))
        as (a & y & p1 & n1 & n2 & E1 & E2 & E3 & E4 & E5 & U & Fk & Ky & Hy).
    cbn zeta. rewrite E1. cbn [bind]. rewrite E2. cbn [bind]. rewrite E3. cbn [bind]. rewrite E4. cbn [bind].
    rewrite E5. destruct (Nat.eq_dec i 40) as [->|Ni]; [reflexivity|].
    pose proof (stride_near i ltac:(lia)) as Sn. destruct (Z.ltb_spec MAX_HEIGHT (stride i * 2)); [lia|].
    rewrite andb_false_r. rewrite <- stride_S. replace (i + 1)%nat with (S i) by lia.
    pose proof (behind_S i) as Bs. pose proof (stride_pos i) as Sp.
    pose proof (behind_mono (S i) 40 ltac:(lia)) as M'. change (behind 40) with (2 ^ 30 + 9) in M'.
    pose proof Fk as (Fa & (ky & Fb) & Fc).
    assert (Hya : height_of t y = height_of t a).
    { assert (back par y a) as (kb & Yb).
      { apply Fc; [eapply back_trans; [exact Tx|red; eauto]|apply back_refl]. }
      assert (Ka : known t a) by exact (up_known par t x _ a L Kx U).
      pose proof (height_up par t a ky y L Ka Fb). pose proof (height_up par t y kb a L Ky Yb). lia. }
    pose proof (height_up par t x _ a L Kx U) as Ha.
    rewrite (IH y (S i)); [reflexivity|easy|exact Fa| | |lia].
    - clear - F Hy Nz Bx Sp. lia.
    - clear - Hya Ha Bs Bi M' Bx Sp. lia.
  Qed.

  Lemma find_fork_ok t tip c : linked par t -> known t tip -> line par tip c ->
    forall l, (exists x, In x l /\ back par tip x) ->
    exists l1 f l2, l = l1 ++ f :: l2 /\ find_fork t c l = Done (Some f) /\ back par tip f
      /\ (forall x, In x l1 -> ~ back par tip x).
  Proof.
    intros L K Ln. induction l as [|h l IH]; [now intros (x & [] & _)|].
    intros (x & I & B). cbn [find_fork].
    assert (Rest : ~ back par tip h -> exists l1 f l2, h :: l = l1 ++ f :: l2
                     /\ find_fork t c l = Done (Some f) /\ back par tip f
                     /\ (forall x, In x l1 -> ~ back par tip x)).
    { intros N. destruct I as [->|I]; [now elim N|].
      destruct IH as (l1 & f & l2 & -> & Ef & Bf & A); [eauto|]. exists (h :: l1), f, l2.
      split; [easy|]. split; [easy|]. split; [easy|]. intros y [<-|Iy]; [easy|now apply A]. }
    destruct (fmem N.eqb t h) eqn:M.
    - apply fmem_true in M. destruct (line_contains par t tip c h L K Ln M) as (y & E & Y).
      rewrite E. cbn [bind]. destruct y.
      + exists [], h, l. split; [easy|]. split; [easy|]. split; [now apply Y|]. now intros z [].
      + apply Rest. intros X. apply Y in X. discriminate.
    - apply Rest. intros (k & X). apply (up_known par t tip k h L K), fmem_true in X. congruence.
  Qed.
End Forks.

Lemma proper_ext par par' t : (forall x, known t x -> par' x = par x) -> proper par t -> proper par' t.
Proof.
  intros E (L & S & R & D). split; [now apply linked_ext with par|]. split; [|split; [|easy]].
  - intros b n F P. rewrite E in P by (red; eauto). destruct (S b n F P) as (a & A & U). exists a.
    split; [easy|]. apply (ext_up par par' t); auto. red; eauto.
  - intros a b A B. rewrite !E by easy. auto.
Qed.
Lemma line_ext par par' t b c : linked par t -> (forall x, known t x -> par' x = par x) -> known t b ->
  line par b c -> line par' b c.
Proof.
  intros L E K (n & G & Ln & A). exists n. split; [apply (ext_generation par par' t); auto|]. split; [easy|].
  intros k a Lk U. apply A; [easy|]. apply (ext_up_back par par' t b k a L E K U).
Qed.
