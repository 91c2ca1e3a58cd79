(** C28 and C59: the block index, the chain of blocks and block locators. *)
From Coq Require Import List Bool NArith ZArith Lia Sorted Permutation.
From Verif Require Import Prelude PreludeFacts AccountModel DexModel DexProofs ChainSpec ChainModel ChainProofs.
Import ListNotations.
Open Scope Z_scope.

(** ** C28: heights and ancestors *)

(** The height of a block counts its predecessors, whatever arrived and in whatever order, and
    however often the index was written and loaded again. *)
Theorem c28_height l t b : grown l t -> In b (map fst l) ->
  exists n, fget N.eqb t b = Some n /\ 0 <= n_height n <= MAX_HEIGHT
    /\ n_prev n = pred_in l b /\ generation (pred_in l) b (Z.to_nat (n_height n)).
Proof.
  intros G I. destruct (grown_proper l t G) as [(L & _) Kn]. apply Kn in I. destruct I as (n & E).
  exists n. pose proof L as (Lp & Lh & _). split; [easy|]. split; [apply (Lh b n E)|].
  split; [now apply Lp|]. apply (Lh b n E).
Qed.
Print Assumptions c28_height.

(** The ancestor at a height is the block reached by going back as many times as it takes; the skip
    links change nothing about that, and no link that is followed is missing. *)
Theorem c28_ancestor l t b n h : grown l t -> fget N.eqb t b = Some n -> 0 <= h <= n_height n ->
  exists a, get_ancestor t (Some b) h = Done (Some a)
    /\ up (pred_in l) b (Z.to_nat (n_height n - h)) a.
Proof.
  intros G E H. destruct (grown_proper l t G) as [(L & S & _) Kn].
  rewrite <- (height_known t b n E) in *. apply ancestor_ok; [easy| |now exists n|easy].
  intros x k m _ Em _. exact (S x m Em).
Qed.
Print Assumptions c28_ancestor.

Theorem c28_none l t b n h : grown l t -> fget N.eqb t b = Some n -> (h < 0 \/ n_height n < h) ->
  get_ancestor t (Some b) h = Done None.
Proof.
  intros G E H. unfold get_ancestor, deref. rewrite E. cbn [bind].
  destruct (Z.ltb_spec (n_height n) h), (Z.ltb_spec h 0); try reflexivity. lia.
Qed.
Print Assumptions c28_none.

(** A new block on a known one always finds its place, and the index goes on as above; only at the
    largest height that can be written down the sum is undefined. *)
Theorem c28_add l t b prev m seq : grown l t -> fget N.eqb t prev = Some m -> ~ In b (map fst l) ->
  (n_height m < MAX_HEIGHT -> exists t', add_index t b prev seq = Done t' /\ grown ((b, Some prev) :: l) t')
  /\ (n_height m = MAX_HEIGHT -> add_index t b prev seq = Undefined).
Proof.
  intros G E N. destruct (grown_proper l t G) as [P Kn]. split.
  - intros H. rewrite <- (height_known t prev m E) in H.
    destruct (add_next (pred_in l) t b prev seq P) as (t' & A & _); [now exists m|rewrite Kn; easy|easy|].
    exists t'. split; [easy|]. apply (grown_next l t b prev seq t' G); [|easy]. apply Kn. now exists m.
  - intros H. unfold add_index. assert (F : fmem N.eqb t b = false).
    { destruct (fmem N.eqb t b) eqn:M; [|easy]. apply fmem_true, Kn in M. now elim N. }
    assert (prev <> b) by (intros ->; apply N, Kn; now exists m).
    rewrite F. cbn [negb guard bind]. cbn zeta.
    rewrite fget_put_other, E, H by (auto using N_eqb_ok). reflexivity.
Qed.
Print Assumptions c28_add.

(** Loading what was stored, in any order of increasing height, gives the same links and heights. *)
Theorem c28_load l t order : grown l t -> Permutation order (keys t) ->
  StronglySorted (fun a b => height_of t a <= height_of t b) order ->
  exists t', build_skips (load_indexes (store t)) order = Done t' /\ grown l t'
    /\ forall b, option_map (fun n => (n_prev n, n_height n)) (fget N.eqb t' b)
               = option_map (fun n => (n_prev n, n_height n)) (fget N.eqb t b).
Proof.
  intros G Pm So. destruct (grown_proper l t G) as [P Kn].
  destruct (load_ok (pred_in l) t order P Pm So) as (t' & B & _ & S). exists t'.
  split; [easy|]. split; [now apply (grown_load l t order t')|]. intros b. symmetry. apply S.
Qed.
Print Assumptions c28_load.

(** ** C59: the active chain *)

(** The chain after any number of new tips, while the index grows. *)
Inductive ran : list (N * option N) -> list (N * node) -> list (option N) -> Prop :=
| ran_start l t : grown l t -> ran l t []
| ran_more l t c l' t' : ran l t c -> grown l' t' ->
    (forall b, In b (map fst l) -> In b (map fst l') /\ pred_in l' b = pred_in l b) -> ran l' t' c
| ran_tip l t c b c' f : ran l t c -> In b (map fst l) -> c_set_tip t c (Some b) = Done (c', f) ->
    ran l t c'.

Lemma ran_was l t c : ran l t c -> grown l t /\ was (pred_in l) t c.
Proof.
  intros R. induction R as [l t G|l t c l' t' R (G & W) G' M|l t c b c' f R (G & W) I E].
  - split; [easy|]. now left.
  - split; [easy|]. destruct W as [W|(b0 & K & Ln)]; [now left|]. right. exists b0.
    destruct (grown_proper l t G) as [(L & _) Kn]. destruct (grown_proper l' t' G') as [_ Kn'].
    split.
    + apply Kn', M, Kn, K.
    + apply (line_ext (pred_in l) (pred_in l') t b0 c L); [|easy|easy].
      intros x Kx. apply M, Kn, Kx.
  - split; [easy|]. destruct (grown_proper l t G) as [(L & _ & Ro & _) Kn]. apply Kn in I.
    destruct (set_tip_ok (pred_in l) t b c L Ro I W) as (c2 & f2 & E2 & Ln & _).
    rewrite E in E2. injection E2 as <- <-. right. eauto.
Qed.

(** Setting the tip always works. The chain then lists the blocks from the first one to the tip, and
    what is returned is the last block common to the old chain and the new one: nothing only if
    there was no chain before. *)
Theorem c59_set_tip l t c b : ran l t c -> In b (map fst l) ->
  exists c' f, c_set_tip t c (Some b) = Done (c', f) /\ line (pred_in l) b c'
    /\ (c = [] -> f = None)
    /\ (c <> [] -> exists old g, c_tip c = Some old /\ f = Some g /\ fork_of (pred_in l) old b g).
Proof.
  intros R I. destruct (ran_was l t c R) as [G W].
  destruct (grown_proper l t G) as [(L & _ & Ro & _) Kn]. apply Kn in I.
  destruct (set_tip_ok (pred_in l) t b c L Ro I W) as (c' & f & E & Ln & F). exists c', f.
  split; [easy|]. split; [easy|]. split.
  - intros ->. destruct f as [f|]; [|easy]. destruct F as (b0 & _ & (n & _ & X & _) & _). discriminate.
  - intros N. destruct f as [f|]; [|now elim N]. destruct F as (b0 & K0 & L0 & Fk).
    exists b0, f. split; [|easy]. now apply (line_tip (pred_in l) t).
Qed.
Print Assumptions c59_set_tip.

(** A chain that is not empty lists the blocks up to its tip: its height, what is found at each
    height, and whether a block is on it. *)
Theorem c59_chain l t c : ran l t c -> c <> [] ->
  exists b n, c_tip c = Some b /\ In b (map fst l) /\ fget N.eqb t b = Some n /\ line (pred_in l) b c
    /\ c_height c = n_height n
    /\ (forall h a, c_at c h = Some a <->
          0 <= h <= n_height n /\ up (pred_in l) b (Z.to_nat (n_height n - h)) a)
    /\ (forall x, In x (map fst l) ->
          exists y, c_contains t c (Some x) = Done y /\ (y = true <-> back (pred_in l) b x)).
Proof.
  intros R N. destruct (ran_was l t c R) as [G [W|(b & K & Ln)]]; [easy|].
  destruct (grown_proper l t G) as [(L & _ & Ro & _) Kn]. pose proof K as (n & E). exists b, n.
  split; [now apply (line_tip (pred_in l) t)|]. split; [now apply Kn|]. split; [easy|]. split; [easy|].
  rewrite <- (height_known t b n E).
  split; [now apply (line_height (pred_in l) t)|]. split.
  - intros h a. now apply (line_at (pred_in l) t).
  - intros x I. apply Kn in I. now apply (line_contains (pred_in l) t b).
Qed.
Print Assumptions c59_chain.

(** The successor of a block on the chain is the block of the chain that has it as predecessor; the
    tip, and blocks that are not on the chain, have none. *)
Theorem c59_next l t c b x : ran l t c -> c_tip c = Some b -> In x (map fst l) ->
  exists r, c_next t c (Some x) = Done r
    /\ (forall y, r = Some y <-> back (pred_in l) b y /\ pred_in l y = Some x).
Proof.
  intros R T I. assert (Ne : c <> []) by (intros ->; discriminate).
  destruct (ran_was l t c R) as [G [W|(b' & K & Ln)]]; [easy|].
  destruct (grown_proper l t G) as [(L & _ & Ro & _) Kn]. apply Kn in I.
  rewrite (line_tip (pred_in l) t b' c L K Ln) in T. injection T as ->.
  unfold c_next. destruct (line_contains (pred_in l) t b c x L K Ln I) as (y & E & Y). rewrite E. cbn [bind].
  destruct (deref_known t x I) as (n & D & En). rewrite D. cbn [bind]. rewrite <- (height_known t x n En).
  eexists. split; [reflexivity|]. intros z. destruct y.
  - assert (B : back (pred_in l) b x) by now apply Y. destruct B as (k & U).
    pose proof (height_up (pred_in l) t b k x L K U) as Hx.
    rewrite (line_at (pred_in l) t b c _ z L K Ln). split.
    + intros (H & V). split; [red; eauto|]. replace (Z.to_nat _) with (k - 1)%nat in V by lia.
      assert (Q : up (pred_in l) z 1 x).
      { replace 1%nat with (k - (k - 1))%nat by lia. apply (up_between _ b); [easy|easy|lia]. }
      inversion Q as [|z' p k' a' P V']; subst. inversion V'; subst. easy.
    + intros ((j & V) & P). assert (Kz : known t z) by exact (up_known (pred_in l) t b j z L K V).
      pose proof (height_up (pred_in l) t b j z L K V) as Hz.
      pose proof (height_up (pred_in l) t z 1 x L Kz (up_one _ _ _ P)) as Hzx.
      destruct (height_gen (pred_in l) t x L I). split; [lia|].
      now replace (Z.to_nat _) with j by lia.
  - split; [discriminate|]. intros ((j & V) & P).
    assert (false = true); [|discriminate]. apply Y. exists (j + 1)%nat. eapply up_app; [exact V|].
    now apply up_one.
Qed.
Print Assumptions c59_next.

(** *** Locators *)

(** The locator of a block: it begins with the block and ends with the first block of all, all of
    it lies on the way back, each entry strictly behind the one before, and everything after the
    first entry is on the chain. For a block of the chain the distances are 1, 2, ..., 11, 13, 17,
    25, ... *)
Theorem c59_locator l t c b n : ran l t c -> c <> [] -> fget N.eqb t b = Some n ->
  n_height n <= 2 ^ 30 + 9 ->
  exists tip r, c_tip c = Some tip /\ get_locator t c (Some b) = Done (b :: r)
    /\ (forall a, In a r -> back (pred_in l) b a /\ back (pred_in l) tip a)
    /\ StronglySorted (fun x y => back (pred_in l) x y /\ x <> y) (b :: r)
    /\ pred_in l (last (b :: r) b) = None
    /\ (back (pred_in l) tip b -> forall j a, nth_error (b :: r) j = Some a ->
          up (pred_in l) b (Z.to_nat (Z.min (behind j) (n_height n))) a).
Proof.
  intros R N E H. destruct (ran_was l t c R) as [G [W|(tip & K & Ln)]]; [easy|].
  destruct (grown_proper l t G) as [P Kn]. pose proof P as (L & _). assert (Kb : known t b) by now exists n.
  rewrite <- (height_known t b n E) in *. exists tip. unfold get_locator, deref. rewrite E. cbn [bind].
  rewrite <- (height_known t b n E).
  destruct (loop_ok (pred_in l) t tip c (height_of t b) P K Ln H (S (Z.to_nat (height_of t b))) b 0 Kb)
    as (r & El & A & S & La & Q); [lia|cbn [behind]; change (behind 0) with 0; lia|].
  exists r. split; [now apply (line_tip (pred_in l) t)|]. split; [exact El|]. split; [easy|].
  split; [easy|]. split; [easy|]. intros B j a Ea. specialize (Q B j a Ea).
  change (0 + j)%nat with j in Q. change (behind 0) with 0 in Q. now rewrite Z.sub_0_r in Q.
Qed.
Print Assumptions c59_locator.

(** Above that height the step of the loop overflows, for every block of the chain. *)
Theorem c59_locator_overflow l t c tip b n : ran l t c -> c_tip c = Some tip ->
  fget N.eqb t b = Some n -> back (pred_in l) tip b -> 2 ^ 30 + 9 < n_height n ->
  get_locator t c (Some b) = Undefined.
Proof.
  intros R T E B H. assert (Ne : c <> []) by (intros ->; discriminate).
  destruct (ran_was l t c R) as [G [W|(tip' & K & Ln)]]; [easy|].
  destruct (grown_proper l t G) as [P Kn]. pose proof P as (L & _). assert (Kb : known t b) by now exists n.
  rewrite (line_tip (pred_in l) t tip' c L K Ln) in T. injection T as ->.
  rewrite <- (height_known t b n E) in H. unfold get_locator, deref. rewrite E. cbn [bind].
  rewrite <- (height_known t b n E).
  apply (loop_over (pred_in l) t tip c P K Ln _ b 0 Kb B); [lia|change (behind 0) with 0; lia|lia].
Qed.
Print Assumptions c59_locator_overflow.

(** *** Finding the fork from a locator *)

(** Two nodes that agree about which block follows which. *)
Definition agree (par : N -> option N) (l : list (N * option N)) : Prop :=
  forall b, In b (map fst l) -> pred_in l b = par b.

(** A node that gets a locator made by another node for a block [b] on the other node's chain finds
    a block that both have, at the depth of the real fork or lower: exactly the fork if it is no
    more than eleven blocks deep, and never more than twice as deep less eleven. *)
Theorem c59_fork par l1 t1 c1 tip1 b n l2 t2 c2 tip2 g k :
  agree par l1 -> agree par l2 ->
  ran l1 t1 c1 -> c_tip c1 = Some tip1 -> fget N.eqb t1 b = Some n -> back par tip1 b ->
  n_height n <= 2 ^ 30 + 9 ->
  ran l2 t2 c2 -> c_tip c2 = Some tip2 ->
  fork_of par b tip2 g -> up par b k g ->
  exists r f j, get_locator t1 c1 (Some b) = Done r /\ find_fork t2 c2 r = Done (Some f)
    /\ up par b j f /\ back par g f /\ (k <= j)%nat
    /\ Z.of_nat j <= Z.max (Z.of_nat k) (2 * Z.of_nat k - 11).
Proof.
  intros A1 A2 R1 T1 E B H R2 T2 Fk Ug.
  assert (Ne1 : c1 <> []) by (intros ->; discriminate).
  assert (Ne2 : c2 <> []) by (intros ->; discriminate).
  destruct (ran_was l1 t1 c1 R1) as [G1 [W1|(x1 & K1 & Ln1)]]; [easy|].
  destruct (ran_was l2 t2 c2 R2) as [G2 [W2|(x2 & K2 & Ln2)]]; [easy|].
  destruct (grown_proper l1 t1 G1) as [P1 Kn1]. destruct (grown_proper l2 t2 G2) as [P2 Kn2].
  assert (X1 : forall x, known t1 x -> par x = pred_in l1 x) by (intros x Kx; symmetry; apply A1, Kn1, Kx).
  assert (X2 : forall x, known t2 x -> par x = pred_in l2 x) by (intros x Kx; symmetry; apply A2, Kn2, Kx).
  pose proof (proper_ext _ par t1 X1 P1) as Q1. pose proof (proper_ext _ par t2 X2 P2) as Q2.
  pose proof (line_ext _ par t1 x1 c1 (proj1 P1) X1 K1 Ln1) as Lx1.
  pose proof (line_ext _ par t2 x2 c2 (proj1 P2) X2 K2 Ln2) as Lx2.
  rewrite (line_tip par t1 x1 c1 (proj1 Q1) K1 Lx1) in T1. injection T1 as ->.
  rewrite (line_tip par t2 x2 c2 (proj1 Q2) K2 Lx2) in T2. injection T2 as ->.
  assert (Kb : known t1 b) by now exists n. rewrite <- (height_known t1 b n E) in H.
  destruct (loop_ok par t1 tip1 c1 (height_of t1 b) Q1 K1 Lx1 H (S (Z.to_nat (height_of t1 b))) b 0 Kb)
    as (r & El & A & S & La & Q); [lia|change (behind 0) with 0; lia|].
  specialize (Q B). change (behind 0) with 0 in Q.
  pose proof Fk as (F1 & F2 & F3).
  pose proof (proj1 Q1) as L1. destruct (height_gen par t1 b L1 Kb) as [Hb Gb].
  assert (Z : back par tip2 (last (b :: r) b)).
  { assert (I : exists j, nth_error (b :: r) j = Some (last (b :: r) b)).
    { apply In_nth_error. assert (b :: r <> []) by discriminate.
      pose proof (app_removelast_last b H0) as Y. rewrite Y at 2. apply in_or_app. right. now left. }
    destruct I as (j & I). pose proof (Q j _ I) as V.
    eapply back_trans; [exact F2|]. apply (back_linear par b g _ k _ Ug V).
    destruct (generation_up par b _ _ _ Gb V) as [Vl (g' & Vg & Vn)].
    destruct (generation_up par b _ _ _ Gb Ug) as [Ul _].
    match type of Vg with up _ _ ?q _ => destruct q as [|q'] eqn:Eq end; [lia|].
    inversion Vg; congruence. }
  destruct (find_fork_ok par t2 tip2 c2 (proj1 Q2) K2 Lx2 (b :: r)) as (r1 & f & r2 & Er & Ef & Bf & Nf).
  { exists (last (b :: r) b). split; [|easy]. assert (Y : b :: r <> []) by discriminate.
    rewrite (app_removelast_last b Y) at 2. apply in_or_app. right. now left. }
  assert (If : nth_error (b :: r) (length r1) = Some f).
  { rewrite Er, nth_error_app2, Nat.sub_diag by lia. reflexivity. }
  pose proof (Q _ _ If) as Uf. set (j := Z.to_nat (Z.min (behind (0 + length r1) - 0) (height_of t1 b))) in *.
  assert (Bgf : back par g f) by (apply F3; [red; eauto|easy]).
  assert (Kj : (k <= j)%nat).
  { destruct Bgf as (i & Ui). pose proof (up_app par b k g i f Ug Ui) as V.
    destruct (Nat.le_gt_cases k j) as [|Gt]; [easy|].
    destruct (generation_up par b _ _ _ Gb V) as [Vl Vg]. destruct (generation_up par b _ _ _ Gb Uf) as [Wl Wg].
    pose proof (generation_det par f _ _ Vg Wg). lia. }
  exists (b :: r), f, j. split.
  { unfold get_locator, deref. rewrite E. cbn [bind]. rewrite <- (height_known t1 b n E). exact El. }
  split; [easy|]. split; [easy|]. split; [easy|]. split; [easy|].
  destruct (length r1) as [|i] eqn:Lr.
  - subst j. change (behind (0 + 0)) with 0. lia.
  - assert (Ia : exists a, nth_error (b :: r) i = Some a /\ In a r1).
    { destruct (nth_error r1 i) as [a|] eqn:Ea; [|apply nth_error_None in Ea; lia]. exists a.
      split; [|now apply nth_error_In in Ea]. now rewrite Er, nth_error_app1 by lia. }
    destruct Ia as (a & Ea & Ia). pose proof (Q _ _ Ea) as Ua. cbn [Nat.add] in Ua. rewrite Z.sub_0_r in Ua.
    assert (Lt : (Z.to_nat (Z.min (behind i) (height_of t1 b)) < k)%nat).
    { destruct (Nat.le_gt_cases k (Z.to_nat (Z.min (behind i) (height_of t1 b)))) as [Le|]; [|easy].
      elim (Nf a Ia). eapply back_trans; [exact F2|]. exact (back_linear par b g a k _ Ug Ua Le). }
    destruct (generation_up par b _ _ _ Gb Ug) as [Ul _].
    pose proof (behind_next i) as Bn. pose proof (behind_pos i) as Bp.
    subst j. cbn [Nat.add]. clear - Lt Ul Bn Bp Hb. lia.
Qed.
Print Assumptions c59_fork.

(** *** The block kept beside the chain *)

(** The active chain, from the start of the node on. *)
Inductive active_ran : list (N * option N) -> list (N * node) -> active -> Prop :=
| active_start l t b a : grown l t -> In b (map fst l) -> a_start t b = Done a -> active_ran l t a
| active_more l t a l' t' : active_ran l t a -> grown l' t' ->
    (forall b, In b (map fst l) -> In b (map fst l') /\ pred_in l' b = pred_in l b) ->
    active_ran l' t' a
| active_connect l t a b a' : active_ran l t a -> In b (map fst l) -> a_connect t a b = Done a' ->
    active_ran l t a'
| active_disconnect l t a b a' : active_ran l t a -> c_tip (a_chain a) = Some b ->
    pred_in l b <> None -> a_disconnect t a = Done a' -> active_ran l t a'.

Lemma active_was l t a : active_ran l t a -> ran l t (a_chain a) /\ exists b, c_tip (a_chain a) = Some b.
Proof.
  intros R. induction R as [l t b a G I E|l t a l' t' R (W & b & T) G' M|l t a b a' R (W & o & T) I E|l t a b a' R (W & _) T P E].
  - unfold a_start, a_set_tip in E. cbn [a_chain] in E.
    destruct (c59_set_tip l t [] b (ran_start l t G) I) as (c' & f & Ec & Ln & _). rewrite Ec in E.
    cbn [bind] in E. injection E as <-. cbn [a_chain fst]. split.
    + exact (ran_tip l t [] b c' f (ran_start l t G) I Ec).
    + exists b. destruct (grown_proper l t G) as [(L & _) Kn]. apply Kn in I. now apply (line_tip (pred_in l) t).
  - split; [now apply (ran_more l t)|eauto].
  - unfold a_connect in E. step E as n En. step E as u Eu. unfold a_set_tip in E.
    destruct (c59_set_tip l t _ b W I) as (c' & f & Ec & Ln & _). rewrite Ec in E.
    cbn [bind] in E. injection E as <-. cbn [a_chain fst]. split; [exact (ran_tip l t _ b c' f W I Ec)|].
    exists b. destruct (ran_was l t _ W) as [G _]. destruct (grown_proper l t G) as [(L & _) Kn].
    apply Kn in I. now apply (line_tip (pred_in l) t).
  - unfold a_disconnect in E. rewrite T in E. step E as n En.
    destruct (ran_was l t _ W) as [G _]. destruct (grown_proper l t G) as [(L & _) Kn].
    destruct (deref_done t (Some b) n En) as (b' & Eb & Eg). injection Eb as <-.
    pose proof L as (Lp & _ & Lc). rewrite (Lp b n Eg) in E.
    destruct (pred_in l b) as [p|] eqn:Pb; [|now elim P].
    assert (Kp : known t p) by exact (Lc b n p Eg Pb). assert (I : In p (map fst l)) by now apply Kn.
    unfold a_set_tip in E. destruct (c59_set_tip l t _ p W I) as (c' & f & Ec & Ln & _). rewrite Ec in E.
    cbn [bind] in E. injection E as <-. cbn [a_chain fst]. split; [exact (ran_tip l t _ p c' f W I Ec)|].
    exists p. now apply (line_tip (pred_in l) t).
Qed.

(** Connecting a block never fails for a block on the tip, and the block kept is the new tip. *)
Theorem c59_connect l t a b tip : active_ran l t a -> c_tip (a_chain a) = Some tip ->
  In b (map fst l) -> pred_in l b = Some tip ->
  exists a', a_connect t a b = Done a' /\ active_ran l t a' /\ c_tip (a_chain a') = Some b
    /\ a_block a' = Some b.
Proof.
  intros R T I P. destruct (active_was l t a R) as [W _]. destruct (ran_was l t _ W) as [G _].
  destruct (grown_proper l t G) as [(L & _) Kn]. pose proof I as K. apply Kn in K.
  assert (X : exists a', a_connect t a b = Done a' /\ c_tip (a_chain a') = Some b /\ a_block a' = Some b).
  { unfold a_connect. destruct (deref_known t b K) as (n & D & En). rewrite D. cbn [bind].
    pose proof L as (Lp & _). rewrite (Lp b n En), P, T. cbn [opt_eqb]. rewrite N.eqb_refl. cbn [asserted bind].
    unfold a_set_tip. destruct (c59_set_tip l t _ b W I) as (c' & f & Ec & Ln & _ & F). rewrite Ec. cbn [bind].
    destruct F as (o & g & _ & -> & _); [intros Y; rewrite Y in T; discriminate|].
    eexists. split; [reflexivity|]. cbn [a_chain a_block fst snd]. split; [|easy].
    now apply (line_tip (pred_in l) t). }
  destruct X as (a' & E & X). exists a'. split; [easy|]. split; [exact (active_connect l t a b a' R I E)|easy].
Qed.
Print Assumptions c59_connect.

(** Disconnecting never fails above the first block. The tip is the predecessor, but the block kept
    is the one that was disconnected. *)
Theorem c59_disconnect l t a b p : active_ran l t a -> c_tip (a_chain a) = Some b ->
  pred_in l b = Some p ->
  exists a', a_disconnect t a = Done a' /\ active_ran l t a' /\ c_tip (a_chain a') = Some p
    /\ a_block a' = Some b.
Proof.
  intros R T P. destruct (active_was l t a R) as [W _]. destruct (ran_was l t _ W) as [G Ws].
  destruct (grown_proper l t G) as [(L & _) Kn].
  assert (K : known t b).
  { destruct Ws as [Y|(b' & K & Ln)]; [rewrite Y in T; discriminate|].
    rewrite (line_tip (pred_in l) t b' _ L K Ln) in T. now injection T as <-. }
  assert (X : exists a', a_disconnect t a = Done a' /\ c_tip (a_chain a') = Some p /\ a_block a' = Some b).
  { unfold a_disconnect. rewrite T. destruct (deref_known t b K) as (n & D & En). rewrite D. cbn [bind].
    pose proof L as (Lp & _ & Lc). rewrite (Lp b n En), P.
    assert (Kp : known t p) by exact (Lc b n p En P). assert (I : In p (map fst l)) by now apply Kn.
    unfold a_set_tip. destruct (c59_set_tip l t _ p W I) as (c' & f & Ec & Ln & _ & F). rewrite Ec. cbn [bind].
    destruct F as (o & g & _ & -> & _); [intros Y; rewrite Y in T; discriminate|].
    eexists. split; [reflexivity|]. cbn [a_chain a_block fst snd]. split; [|easy].
    now apply (line_tip (pred_in l) t). }
  destruct X as (a' & E & X). exists a'. split; [easy|]. split; [|easy].
  apply (active_disconnect l t a b a' R T); [congruence|easy].
Qed.
Print Assumptions c59_disconnect.

(** After a start the block kept is an empty one, whatever the tip is. *)
Theorem c59_start l t b : grown l t -> In b (map fst l) ->
  exists a, a_start t b = Done a /\ active_ran l t a /\ c_tip (a_chain a) = Some b /\ a_block a = None.
Proof.
  intros G I. destruct (grown_proper l t G) as [(L & _) Kn]. pose proof I as K. apply Kn in K.
  assert (X : exists a, a_start t b = Done a /\ c_tip (a_chain a) = Some b /\ a_block a = None).
  { unfold a_start, a_set_tip. cbn [a_chain].
    destruct (c59_set_tip l t [] b (ran_start l t G) I) as (c' & f & Ec & Ln & F & _). rewrite Ec. cbn [bind].
    rewrite F by easy. eexists. split; [reflexivity|]. cbn. split; [|easy]. now apply (line_tip (pred_in l) t). }
  destruct X as (a & E & X). exists a. split; [easy|]. split; [exact (active_start l t b a G I E)|easy].
Qed.
Print Assumptions c59_start.

(** ** Concrete cases *)
Section Instance.
  (** Blocks 0 .. 30 in a row, then 131 .. 140 on top of block 5. *)
  Definition arrivals : list (N * option N) :=
    rev ((0%N, None) :: map (fun i => (N.of_nat i, Some (N.of_nat (i - 1)))) (seq 1 30)
         ++ (131%N, Some 5%N) :: map (fun i => (N.of_nat i, Some (N.of_nat (i - 1)))) (seq 132 9)).
  Definition index_of (l : list (N * option N)) : outcome (list (N * node)) :=
    fold_right (fun x r => do t <- r;
                  match snd x with
                  | None => add_index t (fst x) 999 1
                  | Some p => add_index t (fst x) p 1
                  end) (Done []) l.
  Definition tree1 : list (N * node) := match index_of arrivals with Done t => t | _ => [] end.

  Lemma index_grown l t : forall b, index_of (l ++ [(b, None)]) = Done t -> b <> 999%N ->
    (forall x p, In (x, p) l -> exists q, p = Some q) ->
    Forall (fun i => match nth_error l i with
                     | Some (_, Some q) => In q (map fst (skipn (S i) (l ++ [(b, None)])))
                     | _ => True end) (seq 0 (length l)) ->
    grown (l ++ [(b, None)]) t.
  Proof.
    intros b. revert t. induction l as [|[x p] l IH]; intros t E D A F.
    - cbn [app] in *. cbn [index_of fold_right bind fst snd] in E. apply (grown_first b 999%N 1%N t); [congruence|easy].
    - cbn [app index_of fold_right] in E. fold (index_of (l ++ [(b, None)])) in E.
      destruct (A x p (or_introl eq_refl)) as (q & ->). cbn [fst snd] in E. step E as t0 E0.
      cbn [app]. apply (grown_next _ t0 x q 1%N t); [|
        |exact E].
      + apply IH; [easy|easy|intros y r I; apply (A y r); now right|].
        apply Forall_forall. intros i Hi. apply in_seq in Hi. rewrite Forall_forall in F.
        specialize (F (S i)). cbn [nth_error skipn app] in F. apply F. apply in_seq. cbn [length]. lia.
      + rewrite Forall_forall in F. specialize (F 0%nat). cbn [nth_error skipn app] in F. apply F.
        apply in_seq. cbn [length]. lia.
  Qed.

  Lemma arrivals_split : arrivals = removelast arrivals ++ [(0%N, None)].
  Proof. vm_compute. reflexivity. Qed.
  Lemma tree1_grown : grown arrivals tree1.
  Proof.
    rewrite arrivals_split. apply index_grown.
    - vm_compute. reflexivity.
    - discriminate.
    - intros x p I. assert (X : forallb (fun y : N * option N => match snd y with Some _ => true | None => false end)
                                  (removelast arrivals) = true) by (vm_compute; reflexivity).
      rewrite forallb_forall in X. specialize (X (x, p) I). cbn in X. destruct p; [eauto|discriminate].
    - apply Forall_forall. intros i Hi.
      assert (X : forallb (fun i => match nth_error (removelast arrivals) i with
                     | Some (_, Some q) => existsb (N.eqb q) (map fst (skipn (S i) (removelast arrivals ++ [(0%N, None)])))
                     | _ => true end) (seq 0 (length (removelast arrivals))) = true) by (vm_compute; reflexivity).
      rewrite forallb_forall in X. specialize (X i Hi).
      destruct (nth_error (removelast arrivals) i) as [[y [q|]]|]; [|easy|easy].
      apply existsb_exists in X. destruct X as (z & Iz & Ez). apply N.eqb_eq in Ez. now subst z.
  Qed.

  (** Block 140 is at height 15: its ancestor at height 4 is on the other branch as well. *)
  Example c28_example :
    option_map n_height (fget N.eqb tree1 140%N) = Some 15
    /\ get_ancestor tree1 (Some 140%N) 6 = Done (Some 131%N)
    /\ get_ancestor tree1 (Some 140%N) 4 = Done (Some 4%N)
    /\ get_ancestor tree1 (Some 30%N) 17 = Done (Some 17%N)
    /\ get_ancestor tree1 (Some 30%N) 31 = Done None
    /\ up (pred_in arrivals) 140%N 11%nat 4%N.
  Proof.
    do 5 (split; [vm_compute; reflexivity|]).
    repeat (econstructor; [vm_compute; reflexivity|]). constructor.
  Qed.

  (** The same index after it was stored and loaded. *)
  Definition order1 : list N := 0%N :: map N.of_nat (seq 1 5) ++ flat_map (fun i => [N.of_nat (125 + i); N.of_nat i]) (seq 6 10)
                                ++ map N.of_nat (seq 16 15).
  Example c28_load_example :
    exists t, build_skips (load_indexes (store tree1)) order1 = Done t /\ fget N.eqb t 140%N <> None
      /\ option_map n_skip (fget N.eqb t 140%N) = option_map n_skip (fget N.eqb tree1 140%N)
      /\ get_ancestor t (Some 140%N) 4 = Done (Some 4%N).
  Proof.
    eexists. split; [vm_compute; reflexivity|]. split; [vm_compute; discriminate|].
    split; vm_compute; reflexivity.
  Qed.

  Definition chain_of (t : list (N * node)) (c : list (option N)) (b : N) : list (option N) :=
    match c_set_tip t c (Some b) with Done r => fst r | _ => [] end.

  Lemma chain_ran l t c b : ran l t c -> In b (map fst l) -> ran l t (chain_of t c b).
  Proof.
    intros R I. unfold chain_of. destruct (c59_set_tip l t c b R I) as (c' & f & E & _). rewrite E.
    exact (ran_tip l t c b c' f R I E).
  Qed.

  (** From the tip 30 to 140: the fork is block 5. *)
  Example c59_example :
    ran arrivals tree1 (chain_of tree1 [] 30%N)
    /\ c_set_tip tree1 (chain_of tree1 [] 30%N) (Some 140%N)
       = Done (map (fun i => Some (N.of_nat i)) (seq 0 6) ++ map (fun i => Some (N.of_nat i)) (seq 131 10), Some 5%N)
    /\ c_contains tree1 (chain_of tree1 [] 30%N) (Some 131%N) = Done false
    /\ c_next tree1 (chain_of tree1 [] 30%N) (Some 17%N) = Done (Some 18%N)
    /\ get_locator tree1 (chain_of tree1 [] 30%N) (Some 30%N)
       = Done (map N.of_nat [30; 29; 28; 27; 26; 25; 24; 23; 22; 21; 20; 19; 17; 13; 5; 0]%nat)
    /\ get_locator tree1 (chain_of tree1 [] 30%N) (Some 140%N)
       = Done (map N.of_nat [140; 5; 4; 3; 2; 1; 0]%nat).
  Proof.
    split.
    { apply chain_ran; [apply ran_start, tree1_grown|vm_compute; tauto]. }
    repeat split; vm_compute; reflexivity.
  Qed.

  (** A node with tip 140 that gets the locator of 30 finds block 5, 25 blocks down; had the fork
      been at 12, it would have found 5 as well: 25 = 2 * 18 - 11. *)
  Example c59_fork_example :
    find_fork tree1 (chain_of tree1 [] 140%N)
      (map N.of_nat [30; 29; 28; 27; 26; 25; 24; 23; 22; 21; 20; 19; 17; 13; 5; 0]%nat) = Done (Some 5%N)
    /\ find_fork tree1 (chain_of tree1 [] 12%N)
      (map N.of_nat [30; 29; 28; 27; 26; 25; 24; 23; 22; 21; 20; 19; 17; 13; 5; 0]%nat) = Done (Some 5%N)
    /\ fork_of (pred_in arrivals) 30%N 12%N 12%N.
  Proof.
    split; [vm_compute; reflexivity|]. split; [vm_compute; reflexivity|].
    split; [exists 18%nat; repeat (econstructor; [vm_compute; reflexivity|]); constructor|].
    split; [apply back_refl|]. intros x _ B. exact B.
  Qed.

  (** There are chains higher than the locator can deal with. *)
  Lemma tall n : (Z.of_nat n <= MAX_HEIGHT) ->
    exists l t, grown l t /\ (forall x, In x (map fst l) -> (x <= N.of_nat n)%N)
      /\ exists m, fget N.eqb t (N.of_nat n) = Some m /\ n_height m = Z.of_nat n.
  Proof.
    induction n as [|n IH]; intros H.
    - exists [(0%N, None)], [(0%N, mkNode None None 0 1%N false)]. split.
      + apply (grown_first 0%N 999%N 1%N); [discriminate|reflexivity].
      + split; [intros x [<-|[]]; cbn; lia|]. eexists. split; [reflexivity|reflexivity].
    - destruct IH as (l & t & G & B & m & E & Hm); [lia|].
      destruct (grown_proper l t G) as [P Kn].
      assert (Nb : ~ known t (N.of_nat (S n))) by (intros X; apply Kn, B in X; lia).
      assert (Hh : height_of t (N.of_nat n) = Z.of_nat n) by (now rewrite (height_known t _ m E)).
      destruct (add_next (pred_in l) t (N.of_nat (S n)) (N.of_nat n) 1%N P) as (t' & A & _ & _ & _ & s & Es);
        [now exists m|easy|lia|].
      exists ((N.of_nat (S n), Some (N.of_nat n)) :: l), t'. split.
      + apply (grown_next l t _ _ 1%N t' G); [|easy]. apply Kn. now exists m.
      + split.
        * intros x [<-|I]; [cbn [fst]; lia|]. specialize (B x I). lia.
        * eexists. split; [exact Es|]. cbn [n_height]. lia.
  Qed.
  Theorem c59_locator_refuted : exists l t c b, ran l t c /\ c_tip c = Some b
    /\ get_locator t c (Some b) = Undefined.
  Proof.
    destruct (tall (Z.to_nat (2 ^ 30 + 10))) as (l & t & G & _ & m & E & Hm).
    { unfold MAX_HEIGHT. rewrite Z2Nat.id by (apply Z.leb_le; reflexivity). apply Z.leb_le. reflexivity. }
    rewrite Z2Nat.id in Hm by (apply Z.leb_le; reflexivity).
    set (b := N.of_nat (Z.to_nat (2 ^ 30 + 10))) in *. clearbody b.
    destruct (grown_proper l t G) as [(L & _) Kn].
    assert (I : In b (map fst l)) by (apply Kn; now exists m).
    destruct (c59_set_tip l t [] b (ran_start l t G) I) as (c & f & Ec & Ln & _).
    assert (R : ran l t c) by exact (ran_tip l t [] b c f (ran_start l t G) I Ec).
    assert (T : c_tip c = Some b) by (apply (line_tip (pred_in l) t); [easy|now exists m|easy]).
    exists l, t, c, b. split; [easy|]. split; [easy|].
    apply (c59_locator_overflow l t c b b m R T E (back_refl _ b)). rewrite Hm. reflexivity.
  Qed.

  (** The block kept is not the tip: after a start it is empty, after a disconnection it is the block
      that is gone. *)
  Theorem c59_block_refuted :
    (exists l t a, active_ran l t a /\ c_tip (a_chain a) <> None /\ a_block a = None)
    /\ exists l t a b, active_ran l t a /\ a_block a = Some b /\ c_tip (a_chain a) <> Some b.
  Proof.
    destruct (c59_start arrivals tree1 30%N tree1_grown) as (a & E & R & T & B); [vm_compute; tauto|]. split.
    - exists arrivals, tree1, a. split; [easy|]. split; [rewrite T; discriminate|easy].
    - destruct (c59_disconnect arrivals tree1 a 30%N 29%N R T) as (a' & E' & R' & T' & B'); [vm_compute; reflexivity|].
      exists arrivals, tree1, a', 30%N. split; [easy|]. split; [easy|]. rewrite T'. discriminate.
  Qed.
End Instance.
Print Assumptions c59_locator_refuted.
Print Assumptions c59_block_refuted.
