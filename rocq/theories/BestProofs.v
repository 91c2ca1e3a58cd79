(** Proofs that the best chain is chosen, and that choosing it ends. *)
From Coq Require Import List Bool NArith ZArith Lia Permutation Sorted.
From Coq Require Import ZifyBool ZifyNat ZifyN.
From Verif Require Import Prelude PreludeFacts AccountModel DexModel DexProofs ContainerModel ChainSpec
  ChainModel ChainProofs SelectModel SelectProofs.
Import ListNotations.
Open Scope Z_scope.

(** ** Marks and their number *)
Definition failing (t : list (N * node)) (b : N) : Prop := exists n, fget N.eqb t b = Some n /\ n_failed n = true.
Definition unmarked (t : list (N * node)) (b : N) : Prop := exists n, fget N.eqb t b = Some n /\ n_failed n = false.
Definition count (t : list (N * node)) : nat := length (filter (fun x => negb (n_failed (snd x))) t).
Definition seq_of (t : list (N * node)) (b : N) : N :=
  match fget N.eqb t b with Some n => n_seq n | None => 0%N end.

Lemma known_split t b : known t b -> failing t b \/ unmarked t b.
Proof. intros (n & E). unfold failing, unmarked. destruct (n_failed n) eqn:F; eauto. Qed.
Lemma failing_unmarked t b : failing t b -> unmarked t b -> False.
Proof. intros (n & E & F) (m & E' & F'). congruence. Qed.

Lemma filter_length_le {A} (f : A -> bool) l : (length (filter f l) <= length l)%nat.
Proof. induction l as [|x l IH]; cbn; [easy|]. destruct (f x); cbn; lia. Qed.
Lemma count_le t : (count t <= length t)%nat.
Proof. apply filter_length_le. Qed.
Lemma count_put t b n : fget N.eqb t b = Some n ->
  (count (fput N.eqb t b (marked n true)) <= count t)%nat
  /\ (n_failed n = false -> (count (fput N.eqb t b (marked n true)) < count t)%nat).
Proof.
  unfold count. induction t as [|[x m] t IH]; [discriminate|]. cbn [fget fput]. intros E.
  destruct (N.eqb_spec b x) as [->|D].
  - injection E as ->. cbn [filter snd marked n_failed negb]. destruct (n_failed n); cbn [negb length]; split; auto; try discriminate; lia.
  - destruct (IH E) as (A & B). cbn [filter snd]. destruct (negb (n_failed m)); cbn [length]; split; intros; try apply B in H; lia.
Qed.

Lemma mark_get t b n x : fget N.eqb t b = Some n ->
  fget N.eqb (fput N.eqb t b (marked n true)) x = if N.eqb x b then Some (marked n true) else fget N.eqb t x.
Proof.
  intros E. destruct (N.eqb_spec x b) as [->|D].
  - apply (fget_put_same N.eqb N_eqb_ok).
  - now apply (fget_put_other N.eqb N_eqb_ok).
Qed.
Lemma mark_failing t b n x : fget N.eqb t b = Some n ->
  (failing (fput N.eqb t b (marked n true)) x <-> x = b \/ failing t x).
Proof.
  intros E. unfold failing. rewrite (mark_get t b n x E). destruct (N.eqb_spec x b) as [->|D].
  - split; [now left|]. intros _. exists (marked n true). auto.
  - split; [now right|]. intros [C|C]; easy.
Qed.
Lemma mark_unmarked t b n x : fget N.eqb t b = Some n ->
  (unmarked (fput N.eqb t b (marked n true)) x <-> x <> b /\ unmarked t x).
Proof.
  intros E. unfold unmarked. rewrite (mark_get t b n x E). destruct (N.eqb_spec x b) as [->|D].
  - split; [|easy]. intros (m & X & F). injection X as <-. discriminate.
  - split; [intros C; split; auto|]. now intros (_ & C).
Qed.

(** [valid] holds the blocks without a mark. *)
Definition listed (t : list (N * node)) (valid : list N) : Prop := forall b, In b valid <-> unmarked t b.

Lemma listed_known t valid b : listed t valid -> In b valid -> known t b.
Proof. intros Li I. apply Li in I. destruct I as (n & E & _). now exists n. Qed.

Lemma fail_ok t valid b : known t b -> listed t valid ->
  exists t', fail_block t valid b = Done (t', drop_bid valid b) /\ remarks t t'
    /\ listed t' (drop_bid valid b) /\ (forall x, failing t' x <-> x = b \/ failing t x)
    /\ (count t' <= count t)%nat /\ (unmarked t b -> (count t' < count t)%nat).
Proof.
  intros K Li. destruct (deref_known t b K) as (n & D & E). unfold fail_block. rewrite D. cbn [bind].
  exists (fput N.eqb t b (marked n true)). split; [easy|].
  split; [econstructor; [constructor|easy]|].
  split; [intros x; rewrite drop_in, (mark_unmarked t b n x E); specialize (Li x); tauto|].
  split; [intros x; apply (mark_failing t b n x E)|]. destruct (count_put t b n E) as (A & B). split; [easy|].
  intros (m & E' & F). apply B. congruence.
Qed.

(** ** The order *)
Section Order.
  Variable addr : N -> N.

  Definition below (t : list (N * node)) (a b : N) : bool :=
    if negb (height_of t a =? height_of t b) then height_of t a <? height_of t b
    else if negb (seq_of t a =? seq_of t b)%N then (seq_of t b <? seq_of t a)%N
    else (addr b <? addr a)%N.
  Lemma less_ok t a b : known t a -> known t b -> less addr t a b = Done (below t a b).
  Proof.
    intros (n & E) (m & E'). unfold less, below, deref, height_of, seq_of. rewrite E, E'. reflexivity.
  Qed.
  Lemma below_cases t a b : below t a b = true <->
    (height_of t a < height_of t b \/ (height_of t a = height_of t b
      /\ ((seq_of t b < seq_of t a)%N \/ (seq_of t a = seq_of t b /\ (addr b < addr a)%N)))).
  Proof.
    unfold below. destruct (Z.eqb_spec (height_of t a) (height_of t b)); cbn [negb]; [|lia].
    destruct (N.eqb_spec (seq_of t a) (seq_of t b)); cbn [negb]; lia.
  Qed.
  Lemma below_trans t a b c : below t a b = false -> below t b c = false -> below t a c = false.
  Proof.
    intros A B. destruct (below t a c) eqn:C; [|easy]. apply below_cases in C.
    assert (~ below t a b = true) as A' by congruence. assert (~ below t b c = true) as B' by congruence.
    rewrite below_cases in A', B'. lia.
  Qed.
  Lemma below_irrefl t a : below t a a = false.
  Proof. destruct (below t a a) eqn:C; [|easy]. apply below_cases in C. lia. Qed.
  Lemma below_total t a b : (forall x y, addr x = addr y -> x = y) ->
    below t a b = false -> below t b a = false -> a = b.
  Proof.
    intros J A B. apply J. assert (~ below t a b = true) as A' by congruence.
    assert (~ below t b a = true) as B' by congruence. rewrite below_cases in A', B'. lia.
  Qed.
  Lemma seq_put t b n x : fget N.eqb t b = Some n -> seq_of (fput N.eqb t b (marked n true)) x = seq_of t x.
  Proof.
    intros E. unfold seq_of. rewrite (mark_get t b n x E). destruct (N.eqb_spec x b) as [->|]; [|easy].
    now rewrite E.
  Qed.
  Lemma seq_remarks t t' x : remarks t t' -> seq_of t' x = seq_of t x.
  Proof.
    intros R. induction R as [t|t t' b n f R IH E]; [easy|]. rewrite <- IH. unfold seq_of.
    destruct (N.eqb_spec x b) as [->|D].
    - now rewrite (fget_put_same N.eqb N_eqb_ok), E.
    - now rewrite (fget_put_other N.eqb N_eqb_ok) by easy.
  Qed.
  Lemma below_remarks t t' a b : remarks t t' -> below t' a b = below t a b.
  Proof.
    intros R. unfold below. rewrite !(seq_remarks t t' _ R).
    now rewrite <- !(same_height t t' _ (remarks_links _ _ R)).
  Qed.

  Lemma greatest_ok t l : (forall x, In x l -> known t x) ->
    exists g, greatest addr t l = Done g
      /\ match g with
         | None => l = []
         | Some y => In y l /\ forall x, In x l -> below t y x = false
         end.
  Proof.
    induction l as [|x l IH]; intros K; cbn [greatest].
    - exists None. auto.
    - destruct IH as (g & G & P); [intros y I; apply K; now right|]. rewrite G. cbn [bind].
      destruct g as [y|].
      + destruct P as (I & P). rewrite (less_ok t x y); [|apply K; now left|apply K; now right].
        cbn [bind]. eexists. split; [reflexivity|]. destruct (below t x y) eqn:B.
        * split; [now right|]. intros z [<-|Iz]; [|now apply P].
          destruct (below t y x) eqn:B'; [|easy]. apply below_cases in B, B'. lia.
        * split; [now left|]. intros z [<-|Iz]; [apply below_irrefl|].
          apply (below_trans t x y z B). now apply P.
      + subst l. eexists. split; [reflexivity|]. split; [now left|]. intros z [<-|[]]. apply below_irrefl.
  Qed.
End Order.

Section Best.
  Variable par : N -> option N.
  Variable addr : N -> N.
  Hypothesis addr_inj : forall x y, addr x = addr y -> x = y.
  (** What the rules say about each block. *)
  Variable vf : N -> verdict.

  Definition bad (b : N) : Prop := par b <> None /\ exists x, back par b x /\ vf x = VInvalid.
  Definition just (t : list (N * node)) : Prop := forall b, failing t b -> bad b.
  Definition clean (b : N) : Prop := forall x, back par b x -> vf x = VOk.

  Lemma clean_bad b : clean b -> bad b -> False.
  Proof. intros C (_ & x & B & V). rewrite (C x B) in V. discriminate. Qed.
  Lemma clean_back a b : clean a -> back par a b -> clean b.
  Proof. intros C B x B'. apply C. now apply (back_trans par a b). Qed.
  Lemma back_root g x : par g = None -> back par g x -> x = g.
  Proof. intros P (k & U). inversion U; subst; [easy|congruence]. Qed.
  Lemma clean_next b p : par b = Some p -> clean p -> vf b = VOk -> clean b.
  Proof.
    intros P C V x (k & U). inversion U as [|b' p' k' a P' U']; subst; [easy|].
    rewrite P in P'. injection P' as <-. apply C. red. eauto.
  Qed.

  (** The root is before every block. *)
  Lemma root_of t b : linked par t -> known t b -> exists g, back par b g /\ par g = None /\ known t g.
  Proof.
    intros L K. destruct (height_gen par t b L K) as [_ (g & U & P)]. exists g. split; [red; eauto|].
    split; [easy|]. exact (up_known par t b _ g L K U).
  Qed.
  Lemma root_common t a b g : good par t -> known t a -> known t b -> back par a g -> par g = None -> back par b g.
  Proof.
    intros (L & Ro) Ka Kb (k & U) P. destruct (root_of t b L Kb) as (g' & B & P' & K').
    rewrite (Ro g g'); auto. exact (up_known par t a k g L Ka U).
  Qed.
  Lemma prev_node t b n : linked par t -> fget N.eqb t b = Some n -> n_prev n = par b.
  Proof. intros (L & _) E. now apply L. Qed.
  Lemma up_height t b k x : linked par t -> known t b -> up par b k x -> (k <= Z.to_nat (height_of t b))%nat.
  Proof.
    intros L K U. pose proof (height_up par t b k x L K U) as H.
    destruct (height_gen par t x L (up_known par t b k x L K U)) as [B _]. lia.
  Qed.

  (** ** FindMostWorkChain *)
  Lemma pop_ok t fuel : forall valid most M, good par t -> just t -> listed t valid -> ends par t most M ->
    (Z.to_nat (height_of t M) < fuel)%nat ->
    exists valid' most' M', pop_failed t fuel valid most = Done (valid', most') /\ listed t valid'
      /\ ends par t most' M' /\ unmarked t M'.
  Proof.
    induction fuel as [|fuel IH]; intros valid most M G J Li E Lt; [lia|].
    cbn [pop_failed]. rewrite (ends_tip par t most M (proj1 G) E).
    pose proof E as (K & Ln). destruct (deref_known t M K) as (n & D & Fm). rewrite D. cbn [bind].
    destruct (n_failed n) eqn:Nf.
    - rewrite (prev_node t M n (proj1 G) Fm).
      assert (Bd : bad M) by (apply J; exists n; auto).
      destruct (par M) as [p|] eqn:P.
      2:{ destruct Bd as (Bd & _). now elim Bd. }
      assert (Kp : known t p) by exact (up_known par t M 1 p (proj1 G) K (up_one par M p P)).
      destruct (set_tip_ok par t p most (proj1 G) (proj2 G) Kp (ends_was par t most M E)) as (c & f & S & Lc & _).
      rewrite S. cbn [bind fst].
      destruct (IH (drop_bid valid M) c p G J) as (v' & m' & M' & Po & Li' & E' & U'); [|now split| |eauto 10].
      + intros b. rewrite drop_in, <- (Li b). split; [easy|]. intros Iv. pose proof (proj1 (Li b) Iv) as U. split; [easy|]. intros ->.
        apply (failing_unmarked t M); [exists n; auto|easy].
      + pose proof (height_up par t M 1 p (proj1 G) K (up_one par M p P)).
        destruct (height_gen par t p (proj1 G) Kp). lia.
    - exists valid, most, M. split; [easy|]. split; [easy|]. split; [easy|]. exists n. auto.
  Qed.

  Lemma failed_ok t act T fuel : forall x, good par t -> ends par t act T -> known t x ->
    (Z.to_nat (height_of t x) <= fuel)%nat ->
    exists y, first_failed t act fuel (Some x) = Done y
      /\ match y with
         | None => forall z, back par x z -> ~ back par T z -> unmarked t z
         | Some y => exists k, up par x k y /\ failing t y /\ (k <= Z.to_nat (height_of t x))%nat
                     /\ forall j z, (j < k)%nat -> up par x j z -> unmarked t z
         end.
  Proof.
    induction fuel as [|fuel IH]; intros x G (Kt & Ln) K Le; cbn [first_failed];
      destruct (line_contains par t T act x (proj1 G) Kt Ln K) as (y & C & I); rewrite C; cbn [bind];
      destruct y.
    1,3: exists None; split; [easy|]; intros z B Nb; exfalso; apply Nb; apply (back_trans par T x); [now apply I|easy].
    - destruct (deref_known t x K) as (n & D & Fm). rewrite D. cbn [bind].
      assert (R : par x = None).
      { apply (height_zero par t x (proj1 G) K). destruct (height_gen par t x (proj1 G) K). lia. }
      exfalso. assert (false = true); [|discriminate]. apply I.
      apply (root_common t x T x G K Kt (back_refl par x) R).
    - destruct (deref_known t x K) as (n & D & Fm). rewrite D. cbn [bind].
      destruct (n_failed n) eqn:Nf.
      + exists (Some x). split; [easy|]. exists 0%nat. split; [constructor|]. split; [exists n; auto|].
        split; [lia|]. intros j z Lj. lia.
      + rewrite (prev_node t x n (proj1 G) Fm). destruct (par x) as [p|] eqn:P.
        2:{ exfalso. assert (false = true); [|discriminate]. apply I.
            apply (root_common t x T x G K Kt (back_refl par x) P). }
        assert (Kp : known t p) by exact (up_known par t x 1 p (proj1 G) K (up_one par x p P)).
        pose proof (height_up par t x 1 p (proj1 G) K (up_one par x p P)) as Hp.
        destruct (height_gen par t p (proj1 G) Kp) as [Hp0 _].
        destruct (IH p G (conj Kt Ln) Kp ltac:(lia)) as (y & F & Y). exists y. split; [easy|]. destruct y as [y|].
        * destruct Y as (k & U & Fy & Lk & A). exists (S k). split; [now apply up_next with p|].
          split; [easy|]. split; [lia|]. intros j z Lj V. destruct j as [|j].
          -- inversion V; subst. exists n. auto.
          -- inversion V as [|b' p' k' a' P' U']; subst. rewrite P in P'. injection P' as <-. apply (A j); [lia|easy].
        * intros z (k & U) Nb. inversion U as [|b' p' k' a' P' U']; subst; [exists n; auto|].
          rewrite P in P'. injection P' as <-. apply Y; [red; eauto|easy].
  Qed.

  Lemma path_ok stop fuel : forall t valid x k, good par t -> just t -> listed t valid -> known t x ->
    up par x k stop -> bad stop -> (k <= fuel)%nat ->
    exists t' valid', mark_path t valid fuel (Some x) stop = Done (t', valid') /\ remarks t t' /\ just t'
      /\ listed t' valid' /\ (length valid' <= length valid)%nat /\ (count t' <= count t)%nat
      /\ (x <> stop -> unmarked t x -> (count t' < count t)%nat /\ (length valid' < length valid)%nat).
  Proof.
    induction fuel as [|fuel IH]; intros t valid x k G J Li K U Bd Le; cbn [mark_path];
      destruct (N.eqb_spec x stop) as [->|D].
    1,3: exists t, valid; split; [easy|]; split; [apply re_same|]; split; [easy|]; split; [easy|];
      split; [lia|]; split; [lia|]; now intros C.
    - assert (k = 0%nat) by lia. subst k. inversion U; subst. easy.
    - inversion U as [|b' p k' a' P U']; subst; [easy|].
      destruct (deref_known t x K) as (n & Dn & Fm). rewrite Dn. cbn [bind].
      destruct (fail_ok t valid x K Li) as (t1 & F1 & R1 & Li1 & Fa1 & C1 & C2). rewrite F1. cbn [bind fst snd].
      rewrite (prev_node t x n (proj1 G) Fm), P.
      assert (Kp : known t p) by exact (up_known par t x 1 p (proj1 G) K (up_one par x p P)).
      pose proof (remarks_links _ _ R1) as Sl.
      destruct (IH t1 (drop_bid valid x) p k' (good_remarks par _ _ R1 G)) as (t2 & v2 & M2 & R2 & J2 & Li2 & L2 & C3 & _);
        auto; [|now apply (same_known t)|lia|].
      + intros b Fb. apply Fa1 in Fb. destruct Fb as [->|Fb]; [|now apply J]. destruct Bd as (_ & z & Bz & V).
        split; [congruence|]. exists z. split; [|easy]. apply (back_trans par x stop); [red; eauto|easy].
      + exists t2, v2. split; [easy|]. split; [eapply remarks_trans; eauto|]. split; [easy|]. split; [easy|].
        assert (Ld : (length (drop_bid valid x) <= length valid)%nat) by apply filter_length_le.
        split; [lia|]. split; [lia|]. intros _ Ux. split; [specialize (C2 Ux); lia|].
        assert ((length (drop_bid valid x) < length valid)%nat); [|lia].
        apply Li in Ux. clear - Ux. unfold drop_bid. induction valid as [|a l IHl]; [easy|]. cbn [filter].
        destruct (N.eqb_spec x a) as [->|Dx]; cbn [negb length].
        * pose proof (filter_length_le (fun y => negb (a =? y)%N) l). lia.
        * destruct Ux as [->|Ux]; [easy|]. specialize (IHl Ux). lia.
  Qed.

  Lemma choose_ok act T fuel : forall t valid, good par t -> just t -> listed t valid -> ends par t act T ->
    (length valid <= fuel)%nat ->
    exists t' valid' x, choose addr t valid act fuel = Done (t', valid', Some x) /\ remarks t t' /\ just t'
      /\ listed t' valid' /\ In x valid' /\ (forall y, In y valid' -> below addr t' x y = false)
      /\ (forall z, back par x z -> ~ back par T z -> unmarked t' z)
      /\ ((t' = t /\ valid' = valid) \/ (count t' < count t)%nat).
  Proof.
    induction fuel as [|fuel IH]; intros t valid G J Li E Le; cbn [choose];
      destruct (greatest_ok addr t valid (fun x => listed_known t valid x Li)) as (g & Gr & P); rewrite Gr; cbn [bind];
      (destruct g as [x|];
       [|exfalso; destruct (root_of t T (proj1 G) (proj1 E)) as (r & _ & Pr & Kr);
         destruct (known_split t r Kr) as [Fr|Ur];
         [destruct (J r Fr) as (Nr & _); now apply Nr|apply Li in Ur; rewrite P in Ur; easy]]);
      destruct P as (Ix & Px).
    - destruct valid; [easy|cbn in Le; lia].
    - assert (Kx := listed_known t valid x Li Ix).
      destruct (deref_known t x Kx) as (n & D & Fm). rewrite D. cbn [bind].
      rewrite <- (height_known t x n Fm).
      destruct (failed_ok t act T _ x G E Kx (Nat.le_refl _)) as (y & Y & Q). rewrite Y. cbn [bind].
      destruct y as [y|].
      + destruct Q as (k & U & Fy & Lk & A).
        destruct (path_ok y _ t valid x k G J Li Kx U (J y Fy) Lk) as (t1 & v1 & M1 & R1 & J1 & Li1 & L1 & C1 & S1).
        rewrite M1. cbn [bind fst snd].
        assert (Ux : unmarked t x) by now apply Li.
        destruct S1 as (C2 & L2); [intros ->; now apply (failing_unmarked t y)|easy|].
        destruct (IH t1 v1 (good_remarks par _ _ R1 G) J1 Li1 (ends_remarks par _ _ _ _ R1 E) ltac:(lia))
          as (t2 & v2 & x2 & H2 & R2 & J2 & Li2 & I2 & B2 & P2 & O2).
        exists t2, v2, x2. split; [easy|]. split; [eapply remarks_trans; eauto|].
        split; [easy|]. split; [easy|]. split; [easy|]. split; [easy|]. split; [easy|]. right.
        destruct O2 as [(-> & _)|O2]; lia.
      + exists t, valid, x. split; [easy|]. split; [apply re_same|]. auto 10.
  Qed.

  (** What [find_most] leaves behind. *)
  Lemma most_ok s T : good par (s_tree s) -> just (s_tree s) -> listed (s_tree s) (s_valid s) ->
    ends par (s_tree s) (s_act s) T -> (s_most s = [] \/ exists M, ends par (s_tree s) (s_most s) M) ->
    exists s1 M1, find_most addr s = Done s1 /\ remarks (s_tree s) (s_tree s1) /\ s_act s1 = s_act s
      /\ just (s_tree s1) /\ listed (s_tree s1) (s_valid s1) /\ ends par (s_tree s1) (s_most s1) M1
      /\ (forall x, unmarked (s_tree s1) x -> below addr (s_tree s1) M1 x = false)
      /\ (count (s_tree s1) <= count (s_tree s))%nat
      /\ ((forall z, back par M1 z -> ~ back par T z -> unmarked (s_tree s1) z)
          \/ (count (s_tree s1) < count (s_tree s))%nat).
  Proof.
    intros G J Li E Mo. unfold find_most.
    assert (Po : exists valid most, pop_failed (s_tree s) (length (s_most s)) (s_valid s) (s_most s) = Done (valid, most)
      /\ listed (s_tree s) valid
      /\ ((most = []) \/ exists M, ends par (s_tree s) most M /\ unmarked (s_tree s) M)).
    { destruct Mo as [->|(M & Em)].
      - cbn. eauto 6.
      - destruct (pop_ok (s_tree s) (length (s_most s)) (s_valid s) (s_most s) M G J Li Em) as (v & m & M' & A & B & C & D).
        + pose proof (line_length par _ _ _ (proj1 G) (proj1 Em) (proj2 Em)). 
          destruct (height_gen par _ M (proj1 G) (proj1 Em)). lia.
        + exists v, m. eauto 8. }
    destruct Po as (valid & most & Pp & Lv & Wm). rewrite Pp. cbn [bind fst snd].
    destruct (choose_ok (s_act s) T (length valid) (s_tree s) valid G J Lv E (Nat.le_refl _))
      as (t' & v' & x & C & R & J' & Li' & Ix & Bx & Px & O). rewrite C. cbn [bind fst snd].
    assert (Cl : (count t' <= count (s_tree s))%nat) by (destruct O as [(-> & _)|]; lia).
    assert (Kx := listed_known t' v' x Li' Ix). pose proof (good_remarks par _ _ R G) as G'.
    assert (Set_x : exists c f, c_set_tip t' most (Some x) = Done (c, f) /\ line par x c).
    { destruct (set_tip_ok par t' x most (proj1 G') (proj2 G') Kx) as (c & f & S & Lc & _); [|eauto].
      destruct Wm as [->|(M & Em & _)]; [now left|]. right. exists M. apply (ends_remarks par _ t' _ _ R Em). }
    assert (Up : exists s1 M1, (do m <- c_set_tip t' most (Some x); Done (mkSel t' v' (s_act s) (fst m))) = Done s1
      /\ remarks (s_tree s) (s_tree s1) /\ s_act s1 = s_act s /\ just (s_tree s1)
      /\ listed (s_tree s1) (s_valid s1) /\ ends par (s_tree s1) (s_most s1) M1
      /\ (forall x, unmarked (s_tree s1) x -> below addr (s_tree s1) M1 x = false)
      /\ (count (s_tree s1) <= count (s_tree s))%nat
      /\ ((forall z, back par M1 z -> ~ back par T z -> unmarked (s_tree s1) z)
          \/ (count (s_tree s1) < count (s_tree s))%nat)).
    { destruct Set_x as (c & f & S & Lc). rewrite S. cbn [bind fst].
      exists (mkSel t' v' (s_act s) c), x. cbn [s_tree s_act s_valid s_most]. split; [easy|].
      split; [easy|]. split; [easy|]. split; [easy|]. split; [easy|]. split; [now split|].
      split; [intros y Uy; apply Bx; now apply Li'|]. auto. }
    destruct Wm as [->|(M & Em & Um)].
    - cbn [c_tip]. cbn [bind]. exact Up.
    - rewrite (ends_tip par _ _ M (proj1 G) Em).
      assert (Km : known t' M) by exact (proj1 (ends_remarks par _ t' _ _ R Em)).
      rewrite (less_ok addr t' M x Km Kx). cbn [bind]. destruct (below addr t' M x) eqn:B; [exact Up|].
      exists (mkSel t' v' (s_act s) most), M. cbn [s_tree s_act s_valid s_most]. split; [easy|].
      split; [easy|]. split; [easy|]. split; [easy|]. split; [easy|].
      split; [exact (ends_remarks par _ t' _ _ R Em)|].
      split; [intros y Uy; apply (below_trans addr t' M x y B); apply Bx; now apply Li'|]. split; [easy|].
      destruct O as [(-> & ->)|O]; [|now right]. left.
      assert (Iv : In M valid) by now apply Lv.
      rewrite (below_total addr (s_tree s) M x addr_inj B (Bx M Iv)). exact Px.
  Qed.
  (** ** ActivateBestChain *)
  Lemma scan_ok t act most T M now : good par t -> ends par t act T -> ends par t most M ->
    forall k f, (k <= length act)%nat ->
    exists l f', scan t act most now f k = Done (l, f') /\ l <> Hole.
  Proof.
    intros G E Em. induction k as [|k IH]; intros f Le; cbn [scan].
    - exists Free, f. easy.
    - destruct (c_at act (Z.of_nat k)) as [x|] eqn:Ex.
      + destruct (was_at par t act _ x (proj1 G) (ends_was par _ _ _ E) Ex) as (b0 & _ & _ & _ & _ & Kx).
        destruct (line_contains par t M most x (proj1 G) (proj1 Em) (proj2 Em) Kx) as (y & C & _). rewrite C.
        cbn [bind]. destruct y; [exists Free, f; easy|]. cbn zeta.
        destruct (_ && _); [exists Held, f; easy|].
        destruct (global_hash act _) as [h f2]. destruct (opt_eqb h (Some x)); [exists Held, f2; easy|].
        apply IH. lia.
      + exfalso. destruct E as (Kt & Ln). pose proof (line_length par t T act (proj1 G) Kt Ln) as Ll.
        destruct (height_gen par t T (proj1 G) Kt) as [B Gn].
        destruct (up_exists par T _ (Z.to_nat (height_of t T - Z.of_nat k)) Gn) as (a & U); [lia|].
        assert (c_at act (Z.of_nat k) = Some a); [|congruence].
        apply (line_at par t T act _ a (proj1 G) Kt Ln). split; [lia|easy].
  Qed.

  Lemma disconnect_ok z fuel : forall s T k, good par (s_tree s) -> ends par (s_tree s) (s_act s) T ->
    up par T k z -> c_contains (s_tree s) (s_most s) (Some z) = Done true -> (k <= fuel)%nat ->
    (exists M, ends par (s_tree s) (s_most s) M) ->
    exists s', disconnect_all fuel s = Done s'.
  Proof.
    induction fuel as [|fuel IH]; intros s T k G E U C Le (M & Em); cbn [disconnect_all];
      rewrite (ends_tip par _ _ T (proj1 G) E);
      destruct (line_contains par _ M _ T (proj1 G) (proj1 Em) (proj2 Em) (proj1 E)) as (y & Y & I);
      rewrite Y; cbn [bind]; destruct y; eauto.
    - assert (k = 0%nat) by lia. subst k. inversion U; subst. congruence.
    - inversion U as [|b p k' a P U']; subst; [congruence|].
      destruct (deref_known _ T (proj1 E)) as (n & D & Fm).
      assert (Kp : known (s_tree s) p) by exact (up_known par _ T 1 p (proj1 G) (proj1 E) (up_one par T p P)).
      destruct (set_tip_ok par _ p (s_act s) (proj1 G) (proj2 G) Kp (ends_was par _ _ _ E)) as (c & f & S & Lc & _).
      unfold disconnect_tip. rewrite (ends_tip par _ _ T (proj1 G) E), D. cbn [bind].
      rewrite (prev_node _ T n (proj1 G) Fm), P, S. cbn [bind fst].
      apply (IH (mkSel (s_tree s) (s_valid s) c (s_most s)) p k'); cbn [s_tree s_act s_most]; eauto; [now split|lia].
  Qed.

  Lemma connect_ok v s b T : good par (s_tree s) -> just (s_tree s) -> listed (s_tree s) (s_valid s) ->
    ends par (s_tree s) (s_act s) T -> clean T -> known (s_tree s) b -> par b = Some T -> v = vf b \/ v = VError ->
    exists s' T', connect_tip v s b = Done s' /\ remarks (s_tree s) (s_tree s') /\ just (s_tree s')
      /\ listed (s_tree s') (s_valid s') /\ ends par (s_tree s') (s_act s') T' /\ clean T' /\ s_most s' = s_most s
      /\ match v with
         | VOk => T' = b /\ s_tree s' = s_tree s
         | VInvalid => vf b = VInvalid /\ (count (s_tree s') <= count (s_tree s))%nat
                       /\ (unmarked (s_tree s) b -> (count (s_tree s') < count (s_tree s))%nat)
         | VError => s' = s
         end.
  Proof.
    intros G J Li E C Kb P V. unfold connect_tip. destruct (deref_known _ b Kb) as (n & D & Fm).
    rewrite D. cbn [bind]. rewrite (prev_node _ b n (proj1 G) Fm), P, (ends_tip par _ _ T (proj1 G) E).
    unfold asserted. rewrite (proj2 (opt_eqb_true (Some T) (Some T)) eq_refl). cbn [bind].
    destruct v.
    - destruct (set_tip_ok par _ b (s_act s) (proj1 G) (proj2 G) Kb (ends_was par _ _ _ E)) as (c & f & S & Lc & _).
      rewrite S. cbn [bind fst]. eexists; exists b. split; [reflexivity|]. cbn [s_tree s_valid s_act s_most].
      split; [apply re_same|]. split; [easy|]. split; [easy|]. split; [now split|].
      split; [|auto]. apply (clean_next b T P C). destruct V; [easy|discriminate].
    - destruct (fail_ok (s_tree s) (s_valid s) b Kb Li) as (t1 & F1 & R1 & Li1 & Fa1 & C1 & C2).
      rewrite F1. cbn [bind fst snd]. eexists; exists T. split; [reflexivity|]. cbn [s_tree s_valid s_act s_most].
      assert (Vb : vf b = VInvalid) by (destruct V; [easy|discriminate]).
      split; [easy|]. split; [|split; [easy|split; [now apply (ends_remarks par _ t1 _ _ R1)|auto]]].
      intros x Fx. apply Fa1 in Fx. destruct Fx as [->|Fx]; [|now apply J]. split; [congruence|]. exists b. split; [apply back_refl|easy].
    - exists s, T. split; [easy|]. split; [apply re_same|]. auto 8.
  Qed.

  Lemma connect_all_ok v M fuel : forall s T k, (forall b, v b = vf b \/ v b = VError) ->
    good par (s_tree s) -> just (s_tree s) -> listed (s_tree s) (s_valid s) ->
    ends par (s_tree s) (s_act s) T -> clean T -> ends par (s_tree s) (s_most s) M -> up par M k T -> (k <= fuel)%nat ->
    exists s' e T', connect_all fuel v s = Done (s', e) /\ remarks (s_tree s) (s_tree s') /\ just (s_tree s')
      /\ listed (s_tree s') (s_valid s') /\ ends par (s_tree s') (s_act s') T' /\ clean T' /\ s_most s' = s_most s
      /\ (count (s_tree s') <= count (s_tree s))%nat
      /\ (e = Complete -> T' = M /\ s_tree s' = s_tree s)
      /\ (e = Again -> exists b, back par M b /\ ~ clean b
                       /\ (unmarked (s_tree s) b -> (count (s_tree s') < count (s_tree s))%nat)).
  Proof.
    induction fuel as [|fuel IH]; intros s T k Vo G J Li E C Em U Le; cbn [connect_all];
      rewrite (ends_tip par _ _ M (proj1 G) Em);
      destruct (line_contains par _ T _ M (proj1 G) (proj1 E) (proj2 E) (proj1 Em)) as (y & Y & I);
      rewrite Y; cbn [bind].
    - assert (k = 0%nat) by lia. subst k. inversion U; subst.
      destruct y; [|exfalso; assert (false = true) by (apply I; apply back_refl); discriminate].
      exists s, Complete, T. split; [easy|]. split; [apply re_same|].
      split; [easy|]. split; [easy|]. split; [easy|]. split; [easy|]. split; [easy|]. split; [lia|].
      split; [easy|discriminate].
    - destruct y.
      + assert (Q : M = T).
        { destruct (height_gen par _ M (proj1 G) (proj1 Em)) as [_ Gn].
          apply (back_antisym par M T _ Gn); [red; eauto|now apply I]. }
        subst M. exists s, Complete, T. split; [easy|]. split; [apply re_same|].
        split; [easy|]. split; [easy|]. split; [easy|]. split; [easy|]. split; [easy|]. split; [lia|].
        split; [easy|discriminate].
      + destruct k as [|k]; [inversion U; subst; exfalso; assert (false = true) by (apply I; apply back_refl); discriminate|].
        replace (S k) with (k + 1)%nat in U by lia. destruct (up_split par k _ _ _ U) as (b & Ub & Ub1).
        inversion Ub1 as [|b' p k' a P U0]; subst. inversion U0; subst.
        assert (Kb : known (s_tree s) b) by exact (up_known par _ M k b (proj1 G) (proj1 Em) Ub).
        assert (At : c_at (s_most s) (c_height (s_act s) + 1) = Some b).
        { rewrite (line_height par _ _ _ (proj1 G) (proj1 E) (proj2 E)).
          pose proof (height_up par _ M k b (proj1 G) (proj1 Em) Ub).
          pose proof (height_up par _ b 1 T (proj1 G) Kb (up_one par b T P)).
          destruct (height_gen par _ T (proj1 G) (proj1 E)).
          apply (line_at par _ M _ _ b (proj1 G) (proj1 Em) (proj2 Em)). split; [lia|].
          now replace (Z.to_nat (height_of (s_tree s) M - (height_of (s_tree s) T + 1))) with k by lia. }
        rewrite At.
        destruct (connect_ok (v b) s b T G J Li E C Kb P (Vo b)) as (s1 & T1 & S1 & R1 & J1 & Li1 & E1 & C1 & Mo1 & W).
        rewrite S1. cbn [bind]. destruct (v b).
        * destruct W as (-> & Tr). rewrite <- Mo1 in Em. pose proof (ends_remarks par _ _ _ _ R1 Em) as Em1.
          destruct (IH s1 b k Vo (good_remarks par _ _ R1 G) J1 Li1 E1 C1 Em1 Ub ltac:(lia))
            as (s2 & e & T2 & H2 & R2 & J2 & Li2 & E2 & C2 & Mo2 & Ct & Co & Ag).
          exists s2, e, T2. split; [easy|]. split; [eapply remarks_trans; eauto|]. split; [easy|]. split; [easy|].
          split; [easy|]. split; [easy|]. split; [congruence|]. rewrite Tr in Ct, Co, Ag. auto.
        * destruct W as (Vb & Ct & Cu). exists s1, Again, T1. split; [easy|]. split; [easy|]. split; [easy|].
          split; [easy|]. split; [easy|]. split; [easy|]. split; [easy|]. split; [easy|].
          split; [discriminate|]. intros _. exists b. split; [red; eauto|]. split; [|easy].
          intros Cb. rewrite (Cb b (back_refl par b)) in Vb. discriminate.
        * subst s1. exists s, Failed, T1. split; [easy|]. split; [easy|]. split; [easy|].
          split; [easy|]. split; [easy|]. split; [easy|]. split; [easy|]. split; [lia|]. split; discriminate.
  Qed.

  (** The state that activation keeps. *)
  Record fair (s : sel) (T : N) : Prop := {
    fa_good : good par (s_tree s);
    fa_just : just (s_tree s);
    fa_listed : listed (s_tree s) (s_valid s);
    fa_ends : ends par (s_tree s) (s_act s) T;
    fa_clean : clean T;
    fa_most : s_most s = [] \/ exists M, ends par (s_tree s) (s_most s) M }.

  (** Activation ends, unless the rounds given run out, and then on the best chain. *)
  Lemma activate_ok v now new fuel : forall s f T, (forall k b, v k b = vf b \/ v k b = VError) -> fair s T ->
    (forall b, new = Some b -> known (s_tree s) b) ->
    (exists s' f' r T', activate addr fuel v now s f new = Done (s', f', r) /\ fair s' T'
      /\ remarks (s_tree s) (s_tree s')
      /\ (r = Best -> forall x, known (s_tree s') x -> clean x -> below addr (s_tree s') T' x = false))
    \/ (activate addr fuel v now s f new = Undefined /\ (fuel <= count (s_tree s))%nat).
  Proof.
    induction fuel as [|fuel IH]; intros s f T Vo [G J Li E C Mo] Kn; [right; split; [easy|lia]|]. cbn [activate].
    destruct (most_ok s T G J Li E Mo) as (s1 & M & F & R1 & A1 & J1 & Li1 & Em & Bm & Ct1 & Pr).
    rewrite F. cbn [bind]. pose proof (good_remarks par _ _ R1 G) as G1.
    rewrite (ends_tip par _ _ M (proj1 G1) Em). pose proof (ends_remarks par _ _ _ _ R1 E) as E1. rewrite <- A1 in E1.
    destruct (scan_ok (s_tree s1) (s_act s1) (s_most s1) T M now G1 E1 Em (length (s_act s1)) f (Nat.le_refl _))
      as (l & f' & S & Nh). rewrite S. cbn [bind fst snd]. destruct l; [| |easy].
    - destruct (root_of (s_tree s1) T (proj1 G1) (proj1 E1)) as (g & (k & Ug) & Pg & Kg).
      destruct (line_contains par _ M _ g (proj1 G1) (proj1 Em) (proj2 Em) Kg) as (y & Cg & Ig).
      assert (y = true).
      { apply Ig. apply (root_common (s_tree s1) T M g G1 (proj1 E1) (proj1 Em)); [red; eauto|easy]. }
      subst y.
      destruct (disconnect_ok g (length (s_act s1)) s1 T k G1 E1 Ug Cg) as (s2 & D); [|eauto|].
      { pose proof (up_height (s_tree s1) T k g (proj1 G1) (proj1 E1) Ug).
        pose proof (line_length par _ _ _ (proj1 G1) (proj1 E1) (proj2 E1)). lia. }
      rewrite D. cbn [bind].
      destruct (disconnect_all_moves par g _ s1 s2 T D G1 E1 ltac:(red; eauto) Cg)
        as (Tr & Mo2 & Va & T2 & E2 & B2 & B3 & C2).
      assert (Bm2 : back par M T2).
      { destruct (line_contains par _ M _ T2 (proj1 G1) (proj1 Em) (proj2 Em) (proj1 E2)) as (y & Cy & Iy).
        apply Iy. congruence. }
      destruct Bm2 as (j & Uj).
      destruct (connect_all_ok (v fuel) M (length (s_most s2)) s2 T2 j) as
        (s3 & e & T3 & H3 & R3 & J3 & Li3 & E3 & C3 & Mo3 & Ct3 & Co & Ag); rewrite ?Tr, ?Va, ?Mo2; auto.
      { now apply (clean_back T). }
      { pose proof (up_height (s_tree s1) M j T2 (proj1 G1) (proj1 Em) Uj).
        pose proof (line_length par _ _ _ (proj1 G1) (proj1 Em) (proj2 Em)). lia. }
      rewrite Mo2 in H3. rewrite H3. cbn [bind fst snd]. rewrite Tr in R3, Ct3, Co, Ag.
      assert (Fa3 : fair s3 T3).
      { constructor; auto; [now apply (good_remarks par (s_tree s1))|]. right. exists M.
        rewrite Mo3, Mo2. now apply (ends_remarks par (s_tree s1)). }
      assert (R13 : remarks (s_tree s) (s_tree s3)) by (eapply remarks_trans; eauto).
      destruct e.
      + left. exists s3, f', Best, T3. split; [easy|]. split; [easy|]. split; [easy|]. intros _ x Kx Cx.
        destruct (Co eq_refl) as (-> & Tr3). rewrite Tr3. apply Bm.
        rewrite Tr3 in Kx. destruct (known_split _ x Kx) as [Fx|]; [|easy]. exfalso.
        apply (clean_bad x Cx). now apply J1.
      + destruct (IH s3 f' T3 Vo Fa3) as [(s4 & f4 & r & T4 & H4 & Fa4 & R4 & Be)|(H4 & Le)].
        * intros b Nb. apply (same_known (s_tree s)); [now apply remarks_links|now apply Kn].
        * left. exists s4, f4, r, T4. split; [easy|]. split; [easy|]. split; [eapply remarks_trans; eauto|easy].
        * right. split; [easy|]. destruct (Ag eq_refl) as (b & Bb & Nc & Cb). destruct Pr as [Pr|Pr]; [|lia].
          assert (count (s_tree s3) < count (s_tree s1))%nat; [|lia]. apply Cb. apply Pr; [easy|].
          intros Bt. apply Nc. now apply (clean_back T).
      + left. exists s3, f', Error, T3. split; [easy|]. split; [easy|]. split; [easy|discriminate].
    - assert (Fa1 : fair s1 T) by (constructor; eauto). left. unfold connect_on_fin.
      destruct new as [b|].
      2:{ cbn [bind fst snd]. eexists s1, f', _, T. split; [reflexivity|]. split; [easy|]. split; [easy|discriminate]. }
      assert (Kb : known (s_tree s1) b) by (apply (same_known (s_tree s)); [now apply remarks_links|now apply Kn]).
      destruct (deref_known _ b Kb) as (n & Dn & Fm). rewrite Dn. cbn [bind].
      rewrite (prev_node _ b n (proj1 G1) Fm), (ends_tip par _ _ T (proj1 G1) E1).
      destruct (opt_eqb (Some T) (par b)) eqn:Q.
      + apply opt_eqb_true in Q.
        destruct (connect_ok (v fuel b) s1 b T G1 J1 Li1 E1 C Kb (eq_sym Q) (Vo fuel b))
          as (s2 & T2 & S2 & R2 & J2 & Li2 & E2 & C2 & Mo2 & _). rewrite S2. cbn [bind fst snd].
        eexists s2, f', _, T2. split; [reflexivity|]. split; [|split; [eapply remarks_trans; eauto|discriminate]].
        constructor; auto; [now apply (good_remarks par (s_tree s1))|]. right. exists M. rewrite Mo2.
        now apply (ends_remarks par (s_tree s1)).
      + cbn [bind fst snd]. eexists s1, f', _, T. split; [reflexivity|]. split; [easy|]. split; [easy|discriminate].
  Qed.
End Best.
