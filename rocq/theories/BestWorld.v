(** Proofs that the best chain is chosen: whole histories. *)
From Coq Require Import List Bool NArith ZArith Lia Permutation Sorted.
From Coq Require Import ZifyBool ZifyNat ZifyN.
From Verif Require Import Prelude PreludeFacts AccountModel DexModel DexProofs ContainerModel ChainSpec
  ChainModel ChainProofs SelectModel SelectProofs FinalModel FinalSpec FinalProofs BestSpec BestProofs.
Import ListNotations.
Open Scope Z_scope.

Section World.
  Variable rules : N -> verdict.

  Definition keeps (l : list (N * option N)) (es : list event) (w : world) (T F : N) : Prop :=
    stands l es w T F /\ fair (pred_in l) rules (w_sel w) T.

  Lemma stands_back l es w T F : stands l es w T F -> forall b x, known (w_tree w) b ->
    back (prev_of w) b x -> back (pred_in l) b x.
  Proof.
    intros St b x K (k & U). pose proof (proj1 (good_grown _ _ (st_grown _ _ _ _ _ St))) as L.
    exists k. induction U as [b|b p k a P U IH]; [constructor|].
    rewrite (stands_prev l es w T F b St K) in P. apply up_next with p; [easy|]. apply IH.
    destruct L as (_ & _ & L). destruct K as (n & E). now apply (L b n).
  Qed.
  Lemma passes_clean l es w T F b : stands l es w T F -> known (w_tree w) b ->
    (passes rules w b <-> clean (pred_in l) rules b).
  Proof.
    intros St K. split; intros P x B; apply P.
    - destruct B as (k & U). exists k. now apply (stands_up l es w T F St).
    - now apply (stands_back l es w T F St).
  Qed.
  Lemma fails_bad l es w T F b : stands l es w T F -> known (w_tree w) b ->
    fails rules w b -> bad (pred_in l) rules b.
  Proof.
    intros St K (Np & x & B & V). rewrite (stands_prev l es w T F b St K) in Np. split; [easy|].
    exists x. split; [now apply (stands_back l es w T F St)|easy].
  Qed.

  (** Forks that are connected again change no mark. *)
  Lemma rehab_app ok l1 l2 : forall t, rehabilitate t ok (l1 ++ l2)
    = do r <- rehabilitate t ok l1; if snd r then rehabilitate (fst r) ok l2 else Done r.
  Proof.
    induction l1 as [|b l1 IH]; intros t; cbn [app rehabilitate]; [easy|].
    destruct (ok b); [|easy]. destruct (deref t (Some b)); cbn [bind]; [apply IH| | |]; easy.
  Qed.
  Lemma put_same (t : list (N * node)) b n : fget N.eqb t b = Some n -> fput N.eqb t b n = t.
  Proof.
    induction t as [|[x m] t IH]; [discriminate|]. cbn [fget fput]. destruct (N.eqb_spec b x) as [->|D].
    - now intros [= ->].
    - intros E. now rewrite IH.
  Qed.
  Lemma walk_rehab par t act T cached depth ok fuel : forall found p r,
    good par t -> just par rules t -> ends par t act T -> clean par rules T ->
    (forall x, cached x = true -> known t x -> clean par rules x) ->
    (forall x, ok x = true -> rules x = VOk) ->
    known t p -> (found = true -> clean par rules p) ->
    fork_walk t act cached depth fuel found (Some p) = Done (Some r) ->
    exists flag, rehabilitate t ok (rev r) = Done (t, flag) /\ (flag = true -> clean par rules p).
  Proof.
    induction fuel as [|fuel IH]; intros found p r G J E C Ca Ok K Fo H; cbn [fork_walk] in H;
      step H as y Y; destruct y.
    1,3: step H as h Hh; destruct (depth <? c_height act - h); [discriminate|]; injection H as <-;
      exists true; split; [easy|]; intros _;
      destruct (line_contains par t T act p (proj1 G) (proj1 E) (proj2 E) K) as (y & Cy & Iy);
      apply (clean_back par rules T); [easy|]; apply Iy; congruence.
    - step H as n D. step H as h Hh. destruct (depth <? c_height act - h); discriminate.
    - step H as n D. apply deref_fget in D. step H as h Hh.
      destruct (depth <? c_height act - h); [discriminate|]. cbn zeta in H.
      step H as q Q. injection H as H. destruct q as [q|]; [|discriminate].
      rewrite (prev_node par t p n (proj1 G) D) in Hh, Q.
      destruct (par p) as [pp|] eqn:P; [|unfold height_at in Hh; discriminate].
      assert (Kp : known t pp) by exact (up_known par t p 1 pp (proj1 G) K (up_one par p pp P)).
      assert (Fo1 : found || cached p = true -> clean par rules p).
      { intros X. apply orb_true_iff in X. destruct X as [X|X]; [now apply Fo|now apply Ca]. }
      destruct (IH (found || cached p) pp q G J E C Ca Ok Kp) as (flag & R & Fl); [|easy|].
      { intros X. apply (clean_back par rules p); [now apply Fo1|]. exists 1%nat. now apply up_one. }
      injection H as <-. destruct (found || cached p).
      + exists flag. split; [easy|]. intros _. now apply Fo1.
      + cbn [rev]. rewrite rehab_app, R. cbn [bind fst snd]. destruct flag; [|exists false; split; [easy|discriminate]].
        cbn [rehabilitate]. destruct (ok p) eqn:O; [|exists false; split; [easy|discriminate]].
        assert (Cp : clean par rules p) by (apply (clean_next par rules p pp P); auto).
        unfold deref. rewrite D. cbn [bind]. exists true. split; [|easy]. do 2 f_equal.
        destruct (known_split t p K) as [F|(m & Em & Fm)].
        * exfalso. apply (clean_bad par rules p Cp). now apply J.
        * rewrite D in Em. injection Em as <-. replace (marked n false) with n by (destruct n; cbn in *; now subst).
          now apply put_same.
  Qed.

  (** One more block. *)
  Lemma add_fair l w es T F b prev t1 : keeps l es w T F -> fmem N.eqb (w_tree w) b = false ->
    fmem N.eqb (w_tree w) prev = true -> add_index (w_tree w) b prev (w_seq w) = Done t1 ->
    fair (pred_in ((b, Some prev) :: l)) rules
      (mkSel t1 (b :: s_valid (w_sel w)) (w_act w) (s_most (w_sel w))) T
    /\ grown ((b, Some prev) :: l) t1 /\ known t1 b.
  Proof.
    intros (St & [G J Li E C Mo]) Nb Kp A. pose proof (st_grown _ _ _ _ _ St) as Gr.
    destruct (grown_extends l (w_tree w) b prev (w_seq w) t1 Gr Nb Kp A) as (Gr1 & X1 & Pb & Hs1 & Kb1).
    set (l1 := (b, Some prev) :: l) in *.
    assert (Nk : ~ known (w_tree w) b) by (intros K; apply fmem_true in K; congruence).
    destruct (add_next (pred_in l) (w_tree w) b prev (w_seq w)) as (t2 & A2 & _ & Kn & Ge & (sk & Gb)).
    { now apply grown_proper. } { now apply fmem_true. } { easy. }
    { destruct (Z.lt_ge_cases (height_of (w_tree w) prev) MAX_HEIGHT) as [|Ge]; [easy|]. exfalso.
      assert (Kp' := proj1 (fmem_true _ _) Kp). destruct (height_gen _ _ _ (proj1 G) Kp') as [Bh _].
      destruct Kp' as (m & Em). unfold add_index in A. rewrite Nb in A. cbn [negb guard bind] in A. cbn zeta in A.
      assert (Np : prev <> b) by (intros ->; apply Nk; now exists m).
      rewrite (fget_put_other N.eqb N_eqb_ok) in A by easy. rewrite Em in A.
      rewrite (height_known _ _ _ Em) in Ge. unfold w_tree in Em. rewrite (height_known _ _ _ Em) in Bh.
      destruct (Z.eqb_spec (n_height m) MAX_HEIGHT); [discriminate|]. lia. }
    rewrite A in A2. injection A2 as <-.
    assert (Up : forall x y, known (w_tree w) x -> (back (pred_in l1) x y <-> back (pred_in l) x y)).
    { intros x y Kx. split.
      - intros (k & U). exists k. revert U. revert Kx. revert x. induction k as [|k IH]; intros x Kx U.
        + inversion U; subst. constructor.
        + inversion U as [|b' p k' a P U']; subst. destruct (grown_proper _ _ Gr) as [_ Kg].
          destruct (X1 x (proj1 (Kg x) Kx)) as (_ & Px). rewrite Px in P. apply up_next with p; [easy|].
          apply IH; [|easy]. exact (up_known (pred_in l) _ x 1 p (proj1 G) Kx (up_one _ _ _ P)).
      - intros B. now apply (back_extends l l1 (w_tree w)). }
    split; [|split; easy].
    constructor; cbn [s_tree s_valid s_act s_most].
    - now apply good_grown.
    - intros x Fx. destruct (N.eq_dec x b) as [->|D].
      + destruct Fx as (n & En & Fn). rewrite Gb in En. injection En as <-. discriminate.
      + assert (Fx' : failing (w_tree w) x) by (destruct Fx as (n & En & Fn); rewrite (Ge x D) in En; now exists n).
        destruct (J x Fx') as (Np & z & Bz & V).
        assert (Kx : known (w_tree w) x) by (destruct Fx' as (n & En & _); now exists n).
        destruct (grown_proper _ _ Gr) as [_ Kg]. destruct (X1 x (proj1 (Kg x) Kx)) as (_ & Px).
        split; [congruence|]. exists z. split; [|easy]. apply Up; [|easy].
        destruct Fx' as (n & En & _). now exists n.
    - intros x. split.
      + intros [<-|I]; [eexists; split; [exact Gb|easy]|]. apply Li in I. destruct I as (n & En & Fn).
        exists n. split; [|easy]. rewrite Ge; [easy|]. intros ->. apply Nk. now exists n.
      + intros (n & En & Fn). destruct (N.eq_dec x b) as [->|D]; [now left|]. right. apply Li.
        rewrite (Ge x D) in En. now exists n.
    - apply (ends_extends l l1 (w_tree w)); auto. intros x Kx. now apply Hs1.
    - intros x B. apply C. apply Up; [apply E|easy].
    - destruct Mo as [Mo|(M & Em)]; [now left|]. right. exists M.
      apply (ends_extends l l1 (w_tree w)); auto. intros x Kx. now apply Hs1.
  Qed.

  Lemma fair_move par par' s T : (forall b, known (s_tree s) b -> par' b = par b) -> good par' (s_tree s) ->
    fair par rules s T -> fair par' rules s T.
  Proof.
    intros Eq G' [G J Li E C Mo].
    assert (Up : forall b k x, known (s_tree s) b -> (up par' b k x <-> up par b k x)).
    { intros b k x K. split; apply up_ext; intros y j U.
      - symmetry. apply Eq. exact (up_known par' _ b j y (proj1 G') K U).
      - apply Eq. exact (up_known par _ b j y (proj1 G) K U). }
    assert (En : forall c M, ends par (s_tree s) c M -> ends par' (s_tree s) c M).
    { intros c M (K & n & (g & Ug & Pg) & Ln & A). split; [easy|]. exists n. split; [|split; [easy|]].
      - exists g. split; [now apply Up|]. rewrite Eq; [easy|]. exact (up_known par _ M n g (proj1 G) K Ug).
      - intros k a Lk U. apply A; [easy|now apply Up]. }
    constructor; auto.
    - intros b Fb. assert (K : known (s_tree s) b) by (destruct Fb as (n & Hn & _); now exists n).
      destruct (J b Fb) as (Np & x & (k & U) & V). split; [now rewrite Eq|]. exists x. split; [|easy].
      exists k. now apply Up.
    - intros x (k & U). apply C. exists k. apply Up; [apply E|easy].
    - destruct Mo as [Mo|(M & Em)]; [now left|]. right. exists M. now apply En.
  Qed.
  Lemma keeps_of l es w T F l1 T1 : stands l es w T F -> fair (pred_in l1) rules (w_sel w) T1 -> keeps l es w T F.
  Proof.
    intros St Fa. split; [easy|]. pose proof (good_grown _ _ (st_grown _ _ _ _ _ St)) as G.
    pose proof (fa_good _ _ _ _ Fa) as G1.
    assert (T1 = T).
    { pose proof (ends_tip _ _ _ _ (proj1 G1) (fa_ends _ _ _ _ Fa)) as X.
      pose proof (ends_tip _ _ _ _ (proj1 G) (st_ends _ _ _ _ _ St)) as Y. unfold w_act in Y. congruence. }
    subst T1. apply (fair_move (pred_in l1)); auto. intros b (n & E).
    rewrite <- (prev_node _ _ _ _ (proj1 G) E). now apply (prev_node _ _ _ _ (proj1 G1)).
  Qed.

  (** The marks that are loaded. *)
  Lemma skips_failed order : forall t t', build_skips t order = Done t' ->
    forall b, match fget N.eqb t' b with Some n => Some (n_failed n) | None => None end
            = match fget N.eqb t b with Some n => Some (n_failed n) | None => None end.
  Proof.
    induction order as [|x order IH]; intros t t' H b; cbn [build_skips] in H; [now injection H as <-|].
    step H as n D. apply deref_fget in D. step H as s S. rewrite (IH _ _ H b).
    destruct (N.eq_dec b x) as [->|Ne].
    - now rewrite (fget_put_same N.eqb N_eqb_ok), D.
    - now rewrite (fget_put_other N.eqb N_eqb_ok) by easy.
  Qed.
  Lemma load_failed disk t b : match fget N.eqb (load_indexes (store (remark disk t))) b with
      Some n => Some (n_failed n) | None => None end
    = match fget N.eqb t b with Some _ => Some (disk b) | None => None end.
  Proof.
    induction t as [|[x n] t IH]; [easy|]. cbn. destruct (N.eqb_spec b x) as [->|D]; [easy|exact IH].
  Qed.

  Lemma step_keeps l es w T F e w' : keeps l es w T F -> legal w e -> consistent rules w e -> next w e = Done w' ->
    exists l' T' F', keeps l' (e :: es) w' T' F'.
  Proof.
    intros Kp Lg Co H. pose proof Kp as (St & Fa).
    destruct (step_ok l es w T F e w' St Lg H) as (l' & T' & F' & St' & _ & _).
    exists l', T', F'. destruct e as [addr e b prev|now current own signed m|current signed m|addr rounds disk order now v];
      cbn [next] in H.
    - destruct Co as (Inj & Ve & Fk & Ca). step H as r R. injection H as <-. unfold accept_block in R.
      step R as u1 Nb. apply guard_done in Nb. apply negb_true_iff in Nb.
      step R as u2 Kpr. apply asserted_done in Kpr. step R as k K.
      assert (Tr : fst k = w_tree w).
      { destruct (opt_eqb (Some prev) (c_tip (w_act w))); [now injection K as <-|].
        unfold process_fork in K. step K as h Hh. step K as q Q. destruct q as [q|]; [|now injection K as <-].
        destruct Fa as [G J Li E C Mo].
        destruct (walk_rehab (pred_in l) (w_tree w) (w_act w) T (o_cached e) (o_depth e) (o_fork e) (Z.to_nat h) false prev q
                    G J E C) as (flag & Rh & _); auto.
        - intros x Cx Kx. apply (passes_clean l es w T F x St Kx). now apply Ca.
        - now apply fmem_true.
        - discriminate.
        - rewrite Rh in K. now injection K as <-. }
      cbn zeta in R. rewrite Tr in R.
      destruct (negb (snd k && o_fine e)).
      { injection R as <-. cbn [fst] in *. apply (keeps_of l' _ _ T' F' l T St'). cbn [w_sel].
        destruct (w_sel w) as [t0 v0 a0 m0] eqn:Sw. exact Fa || (unfold w_tree, w_act; rewrite Sw; exact Fa). }
      step R as t1 A1. destruct (add_fair l w es T F b prev t1 Kp Nb Kpr A1) as (Fa1 & Gr1 & Kb1).
      step R as a Ac.
      assert (Kn : forall b0, Some b = Some b0 -> known t1 b0) by (intros b0 [= <-]; easy).
      destruct (activate_ok (pred_in ((b, Some prev) :: l)) addr Inj rules (o_verdict e) (o_now e) (Some b) (o_rounds e)
                  _ (w_fin w) T Ve Fa1 Kn) as [(s2 & f2 & rr & T2 & A2 & Fa2 & _ & _)|(A2 & _)];
        cbn [s_tree s_act] in A2; rewrite A2 in Ac; [|discriminate]. injection Ac as <-. cbn [fst snd] in R.
      apply (keeps_of l' _ _ T' F' ((b, Some prev) :: l) T2 St').
      assert (S : w_sel (fst r) = s2).
      { match type of R with (if ?c then _ else _) = _ => destruct c end; [|now injection R as <-].
        step R as p1 P1. step R as c1 C1. step R as u U. destruct (snd u); [|now injection R as <-].
        step R as c2 C2. step R as g Gi. now injection R as <-. }
      now rewrite S.
    - apply (keeps_of l' _ _ T' F' l T St'). replace (w_sel w') with (w_sel w); [easy|].
      unfold on_confirm in H. step H as y Y. destruct (negb y); [now injection H as <-|]. step H as c Cc. cbn zeta in H.
      step H as u U. destruct (snd u); [|now injection H as <-].
      destruct (local_fin (w_act w) (fst u)); [|discriminate]. step H as c2 C2. now injection H as <-.
    - apply (keeps_of l' _ _ T' F' l T St'). replace (w_sel w') with (w_sel w); [easy|].
      unfold on_final in H. step H as y Y. destruct (negb y); [now injection H as <-|]. step H as c Cc. cbn zeta in H.
      step H as u U. now injection H as <-.
    - destruct Co as (Inj & Ve & Di). step H as r R. injection H as <-. unfold restart in R.
      step R as t Bt. cbn zeta in R. step R as c C. destruct c as [c cf]. cbn [fst] in R.
      destruct Fa as [G J Li E Cl Mo]. destruct Lg as (Pm & So).
      pose proof (remark_links disk (w_tree w)) as Sl.
      assert (Gr0 := grown_marks l _ disk (st_grown _ _ _ _ _ St)).
      assert (Gr1 : grown l t).
      { apply (grown_load l _ order t Gr0); [now rewrite remark_keys| |easy].
        eapply sorted_ext; [|exact So]. intros a b. cbn beta. change (tall w) with (height_of (w_tree w)).
        now rewrite !(same_height _ _ _ Sl). }
      pose proof (good_grown _ _ Gr1) as G1.
      assert (Kn : forall b, known t b <-> known (w_tree w) b).
      { intros b. rewrite (proj2 (grown_proper _ _ Gr1) b). now rewrite (proj2 (grown_proper _ _ (st_grown _ _ _ _ _ St)) b). }
      assert (Fl : forall b n, fget N.eqb t b = Some n -> n_failed n = disk b).
      { intros b n En. pose proof (skips_failed _ _ _ Bt b) as X. rewrite load_failed, En in X.
        destruct (fget N.eqb (w_tree w) b); [congruence|discriminate]. }
      unfold w_act in C. rewrite (ends_tip (pred_in l) _ _ T (proj1 G) E) in C.
      assert (Fa1 : fair (pred_in l) rules (mkSel t (filter (fun b => match fget N.eqb t b with Some n => negb (n_failed n) | None => false end) order) c []) T).
      { constructor; cbn [s_tree s_valid s_act s_most]; auto.
        - intros b (n & En & Fn). rewrite (Fl b n En) in Fn. apply (fails_bad l es w T F b St); [|now apply Di].
          apply Kn. now exists n.
        - intros b. rewrite filter_In. split.
          + intros (_ & X). destruct (fget N.eqb t b) as [n|] eqn:En; [|discriminate]. exists n. split; [easy|].
            now apply negb_true_iff in X.
          + intros (n & En & Fn). rewrite En, Fn. split; [|easy]. apply (Permutation_in b (Permutation_sym Pm)).
            assert (K : known (w_tree w) b) by (apply Kn; now exists n). destruct K as (m & Em).
            apply (fget_some_key N.eqb N_eqb_ok) in Em. exact Em.
        - apply (ends_set (pred_in l) t [] T c cf (proj1 G1) (proj2 G1)); [apply Kn; apply E|now left|easy]. }
      step R as a Ac.
      assert (Kv : forall b0 : N, None = Some b0 -> known t b0) by discriminate.
      destruct (activate_ok (pred_in l) addr Inj rules v now None rounds _
                  (mkFin None 0 None None (f_record (w_fin w))) T Ve Fa1 Kv)
        as [(s2 & f2 & rr & T2 & A2 & Fa2 & _ & _)|(A2 & _)]; rewrite A2 in Ac; [|discriminate].
      injection Ac as <-. cbn [fst snd] in R. injection R as <-. cbn [fst] in *.
      apply (keeps_of l' _ _ T' F' l T2 St'). exact Fa2.
  Qed.

  Lemma genesis_keeps g : rules g = VOk -> keeps [(g, None)] [] (genesis_world g) g g.
  Proof.
    intros V. pose proof (genesis_ok g) as St. split; [easy|].
    constructor; cbn [genesis_world w_sel s_tree s_valid s_act s_most].
    - apply good_grown. apply (st_grown _ _ _ _ _ St).
    - intros b (n & E & F). cbn in E. destruct (b =? g)%N; [|discriminate]. injection E as <-. discriminate.
    - intros b. unfold unmarked. cbn. destruct (N.eqb_spec b g) as [->|D].
      + split; [|now left]. intros _. eexists. split; [reflexivity|easy].
      + split; [intros [C|[]]; now elim D|]. intros (n & E & _). discriminate.
    - apply (st_ends _ _ _ _ _ St).
    - intros x B. assert (P : pred_in [(g, None)] g = None) by (cbn; now rewrite N.eqb_refl).
      now rewrite (back_root _ _ _ P B).
    - right. exists g. apply (st_ends _ _ _ _ _ St).
  Qed.

  Lemma lives_keeps g es w : lives_by rules g es w -> exists l T F, keeps l es w T F.
  Proof.
    induction 1 as [V|es w e w' Lv (l & T & F & St) Lg Co H].
    - eauto using genesis_keeps.
    - eauto using step_keeps.
  Qed.
End World.

(** ** Sequence numbers *)

Definition seq_at (t : list (N * node)) (b : N) : option N := option_map n_seq (fget N.eqb t b).
Lemma seq_at_remarks t t' b : remarks t t' -> seq_at t' b = seq_at t b.
Proof.
  intros R. induction R as [t|t t' x n f R IH E]; [easy|]. rewrite <- IH. unfold seq_at.
  destruct (N.eqb_spec b x) as [->|D].
  - now rewrite (fget_put_same N.eqb N_eqb_ok), E.
  - now rewrite (fget_put_other N.eqb N_eqb_ok) by easy.
Qed.
Lemma connect_remarks v s b s' : connect_tip v s b = Done s' -> remarks (s_tree s) (s_tree s').
Proof.
  unfold connect_tip. intros H. step H as n D. step H as u A. destruct v.
  - step H as r R. injection H as <-. apply re_same.
  - step H as r R. apply fail_remarks in R. injection H as <-. apply R.
  - injection H as <-. apply re_same.
Qed.
Lemma disconnect_tree fuel : forall s s', disconnect_all fuel s = Done s' -> s_tree s' = s_tree s.
Proof.
  induction fuel as [|fuel IH]; intros s s' H; cbn [disconnect_all] in H;
    (destruct (c_tip (s_act s)) as [b|] eqn:Tp; [|now injection H as <-]); step H as y Y;
    (destruct y; [now injection H as <-|]); [discriminate|].
  step H as s1 D. rewrite (IH _ _ H). unfold disconnect_tip in D. rewrite Tp in D. step D as m Nm. step D as r R.
  now injection D as <-.
Qed.
Lemma connects_remarks v fuel : forall s r, connect_all fuel v s = Done r -> remarks (s_tree s) (s_tree (fst r)).
Proof.
  induction fuel as [|fuel IH]; intros s r H; cbn [connect_all] in H; step H as y Y;
    (destruct y; [injection H as <-; apply re_same|]); [discriminate|].
  destruct (c_at (s_most s) (c_height (s_act s) + 1)) as [b|]; [|discriminate]. step H as s1 C.
  apply connect_remarks in C. destruct (v b).
  - eapply remarks_trans; [exact C|]. now apply IH.
  - now injection H as <-.
  - now injection H as <-.
Qed.
Lemma activate_remarks addr v now new fuel : forall s f r, activate addr fuel v now s f new = Done r ->
  remarks (s_tree s) (s_tree (fst (fst r))).
Proof.
  induction fuel as [|fuel IH]; intros s f r H; cbn [activate] in H; [discriminate|].
  step H as s1 M. apply most_remarks in M. destruct M as (M & _). eapply remarks_trans; [exact M|].
  destruct (c_tip (s_most s1)); [|injection H as <-; apply re_same]. step H as q Q.
  destruct (fst q).
  - step H as s2 D. apply disconnect_tree in D. step H as e E. apply connects_remarks in E. rewrite D in E.
    destruct (snd e).
    + injection H as <-. exact E.
    + eapply remarks_trans; [exact E|]. now apply (IH _ _ _ H).
    + injection H as <-. exact E.
  - step H as k K. injection H as <-. cbn [fst]. unfold connect_on_fin in K.
    destruct new as [b|]; [|injection K as <-; apply re_same]. step K as nn D.
    destruct (opt_eqb (c_tip (s_act s1)) (n_prev nn)); [|injection K as <-; apply re_same].
    step K as s2 C. apply connect_remarks in C. injection K as <-. exact C.
  - injection H as <-. apply re_same.
Qed.
Lemma add_seq t b prev s t' : add_index t b prev s = Done t' ->
  seq_at t' b = Some s /\ forall x, x <> b -> seq_at t' x = seq_at t x.
Proof.
  unfold add_index. intros H. step H as u G. cbn zeta in H. unfold seq_at.
  destruct (fget N.eqb (fput N.eqb t b (mkNode None None 0 s false)) prev) as [m|].
  - destruct (n_height m =? MAX_HEIGHT); [discriminate|]. step H as sk S. injection H as <-.
    split; [now rewrite (fget_put_same N.eqb N_eqb_ok)|]. intros x D. now rewrite (fget_put_other N.eqb N_eqb_ok).
  - injection H as <-.
    split; [now rewrite (fget_put_same N.eqb N_eqb_ok)|]. intros x D. now rewrite (fget_put_other N.eqb N_eqb_ok).
Qed.
Lemma fork_remarks w e prev k : process_fork w e prev = Done k -> remarks (w_tree w) (fst k).
Proof.
  unfold process_fork. intros K. step K as h Hh. step K as q Q. destruct q as [q|].
  - now apply rehab_remarks in K.
  - injection K as <-. apply re_same.
Qed.

(** What a block does to the sequence numbers. *)
Lemma accept_seq addr w e b prev r : accept_block addr w e b prev = Done r ->
  (forall x, x <> b -> seq_at (w_tree (fst r)) x = seq_at (w_tree w) x)
  /\ ((seq_at (w_tree (fst r)) b = None /\ w_seq (fst r) = w_seq w)
      \/ (seq_at (w_tree (fst r)) b = Some (w_seq w) /\ w_seq (fst r) = (w_seq w + 1)%N)).
Proof.
  unfold accept_block. intros R. step R as u1 N1. apply guard_done in N1. apply negb_true_iff in N1.
  step R as u2 N2. step R as k K. cbn zeta in R.
  assert (Rk : remarks (w_tree w) (fst k)).
  { destruct (opt_eqb (Some prev) (c_tip (w_act w))); [injection K as <-; apply re_same|now apply fork_remarks in K]. }
  assert (Sn : seq_at (w_tree w) b = None).
  { unfold seq_at, fmem in *. destruct (fget N.eqb (w_tree w) b); [discriminate|easy]. }
  destruct (negb (snd k && o_fine e)).
  { injection R as <-. cbn [fst w_seq]. unfold w_tree at 1 3. cbn [w_sel s_tree].
    split; [intros x _; now apply seq_at_remarks|]. left. rewrite (seq_at_remarks _ _ b Rk). auto. }
  step R as t1 A. apply add_seq in A. destruct A as (Sb & So). step R as a Ac.
  apply activate_remarks in Ac. cbn [s_tree] in Ac.
  assert (X : s_tree (fst (fst a)) = w_tree (fst r) /\ w_seq (fst r) = (w_seq w + 1)%N).
  { destruct ((match snd a with Best => true | Kept r0 => r0 | Error => false end)
              && opt_eqb (c_tip (s_act (fst (fst a)))) (Some b)); [|now injection R as <-].
    step R as p1 P1. step R as c1 C1. step R as u U. destruct (snd u); [|now injection R as <-].
    step R as c2 C2. step R as g G. now injection R as <-. }
  destruct X as (X & Y). rewrite <- X. split.
  - intros x D. rewrite (seq_at_remarks _ _ x Ac), So by easy. now apply seq_at_remarks.
  - right. rewrite (seq_at_remarks _ _ b Ac). auto.
Qed.

Definition numbered (w : world) : Prop := forall x s, seq_at (w_tree w) x = Some s -> (s < w_seq w)%N.
Lemma skips_seq order : forall t t', build_skips t order = Done t' -> forall b, seq_at t' b = seq_at t b.
Proof.
  induction order as [|x order IH]; intros t t' H b; cbn [build_skips] in H; [now injection H as <-|].
  step H as n D. apply deref_fget in D. step H as s S. rewrite (IH _ _ H b). unfold seq_at.
  destruct (N.eq_dec b x) as [->|Ne].
  - now rewrite (fget_put_same N.eqb N_eqb_ok), D.
  - now rewrite (fget_put_other N.eqb N_eqb_ok) by easy.
Qed.
Lemma load_seq l b s : seq_at (load_indexes l) b = Some s -> s = 0%N.
Proof.
  unfold seq_at. induction l as [|x l IH]; [discriminate|]. cbn [load_indexes map fget].
  destruct (b =? fst x)%N; [|exact IH]. cbn. congruence.
Qed.
Lemma same_sel_next w e w' : next w e = Done w' ->
  match e with EConfirm _ _ _ _ _ | EFinal _ _ _ => w_sel w' = w_sel w /\ w_seq w' = w_seq w | _ => True end.
Proof.
  intros H. destruct e as [| now current own signed m|current signed m|]; [exact I| | |exact I]; cbn [next] in H.
  - unfold on_confirm in H. step H as y Y. destruct (negb y); [now injection H as <-|]. step H as c C. cbn zeta in H.
    step H as u U. destruct (snd u); [|now injection H as <-].
    destruct (local_fin (w_act w) (fst u)); [|discriminate]. step H as c2 C2. now injection H as <-.
  - unfold on_final in H. step H as y Y. destruct (negb y); [now injection H as <-|]. step H as c C. cbn zeta in H.
    step H as u U. now injection H as <-.
Qed.
Lemma next_numbered w e w' : next w e = Done w' -> numbered w -> numbered w'.
Proof.
  intros H Nu. pose proof (same_sel_next w e w' H) as Sa.
  destruct e as [addr e b prev| | |addr rounds disk order now v]; cbn [next] in H.
  - step H as r R. injection H as <-. apply accept_seq in R. destruct R as (So & Sb). intros x s X.
    destruct (N.eq_dec x b) as [->|D].
    + destruct Sb as [(Sb & _)|(Sb & ->)]; [congruence|]. rewrite Sb in X. injection X as <-. lia.
    + rewrite (So x D) in X. specialize (Nu x s X). destruct Sb as [(_ & ->)|(_ & ->)]; lia.
  - destruct Sa as (A & B). intros x s X. rewrite B. apply (Nu x). unfold w_tree in *. now rewrite <- A.
  - destruct Sa as (A & B). intros x s X. rewrite B. apply (Nu x). unfold w_tree in *. now rewrite <- A.
  - step H as r R. injection H as <-. unfold restart in R. step R as t Bt. cbn zeta in R. step R as c C. step R as a A.
    injection R as <-. intros x s X. cbn [fst] in X. unfold w_tree in X. cbn [w_sel] in X.
    apply activate_remarks in A. cbn [s_tree] in A. rewrite (seq_at_remarks _ _ x A), (skips_seq _ _ _ Bt) in X.
    apply load_seq in X. subst s. cbn. lia.
Qed.
Lemma lives_numbered g es w : lives g es w -> numbered w.
Proof.
  induction 1 as [|es w e w' Lv Nu Lg H].
  - intros x s X. unfold seq_at in X. cbn in X. destruct (x =? g)%N; [|discriminate]. injection X as <-. cbn. lia.
  - now apply (next_numbered w e).
Qed.
