(** The choice of the active chain: C63, C64. *)
From Coq Require Import List Bool NArith ZArith Lia Permutation Sorted.
From Coq Require Import ZifyBool ZifyNat ZifyN.
From Verif Require Import Prelude PreludeFacts AccountModel DexModel DexProofs ContainerModel ChainSpec
  ChainModel ChainProofs SelectModel SelectProofs FinalModel FinalSpec FinalProofs BestSpec BestProofs BestWorld.
Import ListNotations.
Open Scope Z_scope.

(** The state after a new block got its index entry, when the best chain is activated. *)
Definition with_block (w : world) (b : N) (t : list (N * node)) : sel :=
  mkSel t (b :: s_valid (w_sel w)) (w_act w) (s_most (w_sel w)).

Lemma walk_depth (w : world) act cached depth fuel : forall found p r,
  fork_walk (w_tree w) act cached depth fuel found (Some p) = Done (Some r) ->
  exists f k, up (prev_of w) p k f /\ c_contains (w_tree w) act (Some f) = Done true
    /\ c_height act - tall w f <= depth.
Proof.
  induction fuel as [|fuel IH]; intros found p r H; cbn [fork_walk] in H; step H as y Y; destruct y.
  1,3: step H as h Hh; destruct (Z.ltb_spec depth (c_height act - h)); [discriminate|];
    exists p, 0%nat; split; [constructor|]; split; [easy|];
    unfold height_at in Hh; step Hh as n D; injection Hh as <-; apply deref_fget in D;
    unfold tall; now rewrite D.
  - step H as n D. step H as h Hh. destruct (depth <? c_height act - h); discriminate.
  - step H as n D. apply deref_fget in D. step H as h Hh.
    destruct (depth <? c_height act - h); [discriminate|]. cbn zeta in H. step H as q Q. injection H as H.
    destruct q as [q|]; [|discriminate]. destruct (n_prev n) as [pp|] eqn:P; [|discriminate Hh].
    destruct (IH _ pp q Q) as (f & k & U & C & Le). exists f, (S k). split; [|easy].
    apply up_next with pp; [|easy]. unfold prev_of. now rewrite D.
Qed.

(** ** C63: the best chain is chosen *)

(** When activation ends on the best chain, every block of the active chain passes, and no known
    block that passes with all its predecessors comes before the tip in the order: none is higher,
    none of the same height came earlier. *)
Theorem c63_best rules g es w addr e b prev t f s' f' : lives_by rules g es w ->
  consistent rules w (EBlock addr e b prev) ->
  fmem N.eqb (w_tree w) b = false -> fmem N.eqb (w_tree w) prev = true ->
  add_index (w_tree w) b prev (w_seq w) = Done t ->
  activate addr (o_rounds e) (o_verdict e) (o_now e) (with_block w b t) f (Some b) = Done (s', f', Best) ->
  let w' := mkWorld s' f' (w_pbft w) (w_seq w + 1) in
  exists T, c_tip (s_act s') = Some T /\ passes rules w' T
    /\ forall x, fmem N.eqb (s_tree s') x = true -> passes rules w' x -> less addr (s_tree s') T x = Done false.
Proof.
  intros Lv (Inj & Ve & Fk & Ca) Nb Kp A H w'. destruct (lives_keeps rules g es w Lv) as (l & T & F & Ke).
  destruct (add_fair rules l w es T F b prev t Ke Nb Kp A) as (Fa & Gr & Kb).
  assert (Kn : forall b0, Some b = Some b0 -> known t b0) by (intros b0 [= <-]; easy).
  set (l1 := (b, Some prev) :: l) in *.
  destruct (activate_ok (pred_in l1) addr Inj rules (o_verdict e) (o_now e) (Some b) (o_rounds e) _ f T Ve Fa Kn)
    as [(s2 & f2 & r & T2 & A2 & Fa2 & R2 & Be)|(A2 & _)]; cbn [s_tree s_act] in A2; unfold with_block in H;
    rewrite A2 in H; [|discriminate]. injection H as -> -> ->. specialize (Be eq_refl).
  pose proof (fa_good _ _ _ _ Fa2) as G2. pose proof (fa_ends _ _ _ _ Fa2) as E2.
  assert (Ps : forall x, known (s_tree s') x -> (passes rules w' x <-> clean (pred_in l1) rules x)).
  { intros x Kx. assert (Up : forall k z, up (prev_of w') x k z <-> up (pred_in l1) x k z).
    { intros k. revert x Kx. induction k as [|k IH]; intros x Kx z.
      { split; intros U; inversion U; subst; apply up_here. }
      split; intros U; inversion U as [|y p k' a P U']; subst.
      - unfold prev_of, w_tree in P. cbn in P. destruct (fget N.eqb (s_tree s') x) as [n|] eqn:En; [|discriminate].
        rewrite (prev_node _ _ _ _ (proj1 G2) En) in P. apply up_next with p; [easy|]. apply IH; [|easy].
        exact (up_known _ _ x 1 p (proj1 G2) Kx (up_one _ _ _ P)).
      - pose proof Kx as (n & En). apply up_next with p.
        + unfold prev_of, w_tree. cbn. rewrite En. now rewrite (prev_node _ _ _ _ (proj1 G2) En).
        + apply IH; [|easy]. exact (up_known _ _ x 1 p (proj1 G2) Kx (up_one _ _ _ P)). }
    split; intros C z (k & U); apply C; exists k; now apply Up. }
  exists T2. split; [apply (ends_tip _ _ _ _ (proj1 G2) E2)|].
  split; [apply Ps; [apply E2|apply (fa_clean _ _ _ _ Fa2)]|].
  intros x Kx Px. apply fmem_true in Kx. rewrite (less_ok addr _ T2 x (proj1 E2) Kx). f_equal.
  apply Be; [easy|]. now apply Ps.
Qed.
Print Assumptions c63_best.

(** The order of blocks of the same height is that of their arrival: a new block gets a higher number
    than all that are known, and numbers do not change until the next restart. *)
Theorem c63_arrival g es w addr e b prev w' x n nb : lives g es w ->
  next w (EBlock addr e b prev) = Done w' -> fmem N.eqb (w_tree w) b = false ->
  fget N.eqb (w_tree w) x = Some n -> fget N.eqb (w_tree w') b = Some nb ->
  exists n', fget N.eqb (w_tree w') x = Some n' /\ n_seq n' = n_seq n /\ (n_seq n < n_seq nb)%N.
Proof.
  intros Lv H Nb X B. pose proof (lives_numbered g es w Lv) as Nu.
  assert (D : x <> b) by (intros ->; unfold fmem in Nb; rewrite X in Nb; discriminate).
  cbn [next] in H. step H as r R. injection H as <-. apply accept_seq in R. destruct R as (So & Sb).
  specialize (So x D). unfold seq_at in So, Sb. rewrite X in So. rewrite B in Sb.
  destruct (fget N.eqb (w_tree (fst r)) x) as [n'|]; [|discriminate]. exists n'. injection So as So.
  destruct Sb as [(Sb & _)|(Sb & _)]; [discriminate|]. injection Sb as Sb. split; [easy|]. split; [easy|].
  rewrite Sb. apply (Nu x). unfold seq_at. now rewrite X.
Qed.
Print Assumptions c63_arrival.

(** ** C64: activation ends *)

(** With more rounds than blocks, activation comes to an end, and no assertion fails: when a block
    came, and at any other time. *)
Theorem c64_ends rules g es w addr e b prev t f : lives_by rules g es w ->
  consistent rules w (EBlock addr e b prev) ->
  fmem N.eqb (w_tree w) b = false -> fmem N.eqb (w_tree w) prev = true ->
  add_index (w_tree w) b prev (w_seq w) = Done t -> (length t < o_rounds e)%nat ->
  exists r, activate addr (o_rounds e) (o_verdict e) (o_now e) (with_block w b t) f (Some b) = Done r.
Proof.
  intros Lv (Inj & Ve & Fk & Ca) Nb Kp A Lt. destruct (lives_keeps rules g es w Lv) as (l & T & F & Ke).
  destruct (add_fair rules l w es T F b prev t Ke Nb Kp A) as (Fa & Gr & Kb).
  assert (Kn : forall b0, Some b = Some b0 -> known t b0) by (intros b0 [= <-]; easy).
  destruct (activate_ok (pred_in ((b, Some prev) :: l)) addr Inj rules (o_verdict e) (o_now e) (Some b) (o_rounds e)
              _ f T Ve Fa Kn) as [(s2 & f2 & r & T2 & A2 & _)|(_ & Le)]; [eauto|].
  cbn [s_tree] in Le. pose proof (count_le t). lia.
Qed.
Print Assumptions c64_ends.

Theorem c64_ends_again rules g es w addr v rounds now f : lives_by rules g es w ->
  (forall x y, addr x = addr y -> x = y) -> (forall k x, v k x = rules x \/ v k x = VError) ->
  (length (w_tree w) < rounds)%nat ->
  exists r, activate addr rounds v now (w_sel w) f None = Done r.
Proof.
  intros Lv Inj Ve Lt. destruct (lives_keeps rules g es w Lv) as (l & T & F & (St & Fa)).
  assert (Kn : forall b0 : N, None = Some b0 -> known (s_tree (w_sel w)) b0) by discriminate.
  destruct (activate_ok (pred_in l) addr Inj rules v now None rounds _ f T Ve Fa Kn)
    as [(s2 & f2 & r & T2 & A2 & _)|(_ & Le)]; [eauto|].
  pose proof (count_le (s_tree (w_sel w))). unfold w_tree in Lt. lia.
Qed.
Print Assumptions c64_ends_again.

(** ** C65: forks may not be too deep *)

(** A block is taken in only if it follows a block of the active chain, or a fork from one that is at
    most [o_depth] below the tip. *)
Theorem c65_depth g es w w' addr e b prev : lives g es w -> next w (EBlock addr e b prev) = Done w' ->
  fmem N.eqb (w_tree w) b = false -> fmem N.eqb (w_tree w') b = true -> 0 <= o_depth e ->
  exists f, on_chain w f /\ back (prev_of w) prev f /\ c_height (w_act w) - tall w f <= o_depth e.
Proof.
  intros Lv H Nb Kb Pd. destruct (lives_stands g es w Lv) as (l & T & F & St).
  cbn [next] in H. step H as r R. injection H as <-. unfold accept_block in R.
  step R as u1 N1. step R as u2 N2. apply asserted_done in N2. step R as k K. cbn zeta in R.
  destruct (good_grown _ _ (st_grown _ _ _ _ _ St)) as (L & Ro). pose proof (st_ends _ _ _ _ _ St) as E.
  destruct (opt_eqb (Some prev) (c_tip (w_act w))) eqn:Tp.
  - apply opt_eqb_true in Tp. pose proof (ends_tip _ _ _ _ L E) as Tt. unfold w_act in *. rewrite Tt in Tp.
    injection Tp as ->. exists T. split; [apply (stands_on l es w T F T St); apply back_refl|].
    split; [apply back_refl|]. pose proof (line_height _ _ _ _ L (proj1 E) (proj2 E)) as Hh.
    unfold w_act, tall. rewrite Hh. fold (height_of (w_tree w) T). unfold w_tree. lia.
  - unfold process_fork in K. step K as h Hh. step K as q Q. destruct q as [q|].
    + destruct (walk_depth _ _ _ _ _ _ _ _ Q) as (f & k' & Rc & C & D). exists f. split; [exact C|]. split; [|exact D].
      exists k'. exact Rc.
    + injection K as <-. cbn [fst snd andb negb] in R. injection R as <-. cbn [fst] in Kb.
      unfold w_tree at 1 in Kb. cbn [w_sel s_tree] in Kb. congruence.
Qed.
Print Assumptions c65_depth.

(** ** Instances *)
Section Instance.
  Let addr (b : N) : N := b.
  Let rules (b : N) : verdict := if (b =? 21)%N then VInvalid else VOk.
  Let plain (now : Z) (ds : list N) (own : list N) : around :=
    mkAround now (fun _ => rules) 9 (fun _ => false) (fun b => match rules b with VOk => true | _ => false end)
      100 true (Some ds) (length ds) own.
  Let first : world := genesis_world 10.
  Let run (w : outcome world) (e : event) : outcome world := do w <- w; next w e.
  Let got (o : outcome world) : world := match o with Done w => w | _ => first end.
  Let blk (own : list N) (b prev : N) : event := EBlock addr (plain 1000 [7%N] own) b prev.

  Lemma blk_consistent w own b prev : consistent rules w (blk own b prev).
  Proof.
    split; [easy|]. split; [intros k x; now left|]. split; [|discriminate].
    intros x. cbn. unfold rules. destruct (x =? 21)%N; [discriminate|easy].
  Qed.
  Lemma run_lives_by es : forall es0 w0 w, lives_by rules 10 es0 w0 ->
    (forall e, In e es -> exists own b prev, e = blk own b prev) ->
    fold_left run es (Done w0) = Done w -> lives_by rules 10 (rev es ++ es0) w.
  Proof.
    induction es as [|e es IH]; intros es0 w0 w Lv Bl H; cbn [fold_left rev app] in *; [now injection H as <-|].
    destruct (run (Done w0) e) as [w1| | |] eqn:E; cbn [run bind] in E.
    2-4: exfalso; clear - H; induction es as [|e' es IH]; cbn in H; [discriminate|now apply IH].
    rewrite <- app_assoc. cbn [app]. apply (IH _ w1); [|intros x I; apply Bl; now right|exact H].
    destruct (Bl e (or_introl eq_refl)) as (own & b & prev & ->).
    apply (by_next rules 10 es0 w0 _ w1 Lv); [easy|apply blk_consistent|exact E].
  Qed.

  (** Blocks 11 and 12; a longer fork 20, 21, 22 in which 21 fails is given up for them. *)
  Let fork := [blk [] 11 10; blk [] 12 11; blk [] 20 10; blk [] 21 20]%N.
  Let forked : world := Eval vm_compute in got (fold_left run fork (Done first)).
  Let indexed : list (N * node) :=
    Eval vm_compute in match add_index (w_tree forked) 22 21 (w_seq forked) with Done t => t | _ => [] end.
  Let chosen : outcome (sel * fin * result) :=
    Eval vm_compute in activate addr 9 (fun _ => rules) 1000 (with_block forked 22 indexed) (w_fin forked) (Some 22%N).
  Example c63_instance : lives_by rules 10 (rev fork) forked
    /\ add_index (w_tree forked) 22 21 (w_seq forked) = Done indexed
    /\ activate addr 9 (fun _ => rules) 1000 (with_block forked 22 indexed) (w_fin forked) (Some 22%N) = chosen
    /\ match chosen with Done (s', _, Best) => c_tip (s_act s') = Some 12%N | _ => False end
    /\ (length indexed < 9)%nat.
  Proof.
    split.
    - rewrite <- (app_nil_r (rev fork)). apply (run_lives_by fork [] first); [now constructor| |vm_compute; reflexivity].
      intros e I. unfold fork in I. repeat (destruct I as [<-|I]; [eauto|]). destruct I.
    - vm_compute. repeat split; auto.
  Qed.

  (** The fork of the instance came later than the block of the same height. *)
  Example c63_arrival_instance : exists n nb, fget N.eqb (w_tree forked) 12%N = Some n
    /\ fget N.eqb (w_tree forked) 21%N = Some nb /\ n_height n = n_height nb /\ (n_seq n < n_seq nb)%N.
  Proof. vm_compute. eexists. eexists. repeat split. Qed.

  (** A fork from the first block is taken at depth 2, and not at depth 1. *)
  Let deep (d : Z) : event :=
    EBlock addr (mkAround 1000 (fun _ => rules) 9 (fun _ => false) (fun _ => true) d true (Some [7%N]) 1 []) 30 10.
  Example c65_instance :
    fmem N.eqb (w_tree (got (fold_left run [blk [] 11 10; blk [] 12 11; deep 2] (Done first)))) 30%N = true
    /\ fmem N.eqb (w_tree (got (fold_left run [blk [] 11 10; blk [] 12 11; deep 1] (Done first)))) 30%N = false.
  Proof. vm_compute. auto. Qed.

  (** Held back by a fork that cannot be joined: block 12 is final, and 30 to 33 are a longer fork
      without it. Then 15 with its predecessors 12 and 14 is not chosen over 13, though it is higher. *)
  Let rival := [blk [] 11 10; blk [7%N] 12 11; blk [] 30 10; blk [] 31 30; blk [] 32 31; blk [] 33 32;
                blk [] 13 12; blk [] 14 12; blk [] 15 14]%N.
  Let stuck : world := Eval vm_compute in got (fold_left run rival (Done first)).
  Theorem c63_held_refuted : exists rules g es w F T x, lives_by rules g es w /\ final_of w = Some F
    /\ c_tip (w_act w) = Some T /\ passes rules w x /\ back (prev_of w) x F /\ (tall w T < tall w x)%Z.
  Proof.
    exists rules, 10%N, (rev rival), stuck, 12%N, 13%N, 15%N.
    assert (P : forall b, In b [15; 14; 12; 11; 10]%N -> rules b = VOk /\
      match prev_of stuck b with Some p => In p [15; 14; 12; 11; 10]%N | None => True end).
    { intros b I. repeat (destruct I as [<-|I]; [vm_compute; auto 10|]). destruct I. }
    split.
    { rewrite <- (app_nil_r (rev rival)). apply (run_lives_by rival [] first); [now constructor| |vm_compute; reflexivity].
      intros e I. unfold rival in I. repeat (destruct I as [<-|I]; [eauto|]). destruct I. }
    split; [vm_compute; reflexivity|]. split; [vm_compute; reflexivity|].
    split; [|split; [|vm_compute; reflexivity]].
    - intros x (k & U). assert (G : forall b, up (prev_of stuck) b k x -> In b [15; 14; 12; 11; 10]%N -> rules x = VOk).
      { clear U. intros b U I. revert I. induction U as [b|b p k a Q U IH]; intros I; [now apply P|].
        apply IH. destruct (P b I) as (_ & X). now rewrite Q in X. }
      apply (G 15%N U). now left.
    - exists 2%nat. apply up_next with 14%N; [vm_compute; reflexivity|].
      apply up_next with 12%N; [vm_compute; reflexivity|constructor].
  Qed.
  Print Assumptions c63_held_refuted.

  (** After a restart the order of arrival is forgotten: of two blocks of one height, the one with
      the lower address is chosen, so a restart may change the active chain. *)
  Let pair := [blk [] 12 10; blk [] 11 10]%N.
  Let before : world := Eval vm_compute in got (fold_left run pair (Done first)).
  Let again := ERestart addr 9 (fun _ => false) [10; 11; 12]%N 2000 (fun _ => rules).
  Let renewed : world := Eval vm_compute in got (next before again).
  Theorem c63_restart_refuted : exists rules g es w e w', lives_by rules g es w /\ legal w e
    /\ consistent rules w e /\ next w e = Done w' /\ keys (w_tree w') = keys (w_tree w)
    /\ c_tip (w_act w) = Some 12%N /\ c_tip (w_act w') = Some 11%N.
  Proof.
    exists rules, 10%N, (rev pair), before, again, renewed. split.
    { rewrite <- (app_nil_r (rev pair)). apply (run_lives_by pair [] first); [now constructor| |vm_compute; reflexivity].
      intros e I. unfold pair in I. repeat (destruct I as [<-|I]; [eauto|]). destruct I. }
    split.
    { split.
      - vm_compute. apply perm_skip. apply perm_swap.
      - repeat constructor; vm_compute; discriminate. }
    split.
    { split; [easy|]. split; [intros k x; now left|discriminate]. }
    vm_compute. auto.
  Qed.
  Print Assumptions c63_restart_refuted.
End Instance.
