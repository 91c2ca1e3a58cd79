(** Universal transactions as sequences of steps: what each inline transaction may do, and with
    whose authority (universaltx.cpp:246-360, wasm_context.cpp:40-230). *)
From Coq Require Import String Ascii NArith ZArith List Lia Bool.
From Coq Require Import ZifyBool ZifyN ZifyNat.
Require Import Verif.Prelude Verif.AccountModel Verif.AccountSpec Verif.TxModel Verif.TxSpec
  Verif.TxProofs Verif.DexModel Verif.FeeModel Verif.LuaModel Verif.LuaSpec Verif.LuaProofs
  Verif.WasmModel Verif.WasmSpec Verif.WasmTx Verif.WasmBank.
Import ListNotations.

Section Steps.
  Variable pk_keyid : N -> N.
  Variable e : wenv.
  Variable tops : list itx.
  Notation winv := (winv pk_keyid e).
  Notation heff := (heff pk_keyid e).

  (** Every authority the transaction names belongs to code that ran. *)
  Definition own_auth (w : world) (t : itx) : Prop :=
    forall p, In p (g_auth t) -> In (pm_acc p, true) (wd_runs w).

  Inductive step : world -> world -> Prop :=
  | S_tick w : step w (tick w)
  | S_ran w n b : (b = true -> is_native n = true \/ code_of w n <> []) -> step w (ran w n b)
  | S_store w n k v : is_native n = false -> In (n, true) (wd_runs w) ->
      step w (burn_fuel (with_data w (fput data_eqb (wd_data w) (reg_of n, (n, k)) v))
                ((8 + N.of_nat (List.length k) + N.of_nat (List.length v)) * 10))
  | S_remove w n k : is_native n = false -> In (n, true) (wd_runs w) ->
      step w (burn_fuel (with_data w (fdel data_eqb (wd_data w) (reg_of n, (n, k))))
                ((8 + N.of_nat (List.length k)) * 10))
  | S_native w c c' w' : is_native (c_recv c) = true -> g_contract (c_trx c) = c_recv c ->
      In (c_recv c, true) (wd_runs w) -> In (c_trx c) tops \/ own_auth w (c_trx c) ->
      heff c c' w w' -> step w w'.

  Inductive steps : world -> world -> Prop :=
  | steps_none w : steps w w
  | steps_more w w1 w2 : steps w w1 -> step w1 w2 -> steps w w2.

  Lemma steps_trans w w1 w2 : steps w w1 -> steps w1 w2 -> steps w w2.
  Proof. intros A B. induction B as [w1|w1 w3 w4 _ IH B]; auto. apply (steps_more w w3 w4); auto. Qed.
  Lemma steps_one w w1 : step w w1 -> steps w w1.
  Proof. intros A. eapply steps_more; [apply steps_none|exact A]. Qed.

  Lemma step_runs w w' : step w w' -> incl (wd_runs w) (wd_runs w').
  Proof.
    intros [w0|w0 n b _|w0 n k v _ _|w0 n k _ _|w0 c c' w0' _ _ _ _ H]; try (apply incl_refl).
    - unfold ran. cbn. intros x X. try (apply in_app_iff; left; exact X); try (right; exact X).
    - rewrite (he_runs _ _ _ _ _ _ H). apply incl_refl.
  Qed.
  Lemma steps_runs w w' : steps w w' -> incl (wd_runs w) (wd_runs w').
  Proof. intros H. induction H; [apply incl_refl|]. eapply incl_tran; [exact IHsteps|]. now apply step_runs. Qed.
  Lemma own_mono w w' t : incl (wd_runs w) (wd_runs w') -> own_auth w t -> own_auth w' t.
  Proof. intros A B p X. apply A, B, X. Qed.

  Lemma step_winv w w' : winv w -> step w w' -> winv w'.
  Proof.
    intros I S. destruct S as [w|w n b _|w n k v _ _|w n k _ _|w c c' w' _ _ _ _ H]; [| | | |apply H];
      destruct I; constructor; auto.
  Qed.
  Lemma steps_winv w w' : winv w -> steps w w' -> winv w'.
  Proof. intros I S. induction S as [w|w w1 w2 _ IH S]; auto. apply (step_winv w1); auto. Qed.

  Definition cinv (c : ctx) (w : world) : Prop :=
    (forall n, In n (c_notified c) -> n = g_contract (c_trx c) \/ is_native n = false) /\
    (forall t, In t (c_inlines c) -> is_native (g_contract t) = true -> own_auth w t).

  Lemma cinv_mono c w w' : incl (wd_runs w) (wd_runs w') -> cinv c w -> cinv c w'.
  Proof. intros A [B C]. split; auto. intros t X Y. eapply own_mono; eauto. Qed.

  Lemma host_steps c w h c' w' :
    winv w -> cinv c w -> is_native (c_recv c) = false -> In (c_recv c, true) (wd_runs w) ->
    host c w h = Done (c', w') ->
    steps w w' /\ cinv c' w' /\ c_trx c' = c_trx c /\ c_recv c' = c_recv c.
  Proof.
    intros I [C1 C2] Hn Hr. unfold host. cbv zeta. destruct h as [n|t|k v|k|n|]; intros H.
    - apply guard_inv in H as [Hm H]. apply bind_inv in H as (c1 & N1 & H). inversion H; subst; clear H.
      destruct (notify_inv _ _ _ N1) as (A1 & A2 & A3 & A4). split; [apply steps_none|]. split; auto. split.
      + intros m X. rewrite A1. apply A4 in X as [X| ->]; auto. right.
        unfold fmem in Hm. destruct (fget regid_eqb (t_reg (wd_tx w')) (reg_of n)) as [k|] eqn:E; [|discriminate].
        eapply registered_not_native; eauto.
      + rewrite A3. auto.
    - apply bind_inv in H as (c1 & S1 & H). inversion H; subst; clear H.
      destruct (send_inv _ _ _ S1) as (A1 & A2 & A3 & A4 & A5). split; [apply steps_none|]. split; auto. split.
      + rewrite A1, A3. auto.
      + intros t' X Y. rewrite A4 in X. apply in_app_iff in X as [X|[X|[]]]; auto. subst t'. intros p Hp.
        rewrite forallb_forall in A5. specialize (A5 p Hp). unfold allowed in A5. cbv zeta in A5.
        assert (E : g_contract t =? c_recv c = false) by (apply N.eqb_neq; congruence). rewrite E in A5.
        assert (Eq : (pm_acc p =? c_recv c) = true).
        { destruct (pm_acc p =? c_recv c); auto. cbn [andb negb] in A5. destruct (_ && _) in A5; discriminate. }
        apply N.eqb_eq in Eq. rewrite Eq. exact Hr.
    - apply guard_inv in H as [_ H]. inversion H; subst; clear H. split; [|split; [split; auto|auto]].
      apply steps_one, S_store; auto.
    - apply guard_inv in H as [_ H]. inversion H; subst; clear H. split; [|split; [split; auto|auto]].
      apply steps_one, S_remove; auto.
    - apply guard_inv in H as [_ H]. inversion H; subst; clear H. split; [apply steps_none|split; [split; auto|auto]].
    - discriminate.
  Qed.

  Lemma hosts_steps hs : forall c w c' w',
    winv w -> cinv c w -> is_native (c_recv c) = false -> In (c_recv c, true) (wd_runs w) ->
    hosts c w hs = Done (c', w') -> steps w w' /\ cinv c' w' /\ c_trx c' = c_trx c.
  Proof.
    induction hs as [|h hs IH]; intros c w c' w' I C Hn Hr H; cbn [hosts] in H.
    - inversion H; subst. split; [apply steps_none|auto].
    - apply bind_inv in H as ((c1 & w1) & H1 & H).
      destruct (host_steps _ _ _ _ _ I C Hn Hr H1) as (S1 & C1 & E1 & E2).
      destruct (IH c1 w1 c' w') as (S2 & C2 & E3); auto.
      + eapply steps_winv; eauto.
      + congruence.
      + rewrite E2. eapply steps_runs; eauto.
      + split; [eapply steps_trans; eauto|]. split; auto. congruence.
  Qed.

  Lemma ran_in w n b : In (n, b) (wd_runs (ran w n b)).
  Proof. unfold ran. cbn. try (apply in_app_iff; right; left; reflexivity); try (left; reflexivity). Qed.

  Lemma one_steps c w c' w' :
    env_ok e -> winv w -> cinv c w ->
    (is_native (c_recv c) = true -> g_contract (c_trx c) = c_recv c /\ (In (c_trx c) tops \/ own_auth w (c_trx c))) ->
    execute_one pk_keyid e c w = Done (c', w') -> steps w w' /\ cinv c' w' /\ c_trx c' = c_trx c.
  Proof.
    intros E I C Hn. unfold execute_one. cbv zeta. set (n := c_recv c) in *.
    destruct (is_native n) eqn:En.
    - destruct (Hn eq_refl) as [Eg Ho]. intros H.
      assert (S1 : step w (ran w n true)) by (apply S_ran; auto).
      pose proof (step_winv _ _ I S1) as I1.
      pose proof (native_heff pk_keyid e n c _ _ _ E I1 eq_refl En H) as Hh.
      split; [|split].
      + eapply steps_more; [apply steps_one, S1|]. eapply S_native; [exact En|exact Eg|apply ran_in| |exact Hh].
        destruct Ho as [Ho|Ho]; auto. right. eapply own_mono; [apply (step_runs _ _ S1)|exact Ho].
      + pose proof (he_runs _ _ _ _ _ _ Hh) as Er.
        assert (Inc : incl (wd_runs w) (wd_runs w')) by (rewrite Er; apply (step_runs _ _ S1)).
        destruct C as [C1 C2]. split.
        * intros m X. rewrite (he_trx _ _ _ _ _ _ Hh). apply (he_notified _ _ _ _ _ _ Hh) in X as [X|X]; auto.
        * intros t X Y. apply (he_inlines _ _ _ _ _ _ Hh) in X as [X|X].
          -- eapply own_mono; eauto.
          -- intros p Hp. rewrite (X p Hp), Er. apply ran_in.
      + apply Hh.
    - destruct (code_of w n) as [|b code] eqn:Ec; intros H.
      + inversion H; subst c' w'. assert (S1 : step w (ran w n false)) by (apply S_ran; discriminate).
        split; [apply steps_one, S1|]. split; auto. eapply cinv_mono; [apply (step_runs _ _ S1)|exact C].
      + assert (S1 : step w (ran w n true)) by (apply S_ran; right; congruence).
        destruct (hosts_steps _ _ _ _ _ (step_winv _ _ I S1) (cinv_mono _ _ _ (step_runs _ _ S1) C) En (ran_in w n true) H)
          as (S2 & C2 & E2).
        split; [eapply steps_trans; [apply steps_one, S1|exact S2]|auto].
  Qed.

  Lemma notified_steps fuel : forall i c w c' w',
    env_ok e -> winv w -> cinv c w -> (is_native (g_contract (c_trx c)) = true -> In (c_trx c) tops \/ own_auth w (c_trx c)) ->
    notified_from pk_keyid e fuel i c w = Done (c', w') -> steps w w' /\ cinv c' w' /\ c_trx c' = c_trx c.
  Proof.
    induction fuel as [|fuel IH]; intros i c w c' w' E I C Hn H; cbn [notified_from] in H.
    - inversion H; subst. split; [apply steps_none|auto].
    - destruct (nth_error (c_notified c) i) as [n|] eqn:En; [|inversion H; subst; split; [apply steps_none|auto]].
      apply bind_inv in H as ((c1 & w1) & H1 & H).
      edestruct one_steps as (S1 & C1 & E1); [exact E|exact I| | |exact H1| ]; cbn [c_recv c_trx] in *.
      + exact C.
      + cbn [c_recv c_trx]. intros X. destruct C as [C0 _]. apply nth_error_In in En.
        destruct (C0 n En) as [Y|Y]; [|congruence]. split; auto. apply Hn. congruence.
      + destruct (IH (S i) c1 w1 c' w') as (S2 & C2 & E2); auto.
        * eapply steps_winv; eauto.
        * rewrite E1. intros X. destruct (Hn X) as [Y|Y]; auto. right. eapply own_mono; [apply (steps_runs _ _ S1)|exact Y].
        * split; [eapply steps_trans; eauto|]. split; auto. congruence.
  Qed.

  Lemma execute_steps left : forall t w w',
    env_ok e -> winv w -> (is_native (g_contract t) = true -> In t tops \/ own_auth w t) ->
    execute pk_keyid e left t w = Done w' -> steps w w'.
  Proof.
    induction left as [|left IH]; intros t w w' E I Hn H; cbn [execute] in H;
      apply guard_inv in H as [_ H]; apply bind_inv in H as ((c1 & w1) & H1 & H);
      apply bind_inv in H as ((c2 & w2) & H2 & H); [discriminate|].
    assert (S0 : step w (tick w)) by apply S_tick.
    pose proof (step_winv _ _ I S0) as I0.
    edestruct one_steps as (S1 & C1 & E1); [exact E|exact I0| | |exact H1| ].
    { split; cbn; [intros n [X|[]]; auto|intros ? []]. }
    { cbn [c_recv c_trx]. auto. }
    pose proof (steps_winv _ _ I0 S1) as I1. cbn [c_trx] in E1.
    assert (R1 : incl (wd_runs w) (wd_runs w1)) by (eapply incl_tran; [apply (step_runs _ _ S0)|apply (steps_runs _ _ S1)]).
    edestruct notified_steps as (S2 & C2 & E2); [exact E|exact I1|exact C1| |exact H2| ].
    { rewrite E1. intros X. destruct (Hn X) as [Y|Y]; auto. right. eapply own_mono; eauto. }
    pose proof (steps_winv _ _ I1 S2) as I2.
    assert (S02 : steps w w2) by (eapply steps_trans; [apply steps_one, S0|]; eapply steps_trans; eauto).
    eapply steps_trans; [exact S02|]. destruct C2 as [_ C2]. clear - IH H E I2 C2.
    revert w2 w' H I2 C2. induction (c_inlines c2) as [|t ts IHt]; intros w2 w' H I2 C2.
    - inversion H; subst. apply steps_none.
    - apply bind_inv in H as (w3 & H3 & H).
      assert (S3 : steps w2 w3).
      { eapply IH; [exact E|exact I2| |exact H3]. intros X. right. apply C2; [left; reflexivity|exact X]. }
      eapply steps_trans; [exact S3|]. apply IHt; auto.
      + eapply steps_winv; eauto.
      + intros t' X Y. eapply own_mono; [apply (steps_runs _ _ S3)|]. apply C2; [right; exact X|exact Y].
  Qed.

  Lemma execute_all_steps ts : forall w w',
    env_ok e -> winv w -> incl ts tops -> execute_all pk_keyid e ts w = Done w' -> steps w w'.
  Proof.
    induction ts as [|t ts IH]; intros w w' E I Hi H; cbn [execute_all] in H.
    - inversion H; subst. apply steps_none.
    - apply bind_inv in H as (w1 & H1 & H).
      assert (S1 : steps w w1).
      { eapply execute_steps; [exact E|exact I| |exact H1]. intros _. left. apply Hi. left. reflexivity. }
      eapply steps_trans; [exact S1|]. apply IH; auto.
      + eapply steps_winv; eauto.
      + intros x X. apply Hi. right. exact X.
  Qed.
End Steps.
