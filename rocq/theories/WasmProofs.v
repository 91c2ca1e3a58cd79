(** Proofs about universal transactions (C85-C94): what sequences of steps do, and what a whole
    transaction does. *)
From Coq Require Import String Ascii List Bool NArith ZArith Lia.
From Coq Require Import ZifyBool ZifyNat ZifyN.
From Verif Require Import Prelude PreludeFacts AccountModel AccountSpec AccountProofs TxModel TxSpec
  TxProofs FeeModel PermModel DexModel RegidModel LuaModel LuaProofs LuaTx WasmModel WasmSpec WasmTx
  WasmBank WasmSteps.
Import ListNotations.
Open Scope N_scope.
Ltac Zify.zify_post_hook ::= Z.div_mod_to_equations.

Lemma data_eqb_ok : forall a b, data_eqb a b = true <-> a = b.
Proof.
  assert (B : forall x y, bytes_eqb x y = true <-> x = y).
  { unfold bytes_eqb. intros x. induction x as [|a x IH]; intros [|b y]; cbn; try (split; congruence).
    rewrite andb_true_iff, N.eqb_eq, IH. split; [intros [-> ->]; reflexivity|intros E; inversion E; auto]. }
  intros [r1 [n1 k1]] [r2 [n2 k2]]. unfold data_eqb, pair_eqb. cbn [fst snd].
  rewrite !andb_true_iff, N.eqb_eq, B, regid_eqb_ok. split; [intros [-> [-> ->]]; reflexivity|intros E; inversion E; auto].
Qed.

Section StepFacts.
  Variable pk_keyid : N -> N.
  Variable e : wenv.
  Variable tops : list itx.
  Notation winv := (winv pk_keyid e).
  Notation steps := (steps pk_keyid e tops).
  Notation step := (step pk_keyid e tops).
  Notation here := (ev_height e, ev_index e).

  (** Authority for [n] in the module [m]. *)
  Definition auth_in (w : world) (m n : N) : Prop :=
    (exists t, In t tops /\ g_contract t = m /\ has_auth t n = true) \/ In (n, true) (wd_runs w).

  Lemma auth_mono w w' m n : incl (wd_runs w) (wd_runs w') -> auth_in w m n -> auth_in w' m n.
  Proof. intros I [A|A]; [left; auto|right; auto]. Qed.

  Lemma native_auth w c n : g_contract (c_trx c) = c_recv c ->
    In (c_trx c) tops \/ own_auth w (c_trx c) -> has_auth (c_trx c) n = true ->
    auth_in w (c_recv c) n.
  Proof.
    intros E [A|A] H; [left; eauto|right]. unfold has_auth in H. apply existsb_exists in H as (p & Hp & Hn).
    apply N.eqb_eq in Hn. subst n. auto.
  Qed.

  Lemma step_reg w w' r k : step w w' -> fget regid_eqb (t_reg (wd_tx w)) r = Some k ->
    fget regid_eqb (t_reg (wd_tx w')) r = Some k.
  Proof. intros [ | | | | ? ? ? ? _ _ _ _ H] X; auto. apply H; auto. Qed.
  Lemma steps_reg w w' r k : steps w w' -> fget regid_eqb (t_reg (wd_tx w)) r = Some k ->
    fget regid_eqb (t_reg (wd_tx w')) r = Some k.
  Proof. intros H X. induction H as [|w w1 w2 _ IH S]; auto. eapply step_reg; eauto. Qed.

  Lemma steps_lose w w' : steps w w' -> forall k s b,
    lbal (commit (wd_tx w')) k s b < lbal (commit (wd_tx w)) k s b ->
    b = BFree /\ exists n, fget regid_eqb (t_reg (wd_tx w')) (reg_of n) = Some k /\ auth_in w' wasmio_bank n.
  Proof.
    intros H. induction H as [w|w w1 w2 H1 IH S]; intros k s b L; [lia|].
    destruct (N.lt_ge_cases (lbal (commit (wd_tx w1)) k s b) (lbal (commit (wd_tx w)) k s b)) as [L1|L1].
    - destruct (IH k s b L1) as (Eb & n & A & B). split; auto. exists n. split; [eapply step_reg; eauto|].
      eapply auth_mono; [apply (step_runs _ _ _ _ _ S)|exact B].
    - destruct S as [w1|w1 n b0 _|w1 n k0 v _ _|w1 n k0 _ _|w1 c c' w2 Hn Hg Hr Ho Hh]; cbn in L; try lia.
      destruct (he_lose _ _ _ _ _ _ Hh k s b ltac:(lia)) as (Eb & Er & n & A & B). split; auto. exists n. split; auto.
      rewrite <- Er. apply (auth_mono w1); [rewrite (he_runs _ _ _ _ _ _ Hh); apply incl_refl|].
      apply native_auth; auto.
  Qed.

  Lemma steps_codes w w' : steps w w' -> forall r,
    fget regid_eqb (wd_codes w') r <> fget regid_eqb (wd_codes w) r ->
    (fget regid_eqb (wd_codes w) r = None /\ r = here) \/
    exists old, fget regid_eqb (wd_codes w) r = Some old /\ auth_in w' wasmio (num_of (k_maintainer old)).
  Proof.
    intros H. induction H as [w|w w1 w2 H1 IH S]; intros r L; [congruence|].
    assert (D : fget regid_eqb (wd_codes w1) r = fget regid_eqb (wd_codes w) r \/
                fget regid_eqb (wd_codes w1) r <> fget regid_eqb (wd_codes w) r).
    { destruct (fget regid_eqb (wd_codes w1) r) as [[a1 a2 a3]|], (fget regid_eqb (wd_codes w) r) as [[b1 b2 b3]|]; auto; try (right; discriminate).
      destruct (list_eq_dec N.eq_dec a1 b1), (list_eq_dec N.eq_dec a2 b2); subst; try (right; congruence).
      destruct (regid_eqb a3 b3) eqn:E; [apply regid_eqb_ok in E; subst; auto|].
      right. intros X. inversion X. subst. rewrite (eqb_same regid_eqb regid_eqb_ok) in E. discriminate. }
    destruct D as [D|D].
    - rewrite <- D in L |- *.
      destruct S as [w1|w1 n b0 _|w1 n k0 v _ _|w1 n k0 _ _|w1 c c' w2 Hn Hg Hr Ho Hh]; cbn in L; try congruence.
      destruct (he_codes _ _ _ _ _ _ Hh r L) as (Er & [A|(old & A & B)]); [left; auto|right].
      exists old. split; auto. rewrite <- Er. apply (auth_mono w1); [rewrite (he_runs _ _ _ _ _ _ Hh); apply incl_refl|].
      apply native_auth; auto.
    - destruct (IH r D) as [A|(old & A & B)]; [left; auto|right]. exists old. split; auto.
      eapply auth_mono; [apply (step_runs _ _ _ _ _ S)|exact B].
  Qed.

  Lemma step_stay w w' r : step w w' -> fget regid_eqb (wd_codes w) r <> None -> fget regid_eqb (wd_codes w') r <> None.
  Proof. intros [ | | | | ? ? ? ? _ _ _ _ H] X; auto. apply (he_stay _ _ _ _ _ _ H). auto. Qed.

  (** Code that ran is stored. *)
  Lemma steps_coded w w' : steps w w' ->
    (forall n, In (n, true) (wd_runs w) -> is_native n = true \/ fget regid_eqb (wd_codes w) (reg_of n) <> None) ->
    forall n, In (n, true) (wd_runs w') -> is_native n = true \/ fget regid_eqb (wd_codes w') (reg_of n) <> None.
  Proof.
    intros H. induction H as [w|w w1 w2 H1 IH S]; intros H0; auto. specialize (IH H0). intros n X.
    assert (Y : In (n, true) (wd_runs w1) \/ is_native n = true \/ code_of w1 n <> []).
    { destruct S as [w1|w1 m b0 Hb|w1 m k0 v _ _|w1 m k0 _ _|w1 c c' w2 Hn Hg Hr Ho Hh]; try (left; exact X).
      - cbn in X. destruct X as [X|X]; [inversion X; subst|]; auto.
      - rewrite (he_runs _ _ _ _ _ _ Hh) in X. auto. }
    destruct Y as [Y|[Y|Y]]; auto.
    - destruct (IH n Y); auto. right. eapply step_stay; eauto.
    - right. eapply step_stay; eauto. unfold code_of in Y. destruct (fget regid_eqb (wd_codes w1) (reg_of n)); congruence.
  Qed.

  Lemma steps_supply w w' : steps w w' -> forall s,
    supply (commit (wd_tx w')) s + pending w' s + recorded w s =
    supply (commit (wd_tx w)) s + pending w s + recorded w' s.
  Proof.
    intros H. induction H as [w|w w1 w2 H1 IH S]; intros s; [reflexivity|]. specialize (IH s).
    destruct S as [w1|w1 m b0 Hb|w1 m k0 v _ _|w1 m k0 _ _|w1 c c' w2 Hn Hg Hr Ho Hh]; try exact IH.
    pose proof (he_supply _ _ _ _ _ _ Hh s). lia.
  Qed.

  Lemma steps_reward w w' : steps w w' -> r_new (wd_reward w') <> r_new (wd_reward w) ->
    auth_in w' wasmio_voting (ev_voting e).
  Proof.
    intros H. induction H as [w|w w1 w2 H1 IH S]; intros D; [congruence|].
    destruct (N.eq_dec (r_new (wd_reward w1)) (r_new (wd_reward w))) as [E|E].
    - destruct S as [w1|w1 m b0 Hb|w1 m k0 v _ _|w1 m k0 _ _|w1 c c' w2 Hn Hg Hr Ho Hh]; cbn in D; try congruence.
      destruct (he_reward _ _ _ _ _ _ Hh) as [Er A]; [congruence|]. rewrite <- Er.
      apply (auth_mono w1); [rewrite (he_runs _ _ _ _ _ _ Hh); apply incl_refl|]. apply native_auth; auto.
    - eapply auth_mono; [apply (step_runs _ _ _ _ _ S)|]. auto.
  Qed.

  (** The record of one token, from before to after. *)
  Definition record_change (w' : world) (s : string) (o o' : option asset) : Prop :=
    exists a', o' = Some a' /\
    match o with
    | None => s_total a' <= max_supply /\ uia_ok (ev_symbol_min e) s = true /\
              exists n, auth_in w' wasmio_bank n
    | Some a => regid_empty (s_owner a) = false /\ auth_in w' wasmio_bank (num_of (s_owner a)) /\
                s_mintable a' = s_mintable a /\ (s_mintable a = false -> s_total a' = s_total a) /\
                (s_total a <= max_supply -> s_total a' <= max_supply)
    end.

  Lemma asset_dec (a b : option asset) : a = b \/ a <> b.
  Proof.
    destruct a as [[a1 a2 a3 a4 a5]|], b as [[b1 b2 b3 b4 b5]|]; auto; try (right; discriminate).
    destruct (list_eq_dec N.eq_dec a1 b1), (N.eq_dec a3 b3), (bool_dec a4 b4), (list_eq_dec N.eq_dec a5 b5); subst;
      try (right; congruence).
    destruct (regid_eqb a2 b2) eqn:E; [apply regid_eqb_ok in E; subst; auto|].
    right. intros X. inversion X. subst. rewrite (eqb_same regid_eqb regid_eqb_ok) in E. discriminate.
  Qed.

  Lemma steps_assets w w' : steps w w' -> forall s,
    fget String.eqb (wd_assets w') s <> fget String.eqb (wd_assets w) s ->
    record_change w' s (fget String.eqb (wd_assets w) s) (fget String.eqb (wd_assets w') s).
  Proof.
    intros H. induction H as [w|w w1 w2 H1 IH S]; intros s L; [congruence|].
    assert (Old : fget String.eqb (wd_assets w2) s = fget String.eqb (wd_assets w1) s ->
                  record_change w2 s (fget String.eqb (wd_assets w) s) (fget String.eqb (wd_assets w2) s)).
    { intros E. rewrite E in L |- *. destruct (IH s L) as (a' & E1 & X). exists a'. split; auto.
      destruct (fget String.eqb (wd_assets w) s).
      - destruct X as (A & B & C). split; auto. split; auto.
        eapply auth_mono; [apply (step_runs _ _ _ _ _ S)|exact B].
      - destruct X as (A & B & n & C). split; auto. split; auto. exists n.
        eapply auth_mono; [apply (step_runs _ _ _ _ _ S)|exact C]. }
    destruct (asset_dec (fget String.eqb (wd_assets w2) s) (fget String.eqb (wd_assets w1) s)) as [Eq|Eq]; [auto|].
    clear Old. pose proof (step_runs _ _ _ _ _ S) as Rn.
    destruct S as [w1|w1 m b0 Hb|w1 m k0 v _ _|w1 m k0 _ _|w1 c c' w2 Hn Hg Hr Ho Hh]; try (exfalso; apply Eq; reflexivity).
    destruct (he_assets _ _ _ _ _ _ Hh s Eq) as (Er & a' & E2 & X).
    assert (Au : forall n, has_auth (c_trx c) n = true -> auth_in w2 wasmio_bank n).
    { intros n A. rewrite <- Er. apply (auth_mono w1); auto. apply native_auth; auto. }
    exists a'. split; auto. destruct (asset_dec (fget String.eqb (wd_assets w1) s) (fget String.eqb (wd_assets w) s)) as [Ew|Ew].
    - rewrite <- Ew. destruct (fget String.eqb (wd_assets w1) s) as [a|].
      + destruct X as (A & B & C & D & F). auto.
      + destruct X as (A & B & n & C & D). split; auto. split; auto. exists n. auto.
    - destruct (IH s Ew) as (a1 & E1 & Y). rewrite E1 in X. destruct X as (A & B & C & D & F).
      destruct (fget String.eqb (wd_assets w) s) as [a|].
      + destruct Y as (A' & B' & C' & D' & F'). split; auto. split; [eapply auth_mono; eauto|]. split; [congruence|].
        split; auto. intros Z. rewrite D by congruence. auto.
      + destruct Y as (A' & B' & n & C'). split; auto. split; auto. exists n. eapply auth_mono; eauto.
  Qed.

  Lemma steps_data w w' : steps w w' -> forall r n k,
    fget data_eqb (wd_data w') (r, (n, k)) <> fget data_eqb (wd_data w) (r, (n, k)) ->
    r = reg_of n /\ is_native n = false /\ In (n, true) (wd_runs w').
  Proof.
    intros H. induction H as [w|w w1 w2 H1 IH S]; intros r n k L; [congruence|].
    pose proof (step_runs _ _ _ _ _ S) as Rn.
    assert (Old : fget data_eqb (wd_data w2) (r, (n, k)) = fget data_eqb (wd_data w1) (r, (n, k)) ->
                  r = reg_of n /\ is_native n = false /\ In (n, true) (wd_runs w2)).
    { intros E. rewrite E in L. destruct (IH r n k L) as (A & B & C). auto. }
    destruct S as [w1|w1 m b0 Hb|w1 m k0 v Hm Hi|w1 m k0 Hm Hi|w1 c c' w2 Hn Hg Hr Ho Hh]; try (apply Old; reflexivity).
    - cbn [burn_fuel with_data wd_data wd_runs] in *. rewrite (fget_put data_eqb data_eqb_ok) in Old.
      destruct (data_eqb (r, (n, k)) (reg_of m, (m, k0))) eqn:E; [|auto]. apply data_eqb_ok in E. inversion E; subst. auto.
    - cbn [burn_fuel with_data wd_data wd_runs] in *.
      destruct (data_eqb (r, (n, k)) (reg_of m, (m, k0))) eqn:E.
      + apply data_eqb_ok in E. inversion E; subst. auto.
      + apply Old. apply (fget_del_other data_eqb data_eqb_ok). intros X. rewrite X in E.
        rewrite (eqb_same data_eqb data_eqb_ok) in E. discriminate.
    - apply Old. now rewrite (he_data _ _ _ _ _ _ Hh).
  Qed.

  Lemma nsum_app a b : nsum (a ++ b) = nsum a + nsum b.
  Proof. induction a as [|x a IH]; cbn [nsum app]; auto. rewrite IH. lia. Qed.

  Lemma data_put d k v : data_size (fput data_eqb d k v) <=
    data_size d + (8 + N.of_nat (List.length (snd (snd k))) + N.of_nat (List.length v)).
  Proof.
    unfold data_size. induction d as [|[k' v'] d IH]; cbn [fput map nsum fst snd]; [lia|].
    destruct (data_eqb k k'); cbn [map nsum fst snd]; lia.
  Qed.
  Lemma data_del d k : data_size (fdel data_eqb d k) <= data_size d.
  Proof.
    unfold data_size. induction d as [|[k' v'] d IH]; cbn [fdel map nsum fst snd]; [lia|].
    destruct (data_eqb k k'); cbn [map nsum fst snd]; lia.
  Qed.

  (** Fuel is spent for every byte. *)
  Lemma steps_fuel w w' : steps w w' ->
    data_size (wd_data w') * 10 + wd_fuel w <= data_size (wd_data w) * 10 + wd_fuel w'.
  Proof.
    intros H. induction H as [w|w w1 w2 H1 IH S]; [lia|].
    destruct S as [w1|w1 m b0 Hb|w1 m k0 v Hm Hi|w1 m k0 Hm Hi|w1 c c' w2 Hn Hg Hr Ho Hh]; cbn [tick ran burn_fuel with_data wd_data wd_fuel]; try lia.
    - pose proof (data_put (wd_data w1) (reg_of m, (m, k0)) v). cbn [fst snd] in *. lia.
    - pose proof (data_del (wd_data w1) (reg_of m, (m, k0))). lia.
    - rewrite (he_data _ _ _ _ _ _ Hh). pose proof (he_fuel _ _ _ _ _ _ Hh). lia.
  Qed.
End StepFacts.

Section Transaction.
  Variable pk_keyid : N -> N.
  Variable payer_sig : N -> bool.
  Variable extra_sig : N -> N -> bool.
  Notation tmv := (tmv pk_keyid).

  Lemma open_known h i u fs fee st k st4 :
    consistent pk_keyid (t_acc st) (t_reg st) -> NoDup (map fst (t_orders st)) ->
    l_get (t_acc st) 0 = None -> (forall s, supply (t_acc st) s < two64) ->
    (exists k0 a, denotes pk_keyid (t_reg st) u = Some k0 /\ l_get (t_acc st) k0 = Some a /\
                  regid_empty (a_regid a) = false) ->
    open_tx pk_keyid h i u fs fee st = Some (k, st4) ->
    let st0 := mkTx (t_acc st) (t_reg st) [] None (t_orders st) in
    tinv pk_keyid st0 /\ nokey st0 /\
    tmv st0 st4 (chg (Some (k, BFree)) None fs fee) (fun s => - Z.of_N (fee_in fs fee s))%Z /\
    denotes pk_keyid (t_reg st) u = Some k.
  Proof.
    intros [W G] No Hz Hs (k0 & a & Hd & Hka & Hreg) H. cbv zeta. unfold open_tx in H. cbv zeta in H.
    set (st0 := mkTx (t_acc st) (t_reg st) [] None (t_orders st)) in *.
    assert (T0 : tinv pk_keyid st0).
    { constructor; simpl; auto. split; [constructor | discriminate]. discriminate. }
    assert (N0 : nokey st0) by (split; auto).
    destruct (get_account pk_keyid st0 u) as [[k1|] st1] eqn:G1; [|discriminate].
    destruct (account_tmv pk_keyid _ _ _ _ T0 N0 G1) as (M1 & Mm & D1 & K1). cbn [st0 t_reg] in D1.
    assert (k1 = k0) by congruence. subst k1.
    set (st2 := mkTx (t_acc st1) (t_reg st1) (t_mem st1) (Some k0) (t_orders st1)) in *.
    assert (M2 : tmv st0 st2 zero3 zeroS).
    { destruct M1 as [[A1 A2 A3 A4 A5] B C D E F I J K]. constructor; auto. constructor; auto. }
    assert (Rg : exists a1, fget N.eqb (t_mem st2) k0 = Some a1 /\ regid_empty (a_regid a1) = false).
    { pose proof (tm_ids _ _ _ _ _ M2 k0) as X. rewrite (commit_get _ _ _ (tm_inv _ _ _ _ _ M2)) in X.
      change (commit st0) with (t_acc st) in X. rewrite Hka in X. unfold l_get at 1 in X. cbn [st2 t_mem] in X |- *.
      destruct (fget N.eqb (t_mem st1) k0) as [a1|] eqn:E; [|exfalso; apply Mm; exact E].
      exists a1. split; auto. cbn in X. inversion X. congruence. }
    destruct Rg as (a1 & Ea1 & Ra1). rewrite Ea1, Ra1 in H. cbn [negb] in H.
    replace (match u with UPub _ => st2 | _ => st2 end) with st2 in H by (destruct u; reflexivity).
    change (match u with UPub _ => st2 | _ => st2 end) with st2 in H || idtac.
    destruct (0 <? fee) eqn:Ef.
    - destruct (m_operate st2 k0 fs SubFree fee None) as [[|] st3] eqn:Hm; [|discriminate].
      inversion H; subst k st4. split; auto. split; auto. split; auto.
      assert (Mk : l_get (t_mem st2) k0 <> None) by exact Mm.
      pose proof (operate_tmv pk_keyid st2 k0 fs SubFree fee None st3 (tm_inv _ _ _ _ _ M2) (tm_zero _ _ _ _ _ M2) Mk
        ltac:(discriminate) Hm) as M3.
      cbn [mint_of burn_of q_op q_other q_symbol q_amount debited credited] in M3.
      assert (Hb : supply (commit st2) fs + 0 < two64).
      { pose proof (tm_sup _ _ _ _ _ M2 fs) as X. change (commit st0) with (t_acc st) in X. unfold zeroS in X.
        specialize (Hs fs). lia. }
      specialize (M3 Hb). eapply tmv_trans; [exact M2|exact M3|reflexivity|].
      intros s. unfold zeroS, fee_in. destruct (String.eqb fs s); lia.
    - inversion H; subst k st4. assert (fee = 0) by lia. subst fee. split; auto. split; auto. split; auto.
      eapply tmv_trans; [exact M2|apply tmv_refl; apply M2| |].
      + intros. unfold chg, zero3. cbn [at_place]. destruct (_ && _); reflexivity.
      + intros s. unfold zeroS, fee_in. destruct (String.eqb fs s); reflexivity.
  Qed.

  Lemma close_get st k : tinv pk_keyid st -> nokey st -> l_get (t_acc (close_tx st)) k = l_get (commit st) k.
  Proof.
    intros T [Hz Hm]. unfold close_tx. set (m := filter _ (t_mem st)).
    destruct (save_all (t_acc st) (t_reg st) m) as [acc reg] eqn:Sv. cbn [t_acc].
    assert (Nm : NoDup (map fst m)) by (apply filter_nodup, (ti_mem _ _ T)).
    assert (Hin : forall k a, In (k, a) m -> a_keyid a = k).
    { intros k0 a0 H0. apply filter_In in H0 as [H0 _]. apply (in_fget N.eqb N_eqb_ok) in H0; [|apply T].
      apply (ti_mem _ st T); auto. }
    assert (Ha : acc = fold_left (fun L (ka : N * account) => l_put L (fst ka) (snd ka)) m (t_acc st))
      by (eapply save_all_ok; [|exact Sv]; intros; apply Hin; auto).
    subst acc. rewrite fold_put_get by auto. unfold m. rewrite (filter_get pk_keyid (fun _ => []) (fun _ => 0)). rewrite (commit_get _ _ _ T).
    destruct (k =? 0) eqn:E; [|reflexivity]. apply N.eqb_eq in E; subst. now rewrite Hm.
  Qed.

  Lemma signers_signed w u payer : forall sigs seen st l n,
    tinv pk_keyid st -> nokey st -> t_acc st = t_acc (wd_tx w) -> t_reg st = t_reg (wd_tx w) ->
    (forall k, option_map a_pubkey (l_get (commit st) k) = option_map a_pubkey (l_get (t_acc (wd_tx w)) k)) ->
    (forall x, In x sigs -> In x (u_sigs u)) ->
    signers pk_keyid extra_sig payer seen sigs st = Done l -> In n l ->
    n = num_of payer \/ cosigned extra_sig w u n.
  Proof.
    induction sigs as [|[m s] sigs IH]; intros seen st l n T K Ea Er Ep Hs H Hi; cbn [signers] in H.
    - inversion H; subst. destruct Hi as [<-|[]]. auto.
    - apply guard_inv in H as [_ H]. apply guard_inv in H as [_ H]. apply guard_inv in H as [_ H].
      destruct (get_account pk_keyid st (UReg (reg_of m))) as [[k|] st1] eqn:G; [|discriminate].
      destruct (account_tmv pk_keyid _ _ _ _ T K G) as (M & Mm & Dn & _). cbn [denotes] in Dn.
      destruct (get_account_some pk_keyid _ _ _ _ T G) as (_ & [Lq _] & _).
      destruct (fget N.eqb (t_mem st1) k) as [a|] eqn:Fa; [|discriminate].
      destruct (a_pubkey a) as [p|] eqn:Pa; [|discriminate].
      apply guard_inv in H as [Hsig H]. apply bind_inv in H as (l' & H' & H). inversion H; subst l; clear H.
      assert (Ep1 : forall k0, option_map a_pubkey (l_get (commit st1) k0) = option_map a_pubkey (l_get (t_acc (wd_tx w)) k0)).
      { intros k0. rewrite Lq. apply Ep. }
      destruct Hi as [<-|Hi].
      + right. specialize (Ep1 k). rewrite (commit_get _ _ _ (tm_inv _ _ _ _ _ M)) in Ep1. unfold l_get at 1 in Ep1.
        rewrite Fa in Ep1. cbn in Ep1. rewrite Pa in Ep1.
        destruct (l_get (t_acc (wd_tx w)) k) as [a0|] eqn:E0; [|discriminate]. cbn in Ep1. inversion Ep1 as [Ep2].
        exists s, k, a0, p. rewrite <- Er. split; [apply Hs; left; reflexivity|auto].
      + eapply (IH (m :: seen) st1 l'); eauto.
        * apply M.
        * apply M.
        * rewrite (tm_acc _ _ _ _ _ M). auto.
        * rewrite (tm_reg _ _ _ _ _ M). auto.
        * intros x X. apply Hs. right. exact X.
  Qed.

  (** A checked transaction of a registered payer: who may authorize. *)
  Lemma check_signed e u w l kp rp :
    settled pk_keyid e w -> payer pk_keyid w u kp rp ->
    check_utx pk_keyid payer_sig extra_sig u w = Done l ->
    (forall n, In n l -> signed pk_keyid extra_sig w u n) /\
    (forall t, In t (u_inl u) -> forall p, In p (g_auth t) -> In (pm_acc p) l).
  Proof.
    intros (_ & St & _) (Hd & a & Ha & Er & Hr) H. unfold check_utx in H. cbv zeta in H. apply guard_inv in H as [_ H].
    set (st0 := mkTx (t_acc (wd_tx w)) (t_reg (wd_tx w)) [] None (t_orders (wd_tx w))) in *.
    destruct (st_accounts _ _ _ St) as [W G].
    assert (T0 : tinv pk_keyid st0).
    { constructor; simpl; auto; try (split; [constructor | discriminate]); try discriminate. apply St. }
    assert (N0 : nokey st0) by (split; [apply St|reflexivity]).
    destruct (get_account pk_keyid st0 (u_uid u)) as [[k1|] st1] eqn:G1; [|discriminate].
    destruct (account_tmv pk_keyid _ _ _ _ T0 N0 G1) as (M1 & Mm & D1 & K1). cbn [st0 t_reg] in D1.
    destruct (get_account_some pk_keyid _ _ _ _ T0 G1) as (_ & [Lq _] & _).
    assert (k1 = kp) by congruence. subst k1.
    set (st2 := mkTx (t_acc st1) (t_reg st1) (t_mem st1) (Some kp) (t_orders st1)) in *.
    assert (M2 : tmv st0 st2 zero3 zeroS).
    { destruct M1 as [[A1 A2 A3 A4 A5] B C D E F I J K]. constructor; auto. constructor; auto. }
    assert (Rg : match fget N.eqb (t_mem st2) kp with Some a => a_regid a | None => (0, 0) end = rp).
    { pose proof (tm_ids _ _ _ _ _ M2 kp) as X. rewrite (commit_get _ _ _ (tm_inv _ _ _ _ _ M2)) in X.
      change (commit st0) with (t_acc (wd_tx w)) in X. rewrite Ha in X. unfold l_get at 1 in X. cbn [st2 t_mem] in X |- *.
      destruct (fget N.eqb (t_mem st1) kp) as [a1|] eqn:E; [|exfalso; apply Mm; exact E].
      cbn in X. inversion X. congruence. }
    rewrite Rg in H. apply guard_inv in H as [_ H]. apply guard_inv in H as [_ H]. apply guard_inv in H as [_ H].
    apply bind_inv in H as (l' & Hs & H). apply guard_inv in H as [Hau H]. inversion H; subst l'; clear H. split.
    - intros n Hn. destruct (signers_signed w u rp (u_sigs u) [] st2 l n) as [E|E]; auto.
      + apply M2.
      + apply M2.
      + rewrite (tm_acc _ _ _ _ _ M2). reflexivity.
      + rewrite (tm_reg _ _ _ _ _ M2). reflexivity.
      + intros k. change (commit st2) with (commit st1). rewrite Lq. reflexivity.
      + left. exists kp, rp. split; auto. split; auto. exists a. auto.
      + right. exact E.
    - intros t Ht p Hp. rewrite forallb_forall in Hau. specialize (Hau t Ht). unfold authorized in Hau.
      rewrite forallb_forall in Hau. specialize (Hau p Hp). apply existsb_exists in Hau as (x & Hx & E).
      apply N.eqb_eq in E. congruence.
  Qed.

  (** The run of a transaction that was applied. [w0] is the state after opening, [w1] after the
      last inline transaction. *)
  Record ran_as (e : wenv) (u : utx) (w w' : world) (k : N) (w0 w1 : world) : Prop := {
    ra_payer : denotes pk_keyid (t_reg (wd_tx w)) (u_uid u) = Some k;
    ra_zero : wd_runs w0 = [] /\ wd_ticks w0 = 0 /\ wd_fuel w0 = u_size u * 10 /\ wd_assets w0 = wd_assets w /\
              wd_codes w0 = wd_codes w /\ wd_data w0 = wd_data w /\ wd_reward w0 = wd_reward w;
    ra_reg0 : t_reg (wd_tx w0) = t_reg (wd_tx w);
    ra_bal0 : forall k' s b, Z.of_N (lbal (commit (wd_tx w0)) k' s b) =
       (Z.of_N (lbal (t_acc (wd_tx w)) k' s b)
        - Z.of_N (at_place (Some (k, BFree)) (u_fee_symbol u) (u_fee u) k' s b))%Z;
    ra_sup0 : forall s, supply (commit (wd_tx w0)) s + fee_in (u_fee_symbol u) (u_fee u) s = supply (t_acc (wd_tx w)) s;
    ra_winv0 : winv pk_keyid e w0;
    ra_steps : steps pk_keyid e (u_inl u) w0 w1;
    ra_exec : execute_all pk_keyid e (u_inl u) w0 = Done w1;
    ra_winv1 : winv pk_keyid e w1;
    ra_end : wd_runs w' = wd_runs w1 /\ wd_assets w' = wd_assets w1 /\ wd_codes w' = wd_codes w1 /\
             wd_data w' = wd_data w1 /\ wd_reward w' = wd_reward w1;
    ra_fuel : wd_fuel w' = wd_fuel w1 + N.of_nat (List.length (wd_runs w')) * 10000;
    ra_fee : fee_covers u (wd_fuel w') = true;
    ra_reg : forall r, fget regid_eqb (t_reg (wd_tx w')) r = fget regid_eqb (t_reg (wd_tx w1)) r;
    ra_get : forall k', l_get (t_acc (wd_tx w')) k' = l_get (commit (wd_tx w1)) k';
    ra_sup : forall s, supply (t_acc (wd_tx w')) s = supply (commit (wd_tx w1)) s;
    ra_cons : consistent pk_keyid (t_acc (wd_tx w')) (t_reg (wd_tx w'));
    ra_orders : NoDup (map fst (t_orders (wd_tx w'))) }.

  Lemma full_run e u w w' kp rp :
    settled pk_keyid e w -> payer pk_keyid w u kp rp ->
    full_utx pk_keyid e u w = Done w' -> exists w0 w1, ran_as e u w w' kp w0 w1.
  Proof.
    intros (E & St & Vp & Va) (Hd & a & Ha & Er & Hr) H. unfold full_utx in H.
    apply need_inv in H as ((k & st) & Ho & H). apply bind_inv in H as (w2 & Hx & H). inversion H; subst w'; clear H.
    assert (Hcap : forall s, supply (t_acc (wd_tx w)) s + pending w s < 9223372036854775808).
    { intros s. pose proof (st_supply _ _ _ St s) as X. unfold cap in X.
      destruct (fget String.eqb (wd_assets w) s) as [x|] eqn:F; [|destruct (uia_ok _ _) in X; lia].
      destruct (owned x) eqn:O; [|lia]. pose proof (st_total _ _ _ St s x F O). lia. }
    destruct (open_known _ _ _ _ _ _ _ _ (st_accounts _ _ _ St) (st_orders _ _ _ St) (st_zero _ _ _ St)
      ltac:(intros s; specialize (Hcap s); unfold two64; lia)
      ltac:(exists kp, a; split; [exact Hd|split; [exact Ha|congruence]]) Ho) as (T0 & N0 & M & Dk).
    set (st0 := mkTx (t_acc (wd_tx w)) (t_reg (wd_tx w)) [] None (t_orders (wd_tx w))) in *.
    assert (k = kp) by congruence. subst k.
    unfold run_utx in Hx. cbn [with_tx wd_tx wd_assets wd_codes wd_data wd_rank wd_vote_height wd_reward] in Hx.
    set (w0 := mkWorld st (wd_assets w) (wd_codes w) (wd_data w) (wd_rank w) (wd_vote_height w) (wd_reward w)
                 (u_size u * 10) [] 0) in *.
    apply bind_inv in Hx as (w1 & Hall & Hx). apply guard_inv in Hx as [_ Hx]. apply guard_inv in Hx as [Hfee Hx].
    inversion Hx; subst w2; clear Hx.
    assert (Rg : t_reg st = t_reg (wd_tx w)) by (rewrite (tm_reg _ _ _ _ _ M); reflexivity).
    assert (Sup : forall s, supply (commit st) s + fee_in (u_fee_symbol u) (u_fee u) s = supply (t_acc (wd_tx w)) s).
    { intros s. pose proof (tm_sup _ _ _ _ _ M s) as X. change (commit st0) with (t_acc (wd_tx w)) in X. lia. }
    assert (Ids : forall k, option_map a_regid (l_get (commit st) k) = option_map a_regid (l_get (t_acc (wd_tx w)) k)).
    { intros k. rewrite (tm_ids _ _ _ _ _ M k). reflexivity. }
    assert (I0 : winv pk_keyid e w0).
    { constructor; cbn [w0 wd_tx wd_assets wd_codes].
      - apply M.
      - apply M.
      - intros n Hn. rewrite Rg. apply (st_modules _ _ _ St n Hn).
      - intros r k X. rewrite Rg in X. destruct (st_table _ _ _ St r k X) as (x & Hx & Ex).
        pose proof (Ids k) as Y. rewrite Hx in Y. destruct (l_get (commit st) k) as [y|]; [|discriminate].
        exists y. split; auto. cbn in Y. inversion Y. congruence.
      - right. split; [rewrite Rg; exact Vp|]. pose proof (Ids (ev_address e (ev_height e, ev_index e))) as Y.
        rewrite Va in Y. destruct (l_get (commit st) _); [discriminate|reflexivity].
      - apply St.
      - apply St.
      - intros s. pose proof (st_supply _ _ _ St s) as X. specialize (Sup s).
        change (pending w0 s) with (pending w s). change (cap e w0 s) with (cap e w s). lia. }
    assert (Stp : steps pk_keyid e (u_inl u) w0 w1) by (eapply execute_all_steps; eauto; apply incl_refl).
    assert (I1 : winv pk_keyid e w1) by (eapply steps_winv; eauto).
    set (w2 := burn_fuel w1 (N.of_nat (List.length (wd_runs w1)) * 10000)) in *.
    change (wd_tx w2) with (wd_tx w1).
    assert (Z1 : l_get (t_acc (wd_tx w1)) 0 = None) by (apply (wi_zero _ _ _ I1)).
    destruct (close_tx_ok pk_keyid (fun _ => []) (fun _ => 0) (wd_tx w1) (wi_t _ _ _ I1) Z1) as (C1 & C2 & C3 & C4 & C5 & C6 & C7).
    exists w0, w1. constructor; cbn [with_tx wd_tx wd_assets wd_codes wd_data wd_reward wd_runs wd_fuel]; auto.
    - repeat split; reflexivity.
    - intros k' s b. pose proof (tm_bal _ _ _ _ _ M k' s b) as X. change (commit st0) with (t_acc (wd_tx w)) in X.
      unfold chg in X. cbn [w0 wd_tx]. rewrite X. replace (at_place None (u_fee_symbol u) (u_fee u) k' s b) with 0 by reflexivity. lia.
    - intros k'. apply close_get; [apply I1|apply I1].
    - apply C7, I1.
    - rewrite C2. apply (ti_orders _ _ (wi_t _ _ _ I1)).
  Qed.

  Lemma apply_run e u w w' kp rp :
    settled pk_keyid e w -> payer pk_keyid w u kp rp ->
    apply_utx pk_keyid payer_sig extra_sig e u w = Done w' ->
    exists w0 w1, ran_as e u w w' kp w0 w1 /\
      forall m n, auth_in (u_inl u) w1 m n -> authority pk_keyid extra_sig w u w' m n.
  Proof.
    intros St P H. unfold apply_utx in H. apply bind_inv in H as (l & Hc & H).
    destruct (check_signed _ _ _ _ _ _ St P Hc) as [C1 C2].
    destruct (full_run _ _ _ _ _ _ St P H) as (w0 & w1 & R). exists w0, w1. split; auto.
    intros m n [(t & Ht & Hg & Ha)|Hr].
    - left. unfold has_auth in Ha. apply existsb_exists in Ha as (p & Hp & En). apply N.eqb_eq in En. split.
      + apply C1. rewrite <- En. eapply C2; eauto.
      + exists t, p. auto.
    - right. destruct (ra_end _ _ _ _ _ _ _ R) as (E1 & _ & E3 & _). split; [rewrite E1; exact Hr|].
      rewrite E3. eapply (steps_coded _ _ _ _ _ (ra_steps _ _ _ _ _ _ _ R)); [|exact Hr].
      destruct (ra_zero _ _ _ _ _ _ _ R) as (E0 & _). rewrite E0. intros ? [].
  Qed.

  Lemma apply_sane e u w w' kp rp :
    settled pk_keyid e w -> payer pk_keyid w u kp rp ->
    apply_utx pk_keyid payer_sig extra_sig e u w = Done w' -> sane pk_keyid e w'.
  Proof.
    intros St P H. destruct (apply_run _ _ _ _ _ _ St P H) as (w0 & w1 & [R1 R2 R3 R4 R5 R6 R7 Rx R8 R9 R10 R11 R12 R13 R14 R15 R16] & _).
    destruct R9 as (E1 & E2 & E3 & E4 & E5). constructor; auto.
    - rewrite R13. destruct (wi_zero _ _ _ R8) as [A B]. rewrite (commit_get _ _ _ (wi_t _ _ _ R8)), B. exact A.
    - intros r k X. rewrite R12 in X. rewrite R13. apply (wi_table _ _ _ R8 r k X).
    - intros n Hn. rewrite R12. apply (wi_native _ _ _ R8 n Hn).
    - rewrite E2. apply R8.
    - rewrite E2. apply R8.
    - intros s. rewrite R14. unfold cap, pending. rewrite E2, E5. apply (wi_supply _ _ _ R8 s).
  Qed.

  (** ** One transfer *)

  (** Notifying accounts without code changes nothing. *)
  Lemma notified_quiet e fuel : forall i c w c' w',
    (forall n, In n (skipn i (c_notified c)) -> is_native n = false /\ code_of w n = []) ->
    notified_from pk_keyid e fuel i c w = Done (c', w') ->
    wd_tx w' = wd_tx w /\ c_inlines c' = c_inlines c.
  Proof.
    induction fuel as [|fuel IH]; intros i c w c' w' Q H; cbn [notified_from] in H; [inversion H; subst; auto|].
    destruct (nth_error (c_notified c) i) as [n|] eqn:En; [|inversion H; subst; auto].
    assert (Sk : skipn i (c_notified c) = n :: skipn (S i) (c_notified c)).
    { clear - En. revert i En. induction (c_notified c) as [|x l IHl]; intros [|i] En; cbn in *; try discriminate.
      - inversion En; reflexivity.
      - apply IHl, En. }
    destruct (Q n) as [Nn Cn]; [rewrite Sk; left; reflexivity|].
    apply bind_inv in H as ((c1 & w1) & H1 & H). unfold execute_one in H1. cbv zeta in H1. cbn [c_recv] in H1.
    rewrite Nn, Cn in H1. inversion H1; subst c1 w1; clear H1.
    apply IH in H; [|cbn [c_notified]; intros m Hm; apply Q; rewrite Sk; right; exact Hm]. exact H.
  Qed.

  Lemma transfer_exact e u w w' kp rp t from to amount raw d1 d2 d3 d4 :
    settled pk_keyid e w -> payer pk_keyid w u kp rp ->
    apply_utx pk_keyid payer_sig extra_sig e u w = Done w' ->
    u_inl u = [t] -> g_contract t = wasmio_bank -> g_action t = n_transfer ->
    read_u64 (g_data t) = Done (from, d1) -> read_u64 d1 = Done (to, d2) ->
    read_u64 d2 = Done (amount, d3) -> read_u64 d3 = Done (raw, d4) ->
    code_of w from = [] -> code_of w to = [] ->
    exists kf kt, fget regid_eqb (t_reg (wd_tx w)) (reg_of from) = Some kf /\
      fget regid_eqb (t_reg (wd_tx w)) (reg_of to) = Some kt /\
      forall k s b, Z.of_N (lbal (t_acc (wd_tx w')) k s b) =
        (Z.of_N (lbal (t_acc (wd_tx w)) k s b)
         - Z.of_N (at_place (Some (kp, BFree)) (u_fee_symbol u) (u_fee u) k s b)
         - Z.of_N (at_place (Some (kf, BFree)) (code_text (sym_code raw)) amount k s b)
         + Z.of_N (at_place (Some (kt, BFree)) (code_text (sym_code raw)) amount k s b))%Z.
  Proof.
    intros St P H Eu Eg Ea E1 E2 E3 E4 Cf Ct.
    destruct (apply_run _ _ _ _ _ _ St P H) as (w0 & w1 & R & _).
    pose proof (ra_exec _ _ _ _ _ _ _ R) as X. rewrite Eu in X. cbn [execute_all] in X.
    apply bind_inv in X as (w2 & X & Y). inversion Y; subst w2; clear Y. cbn [execute] in X.
    apply guard_inv in X as [_ X]. apply bind_inv in X as ((c1 & w2) & X1 & X).
    apply bind_inv in X as ((c2 & w3) & X2 & X).
    unfold execute_one in X1. cbv zeta in X1. cbn [c_recv] in X1. rewrite Eg in X1.
    change (is_native wasmio_bank) with true in X1. cbv iota in X1. unfold native in X1.
    change (wasmio_bank =? wasmio) with false in X1. change (wasmio_bank =? wasmio_bank) with true in X1. cbv iota in X1.
    unfold bank in X1. cbv zeta in X1. cbn [c_trx] in X1. rewrite Ea in X1.
    change (n_transfer =? n_issue) with false in X1. change (n_transfer =? n_mint) with false in X1.
    change (n_transfer =? n_burn) with false in X1. change (n_transfer =? n_update) with false in X1.
    change (n_transfer =? n_transfer) with true in X1. cbv iota in X1.
    assert (I0 : winv pk_keyid e (ran (tick w0) wasmio_bank true)) by (destruct (ra_winv0 _ _ _ _ _ _ _ R); constructor; auto).
    destruct (transfer_moves _ _ _ _ _ _ I0 X1) as (f & t' & am & rw & a1 & a2 & a3 & a4 & kf & kt & st &
      B1 & B2 & B3 & B4 & Ew & _ & Df & Dt & M & C1 & C2 & C3 & C4 & C5).
    cbn [c_trx] in B1. rewrite E1 in B1. inversion B1; subst f a1. rewrite E2 in B2. inversion B2; subst t' a2.
    rewrite E3 in B3. inversion B3; subst am a3. rewrite E4 in B4. inversion B4; subst rw a4. clear B1 B2 B3 B4.
    destruct (ra_zero _ _ _ _ _ _ _ R) as (_ & _ & _ & _ & Ec & _).
    cbn [ran tick wd_tx] in Df, Dt, M. pose proof (ra_reg0 _ _ _ _ _ _ _ R) as Rg. rewrite Rg in Df, Dt.
    destruct St as (_ & Sn & _).
    assert (Nn : forall n k, fget regid_eqb (t_reg (wd_tx w)) (reg_of n) = Some k -> is_native n = false).
    { intros n k A. destruct (is_native n) eqn:En; auto. rewrite (st_modules _ _ _ Sn n En) in A. discriminate. }
    cbn [c_notified] in C4, C5.
    destruct (notified_quiet e 15 1 c1 w2 c2 w3) as [Q1 Q2]; [|exact X2|].
    { intros n Hn. destruct C5 as (l & C5 & C6). rewrite C5 in Hn. cbn [app skipn] in Hn.
      assert (Cd : forall m, code_of w2 m = code_of w m).
      { intros m. subst w2. unfold code_of. cbn [with_tx charge burn_fuel ran tick wd_codes]. rewrite Ec. reflexivity. }
      rewrite Cd. destruct (C6 n Hn) as [-> | ->]; eauto. }
    rewrite C3 in Q2. cbn [c_inlines] in Q2. rewrite Q2 in X. inversion X; subst w1. clear X.
    exists kf, kt. split; auto. split; auto. intros k s b. unfold lbal at 1. rewrite (ra_get _ _ _ _ _ _ _ R).
    fold (lbal (commit (wd_tx w3)) k s b). rewrite Q1, Ew. cbn [with_tx wd_tx].
    rewrite (tm_bal _ _ _ _ _ M k s b), (ra_bal0 _ _ _ _ _ _ _ R k s b). unfold chg. lia.
  Qed.
End Transaction.

(** ** What contracts are told about authority *)
Section Genuine.
  Variable pk_keyid : N -> N.
  Variable e : wenv.
  Variable tops : list itx.
  Variable r : N.
  Variable P : N -> Prop.
  Notation winv := (winv pk_keyid e).

  Definition genuine (w : world) (n : N) : Prop :=
    (exists t p, In t tops /\ In p (g_auth t) /\ pm_acc p = n) \/ In (n, true) (wd_runs w).
  Definition gtrx (w : world) (t : itx) : Prop := forall p, In p (g_auth t) -> genuine w (pm_acc p).
  Definition gctx (c : ctx) (w : world) : Prop :=
    gtrx w (c_trx c) /\ forall t, In t (c_inlines c) -> gtrx w t.
  Definition guarded (w : world) : Prop := In (r, true) (wd_runs w) -> exists a, P a /\ genuine w a.

  Hypothesis Hr : is_native r = false.
  Hypothesis Hp : forall code t w, code <> [] -> exists a, P a /\ In (HRequire a) (ev_prog e code t r w).

  Lemma genuine_mono w w' n : incl (wd_runs w) (wd_runs w') -> genuine w n -> genuine w' n.
  Proof. intros I [A|A]; [left; exact A|right; auto]. Qed.
  Lemma gctx_mono c w w' : incl (wd_runs w) (wd_runs w') -> gctx c w -> gctx c w'.
  Proof. intros I [A B]. split; [|intros t Ht]; intros p X; (eapply genuine_mono; [exact I|]); [apply A, X|apply (B t Ht), X]. Qed.

  Lemma host_genuine c w h c' w' :
    In (c_recv c, true) (wd_runs w) -> gctx c w -> host c w h = Done (c', w') ->
    gctx c' w' /\ wd_runs w' = wd_runs w /\ c_recv c' = c_recv c /\ (forall a, h = HRequire a -> genuine w a).
  Proof.
    intros Hin [G1 G2]. unfold host. cbv zeta. destruct h as [n|t|k v|k|n|]; intros H.
    - apply guard_inv in H as [_ H]. apply bind_inv in H as (c1 & N1 & H). inversion H; subst; clear H.
      destruct (notify_inv _ _ _ N1) as (A1 & A2 & A3 & _). repeat split; auto; try discriminate.
      + rewrite A1. exact G1.
      + rewrite A3. exact G2.
    - apply bind_inv in H as (c1 & S1 & H). inversion H; subst; clear H.
      destruct (send_inv _ _ _ S1) as (A1 & A2 & A3 & A4 & A5). repeat split; auto; try discriminate.
      + rewrite A1. exact G1.
      + rewrite A4. intros t' X. apply in_app_iff in X as [X|[X|[]]]; auto. subst t'. intros p Hq.
        rewrite forallb_forall in A5. specialize (A5 p Hq). unfold allowed in A5. cbv zeta in A5.
        destruct (pm_acc p =? c_recv c) eqn:Eq.
        * apply N.eqb_eq in Eq. rewrite Eq. right. exact Hin.
        * cbn [andb negb orb] in A5. destruct ((g_contract t =? wasmio_bank) && true); [discriminate|].
          destruct (g_contract t =? c_recv c); [|discriminate].
          apply existsb_exists in A5 as (q & Hq1 & Hq2). unfold perm_eqb in Hq2. apply andb_true_iff in Hq2 as [Hq2 _].
          apply N.eqb_eq in Hq2. rewrite Hq2. apply G1, Hq1.
    - apply guard_inv in H as [_ H]. inversion H; subst; clear H. repeat split; auto; discriminate.
    - apply guard_inv in H as [_ H]. inversion H; subst; clear H. repeat split; auto; discriminate.
    - apply guard_inv in H as [A H]. inversion H; subst; clear H. repeat split; auto.
      intros a X. inversion X; subst. unfold has_auth in A. apply existsb_exists in A as (p & Hq & Hn).
      apply N.eqb_eq in Hn. subst a. apply G1, Hq.
    - discriminate.
  Qed.

  Lemma hosts_genuine hs : forall c w c' w',
    In (c_recv c, true) (wd_runs w) -> gctx c w -> hosts c w hs = Done (c', w') ->
    gctx c' w' /\ wd_runs w' = wd_runs w /\ (forall a, In (HRequire a) hs -> genuine w a).
  Proof.
    induction hs as [|h hs IH]; intros c w c' w' Hin G H; cbn [hosts] in H.
    - inversion H; subst. split; [exact G|]. split; [reflexivity|]. intros a [].
    - apply bind_inv in H as ((c1 & w1) & H1 & H).
      destruct (host_genuine _ _ _ _ _ Hin G H1) as (G1 & E1 & E2 & R1).
      destruct (IH c1 w1 c' w') as (G2 & E3 & R2); auto; [rewrite E1, E2; auto|].
      split; auto. split; [congruence|]. intros a [X|X]; auto.
      specialize (R2 a X). unfold genuine in *. rewrite E1 in R2. exact R2.
  Qed.

  Lemma one_genuine c w c' w' :
    env_ok e -> winv w -> gctx c w -> guarded w -> execute_one pk_keyid e c w = Done (c', w') ->
    gctx c' w' /\ guarded w'.
  Proof.
    intros E I G Q. unfold execute_one. cbv zeta. set (n := c_recv c) in *.
    assert (Inc : forall b, incl (wd_runs w) (wd_runs (ran w n b))) by (intros b x X; cbn; auto).
    destruct (is_native n) eqn:En; [|destruct (code_of w n) as [|b code] eqn:Ec]; intros H.
    - assert (I1 : winv (ran w n true)) by (destruct I; constructor; auto).
      pose proof (native_heff pk_keyid e n c _ _ _ E I1 eq_refl En H) as Hh.
      pose proof (he_runs _ _ _ _ _ _ Hh) as Er.
      assert (Inc' : incl (wd_runs w) (wd_runs w')) by (rewrite Er; apply Inc).
      destruct G as [G1 G2]. split; [split|].
      + rewrite (he_trx _ _ _ _ _ _ Hh). intros p X. eapply genuine_mono; [exact Inc'|apply G1, X].
      + intros t X p Hq. apply (he_inlines _ _ _ _ _ _ Hh) in X as [X|X].
        * eapply genuine_mono; [exact Inc'|apply (G2 t X), Hq].
        * right. rewrite (X p Hq), Er. left. reflexivity.
      + intros X. rewrite Er in X. destruct X as [X|X]; [inversion X; congruence|].
        destruct (Q X) as (a & A & B). exists a. split; auto. eapply genuine_mono; eauto.
    - inversion H; subst c' w'; clear H. split; [eapply gctx_mono; eauto|].
      intros [X|X]; [discriminate|]. destruct (Q X) as (a & A & B). exists a. split; auto. eapply genuine_mono; eauto.
    - destruct (hosts_genuine _ _ _ _ _ (ran_in w n true) (gctx_mono _ _ _ (Inc true) G) H) as (G2 & E2 & R2).
      split; auto. intros X. rewrite E2 in X. destruct X as [X|X].
      + assert (Er : n = r) by congruence. rewrite Er in R2.
        destruct (Hp (b :: code) (c_trx c) (ran w r true)) as (a & A & B); [discriminate|].
        exists a. split; auto. specialize (R2 a B). unfold genuine in *. rewrite E2, Er. exact R2.
      + destruct (Q X) as (a & A & B). exists a. split; auto. eapply genuine_mono; [|exact B]. rewrite E2. apply Inc.
  Qed.

  Lemma notified_genuine fuel : forall i c w c' w',
    env_ok e -> winv w -> cinv c w -> (is_native (g_contract (c_trx c)) = true -> In (c_trx c) tops \/ own_auth w (c_trx c)) ->
    gctx c w -> guarded w -> notified_from pk_keyid e fuel i c w = Done (c', w') -> gctx c' w' /\ guarded w'.
  Proof.
    induction fuel as [|fuel IH]; intros i c w c' w' E I C Hn G Q H; cbn [notified_from] in H.
    - inversion H; subst. auto.
    - destruct (nth_error (c_notified c) i) as [n|] eqn:En; [|inversion H; subst; auto].
      apply bind_inv in H as ((c1 & w1) & H1 & H).
      destruct (one_genuine _ _ _ _ E I (G : gctx (mkCtx (c_trx c) n (c_notified c) (c_inlines c)) w) Q H1) as (G1 & Q1).
      edestruct one_steps with (tops := tops) as (S1 & C1 & E1); [exact E|exact I| | |exact H1| ]; cbn [c_recv c_trx] in *.
      + exact C.
      + cbn [c_recv c_trx]. intros X. destruct C as [C0 _]. apply nth_error_In in En.
        destruct (C0 n En) as [Y|Y]; [|congruence]. split; auto. apply Hn. congruence.
      + apply (IH (S i) c1 w1 c' w'); auto.
        * eapply steps_winv; eauto.
        * rewrite E1. intros X. destruct (Hn X) as [Y|Y]; auto. right. eapply own_mono; [apply (steps_runs _ _ _ _ _ S1)|exact Y].
  Qed.

  Lemma execute_genuine left : forall t w w',
    env_ok e -> winv w -> (is_native (g_contract t) = true -> In t tops \/ own_auth w t) ->
    gtrx w t -> guarded w -> execute pk_keyid e left t w = Done w' -> guarded w'.
  Proof.
    induction left as [|left IH]; intros t w w' E I Hn G Q H; cbn [execute] in H;
      apply guard_inv in H as [_ H]; apply bind_inv in H as ((c1 & w1) & H1 & H);
      apply bind_inv in H as ((c2 & w2) & H2 & H); [discriminate|].
    assert (S0 : step pk_keyid e tops w (tick w)) by apply S_tick.
    pose proof (step_winv _ _ _ _ _ I S0) as I0.
    assert (G0 : gctx (mkCtx t (g_contract t) [g_contract t] []) (tick w)) by (split; [exact G|intros ? []]).
    destruct (one_genuine _ _ _ _ E I0 G0 Q H1) as (G1 & Q1).
    edestruct one_steps with (tops := tops) as (S1 & C1 & E1); [exact E|exact I0| | |exact H1| ].
    { split; cbn; [intros n [X|[]]; auto|intros ? []]. }
    { cbn [c_recv c_trx]. auto. }
    pose proof (steps_winv _ _ _ _ _ I0 S1) as I1. cbn [c_trx] in E1.
    assert (R1 : incl (wd_runs w) (wd_runs w1)) by exact (steps_runs _ _ _ _ _ S1).
    assert (Hn1 : is_native (g_contract (c_trx c1)) = true -> In (c_trx c1) tops \/ own_auth w1 (c_trx c1)).
    { rewrite E1. intros X. destruct (Hn X) as [Y|Y]; auto. right. eapply own_mono; eauto. }
    destruct (notified_genuine _ _ _ _ _ _ E I1 C1 Hn1 G1 Q1 H2) as (G2 & Q2).
    edestruct notified_steps as (S2 & C2 & E2); [exact E|exact I1|exact C1|exact Hn1|exact H2| ].
    pose proof (steps_winv _ _ _ _ _ I1 S2) as I2.
    destruct C2 as [_ C2]. destruct G2 as [_ G2]. clear - IH H E I2 C2 G2 Q2.
    revert w2 w' H I2 C2 G2 Q2. induction (c_inlines c2) as [|t ts IHt]; intros w2 w' H I2 C2 G2 Q2.
    - inversion H; subst. exact Q2.
    - apply bind_inv in H as (w3 & H3 & H).
      assert (Hn : is_native (g_contract t) = true -> In t tops \/ own_auth w2 t)
        by (intros X; right; apply C2; [left; reflexivity|exact X]).
      assert (S3 : steps pk_keyid e tops w2 w3) by (eapply execute_steps; [exact E|exact I2|exact Hn|exact H3]).
      pose proof (steps_runs _ _ _ _ _ S3) as R3.
      apply (IHt w3 w'); auto.
      + eapply steps_winv; eauto.
      + intros t' X Y. eapply own_mono; [exact R3|]. apply C2; [right; exact X|exact Y].
      + intros t' X p Hq. eapply genuine_mono; [exact R3|]. apply (G2 t' (or_intror X)), Hq.
      + eapply IH; [exact E|exact I2|exact Hn| |exact Q2|exact H3]. apply G2. left. reflexivity.
  Qed.

  Lemma execute_all_genuine ts : forall w w',
    env_ok e -> winv w -> incl ts tops -> guarded w -> execute_all pk_keyid e ts w = Done w' -> guarded w'.
  Proof.
    induction ts as [|t ts IH]; intros w w' E I Hi Q H; cbn [execute_all] in H.
    - inversion H; subst. exact Q.
    - apply bind_inv in H as (w1 & H1 & H).
      assert (Ht : In t tops) by (apply Hi; left; reflexivity).
      assert (S1 : steps pk_keyid e tops w w1) by (eapply execute_steps; [exact E|exact I| |exact H1]; auto).
      apply (IH w1); auto.
      + eapply steps_winv; eauto.
      + intros x X. apply Hi. right. exact X.
      + eapply execute_genuine; [exact E|exact I|intros _; left; exact Ht| |exact Q|exact H1].
        intros p X. left. eauto.
  Qed.
End Genuine.

Section Verdict.
  Variable pk_keyid : N -> N.
  Variable payer_sig : N -> bool.
  Variable extra_sig : N -> N -> bool.

  Definition verdict {A} (o : outcome A) : Prop :=
    match o with Done _ | Reject => True | Abort | Undefined => False end.

  Lemma verdict_guard b A (f : unit -> outcome A) : (b = true -> verdict (f tt)) -> verdict (bind (guard b) f).
  Proof. destruct b; cbn; auto. Qed.
  Lemma verdict_bind A B (o : outcome A) (f : A -> outcome B) :
    verdict o -> (forall a, o = Done a -> verdict (f a)) -> verdict (bind o f).
  Proof. destruct o; cbn; auto. Qed.

  Lemma get_none st r : tinv pk_keyid st -> get_account pk_keyid st (UReg r) = (None, snd (get_account pk_keyid st (UReg r))) ->
    forall k a, fget regid_eqb (t_reg st) r = Some k -> l_get (commit st) k = Some a -> False.
  Proof.
    intros T G k a Hk Ha. unfold get_account in G. cbn [denotes] in G. revert G.
    destruct (match t_key st with Some k => _ | None => None end) as [x|]; [discriminate|].
    rewrite (commit_get _ _ _ T) in Ha. cbn [get_key_id]. unfold l_get in *. rewrite Hk.
    destruct (fget N.eqb (t_mem st) k) eqn:E; [discriminate|]. rewrite Ha. discriminate.
  Qed.

  Lemma signers_verdict w payer : forall sigs seen st,
    tinv pk_keyid st -> nokey st -> t_acc st = t_acc (wd_tx w) -> t_reg st = t_reg (wd_tx w) ->
    leq (commit st) (t_acc (wd_tx w)) ->
    (forall n s, In (n, s) sigs -> exists k a p,
       fget regid_eqb (t_reg (wd_tx w)) (reg_of n) = Some k /\ l_get (t_acc (wd_tx w)) k = Some a /\ a_pubkey a = Some p) ->
    verdict (signers pk_keyid extra_sig payer seen sigs st).
  Proof.
    induction sigs as [|[m s] sigs IH]; intros seen st T K Ea Er Lq Hs; cbn [signers]; [exact I|].
    apply verdict_guard; intros _. apply verdict_guard; intros _. apply verdict_guard; intros _.
    destruct (Hs m s (or_introl eq_refl)) as (k & a & p & Hk & Ha & Hp).
    destruct (get_account pk_keyid st (UReg (reg_of m))) as [[k1|] st1] eqn:G.
    - destruct (account_tmv pk_keyid _ _ _ _ T K G) as (M & Mm & Dn & _). cbn [denotes] in Dn.
      destruct (get_account_some pk_keyid _ _ _ _ T G) as (_ & [L1 _] & _).
      assert (k1 = k) by congruence. subst k1.
      assert (Lq1 : leq (commit st1) (t_acc (wd_tx w))) by (intros x; rewrite L1; apply Lq).
      pose proof (Lq1 k) as X. rewrite (commit_get _ _ _ (tm_inv _ _ _ _ _ M)) in X. unfold l_get at 1 in X.
      destruct (fget N.eqb (t_mem st1) k) as [a1|] eqn:Fa; [|exfalso; apply Mm; exact Fa].
      rewrite Ha in X. inversion X; subst a1. rewrite Hp. apply verdict_guard; intros _.
      apply verdict_bind; [|intros; exact I]. apply IH; auto; try apply M.
      + rewrite (tm_acc _ _ _ _ _ M). auto.
      + rewrite (tm_reg _ _ _ _ _ M). auto.
      + intros n0 s0 Hin. apply (Hs n0 s0). right. exact Hin.
    - exfalso. eapply (get_none st (reg_of m)); [exact T|rewrite G; reflexivity|rewrite Er; exact Hk|rewrite (Lq k); exact Ha].
  Qed.

  Lemma check_verdict e u w :
    sane pk_keyid e w ->
    (forall n s, In (n, s) (u_sigs u) -> exists k a p,
       fget regid_eqb (t_reg (wd_tx w)) (reg_of n) = Some k /\ l_get (t_acc (wd_tx w)) k = Some a /\
       a_pubkey a = Some p) ->
    verdict (check_utx pk_keyid payer_sig extra_sig u w).
  Proof.
    intros St Hs. unfold check_utx. cbv zeta. apply verdict_guard; intros _.
    set (st0 := mkTx (t_acc (wd_tx w)) (t_reg (wd_tx w)) [] None (t_orders (wd_tx w))).
    destruct (st_accounts _ _ _ St) as [W G].
    assert (T0 : tinv pk_keyid st0).
    { constructor; simpl; auto; try (split; [constructor | discriminate]); try discriminate. apply St. }
    assert (N0 : nokey st0) by (split; [apply St|reflexivity]).
    destruct (get_account pk_keyid st0 (u_uid u)) as [[k1|] st1] eqn:G1; [|exact I].
    destruct (account_tmv pk_keyid _ _ _ _ T0 N0 G1) as (M1 & Mm & D1 & K1).
    destruct (get_account_some pk_keyid _ _ _ _ T0 G1) as (_ & [Lq _] & _).
    apply verdict_guard; intros _. apply verdict_guard; intros _. apply verdict_guard; intros _.
    apply verdict_bind; [|intros l _; apply verdict_guard; intros _; exact I].
    set (st2 := mkTx (t_acc st1) (t_reg st1) (t_mem st1) (Some k1) (t_orders st1)).
    assert (M2 : tmv pk_keyid st0 st2 zero3 zeroS).
    { destruct M1 as [[A1 A2 A3 A4 A5] B C D E F J1 J2 K]. constructor; auto. constructor; auto. }
    apply (signers_verdict w); auto; try apply M2.
  Qed.

  Lemma payer_right e u w w' kp rp :
    settled pk_keyid e w -> payer pk_keyid w u kp rp ->
    apply_utx pk_keyid payer_sig extra_sig e u w = Done w' ->
    exists a, l_get (t_acc (wd_tx w)) kp = Some a /\ N.land (a_perms a) PERM_CONTRACT <> 0.
  Proof.
    intros (_ & St & _) (Hd & a & Ha & _ & _) H. exists a. split; auto. unfold apply_utx in H.
    apply bind_inv in H as (l & H & _). unfold check_utx in H. cbv zeta in H. apply guard_inv in H as [H _].
    unfold check_base in H. cbv zeta in H.
    set (st0 := mkTx (t_acc (wd_tx w)) (t_reg (wd_tx w)) [] None (t_orders (wd_tx w))) in *.
    destruct (st_accounts _ _ _ St) as [W G].
    assert (T0 : tinv pk_keyid st0).
    { constructor; simpl; auto; try (split; [constructor | discriminate]); try discriminate. apply St. }
    replace (existsb (N.eqb UNIVERSAL_TX) [BLOCK_REWARD_TX; PRICE_MEDIAN_TX; UCOIN_MINT_TX;
                           UCOIN_BLOCK_REWARD_TX; CDP_FORCE_SETTLE_INTEREST_TX]) with false in H by reflexivity.
    destruct (get_account pk_keyid st0 (u_uid u)) as [[k1|] st1] eqn:G1; [|discriminate].
    destruct (get_account_some pk_keyid _ _ _ _ T0 G1) as (T1 & [Lq _] & _ & D1). cbn [st0 t_reg] in D1.
    assert (k1 = kp) by congruence. subst k1.
    destruct (fget N.eqb (t_mem st1) kp) as [a1|] eqn:Fa; [|discriminate].
    pose proof (Lq kp) as X. rewrite (commit_get _ _ _ T1) in X. unfold l_get at 1 in X. rewrite Fa in X.
    change (commit st0) with (t_acc (wd_tx w)) in X. rewrite Ha in X. inversion X; subst a1.
    apply andb_true_iff in H as [_ H].
    replace (fget N.eqb tx_perm_map UNIVERSAL_TX) with (Some PERM_CONTRACT) in H by reflexivity.
    apply negb_true_iff, orb_false_iff in H as [_ H]. apply N.eqb_neq in H. exact H.
  Qed.

  (** ** The clock *)

  Lemma execute_clock e c left : forall t w w',
    execute pk_keyid (with_clock e c) left t w = Done w' ->
    execute pk_keyid (with_clock e (fun _ => false)) left t w = Done w'.
  Proof.
    induction left as [|left IH]; intros t w w' H; cbn [execute] in H |- *;
      apply guard_inv in H as [_ H]; apply bind_inv in H as ((c1 & w1) & H1 & H);
      apply bind_inv in H as ((c2 & w2) & H2 & H); [discriminate|].
    change (execute_one pk_keyid (with_clock e (fun _ => false))) with (execute_one pk_keyid (with_clock e c)).
    change (notified_from pk_keyid (with_clock e (fun _ => false))) with (notified_from pk_keyid (with_clock e c)).
    cbn [with_clock ev_late negb guard bind]. fold (with_clock e c). rewrite H1. cbn [bind]. rewrite H2. cbn [bind].
    clear H1 H2. revert w2 H. induction (c_inlines c2) as [|t' ts IHt]; intros w2 H; [exact H|].
    apply bind_inv in H as (w3 & H3 & H). apply IH in H3. rewrite H3. cbn [bind]. apply IHt. exact H.
  Qed.

  Lemma execute_all_clock e c ts : forall w w',
    execute_all pk_keyid (with_clock e c) ts w = Done w' ->
    execute_all pk_keyid (with_clock e (fun _ => false)) ts w = Done w'.
  Proof.
    induction ts as [|t ts IH]; intros w w' H; cbn [execute_all] in H |- *; auto.
    apply bind_inv in H as (w1 & H1 & H). apply execute_clock in H1. rewrite H1. cbn [bind]. auto.
  Qed.

  Lemma apply_clock e c u w w' :
    apply_utx pk_keyid payer_sig extra_sig (with_clock e c) u w = Done w' ->
    apply_utx pk_keyid payer_sig extra_sig (with_clock e (fun _ => false)) u w = Done w'.
  Proof.
    unfold apply_utx. intros H. apply bind_inv in H as (l & Hc & H). rewrite Hc. cbn [bind].
    unfold full_utx in *. apply need_inv in H as ((k & st) & Ho & H).
    change (open_tx pk_keyid (ev_height (with_clock e c)) (ev_index (with_clock e c)))
      with (open_tx pk_keyid (ev_height (with_clock e (fun _ => false))) (ev_index (with_clock e (fun _ => false)))) in Ho.
    rewrite Ho. cbn [need bind]. apply bind_inv in H as (w1 & Hr & H).
    unfold run_utx in *. cbv zeta in *. apply bind_inv in Hr as (w2 & H2 & Hr).
    apply execute_all_clock in H2. rewrite H2. cbn [bind]. apply guard_inv in Hr as [_ Hr].
    change (ev_late (with_clock e (fun _ => false)) (wd_ticks w2)) with false. cbn [negb guard bind].
    rewrite Hr. exact H.
  Qed.

  Lemma clocks_agree e c1 c2 u w w1 w2 :
    apply_utx pk_keyid payer_sig extra_sig (with_clock e c1) u w = Done w1 ->
    apply_utx pk_keyid payer_sig extra_sig (with_clock e c2) u w = Done w2 -> w1 = w2.
  Proof. intros A B. apply apply_clock in A. apply apply_clock in B. congruence. Qed.

  (** ** Endless calls *)

  Lemma endless e n code : is_native n = false -> code <> [] ->
    (forall t w, exists t', ev_prog e code t n w = [HInline t'] /\ g_contract t' = n) ->
    forall left t w w', g_contract t = n -> code_of w n = code ->
    execute pk_keyid e left t w = Done w' -> False.
  Proof.
    intros Hn Hc Hp. induction left as [|left IH]; intros t w w' Ht Hw H; cbn [execute] in H;
      apply guard_inv in H as [_ H]; apply bind_inv in H as ((c1 & w1) & H1 & H);
      apply bind_inv in H as ((c2 & w2) & H2 & H); [discriminate|].
    unfold execute_one in H1. cbv zeta in H1. cbn [c_recv c_trx] in H1. rewrite Ht, Hn in H1.
    change (code_of (tick w) n) with (code_of w n) in H1. rewrite Hw in H1. destruct code as [|b code]; [congruence|].
    destruct (Hp t (ran (tick w) n true)) as (t' & Ep & Et). rewrite Ep in H1. cbn [hosts host] in H1.
    apply bind_inv in H1 as ((c3 & w3) & H3 & H1). inversion H1; subst c1 w1; clear H1.
    apply bind_inv in H3 as (c4 & S4 & H3). inversion H3; subst c3 w3; clear H3.
    destruct (send_inv _ _ _ S4) as (A1 & A2 & A3 & A4 & _). cbn [c_notified c_inlines] in A3, A4.
    cbn [notified_from] in H2. rewrite A3 in H2. cbn [nth_error] in H2. inversion H2; subst c2 w2; clear H2.
    rewrite A4 in H. cbn [app] in H. apply bind_inv in H as (w4 & H4 & H).
    eapply (IH t' (ran (tick w) n true)); eauto.
  Qed.

  Lemma endless_rejected e u w w' n code :
    is_native n = false -> code <> [] ->
    (forall t w, exists t', ev_prog e code t n w = [HInline t'] /\ g_contract t' = n) ->
    (exists t, u_inl u = [t] /\ g_contract t = n) -> code_of w n = code ->
    apply_utx pk_keyid payer_sig extra_sig e u w <> Done w'.
  Proof.
    intros Hn Hc Hp (t & Eu & Et) Hw H. unfold apply_utx in H. apply bind_inv in H as (l & _ & H).
    unfold full_utx in H. apply need_inv in H as ((k & st) & _ & H). apply bind_inv in H as (w1 & Hr & H).
    unfold run_utx in Hr. cbv zeta in Hr. rewrite Eu in Hr. apply bind_inv in Hr as (w2 & H2 & _).
    cbn [execute_all] in H2. apply bind_inv in H2 as (w3 & H3 & _).
    eapply (endless e n code Hn Hc Hp 4 t); [exact Et| |exact H3]. exact Hw.
  Qed.
End Verdict.

Lemma rank_key_ok : forall a b, rank_key_eqb a b = true <-> a = b.
Proof.
  intros [a r] [b q]. unfold rank_key_eqb, pair_eqb. cbn [fst snd]. rewrite andb_true_iff, N.eqb_eq, regid_eqb_ok.
  split; [intros [-> ->]; reflexivity|intros E; inversion E; auto].
Qed.

(** One vote. *)
Lemma vote_ranks pk_keyid e c w c' w' cand votes d1 d2 k w1 a :
  voting_vote pk_keyid e c w = Done (c', w') ->
  read_u64 (g_data (c_trx c)) = Done (cand, d1) -> read_u64 d1 = Done (votes, d2) ->
  account_of pk_keyid (charge e c w) (reg_of cand) = Done (k, w1) ->
  fget N.eqb (t_mem (wd_tx w1)) k = Some a -> a_received_votes a < 2 ^ 63 ->
  exists a', fget N.eqb (t_mem (wd_tx w')) k = Some a' /\ a_received_votes a' < 2 ^ 63 /\
    Z.of_N (a_received_votes a') = (Z.of_N (a_received_votes a) + i64 votes)%Z /\
    (i64 votes <> 0%Z -> shows (wd_rank w) (reg_of cand) (a_received_votes a) ->
       shows (wd_rank w') (reg_of cand) (a_received_votes a')) /\
    (i64 votes = 0%Z -> forall x, x = 18446744073709551615 - a_received_votes a ->
       fget rank_key_eqb (wd_rank w') (x, reg_of cand) = None) /\
    (forall x r, r <> reg_of cand ->
       fget rank_key_eqb (wd_rank w') (x, r) = fget rank_key_eqb (wd_rank w) (x, r)).
Proof.
  intros H R1 R2 G Fa Hv. unfold voting_vote in H. cbv zeta in H. rewrite R1 in H. cbn [bind] in H. rewrite R2 in H. cbn [bind] in H.
  take H d3. apply guard_inv in H as [_ H]. apply guard_inv in H as [_ H]. apply guard_inv in H as [_ H].
  apply guard_inv in H as [_ H]. rewrite G in H. cbn [bind] in H. rewrite Fa in H. cbn [need bind] in H.
  assert (Ei : i64 (a_received_votes a) = Z.of_N (a_received_votes a)).
  { unfold i64. change (2 ^ 63) with 9223372036854775808 in *. clear - Hv. unfold two64. destruct (_ <? _) eqn:E; lia. }
  rewrite Ei in H. apply guard_inv in H as [_ H].
  destruct (9223372036854775807 <? _)%Z eqn:Eo; [discriminate|]. apply guard_inv in H as [Ht H].
  apply bind_inv in H as (c1 & _ & H). inversion H; subst c' w'; clear H.
  set (old := a_received_votes a) in *. set (t := (Z.of_N old + i64 votes)%Z) in *.
  assert (Er : wd_rank w1 = wd_rank w).
  { unfold account_of in G. destruct (get_account _ _ _) as [[x|] y]; [|discriminate]. inversion G; subst. reflexivity. }
  assert (T0 : (0 <= t)%Z) by lia. assert (T1 : (t <= 9223372036854775807)%Z) by lia.
  rewrite N2Z.id. change (two64 - 1) with 18446744073709551615. cbn [with_rank with_tx wd_tx wd_rank t_mem set_mem].
  rewrite Er. exists (set_votes a (Z.to_N t)).
  split; [apply (fget_put_same N.eqb N_eqb_ok)|]. cbn [set_votes a_received_votes].
  change (2 ^ 63) with 9223372036854775808 in *.
  split; [clear - T0 T1; lia|]. split; [clear - T0; lia|].
  set (r := reg_of cand) in *. set (M := 18446744073709551615).
  assert (Gt : forall x q, fget rank_key_eqb (fdel rank_key_eqb (fput rank_key_eqb (wd_rank w) (M - Z.to_N t, r) tt) (M - old, r)) (x, q) =
    if rank_key_eqb (x, q) (M - old, r) then None
    else if rank_key_eqb (x, q) (M - Z.to_N t, r) then Some tt else fget rank_key_eqb (wd_rank w) (x, q)).
  { intros x q. rewrite (fget_del rank_key_eqb rank_key_ok), (fget_put rank_key_eqb rank_key_ok). reflexivity. }
  split; [|split].
  - intros Hn [S1 S2]. split.
    + intros x X. rewrite Gt in X. destruct (rank_key_eqb (x, r) (M - old, r)) eqn:E1; [congruence|].
      destruct (rank_key_eqb (x, r) (M - Z.to_N t, r)) eqn:E2; [apply rank_key_ok in E2; inversion E2; auto|].
      apply S1 in X. subst x. rewrite (eqb_same rank_key_eqb rank_key_ok) in E1. discriminate.
    + intros _. fold M. rewrite Gt. destruct (rank_key_eqb (M - Z.to_N t, r) (M - old, r)) eqn:E1.
      * apply rank_key_ok in E1. assert (E2 : M - Z.to_N t = M - old) by (exact (f_equal fst E1)). exfalso. clear - E2 Hn T0 T1 Hv. subst t M. lia.
      * rewrite (eqb_same rank_key_eqb rank_key_ok). discriminate.
  - intros Hz x ->. rewrite Gt, (eqb_same rank_key_eqb rank_key_ok). reflexivity.
  - intros x q Hq. rewrite Gt.
    destruct (rank_key_eqb (x, q) (M - old, r)) eqn:E1; [apply rank_key_ok in E1; inversion E1; congruence|].
    destruct (rank_key_eqb (x, q) (M - Z.to_N t, r)) eqn:E2; [apply rank_key_ok in E2; inversion E2; congruence|reflexivity].
Qed.
