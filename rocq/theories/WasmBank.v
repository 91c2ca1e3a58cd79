(** What each action of the built-in modules does (C85-C94). *)
From Coq Require Import String List Bool NArith ZArith Lia.
From Coq Require Import ZifyBool ZifyNat ZifyN.
From Verif Require Import Prelude PreludeFacts AccountModel AccountSpec AccountProofs TxModel TxSpec
  TxProofs FeeModel PermModel DexModel RegidModel RegidDeploy LuaModel LuaProofs WasmModel WasmSpec WasmTx.
Import ListNotations.
Open Scope N_scope.
Ltac Zify.zify_post_hook ::= Z.div_mod_to_equations.

Lemma guard_inv (b : bool) (A : Type) (f : unit -> outcome A) x :
  bind (guard b) f = Done x -> b = true /\ f tt = Done x.
Proof. destruct b; simpl; [auto|discriminate]. Qed.

Lemma need_inv (A B : Type) (o : option A) (f : A -> outcome B) x :
  bind (need o) f = Done x -> exists a, o = Some a /\ f a = Done x.
Proof. destruct o; simpl; [eauto|discriminate]. Qed.

Lemma bind_inv (A B : Type) (o : outcome A) (f : A -> outcome B) x :
  bind o f = Done x -> exists a, o = Done a /\ f a = Done x.
Proof. destruct o; simpl; try discriminate. eauto. Qed.

Ltac take H x := apply bind_inv in H as ((? & x) & ? & H).

Section Handlers.
  Variable pk_keyid : N -> N.
  Variable e : wenv.
  Notation tinv := (tinv pk_keyid).
  Notation here := (ev_height e, ev_index e).
  Notation tmv := (tmv pk_keyid).

  Notation env_ok := (env_ok e).
  Notation cap := (cap e).

  Record winv (w : world) : Prop := {
    wi_t : tinv (wd_tx w);
    wi_zero : nokey (wd_tx w);
    wi_native : forall n, is_native n = true -> fget regid_eqb (t_reg (wd_tx w)) (reg_of n) = None;
    wi_table : forall r k, fget regid_eqb (t_reg (wd_tx w)) r = Some k ->
                 exists a, l_get (commit (wd_tx w)) k = Some a /\ a_regid a = r;
    wi_fresh : fmem regid_eqb (wd_codes w) here = true \/
               (fget regid_eqb (t_reg (wd_tx w)) here = None /\
                l_get (commit (wd_tx w)) (ev_address e here) = None);
    wi_wicc : exists a, fget String.eqb (wd_assets w) "WICC"%string = Some a /\ regid_empty (s_owner a) = true;
    wi_total : forall s a, fget String.eqb (wd_assets w) s = Some a -> owned a = true -> s_total a <= max_supply;
    wi_supply : forall s, supply (commit (wd_tx w)) s + pending w s <= cap w s }.

  Lemma cap_lt w s : winv w -> cap w s < 9223372036854775808.
  Proof.
    intros I. unfold cap. destruct (fget String.eqb (wd_assets w) s) as [a|] eqn:E.
    - destruct (owned a) eqn:O; [|lia]. pose proof (wi_total w I s a E O). unfold max_supply in *. lia.
    - destruct (uia_ok _ _); lia.
  Qed.

  Lemma supply_lt w s : winv w -> supply (commit (wd_tx w)) s + pending w s < 9223372036854775808.
  Proof. intros I. pose proof (cap_lt w s I). pose proof (wi_supply w I s). lia. Qed.

  Lemma winv_tx w w' D S :
    winv w -> tmv (wd_tx w) (wd_tx w') D S -> wd_codes w' = wd_codes w ->
    (exists a, fget String.eqb (wd_assets w') "WICC"%string = Some a /\ regid_empty (s_owner a) = true) ->
    (forall s a, fget String.eqb (wd_assets w') s = Some a -> owned a = true -> s_total a <= max_supply) ->
    (forall s, supply (commit (wd_tx w')) s + pending w' s <= cap w' s) -> winv w'.
  Proof.
    intros I [A1 A2 A3 A4 A5 A6 A7 A8 A9] Hc Hw Ht Hs. constructor; auto.
    - intros n Hn. rewrite A4. apply (wi_native w I n Hn).
    - intros r k Hr. rewrite A4 in Hr. destruct (wi_table w I r k Hr) as (a & Ha & Er).
      specialize (A7 k). rewrite Ha in A7. simpl in A7.
      destruct (l_get (commit (wd_tx w')) k) as [a0|] eqn:E; [|discriminate]. simpl in A7.
      inversion A7 as [X]. exists a0. split; congruence.
    - rewrite Hc, A4. destruct (wi_fresh w I) as [F|[F1 F2]]; [now left|right]. split; auto.
      specialize (A7 (ev_address e here)). rewrite F2 in A7. simpl in A7.
      destruct (l_get (commit (wd_tx w')) (ev_address e here)); [discriminate|reflexivity].
  Qed.

  (** What an action may do. *)
  Record heff (c c' : ctx) (w w' : world) : Prop := {
    he_inv : winv w';
    he_trx : c_trx c' = c_trx c;
    he_recv : c_recv c' = c_recv c;
    he_notified : forall n, In n (c_notified c') -> In n (c_notified c) \/ is_native n = false;
    he_inlines : forall t, In t (c_inlines c') ->
       In t (c_inlines c) \/ forall p, In p (g_auth t) -> pm_acc p = c_recv c;
    he_reg : forall r k, fget regid_eqb (t_reg (wd_tx w)) r = Some k ->
                         fget regid_eqb (t_reg (wd_tx w')) r = Some k;
    he_lose : forall k s b, lbal (commit (wd_tx w')) k s b < lbal (commit (wd_tx w)) k s b ->
       b = BFree /\ c_recv c = wasmio_bank /\
       exists n, has_auth (c_trx c) n = true /\ fget regid_eqb (t_reg (wd_tx w')) (reg_of n) = Some k;
    he_codes : forall r, fget regid_eqb (wd_codes w') r <> fget regid_eqb (wd_codes w) r ->
       c_recv c = wasmio /\
       ((fget regid_eqb (wd_codes w) r = None /\ r = here) \/
        exists old, fget regid_eqb (wd_codes w) r = Some old /\
                    has_auth (c_trx c) (num_of (k_maintainer old)) = true);
    he_stay : forall r, fget regid_eqb (wd_codes w) r <> None -> fget regid_eqb (wd_codes w') r <> None;
    he_assets : forall s, fget String.eqb (wd_assets w') s <> fget String.eqb (wd_assets w) s ->
       c_recv c = wasmio_bank /\ exists a', fget String.eqb (wd_assets w') s = Some a' /\
       match fget String.eqb (wd_assets w) s with
       | None => s_total a' <= max_supply /\ uia_ok (ev_symbol_min e) s = true /\
                 exists n, has_auth (c_trx c) n = true /\ reg_of n = s_owner a'
       | Some a => regid_empty (s_owner a) = false /\ has_auth (c_trx c) (num_of (s_owner a)) = true /\
                   s_mintable a' = s_mintable a /\ (s_mintable a = false -> s_total a' = s_total a) /\
                   (s_total a <= max_supply -> s_total a' <= max_supply)
       end;
    he_supply : forall s, supply (commit (wd_tx w')) s + pending w' s + recorded w s =
                          supply (commit (wd_tx w)) s + pending w s + recorded w' s;
    he_reward : r_new (wd_reward w') <> r_new (wd_reward w) ->
       c_recv c = wasmio_voting /\ has_auth (c_trx c) (ev_voting e) = true;
    he_data : wd_data w' = wd_data w;
    he_runs : wd_runs w' = wd_runs w;
    he_fuel : wd_fuel w <= wd_fuel w' }.

  (** ** Pieces *)

  Lemma account_of_inv w r k w1 :
    winv w -> account_of pk_keyid w r = Done (k, w1) ->
    exists st, w1 = with_tx w st /\ tmv (wd_tx w) st zero3 zeroS /\ l_get (t_mem st) k <> None /\
      fget regid_eqb (t_reg (wd_tx w)) r = Some k /\ k <> 0.
  Proof.
    intros I H. unfold account_of in H. destruct (get_account pk_keyid (wd_tx w) (UReg r)) as [[k0|] st] eqn:G; [|discriminate].
    inversion H; subst. exists st. destruct (account_tmv pk_keyid _ _ _ _ (wi_t w I) (wi_zero w I) G) as (A & B & C & D).
    auto.
  Qed.

  Lemma winv_same w st : winv w -> tmv (wd_tx w) st zero3 zeroS -> winv (with_tx w st).
  Proof.
    intros I M. eapply winv_tx; [exact I|exact M|reflexivity|apply I|apply I|].
    intros s. cbn [with_tx wd_tx]. pose proof (tm_sup _ _ _ _ _ M s) as X. unfold zeroS in X.
    pose proof (wi_supply w I s) as Y. unfold cap, pending in *. cbn [with_tx wd_assets wd_reward]. lia.
  Qed.

  Lemma registered_not_native w n k : winv w ->
    fget regid_eqb (t_reg (wd_tx w)) (reg_of n) = Some k -> is_native n = false.
  Proof. intros I H. destruct (is_native n) eqn:E; auto. rewrite (wi_native w I n E) in H. discriminate. Qed.

  Lemma notify_inv c n c' : notify c n = Done c' ->
    c_trx c' = c_trx c /\ c_recv c' = c_recv c /\ c_inlines c' = c_inlines c /\
    forall m, In m (c_notified c') -> In m (c_notified c) \/ m = n.
  Proof.
    unfold notify. destruct (_ <=? 16); [|discriminate]. intros H; inversion H; subst; clear H. cbn.
    repeat split; auto. intros m. destruct (existsb (N.eqb n) (c_notified c)); [auto|].
    rewrite in_app_iff. intros [A|[A|[]]]; auto.
  Qed.

  Lemma notify_grows c n c' : notify c n = Done c' ->
    exists l, c_notified c' = c_notified c ++ l /\ forall m, In m l -> m = n.
  Proof.
    unfold notify. destruct (_ <=? 16); [|discriminate]. intros H; inversion H; subst; clear H. cbn.
    destruct (existsb (N.eqb n) (c_notified c)); [exists []; rewrite app_nil_r; split; [reflexivity|intros m []]|].
    exists [n]. split; [reflexivity|]. intros m [<-|[]]; reflexivity.
  Qed.

  Lemma winv_charge c w : winv w -> winv (charge e c w).
  Proof. intros I. destruct I. constructor; auto. Qed.

  Lemma heff_charge c c' w w' : heff c c' (charge e c w) w' -> heff c c' w w'.
  Proof.
    intros [A1 A2 A3 A4 A5 A6 A7 A8 A9 A10 A11 A12 A13 A14 A15]. constructor; auto.
    unfold charge, burn_fuel in A15. cbn [wd_fuel] in A15. lia.
  Qed.

  (** The state seen through what the properties mention: equal but for the accounts. *)
  Lemma heff_refl c w : winv w -> heff c c w w.
  Proof. intros I. constructor; auto; intros; try lia; try congruence. Qed.

  (** ** The system module *)

  Lemma put_get (m : list (regid * store)) r k r0 :
    fget regid_eqb (fput regid_eqb m r k) r0 = if regid_eqb r0 r then Some k else fget regid_eqb m r0.
  Proof. apply (fget_put regid_eqb regid_eqb_ok). Qed.

  Lemma codes_heff c w r k :
    winv w -> c_recv c = wasmio ->
    (exists old, fget regid_eqb (wd_codes w) r = Some old /\
                 has_auth (c_trx c) (num_of (k_maintainer old)) = true) ->
    heff c c w (with_code w r k).
  Proof.
    intros I Hr (old & Ho & Ha). constructor; auto; try (intros; cbn in *; congruence || lia).
    - destruct I as [X1 X2 X3 X4 X5 X6 X7 X8]. constructor; auto. cbn [with_code wd_codes wd_tx].
      destruct X5 as [F|F]; [left|right; exact F]. unfold fmem in *. rewrite put_get.
      destruct (regid_eqb here r); [reflexivity|exact F].
    - intros r0 H. split; auto. right. cbn [with_code wd_codes] in H. rewrite put_get in H.
      destruct (regid_eqb r0 r) eqn:E; [|congruence]. apply regid_eqb_ok in E. subst. eauto.
    - intros r0 H. cbn [with_code wd_codes]. rewrite put_get. destruct (regid_eqb r0 r); congruence.
  Qed.

  Lemma setcoder_heff c w c' w' :
    winv w -> c_recv c = wasmio -> sys_setcoder c w = Done (c', w') -> heff c c' w w'.
  Proof.
    intros I Hr H. unfold sys_setcoder in H. take H d1. take H d2.
    apply need_inv in H as (old & Ho & H). apply guard_inv in H as [Ha H]. inversion H; subst.
    apply codes_heff; eauto.
  Qed.

  Lemma deploy_heff c w k :
    env_ok -> winv w -> c_recv c = wasmio -> fmem regid_eqb (wd_codes w) here = false ->
    heff c c w (with_code (with_tx w (register_contract (wd_tx w) (ev_address e here) here)) here k).
  Proof.
    intros (Eh & Ea & _) I Hr Hn. set (ad := ev_address e here) in *.
    destruct (wi_fresh w I) as [F|[F1 F2]]; [congruence|]. fold ad in F2.
    assert (Hm : l_get (t_mem (wd_tx w)) ad = None).
    { rewrite (commit_get pk_keyid _ _ (wi_t w I)) in F2. destruct (l_get (t_mem (wd_tx w)) ad); congruence. }
    destruct (RegidDeploy.contract_ok pk_keyid (fun _ => true) (wd_tx w) ad here (wi_t w I) Hm F1) as (T' & B & S & M & O & R).
    set (st' := register_contract (wd_tx w) ad here) in *.
    assert (B' : forall k0 s b, lbal (commit st') k0 s b = lbal (commit (wd_tx w)) k0 s b).
    { intros. rewrite B. destruct (k0 =? ad) eqn:E; [|reflexivity]. apply N.eqb_eq in E; subst k0.
      unfold lbal. now rewrite F2. }
    assert (S' : forall s, supply (commit st') s = supply (commit (wd_tx w)) s).
    { intros s. specialize (S s). rewrite F2 in S. lia. }
    assert (Rg : forall r k0, fget regid_eqb (t_reg (wd_tx w)) r = Some k0 -> fget regid_eqb (t_reg st') r = Some k0).
    { intros r k0 H. rewrite R, (fget_put regid_eqb regid_eqb_ok). destruct (regid_eqb r here) eqn:E; auto.
      apply regid_eqb_ok in E. subst. congruence. }
    constructor; auto; try (intros; cbn in *; congruence || lia).
    - constructor; cbn [with_code with_tx wd_tx wd_codes wd_assets]; auto.
      + destruct (wi_zero w I) as [Z1 Z2]. unfold st', register_contract. unfold l_get in Hm. rewrite Hm.
        split; cbn [t_mem t_acc]; auto. unfold l_get in *.
        rewrite (fget_put_other N.eqb N_eqb_ok) by congruence. exact Z2.
      + intros n Nn. rewrite R, (fget_put regid_eqb regid_eqb_ok). destruct (regid_eqb (reg_of n) here) eqn:E.
        * exfalso. apply regid_eqb_ok in E. unfold reg_of in E. inversion E as [[E1 E2]].
          unfold is_native, wasmio, wasmio_bank, wasmio_voting in Nn.
          assert (n < 1048576) by lia. rewrite (N.div_small n 1048576) in E1 by auto. rewrite N.mod_0_l in E1 by discriminate. lia.
        * apply (wi_native w I n Nn).
      + intros r k0 Hr0. rewrite R, (fget_put regid_eqb regid_eqb_ok) in Hr0.
        rewrite (commit_get pk_keyid _ _ T'). unfold st', register_contract.
        unfold l_get in Hm. rewrite Hm. cbn [t_mem t_acc]. unfold l_get.
        rewrite (fget_put N.eqb N_eqb_ok). destruct (regid_eqb r here) eqn:E.
        * apply regid_eqb_ok in E. inversion Hr0; subst k0 r. rewrite N.eqb_refl. eexists. split; reflexivity.
        * destruct (wi_table w I r k0 Hr0) as (a & Ha & Er). destruct (k0 =? ad) eqn:E0.
          { apply N.eqb_eq in E0. subst k0. congruence. }
          exists a. split; auto. rewrite <- Ha. rewrite (commit_get pk_keyid _ _ (wi_t w I)). reflexivity.
      + left. unfold fmem. rewrite put_get, (eqb_same regid_eqb regid_eqb_ok). reflexivity.
      + apply I.
      + apply I.
      + intros s. rewrite S'. apply (wi_supply w I s).
    - intros k0 s b. cbn [with_code with_tx wd_tx]. rewrite B'. lia.
    - intros r H. split; auto. left. cbn [with_code with_tx wd_codes] in H. rewrite put_get in H.
      destruct (regid_eqb r here) eqn:E; [|congruence]. apply regid_eqb_ok in E. subst r. split; auto.
      unfold fmem in Hn. destruct (fget regid_eqb (wd_codes w) here); [discriminate|reflexivity].
    - intros r H. cbn [with_code with_tx wd_codes]. rewrite put_get. destruct (regid_eqb r here); congruence.
    - intros s. cbn [with_code with_tx wd_tx]. rewrite S'. reflexivity.
  Qed.

  Lemma setcode_heff c w c' w' :
    env_ok -> winv w -> c_recv c = wasmio -> sys_setcode e c w = Done (c', w') -> heff c c' w w'.
  Proof.
    intros E I Hr H. unfold sys_setcode in H. take H d1. take H d2. take H d3. take H d4. take H d5.
    take H d6. destruct (_ =? 0) eqn:E0.
    - apply guard_inv in H as [Hn H]. apply negb_true_iff in Hn. cbv zeta in H. inversion H; subst.
      apply deploy_heff; auto.
    - apply need_inv in H as (old & Ho & H). cbv zeta in H. apply guard_inv in H as [Hm H].
      apply guard_inv in H as [Ha H]. inversion H; subst. apply codes_heff; eauto.
  Qed.

  (** ** The bank *)

  Lemma str_put (m : list (string * asset)) s a s0 :
    fget String.eqb (fput String.eqb m s a) s0 = if String.eqb s0 s then Some a else fget String.eqb m s0.
  Proof. apply (fget_put String.eqb String_eqb_ok). Qed.

  Lemma banked_winv w st D S sym a' :
    winv w -> tmv (wd_tx w) st D S ->
    (sym = "WICC"%string -> regid_empty (s_owner a') = true) ->
    (owned a' = true -> s_total a' <= max_supply) ->
    (forall s, supply (commit st) s + pending w s <=
               if String.eqb s sym then (if owned a' then s_total a' else 9223372036854775807) else cap w s) ->
    winv (with_asset (with_tx w st) sym a').
  Proof.
    intros I M Hw Ht Hs. eapply winv_tx; [exact I|exact M|reflexivity| | |].
    - cbn [with_asset with_tx wd_assets]. rewrite str_put. destruct (String.eqb "WICC" sym) eqn:E.
      + apply String_eqb_ok in E. exists a'. split; auto.
      + apply I.
    - cbn [with_asset with_tx wd_assets]. intros s a. rewrite str_put. destruct (String.eqb s sym).
      + intros X; inversion X; subst; auto.
      + apply (wi_total w I).
    - intros s. specialize (Hs s). unfold cap, pending in *. cbn [with_asset with_tx wd_tx wd_assets wd_reward].
      rewrite str_put. destruct (String.eqb s sym); exact Hs.
  Qed.

  Lemma auth_denotes w r k a : winv w -> fget regid_eqb (t_reg (wd_tx w)) r = Some k ->
    l_get (commit (wd_tx w)) k = Some a -> a_regid a = r.
  Proof. intros I H Ha. destruct (wi_table w I r k H) as (x & Hx & E). congruence. Qed.

  Lemma mem_regid_of w r k : winv w -> fget regid_eqb (t_reg (wd_tx w)) r = Some k ->
    l_get (t_mem (wd_tx w)) k <> None -> mem_regid w k = r.
  Proof.
    intros I H Hm. unfold mem_regid. destruct (l_get (t_mem (wd_tx w)) k) as [a|] eqn:E; [|congruence].
    unfold l_get in E. rewrite E. apply (auth_denotes w r k a I H).
    rewrite (commit_get pk_keyid _ _ (wi_t w I)). unfold l_get. now rewrite E.
  Qed.

  (** Numbers and ids. *)
  Lemma reg_num r : fst r < two32 -> snd r < two16 -> reg_of (num_of r) = r.
  Proof.
    destruct r as [h i]. unfold reg_of, num_of, two32, two16. cbn [fst snd]. intros A B. f_equal; lia.
  Qed.

  Lemma reg_of_bound n : fst (reg_of n) < two32 /\ snd (reg_of n) < two16.
  Proof. unfold reg_of. cbn [fst snd]. split; apply N.mod_lt; discriminate. Qed.

  Lemma i64_pos n : (0 < i64 n)%Z -> 0 < n.
  Proof. unfold i64. destruct (n <? 9223372036854775808) eqn:E; lia. Qed.

  Lemma add_total a b t : t = add64 a b -> a <= t -> t <= max_supply -> b <= max_amount -> t = a + b.
  Proof.
    unfold max_supply, max_amount. intros -> A B C. unfold add64 in *.
    assert (D : a + b < 2 * two64) by (unfold two64 in *; lia).
    destruct (N.lt_ge_cases (a + b) two64) as [L|L]; [now rewrite N.mod_small|].
    exfalso. assert (E : (a + b) mod two64 = a + b - two64).
    { symmetry. apply (N.mod_unique _ _ 1); unfold two64 in *; lia. }
    rewrite E in *. unfold two64 in *. lia.
  Qed.

  Lemma mint_burn_heff b c w0 c' w' :
    winv w0 -> c_recv c = wasmio_bank -> bank_mint_burn pk_keyid e b c w0 = Done (c', w') -> heff c c' w0 w'.
  Proof.
    intros I0 Hr H. apply heff_charge. unfold bank_mint_burn in H. cbv zeta in H.
    set (w := charge e c w0) in *. assert (I : winv w) by (apply winv_charge; auto). clearbody w. clear I0.
    take H d1. rename n into target. take H d2. rename n into amount. take H d3. rename n into raw.
    take H d4. rename l into memo. clear H0 H1 H2 H3.
    apply guard_inv in H as [Hne H]. apply guard_inv in H as [Hq H].
    set (sym := code_text (sym_code raw)) in *. clearbody sym.
    apply need_inv in H as (a & Ha & H). apply guard_inv in H as [Hmi H]. apply guard_inv in H as [How H].
    apply negb_true_iff in How.
    take H w1. rename n into ko, H0 into Go. apply guard_inv in H as [Hau H].
    take H w2. rename n into kt, H0 into Gt.
    destruct (account_of_inv _ _ _ _ I Go) as (st1 & -> & M1 & Mo & Do & Ko).
    assert (I1 : winv (with_tx w st1)) by (apply winv_same; auto).
    destruct (account_of_inv _ _ _ _ I1 Gt) as (st2 & -> & M2 & Mt & Dt & Kt). cbn [with_tx wd_tx] in M2, Dt.
    assert (I2 : winv (with_tx w st2)) by (apply (winv_same (with_tx w st1)); auto).
    rewrite (tm_reg _ _ _ _ _ M1) in Dt.
    assert (Mo2 : l_get (t_mem st2) ko <> None) by (apply M2; auto).
    assert (Ro : mem_regid (with_tx w st1) ko = s_owner a).
    { apply mem_regid_of; auto. cbn [with_tx wd_tx]. rewrite (tm_reg _ _ _ _ _ M1). exact Do. }
    rewrite Ro in Hau.
    assert (Ow : owned a = true) by (unfold owned; rewrite Hmi, How; reflexivity).
    assert (Hcap : cap w sym = s_total a) by (unfold cap; rewrite Ha, Ow; reflexivity).
    assert (Hpos : 0 < amount /\ amount <= max_amount).
    { unfold quantity_ok in Hq. repeat (apply andb_true_iff in Hq as [Hq ?]).
      split; [apply i64_pos; apply Z.ltb_lt; exact Hq|apply N.leb_le; auto]. }
    destruct Hpos as [Hp Hmx].
    assert (M12 : tmv (wd_tx w) st2 zero3 zeroS) by (eapply tmv_trans; [exact M1|exact M2|reflexivity|reflexivity]).
    assert (Hs2 : forall s, supply (commit st2) s = supply (commit (wd_tx w)) s).
    { intros s. pose proof (tm_sup _ _ _ _ _ M12 s) as X. unfold zeroS in X. lia. }
    assert (Nw : sym <> "WICC"%string).
    { intros E. destruct (wi_wicc w I) as (x & Hx & Ex). rewrite <- E in Hx. rewrite Ha in Hx. inversion Hx; subst. congruence. }
    pose proof (wi_total w I sym a Ha Ow) as Htot.
    destruct b.
    - apply guard_inv in H as [Ht H]. apply andb_true_iff in Ht as [Ht1 Ht2].
      set (total := add64 (s_total a) amount) in *.
      assert (Et : total = s_total a + amount) by (apply add_total; auto; apply N.leb_le; auto).
      apply N.leb_le in Ht1. clearbody total.
      apply bind_inv in H as (w3 & Hop & H). apply bind_inv in H as (c1 & Hn & H).
      apply guard_inv in H as [_ H]. inversion H; subst c' w'; clear H.
      unfold operate in Hop. cbn [with_tx wd_tx] in Hop.
      destruct (m_operate st2 kt sym AddFree amount None) as [[|] st3] eqn:Hm; [|discriminate].
      inversion Hop; subst w3; clear Hop.
      assert (M3 := operate_tmv pk_keyid st2 kt sym AddFree amount None st3 (wi_t _ I2) (wi_zero _ I2) Mt
        ltac:(discriminate) Hm).
      assert (Hb : supply (commit st2) sym + mint_of sym (mkReq kt sym AddFree amount None) < two64).
      { cbn [mint_of q_op q_other q_symbol q_amount]. rewrite (eqb_same String.eqb String_eqb_ok), Hs2.
        pose proof (wi_supply w I sym). rewrite Hcap in *. unfold max_supply, max_amount, two64 in *. lia. }
      specialize (M3 Hb). cbn [mint_of burn_of q_op q_other q_symbol q_amount debited credited] in M3.
      pose proof (tmv_trans pk_keyid _ _ _ _ _ _ _ _ _ M12 M3 (fun _ _ _ => eq_refl) (fun _ => eq_refl)) as M.
      clear M3 M2 M1. destruct (notify_inv _ _ _ Hn) as (N1 & N2 & N3 & N4).
      assert (Su : forall s, supply (commit st3) s = supply (commit (wd_tx w)) s + (if String.eqb sym s then amount else 0)).
      { intros s. pose proof (tm_sup _ _ _ _ _ M s) as X. unfold zeroS in X. destruct (String.eqb sym s); lia. }
      change (with_asset (with_tx (with_tx w st2) st3) sym ?x) with (with_asset (with_tx w st3) sym x).
      constructor; auto.
      + apply (banked_winv w st3 _ _ sym _ I M); cbn [s_owner s_total s_mintable].
        * congruence.
        * intros _. exact Ht1.
        * intros s. rewrite Su. pose proof (wi_supply w I s) as X.
          change (owned _) with (owned a). rewrite Ow. rewrite (String.eqb_sym sym s).
          destruct (String.eqb s sym) eqn:E; [|rewrite N.add_0_r; auto]. apply String_eqb_ok in E. subst s.
          rewrite Hcap in X. cbn [s_total]. lia.
      + intros n Hi. apply N4 in Hi as [Hi| ->]; auto. right.
        apply (registered_not_native w target kt); auto.
      + rewrite N3; auto.
      + intros r k X. cbn [with_asset with_tx wd_tx]. rewrite (tm_reg _ _ _ _ _ M). exact X.
      + intros k s x X. exfalso. cbn [with_asset with_tx wd_tx] in X. pose proof (tm_bal _ _ _ _ _ M k s x) as Y.
        unfold zero3, chg in Y. cbn [at_place] in Y. lia.
      + intros r X. cbn in X. congruence.
      + intros s. cbn [with_asset with_tx wd_assets]. rewrite str_put. destruct (String.eqb s sym) eqn:E; [|congruence].
        apply String_eqb_ok in E. subst s. intros _. split; auto. eexists. split; [reflexivity|]. rewrite Ha.
        cbn [s_mintable s_total]. repeat split; auto; try congruence; lia.
      + intros s. cbn [with_asset with_tx wd_tx]. rewrite Su. unfold recorded, pending. cbn [with_asset with_tx wd_assets wd_reward].
        rewrite str_put, (String.eqb_sym sym s). destruct (String.eqb s sym) eqn:E; [|lia].
        apply String_eqb_ok in E. subst s. rewrite Ha. cbn [s_total]. lia.
      + cbn. congruence.
      + cbn. lia.
    - apply guard_inv in H as [Hrt H]. apply guard_inv in H as [Hle H]. apply N.leb_le in Hle.
      apply bind_inv in H as (w3 & Hop & H). apply guard_inv in H as [_ H]. inversion H; subst c' w'; clear H.
      unfold operate in Hop. cbn [with_tx wd_tx] in Hop.
      destruct (m_operate st2 kt sym SubFree amount None) as [[|] st3] eqn:Hm; [|discriminate].
      inversion Hop; subst w3; clear Hop.
      assert (M3 := operate_tmv pk_keyid st2 kt sym SubFree amount None st3 (wi_t _ I2) (wi_zero _ I2) Mt
        ltac:(discriminate) Hm).
      assert (Hb : supply (commit st2) sym + mint_of sym (mkReq kt sym SubFree amount None) < two64).
      { cbn [mint_of q_op q_other q_symbol q_amount]. rewrite Hs2.
        pose proof (wi_supply w I sym). rewrite Hcap in *. unfold max_supply, two64 in *. lia. }
      specialize (M3 Hb). cbn [mint_of burn_of q_op q_other q_symbol q_amount debited credited] in M3.
      pose proof (tmv_trans pk_keyid _ _ _ _ _ _ _ _ _ M12 M3 (fun _ _ _ => eq_refl) (fun _ => eq_refl)) as M.
      clear M3 M2 M1.
      assert (Su : forall s, supply (commit st3) s + (if String.eqb sym s then amount else 0) = supply (commit (wd_tx w)) s).
      { intros s. pose proof (tm_sup _ _ _ _ _ M s) as X. unfold zeroS in X. destruct (String.eqb sym s); lia. }
      change (with_asset (with_tx (with_tx w st2) st3) sym ?x) with (with_asset (with_tx w st3) sym x).
      constructor; auto.
      + apply (banked_winv w st3 _ _ sym _ I M); cbn [s_owner s_total s_mintable].
        * congruence.
        * intros _. lia.
        * intros s. specialize (Su s). pose proof (wi_supply w I s) as X.
          change (owned _) with (owned a). rewrite Ow. rewrite (String.eqb_sym sym s) in Su.
          destruct (String.eqb s sym) eqn:E; [|lia]. apply String_eqb_ok in E. subst s.
          rewrite Hcap in X. cbn [s_total]. lia.
      + intros r k X. cbn [with_asset with_tx wd_tx]. rewrite (tm_reg _ _ _ _ _ M). exact X.
      + intros k s x X. cbn [with_asset with_tx wd_tx] in X. pose proof (tm_bal _ _ _ _ _ M k s x) as Y.
        unfold zero3, chg in Y. cbn [at_place] in Y.
        destruct ((k =? kt) && String.eqb s sym && bucket_eqb x BFree) eqn:E; [|lia].
        apply andb_true_iff in E as [E E3]. apply andb_true_iff in E as [E1 E2]. apply N.eqb_eq in E1. subst k.
        split; [destruct x; (reflexivity || discriminate)|]. split; auto. exists (num_of (s_owner a)). split; auto.
        cbn [with_asset with_tx wd_tx]. rewrite (tm_reg _ _ _ _ _ M).
        apply regid_eqb_ok in Hrt.
        assert (Ro2 : mem_regid (with_tx w st2) ko = s_owner a).
        { apply mem_regid_of; auto; cbn [with_tx wd_tx]. rewrite (tm_reg _ _ _ _ _ M12). exact Do. }
        change (with_tx (with_tx w st1) st2) with (with_tx w st2) in Hrt. rewrite Ro2 in Hrt. rewrite <- Hrt, reg_num by apply reg_of_bound. exact Dt.
      + intros r X. cbn in X. congruence.
      + intros s. cbn [with_asset with_tx wd_assets]. rewrite str_put. destruct (String.eqb s sym) eqn:E; [|congruence].
        apply String_eqb_ok in E. subst s. intros _. split; auto. eexists. split; [reflexivity|]. rewrite Ha.
        cbn [s_mintable s_total]. repeat split; auto; try congruence; lia.
      + intros s. cbn [with_asset with_tx wd_tx]. specialize (Su s). unfold recorded, pending. cbn [with_asset with_tx wd_assets wd_reward].
        rewrite str_put. rewrite (String.eqb_sym sym s) in Su. destruct (String.eqb s sym) eqn:E; [|lia].
        apply String_eqb_ok in E. subst s. rewrite Ha. cbn [s_total]. lia.
      + cbn. congruence.
      + cbn. lia.
  Qed.

  (** A record changed by its owner in name, owner or icon only. *)
  Lemma meta_heff c w st sym a a' :
    winv w -> c_recv c = wasmio_bank -> tmv (wd_tx w) st zero3 zeroS ->
    fget String.eqb (wd_assets w) sym = Some a -> regid_empty (s_owner a) = false ->
    has_auth (c_trx c) (num_of (s_owner a)) = true ->
    regid_empty (s_owner a') = false -> s_total a' = s_total a -> s_mintable a' = s_mintable a ->
    heff c c w (with_asset (with_tx w st) sym a').
  Proof.
    intros I Hr M Ha Ho Hu Ho' Ht Hm.
    assert (Nw : sym <> "WICC"%string).
    { intros E. destruct (wi_wicc w I) as (x & Hx & Ex). rewrite <- E in Hx. rewrite Ha in Hx. inversion Hx; subst. congruence. }
    assert (Ow : owned a' = owned a) by (unfold owned; rewrite Hm, Ho, Ho'; reflexivity).
    assert (Su : forall s, supply (commit st) s = supply (commit (wd_tx w)) s).
    { intros s. pose proof (tm_sup _ _ _ _ _ M s) as X. unfold zeroS in X. lia. }
    constructor; auto.
    - apply (banked_winv w st _ _ sym _ I M).
      + congruence.
      + rewrite Ow, Ht. apply (wi_total w I sym a Ha).
      + intros s. rewrite Su, Ow, Ht. pose proof (wi_supply w I s) as X. destruct (String.eqb s sym) eqn:E; [|exact X].
        apply String_eqb_ok in E. subst s. unfold cap in X. now rewrite Ha in X.
    - intros r k X. cbn [with_asset with_tx wd_tx]. rewrite (tm_reg _ _ _ _ _ M). exact X.
    - intros k s x X. exfalso. cbn [with_asset with_tx wd_tx] in X. pose proof (tm_bal _ _ _ _ _ M k s x) as Y.
      unfold zero3 in Y. lia.
    - intros r X. cbn in X. congruence.
    - intros s. cbn [with_asset with_tx wd_assets]. rewrite str_put. destruct (String.eqb s sym) eqn:E; [|congruence].
      apply String_eqb_ok in E. subst s. intros _. split; auto. exists a'. split; [reflexivity|]. rewrite Ha.
      repeat split; auto; lia.
    - intros s. cbn [with_asset with_tx wd_tx]. rewrite Su. unfold recorded, pending. cbn [with_asset with_tx wd_assets wd_reward].
      rewrite str_put. destruct (String.eqb s sym) eqn:E; [|lia].
      apply String_eqb_ok in E. subst s. rewrite Ha. lia.
    - cbn. congruence.
    - cbn. lia.
  Qed.

  Lemma update_heff c w0 c' w' :
    winv w0 -> c_recv c = wasmio_bank -> bank_update pk_keyid e c w0 = Done (c', w') -> heff c c' w0 w'.
  Proof.
    intros I0 Hr H. apply heff_charge. unfold bank_update in H. cbv zeta in H.
    set (w := charge e c w0) in *. assert (I : winv w) by (apply winv_charge; auto). clearbody w. clear I0.
    take H d1. rename n into code. take H d2. rename o into owner. take H d3. rename o into name.
    take H d4. rename o into memo. clear H0 H1 H2 H3. set (sym := code_text code) in *. clearbody sym.
    apply need_inv in H as (a & Ha & H). apply guard_inv in H as [How H]. apply negb_true_iff in How.
    apply guard_inv in H as [Hau H]. apply bind_inv in H as ((ko & w1) & Go & H).
    destruct (account_of_inv _ _ _ _ I Go) as (st1 & -> & M1 & Mo & Do & Ko).
    assert (I1 : winv (with_tx w st1)) by (apply winv_same; auto).
    apply bind_inv in H as ((o & w2) & Ho & H).
    apply guard_inv in H as [_ H]. apply guard_inv in H as [_ H]. apply guard_inv in H as [_ H].
    inversion H; subst c' w'; clear H.
    assert (X : exists st2, w2 = with_tx w st2 /\ tmv (wd_tx w) st2 zero3 zeroS /\ regid_empty o = false).
    { destruct owner as [n|].
      - apply guard_inv in Ho as [Hn Ho]. apply negb_true_iff in Hn. apply bind_inv in Ho as ((k2 & w3) & G2 & Ho).
        inversion Ho; subst. destruct (account_of_inv _ _ _ _ I1 G2) as (st2 & -> & M2 & _).
        exists st2. split; [reflexivity|]. split; auto. eapply tmv_trans; [exact M1|exact M2|reflexivity|reflexivity].
      - inversion Ho; subst. exists st1. auto. }
    destruct X as (st2 & -> & M2 & Eo). eapply meta_heff; eauto.
  Qed.

  Lemma icon_heff c w0 c' w' :
    winv w0 -> c_recv c = wasmio_bank -> bank_icon pk_keyid e c w0 = Done (c', w') -> heff c c' w0 w'.
  Proof.
    intros I0 Hr H. apply heff_charge. unfold bank_icon in H. cbv zeta in H.
    set (w := charge e c w0) in *. assert (I : winv w) by (apply winv_charge; auto). clearbody w. clear I0.
    take H d1. rename n into code. take H d2. rename l into icon. clear H0 H1.
    set (sym := code_text code) in *. clearbody sym.
    apply need_inv in H as (a & Ha & H). apply guard_inv in H as [How H]. apply negb_true_iff in How.
    apply guard_inv in H as [Hau H]. apply bind_inv in H as ((ko & w1) & Go & H).
    destruct (account_of_inv _ _ _ _ I Go) as (st1 & -> & M1 & Mo & Do & Ko).
    apply guard_inv in H as [_ H]. inversion H; subst c' w'; clear H. eapply meta_heff; eauto.
  Qed.

  (** Coins moved between accounts, or paid by one: nothing else. *)
  Lemma move_heff c c' w st D :
    winv w -> c_recv c = wasmio_bank -> tmv (wd_tx w) st D zeroS ->
    c_trx c' = c_trx c -> c_recv c' = c_recv c -> c_inlines c' = c_inlines c ->
    (forall n, In n (c_notified c') -> In n (c_notified c) \/ is_native n = false) ->
    (forall k s b, (D k s b < 0)%Z -> b = BFree /\
       exists n, has_auth (c_trx c) n = true /\ fget regid_eqb (t_reg (wd_tx w)) (reg_of n) = Some k) ->
    heff c c' w (with_tx w st).
  Proof.
    intros I Hr M C1 C2 C3 C4 Hd.
    assert (Su : forall s, supply (commit st) s = supply (commit (wd_tx w)) s).
    { intros s. pose proof (tm_sup _ _ _ _ _ M s) as X. unfold zeroS in X. lia. }
    constructor; auto.
    - eapply winv_tx; [exact I|exact M|reflexivity|apply I|apply I|]. intros s. cbn [with_tx wd_tx].
      rewrite Su. apply (wi_supply w I s).
    - rewrite C3. auto.
    - intros r k X. cbn [with_tx wd_tx]. rewrite (tm_reg _ _ _ _ _ M). exact X.
    - intros k s b X. cbn [with_tx wd_tx] in *. pose proof (tm_bal _ _ _ _ _ M k s b) as Y.
      rewrite (tm_reg _ _ _ _ _ M). destruct (Hd k s b) as [A B]; [lia|]. auto.
    - intros r X. cbn in X. congruence.
    - intros s X. cbn in X. congruence.
    - intros s. cbn [with_tx wd_tx]. rewrite Su. reflexivity.
    - cbn. congruence.
    - cbn. lia.
  Qed.

  (** What a transfer does, as far as it is carried out. *)
  Lemma transfer_moves c w0 c' w' :
    winv w0 -> bank_transfer pk_keyid e c w0 = Done (c', w') ->
    exists from to amount raw d1 d2 d3 d4 kf kt st,
      read_u64 (g_data (c_trx c)) = Done (from, d1) /\ read_u64 d1 = Done (to, d2) /\
      read_u64 d2 = Done (amount, d3) /\ read_u64 d3 = Done (raw, d4) /\
      w' = with_tx (charge e c w0) st /\ has_auth (c_trx c) from = true /\
      fget regid_eqb (t_reg (wd_tx w0)) (reg_of from) = Some kf /\
      fget regid_eqb (t_reg (wd_tx w0)) (reg_of to) = Some kt /\
      tmv (wd_tx w0) st (chg (Some (kf, BFree)) (Some (kt, BFree)) (code_text (sym_code raw)) amount) zeroS /\
      c_trx c' = c_trx c /\ c_recv c' = c_recv c /\ c_inlines c' = c_inlines c /\
      (forall n, In n (c_notified c') -> In n (c_notified c) \/ n = from \/ n = to) /\
      (exists l, c_notified c' = c_notified c ++ l /\ forall n, In n l -> n = from \/ n = to).
  Proof.
    intros I0 H. unfold bank_transfer in H. cbv zeta in H.
    assert (I : winv (charge e c w0)) by (apply winv_charge; auto). change (wd_tx w0) with (wd_tx (charge e c w0)).
    set (w := charge e c w0) in *. clearbody w. clear I0.
    take H d1. rename n into from. take H d2. rename n into to. take H d3. rename n into amount.
    take H d4. rename n into raw. take H d5. rename l into memo.
    apply guard_inv in H as [Hau H]. apply guard_inv in H as [_ H]. apply guard_inv in H as [_ H].
    apply guard_inv in H as [Hq H]. apply guard_inv in H as [_ H].
    apply bind_inv in H as ((kf & w1) & Gf & H). apply bind_inv in H as ((kt & w2) & Gt & H).
    apply guard_inv in H as [_ H]. apply guard_inv in H as [_ H].
    apply bind_inv in H as (w3 & Hop & H). apply bind_inv in H as (c1 & N1 & H). apply bind_inv in H as (c2 & N2 & H).
    inversion H; subst c' w'; clear H.
    exists from, to, amount, raw, d1, d2, d3, d4, kf, kt.
    set (sym := code_text (sym_code raw)) in *. clearbody sym.
    destruct (account_of_inv _ _ _ _ I Gf) as (st1 & -> & M1 & Mf & Df & Kf).
    assert (I1 : winv (with_tx w st1)) by (apply winv_same; auto).
    destruct (account_of_inv _ _ _ _ I1 Gt) as (st2 & -> & M2 & Mt & Dt & Kt). cbn [with_tx wd_tx] in M2, Dt.
    assert (I2 : winv (with_tx w st2)) by (apply (winv_same (with_tx w st1)); auto).
    rewrite (tm_reg _ _ _ _ _ M1) in Dt.
    unfold operate in Hop. cbn [with_tx wd_tx] in Hop. rewrite (proj2 (N.eqb_neq kt 0) Kt) in Hop.
    destruct (m_operate st2 kf sym SubFree amount (Some kt)) as [[|] st3] eqn:Hm; [|discriminate].
    inversion Hop; subst w3; clear Hop.
    assert (Mf2 : l_get (t_mem st2) kf <> None) by (apply M2; auto).
    assert (M3 := operate_tmv pk_keyid st2 kf sym SubFree amount (Some kt) st3 (wi_t _ I2) (wi_zero _ I2) Mf2
      ltac:(intros k X; inversion X; subst; auto) Hm).
    cbn [mint_of burn_of q_op q_other q_symbol q_amount debited credited] in M3.
    assert (Hb : supply (commit st2) sym + 0 < two64).
    { pose proof (supply_lt (with_tx w st2) sym I2) as X. cbn [with_tx wd_tx] in X. unfold two64. lia. }
    specialize (M3 Hb).
    pose proof (tmv_trans pk_keyid _ _ _ _ _ _ _ _ _ M1 M2 (fun _ _ _ => eq_refl) (fun _ => eq_refl)) as M12.
    exists st3. repeat (split; [first [assumption|reflexivity]|]).
    split. { eapply tmv_trans; [exact M12|exact M3| |]; [|reflexivity]. intros. reflexivity. }
    destruct (notify_inv _ _ _ N1) as (A1 & A2 & A3 & A4). destruct (notify_inv _ _ _ N2) as (B1 & B2 & B3 & B4).
    split; [congruence|]. split; [congruence|]. split; [congruence|]. split.
    - intros n X. apply B4 in X as [X| ->]; auto. apply A4 in X as [X| ->]; auto.
    - destruct (notify_grows _ _ _ N1) as (l1 & E1 & F1). destruct (notify_grows _ _ _ N2) as (l2 & E2 & F2).
      exists (l1 ++ l2). rewrite E2, E1, app_assoc. split; [reflexivity|].
      intros n X. apply in_app_iff in X as [X|X]; auto.
  Qed.

  Lemma transfer_heff c w0 c' w' :
    winv w0 -> c_recv c = wasmio_bank -> bank_transfer pk_keyid e c w0 = Done (c', w') -> heff c c' w0 w'.
  Proof.
    intros I Hr H. apply heff_charge.
    destruct (transfer_moves _ _ _ _ I H) as (from & to & amount & raw & d1 & d2 & d3 & d4 & kf & kt & st &
      _ & _ & _ & _ & -> & Hau & Df & Dt & M & A1 & A2 & A3 & A4 & _).
    eapply move_heff; eauto; try congruence.
    - apply winv_charge; auto.
    - intros n X. apply A4 in X as [X|[-> | ->]]; auto; right.
      + apply (registered_not_native w0 from kf); auto.
      + apply (registered_not_native w0 to kt); auto.
    - intros k s b X. unfold chg in X. cbn [at_place] in X.
      destruct ((k =? kf) && String.eqb s (code_text (sym_code raw)) && bucket_eqb b BFree) eqn:E; [|destruct (_ && _) in X; lia].
      apply andb_true_iff in E as [E E3]. apply andb_true_iff in E as [E1 E2]. apply N.eqb_eq in E1. subst k.
      split; [destruct b; (reflexivity || discriminate)|]. exists from. auto.
  Qed.

  Lemma issue_heff c w0 c' w' :
    env_ok -> winv w0 -> c_recv c = wasmio_bank -> bank_issue pk_keyid e c w0 = Done (c', w') -> heff c c' w0 w'.
  Proof.
    intros (_ & _ & Er & Ef) I0 Hr H. apply heff_charge. unfold bank_issue in H. cbv zeta in H.
    set (w := charge e c w0) in *. assert (I : winv w) by (apply winv_charge; auto). clearbody w. clear I0.
    take H d1. rename n into raw. take H d2. rename n into owner. take H d3. rename l into name.
    take H d4. rename n into total. take H d5. rename n into mi. take H d6. rename l into memo.
    clear H0 H1 H2 H3 H4 H5. set (sym := code_text (sym_code raw)) in *.
    apply guard_inv in H as [Hu H]. apply andb_true_iff in Hu as [Hu _]. clearbody sym.
    apply guard_inv in H as [Ho H]. apply guard_inv in H as [_ H]. apply guard_inv in H as [Hn H].
    apply negb_true_iff in Ho, Hn. apply guard_inv in H as [Hau H].
    apply bind_inv in H as ((k & w1) & G & H).
    destruct (account_of_inv _ _ _ _ I G) as (st1 & -> & M1 & Mk & Dk & Kk).
    assert (I1 : winv (with_tx w st1)) by (apply winv_same; auto).
    destruct (process_asset_fee _ _ _ _ _ _ _) as [st2| |] eqn:Pf; try discriminate. cbn [with_tx wd_tx] in Pf.
    destruct (issue_fee_tmv pk_keyid _ _ _ _ _ _ _ (wi_t _ I1) (wi_zero _ I1)
      ltac:(intros s; pose proof (supply_lt _ s I1); unfold two64; lia) Ef Er Pf) as (D & M2 & HD).
    cbn [with_tx wd_tx] in M2.
    apply guard_inv in H as [Ht H]. apply N.leb_le in Ht. apply bind_inv in H as (w2 & Hop & H).
    apply guard_inv in H as [_ H]. inversion H; subst c' w'; clear H.
    unfold operate in Hop. cbn [with_tx wd_tx] in Hop.
    destruct (m_operate st2 k sym AddFree total None) as [[|] st3] eqn:Hm; [|discriminate].
    inversion Hop; subst w2; clear Hop.
    assert (Hno : fget String.eqb (wd_assets w) sym = None).
    { unfold fmem in Hn. destruct (fget String.eqb (wd_assets w) sym); [discriminate|reflexivity]. }
    assert (M12 : tmv (wd_tx w) st2 D zeroS) by (eapply tmv_trans; [exact M1|exact M2|reflexivity|reflexivity]).
    assert (S2 : forall s, supply (commit st2) s = supply (commit (wd_tx w)) s).
    { intros s. pose proof (tm_sup _ _ _ _ _ M12 s) as X. unfold zeroS in X. lia. }
    assert (Z0 : supply (commit (wd_tx w)) sym + pending w sym = 0).
    { pose proof (wi_supply w I sym) as X. unfold cap in X. rewrite Hno, Hu in X. lia. }
    assert (Mk2 : l_get (t_mem st2) k <> None) by (apply M2; auto).
    assert (M3 := operate_tmv pk_keyid st2 k sym AddFree total None st3 (tm_inv _ _ _ _ _ M2) (tm_zero _ _ _ _ _ M2) Mk2
      ltac:(discriminate) Hm).
    cbn [mint_of burn_of q_op q_other q_symbol q_amount debited credited] in M3.
    rewrite (eqb_same String.eqb String_eqb_ok) in M3.
    assert (Hb : supply (commit st2) sym + total < two64) by (rewrite S2; unfold max_supply, two64 in *; lia).
    specialize (M3 Hb).
    pose proof (tmv_trans pk_keyid _ _ _ _ _ _ _ _ _ M12 M3 (fun _ _ _ => eq_refl) (fun _ => eq_refl)) as M.
    assert (Su : forall s, supply (commit st3) s = supply (commit (wd_tx w)) s + (if String.eqb sym s then total else 0)).
    { intros s. pose proof (tm_sup _ _ _ _ _ M s) as X. unfold zeroS in X. destruct (String.eqb sym s); lia. }
    assert (Nw : sym <> "WICC"%string).
    { intros E. destruct (wi_wicc w I) as (x & Hx & Ex). rewrite <- E in Hx. congruence. }
    change (with_asset (with_tx (with_tx (with_tx w st1) st2) st3) sym ?x) with (with_asset (with_tx w st3) sym x).
    constructor; auto.
    - apply (banked_winv w st3 _ _ sym _ I M); cbn [s_owner s_total s_mintable].
      + congruence.
      + intros _. exact Ht.
      + intros s. rewrite Su, (String.eqb_sym sym s). pose proof (wi_supply w I s) as X.
        destruct (String.eqb s sym) eqn:E; [|lia]. apply String_eqb_ok in E. subst s.
        unfold max_supply in *. destruct (owned _); lia.
    - intros r k0 X. cbn [with_asset with_tx wd_tx]. rewrite (tm_reg _ _ _ _ _ M). exact X.
    - intros k0 s b X. cbn [with_asset with_tx wd_tx] in *. pose proof (tm_bal _ _ _ _ _ M k0 s b) as Y.
      unfold chg in Y. cbn [at_place] in Y. rewrite (tm_reg _ _ _ _ _ M).
      destruct (HD k0 s b) as [E1 E2]; [lia|]. subst. split; auto. split; auto. exists owner. auto.
    - intros r X. cbn in X. congruence.
    - intros s. cbn [with_asset with_tx wd_assets]. rewrite str_put. destruct (String.eqb s sym) eqn:E; [|congruence].
      apply String_eqb_ok in E. subst s. intros _. split; auto. eexists. split; [reflexivity|]. rewrite Hno.
      cbn [s_total s_owner]. split; auto. split; auto. exists owner. auto.
    - intros s. cbn [with_asset with_tx wd_tx]. rewrite Su. unfold recorded, pending. cbn [with_asset with_tx wd_assets wd_reward].
      rewrite str_put, (String.eqb_sym sym s). destruct (String.eqb s sym) eqn:E; [|lia].
      apply String_eqb_ok in E. subst s. rewrite Hno. cbn [s_total]. lia.
    - cbn. congruence.
    - cbn. lia.
  Qed.

  Lemma bank_heff c w c' w' :
    env_ok -> winv w -> c_recv c = wasmio_bank -> bank pk_keyid e c w = Done (c', w') -> heff c c' w w'.
  Proof.
    intros E I Hr. unfold bank. cbv zeta.
    destruct (_ =? n_issue); [apply issue_heff; auto|]. destruct (_ =? n_mint); [apply mint_burn_heff; auto|].
    destruct (_ =? n_burn); [apply mint_burn_heff; auto|]. destruct (_ =? n_update); [apply update_heff; auto|].
    destruct (_ =? n_transfer); [apply transfer_heff; auto|]. destruct (_ =? n_setasseticon); [apply icon_heff; auto|].
    discriminate.
  Qed.

  Lemma sys_heff c w c' w' :
    env_ok -> winv w -> c_recv c = wasmio -> sys e c w = Done (c', w') -> heff c c' w w'.
  Proof.
    intros E I Hr. unfold sys. cbv zeta.
    destruct (_ =? n_setcode); [apply setcode_heff; auto|]. destruct (_ =? n_setcoder); [apply setcoder_heff; auto|].
    discriminate.
  Qed.

  (** ** The voting module *)

  Lemma vote_heff c w0 c' w' :
    winv w0 -> c_recv c = wasmio_voting -> voting_vote pk_keyid e c w0 = Done (c', w') -> heff c c' w0 w'.
  Proof.
    intros I0 Hr H. apply heff_charge. unfold voting_vote in H. cbv zeta in H.
    set (w := charge e c w0) in *. assert (I : winv w) by (apply winv_charge; auto). clearbody w. clear I0.
    take H d1. rename n into cand. take H d2. rename n into votes. take H d3. rename l into memo. clear H0 H1 H2.
    apply guard_inv in H as [_ H]. apply guard_inv in H as [Hau H]. apply guard_inv in H as [_ H].
    apply guard_inv in H as [_ H]. apply bind_inv in H as ((k & w1) & G & H).
    destruct (account_of_inv _ _ _ _ I G) as (st1 & -> & M1 & Mk & Dk & Kk).
    apply need_inv in H as (a & Ha & H). cbn [with_tx wd_tx] in Ha. apply guard_inv in H as [_ H].
    destruct (_ <? _)%Z; [discriminate|]. apply guard_inv in H as [_ H]. apply bind_inv in H as (c1 & N1 & H).
    inversion H; subst c' w'; clear H. destruct (notify_inv _ _ _ N1) as (A1 & A2 & A3 & A4).
    set (v := Z.to_N _). cbn [with_tx wd_tx wd_rank].
    pose proof (set_votes_tmv pk_keyid st1 k a v (tm_inv _ _ _ _ _ M1) (tm_zero _ _ _ _ _ M1) Ha) as M2.
    fold (set_votes a v) in M2. set (st2 := set_mem st1 _) in *.
    pose proof (tmv_trans pk_keyid _ _ _ _ _ _ _ _ _ M1 M2 (fun _ _ _ => eq_refl) (fun _ => eq_refl)) as M.
    assert (Su : forall s, supply (commit st2) s = supply (commit (wd_tx w)) s).
    { intros s. pose proof (tm_sup _ _ _ _ _ M s) as X. unfold zeroS in X. lia. }
    constructor; auto.
    - eapply winv_tx; [exact I|exact M|reflexivity|apply I|apply I|]. intros s. cbn [with_rank with_tx wd_tx].
      fold st2. rewrite Su. apply (wi_supply w I s).
    - intros n X. apply A4 in X as [X| ->]; auto. right. apply (registered_not_native w cand k); auto.
    - rewrite A3. auto.
    - intros r k0 X. cbn [with_rank with_tx wd_tx]. rewrite (tm_reg _ _ _ _ _ M). exact X.
    - intros k0 s b X. exfalso. cbn [with_rank with_tx wd_tx] in X. fold st2 in X.
      pose proof (tm_bal _ _ _ _ _ M k0 s b) as Y. unfold zero3 in Y. lia.
    - intros r X. cbn in X. congruence.
    - intros s X. cbn in X. congruence.
    - intros s. cbn [with_rank with_tx wd_tx]. fold st2. rewrite Su. reflexivity.
    - cbn [with_rank with_tx wd_fuel]. lia.
  Qed.

  Lemma send_inv c t c' : send_inline c t = Done c' ->
    c_trx c' = c_trx c /\ c_recv c' = c_recv c /\ c_notified c' = c_notified c /\
    c_inlines c' = c_inlines c ++ [t] /\ forallb (allowed c t) (g_auth t) = true.
  Proof.
    unfold send_inline. destruct (forallb _ _) eqn:E; [|discriminate]. intros H; inversion H; subst. auto.
  Qed.

  Lemma mintrewards_heff c w0 c' w' :
    winv w0 -> c_recv c = wasmio_voting -> voting_mint pk_keyid e c w0 = Done (c', w') -> heff c c' w0 w'.
  Proof.
    intros I0 Hr H. apply heff_charge. unfold voting_mint in H. cbv zeta in H.
    set (w := charge e c w0) in *. assert (I : winv w) by (apply winv_charge; auto). clearbody w. clear I0.
    take H d1. rename n into to. take H d2. rename l into memo. clear H0 H1.
    apply guard_inv in H as [_ H]. apply guard_inv in H as [Hau H]. apply guard_inv in H as [_ H].
    apply guard_inv in H as [_ H]. apply bind_inv in H as ((k & w1) & G & H).
    destruct (account_of_inv _ _ _ _ I G) as (st1 & -> & M1 & Mk & Dk & Kk). cbn [with_tx wd_reward] in H.
    apply bind_inv in H as (w2 & H2 & H). apply guard_inv in H as [_ H]. apply bind_inv in H as (c1 & Sn & H).
    inversion H; subst c' w'; clear H. destruct (send_inv _ _ _ Sn) as (A1 & A2 & A3 & A4 & _).
    set (r := wd_reward w) in *.
    assert (X : exists st v r', w2 = with_reward (with_tx w st) r' /\
      tmv (wd_tx w) st (chg None (Some (k, BFree)) WICC v) (fun s => if String.eqb WICC s then Z.of_N v else 0%Z) /\
      r_new r' + v = r_new r).
    { assert (E0 : tmv (wd_tx w) st1 (chg None (Some (k, BFree)) WICC 0) (fun s => if String.eqb WICC s then Z.of_N 0 else 0%Z)).
      { destruct M1 as [X1 X2 X3 X4 X5 X6 X7 X8 X9]. constructor; auto.
        - intros. rewrite X8. unfold zero3, chg, at_place. destruct (_ && _); lia.
        - intros. rewrite X9. unfold zeroS. destruct (String.eqb WICC s); lia. }
      destruct (r_start r =? 0) eqn:Es.
      - inversion H2; subst w2. exists st1, 0, (mkReward (ev_height e) (r_new r) (r_total r) (r_last r) (r_height r)).
        split; [reflexivity|]. split; [exact E0|]. cbn. lia.
      - apply guard_inv in H2 as [_ H2]. apply bind_inv in H2 as (w3 & H3 & H2). inversion H2; subst w2; clear H2.
        destruct (r_new r =? 0) eqn:En.
        + inversion H3; subst w3. exists st1, 0. eexists. split; [reflexivity|]. split; [exact E0|]. cbn. lia.
        + unfold operate in H3. cbn [with_tx wd_tx] in H3.
          destruct (m_operate st1 k WICC AddFree (r_new r) None) as [[|] st3] eqn:Hm; [|discriminate].
          inversion H3; subst w3; clear H3. exists st3, (r_new r). eexists. split; [reflexivity|]. split; [|cbn; lia].
          assert (M3 := operate_tmv pk_keyid st1 k WICC AddFree (r_new r) None st3 (tm_inv _ _ _ _ _ M1) (tm_zero _ _ _ _ _ M1) Mk
            ltac:(discriminate) Hm).
          cbn [mint_of burn_of q_op q_other q_symbol q_amount debited credited] in M3.
          rewrite (eqb_same String.eqb String_eqb_ok) in M3.
          assert (Hb : supply (commit st1) WICC + r_new r < two64).
          { pose proof (supply_lt w WICC I) as X. pose proof (tm_sup _ _ _ _ _ M1 WICC) as Y. unfold zeroS in Y.
            change (pending w WICC) with (r_new r) in X. unfold two64. lia. }
          specialize (M3 Hb). eapply tmv_trans; [exact M1|exact M3|reflexivity|].
          intros s. unfold zeroS. destruct (String.eqb WICC s); lia. }
    clear H2. destruct X as (st & v & r' & -> & M & Hv).
    assert (Su : forall s, supply (commit st) s + pending (with_reward (with_tx w st) r') s = supply (commit (wd_tx w)) s + pending w s).
    { intros s. pose proof (tm_sup _ _ _ _ _ M s) as X. cbn beta in X. unfold pending. cbn [with_reward with_tx wd_reward]. fold r.
      change (String.eqb WICC s) with (String.eqb "WICC" s) in X. rewrite (String.eqb_sym "WICC" s) in X.
      destruct (String.eqb s "WICC"); lia. }
    constructor; auto.
    - eapply winv_tx; [exact I|exact M|reflexivity|apply I|apply I|]. intros s. pose proof (Su s) as Z; cbn [with_reward with_tx wd_tx] in *; rewrite Z; exact (wi_supply w I s).
    - rewrite A3. auto.
    - intros t Ht. rewrite A4 in Ht. apply in_app_iff in Ht as [Ht|[Ht|[]]]; auto. right. subst t. cbn [g_auth].
      intros p [<-|[]]. cbn. auto.
    - intros r0 k0 X. cbn [with_reward with_tx wd_tx]. rewrite (tm_reg _ _ _ _ _ M). exact X.
    - intros k0 s b X. exfalso. cbn [with_reward with_tx wd_tx] in X.
      pose proof (tm_bal _ _ _ _ _ M k0 s b) as Y. unfold chg in Y. cbn [at_place] in Y. lia.
    - intros r0 X. cbn in X. congruence.
    - intros s X. cbn in X. congruence.
    - intros s. specialize (Su s). cbn [with_reward with_tx wd_tx]. unfold recorded. cbn [with_reward with_tx wd_assets].
      cbn [with_reward with_tx wd_tx] in Su. lia.
    - cbn. lia.
  Qed.

  Lemma native_heff n c w c' w' :
    env_ok -> winv w -> c_recv c = n -> is_native n = true ->
    native pk_keyid e n c w = Done (c', w') -> heff c c' w w'.
  Proof.
    intros E I Hr Hn. unfold native. destruct (n =? wasmio) eqn:E1; [apply N.eqb_eq in E1; subst n; rewrite E1 in *; apply sys_heff; auto|].
    destruct (n =? wasmio_bank) eqn:E2; [apply N.eqb_eq in E2; subst n; rewrite E2 in *; apply bank_heff; auto|].
    assert (Ev : n = wasmio_voting) by (unfold is_native in Hn; lia). rewrite Ev in *.
    unfold voting. cbv zeta. destruct (_ =? n_vote); [apply vote_heff; auto|].
    destruct (_ =? n_mintrewards); [apply mintrewards_heff; auto|]. discriminate.
  Qed.
End Handlers.
