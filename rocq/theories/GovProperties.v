(** C19, C20, C39, C47, C48: governance proposals, governed parameters, cross-chain swaps. *)
From Coq Require Import String List Bool NArith ZArith.
From Verif Require Import Prelude PreludeFacts AccountModel AccountSpec TxModel TxSpec
  SysParamModel SysParamSpec SysParamProofs GovModel GovSpec GovProofs
  AxcModel AxcSpec AxcProofs.
Import ListNotations.
Open Scope N_scope.

(** C47. After a system-parameter proposal is executed, every parameter it sets to a non-zero
    value reads back as that value (the last one, if it is set twice), every parameter it does
    not mention reads as before, and no CDP parameter, fee or interest history changes. *)
Theorem c47_system_parameter_in_force :
  forall (h : N) (l : list (N * N)) (p : params) (ty d : N),
  fget N.eqb sys_table ty = Some d ->
  let p' := exec_sys h l p in
  (forall v, setting l ty = Some v -> v <> 0 -> get_param p' ty = Some v) /\
  (setting l ty = None -> get_param p' ty = get_param p ty) /\
  (forall cp t, get_cdp_param p' cp t = get_cdp_param p cp t) /\
  (forall t s, get_miner_fee p' t s = get_miner_fee p t s) /\ p_int p' = p_int p.
Proof.
  intros h l p ty d Hd p'. unfold p'.
  destruct (exec_sys_frame h l p) as (E1 & E2 & E3 & _).
  split; [|split; [|split; [|split]]].
  - intros v Hs Hv. rewrite exec_sys_get, Hs, Hd. cbn [option_map].
    apply N.eqb_neq in Hv. rewrite Hv. reflexivity.
  - intros Hs. rewrite exec_sys_get, Hs. reflexivity.
  - intros cp t. unfold get_cdp_param. rewrite E1. reflexivity.
  - intros t s. unfold get_miner_fee. rewrite E2. reflexivity.
  - exact E3.
Qed.
Print Assumptions c47_system_parameter_in_force.

(** The same for CDP parameters; those of other coin pairs are unchanged. *)
Theorem c47_cdp_parameter_in_force :
  forall (cp : string * string) (h : Z) (l : list (N * N)) (p p' : params) (ty d : N),
  exec_cdp cp h l p = Some p' -> fget N.eqb cdp_table ty = Some d ->
  (forall v, setting l ty = Some v -> v <> 0 -> get_cdp_param p' cp ty = Some v) /\
  (setting l ty = None -> get_cdp_param p' cp ty = get_cdp_param p cp ty) /\
  (forall cp' t, cp' <> cp -> get_cdp_param p' cp' t = get_cdp_param p cp' t) /\
  (forall t, get_param p' t = get_param p t) /\
  (forall t s, get_miner_fee p' t s = get_miner_fee p t s).
Proof.
  intros cp h l p p' ty d H Hd. destruct (exec_cdp_get cp h l p p' H) as (G & E1 & E2 & _).
  split; [|split; [|split; [|split]]].
  - intros v Hs Hv. rewrite G, Hs, (proj2 (pair_eqb2_ok cp cp) eq_refl), Hd. cbn [option_map].
    apply N.eqb_neq in Hv. rewrite Hv. reflexivity.
  - intros Hs. rewrite G, Hs. reflexivity.
  - intros cp' t Hn. rewrite G. destruct (setting l t); [|reflexivity].
    destruct (pair_eqb2 cp' cp) eqn:E; [|reflexivity]. apply pair_eqb2_ok in E. contradiction.
  - intros t. unfold get_param. rewrite E1. reflexivity.
  - intros t s. unfold get_miner_fee. rewrite E2. reflexivity.
Qed.
Print Assumptions c47_cdp_parameter_in_force.

(** A miner fee set by an accepted proposal is always the one read afterwards, and no other
    one changes. *)
Theorem c47_miner_fee_in_force :
  forall fee_symbol_ok fee_updatable (ty v : N) (s : string) (p : params),
  check_fee_proposal fee_symbol_ok fee_updatable ty s v = true ->
  let p' := exec_fee_proposal ty s v p in
  get_miner_fee p' ty s = Some v /\
  (forall ty' s', (ty', s') <> (ty, s) -> get_miner_fee p' ty' s' = get_miner_fee p ty' s') /\
  (forall t, get_param p' t = get_param p t) /\
  (forall cp t, get_cdp_param p' cp t = get_cdp_param p cp t).
Proof.
  intros f1 f2 ty v s p H p'. unfold check_fee_proposal in H. apply andb_true_iff in H.
  destruct H as [_ H]. apply negb_true_iff in H.
  unfold p', get_miner_fee, exec_fee_proposal, set_miner_fee. cbn [p_fee].
  split; [|split; [|split]]; try reflexivity.
  - rewrite (get_nz_put feekey_eqb feekey_eqb_ok), (proj2 (feekey_eqb_ok (ty, s) (ty, s)) eq_refl), H.
    reflexivity.
  - intros ty' s' Hn. rewrite (get_nz_put feekey_eqb feekey_eqb_ok).
    destruct (feekey_eqb (ty', s') (ty, s)) eqn:E; [|reflexivity].
    apply feekey_eqb_ok in E. contradiction.
Qed.
Print Assumptions c47_miner_fee_in_force.

(** The number of block producers: from the effective height on it is the new one; below, it
    is the one in force at the height of execution. *)
Theorem c47_block_producers_in_force :
  forall (ini h size effective : N) (p : params),
  check_bps_proposal size = true -> get_total_bps ini p h <> 0 ->
  let p' := exec_bps_proposal ini h size effective p in
  forall x, get_total_bps ini p' x =
    if effective <=? x then size else get_total_bps ini p h.
Proof.
  intros ini h size eff p H Hz p' x. unfold check_bps_proposal in H. apply negb_true_iff in H.
  unfold p', exec_bps_proposal. unfold get_total_bps at 1. unfold set_bps. cbn [p_bps p_newbps fst snd].
  apply N.eqb_neq in Hz. rewrite H, andb_false_r, Hz. destruct (eff <=? x); reflexivity.
Qed.
Print Assumptions c47_block_producers_in_force.

Example c47_example :
  let p := exec_sys 500 [(3, 25); (26, 5000); (3, 30)] params0 in
  check_sys (fun _ => true) (fun _ => 3) 500 [(3, 25); (26, 5000); (3, 30)] = true /\
  get_param p 3 = Some 30 /\ get_param p 26 = Some 5000 /\ get_param p 27 = Some 4000 /\
  option_map (fun q => (get_cdp_param q ("WICC", "WUSD")%string 13, get_cdp_param q ("WETH", "WUSD")%string 13))
    (exec_cdp ("WICC", "WUSD")%string 500 [(13, 60)] p) = Some (Some 60, Some 30) /\
  get_total_bps 11 (exec_bps_proposal 11 500 21 4100 p) 4099 = 11 /\
  get_total_bps 11 (exec_bps_proposal 11 500 21 4100 p) 4100 = 21.
Proof. vm_compute. repeat split. Qed.

(** The claim as first stated is false at zero: zero is an allowed value of several
    parameters, but it is stored as the cache's empty value and reads back as the default.
    ASSET_RISK_FEE_RATIO (26) stays at 40 percent and the swap fee ratio (28) at 0.2. *)
Theorem c47_zero_refuted :
  exists (l : list (N * N)) (p : params),
    check_sys (fun _ => true) (fun _ => 3) 500 l = true /\
    setting l 26 = Some 0 /\ get_param (exec_sys 500 l p) 26 = Some 4000 /\
    setting l 28 = Some 0 /\ get_param (exec_sys 500 l p) 28 = Some 20.
Proof. exists [(26, 0); (28, 0)], params0. vm_compute. repeat split. Qed.
Print Assumptions c47_zero_refuted.

(** A change of the number of block producers that is not effective yet is lost when another
    one is executed: between the two effective heights the old number applies again. *)
Theorem c47_pending_block_producers_refuted :
  exists (p : params) (h1 size1 eff1 h2 size2 eff2 x : N),
    let p1 := exec_bps_proposal 11 h1 size1 eff1 p in
    let p2 := exec_bps_proposal 11 h2 size2 eff2 p1 in
    h1 < h2 /\ h1 + 3600 <= eff1 /\ h2 + 3600 <= eff2 /\ eff1 <= x < eff2 /\
    check_bps_proposal size1 = true /\ check_bps_proposal size2 = true /\
    get_total_bps 11 p1 x = size1 /\ get_total_bps 11 p2 x <> size1.
Proof.
  exists params0, 1000, 21, 5000, 3000, 31, 8000, 6000. vm_compute. repeat split; discriminate.
Qed.
Print Assumptions c47_pending_block_producers_refuted.

(** C48. For any history of executed interest-parameter changes (non-zero values, in order of
    block heights) and any range of heights, the periods used for charging interest divide the
    range exactly, and each height in a period is charged with the latest values set at or
    before it, the defaults 2 and 1 before the first change. *)
Theorem c48_interest_periods :
  forall (cs : list change) (p : params) (cp : string * string) (b e : Z),
  exec_changes cs params0 = Some p ->
  (forall c, In c cs -> g_value c <> 0) -> heights_ascend cs -> (b <= e)%Z ->
  let ps := get_interest_changes p cp b e in
  tiles b e (map as_range ps) /\
  forall d x, In d ps -> (d_from d <= x <= d_to d)%Z ->
    d_a d = value_at 2 cs cp INTEREST_A x /\ d_b d = value_at 1 cs cp INTEREST_B x.
Proof. exact interest_periods. Qed.
Print Assumptions c48_interest_periods.

Definition ex_changes : list change :=
  [ mkChange ("WICC", "WUSD") 100 10 3; mkChange ("WICC", "WUSD") 100 11 2;
    mkChange ("WICC", "WUSD") 150 13 60; mkChange ("WETH", "WUSD") 160 10 9;
    mkChange ("WICC", "WUSD") 200 10 5 ]%string.

Example c48_example :
  (exists p, exec_changes ex_changes params0 = Some p /\
     get_interest_changes p ("WICC", "WUSD")%string 50 250
     = [mkPeriod 50 99 2 1; mkPeriod 100 199 3 2; mkPeriod 200 250 5 2]%Z) /\
  (forall c, In c ex_changes -> g_value c <> 0) /\ heights_ascend ex_changes.
Proof.
  split; [exists (match exec_changes ex_changes params0 with Some p => p | None => params0 end);
          split; vm_compute; reflexivity|]. split.
  - intros c H. simpl in H. intuition (subst; discriminate).
  - cbn. repeat split; intros c' Hc; intuition (subst; discriminate).
Qed.

(** With the allowed value zero for parameter A the claim is false: after setting A to 0 and
    later B to 5, the second change records A as its default 2. *)
Theorem c48_zero_refuted :
  exists (cs : list change) (p : params) (d : period),
    exec_changes cs params0 = Some p /\ heights_ascend cs /\
    forallb (fun c => check_range cdp_range (g_type c) (g_value c)) cs = true /\
    In d (get_interest_changes p ("WICC", "WUSD")%string 0 30) /\ (d_from d <= 25 <= d_to d)%Z /\
    d_a d <> value_at 2 cs ("WICC", "WUSD")%string INTEREST_A 25.
Proof.
  exists [mkChange ("WICC", "WUSD") 10 10 0; mkChange ("WICC", "WUSD") 20 11 5]%string.
  eexists. exists (mkPeriod 20 30 2 5).
  split; [reflexivity|]. split; [cbn; repeat split; intros; intuition (subst; discriminate)|].
  split; [reflexivity|]. split; [vm_compute; auto|]. split; [cbn; split; discriminate|]. vm_compute. discriminate.
Qed.
Print Assumptions c48_zero_refuted.

(** C20. The claim as stated is false: every value of a proposal is checked against the stored
    values only, so two values of one proposal can contradict each other. *)
Theorem c20_two_ratios_refuted :
  exists (p : params) (cp : string * string) (l : list (N * N)) (p' : params),
    ratios_ok p cp /\ check_cdp p cp l = true /\ exec_cdp cp 700 l p = Some p' /\
    get_cdp_param p' cp START_COLLATERAL = Some 15001 /\
    get_cdp_param p' cp START_LIQUIDATE = Some 18999 /\ ~ ratios_ok p' cp.
Proof.
  exists params0, ("WICC", "WUSD")%string, [(4, 15001); (5, 18999)]. eexists.
  split; [exists 19000, 15000, 10400, 9700; vm_compute; repeat split; discriminate|].
  split; [reflexivity|]. split; [reflexivity|]. split; [reflexivity|]. split; [reflexivity|].
  intros (sc & sl & fl & ld & H1 & H2 & _ & _ & H & _). vm_compute in H1, H2.
  inversion H1; subst. inversion H2; subst. vm_compute in H. discriminate.
Qed.
Print Assumptions c20_two_ratios_refuted.

(** What holds: a checked proposal that sets at most one of the four ratios keeps their order
    and the lower bound on forced ratio times discount. *)
Theorem c20_one_ratio_keeps_order :
  forall (p : params) (cp : string * string) (l : list (N * N)) (h : Z) (p' : params) (k : N),
  ratios_ok p cp -> check_cdp p cp l = true -> exec_cdp cp h l p = Some p' ->
  (forall ty v, In (ty, v) l -> is_ratio ty = true -> ty = k) ->
  ratios_ok p' cp.
Proof. exact exec_cdp_ratios. Qed.
Print Assumptions c20_one_ratio_keeps_order.

Example c20_example :
  let cp := ("WICC", "WUSD")%string in
  ratios_ok params0 cp /\ check_cdp params0 cp [(13, 60); (4, 25000)] = true /\
  check_cdp params0 cp [(4, 14000)] = false /\
  option_map (fun p => get_cdp_param p cp 4) (exec_cdp cp 700 [(13, 60); (4, 25000)] params0)
    = Some (Some 25000).
Proof.
  cbv zeta. split; [exists 19000, 15000, 10400, 9700; vm_compute; repeat split; discriminate|].
  vm_compute. auto.
Qed.

(** C19. Whatever the proposals check and do, whatever else happens to the state, in any run
    in which no proposal id is requested twice: each accepted approval comes from an account
    that may approve at that moment and has not approved before, concerns a requested
    proposal that has not expired and is not yet approved; the proposal happens exactly with
    the approval that completes the number fixed at its request; so it happens at most once. *)
Theorem c19_executed_at_most_once :
  forall (A P : Type) by_delegates is_axc is_axc_out delegates stored_governors expire_count
         genesis_height check exec sign own
         (es : list (@event A P)) (a : A) g' tr,
  run by_delegates is_axc is_axc_out delegates stored_governors expire_count genesis_height
    check exec sign own (gov0 a) es = (g', tr) ->
  NoDup (requested_ids tr) ->
  (forall id, (happenings tr id <= 1)%nat) /\
  (forall t1 x t2, tr = t1 ++ x :: t2 -> good_entry t1 x).
Proof.
  intros. split; [eapply happen_once; eauto | eapply happen_good; eauto].
Qed.
Print Assumptions c19_executed_at_most_once.

(** The effect: only the completing approval changes the rest of the state, and it does so by
    what the stored proposal does, after its check succeeded. *)
Theorem c19_effect :
  forall (A P : Type) by_delegates is_axc_out delegates stored_governors genesis_height check
         exec sign (g g' : @gov A P) (id : N) (who : N * N) (h : N) (s now : bool),
  approve by_delegates is_axc_out delegates stored_governors genesis_height check exec sign
    g id who h s = Some (g', now) ->
  exists pr, fget N.eqb (v_props g) id = Some pr /\
    if now then check (pr_body pr) (v_rest g) h = true /\
                exec (pr_body pr) (v_rest g) h (get_approvals g id ++ [who]) = Some (v_rest g')
    else v_rest g' = v_rest g.
Proof.
  intros A P bd ao de sg gh ch ex si g g' id who h s now H.
  eapply approve_some in H. destruct H as (pr & E & _ & _ & _ & _ & _ & _ & _ & _ & F). eauto.
Qed.
Print Assumptions c19_effect.

(** The number fixed at the request is at least two thirds of those entitled, as long as
    there are at most 382 of them. *)
Theorem c19_two_thirds : forall n, n <= 382 -> 2 * n <= 3 * majority n /\ majority n <= n.
Proof.
  intros n H. unfold majority.
  assert (E : n / 3 * 3 <= n /\ n < (n / 3 + 1) * 3).
  { pose proof (N.div_mod n 3 ltac:(discriminate)). pose proof (N.mod_lt n 3 ltac:(discriminate)). Lia.lia. }
  rewrite N.mod_small; [Lia.lia|]. change two8 with 256. Lia.lia.
Qed.
Print Assumptions c19_two_thirds.

(** With 383 governors the number, kept in one byte, becomes zero, and a proposal requested
    then can never be approved. *)
Theorem c19_byte_count_refuted :
  majority 383 = 0 /\
  forall (A P : Type) by_delegates is_axc_out delegates stored_governors genesis_height check
         exec sign (g : @gov A P) (id : N) pr (who : N * N) (h : N) (s : bool),
  fget N.eqb (v_props g) id = Some pr -> pr_min pr = majority 383 ->
  approve by_delegates is_axc_out delegates stored_governors genesis_height check exec sign
    g id who h s = None.
Proof.
  split; [reflexivity|]. intros A P bd ao de sg gh ch ex si g id pr who h s E Hm.
  unfold approve. rewrite E, Hm. destruct (is_governor _ _ _ _ _ _ _); [|reflexivity]. cbn [negb].
  destruct (ao (pr_body pr) && negb s); [reflexivity|].
  replace (majority 383 <=? _) with true; [reflexivity|]. symmetry. apply N.leb_le.
  change (majority 383) with 0. apply N.le_0_l.
Qed.
Print Assumptions c19_byte_count_refuted.

(** A small instance: the state is the list of governors and a counter; a proposal either adds
    to the counter or replaces the governors. *)
Section Instance.
  Definition exA := (list (N * N) * N)%type.
  Definition exP := (N + list (N * N))%type.
  Definition ex_exec (p : exP) (a : exA) (_ : N) (_ : list (N * N)) : option exA :=
    match p with inl v => Some (fst a, snd a + v) | inr g => Some (g, snd a) end.
  Definition ex_run :=
    run (A := exA) (P := exP) (fun _ => false) (fun _ => false) (fun _ => false) (fun _ => None)
      fst (fun _ => 1200) 100 (fun _ _ _ => true) ex_exec (fun p => p) (fun p _ => p).
  Definition g1 : N * N := (7, 1).  Definition g2 : N * N := (7, 2).  Definition g3 : N * N := (7, 3).
  Definition g4 : N * N := (7, 4).

  Example c19_example :
    let r := ex_run (gov0 ([g1; g2; g3], 0))
      [ERequest 1 (inl 5) g4 1000; EApprove 1 g1 1001 true; EApprove 1 g1 1002 true;
       EApprove 1 g4 1002 true; EApprove 1 g3 1003 true; EApprove 1 g2 1004 true;
       ERequest 2 (inl 7) g4 1005; EApprove 2 g1 2206 true] in
    snd (v_rest (fst r)) = 5 /\
    snd r = [Requested 1 2 2200; Approved 1 g1 1001 [g1; g2; g3] false;
             Approved 1 g3 1003 [g1; g2; g3] true; Requested 2 2 2205] /\
    NoDup (requested_ids (snd r)).
  Proof.
    vm_compute. repeat split. repeat (apply NoDup_cons; [cbn; intuition discriminate|]). apply NoDup_nil.
  Qed.

  (** An approval counts even if its author is no longer a governor when the proposal
      happens: those approving need not form two thirds of any one set of governors. *)
  Theorem c19_former_governor_counts_refuted :
    exists (es : list event) g' tr,
      ex_run (gov0 ([g1; g2; g3], 0)) es = (g', tr) /\ NoDup (requested_ids tr) /\
      happenings tr 1 = 1%nat /\
      (exists w, In w (approvers tr 1) /\ ~ In w (fst (v_rest g')) ).
  Proof.
    exists [ERequest 1 (inl 5) g4 1000; EApprove 1 g1 1001 true; EOther ([g2; g3], 0);
            EApprove 1 g2 1003 true].
    eexists. eexists. split; [vm_compute; reflexivity|].
    split; [repeat (apply NoDup_cons; [cbn; intuition discriminate|]); apply NoDup_nil|].
    split; [reflexivity|]. exists g1. vm_compute. split; [auto|]. intuition discriminate.
  Qed.

  (** The hypothesis on ids is needed: a request repeated under the same id with more
      governors makes the proposal happen again. (Ids are transaction hashes; that a
      transaction is not confirmed twice is C27.) *)
  Example c19_repeated_request :
    let r := ex_run (gov0 ([g1; g2], 0))
      [ERequest 1 (inl 5) g4 1000; EApprove 1 g1 1001 true; EApprove 1 g2 1001 true;
       EOther ([g1; g2; g3; g4], 5); ERequest 1 (inl 5) g4 1002; EApprove 1 g3 1003 true] in
    happenings (snd r) 1 = 2%nat.
  Proof. reflexivity. Qed.
End Instance.
Print Assumptions c19_former_governor_counts_refuted.

(** C39. One swap-in, in a state in which the supply of each mirrored asset is recorded and
    the fee ratio is in its allowed range: it was not minted for this foreign transaction
    before, it is recorded, exactly the swapped amount comes into existence, and each account
    receives exactly its share: every approving governor the same part of the fee, the gateway
    the rest of the fee, the receiver the amount without the fee. *)
Theorem c39_swap_in_exact :
  forall (pk_keyid : N -> N) (x : axc) (p : swap_in) (l : list (N * N)) (x' : axc),
  axc_inv x -> axc_step pk_keyid x (AIn p l) = Some x' ->
  exists sp fees t,
    fget String.eqb (x_by_peer x) (i_peer p) = Some sp /\
    swap_fees (x_ratio x) (i_amount p) = Some fees /\ 5 * fees <= i_amount p /\
    fget mintkey_eqb (x_minted x') (sp_chain sp, i_txid p) = Some (i_amount p - fees) /\
    0 < i_amount p - fees /\
    mint_record x (sp_chain sp) (i_txid p) = None /\
    (forall c, c <> (sp_chain sp, i_txid p) ->
       fget mintkey_eqb (x_minted x') c = fget mintkey_eqb (x_minted x) c) /\
    fget String.eqb (x_assets x) (sp_self sp) = Some t /\
    fget String.eqb (x_assets x') (sp_self sp) = Some (t + i_amount p) /\
    (forall s, s <> sp_self sp -> fget String.eqb (x_assets x') s = fget String.eqb (x_assets x) s) /\
    supply (x_ledger x') (sp_self sp) = supply (x_ledger x) (sp_self sp) + i_amount p /\
    (forall s, s <> sp_self sp -> supply (x_ledger x') s = supply (x_ledger x) s) /\
    (forall k s b, lbal (x_ledger x') k s b = lbal (x_ledger x) k s b +
       (if String.eqb s (sp_self sp) && bucket_eqb b BFree
        then share pk_keyid x p l fees k else 0)) /\
    ledger_wf (x_ledger x') /\ t + i_amount p <= MAX_SUPPLY /\ x_ratio x' = x_ratio x.
Proof. exact swap_in_ok. Qed.
Print Assumptions c39_swap_in_exact.

(** The fee, computed in floating point, is defined and differs from the exact ratio of the
    amount by less than one unit and a relative error of 2^-50. *)
Theorem c39_fee_accurate :
  forall r a : N, r <= 1000 -> DUST <= a -> a <= MAX_SUPPLY ->
  exists f, swap_fees r a = Some f /\ 5 * f <= a /\
    (Z.abs (10000 * Z.of_N f - Z.of_N r * Z.of_N a) * 2 ^ 50
       <= 10000 * 2 ^ 50 + Z.of_N r * Z.of_N a)%Z.
Proof. exact swap_fees_ok. Qed.
Print Assumptions c39_fee_accurate.

(** Histories of swap-ins, swap-outs and anything else that keeps the totals of recorded
    assets: the recorded supply plus all that was burned is the initial one plus all that was
    minted, the coins in existence are what is recorded, and no foreign transaction is used
    twice, nor one already used before. *)
Theorem c39_swap_history :
  forall (pk_keyid : N -> N) (es : list axc_event) (x x' : axc) (tr : list swapped),
  axc_inv x -> else_ok pk_keyid x es -> axc_run pk_keyid x es = (x', tr) ->
  axc_inv x' /\
  (forall s, recorded x' s + burned tr s = recorded x s + minted tr s) /\
  (forall s, fget String.eqb (x_assets x) s <> None -> fget String.eqb (x_assets x') s <> None) /\
  NoDup (used tr) /\
  (forall c t, In (c, t) (used tr) -> mint_record x c t = None /\ mint_record x' c t <> None) /\
  (forall c t, mint_record x c t <> None -> mint_record x' c t <> None).
Proof. exact axc_run_ok. Qed.
Print Assumptions c39_swap_history.

Section AxcInstance.
  Open Scope string_scope.
  Definition ex_acc (k h i : N) : account :=
    mkAccount k (h, i) None [("WICC", mkToken 1000 0 0 0 0)] 0 0 0 all_perms.
  Definition ex_sp : swap_pair := mkPair "mETH" "ETH" 2 true.
  Definition ex_axc : axc :=
    mkAxc [(1, ex_acc 1 7 1); (2, ex_acc 2 7 2); (3, ex_acc 3 7 3); (4, ex_acc 4 7 4)]
      [((7, 1), 1); ((7, 2), 2); ((7, 3), 3); ((7, 4), 4)]
      [("mETH", 0)] [("ETH", ex_sp)] [("mETH", ex_sp)] [] 20 (7, 3).
  Definition txid_lo : string := "0x8fabc0000000000000000000000000000000000000000000000000000000000d".
  Definition txid_up : string := "0x8FABC0000000000000000000000000000000000000000000000000000000000D".
  Definition ex_in (t : string) : axc_event :=
    AIn (mkIn "ETH" 42 t (UReg (7, 4)) 1000000) [(7, 1); (7, 2)].

  Lemma ex_axc_inv : axc_inv ex_axc.
  Proof.
    constructor.
    - split.
      + cbn; repeat (apply NoDup_cons; [cbn; intuition discriminate|]); apply NoDup_nil.
      + intros k a H. apply (fget_in N.eqb N_eqb_ok) in H. cbn in H.
        repeat destruct H as [H|H]; inversion H; reflexivity.
    - vm_compute. discriminate.
    - intros s t H. cbn [x_assets ex_axc fget] in H.
      destruct (String.eqb_spec s "mETH"); [|discriminate]. inversion H; subst.
      split; [reflexivity | vm_compute; discriminate].
  Qed.

  Example c39_example :
    let r := axc_run (fun p => p) ex_axc
      [ex_in txid_lo; ex_in txid_lo; AOut (mkOut "mETH" 40 (UReg (7, 4)) 300000)] in
    snd r = [Minted "mETH" 2 txid_lo 1000000; Burned "mETH" 300000] /\
    recorded (fst r) "mETH" = 700000%N /\
    map (fun k => lbal (x_ledger (fst r)) k "mETH" BFree) [1; 2; 3; 4]%N = [400; 400; 1200; 698000]%N /\
    else_ok (fun p => p) ex_axc
      [ex_in txid_lo; ex_in txid_lo; AOut (mkOut "mETH" 40 (UReg (7, 4)) 300000)].
  Proof. vm_compute. repeat split. Qed.

  (** A foreign transaction is identified by the text of its id: the same hexadecimal id
      written with capital letters mints a second time. *)
  Theorem c39_txid_text_refuted :
    exists (es : list axc_event) (x' : axc) (tr : list swapped),
      axc_inv ex_axc /\ else_ok (fun p => p) ex_axc es /\
      axc_run (fun p => p) ex_axc es = (x', tr) /\
      tr = [Minted "mETH" 2 txid_lo 1000000; Minted "mETH" 2 txid_up 1000000].
  Proof.
    exists [ex_in txid_lo; ex_in txid_up]. eexists. eexists.
    split; [exact ex_axc_inv|]. split; [cbn [else_ok ex_in]; auto|].
    split; [vm_compute; reflexivity|reflexivity].
  Qed.
End AxcInstance.
Print Assumptions c39_txid_text_refuted.
