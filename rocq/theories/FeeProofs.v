From Coq Require Import String List Bool NArith ZArith Lia.
From Coq Require Import ZifyBool ZifyNat ZifyN.
From Verif Require Import Prelude PreludeFacts AccountModel AccountSpec AccountProofs TxModel TxSpec TxProofs
  FeeModel FeeSpec.
Import ListNotations.
Open Scope N_scope.
Ltac Zify.zify_post_hook ::= Z.div_mod_to_equations.

Lemma risk_le fee ratio : fee < two64 -> ratio <= 10000 -> risk_part fee ratio <= fee.
Proof.
  intros H R. unfold risk_part, mul64, ratio_boost.
  assert (fee * ratio mod two64 <= fee * ratio) by (apply N.mod_le; discriminate).
  assert (fee * ratio <= fee * 10000) by (apply N.mul_le_mono_l; auto). lia.
Qed.

Lemma risk_exact fee ratio : fee * ratio < two64 -> risk_part fee ratio = fee * ratio / 10000.
Proof. intros H. unfold risk_part. rewrite mul64_small; auto. Qed.

(** The list of shares in the order of the delegates. *)
Fixpoint shares_from (total n i : N) (m : nat) : list N :=
  match m with
  | O => []
  | S m' => miner_share total n i :: shares_from total n (i + 1) m'
  end.

Lemma shares_length total n : forall m i, List.length (shares_from total n i m) = m.
Proof. induction m; simpl; intros; auto. Qed.

Lemma shares_tail total n : forall m i, 0 < i -> shares_from total n i m = repeat (total / n) m.
Proof.
  induction m; simpl; intros i Hi; auto. rewrite IHm by lia. f_equal.
  unfold miner_share. destruct (i =? 0) eqn:E; auto. lia.
Qed.

Lemma shares_fair total m : total < two64 -> (0 < m)%nat ->
  fair_shares total (shares_from total (N.of_nat m) 0 m).
Proof.
  intros Ht Hm. destruct m as [|m]; [lia|]. set (n := N.of_nat (S m)).
  assert (Hn : n = N.of_nat m + 1) by (subst n; lia).
  assert (Hd : total = n * (total / n) + total mod n) by (apply N.div_mod; lia).
  assert (Hr : total mod n < n) by (apply N.mod_lt; lia).
  set (q := total / n) in *. set (r := total mod n) in *.
  assert (Hq : q + r <= total) by nia.
  assert (E : shares_from total n 0 (S m) = (q + r) :: repeat q m).
  { simpl. rewrite shares_tail by lia. f_equal. unfold miner_share. simpl.
    fold q r. apply add64_small. lia. }
  rewrite E. split.
  - simpl. rewrite nsum_repeat. nia.
  - simpl. rewrite repeat_length. intros a b Ha Hb.
    assert (Ha' : a <= q + r) by (destruct Ha as [<-|Ha]; [lia | apply repeat_spec in Ha; lia]).
    assert (Hb' : q <= b) by (destruct Hb as [<-|Hb]; [lia | apply repeat_spec in Hb; lia]).
    lia.
Qed.

Definition fee_shares (fee ratio : N) (m : nat) : list N :=
  shares_from (fee - risk_part fee ratio) (N.of_nat m) 0 m.

Section FeeProofs.
  Variable pk_keyid : N -> N.

  Lemma asset_loop_ok sender total n : forall ds i st st',
    tinv pk_keyid st -> l_get (t_mem st) sender <> None -> (forall s, supply (commit st) s < two64) ->
    asset_fee_loop pk_keyid sender total n i ds st = Some st' ->
    t_reg st' = t_reg st /\ t_orders st' = t_orders st /\
    moved pk_keyid st st' (fun k s b => if String.eqb s "WICC" && bucket_eqb b BFree
      then (Z.of_N (paid_to (t_reg st) ds (shares_from total n i (List.length ds)) k)
            - (if (k =? sender)%N then Z.of_N (nsum (shares_from total n i (List.length ds))) else 0))%Z
      else 0%Z) 0.
  Proof.
    induction ds as [|d ds IH]; intros i st st' T Hm Hs H; simpl in H.
    - inversion H; subst. split; auto. split; auto.
      eapply moved_ext; [apply moved_refl; auto| |reflexivity].
      intros k s b. unfold zero3. simpl. destruct (_ && _), (k =? sender); auto.
    - destruct (get_account pk_keyid st (UReg d)) as [[kd|] st1] eqn:G; [|discriminate].
      destruct (m_operate st1 sender WICC SubFree (miner_share total n i) (Some kd)) as [[|] st2] eqn:G2; [|discriminate].
      destruct (get_account_some _ _ _ _ _ T G) as (T1 & X1 & M1 & D1).
      pose proof (extends_moved _ _ _ T T1 X1) as V1.
      assert (Hk : forall k, Some kd = Some k -> l_get (t_mem st1) k <> None) by (intros k Hk; inversion Hk; subst; auto).
      assert (V2 := m_operate_moved _ st1 sender WICC SubFree _ (Some kd) st2 T1
        (mv_mem _ _ _ _ _ V1 _ Hm) Hk G2 eq_refl ltac:(reflexivity)
        ltac:(rewrite (mv_supply _ _ _ _ _ V1); auto)).
      assert (T2 : tinv pk_keyid st2) by apply V2.
      pose proof (moved_trans _ _ _ _ _ _ _ _ _ _ V1 V2 (fun _ _ _ => eq_refl) eq_refl) as W2.
      destruct (IH (i + 1) st2 st') as (R3 & O3 & V3); auto.
      { apply (mv_mem _ _ _ _ _ W2); auto. }
      { intros s. rewrite (mv_supply _ _ _ _ _ W2); auto. }
      assert (R2 : t_reg st2 = t_reg st /\ t_orders st2 = t_orders st).
      { destruct X1 as (_ & A & B & _). unfold m_operate in G2. destruct (l_operate _ _ _ _ _ _).
        inversion G2; subst. auto. }
      destruct R2 as [R2 O2]. split; [congruence|]. split; [congruence|].
      eapply moved_trans; [exact W2 | exact V3 | | reflexivity].
      intros k s b. simpl in D1. cbn [List.length shares_from paid_to nsum fold_right].
      rewrite R2, D1. unfold zero3. cbn [credited debited at_place]. unfold WICC.
      change (nsum (?a :: ?l)) with (a + nsum l).
      destruct (String.eqb s "WICC"), (bucket_eqb b BFree); simpl;
        destruct (k =? sender), (k =? kd); simpl; lia.
  Qed.

  Lemma asset_fee_ok sender fee ratio reserve ds st st' :
    tinv pk_keyid st -> (forall s, supply (commit st) s < two64) ->
    fee < two64 -> ratio <= 10000 ->
    process_asset_fee pk_keyid sender fee ratio reserve ds st = FOk st' ->
    tinv pk_keyid st' /\ t_reg st' = t_reg st /\ t_orders st' = t_orders st /\
    (forall s, supply (commit st') s = supply (commit st) s) /\
    (forall k, l_get (t_mem st) k <> None -> l_get (t_mem st') k <> None) /\
    fair_shares (fee - risk_part fee ratio) (fee_shares fee ratio (List.length ds)) /\
    wicc_moved (commit st) (commit st')
        (fun k => paid_to (t_reg st) (reserve :: ds)
           (risk_part fee ratio :: fee_shares fee ratio (List.length ds)) k)
        (fun k => if k =? sender then fee else 0).
  Proof.
    intros T Hs Hf Hr. unfold process_asset_fee.
    destruct (fget N.eqb (t_mem st) sender) as [a|] eqn:Ea; [|discriminate].
    destruct (_ <? fee); [discriminate|].
    destruct (get_account pk_keyid st (UReg reserve)) as [[r|] st1] eqn:G; [|discriminate].
    destruct (m_operate st1 sender WICC SubFree (risk_part fee ratio) (Some r)) as [[|] st2] eqn:G2; [|discriminate].
    set (total := sub64 fee (risk_part fee ratio)).
    pose proof (risk_le fee ratio Hf Hr) as Hle.
    assert (Ht : total = fee - risk_part fee ratio) by (unfold total; apply sub64_small; auto).
    intros H.
    assert (Hl : (0 < List.length ds)%nat /\
      asset_fee_loop pk_keyid sender total (N.of_nat (List.length ds)) 0 ds st2 = Some st').
    { destruct ds; [discriminate|]. destruct (asset_fee_loop _ _ _ _ _ _ _); [|discriminate].
      inversion H; subst. split; auto. simpl; lia. }
    clear H. destruct Hl as [Hlen Hloop].
    assert (Hm : l_get (t_mem st) sender <> None) by (unfold l_get; rewrite Ea; discriminate).
    destruct (get_account_some _ _ _ _ _ T G) as (T1 & X1 & M1 & D1).
    pose proof (extends_moved _ _ _ T T1 X1) as V1.
    assert (Hk : forall k, Some r = Some k -> l_get (t_mem st1) k <> None) by (intros k Hk; inversion Hk; subst; auto).
    assert (V2 := m_operate_moved _ st1 sender WICC SubFree _ (Some r) st2 T1
        (mv_mem _ _ _ _ _ V1 _ Hm) Hk G2 eq_refl ltac:(reflexivity)
        ltac:(rewrite (mv_supply _ _ _ _ _ V1); auto)).
    assert (T2 : tinv pk_keyid st2) by apply V2.
    pose proof (moved_trans _ _ _ _ _ _ _ _ _ _ V1 V2 (fun _ _ _ => eq_refl) eq_refl) as W2.
    assert (R2 : t_reg st2 = t_reg st /\ t_orders st2 = t_orders st).
    { destruct X1 as (_ & A & B & _). unfold m_operate in G2. destruct (l_operate _ _ _ _ _ _).
      inversion G2; subst. auto. }
    destruct R2 as [R2 O2].
    destruct (asset_loop_ok sender total (N.of_nat (List.length ds)) ds 0 st2 st') as (R3 & O3 & V3); auto.
    { apply (mv_mem _ _ _ _ _ W2); auto. }
    { intros s. rewrite (mv_supply _ _ _ _ _ W2); auto. }
    pose proof (moved_trans _ _ _ _ _ _ _ _ _ _ W2 V3 (fun _ _ _ => eq_refl) eq_refl) as W3.
    assert (Fair : fair_shares (fee - risk_part fee ratio) (shares_from total (N.of_nat (List.length ds)) 0 (List.length ds))).
    { rewrite <- Ht. apply shares_fair; auto. lia. }
    split; [apply W3|]. split; [congruence|]. split; [congruence|]. split; [apply W3|]. split; [apply W3|].
    unfold fee_shares. rewrite <- Ht in *.
    split; [exact Fair|].
    destruct Fair as [Fsum _].
    intros k s b. rewrite (mv_bal _ _ _ _ _ W3), R2. simpl in D1. cbn [paid_to]. rewrite D1, Fsum.
    unfold zero3. cbn [credited debited at_place]. unfold WICC.
    destruct (String.eqb s "WICC"), (bucket_eqb b BFree); simpl;
        destruct (k =? sender), (k =? r); simpl; lia.
  Qed.

  (** The chain of payments out of nothing made by the operator fee. *)
  Lemma add_free_step st who v st' :
    tinv pk_keyid st -> l_get (t_mem st) who <> None ->
    supply (commit st) "WICC" + v < two64 ->
    m_operate st who WICC AddFree v None = (true, st') ->
    tinv pk_keyid st' /\ t_reg st' = t_reg st /\ t_orders st' = t_orders st /\
    (forall s, supply (commit st') s = supply (commit st) s + if String.eqb s "WICC" then v else 0) /\
    (forall k, l_get (t_mem st) k <> None -> l_get (t_mem st') k <> None) /\
    wicc_moved (commit st) (commit st') (fun k => if k =? who then v else 0) (fun _ => 0).
  Proof.
    intros T Hm Hb H.
    destruct (m_operate_delta _ st who WICC AddFree v None st' T Hm ltac:(discriminate) H)
      as (T' & R & O & K & M & S & B); auto.
    split; auto. split; auto. split; auto. split.
    - intros s. specialize (S s). unfold burn_of, mint_of in S. cbn [q_op q_other q_symbol q_amount] in S.
      unfold WICC in S. rewrite (String.eqb_sym "WICC" s) in S. destruct (String.eqb s "WICC"); lia.
    - split; auto. intros k s b. rewrite B. cbn [credited debited at_place]. unfold WICC.
      destruct (k =? who), (String.eqb s "WICC"), (bucket_eqb b BFree); simpl; lia.
  Qed.

  Lemma operator_loop_ok total n : forall ds i st st',
    tinv pk_keyid st ->
    supply (commit st) "WICC" + nsum (shares_from total n i (List.length ds)) < two64 ->
    operator_fee_loop pk_keyid total n i ds st = Some st' ->
    tinv pk_keyid st' /\ t_reg st' = t_reg st /\ t_orders st' = t_orders st /\
    (forall s, supply (commit st') s = supply (commit st) s +
       if String.eqb s "WICC" then nsum (shares_from total n i (List.length ds)) else 0) /\
    (forall k, l_get (t_mem st) k <> None -> l_get (t_mem st') k <> None) /\
    wicc_moved (commit st) (commit st')
      (fun k => paid_to (t_reg st) ds (shares_from total n i (List.length ds)) k) (fun _ => 0).
  Proof.
    induction ds as [|d ds IH]; intros i st st' T Hb H; simpl in H.
    - inversion H; subst. split; auto. split; auto. split; auto. split.
      + intros s. simpl. destruct (String.eqb s "WICC"); lia.
      + split; auto. intros k s b. simpl. destruct (_ && _); lia.
    - destruct (get_account pk_keyid st (UReg d)) as [[kd|] st1] eqn:G; [|discriminate].
      destruct (m_operate st1 kd WICC AddFree (miner_share total n i) None) as [[|] st2] eqn:G2; [|discriminate].
      destruct (get_account_some _ _ _ _ _ T G) as (T1 & X1 & M1 & D1).
      pose proof (extends_moved _ _ _ T T1 X1) as V1. destruct X1 as (_ & R1 & O1 & _).
      cbn [List.length shares_from] in *. change (nsum (?a :: ?l)) with (a + nsum l) in *.
      destruct (add_free_step st1 kd (miner_share total n i) st2 T1 M1) with (2 := G2) as (T2 & R2 & O2 & S2 & M2 & B2).
      { rewrite (mv_supply _ _ _ _ _ V1). lia. }
      destruct (IH (i + 1) st2 st') as (T3 & R3 & O3 & S3 & M3 & B3); auto.
      { rewrite S2, (mv_supply _ _ _ _ _ V1). rewrite String.eqb_refl. lia. }
      split; auto. split; [congruence|]. split; [congruence|]. split.
      + intros s. rewrite S3, S2, (mv_supply _ _ _ _ _ V1). destruct (String.eqb s "WICC"); lia.
      + split. { intros k Hk. apply M3, M2, (mv_mem _ _ _ _ _ V1); auto. }
        intros k s b. rewrite B3, B2, (mv_bal _ _ _ _ _ V1). unfold zero3. cbn [paid_to].
        rewrite R2, R1. simpl in D1. rewrite D1. destruct (_ && _); lia.
  Qed.

  Lemma operator_fee_ok sender fee ratio reserve ds st st' :
    tinv pk_keyid st -> (forall s, supply (commit st) s < two64) ->
    l_get (t_mem st) sender <> None ->
    fee < two64 -> ratio <= 10000 ->
    process_operator_fee pk_keyid sender fee ratio reserve ds st = FOk st' ->
    tinv pk_keyid st' /\ t_reg st' = t_reg st /\ t_orders st' = t_orders st /\
    (forall s, supply (commit st') s = supply (commit st) s) /\
    (forall k, l_get (t_mem st) k <> None -> l_get (t_mem st') k <> None) /\
    fair_shares (fee - risk_part fee ratio) (fee_shares fee ratio (List.length ds)) /\
    wicc_moved (commit st) (commit st')
        (fun k => paid_to (t_reg st) (reserve :: ds)
           (risk_part fee ratio :: fee_shares fee ratio (List.length ds)) k)
        (fun k => if k =? sender then fee else 0).
  Proof.
    intros T Hs Hm Hf Hr. unfold process_operator_fee.
    destruct (m_operate st sender WICC SubFree fee None) as [[|] st0] eqn:G0; [|discriminate].
    destruct (get_account pk_keyid st0 (UReg reserve)) as [[r|] st1] eqn:G; [|discriminate].
    destruct (m_operate st1 r WICC AddFree (risk_part fee ratio) None) as [[|] st2] eqn:G2; [|discriminate].
    set (total := sub64 fee (risk_part fee ratio)).
    pose proof (risk_le fee ratio Hf Hr) as Hle.
    assert (Ht : total = fee - risk_part fee ratio) by (unfold total; apply sub64_small; auto).
    intros H.
    assert (Hl : (0 < List.length ds)%nat /\
      operator_fee_loop pk_keyid total (N.of_nat (List.length ds)) 0 ds st2 = Some st').
    { destruct ds; [discriminate|]. destruct (operator_fee_loop _ _ _ _ _ _); [|discriminate].
      inversion H; subst. split; auto. simpl; lia. }
    clear H. destruct Hl as [Hlen Hloop].
    destruct (m_operate_delta _ st sender WICC SubFree fee None st0 T Hm ltac:(discriminate) G0)
      as (T0 & R0 & O0 & K0 & M0 & S0 & B0). { cbn [mint_of q_op]. rewrite N.add_0_r. auto. }
    assert (S0' : forall s, supply (commit st0) s + (if String.eqb s "WICC" then fee else 0) = supply (commit st) s).
    { intros s. specialize (S0 s). unfold burn_of, mint_of in S0. cbn [q_op q_other q_symbol q_amount] in S0.
      unfold WICC in S0. rewrite (String.eqb_sym "WICC" s) in S0. lia. }
    clear S0.
    destruct (get_account_some _ _ _ _ _ T0 G) as (T1 & X1 & M1 & D1).
    pose proof (extends_moved _ _ _ T0 T1 X1) as V1. destruct X1 as (_ & R1 & O1 & _).
    assert (Sw := S0' "WICC"%string). rewrite String.eqb_refl in Sw. specialize (Hs "WICC"%string) as Hw.
    destruct (add_free_step st1 r (risk_part fee ratio) st2 T1 M1) with (2 := G2) as (T2 & R2 & O2 & S2 & M2 & B2).
    { rewrite (mv_supply _ _ _ _ _ V1). lia. }
    assert (Fair : fair_shares (fee - risk_part fee ratio) (shares_from total (N.of_nat (List.length ds)) 0 (List.length ds))).
    { rewrite <- Ht. apply shares_fair; auto. lia. }
    destruct Fair as [Fsum Fdiff].
    destruct (operator_loop_ok total (N.of_nat (List.length ds)) ds 0 st2 st') as (T3 & R3 & O3 & S3 & M3 & B3); auto.
    { rewrite Fsum, S2, (mv_supply _ _ _ _ _ V1), String.eqb_refl. lia. }
    split; auto. split; [congruence|]. split; [congruence|]. split.
    - intros s. rewrite S3, S2, (mv_supply _ _ _ _ _ V1), Fsum, <- S0'.
      destruct (String.eqb s "WICC"); lia.
    - split. { intros k Hk. apply M3, M2, (mv_mem _ _ _ _ _ V1), M0; auto. }
      unfold fee_shares. rewrite <- Ht in *. split; [split; auto|].
      intros k s b. rewrite B3, B2, (mv_bal _ _ _ _ _ V1), B0.
      replace (t_reg st2) with (t_reg st) by congruence. cbn [paid_to]. simpl in D1. rewrite R0 in D1.
      rewrite D1. unfold zero3. cbn [credited debited at_place]. unfold WICC.
      destruct (String.eqb s "WICC"), (bucket_eqb b BFree); simpl;
        destruct (k =? sender), (k =? r); simpl; lia.
  Qed.

  (** A whole transaction that charges the fee. *)
  Definition fee_body (charge : txst -> fee_outcome) (st : txst) : option txst :=
    match charge st with FOk st' => Some st' | _ => None end.

  Lemma fee_tx_ok e u fs fee0 (charge : N -> txst -> fee_outcome) fee ratio reserve ds st st' :
    (forall k st4 st5, charge k st4 = FOk st5 -> tinv pk_keyid st4 -> l_get (t_mem st4) k <> None ->
       (forall s, supply (commit st4) s < two64) ->
       tinv pk_keyid st5 /\ t_reg st5 = t_reg st4 /\ t_orders st5 = t_orders st4 /\
       (forall s, supply (commit st5) s = supply (commit st4) s) /\
       (forall k, l_get (t_mem st4) k <> None -> l_get (t_mem st5) k <> None) /\
       fair_shares (fee - risk_part fee ratio) (fee_shares fee ratio (List.length ds)) /\
       wicc_moved (commit st4) (commit st5)
         (fun k => paid_to (t_reg st4) (reserve :: ds)
            (risk_part fee ratio :: fee_shares fee ratio (List.length ds)) k)
         (fun j => if j =? k then fee else 0)) ->
    consistent pk_keyid (t_acc st) (t_reg st) -> NoDup (map fst (t_orders st)) ->
    (forall s, supply (t_acc st) s < two64) ->
    fget regid_eqb (t_reg st) (e_height e, e_index e) = None ->
    fee < two64 -> ratio <= 10000 ->
    execute_full pk_keyid e u fs fee0 (fun k => fee_body (charge k)) st = Some st' ->
    (forall s, supply (t_acc st') s + fee_in fs fee0 s = supply (t_acc st) s) /\
    exists k shares risk,
      denotes pk_keyid (t_reg st) u = Some k /\
      List.length shares = List.length ds /\ fair_shares (fee - risk) shares /\
      risk <= fee /\ (fee * ratio < two64 -> risk = fee * ratio / 10000) /\
      forall k' s b, Z.of_N (lbal (t_acc st') k' s b) = (Z.of_N (lbal (t_acc st) k' s b)
         - Z.of_N (at_place (Some (k, BFree)) fs fee0 k' s b)
         - Z.of_N (at_place (Some (k, BFree)) "WICC" fee k' s b)
         + (if String.eqb s "WICC" && bucket_eqb b BFree
            then Z.of_N (paid_to (t_reg st') (reserve :: ds) (risk :: shares) k') else 0))%Z.
  Proof.
    intros Hc C No Hs Hfr Hf Hr H.
    destruct (execute_full_ok pk_keyid e u fs fee0 (fun k => fee_body (charge k)) st st'
      (fun reg k k' s b => if String.eqb s "WICC" && bucket_eqb b BFree
         then (Z.of_N (paid_to reg (reserve :: ds)
            (risk_part fee ratio :: fee_shares fee ratio (List.length ds)) k')
              - (if (k' =? k)%N then Z.of_N fee else 0))%Z else 0%Z) 0
      (fun _ => fair_shares (fee - risk_part fee ratio) (fee_shares fee ratio (List.length ds))) C No Hs Hfr) with (4 := H)
      as (R1 & Fair & R2 & R3 & R4 & k & R5 & R6).
    - intros k st4 st5 Hb T4 M4 S4 _. unfold fee_body in Hb.
      destruct (charge k st4) as [x| |] eqn:E; inversion Hb; subst x.
      destruct (Hc _ _ _ E T4 M4 S4) as (A1 & A2 & A3 & A4 & A5 & A6 & A7).
      split; auto. constructor; auto.
      + now rewrite A2.
      + intros k' s b. rewrite A7, A2. destruct (_ && _), (k' =? k); lia.
      + rewrite A3. lia.
    - auto.
    - intros reg reg' k k0 s b E.
      assert (P : forall l vs, paid_to reg l vs k0 = paid_to reg' l vs k0).
      { induction l as [|d l IH]; intros [|v vs]; simpl; auto. now rewrite E, IH. }
      rewrite P. auto.
    - split; auto. exists k, (fee_shares fee ratio (List.length ds)), (risk_part fee ratio).
      split; auto. split; [apply shares_length|]. split; auto.
      split; [apply risk_le; auto|]. split; [apply risk_exact|].
      intros k' s b. rewrite R6. cbn [at_place].
      destruct (String.eqb s "WICC"), (bucket_eqb b BFree), (k' =? k); simpl; lia.
  Qed.
End FeeProofs.
