(** Proofs about positions: what liquidations and the lists do exactly. *)
From Coq Require Import String List Bool NArith ZArith Lia Permutation Sorted.
From Coq Require Import ZifyBool ZifyNat ZifyN.
From Verif Require Import Prelude PreludeFacts AccountModel AccountSpec AccountProofs TxModel TxProofs
  DexModel DexSpec DexProofs DoubleModel CdpModel CdpSpec CdpProofs CdpDouble CdpInv CdpActions CdpClose
  CdpForce CdpRatio.
Import ListNotations.
Open Scope N_scope.

(** ** Liquidations *)

Lemma penalty_net e st c id v st' :
  c_scoin c = "WUSD"%string -> penalty e st c id v = Done st' ->
  exists qs f x, money st qs st' /\ (v <> 0 -> reserve_of e st = Done f) /\ x <= v /\
    (forall k s b, net qs k s b =
       match b with
       | BFree => if (k =? f) && String.eqb s "WUSD" then Z.of_N (v - x) else 0%Z
       | BFrozen => if (k =? f) && String.eqb s "WUSD" then Z.of_N x else 0%Z
       | _ => 0%Z
       end) /\
    (forall s, mints s qs = if String.eqb "WUSD" s then v else 0).
Proof.
  intros C. unfold penalty. destruct (v =? 0) eqn:V.
  { intros H. injection H as <-. exists [], 0, 0. conj; [apply money_refl | lia | lia | |].
    - intros k s b. destruct b; cbn [net fold_right]; try reflexivity; destruct ((k =? 0) && String.eqb s "WUSD"); lia.
    - intros s. unfold mints; cbn [map nsum]. destruct (String.eqb "WUSD" s); [lia | reflexivity]. }
  intros H. step H as f F. step H as st1 H1. apply cop_money in H1. rewrite C in *.
  destruct (negb (e_r3 e) && (v <=? PENALTY_MIN)).
  { injection H as <-. eexists _, f, 0. conj; [exact H1 | auto | lia | |].
    - intros k s b. unfold net, net1. cbn [fold_right q_who q_op q_other q_symbol q_amount credited debited at_place bucket_eqb].
      destruct b; cbn [bucket_eqb]; rewrite ?andb_false_r, ?andb_true_r; destruct ((k =? f) && String.eqb s "WUSD"); lia.
    - intros s. unfold mints. cbn [map nsum mint_of q_op q_other q_symbol q_amount]. destruct (String.eqb "WUSD" s); lia. }
  step H as st2 H2. apply cop_money in H2. apply cplace_money in H.
  assert (X : v - v / 2 <= v) by lia.
  eexists _, f, (v - v / 2). conj; [exact (money_trans _ _ _ _ _ (money_trans _ _ _ _ _ H1 H2) H) | auto | exact X | |].
  - set (x := v - v / 2) in *. clearbody x. intros k s b. rewrite !net_app. unfold net, net1.
    cbn [fold_right q_who q_op q_other q_symbol q_amount credited debited internal at_place bucket_eqb].
    destruct b; cbn [bucket_eqb]; rewrite ?andb_false_r, ?andb_true_r; destruct ((k =? f) && String.eqb s "WUSD"); lia.
  - intros s. rewrite !mints_app. unfold mints. cbn [map nsum mint_of q_op q_other q_symbol q_amount].
    destruct (String.eqb "WUSD" s); lia.
Qed.

Section Effects.
  Variable junk : double -> N.
  Notation cinv := (cinv junk).

  (** A part of an amount below a whole that is paid in part. *)
  Lemma liquidate_effect P e st t st' :
    cinv P st -> pays_debt junk e st t -> liquidate junk e st t = Done st' ->
    exists c owner f s b o d x,
      fget N.eqb (c_cdps st) (q_cdp t) = Some c /\ account_of st (c_owner c) = Some owner /\
      (s <> d -> account_of st (n_reserve (e_dex e)) = Some f) /\
      d <= s <= q_scoins t /\ x <= s - d /\
      ((d = c_owed c /\ b + o = c_staked c /\ c_cdps st' = fdel N.eqb (c_cdps st) (c_id c)) \/
       (d < c_owed c /\ b + o < c_staked c /\ s = q_scoins t /\
        c_cdps st' = fput N.eqb (c_cdps st) (c_id c)
          (mkCdp (c_id c) (c_owner c) (c_height c) (c_bcoin c) (c_scoin c) (c_staked c - (b + o)) (c_owed c - d)))) /\
      (forall k sy bk, Z.of_N (lbal (ledger_of st') k sy bk) =
         (Z.of_N (lbal (ledger_of st) k sy bk) +
          liquidation_change (q_sender t) owner f (c_bcoin c) s b o d x k sy bk)%Z).
  Proof.
    intros I Pay H. unfold liquidate in H. step H as u1 G0. clear u1 G0.
    step H as a Ga. clear Ga. step H as u1 G1. clear u1 G1.
    step H as c Gc. apply need_done in Gc. step H as u2 G2. clear u2 G2. cbv zeta in H.
    step H as u3 G3. apply guard_done, N.leb_le in G3. step H as price Pr. step H as u4 G4. clear u3 u4 G4 a.
    step H as owner Ho. apply need_done, holder_done in Ho as (Ac & Ex). step H as k Hk.
    specialize (Pay _ _ _ Gc Pr Hk).
    destruct (open_of_get junk st _ _ (proj1 (proj2 I)) Gc) as (Op & Ei & _).
    destruct (proj1 (proj2 (proj2 I)) _ _ Gc) as (Q1 & Q2 & Q3 & Q4 & Q5 & Q6).
    destruct (closing_done _ _ _ _ _ Hk) as (Ks & Kt). destruct (Kt Q5) as (Kb & Kp). clear Kt.
    destruct (staked_pledged junk P st c owner I Op Ac) as (Lp & L63).
    assert (Lq : q_scoins t < two63).
    { rewrite free_of_lbal, Q1 in G3. destruct I as ((W & _ & Su) & _). specialize (Su "WUSD"%string).
      pose proof (lbal_le_supply (ledger_of st) (q_sender t) "WUSD" BFree W). unfold ledger_of in *. lia. }
    assert (Rv : forall st1 f, money st (hand_moves (q_sender t) owner (c_bcoin c) 0 0 0) st1 \/ d_reg (c_dex st1) = d_reg (c_dex st) ->
      reserve_of e st1 = Done f -> account_of st (n_reserve (e_dex e)) = Some f).
    { intros st1 f R X. unfold reserve_of in X. apply need_done, holder_done in X as (X & _).
      unfold account_of in *. destruct R as [R|R]; [rewrite (mo_reg _ _ _ R) in X | rewrite R in X]; exact X. }
    assert (Nh : forall s b o k' sy bk, net (hand_moves (q_sender t) owner (c_bcoin c) s b o) k' sy bk =
      liquidation_change (q_sender t) owner 0 (c_bcoin c) s b o s 0 k' sy bk).
    { intros s b o k' sy bk. unfold net, net1, hand_moves, liquidation_change. cbv zeta.
      cbn [fold_right q_who q_op q_other q_symbol q_amount credited debited internal at_place bucket_eqb].
      destruct bk; cbn [bucket_eqb]; rewrite ?andb_false_r, ?andb_true_r;
        destruct ((k' =? q_sender t) && String.eqb sy "WUSD"); destruct ((k' =? q_sender t) && String.eqb sy (c_bcoin c));
        destruct ((k' =? owner) && String.eqb sy (c_bcoin c)); destruct ((k' =? 0) && String.eqb sy "WUSD"); lia. }
    assert (Ad : forall f s b o d x v k' sy bk, v = s - d -> x <= v ->
      (liquidation_change (q_sender t) owner 0 (c_bcoin c) s b o s 0 k' sy bk +
       match bk with
       | BFree => if (k' =? f)%N && String.eqb sy "WUSD" then Z.of_N (v - x) else 0
       | BFrozen => if (k' =? f)%N && String.eqb sy "WUSD" then Z.of_N x else 0
       | _ => 0
       end)%Z = liquidation_change (q_sender t) owner f (c_bcoin c) s b o d x k' sy bk).
    { intros f s b o d x v k' sy bk -> Lx. unfold liquidation_change. cbv zeta.
      destruct bk; destruct ((k' =? q_sender t) && String.eqb sy "WUSD"); destruct ((k' =? q_sender t) && String.eqb sy (c_bcoin c));
        destruct ((k' =? owner) && String.eqb sy (c_bcoin c)); destruct ((k' =? 0) && String.eqb sy "WUSD");
        destruct ((k' =? f) && String.eqb sy "WUSD"); lia. }
    destruct (k_scoins k <=? q_scoins t) eqn:F.
    - apply N.leb_le in F. step H as st1 H1. step H as st2 H2. injection H as <-.
      apply hand_over_money in H1; [|assumption]. apply penalty_net in H2; [|assumption].
      destruct H2 as (qp & f & x & Mp & Rf & Lx & Np & Mip). rewrite (Kp Pay) in *.
      pose proof (money_trans _ _ _ _ _ H1 Mp) as M.
      destruct (hand_net (q_sender t) owner (c_bcoin c) (k_scoins k) (k_liquidator k) (k_owner k)) as (_ & Mih & _).
      exists c, owner, f, (k_scoins k), (k_liquidator k), (k_owner k), (c_owed c), x.
      conj; auto; try lia.
      + intros D. apply (Rv st1); [right; apply (mo_reg _ _ _ H1) | apply Rf; lia].
      + left. conj; auto. rewrite cdps_of_erased, (mo_cdps _ _ _ M). reflexivity.
      + intros k' sy bk.
        change (ledger_of (erase_cdp junk st2 c c)) with (ledger_of st2).
        destruct (ran_facts _ _ _ (mo_ran _ _ _ M) (proj1 (proj1 I))) as (_ & _ & Dl).
        { intros s. rewrite mints_app, Mih, Mip. destruct I as ((_ & _ & Su) & _). specialize (Su s). unfold ledger_of in *.
          destruct (String.eqb (c_bcoin c) s) eqn:E1; destruct (String.eqb "WUSD" s) eqn:E2.
          - apply String.eqb_eq in E1, E2. congruence.
          - clear - Ks L63 Su. unfold two63, two64 in *. lia.
          - clear - F Lq Su. unfold two63, two64 in *. lia.
          - clear - Su. unfold two63, two64 in *. lia. }
        rewrite Dl, net_app, Nh, Np, (Ad f _ _ _ (c_owed c) x _ k' sy bk eq_refl Lx). reflexivity.
    - apply N.leb_gt in F. set (rate := ddiv (of_N (q_scoins t)) (of_N (k_scoins k))) in *.
      step H as u1 Rt. apply asserted_done in Rt. clear u1.
      set (b := part_of junk (k_liquidator k) rate) in *. set (o := part_of junk (k_owner k) rate) in *.
      set (s := part_of junk (c_owed c) rate) in *.
      assert (Bb : b <= two63) by (apply part_bound63; [clear - Ks L63 | clear - Lq | exact Kb | clear - F | exact Rt]; unfold two63, two64 in *; lia).
      step H as st1 H1. step H as u1 T1. step H as u2 T2. apply asserted_done, N.ltb_lt in T1, T2. clear u1 u2.
      step H as c' Hc. unfold take_out in Hc. step Hc as u1 T3. step Hc as u2 T4. clear u1 u2 T3 T4. injection Hc as <-.
      step H as u1 T3. clear u1 T3. step H as st2 H2. unfold update_cdp in H. step H as u1 T3. clear u1 T3. injection H as <-.
      set (c' := resized c (c_height c) (c_staked c - add64 b o) (c_owed c - s)) in *.
      apply hand_over_money in H1; [|assumption]. apply penalty_net in H2; [|assumption].
      destruct H2 as (qp & f & x & Mp & Rf & Lx & Np & Mip).
      pose proof (money_trans _ _ _ _ _ H1 Mp) as M.
      rewrite (sub64_small (q_scoins t) s) in * by (try exact Pay; clear - Lq; unfold two63, two64 in *; lia).
      destruct (hand_net (q_sender t) owner (c_bcoin c) (q_scoins t) b o) as (_ & Mih & _).
      assert (B1 : forall y, supply (ledger_of st) y + mints y (hand_moves (q_sender t) owner (c_bcoin c) (q_scoins t) b o ++ qp) < two64).
      { intros y. rewrite mints_app, Mih, Mip. destruct I as ((_ & _ & Su) & _). specialize (Su y). unfold ledger_of in *.
        destruct (String.eqb (c_bcoin c) y) eqn:E1; destruct (String.eqb "WUSD" y) eqn:E2.
        * apply String.eqb_eq in E1, E2. congruence.
        * clear - Bb Su. unfold two63, two64 in *. lia.
        * clear - Lq Su. unfold two63, two64 in *. lia.
        * clear - Su. unfold two63, two64 in *. lia. }
      destruct (ran_facts _ _ _ (mo_ran _ _ _ M) (proj1 (proj1 I)) B1) as (_ & _ & Dl).
      assert (Lbo : b + o < two63).
      { specialize (Dl owner (c_bcoin c) BPledged). rewrite net_app, Nh, Np in Dl. unfold liquidation_change in Dl. cbv zeta in Dl.
        rewrite N.eqb_refl, String.eqb_refl in Dl. cbn [andb] in Dl.
        destruct I as ((W & _ & Su) & _). specialize (Su (c_bcoin c)).
        pose proof (lbal_le_supply (ledger_of st) owner (c_bcoin c) BPledged W). unfold ledger_of in *.
        clear - Dl Su H. lia. }
      assert (Ebo : add64 b o = b + o) by (apply add64_small; clear - Lbo; unfold two63, two64 in *; lia).
      exists c, owner, f, (q_scoins t), b, o, s, x. conj; auto; try lia.
      + intros D. apply (Rv st1); [right; apply (mo_reg _ _ _ H1) | apply Rf; clear - D Pay; lia].
      + right. conj; auto; [lia|]. rewrite cdps_of_updated, (mo_cdps _ _ _ M). unfold c', resized. rewrite Ebo. reflexivity.
      + intros k' sy bk. change (ledger_of (updated junk st2 c c')) with (ledger_of st2).
        rewrite Dl, net_app, Nh, Np, (Ad f _ _ _ s x _ k' sy bk eq_refl Lx). reflexivity.
  Qed.

  (** When the price covers the debt. *)
  Lemma pays_debt_when e st t :
    q_scoins t <> 0 -> q_scoins t < 4503599627370496 ->
    (forall c price, fget N.eqb (c_cdps st) (q_cdp t) = Some c -> price_of e (pair_of c) = Done price ->
       price < two64 /\ c_owed c < 1152921504606846976 /\ c_staked c < two63 /\
       c_staked c * price < two63 * 10000 * c_owed c /\
       e_param e (pair_of c) PNonReturn <= 100000 /\ e_param e (pair_of c) PDiscount <= 10000 /\
       100000000 < e_param e (pair_of c) PNonReturn * e_param e (pair_of c) PDiscount /\
       100000000 < (e_param e (pair_of c) PForce + 1) * e_param e (pair_of c) PDiscount) ->
    pays_debt junk e st t.
  Proof.
    intros Zq Hq H c price k Gc Pr Hk. destruct (H c price Gc Pr) as (A1 & A2 & A3 & A4 & A5 & A6 & A7 & A8).
    assert (Zp : price <> 0).
    { unfold price_of in Pr. cbv zeta in Pr. step Pr as u G. apply guard_done in G. injection Pr as <-. lia. }
    pose proof (terms_cover junk e c price k A2 A3 Zp A1 A4 A5 A6 A7 A8 Hk) as T.
    destruct (k_scoins k <=? q_scoins t) eqn:F; [exact T|]. apply N.leb_gt in F.
    destruct (closing_done _ _ _ _ _ Hk) as (_ & Kt). destruct Kt as (Kb & _); [unfold two64; lia|].
    apply part_covered; assumption.
  Qed.
End Effects.
