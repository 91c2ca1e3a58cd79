(** Proofs about cross-chain swaps. *)
From Coq Require Import String List Bool Arith NArith ZArith Reals Lia Lra.
From Flocq Require Import Core.
From Flocq Require Import BinarySingleNaN.
From Verif Require Import Prelude PreludeFacts AccountModel AccountSpec AccountProofs TxModel
  TxSpec TxProofs DoubleModel DoubleFacts AxcModel AxcSpec.
Import ListNotations.
Open Scope N_scope.

Lemma mintkey_eqb_ok : forall a b, mintkey_eqb a b = true <-> a = b.
Proof.
  intros [a1 a2] [b1 b2]. unfold mintkey_eqb; cbn [fst snd]. rewrite andb_true_iff, String.eqb_eq, N.eqb_eq.
  split; [intros [-> ->]; auto | intros H; inversion H; auto].
Qed.

(** ** The fee in double arithmetic *)

Section Fee.
Open Scope R_scope.

Lemma big_small x : 1 <= x -> bpow radix2 (-1000) <= Rabs x.
Proof.
  intros H. rewrite Rabs_pos_eq by lra. eapply Rle_trans; [|exact H].
  change 1 with (bpow radix2 0). apply bpow_le. lia.
Qed.

Lemma le_bpow x b : (0 <= b <= 1000)%Z -> 0 <= x -> x <= IZR (2 ^ b) -> Rabs x <= bpow radix2 b.
Proof.
  intros Hb H0 H. rewrite Rabs_pos_eq by auto. eapply Rle_trans; [exact H|].
  rewrite <- IZR_Zpower by lia. apply Rle_refl.
Qed.

Lemma fees_real (r a : Z) : (0 <= r <= 1000)%Z -> (10000 <= a <= 9000000000000000000)%Z ->
  let d := dmul (of_Z r) (ddiv (dmul (of_Z a) (of_Z 1)) (of_Z 10000)) in
  is_finite d = true /\ 0 <= val d /\
  Rabs (val d - IZR r * IZR a / 10000) <= / 1125899906842624 * (IZR r * IZR a / 10000).
Proof.
  intros Hr Ha. cbv zeta.
  assert (HR : 0 <= IZR r <= 1000) by (split; apply IZR_le; lia).
  assert (HA : 10000 <= IZR a <= 9000000000000000000) by (split; apply IZR_le; lia).
  destruct (of_Z_exact r ltac:(lia)) as [Fr Vr].
  destruct (of_Z_exact 1 ltac:(lia)) as [F1 V1].
  destruct (of_Z_exact 10000 ltac:(lia)) as [F10 V10].
  destruct (of_Z_ok a) as [Fa Va].
  { rewrite Z.abs_eq by lia. apply Z.le_trans with (2 ^ 64)%Z; [lia|apply Z.pow_le_mono_r; lia]. }
  assert (E1 : Rabs (rnd (IZR a) - IZR a) <= eps * Rabs (IZR a)) by (apply rnd_err, big_small; lra).
  rewrite <- Va in E1. set (v1 := val (of_Z a)) in *.
  rewrite (Rabs_pos_eq (IZR a)) in E1 by lra. rewrite eps_val in E1. apply Rabs_le_inv in E1.
  assert (B1 : 9000 <= v1 <= 10000000000000000000) by lra.
  destruct (dmul_ok (of_Z a) (of_Z 1) 100) as [F2 V2]; auto; [lia| |].
  { fold v1. rewrite V1, Rmult_1_r. apply le_bpow; [lia|lra|]. simpl. lra. }
  fold v1 in V2. rewrite V1, Rmult_1_r in V2.
  assert (E2 : Rabs (rnd v1 - v1) <= eps * Rabs v1) by (apply rnd_err, big_small; lra).
  rewrite <- V2 in E2. set (v2 := val (dmul (of_Z a) (of_Z 1))) in *.
  rewrite (Rabs_pos_eq v1) in E2 by lra. rewrite eps_val in E2. apply Rabs_le_inv in E2.
  assert (B2 : 8000 <= v2 <= 11000000000000000000) by lra.
  destruct (ddiv_ok (dmul (of_Z a) (of_Z 1)) (of_Z 10000) 100) as [F3 V3]; auto; [lia| | |].
  { rewrite V10. lra. }
  { fold v2. rewrite V10. apply le_bpow; [lia|lra|]. simpl. lra. }
  fold v2 in V3. rewrite V10 in V3.
  assert (E3 : Rabs (rnd (v2 / 10000) - v2 / 10000) <= eps * Rabs (v2 / 10000)).
  { apply rnd_err. rewrite Rabs_pos_eq by lra. apply Rle_trans with (bpow radix2 (-10)); [apply bpow_le; lia|].
    simpl. lra. }
  rewrite <- V3 in E3. set (v3 := val (ddiv (dmul (of_Z a) (of_Z 1)) (of_Z 10000))) in *.
  rewrite (Rabs_pos_eq (v2 / 10000)) in E3 by lra. rewrite eps_val in E3. apply Rabs_le_inv in E3.
  assert (B3 : / 2 <= v3 <= 2000000000000000) by lra.
  assert (P4 : 0 <= IZR r * v3 <= 1000 * 2000000000000000).
  { split; [apply Rmult_le_pos; lra|apply Rmult_le_compat; lra]. }
  destruct (dmul_ok (of_Z r) (ddiv (dmul (of_Z a) (of_Z 1)) (of_Z 10000)) 100) as [F4 V4]; auto; [lia| |].
  { fold v3. rewrite Vr. apply le_bpow; [lia|lra|]. simpl. lra. }
  fold v3 in V4. rewrite Vr in V4.
  assert (E4 : Rabs (rnd (IZR r * v3) - IZR r * v3) <= eps * Rabs (IZR r * v3)).
  { apply rnd_err0. destruct (Z.eq_dec r 0) as [->|Hz]; [left; lra|right].
    assert (1 <= IZR r) by (apply IZR_le; lia).
    rewrite Rabs_pos_eq by lra. apply Rle_trans with (bpow radix2 (-1)); [apply bpow_le; lia|]. simpl.
    assert (1 * / 2 <= IZR r * v3) by (apply Rmult_le_compat; lra). lra. }
  rewrite <- V4 in E4. set (v4 := val (dmul (of_Z r) (ddiv (dmul (of_Z a) (of_Z 1)) (of_Z 10000)))) in *.
  rewrite (Rabs_pos_eq (IZR r * v3)) in E4 by lra. rewrite eps_val in E4. apply Rabs_le_inv in E4.
  split; auto.
  assert (M : forall x y, x <= y -> IZR r * x <= IZR r * y) by (intros; apply Rmult_le_compat_l; lra).
  pose proof (M _ _ (proj1 E1)) as M1. pose proof (M _ _ (proj2 E1)) as M1'.
  pose proof (M _ _ (proj1 E2)) as M2. pose proof (M _ _ (proj2 E2)) as M2'.
  pose proof (M _ _ (proj1 E3)) as M3. pose proof (M _ _ (proj2 E3)) as M3'.
  assert (PA : 0 <= IZR r * IZR a) by (apply Rmult_le_pos; lra).
  set (ra := IZR r * IZR a) in *. set (rv1 := IZR r * v1) in *. set (rv2 := IZR r * v2) in *.
  set (rv3 := IZR r * v3) in *.
  replace (IZR r * - (/ 9007199254740992 * IZR a)) with (- (/ 9007199254740992 * ra)) in M1 by (unfold ra; ring).
  replace (IZR r * (v1 - IZR a)) with (rv1 - ra) in * by (unfold ra, rv1; ring).
  replace (IZR r * (/ 9007199254740992 * IZR a)) with (/ 9007199254740992 * ra) in M1' by (unfold ra; ring).
  replace (IZR r * - (/ 9007199254740992 * v1)) with (- (/ 9007199254740992 * rv1)) in M2 by (unfold rv1; ring).
  replace (IZR r * (v2 - v1)) with (rv2 - rv1) in * by (unfold rv2, rv1; ring).
  replace (IZR r * (/ 9007199254740992 * v1)) with (/ 9007199254740992 * rv1) in M2' by (unfold rv1; ring).
  replace (IZR r * - (/ 9007199254740992 * (v2 / 10000))) with (- (/ 9007199254740992 * (rv2 / 10000))) in M3
    by (unfold rv2; field).
  replace (IZR r * (v3 - v2 / 10000)) with (rv3 - rv2 / 10000) in * by (unfold rv3, rv2; field).
  replace (IZR r * (/ 9007199254740992 * (v2 / 10000))) with (/ 9007199254740992 * (rv2 / 10000)) in M3'
    by (unfold rv2; field).
  clearbody ra rv1 rv2 rv3 v4. split; [lra|]. apply Rabs_le. lra.
Qed.

(** The fee is defined, and within one unit and a relative error of 2^-50 of the exact one. *)
Lemma swap_fees_ok (r a : N) : (r <= 1000)%N -> (DUST <= a)%N -> (a <= MAX_SUPPLY)%N ->
  exists f, swap_fees r a = Some f /\ (5 * f <= a)%N /\
    (Z.abs (10000 * Z.of_N f - Z.of_N r * Z.of_N a) * 2 ^ 50
       <= 10000 * 2 ^ 50 + Z.of_N r * Z.of_N a)%Z.
Proof.
  intros Hr Ha1 Ha2.
  destruct (fees_real (Z.of_N r) (Z.of_N a)) as (F & P & E).
  { split; [lia|]. change 1000%Z with (Z.of_N 1000). lia. }
  { unfold DUST, MAX_SUPPLY in *. lia. }
  unfold swap_fees. unfold of_N. change (Z.of_N 1) with 1%Z. change (Z.of_N 10000) with 10000%Z.
  set (d := dmul _ _) in *.
  assert (HR : 0 <= IZR (Z.of_N r) <= 1000) by (split; apply IZR_le; lia).
  assert (HA : 10000 <= IZR (Z.of_N a) <= 9000000000000000000)
    by (unfold DUST, MAX_SUPPLY in *; split; apply IZR_le; lia).
  set (R := IZR (Z.of_N r)) in *. set (A := IZR (Z.of_N a)) in *.
  assert (B : 0 <= R * A <= 1000 * A) by (split; [apply Rmult_le_pos; lra|apply Rmult_le_compat_r; lra]).
  apply Rabs_le_inv in E.
  rewrite to_u64_ok; auto.
  2: { split; auto. change (IZR (2 ^ 64)) with 18446744073709551616. lra. }
  eexists. split; [reflexivity|].
  assert (Fl : (0 <= Zfloor (val d))%Z) by (apply Zfloor_lub; simpl; lra).
  pose proof (Zfloor_lb (val d)) as Lb. pose proof (Zfloor_ub (val d)) as Ub.
  set (z := Zfloor (val d)) in *.
  split.
  - apply N2Z.inj_le. rewrite N2Z.inj_mul, Z2N.id by auto. apply le_IZR. rewrite mult_IZR. fold A.
    change (IZR (Z.of_N 5)) with 5. lra.
  - rewrite Z2N.id by auto. apply le_IZR. rewrite plus_IZR, !mult_IZR, abs_IZR, minus_IZR, !mult_IZR.
    fold R A. change (IZR (2 ^ 50)) with 1125899906842624.
    assert (Rabs (10000 * IZR z - R * A) <= 10000 + / 1125899906842624 * (R * A)).
    { apply Rabs_le. lra. }
    lra.
Qed.
End Fee.

Lemma ratio_ok r : r <= 1000 -> ratio_too_big r = false.
Proof.
  intros H. unfold ratio_too_big, of_N.
  destruct (of_Z_exact (Z.of_N r) ltac:(lia)) as [Fr Vr].
  destruct (of_Z_exact (Z.of_N 1) ltac:(lia)) as [F1 V1].
  destruct (of_Z_exact (Z.of_N 10000) ltac:(lia)) as [F10 V10].
  assert (HR : (0 <= IZR (Z.of_N r) <= 1000)%R) by (split; apply IZR_le; lia).
  change (IZR (Z.of_N 1)) with 1%R in V1. change (IZR (Z.of_N 10000)) with 10000%R in V10.
  destruct (dmul_ok (of_Z (Z.of_N r)) (of_Z (Z.of_N 1)) 100) as [F2 V2]; auto; [lia| |].
  { rewrite Vr, V1, Rmult_1_r. apply le_bpow; [lia|lra|]. simpl. lra. }
  rewrite Vr, V1, Rmult_1_r in V2. rewrite rnd_Z in V2 by lia.
  destruct (ddiv_ok (dmul (of_Z (Z.of_N r)) (of_Z (Z.of_N 1))) (of_Z (Z.of_N 10000)) 100) as [F3 V3]; auto; [lia| | |].
  { rewrite V10. lra. }
  { rewrite V2, V10. apply le_bpow; [lia|lra|]. simpl. lra. }
  rewrite V2, V10 in V3.
  destruct (dlt _ _) eqn:E; auto. apply dlt_ok in E; auto. rewrite V1, V3 in E.
  assert (rnd (IZR (Z.of_N r) / 10000) <= rnd (IZR 1))%R by (apply rnd_le; lra).
  rewrite rnd_Z in H0 by lia. simpl in H0. lra.
Qed.


(** ** Crediting a list of accounts *)

Section Credits.
  Variable pk_keyid : N -> N.

  Lemma find_denotes reg L u k : find pk_keyid reg L u = Some k ->
    denotes pk_keyid reg u = Some k /\ l_get L k <> None.
  Proof.
    unfold find. destruct (denotes pk_keyid reg u) as [d|]; [|discriminate].
    destruct (l_get L d) eqn:E; [|discriminate]. intros H; inversion H; subst. rewrite E. split; auto. discriminate.
  Qed.

  Definition got (reg : list (N * N * N)) (cs : list (uid * N)) (k : N) : N :=
    nsum (map (fun c => snd c * is k (denotes pk_keyid reg (fst c))) cs).

  Lemma credit_all_ok reg s : forall cs L L', ledger_wf L ->
    supply L s + nsum (map snd cs) < two64 ->
    credit_all pk_keyid reg L s cs = Some L' ->
    ledger_wf L' /\ supply L' s = supply L s + nsum (map snd cs) /\
    (forall s', s' <> s -> supply L' s' = supply L s') /\
    (forall k s' b, lbal L' k s' b =
       lbal L k s' b + (if String.eqb s' s && bucket_eqb b BFree then got reg cs k else 0)) /\
    (forall k, l_get L' k = None <-> l_get L k = None).
  Proof.
    induction cs as [|[u v] cs IH]; intros L L' W Hb H; simpl in H.
    - inversion H; subst. cbn [map nsum]. rewrite N.add_0_r. split; auto. split; auto. split; auto.
      split; [|tauto]. intros k s' b. unfold got. simpl. destruct (_ && _); lia.
    - destruct (find pk_keyid reg L u) as [k0|] eqn:Ef; [|discriminate].
      destruct (find_denotes _ _ _ _ Ef) as [Ed Eg].
      destruct (l_operate L k0 s AddFree v None) as [[|] L1] eqn:Eo; [|discriminate].
      cbn [map snd nsum] in Hb.
      assert (Hm : mint_of s (mkReq k0 s AddFree v None) = v) by (unfold mint_of; simpl; rewrite String.eqb_refl; auto).
      assert (W1 : ledger_wf L1) by (eapply l_operate_wf; eauto).
      assert (S1 : forall s', supply L1 s' + burn_of s' (mkReq k0 s AddFree v None)
                              = supply L s' + mint_of s' (mkReq k0 s AddFree v None)).
      { intros s'. apply (l_operate_supply L (mkReq k0 s AddFree v None)); auto.
        simpl. intros s0 ->. rewrite Hm. lia. }
      assert (S1s : supply L1 s = supply L s + v).
      { specialize (S1 s). rewrite Hm in S1. unfold burn_of in S1. simpl in S1. lia. }
      destruct (IH L1 L' W1) as (I1 & I2 & I3 & I4 & I5); [rewrite S1s; lia|auto|].
      split; auto. split; [rewrite I2, S1s; cbn [map snd nsum]; lia|].
      split.
      { intros s' Hs. rewrite I3 by auto. specialize (S1 s'). unfold mint_of, burn_of in S1. simpl in S1.
        apply String.eqb_neq in Hs. rewrite String.eqb_sym in Hs. rewrite Hs in S1. lia. }
      split.
      + intros k s' b. rewrite I4.
        assert (D : Z.of_N (lbal L1 k s' b) = (Z.of_N (lbal L k s' b)
          - Z.of_N (at_place (debited k0 AddFree None) s v k s' b)
          + Z.of_N (at_place (credited k0 AddFree None) s v k s' b))%Z).
        { apply l_operate_delta; auto. rewrite Hm. lia. }
        cbn [debited credited at_place] in D. unfold got. cbn [map nsum fst snd]. rewrite Ed. cbn [is].
        fold (got reg cs k).
        destruct (String.eqb s' s); cbn [andb] in *; rewrite ?andb_true_r, ?andb_false_r in D; cbn [andb] in D.
        * destruct (bucket_eqb b BFree); rewrite ?andb_true_r, ?andb_false_r in D.
          -- destruct (k =? k0); lia.
          -- lia.
        * lia.
      + intros k. rewrite I5. eapply l_operate_none; eauto.
  Qed.

  Lemma nsum_map_app {T} (f : T -> N) l1 l2 : nsum (map f (l1 ++ l2)) = nsum (map f l1) + nsum (map f l2).
  Proof. rewrite map_app, nsum_app. auto. Qed.

  Lemma nsum_const {T} (c : N) (l : list T) : nsum (map (fun _ => c) l) = c * N.of_nat (List.length l).
  Proof. induction l; simpl; [lia|]. rewrite IHl. lia. Qed.

  Lemma nsum_scale {T} (c : N) (f : T -> N) (l : list T) : nsum (map (fun x => c * f x) l) = c * nsum (map f l).
  Proof. induction l; simpl; [lia|]. rewrite IHl. lia. Qed.

  (** ** One swap *)

  Record axc_inv (x : axc) : Prop := {
    ai_wf : ledger_wf (x_ledger x);
    ai_ratio : x_ratio x <= 1000;
    ai_supply : forall s t, fget String.eqb (x_assets x) s = Some t ->
                  supply (x_ledger x) s = t /\ t <= MAX_SUPPLY }.

  Lemma add64_bounded t v : t <= MAX_SUPPLY -> v <= MAX_SUPPLY -> add64 t v = t + v.
  Proof.
    intros. apply add64_small. apply N.le_lt_trans with (MAX_SUPPLY + MAX_SUPPLY); [lia|reflexivity].
  Qed.

  Lemma swap_in_ok x p l x' : axc_inv x ->
    axc_step pk_keyid x (AIn p l) = Some x' ->
    exists sp fees t,
      fget String.eqb (x_by_peer x) (i_peer p) = Some sp /\
      swap_fees (x_ratio x) (i_amount p) = Some fees /\ 5 * fees <= i_amount p /\
      fget mintkey_eqb (x_minted x') (sp_chain sp, i_txid p) = Some (i_amount p - fees) /\
      0 < i_amount p - fees /\
      mint_record x (sp_chain sp) (i_txid p) = None /\
      (forall c, c <> (sp_chain sp, i_txid p) -> fget mintkey_eqb (x_minted x') c = fget mintkey_eqb (x_minted x) c) /\
      fget String.eqb (x_assets x) (sp_self sp) = Some t /\
      fget String.eqb (x_assets x') (sp_self sp) = Some (t + i_amount p) /\
      (forall s, s <> sp_self sp -> fget String.eqb (x_assets x') s = fget String.eqb (x_assets x) s) /\
      supply (x_ledger x') (sp_self sp) = supply (x_ledger x) (sp_self sp) + i_amount p /\
      (forall s, s <> sp_self sp -> supply (x_ledger x') s = supply (x_ledger x) s) /\
      (forall k s b, lbal (x_ledger x') k s b = lbal (x_ledger x) k s b +
         (if String.eqb s (sp_self sp) && bucket_eqb b BFree then share pk_keyid x p l fees k else 0)) /\
      ledger_wf (x_ledger x') /\ t + i_amount p <= MAX_SUPPLY /\ x_ratio x' = x_ratio x.
  Proof.
    intros I. unfold axc_step. destruct (check_in pk_keyid x p) eqn:Ec; [|discriminate].
    unfold check_in in Ec. unfold exec_in.
    destruct (fget String.eqb (x_by_peer x) (i_peer p)) as [sp|] eqn:Es; [|discriminate].
    rewrite !andb_true_iff in Ec. destruct Ec as ((((((((_ & _) & _) & _) & _) & C1) & C2) & C3) & C4).
    apply negb_true_iff, N.ltb_ge in C1. apply negb_true_iff, N.ltb_ge in C2.
    destruct (mint_record x (sp_chain sp) (i_txid p)) eqn:Em; [discriminate|clear C3].
    destruct (fget String.eqb (x_assets x) (sp_self sp)) as [t|] eqn:Et; [|discriminate].
    rewrite (ratio_ok _ (ai_ratio _ I)).
    destruct (swap_fees_ok _ _ (ai_ratio _ I) C1 C2) as (fees & Ef & Hf & _). rewrite Ef.
    destruct (ai_supply _ I _ _ Et) as [Hs Ht].
    set (n := N.of_nat (List.length l)). destruct (n =? 0) eqn:En; [discriminate|]. apply N.eqb_neq in En.
    destruct (regid_empty (x_gateway x)); [discriminate|].
    set (per := fees / (n + 3)).
    assert (Hper : per * n <= fees).
    { unfold per. apply N.le_trans with (fees / (n + 3) * (n + 3)); [apply N.mul_le_mono_l; lia|].
      rewrite N.mul_comm. apply N.mul_div_le. lia. }
    assert (H64 : MAX_SUPPLY < two64) by reflexivity.
    rewrite (mul64_small per n) by lia. rewrite (sub64_small fees (per * n)) by lia.
    rewrite (sub64_small (i_amount p) fees) by lia.
    rewrite (add64_bounded t (i_amount p)) in * by lia.
    apply negb_true_iff, N.ltb_ge in C4. rewrite (proj2 (N.ltb_ge _ _) C4).
    set (cs := map _ l ++ _).
    assert (Hsum : nsum (map snd cs) = i_amount p).
    { unfold cs. rewrite nsum_map_app, map_map. cbn [map snd nsum].
      rewrite (nsum_const per l). fold n. lia. }
    destruct (credit_all pk_keyid (x_reg x) (x_ledger x) (sp_self sp) cs) as [L'|] eqn:Ecr; [|discriminate].
    intros H; inversion H; subst x'; clear H. cbn [x_ledger x_assets x_minted x_ratio].
    destruct (credit_all_ok (x_reg x) (sp_self sp) cs (x_ledger x) L' (ai_wf _ I)) as (W & S1 & S2 & Bal & _); auto.
    { rewrite Hsum, Hs. lia. }
    exists sp, fees, t. split; auto. split; auto. split; auto.
    rewrite (fget_put_same mintkey_eqb mintkey_eqb_ok), (fget_put_same String.eqb String_eqb_ok).
    split; auto. split; [unfold DUST in C1; lia|]. split; auto.
    split; [intros c Hc; apply (fget_put_other mintkey_eqb mintkey_eqb_ok); auto|].
    split; auto. split; auto.
    split; [intros s Hn; apply (fget_put_other String.eqb String_eqb_ok); auto|].
    split; [rewrite S1, Hsum; auto|]. split; auto. split; [|auto].
    intros k s b. rewrite Bal. destruct (_ && _); auto. f_equal.
    unfold got, cs, share. rewrite nsum_map_app, map_map. cbn [map snd fst nsum].
    rewrite (nsum_scale per (fun r => is k (denotes pk_keyid (x_reg x) (UReg r))) l). fold n. fold per. lia.
  Qed.

  Lemma swap_out_ok x p x' : axc_inv x ->
    axc_step pk_keyid x (AOut p) = Some x' ->
    exists t k,
      denotes pk_keyid (x_reg x) (o_from p) = Some k /\ 
      fget String.eqb (x_assets x) (o_self p) = Some t /\ o_amount p <= t /\
      fget String.eqb (x_assets x') (o_self p) = Some (t - o_amount p) /\
      (forall s, s <> o_self p -> fget String.eqb (x_assets x') s = fget String.eqb (x_assets x) s) /\
      x_minted x' = x_minted x /\ x_ratio x' = x_ratio x /\ ledger_wf (x_ledger x') /\
      supply (x_ledger x') (o_self p) + o_amount p = supply (x_ledger x) (o_self p) /\
      (forall s, s <> o_self p -> supply (x_ledger x') s = supply (x_ledger x) s) /\
      o_amount p <= lbal (x_ledger x) k (o_self p) BFree /\
      (forall k' s b, lbal (x_ledger x') k' s b = lbal (x_ledger x) k' s b -
         (if (k' =? k) && String.eqb s (o_self p) && bucket_eqb b BFree then o_amount p else 0)).
  Proof.
    intros I. unfold axc_step. destruct (check_out pk_keyid x p); [|discriminate]. unfold exec_out.
    destruct (find pk_keyid (x_reg x) (x_ledger x) (o_from p)) as [k|] eqn:Ef; [|discriminate].
    destruct (find_denotes _ _ _ _ Ef) as [Ed Eg].
    destruct (l_operate (x_ledger x) k (o_self p) SubFree (o_amount p) None) as [[|] L1] eqn:Eo; [|discriminate].
    destruct (fget String.eqb (x_assets x) (o_self p)) as [t|] eqn:Et; [|discriminate].
    destruct (N.ltb_spec t (o_amount p)); [discriminate|].
    intros H1; inversion H1; subst x'; clear H1. cbn [x_ledger x_assets x_minted x_ratio].
    destruct (ai_supply _ I _ _ Et) as [Hs Ht].
    assert (Hlt : supply (x_ledger x) (o_self p) < two64).
    { rewrite Hs. apply N.le_lt_trans with MAX_SUPPLY; auto. reflexivity. }
    assert (Hm : forall s, mint_of s (mkReq k (o_self p) SubFree (o_amount p) None) = 0) by reflexivity.
    assert (S1 : forall s, supply L1 s + burn_of s (mkReq k (o_self p) SubFree (o_amount p) None)
                           = supply (x_ledger x) s + mint_of s (mkReq k (o_self p) SubFree (o_amount p) None)).
    { intros s. apply (l_operate_supply (x_ledger x) (mkReq k (o_self p) SubFree (o_amount p) None)); auto.
      - apply I.
      - simpl. intros s0 ->. rewrite Hm. lia. }
    assert (Hle : o_amount p <= lbal (x_ledger x) k (o_self p) BFree).
    { assert (O : fst (l_operate (x_ledger x) k (o_self p) SubFree (o_amount p) None) = true) by (rewrite Eo; auto).
      apply l_operate_ok_iff in O; try discriminate; try apply I; try (intros; discriminate).
      apply O. }
    exists t, k. split; auto. split; auto. split; auto.
    rewrite (fget_put_same String.eqb String_eqb_ok). split; auto.
    split; [intros s Hn; apply (fget_put_other String.eqb String_eqb_ok); auto|].
    split; auto. split; auto. split; [eapply l_operate_wf; eauto; apply I|].
    split; [specialize (S1 (o_self p)); unfold burn_of, mint_of in S1; simpl in S1; rewrite String.eqb_refl in S1; lia|].
    split.
    { intros s Hn. specialize (S1 s). unfold burn_of, mint_of in S1. simpl in S1.
      apply String.eqb_neq in Hn. rewrite String.eqb_sym in Hn. rewrite Hn in S1. lia. }
    split; auto.
    intros k' s b.
    assert (D := l_operate_delta (x_ledger x) k (o_self p) SubFree (o_amount p) None L1 (ai_wf _ I) Eo
       ltac:(rewrite Hm; lia) k' s b).
    cbn [debited credited at_place] in D.
    destruct ((k' =? k) && String.eqb s (o_self p) && bucket_eqb b BFree) eqn:E; [|lia].
    rewrite !andb_true_iff in E. destruct E as [[E1 E2] E3].
    apply N.eqb_eq in E1. apply String.eqb_eq in E2. apply bucket_eqb_ok in E3. subst. lia.
  Qed.

  (** ** Histories *)

  Lemma step_inv x e x' : axc_inv x -> axc_step pk_keyid x e = Some x' ->
    (match e with
     | AElse L _ _ _ r _ => ledger_wf L /\ r <= 1000 /\
         forall s, fget String.eqb (x_assets x) s <> None -> supply L s = supply (x_ledger x) s
     | _ => True end) -> axc_inv x'.
  Proof.
    intros I H He. destruct e as [p l|p|L reg bp bs r g].
    - destruct (swap_in_ok x p l x' I H) as (sp & fees & t & _ & _ & _ & _ & _ & _ & _ & Et & Et' & Eo & S1 & S2 & _ & W & Hle & Hr).
      constructor; auto; [rewrite Hr; apply I|].
      intros s t0 E. destruct (String.eqb_spec s (sp_self sp)).
      + subst s. rewrite Et' in E. inversion E; subst. destruct (ai_supply _ I _ _ Et). rewrite S1. lia.
      + rewrite Eo in E by auto. rewrite S2 by auto. apply (ai_supply _ I); auto.
    - destruct (swap_out_ok x p x' I H) as (t & k & _ & Et & Hle & Et' & Eo & _ & Hr & W & S1 & S2 & _).
      constructor; auto; [rewrite Hr; apply I|].
      intros s t0 E. destruct (String.eqb_spec s (o_self p)).
      + subst s. rewrite Et' in E. inversion E; subst. destruct (ai_supply _ I _ _ Et). lia.
      + rewrite Eo in E by auto. rewrite S2 by auto. apply (ai_supply _ I); auto.
    - simpl in H. inversion H; subst x'; clear H. destruct He as (W & Hr & Hs).
      constructor; cbn [x_ledger x_assets x_ratio]; auto.
      intros s t E. rewrite Hs by congruence. apply (ai_supply _ I); auto.
  Qed.

  Lemma axc_run_ok : forall es x x' tr, axc_inv x -> else_ok pk_keyid x es ->
    axc_run pk_keyid x es = (x', tr) ->
    axc_inv x' /\
    (forall s, recorded x' s + burned tr s = recorded x s + minted tr s) /\
    (forall s, fget String.eqb (x_assets x) s <> None -> fget String.eqb (x_assets x') s <> None) /\
    NoDup (used tr) /\
    (forall c t, In (c, t) (used tr) -> mint_record x c t = None /\ mint_record x' c t <> None) /\
    (forall c t, mint_record x c t <> None -> mint_record x' c t <> None).
  Proof.
    induction es as [|e es IH]; intros x x' tr I He H; cbn [axc_run else_ok] in *.
    - inversion H; subst. simpl. split; auto. split; [intros; lia|]. split; auto. split; [constructor|].
      split; auto. intros ? ? [].
    - destruct He as [He1 He2]. destruct (axc_step pk_keyid x e) as [x1|] eqn:Es.
      2: { apply IH; auto. }
      destruct (axc_run pk_keyid x1 es) as [x2 t2] eqn:Er. inversion H; subst x' tr; clear H.
      assert (I1 : axc_inv x1) by (eapply step_inv; eauto).
      destruct (IH _ _ _ I1 He2 Er) as (J1 & J2 & J3 & J4 & J5 & J6). clear IH.
      split; auto.
      assert (K : (forall s, recorded x1 s + burned (entry x e) s = recorded x s + minted (entry x e) s) /\
                  (forall s, fget String.eqb (x_assets x) s <> None -> fget String.eqb (x_assets x1) s <> None) /\
                  (forall c t, mint_record x c t <> None -> mint_record x1 c t <> None) /\
                  NoDup (used (entry x e)) /\
                  (forall c t, In (c, t) (used (entry x e)) -> mint_record x c t = None /\ mint_record x1 c t <> None)).
      { destruct e as [p l|p|L reg bp bs r g].
        - destruct (swap_in_ok x p l x1 I Es) as (sp & fees & t & Esp & _ & _ & Em & Hpos & Em0 & Emo & Et & Et' & Eo & _).
          cbn [entry]. rewrite Esp. cbn [burned minted used].
          assert (Hrec : forall c t0, (c, t0) = (sp_chain sp, i_txid p) -> mint_record x1 c t0 <> None).
          { intros c t0 E. unfold mint_record. rewrite E, Em.
            assert ((i_amount p - fees =? 0) = false) as -> by (apply N.eqb_neq; lia). discriminate. }
          split.
          { intros s. unfold recorded. destruct (String.eqb_spec (sp_self sp) s).
            - subst s. rewrite Et, Et'. lia.
            - rewrite Eo by auto. lia. }
          split.
          { intros s Hs. destruct (String.eqb_spec s (sp_self sp)); [subst; congruence|]. rewrite Eo; auto. }
          split.
          { intros c t0 Hr. destruct (mintkey_eqb (c, t0) (sp_chain sp, i_txid p)) eqn:E.
            - apply mintkey_eqb_ok in E. auto.
            - unfold mint_record in *. rewrite Emo; auto. intros E'. apply mintkey_eqb_ok in E'. congruence. }
          split; [constructor; [intros []|constructor]|].
          intros c t0 [E|[]]. inversion E; subst. split; auto.
        - destruct (swap_out_ok x p x1 I Es) as (t & k & _ & Et & Hle & Et' & Eo & Emi & _).
          cbn [entry burned minted used]. split.
          { intros s. unfold recorded. destruct (String.eqb_spec (o_self p) s).
            - subst s. rewrite Et, Et'. lia.
            - rewrite Eo by auto. lia. }
          split.
          { intros s Hs. destruct (String.eqb_spec s (o_self p)); [subst; congruence|]. rewrite Eo; auto. }
          split; [intros c t0; unfold mint_record; rewrite Emi; auto|]. split; [constructor|intros ? ? []].
        - simpl in Es. inversion Es; subst x1. cbn [entry burned minted used]. unfold recorded, mint_record. simpl.
          split; [intros; lia|]. split; auto. split; auto. split; [constructor|intros ? ? []]. }
      destruct K as (K1 & K2 & K3 & K4 & K5).
      assert (Ap : forall s, minted (entry x e ++ t2) s = minted (entry x e) s + minted t2 s /\
                             burned (entry x e ++ t2) s = burned (entry x e) s + burned t2 s).
      { intros s. destruct e as [p l|p|]; cbn [entry].
        - destruct (fget String.eqb (x_by_peer x) (i_peer p)); simpl; lia.
        - simpl; lia.
        - simpl; lia. }
      assert (Au : used (entry x e ++ t2) = used (entry x e) ++ used t2).
      { destruct e as [p l|p|]; cbn [entry]; auto. destruct (fget String.eqb (x_by_peer x) (i_peer p)); auto. }
      split; [intros s; destruct (Ap s) as [-> ->]; specialize (K1 s); specialize (J2 s); lia|].
      split; auto. rewrite Au. split.
      { clear - J4 J5 K4 K5. induction (used (entry x e)) as [|[c t] u IHu]; auto. simpl.
        inversion K4; subst. constructor.
        - rewrite in_app_iff. intros [Hi|Hi]; [auto|]. destruct (J5 _ _ Hi) as [Hn _].
          destruct (K5 c t (or_introl eq_refl)) as [_ Hs]. auto.
        - apply IHu; auto. intros; apply K5; right; auto. }
      split; auto.
      intros c t Hi. apply in_app_iff in Hi. destruct Hi as [Hi|Hi].
      + destruct (K5 _ _ Hi). split; auto.
      + destruct (J5 _ _ Hi) as [Hn Hs]. split; auto.
        destruct (mint_record x c t) eqn:E; auto. exfalso. apply (K3 c t); [congruence|auto].
  Qed.
End Credits.
