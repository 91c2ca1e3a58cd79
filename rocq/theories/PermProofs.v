From Coq Require Import String List Bool NArith ZArith Lia.
From Coq Require Import ZifyBool ZifyNat ZifyN.
From Verif Require Import Prelude PreludeFacts AccountModel AccountSpec AccountProofs TxModel TxSpec TxProofs
  PermModel.
Import ListNotations.
Open Scope N_scope.

Lemma asset_perms_ok p r :
  asset_has_perms p r = true <-> forall i, N.testbit r i = true -> N.testbit p i = true.
Proof.
  unfold asset_has_perms. rewrite N.eqb_eq. split.
  - intros H i Hr. rewrite <- H, N.land_spec in Hr. apply andb_true_iff in Hr. tauto.
  - intros H. apply N.bits_inj. intros i. rewrite N.land_spec.
    destruct (N.testbit r i) eqn:Er; [rewrite (H i Er); auto | apply andb_false_r].
Qed.

(** A single right: the mask test of CheckBaseTx is membership. *)
Lemma land_bit p i : (N.land p (2 ^ i) =? 0) = negb (N.testbit p i).
Proof.
  destruct (N.testbit p i) eqn:E; simpl.
  - apply N.eqb_neq. intros H.
    assert (X : N.testbit (N.land p (2 ^ i)) i = true)
      by (rewrite N.land_spec, E, N.pow2_bits_true; auto).
    rewrite H, N.bits_0 in X. discriminate.
  - apply N.eqb_eq. apply N.bits_inj. intros j. rewrite N.land_spec, N.bits_0.
    destruct (N.eqb i j) eqn:Ej.
    + apply N.eqb_eq in Ej; subst. now rewrite E.
    + apply N.eqb_neq in Ej. rewrite N.pow2_bits_false; auto. apply andb_false_r.
Qed.

Section PermProofs.
  Variable pk_keyid : N -> N.
  Variable sig_ok : N -> bool.

  Definition exempt (ty : N) : bool := existsb (N.eqb ty) [1; 17; 12; 13; 24].

  Lemma check_base_inv fee_ok fork ty u st :
    consistent pk_keyid (t_acc st) (t_reg st) ->
    exempt ty = false -> check_base pk_keyid sig_ok fee_ok fork ty u st = true ->
    exists k a, denotes pk_keyid (t_reg st) u = Some k /\ l_get (t_acc st) k = Some a /\
      (2 <= fork -> exists p, pk_keyid p = k /\ sig_ok p = true) /\
      (2 <= fork -> is_pub u = false -> a_perms a <> 0 /\ regid_empty (a_regid a) = false) /\
      (forall p, fget N.eqb tx_perm_map ty = Some p -> N.land (a_perms a) p <> 0).
  Proof.
    intros [W G] He. unfold check_base. unfold exempt in He.
    unfold BLOCK_REWARD_TX, PRICE_MEDIAN_TX, UCOIN_MINT_TX, UCOIN_BLOCK_REWARD_TX, CDP_FORCE_SETTLE_INTEREST_TX.
    rewrite He. set (st0 := mkTx (t_acc st) (t_reg st) [] None (t_orders st)).
    assert (Hg : get_account pk_keyid st0 u = match denotes pk_keyid (t_reg st) u with
       | None => (None, st0)
       | Some k => match l_get (t_acc st) k with None => (None, st0)
                   | Some a => (Some k, set_mem st0 [(k, a)]) end end).
    { unfold get_account. simpl.
      replace (get_key_id pk_keyid (t_reg st) u) with (denotes pk_keyid (t_reg st) u) by (destruct u; auto).
      destruct (denotes pk_keyid (t_reg st) u); auto. }
    rewrite Hg. destruct (denotes pk_keyid (t_reg st) u) as [k|] eqn:Ed; [|discriminate].
    destruct (l_get (t_acc st) k) as [a|] eqn:Ea; [|discriminate].
    cbn [t_mem set_mem fget]. rewrite N.eqb_refl. intros H.
    apply andb_true_iff in H as [H Hperm]. apply andb_true_iff in H as [H _].
    apply andb_true_iff in H as [H _]. apply andb_true_iff in H as [Hsig _].
    destruct (G k a Ea) as [G1 G2].
    exists k, a. split; auto. split; auto. split; [|split].
    - intros Hv. destruct (fork <? 2) eqn:Ef; [lia|].
      destruct u; try discriminate;
        try (destruct (a_perms a =? 0); [discriminate|]; destruct (negb _); [discriminate|];
             destruct (a_pubkey a) as [q|]; [|discriminate]; exists q; split; [apply G1|]; auto; fail).
      exists p. simpl in Ed. split; [congruence | auto].
    - intros Hv Hu. destruct (fork <? 2) eqn:Ef; [lia|].
      destruct u; try discriminate; destruct (a_perms a =? 0) eqn:E0; try discriminate;
        unfold is_registered in Hsig; rewrite negb_involutive in Hsig;
        destruct (regid_empty (a_regid a)) eqn:Er; try discriminate; split; auto; lia.
    - intros p Hp. rewrite Hp in Hperm. apply negb_true_iff, orb_false_iff in Hperm. lia.
  Qed.
End PermProofs.
