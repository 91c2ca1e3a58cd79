(** Proofs about positions: what every action keeps. *)
From Coq Require Import String List Bool NArith ZArith Lia Permutation.
From Coq Require Import ZifyBool ZifyNat ZifyN.
From Verif Require Import Prelude PreludeFacts AccountModel AccountSpec AccountProofs TxModel TxProofs
  DexModel DexSpec DexProofs DoubleModel CdpModel CdpSpec CdpProofs CdpDouble.
Import ListNotations.
Open Scope N_scope.

Definition ov {A} (f : A -> N) (o : option A) : N := match o with Some a => f a | None => 0 end.

Definition weight (st : cstate) (k : N) (s : string) (c : cdp) : N :=
  if owns st k c && String.eqb (c_bcoin c) s then c_staked c else 0.

Lemma weight_known st k0 c k s : account_of st (c_owner c) = Some k0 ->
  weight st k s c = if (k =? k0) && String.eqb s (c_bcoin c) then c_staked c else 0.
Proof. intros H. unfold weight, owns. rewrite H. now rewrite (String.eqb_sym s). Qed.

Lemma holder_done st r k : holder (c_dex st) r = Some k ->
  account_of st r = Some k /\ l_get (ledger_of st) k <> None.
Proof.
  unfold holder, account_of, ledger_of. destruct (fget regid_eqb (d_reg (c_dex st)) r) as [k'|]; [|discriminate].
  destruct (l_get (d_ledger (c_dex st)) k') eqn:E; [|discriminate]. intros X. injection X as ->.
  split; [reflexivity | congruence].
Qed.

Lemma free_of_lbal st k s : free_of st k s = lbal (ledger_of st) k s BFree.
Proof. reflexivity. Qed.

Lemma no_wrap a b : a < two64 -> b < two64 -> a <= add64 a b -> add64 a b = a + b /\ a + b < two64.
Proof.
  intros A B H. unfold add64 in *. destruct (N.lt_ge_cases (a + b) two64) as [L|L].
  - rewrite N.mod_small by assumption. auto.
  - exfalso. replace (a + b) with ((a + b - two64) + 1 * two64) in H by lia.
    rewrite N.mod_add in H by discriminate. rewrite N.mod_small in H by lia. lia.
Qed.

Section Inv.
  Variable junk : double -> N.
  Notation in_step := (in_step junk).

  Definition cinv (P : N -> string -> N) (st : cstate) : Prop :=
    sound (c_dex st) /\ in_step st /\
    (forall id c, fget N.eqb (c_cdps st) id = Some c -> good_cdp st c) /\
    (forall k s, lbal (ledger_of st) k s BPledged = P k s + collateral st k s).

  Lemma good_moved st st' qs c :
    d_reg (c_dex st') = d_reg (c_dex st) -> ran (ledger_of st) qs (ledger_of st') ->
    good_cdp st c -> good_cdp st' c.
  Proof.
    intros R M (A1 & A2 & A3 & A4 & A5 & k & K1 & K2). unfold good_cdp. conj; auto.
    exists k. unfold account_of in *. rewrite R. split; [assumption|].
    intros X. apply K2. exact (proj1 (ran_frame _ _ _ k M) X).
  Qed.

  Lemma sound_moved st st' qs :
    sound (c_dex st) -> d_reg (c_dex st') = d_reg (c_dex st) -> ran (ledger_of st) qs (ledger_of st') ->
    (forall s, supply (ledger_of st) s + mints s qs < two64) ->
    (forall s, supply (ledger_of st) s + mints s qs < two63 + burns s qs) ->
    sound (c_dex st').
  Proof.
    intros (W & G & S) R M B1 B2. destruct (ran_facts _ _ _ M W B1) as (W' & S' & _).
    split; [exact W'|]. split.
    - intros k a Ga E. destruct (ran_regid _ _ _ _ _ M Ga) as (a0 & G0 & E0).
      rewrite R, E0. apply G; [exact G0 | congruence].
    - intros s. specialize (S' s). specialize (B2 s). unfold ledger_of in *. lia.
  Qed.

  (** One position replaced, added or removed, with the money moved. *)
  Lemma change_step P st st' qs old new :
    cinv P st -> d_reg (c_dex st') = d_reg (c_dex st) -> ran (ledger_of st) qs (ledger_of st') ->
    in_step st' ->
    (forall f, msum f (c_cdps st') + ov f old = msum f (c_cdps st) + ov f new) ->
    (forall id d, fget N.eqb (c_cdps st') id = Some d -> new = Some d \/ fget N.eqb (c_cdps st) id = Some d) ->
    (forall d, new = Some d -> good_cdp st d) ->
    (forall k s, net qs k s BPledged = (Z.of_N (ov (weight st k s) new) - Z.of_N (ov (weight st k s) old))%Z) ->
    (forall s, supply (ledger_of st) s + mints s qs < two64) ->
    (forall s, supply (ledger_of st) s + mints s qs < two63 + burns s qs) ->
    cinv P st' /\
    (forall s, supply (ledger_of st') s + burns s qs = supply (ledger_of st) s + mints s qs) /\
    debt st' + ov c_owed old = debt st + ov c_owed new.
  Proof.
    intros (S & I & G & Pl) R M I' Ms Gs Gn Nt B1 B2.
    destruct (ran_facts _ _ _ M (proj1 S) B1) as (W' & S' & D).
    split; [|split; [exact S' | apply Ms]].
    split; [eapply sound_moved; eassumption|]. split; [exact I'|]. split.
    - intros id d Gd. apply (good_moved st st' qs); [assumption | assumption |].
      destruct (Gs _ _ Gd) as [E|E]; [auto | eauto].
    - intros k s. specialize (D k s BPledged). specialize (Nt k s). specialize (Pl k s).
      specialize (Ms (weight st k s)).
      assert (C : collateral st' k s = msum (weight st k s) (c_cdps st')).
      { unfold collateral. unfold weight, owns, account_of. now rewrite R. }
      rewrite C. unfold collateral in Pl.
      change (msum (fun c => if owns st k c && String.eqb (c_bcoin c) s then c_staked c else 0) (c_cdps st))
        with (msum (weight st k s) (c_cdps st)) in Pl. lia.
  Qed.

  (** ** Changes of the records *)

  Lemma sums_new st c f : in_step st -> fget N.eqb (c_cdps st) (c_id c) = None ->
    msum f (fput N.eqb (c_cdps st) (c_id c) c) + ov f (@None cdp) = msum f (c_cdps st) + ov f (Some c).
  Proof.
    intros I F. pose proof (msum_put N.eqb N_eqb_ok f (c_cdps st) (c_id c) c (proj1 (is_once _ _ I))) as H.
    unfold fval in H. rewrite F in H. exact H.
  Qed.
  Lemma sums_updated st c c' f : in_step st -> is_open st c -> c_id c' = c_id c ->
    msum f (fput N.eqb (c_cdps st) (c_id c') c') + ov f (Some c) = msum f (c_cdps st) + ov f (Some c').
  Proof.
    intros I F E. rewrite E.
    pose proof (msum_put N.eqb N_eqb_ok f (c_cdps st) (c_id c) c' (proj1 (is_once _ _ I))) as H.
    unfold fval in H. rewrite F in H. exact H.
  Qed.
  Lemma sums_erased st c f : in_step st -> is_open st c ->
    msum f (fdel N.eqb (c_cdps st) (c_id c)) + ov f (Some c) = msum f (c_cdps st) + ov f (@None cdp).
  Proof.
    intros I F. pose proof (msum_del N.eqb N_eqb_ok f (c_cdps st) (c_id c) (proj1 (is_once _ _ I))) as H.
    unfold fval in H. rewrite F in H. cbn [ov]. lia.
  Qed.

  (** The collateral of a position is pledged by its owner. *)
  Lemma staked_pledged P st c k : cinv P st -> is_open st c -> account_of st (c_owner c) = Some k ->
    c_staked c <= lbal (ledger_of st) k (c_bcoin c) BPledged /\ c_staked c < two63.
  Proof.
    intros ((W & _ & S) & I & _ & Pl) O A.
    pose proof (fval_le_msum N.eqb N_eqb_ok (weight st k (c_bcoin c)) (c_cdps st) (c_id c) (proj1 (is_once _ _ I))) as H.
    unfold fval in H. rewrite O, (weight_known st k c k (c_bcoin c) A), N.eqb_refl, String.eqb_refl in H.
    cbn [andb] in H. change (msum (weight st k (c_bcoin c)) (c_cdps st)) with (collateral st k (c_bcoin c)) in H.
    specialize (Pl k (c_bcoin c)).
    pose proof (lbal_le_supply (ledger_of st) k (c_bcoin c) BPledged W). specialize (S (c_bcoin c)).
    unfold ledger_of in *. split; lia.
  Qed.

  Lemma open_of_get st id c : in_step st -> fget N.eqb (c_cdps st) id = Some c -> is_open st c /\ c_id c = id /\ id <> 0.
  Proof.
    intros I F. destruct (is_id _ _ I _ _ F) as (E & Z). unfold is_open. rewrite E. auto.
  Qed.

  Lemma sender_account st k a : sound (c_dex st) -> l_get (d_ledger (c_dex st)) k = Some a ->
    regid_empty (a_regid a) = false -> account_of st (a_regid a) = Some k.
  Proof. intros (_ & G & _) A E. apply G; assumption. Qed.

  Lemma dex_of_updated st c c' : c_dex (updated junk st c c') = c_dex st.
  Proof. reflexivity. Qed.
  Lemma cdps_of_updated st c c' : c_cdps (updated junk st c c') = fput N.eqb (c_cdps st) (c_id c') c'.
  Proof. reflexivity. Qed.
  Lemma dex_of_erased st c c' : c_dex (erase_cdp junk st c c') = c_dex st.
  Proof. reflexivity. Qed.
  Lemma cdps_of_erased st c c' : c_cdps (erase_cdp junk st c c') = fdel N.eqb (c_cdps st) (c_id c').
  Proof. reflexivity. Qed.
End Inv.
