(** Proofs about positions: histories, totals, and accuracy of ratios. *)
From Coq Require Import String List Bool NArith ZArith Lia Permutation Sorted.
From Coq Require Import ZifyBool ZifyNat ZifyN.
From Verif Require Import Prelude PreludeFacts AccountModel AccountSpec AccountProofs TxModel TxProofs
  DexModel DexSpec DexProofs DoubleModel CdpModel CdpSpec CdpProofs CdpDouble CdpInv CdpActions
  CdpClose CdpForce.
Import ListNotations.
Open Scope N_scope.

Lemma nsum_member {A} (f : A -> N) l x : In x l -> f x <= nsum (map f l).
Proof. induction l as [|y l IH]; cbn [map nsum In]; [intros [] | intros [->|H]; [lia | specialize (IH H); lia]]. Qed.
Lemma nsum_map_add {A} (f g : A -> N) l : nsum (map (fun x => f x + g x) l) = nsum (map f l) + nsum (map g l).
Proof. induction l as [|y l IH]; cbn [map nsum]; [reflexivity | lia]. Qed.
Lemma nsum_map_le {A} (f g : A -> N) l : (forall x, In x l -> f x <= g x) -> nsum (map f l) <= nsum (map g l).
Proof.
  induction l as [|y l IH]; cbn [map nsum]; intros H; [lia|].
  pose proof (H y (or_introl eq_refl)). assert (nsum (map f l) <= nsum (map g l)) by (apply IH; intros; apply H; now right). lia.
Qed.

Section Reach.
  Variable junk : double -> N.
  Variable interest : (string * string) -> N -> N -> N -> N.
  Variable interest_order : N -> N -> N.
  Variable sell_order : N -> string -> N.
  Notation in_step := (in_step junk).
  Notation cinv := (cinv junk).
  Notation allowed := (allowed junk interest).
  Notation cstep := (cstep junk interest interest_order sell_order).
  Notation creaches := (creaches junk interest interest_order sell_order).

  Lemma else_ok P st d : cinv P st -> celsewhere st d -> cinv P (set_dex st d).
  Proof.
    intros (S & I & G & Pl) (S' & Pd & Ex & Rg).
    assert (G' : forall id c, fget N.eqb (c_cdps st) id = Some c -> good_cdp (set_dex st d) c).
    { intros id c X. destruct (G _ _ X) as (A1 & A2 & A3 & A4 & A5 & k & K1 & K2).
      unfold good_cdp. conj; auto. exists k. split; [apply Rg, K1 | apply Ex, K2]. }
    split; [exact S'|]. split; [|split].
    - destruct I. constructor; assumption.
    - exact G'.
    - intros k s. change (ledger_of (set_dex st d)) with (d_ledger d). rewrite Pd, Pl. f_equal.
      unfold collateral. change (c_cdps (set_dex st d)) with (c_cdps st). apply msum_eq. intros id c X.
      assert (E : owns (set_dex st d) k c = owns st k c).
      { apply (in_fget N.eqb N_eqb_ok) in X; [|apply (is_once _ _ I)].
        destruct (G _ _ X) as (_ & _ & _ & _ & _ & k' & K1 & _). unfold owns.
        change (account_of (set_dex st d) (c_owner c)) with (fget regid_eqb (d_reg d) (c_owner c)).
        rewrite (Rg _ _ K1), K1. reflexivity. }
      now rewrite E.
  Qed.

  Lemma step_ok P st a st' : cinv P st -> allowed st a -> cstep st a = Done st' ->
    cinv P st' /\
    (match a with CElse _ => True | _ => uncovered st' = (uncovered st + Z.of_N (gift interest st a))%Z end).
  Proof.
    intros I A H. destruct a as [e t|e t|e t|e txid ids|e fprice ps|d]; cbn [CdpModel.cstep] in H.
    - destruct (N.eq_dec (s_cdp t) 0) as [Z|Z].
      + destruct (stake_open junk interest P e st t st' I A Z H) as (J & U). split; [exact J|].
        cbn [gift]. rewrite (proj2 (N.eqb_eq _ _) Z). cbn [negb]. rewrite andb_false_r. lia.
      + apply (stake_extend junk interest P e st t st' I A Z H).
    - destruct (redeem_ok junk interest P e st t st' I H) as (J & U). split; [exact J|]. cbn [gift]. lia.
    - destruct A as (_ & _ & A). destruct (liquidate_ok junk P e st t st' I A H) as (J & U).
      split; [exact J|]. cbn [gift]. lia.
    - destruct A as (A & _). cbn [creates fst] in A.
      destruct (settle_ok junk interest interest_order P e st txid ids st' I A H) as (J & U).
      split; [exact J|]. cbn [gift]. lia.
    - destruct A as (_ & A & _). cbn [creates snd] in A.
      destruct (force_ok junk sell_order P e st fprice ps st' I A H) as (J & U).
      split; [exact J|]. cbn [gift]. lia.
    - injection H as <-. split; [|exact Logic.I]. apply else_ok; [exact I | apply A].
  Qed.

  Lemma reaches_inv P st st' : cinv P st -> creaches st st' -> cinv P st'.
  Proof. intros I R. induction R as [|st1 a st2 R IH A H]; [exact I|]. apply (step_ok P st1 a st2 IH A H). Qed.

  Lemma start_inv st : no_positions st -> sound (c_dex st) ->
    cinv (fun k s => lbal (ledger_of st) k s BPledged) st.
  Proof.
    intros (E1 & E2 & E3 & E4 & E5) S. split; [exact S|]. split; [|split].
    - constructor; unfold is_open, totals, staked_total, owed_total; rewrite ?E1, ?E2, ?E3, ?E4, ?E5; cbn.
      + conj; constructor.
      + discriminate.
      + intros. split; [discriminate|]. intros (c & X & _). discriminate.
      + intros. split; [discriminate|]. intros (_ & X). discriminate.
      + intros. split; [discriminate|]. intros (_ & X). discriminate.
      + reflexivity.
    - rewrite E1. discriminate.
    - intros k s. unfold collateral. rewrite E1. cbn. lia.
  Qed.

End Reach.

Section Totals.
  Variable junk : double -> N.
  Notation cinv := (cinv junk).

  (** All collateral of a token is pledged somewhere. *)
  Lemma staked_total_bound P st p : cinv P st -> staked_total st p < two63.
  Proof.
    intros (S & I & G & Pl). destruct p as [s q].
    assert (H : staked_total st (s, q) <= nsum (map (fun ka => collateral st (fst ka) s) (ledger_of st))).
    { unfold staked_total, collateral.
      assert (Gm : forall id c, In (id, c) (c_cdps st) -> good_cdp st c).
      { intros id c X. apply (G id). apply (in_fget N.eqb N_eqb_ok); [apply (is_once _ _ I) | exact X]. }
      revert Gm. generalize (c_cdps st) as m. induction m as [|[id c] m IH]; intros Gm; cbn [msum].
      - lia.
      - rewrite (nsum_map_add (fun ka => if owns st (fst ka) c && String.eqb (c_bcoin c) s then c_staked c else 0)).
        specialize (IH (fun i d X => Gm i d (or_intror X))).
        assert (X : (if cpair_eqb (pair_of c) (s, q) then c_staked c else 0) <=
                    nsum (map (fun ka => if owns st (fst ka) c && String.eqb (c_bcoin c) s then c_staked c else 0) (ledger_of st))).
        { destruct (cpair_eqb (pair_of c) (s, q)) eqn:E; [|lia]. apply cpair_eqb_ok in E. unfold pair_of in E. injection E as E _.
          destruct (Gm id c (or_introl eq_refl)) as (_ & _ & _ & _ & _ & k & K1 & K2).
          destruct (l_get (ledger_of st) k) as [a|] eqn:La; [|congruence].
          assert (Hin : In (k, a) (ledger_of st)) by (apply (fget_in N.eqb N_eqb_ok), La).
          pose proof (nsum_member (fun ka => if owns st (fst ka) c && String.eqb (c_bcoin c) s then c_staked c else 0) _ _ Hin) as Y.
          cbn [fst] in Y. unfold owns at 1 in Y. rewrite K1, N.eqb_refl, E, String.eqb_refl in Y. rewrite E, String.eqb_refl. exact Y. }
        lia. }
    assert (H2 : nsum (map (fun ka => collateral st (fst ka) s) (ledger_of st)) <= supply (ledger_of st) s).
    { unfold supply. rewrite msum_nsum. apply nsum_map_le. intros [k a] X. cbn [fst snd].
      specialize (Pl k s). unfold lbal in Pl.
      assert (La : l_get (ledger_of st) k = Some a) by (apply (in_fget N.eqb N_eqb_ok); [apply S | exact X]).
      rewrite La in Pl. pose proof (bal_le_holding a s BPledged). lia. }
    destruct S as (_ & _ & Su). specialize (Su s). unfold ledger_of in *. lia.
  Qed.
End Totals.
