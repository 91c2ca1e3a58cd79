(** Theorems about collateralised debt positions (C14, C15, C35, C36, C44, C56-C58). *)
From Coq Require Import String List Bool NArith ZArith Lia Sorted.
From Coq Require Import ZifyBool ZifyNat ZifyN.
From Verif Require Import Prelude PreludeFacts AccountModel AccountSpec AccountProofs TxModel TxProofs
  DexModel DexSpec DexProofs DoubleModel CdpModel CdpSpec CdpProofs CdpDouble CdpInv CdpActions CdpClose
  CdpForce CdpReach CdpRatio CdpEffects CdpLists.
Import ListNotations.
Open Scope N_scope.

Section Positions.
  Variable junk : double -> N.
  Variable interest : (string * string) -> N -> N -> N -> N.
  Variable interest_order : N -> N -> N.
  Variable sell_order : N -> string -> N.
  Notation creaches := (creaches junk interest interest_order sell_order).
  Notation cstep := (cstep junk interest interest_order sell_order).
  Notation allowed := (allowed junk interest).
  Notation ratio_number := (ratio_number junk).

  Local Lemma inv st0 st : no_positions st0 -> sound (c_dex st0) -> creaches st0 st ->
    cinv junk (fun k s => lbal (ledger_of st0) k s BPledged) st.
  Proof.
    intros N0 S R. apply (reaches_inv junk interest interest_order sell_order _ st0 st); [|exact R].
    apply start_inv; auto.
  Qed.

  (** ** C14 *)

  (** Positions are found by owner, by ratio and by height as they are, each once, and nothing
      else is found. *)
  Theorem c14_indexes st0 st : no_positions st0 -> sound (c_dex st0) -> creaches st0 st -> in_step junk st.
  Proof. intros N0 S R. apply (inv st0 st N0 S R). Qed.

  (** Totals of a pair are the sums over its open positions. *)
  Theorem c14_totals st0 st p : no_positions st0 -> sound (c_dex st0) -> creaches st0 st ->
    owed_total st p < two64 -> totals st p = (staked_total st p, owed_total st p).
  Proof.
    intros N0 S R O. pose proof (inv st0 st N0 S R) as I.
    pose proof (staked_total_bound junk _ st p I) as B.
    rewrite (is_totals _ _ (proj1 (proj2 I))), !N.mod_small; auto. unfold two63, two64 in *. lia.
  Qed.

  (** An owner has at most one position of a pair. *)
  Theorem c14_one_each st0 st c d : no_positions st0 -> sound (c_dex st0) -> creaches st0 st ->
    is_open st c -> is_open st d -> c_owner c = c_owner d -> pair_of c = pair_of d -> c = d.
  Proof.
    intros N0 S R Oc Od E1 E2. pose proof (c14_indexes st0 st N0 S R) as I.
    assert (H1 : fget user_eqb (c_user st) (c_owner c, pair_of c) = Some (c_id c)) by (apply (is_user _ _ I); exists c; auto).
    assert (H2 : fget user_eqb (c_user st) (c_owner c, pair_of c) = Some (c_id d)) by (apply (is_user _ _ I); exists d; auto).
    rewrite H1 in H2. injection H2 as E. unfold is_open in *. rewrite E in Oc. congruence.
  Qed.

  (** ** C15 *)

  (** The list is the open positions of the pair up to the bound on the number kept in the index,
      each once, lowest first. *)
  Theorem c15_list st0 st p ratio price l : no_positions st0 -> sound (c_dex st0) -> creaches st0 st ->
    list_by_ratio junk st p ratio price = Done l ->
    (forall c, In c l <-> is_open st c /\ pair_of c = p /\ ratio_number c <= cast junk (ratio_bound ratio price)) /\
    NoDup (map c_id l) /\ StronglySorted (fun c d => ratio_number c <= ratio_number d) l.
  Proof.
    intros N0 S R H. destruct (list_done junk st p ratio price l (c14_indexes st0 st N0 S R) H) as (A & B & C).
    split; [exact A|]. split; [exact B|]. clear - C. induction C as [|x l C IH F]; constructor; [exact IH|].
    eapply Forall_impl; [|exact F]. intros y K. unfold rank in K. cbn [key_leb] in K.
    destruct (ratio_number x =? ratio_number y) eqn:E; lia.
  Qed.

  (** Positions whose number is exact up to rounding: neither far too much nor far too little
      collateral per unit of debt. *)
  Definition ordinary (c : cdp) : Prop :=
    c_staked c <> 0 /\ c_owed c <> 0 /\ c_staked c < two64 /\ c_owed c < two64 /\
    100000000 * c_staked c < two63 * c_owed c /\ 2 * c_owed c <= 100000000 * c_staked c.

  (** A listed position has the ratio asked for or less: staked * price / (owed * 10^4) exceeds
      [ratio] by no more than a part in 2^48 and 10^-12 of the price. *)
  Theorem c15_listed_low c ratio price : ordinary c -> 0 < ratio <= 1000000 -> 0 < price < two64 ->
    ratio_number c <= cast junk (ratio_bound ratio price) ->
    (2 ^ 49 - 1) * (c_staked c * price * 10 ^ 8) <
      (2 ^ 49 + 1) * (ratio * c_owed c * 10 ^ 12) + 2 ^ 49 * (c_owed c * price).
  Proof.
    intros (A1 & A2 & A3 & A4 & A5 & A6) (R1 & R2) (P1 & P2) H.
    exact (listed_accurate junk c ratio price A1 A2 A3 A4 A5 A6 ltac:(lia) R2 ltac:(lia) P2 H).
  Qed.
  (** One that is not listed has more, up to a part in 2^48. *)
  Theorem c15_unlisted_high c ratio price : ordinary c -> 0 < ratio <= 1000000 -> 0 < price < two64 ->
    ~ ratio_number c <= cast junk (ratio_bound ratio price) ->
    (2 ^ 49 - 1) * (ratio * c_owed c * 10 ^ 4) < (2 ^ 49 + 1) * (c_staked c * price).
  Proof.
    intros (A1 & A2 & A3 & A4 & A5 & A6) (R1 & R2) (P1 & P2) H.
    exact (unlisted_accurate junk c ratio price A1 A2 A3 A4 A5 A6 ltac:(lia) R2 ltac:(lia) P2 H).
  Qed.
  (** The order of the list is that of the ratios, as exactly. *)
  Theorem c15_order c d : ordinary c -> ordinary d -> ratio_number c <= ratio_number d ->
    (2 ^ 49 - 1) * (c_staked c * c_owed d * 10 ^ 8) <
      (2 ^ 49 + 1) * (c_staked d * c_owed c * 10 ^ 8) + 2 ^ 49 * (c_owed c * c_owed d).
  Proof.
    intros (A1 & A2 & A3 & A4 & A5 & A6) (B1 & B2 & B3 & B4 & B5 & B6) H.
    exact (order_accurate junk c d A1 A2 A3 A4 A5 A6 B1 B2 B3 B4 B5 B6 H).
  Qed.
  (** There is always a list. *)
  Theorem c15_answers st p ratio price : 0 < ratio <= 1000000 -> 0 < price < two64 ->
    exists l, list_by_ratio junk st p ratio price = Done l.
  Proof. intros (R1 & R2) (P1 & P2). apply (list_answers junk st p ratio price); lia. Qed.

  (** Without debt a position is not listed, whatever converting too large a number gives. *)
  Theorem c15_no_debt_unlisted c ratio price : c_owed c = 0 -> c_staked c <> 0 ->
    0 < ratio <= 1000000 -> 0 < price < two64 ->
    ~ ratio_number c <= cast junk (ratio_bound ratio price).
  Proof. intros O S (R1 & R2) (P1 & P2). apply no_debt_unlisted; auto; lia. Qed.

  (** ** C35 *)

  (** A round closes at most a thousand positions; the reserve pays exactly the debt closed, out
      of its free balance; nothing else about debts and stable coins changes. *)
  Theorem c35_round st0 st e fprice ps st' : no_positions st0 -> sound (c_dex st0) -> creaches st0 st ->
    supply (ledger_of st) "WGRT" + issues junk st fprice ps < two63 ->
    force_liquidate junk sell_order e st fprice ps = Done st' ->
    positions st <= positions st' + 1000 /\ uncovered st' = uncovered st /\
    (st' = st \/ exists f, account_of st (n_reserve (e_dex e)) = Some f /\
       lbal (ledger_of st') f "WUSD" BFree + debt st = lbal (ledger_of st) f "WUSD" BFree + debt st').
  Proof.
    intros N0 S R A H. pose proof (inv st0 st N0 S R) as I.
    destruct (force_count junk sell_order _ e st fprice ps st' I A H) as (P & M).
    destruct (force_ok junk sell_order _ e st fprice ps st' I A H) as (_ & U). auto.
  Qed.

  (** One pair: only positions at or below the ratio for liquidation are closed, the lowest
      numbers first, until all are, or the limit is reached, or the reserve cannot pay for the
      lowest that is left; collateral becomes a frozen balance of the reserve. *)
  Theorem c35_pair st0 st e f p price fprice limit st' n :
    no_positions st0 -> sound (c_dex st0) -> creaches st0 st ->
    supply (ledger_of st) "WGRT" + issues junk st fprice [(p, (price, true))] < two63 ->
    force_pair junk sell_order e st f p price fprice limit = Done (st', n) ->
    let low c := pair_of c = p /\ ratio_number c <= cast junk (ratio_bound (e_param e p PForce) price) in
    (forall c, closed st st' c -> low c) /\
    (forall d, is_open st d -> closed st st' d \/ is_open st' d) /\ (forall d, is_open st' d -> is_open st d) /\
    (forall c d, closed st st' c -> is_open st d -> pair_of d = p -> ratio_number d < ratio_number c -> closed st st' d) /\
    positions st' <= positions st <= positions st' + limit /\
    (floor_reached junk e st p price = false ->
       positions st = positions st' + limit \/
       (forall d, is_open st' d -> low d ->
          exists d0, is_open st' d0 /\ pair_of d0 = p /\ ratio_number d0 <= ratio_number d /\
            lbal (ledger_of st') f "WUSD" BFree < c_owed d0)) /\
    (forall k s b, b = BFree \/ b = BFrozen -> k <> f -> lbal (ledger_of st') k s b = lbal (ledger_of st) k s b) /\
    (forall s, lbal (ledger_of st') f s BFree + (if String.eqb s "WUSD" then debt st else 0) =
               lbal (ledger_of st) f s BFree + (if String.eqb s "WUSD" then debt st' else 0)) /\
    (forall s, s <> "WGRT"%string ->
       lbal (ledger_of st') f s BFrozen + (if String.eqb s (fst p) then staked_total st' p else 0) =
       lbal (ledger_of st) f s BFrozen + (if String.eqb s (fst p) then staked_total st p else 0)).
  Proof.
    cbv zeta. intros N0 S R A H. pose proof (inv st0 st N0 S R) as I.
    unfold issues in A. cbn [map nsum fst snd] in A. rewrite N.add_0_r in A.
    destruct (force_pair_effect junk sell_order _ e st f p price fprice limit st' n I A H)
      as (_ & A1 & A2 & A3 & A4 & A5 & A6 & A7 & A8 & A9).
    conj; auto; try lia. intros F. destruct (A9 F) as [X|X]; [now left|]. right. intros d O (D1 & D2). apply X; assumption.
  Qed.

  (** ** C36 *)

  (** Due positions of a pair, as they should be found: each once, longest unsettled first. *)
  Definition all_due (e : cenv) (st : cstate) (p : string * string) (ids : list N) : Prop :=
    NoDup ids /\
    (forall id, In id ids <-> exists c, is_open st c /\ pair_of c = p /\ c_id c = id /\
                                        due e p (c_height c) (e_height e) = true) /\
    StronglySorted (fun i j => forall c d, fget N.eqb (c_cdps st) i = Some c ->
                                 fget N.eqb (c_cdps st) j = Some d -> c_height c <= c_height d) ids.
  Local Lemma dues_ok e st p : in_step junk st -> all_due e st p (dues e st p).
  Proof.
    intros I. split; [exact (dues_nodup junk e st p I)|]. split; [intros id; apply (dues_in junk e st p id I)|].
    exact (dues_sorted junk e st p I).
  Qed.

  (** With one pair at most 99 positions are proposed: all that are due when there are fewer. *)
  Theorem c36_one_pair st0 st e p price : no_positions st0 -> sound (c_dex st0) -> creaches st0 st ->
    floor_reached junk e st p price = false ->
    exists ids, all_due e st p ids /\ settle_proposal junk e st [(p, (price, true))] = firstn 99 ids.
  Proof.
    intros N0 S R F. pose proof (c14_indexes st0 st N0 S R) as I. exists (dues e st p). split; [exact (dues_ok e st p I)|].
    exact (one_pair junk e st p price false F).
  Qed.
  (** With several pairs and fewer than a hundred due positions in all, each of these is proposed. *)
  Theorem c36_few st0 st e ps : no_positions st0 -> sound (c_dex st0) -> creaches st0 st ->
    exists due_of, (forall p, all_due e st p (due_of p)) /\
      let wanted := flat_map due_of
        (map fst (filter (fun d => snd (snd d) && negb (floor_reached junk e st (fst d) (fst (snd d)))) ps)) in
      (N.of_nat (List.length wanted) < 100 -> settle_proposal junk e st ps = wanted).
  Proof.
    intros N0 S R. pose proof (c14_indexes st0 st N0 S R) as I. exists (dues e st). split; [intros p; exact (dues_ok e st p I)|].
    cbv zeta. intros L. apply (few_pairs junk e st ps SETTLE_MAX); [unfold SETTLE_MAX; lia | exact L].
  Qed.

  (** ** C44 *)

  (** What a liquidation takes and pays: [s] stable coins from the sender, of which [d] pay debt
      and the rest goes to the reserve; [b] of the collateral to the sender, [o] to the owner. All
      of debt and collateral when the position closes, less of each when it does not. *)
  Theorem c44_amounts st0 st e t st' : no_positions st0 -> sound (c_dex st0) -> creaches st0 st ->
    pays_debt junk e st t -> liquidate junk e st t = Done st' ->
    exists c owner f s b o d x,
      fget N.eqb (c_cdps st) (q_cdp t) = Some c /\ account_of st (c_owner c) = Some owner /\
      (s <> d -> account_of st (n_reserve (e_dex e)) = Some f) /\
      d <= s <= q_scoins t /\ x <= s - d /\
      ((d = c_owed c /\ b + o = c_staked c /\ c_cdps st' = fdel N.eqb (c_cdps st) (c_id c)) \/
       (d < c_owed c /\ b + o < c_staked c /\ s = q_scoins t /\
        c_cdps st' = fput N.eqb (c_cdps st) (c_id c)
          (mkCdp (c_id c) (c_owner c) (c_height c) (c_bcoin c) (c_scoin c) (c_staked c - (b + o)) (c_owed c - d)))) /\
      (forall k sy bk, Z.of_N (lbal (ledger_of st') k sy bk) =
         (Z.of_N (lbal (ledger_of st) k sy bk) +
          liquidation_change (q_sender t) owner f (c_bcoin c) s b o d x k sy bk)%Z).
  Proof.
    intros N0 S R A H. pose proof (inv st0 st N0 S R) as I.
    exact (liquidate_effect junk _ e st t st' I A H).
  Qed.

  (** The sender pays at least the debt taken off, when the governed parameters fit together and
      the amounts are not huge (45 million stable coins offered, 11 thousand million owed). *)
  Theorem c44_price_covers_debt e st t :
    q_scoins t <> 0 -> q_scoins t < 2 ^ 52 ->
    (forall c price, fget N.eqb (c_cdps st) (q_cdp t) = Some c -> price_of e (pair_of c) = Done price ->
       let param := e_param e (pair_of c) in
       price < two64 /\ c_owed c < 2 ^ 60 /\ c_staked c < two63 /\
       c_staked c * price < two63 * 10 ^ 4 * c_owed c /\
       param PNonReturn <= 100000 /\ param PDiscount <= 10000 /\
       10 ^ 8 < param PNonReturn * param PDiscount /\ 10 ^ 8 < (param PForce + 1) * param PDiscount) ->
    pays_debt junk e st t.
  Proof. intros Zq Hq H. apply pays_debt_when; assumption. Qed.

  (** ** C56 *)

  (** A pledged balance is what was pledged before there were positions, and the collateral of
      the account's open positions. *)
  Theorem c56_pledged_is_collateral st0 st k s : no_positions st0 -> sound (c_dex st0) -> creaches st0 st ->
    lbal (ledger_of st) k s BPledged = lbal (ledger_of st0) k s BPledged + collateral st k s.
  Proof.
    intros N0 S R. pose proof (inv st0 st N0 S R) as (_ & _ & _ & P). apply P.
  Qed.

  (** ** C57 *)

  (** Stable coins less debts change by nothing but the interest given to a sender. *)
  Theorem c57_debt_covered st0 st a st' : no_positions st0 -> sound (c_dex st0) -> creaches st0 st ->
    allowed st a -> cstep st a = Done st' -> (forall d, a <> CElse d) ->
    uncovered st' = (uncovered st + Z.of_N (gift interest st a))%Z.
  Proof.
    intros N0 S R A H E. pose proof (inv st0 st N0 S R) as I.
    destruct (step_ok junk interest interest_order sell_order _ st a st' I A H) as (_ & U).
    destruct a; auto. exfalso. eapply E. reflexivity.
  Qed.

  (** ** C58 *)

  (** A new position has the ratio required for opening, up to a part in 2^49. *)
  Theorem c58_opened st e t st' : s_cdp t = 0 -> s_amount t < two64 -> s_mint t < two64 ->
    stake junk interest e st t = Done st' ->
    exists c price, fget N.eqb (c_cdps st') (s_id t) = Some c /\ price_of e (pair_of c) = Done price /\
      c_staked c = s_amount t /\ c_owed c = s_mint t /\
      (price < two64 -> e_param e (pair_of c) PStart < two64 ->
       2 ^ 49 * (e_param e (pair_of c) PStart * c_owed c * 10 ^ 4) <= (2 ^ 49 + 1) * (c_staked c * price)).
  Proof. exact (opened_ratio junk interest st e t st'). Qed.

  (** So has one from which collateral was taken out. *)
  Theorem c58_redeemed st0 st e t st' c : no_positions st0 -> sound (c_dex st0) -> creaches st0 st ->
    allowed st (CRedeem e t) -> redeem junk interest e st t = Done st' ->
    r_assets t <> 0 -> fget N.eqb (c_cdps st') (r_cdp t) = Some c ->
    (forall c0, fget N.eqb (c_cdps st) (r_cdp t) = Some c0 -> c_staked c0 <> 0) ->
    exists price, price_of e (pair_of c) = Done price /\
      (price < two64 -> e_param e (pair_of c) PStart < two64 ->
       2 ^ 49 * (e_param e (pair_of c) PStart * c_owed c * 10 ^ 4) <= (2 ^ 49 + 1) * (c_staked c * price)).
  Proof.
    intros N0 S R A H. pose proof (inv st0 st N0 S R) as I.
    destruct (step_ok junk interest interest_order sell_order _ st (CRedeem e t) st' I A H) as (I' & _).
    exact (redeemed_ratio junk interest _ st e t st' c I I' H).
  Qed.
End Positions.

Print Assumptions c14_indexes.
Print Assumptions c14_totals.
Print Assumptions c14_one_each.
Print Assumptions c15_list.
Print Assumptions c15_listed_low.
Print Assumptions c15_unlisted_high.
Print Assumptions c15_order.
Print Assumptions c15_answers.
Print Assumptions c15_no_debt_unlisted.
Print Assumptions c35_round.
Print Assumptions c35_pair.
Print Assumptions c36_one_pair.
Print Assumptions c36_few.
Print Assumptions c44_amounts.
Print Assumptions c44_price_covers_debt.
Print Assumptions c56_pledged_is_collateral.
Print Assumptions c57_debt_covered.
Print Assumptions c58_opened.
Print Assumptions c58_redeemed.
