(** The exchange: C11, C12, C13, C40, C53. *)
From Coq Require Import String List Bool NArith ZArith Lia.
From Verif Require Import Prelude PreludeFacts AccountModel AccountSpec DexModel DexSpec DexProofs.
Import ListNotations.
Open Scope N_scope.

(** C11. After any history of placing, cancelling and settling orders, of system orders, and of
    other transactions in between, from a state without orders: an account's frozen balance of
    a token is what it had frozen at the start and what its active orders may still pay, and no
    order has paid more than it was placed with. *)
Theorem c11_orders_backed :
  forall base_ok quote_ok max_money order_hash st0 st,
  sound st0 -> d_orders st0 = [] ->
  reaches base_ok quote_ok max_money order_hash st0 st ->
  (forall k s, lbal (d_ledger st) k s BFrozen = lbal (d_ledger st0) k s BFrozen + committed st k s) /\
  (forall id o, fget N.eqb (d_orders st) id = Some o -> paid o <= placed_with o).
Proof.
  intros * S O R. pose proof (reaches_inv _ _ _ _ _ _ S O R) as (_ & _ & G & E).
  split; [exact E|]. intros id o H. apply (G _ _ H).
Qed.
Print Assumptions c11_orders_backed.

(** ... so the owner can always cancel an order, gets back exactly what it has not paid, and
    nothing else changes. *)
Theorem c11_owner_cancels :
  forall base_ok quote_ok max_money order_hash st0 st sender a id o,
  sound st0 -> d_orders st0 = [] ->
  reaches base_ok quote_ok max_money order_hash st0 st ->
  id <> 0 -> fget N.eqb (d_orders st) id = Some o -> o_user_made o = true ->
  l_get (d_ledger st) sender = Some a -> regid_empty (a_regid a) = false ->
  a_regid a = o_owner o ->
  exists st', cancel st sender id = Done st' /\
    moved (d_ledger st) [mkMove (sender, BFrozen) (sender, BFree) (pays_with o) (unspent o)]
      (d_ledger st') /\
    d_orders st' = fdel N.eqb (d_orders st) id /\ d_ops st' = d_ops st /\ d_reg st' = d_reg st.
Proof.
  intros * S O R Hid H U A Re Ro. pose proof (reaches_inv _ _ _ _ _ _ S O R) as I.
  destruct (cancel_works _ _ _ _ _ _ I Hid H U A Re Ro) as (st' & C & [E1 E2 E3 (E4 & E5 & _)] & D & _).
  exists st'. cbn [set_orders d_ledger d_reg d_ops] in *. auto.
Qed.
Print Assumptions c11_owner_cancels.

(** Nobody else can cancel it, except by a governance proposal. *)
Theorem c11_only_owner_cancels :
  forall st sender id st', cancel st sender id = Done st' ->
  exists a o, l_get (d_ledger st) sender = Some a /\ fget N.eqb (d_orders st) id = Some o /\
    a_regid a = o_owner o /\ regid_empty (a_regid a) = false /\ o_user_made o = true.
Proof.
  intros * H. unfold cancel in H. step H as u G0. step H as o E. step H as u1 U. step H as a A.
  step H as u2 G. apply guard_done, andb_true_iff in G as (G1 & G2).
  apply TxProofs.regid_eqb_ok in G2. apply need_done in A, E. apply guard_done in U.
  exists a, o. apply negb_true_iff in G1. auto.
Qed.
Print Assumptions c11_only_owner_cancels.

Theorem c11_governance_cancels :
  forall base_ok quote_ok max_money order_hash st0 st id o,
  sound st0 -> d_orders st0 = [] ->
  reaches base_ok quote_ok max_money order_hash st0 st ->
  id <> 0 -> fget N.eqb (d_orders st) id = Some o -> o_user_made o = true ->
  exists st' k, gov_cancel st id = Done st' /\ fget regid_eqb (d_reg st) (o_owner o) = Some k /\
    moved (d_ledger st) [mkMove (k, BFrozen) (k, BFree) (pays_with o) (unspent o)] (d_ledger st') /\
    d_orders st' = fdel N.eqb (d_orders st) id /\ d_ops st' = d_ops st /\ d_reg st' = d_reg st.
Proof.
  intros * S O R Hid H U. pose proof (reaches_inv _ _ _ _ _ _ S O R) as I.
  destruct (gov_cancel_works _ _ _ _ I Hid H U) as (st' & k & C & K & [E1 E2 E3 (E4 & E5 & _)] & D & _).
  exists st', k. cbn [set_orders d_ledger d_reg d_ops] in *. repeat split; assumption.
Qed.
Print Assumptions c11_governance_cancels.

(** C12. Every settlement accepted in such a history comes from the settlement service and is
    one proper deal after the other. *)
Theorem c12_deals_proper :
  forall base_ok quote_ok max_money order_hash st0 st e txid sender items st',
  sound st0 -> d_orders st0 = [] ->
  reaches base_ok quote_ok max_money order_hash st0 st ->
  settle order_hash e txid sender st items = Done st' ->
  sender = n_match e /\ settled order_hash e txid 0 st items st'.
Proof.
  intros * S O R H. pose proof (reaches_inv _ _ _ _ _ _ S O R) as I.
  destruct (settle_settled _ _ _ _ _ _ _ _ I H) as (A & B & _). auto.
Qed.
Print Assumptions c12_deals_proper.

(** What a proper deal does to the money: in both tokens, what leaves the escrow is what the
    receivers get. *)
Theorem c12_deal_conserves :
  forall e tax_id st i st' b s pb ps taker x,
  proper_deal e tax_id st i st' b s pb ps taker x ->
  (forall t, supply (d_ledger st') t = supply (d_ledger st) t) /\
  l_coin i = (l_coin i - coin_tax x - coin_fee x) + coin_tax x + coin_fee x /\
  l_asset i = (l_asset i - asset_tax x - asset_fee x) + asset_tax x + asset_fee x /\
  0 < l_coin i - coin_tax x - coin_fee x /\ 0 < l_asset i - asset_tax x - asset_fee x.
Proof.
  intros * P. split; [apply (pd_supply _ _ _ _ _ _ _ _ _ _ _ P)|].
  pose proof (pd_net _ _ _ _ _ _ _ _ _ _ _ P) as (A & B). lia.
Qed.
Print Assumptions c12_deal_conserves.

(** C13. Rounded down deal by deal, the coins for any deals at prices up to the limit are not
    more than the coins for all the assets at the limit, rounded down once. *)
Theorem c13_partial_deals :
  forall (amount limit : N) (deals : list (N * N)),
  Forall (fun d => snd d <= limit) deals ->
  nsum (map fst deals) <= amount ->
  nsum (map (fun d => value_at (fst d) (snd d)) deals) <= value_at amount limit.
Proof. exact floor_sum. Qed.
Print Assumptions c13_partial_deals.

(** A limit buy in any history: frozen at the start were the coins for its assets at its
    limit; its deals, whatever they were, did not use up more. *)
Theorem c13_limit_buy_backed :
  forall base_ok quote_ok max_money order_hash st0 st id o,
  sound st0 -> d_orders st0 = [] ->
  reaches base_ok quote_ok max_money order_hash st0 st ->
  fget N.eqb (d_orders st) id = Some o -> o_type o = Limit -> o_side o = Buy ->
  o_coin_amount o = value_at (o_asset_amount o) (o_price o) /\
  o_deal_asset o <= o_asset_amount o /\
  o_deal_coin o <= value_at (o_deal_asset o) (o_price o).
Proof.
  intros * S O R H T Sd. pose proof (reaches_inv _ _ _ _ _ _ S O R) as (_ & _ & G & _).
  destruct (G _ _ H) as (_ & _ & _ & X). destruct (X T Sd) as (X1 & X2 & X3 & _).
  split; [assumption|]. split; [assumption|]. now apply value_at_bound.
Qed.
Print Assumptions c13_limit_buy_backed.

(** A deal trips an assertion only by an amount of coins that does not fit 64 bits; so the
    assertion on completing a limit buy never fails. *)
Theorem c13_completion :
  forall base_ok quote_ok max_money order_hash st0 st e txid idx i,
  sound st0 -> d_orders st0 = [] ->
  reaches base_ok quote_ok max_money order_hash st0 st ->
  exec_deal order_hash e txid idx st i = Abort ->
  two64 - 1 <= value_at (l_asset i) (l_price i).
Proof.
  intros * S O R H. pose proof (reaches_inv _ _ _ _ _ _ S O R) as I.
  destruct (exec_deal_stuck _ _ _ _ _ _ _ _ I H (or_introl eq_refl)) as [(_ & X)|(X & _)]; [assumption | discriminate].
Qed.
Print Assumptions c13_completion.

(** C40. Placing an order gives a verdict, if the sender has a registration id (which
    execution of the transaction gives it before, tx.cpp:192-198) and the coins for the assets
    at the price fit 64 bits. *)
Theorem c40_placement_verdict :
  forall base_ok quote_ok max_money e st t,
  (forall a, l_get (d_ledger st) (t_sender t) = Some a -> regid_empty (a_regid a) = false) ->
  value_at (t_asset_amount t) (t_price t) < two64 - 1 ->
  ~ stuck (place base_ok quote_ok max_money e st t).
Proof. exact place_verdict. Qed.
Print Assumptions c40_placement_verdict.

(** C53. Settling gives a verdict in every history, if all amounts of coins, given or computed,
    are below 2^63. *)
Theorem c53_settlement_verdict :
  forall base_ok quote_ok max_money order_hash st0 st e txid sender items,
  sound st0 -> d_orders st0 = [] ->
  reaches base_ok quote_ok max_money order_hash st0 st ->
  Forall moderate items ->
  ~ stuck (settle order_hash e txid sender st items).
Proof.
  intros * S O R M. pose proof (reaches_inv _ _ _ _ _ _ S O R) as I.
  eapply settle_verdict; eassumption.
Qed.
Print Assumptions c53_settlement_verdict.

(** ** A history *)
Section Instance.
  Local Open Scope string_scope.
  Definition acc (k : N) (wusd wicc : N) : account :=
    mkAccount k (7, k) (Some k) [("WUSD", mkToken wusd 5 0 0 0); ("WICC", mkToken wicc 0 0 0 0)]
      0 0 0 all_perms.
  Definition L0 := [(1, acc 1 100000000000 0); (2, acc 2 0 900000000000000000); (3, acc 3 0 0);
                    (4, acc 4 0 0); (5, acc 5 1000000 0)].
  Definition R0 : list (N * N * N) := [(7, 1, 1); (7, 2, 2); (7, 3, 3); (7, 4, 4); (7, 5, 5)].
  Definition exchange := mkOperator (7, 3) (mkParams true 10000 20000) [] true.
  Definition s0 := mkD L0 R0 [] [(0, exchange); (1, exchange)].
  Definition env (n : N) := mkDenv (100, n) true (7, 4) (7, 5) 4 (7, 3).
  Definition okay (_ : string) := true.
  Definition money (s : string) : option N := None.
  Definition oh (txid idx : N) (_ : N * N * N * N * N) (_ : string) : N := 1000 + txid + idx.

  Definition buy (id amount price : N) :=
    mkOrderTx id 1 1 1 "WUSD" "WICC" 0 amount price 0 None (0, 0) false 0 "WICC".
  Definition sell (id amount price dex : N) :=
    mkOrderTx id 2 1 2 "WUSD" "WICC" 0 amount price dex None (0, 0) false 0 "WICC".
  Definition buy_at_market (id amount : N) :=
    mkOrderTx id 1 2 1 "WUSD" "WICC" amount 0 0 0 None (0, 0) false 0 "WICC".
  Definition sell_at_market (id amount : N) :=
    mkOrderTx id 2 2 2 "WUSD" "WICC" 0 amount 0 0 None (0, 0) false 0 "WICC".

  Fixpoint run (st : dstate) (acts : list daction) : outcome dstate :=
    match acts with
    | [] => Done st
    | a :: acts' => do st1 <- dstep okay okay money oh st a; run st1 acts'
    end.
  Definition get {A} (d : A) (x : outcome A) : A := match x with Done a => a | _ => d end.

  Lemma run_reaches acts : forall st st1 st2,
    (forall s, ~ In (DElse s) acts) ->
    reaches okay okay money oh st st1 -> run st1 acts = Done st2 -> reaches okay okay money oh st st2.
  Proof.
    induction acts as [|a acts IH]; cbn [run]; intros st st1 st2 N R H.
    - injection H as <-. exact R.
    - step H as s S. eapply IH; [|eapply reach_next; [exact R| |exact S]|exact H].
      + intros x I. eapply N. right. exact I.
      + intros x ->. exfalso. eapply N. now left.
  Qed.

  Lemma s0_sound : sound s0.
  Proof.
    split; [|split].
    - split; [cbn; repeat (apply NoDup_cons; [cbn; intuition discriminate|]); apply NoDup_nil|].
      intros k a H. apply (fget_in N.eqb N_eqb_ok) in H. cbn in H.
      repeat destruct H as [H|H]; inversion H; reflexivity.
    - intros k a H _. apply (fget_in N.eqb N_eqb_ok) in H. cbn in H.
      repeat destruct H as [H|H]; inversion H; reflexivity.
    - intros s. destruct (String.eqb s "WUSD") eqn:E1; [apply String.eqb_eq in E1; subst; reflexivity|].
      destruct (String.eqb s "WICC") eqn:E2; [apply String.eqb_eq in E2; subst; reflexivity|].
      unfold supply, msum, holding, bal, get_token, s0, d_ledger, L0, acc.
      cbn -[String.eqb]. rewrite E1, E2. reflexivity.
  Qed.

  (** A limit buy of 3 WICC at 7.00000001 and sells at several prices, on two exchanges. *)
  Definition story : list daction :=
    [DPlace (env 1) (buy 11 300000001 700000001); DPlace (env 2) (sell 12 500000000 600000003 1);
     DSettle (env 3) 50 (7, 3) [mkDeal 11 12 650000003 650000003 100000000];
     DSystem (env 4) 13 Buy "WUSD" "WICC" 5000].
  Definition s1 := get s0 (run s0 story).
  Definition last_deal := mkDeal 11 12 699999999 1400000004 200000001.
  Definition s2 := get s0 (settle oh (env 5) 60 (7, 3) s1 [last_deal]).

  Lemma history acts st :
    (forallb (fun a => match a with DElse _ => false | _ => true end) acts
     && match run s0 acts with Done _ => true | _ => false end) = true ->
    st = get s0 (run s0 acts) -> reaches okay okay money oh s0 st.
  Proof.
    intros H ->. apply andb_true_iff in H as (H1 & H2).
    destruct (run s0 acts) eqn:E; try discriminate. cbn [get].
    eapply run_reaches; [|apply reach_here|exact E].
    intros s I. rewrite forallb_forall in H1. apply H1 in I. discriminate.
  Qed.

  Example c11_example :
    sound s0 /\ d_orders s0 = [] /\ reaches okay okay money oh s0 s1 /\
    committed s1 1 "WUSD" = 1450000007 /\ lbal (d_ledger s1) 1 "WUSD" BFrozen = 1450000012 /\
    committed s1 2 "WICC" = 400000000 /\ lbal (d_ledger s1) 2 "WICC" BFrozen = 400000000 /\
    committed s1 5 "WUSD" = 265000 /\ lbal (d_ledger s1) 5 "WUSD" BFrozen = 265005 /\
    (exists o, fget N.eqb (d_orders s1) 11 = Some o /\ o_user_made o = true /\
               unspent o = 1450000007 /\ o_owner o = (7, 1)) /\
    cancel s1 2 11 = Reject /\ cancel s1 1 11 <> Reject /\ gov_cancel s1 12 <> Reject.
  Proof.
    split; [exact s0_sound|]. split; [reflexivity|]. split; [eapply history; [|reflexivity]; vm_compute; reflexivity|].
    vm_compute. repeat split; try reflexivity; try discriminate. eexists. repeat split; reflexivity.
  Qed.

  Example c12_example :
    settle oh (env 5) 60 (7, 3) s1 [last_deal] = Done s2 /\
    settle oh (env 5) 60 (7, 1) s1 [last_deal] = Reject /\
    settle oh (env 5) 60 (7, 3) s1 [mkDeal 11 12 699999999 1400000005 200000001] = Reject /\
    settle oh (env 5) 60 (7, 3) s1 [mkDeal 11 12 700000002 1400000011 200000001] = Reject /\
    settle oh (env 5) 60 (7, 3) s1 [mkDeal 11 12 600000002 1200000010 200000001] = Reject /\
    fget N.eqb (d_orders s2) 11 = None /\ fget N.eqb (d_orders s2) 12 <> None /\
    lbal (d_ledger s2) 1 "WUSD" BFrozen = 5 /\
    lbal (d_ledger s2) 1 "WUSD" BFree + 2050000007 = 100000000000.
  Proof. vm_compute. repeat split; discriminate. Qed.

  Example c13_example :
    Forall (fun d : N * N => snd d <= 700000001) [(100000000, 650000003); (200000001, 699999999)] /\
    nsum (map fst [(100000000, 650000003); (200000001, 699999999)]) = 300000001 /\
    nsum (map (fun d => value_at (fst d) (snd d)) [(100000000, 650000003); (200000001, 699999999)]) = 2050000007 /\
    value_at 300000001 700000001 = 2100000010 /\
    (exists o, fget N.eqb (d_orders s1) 11 = Some o /\ o_type o = Limit /\ o_side o = Buy /\
               o_deal_coin o = 650000003 /\ o_deal_asset o = 100000000).
  Proof.
    split; [repeat constructor; vm_compute; discriminate|]. vm_compute.
    repeat split; try reflexivity. eexists. repeat split; reflexivity.
  Qed.

  Example c40_example :
    value_at 300000001 700000001 < two64 - 1 /\
    (forall a, l_get (d_ledger s0) (t_sender (buy 11 300000001 700000001)) = Some a ->
               regid_empty (a_regid a) = false).
  Proof. split; [reflexivity|]. intros a H. vm_compute in H. injection H as <-. reflexivity. Qed.

  Example c53_example : Forall moderate [last_deal].
  Proof. repeat constructor. Qed.

  (** C40 is false as stated: nothing bounds the price of a limit order, and the coins for a
      buy at an extreme price fail an assertion. *)
  Theorem c40_price_refuted :
    exists t, t_price t < two64 /\ t_asset_amount t < two64 /\
      check_order okay okay money s0 t = Done (Limit, Buy) /\
      (forall a, l_get (d_ledger s0) (t_sender t) = Some a -> regid_empty (a_regid a) = false) /\
      place okay okay money (env 1) s0 t = Abort.
  Proof.
    exists (buy 11 100000000 18446744073709551615). repeat split; try reflexivity.
    intros a H. vm_compute in H. injection H as <-. reflexivity.
  Qed.

  (** C12 is false for amounts of 2^63 coins and more: a buy at market may pay one unit for
      assets the seller asks 2^64 - 16 units for (a price of 20.5, an amount below the total an
      asset may have). *)
  Definition s3 := get s0 (run s0 [DPlace (env 1) (sell 21 899841174327295200 2050000000 0);
                                   DPlace (env 2) (buy_at_market 22 10000000)]).
  Theorem c12_market_buy_refuted :
    exists i st', reaches okay okay money oh s0 s3 /\
      settle oh (env 3) 60 (7, 3) s3 [i] = Done st' /\
      l_coin i = 1 /\ value_at (l_asset i) (l_price i) = 18446744073709551600 /\
      (exists s, fget N.eqb (d_orders s3) (l_sell i) = Some s /\ o_type s = Limit /\
                 o_price s = 2050000000 /\ o_owner s = (7, 2)) /\
      lbal (d_ledger s3) 2 "WICC" BFrozen = 899841174327295200 /\
      lbal (d_ledger st') 2 "WICC" BFrozen = 0 /\
      lbal (d_ledger st') 2 "WUSD" BFree = lbal (d_ledger s3) 2 "WUSD" BFree + 1.
  Proof.
    set (i := mkDeal 22 21 2050000000 1 899841174327295200).
    exists i, (get s0 (settle oh (env 3) 60 (7, 3) s3 [i])).
    split; [eapply history; [|reflexivity]; vm_compute; reflexivity|]. vm_compute. repeat split; try reflexivity.
    eexists. repeat split; reflexivity.
  Qed.

  (** C53 is false as stated: the coins computed for a deal at an extreme price fail an
      assertion; and given coins 2^63 above the computed ones make the absolute value of the
      least 64-bit number, which is undefined. *)
  Definition s4 := get s0 (run s0 [DPlace (env 1) (sell_at_market 21 10000000);
                                   DPlace (env 2) (buy_at_market 22 10000000)]).
  Theorem c53_extreme_amounts_refuted :
    exists i1 i2, reaches okay okay money oh s0 s4 /\
      Forall (fun i => l_price i < two64 /\ l_coin i < two64 /\ l_asset i < two64) [i1; i2] /\
      settle oh (env 3) 60 (7, 3) s4 [i1] = Abort /\
      settle oh (env 3) 60 (7, 3) s4 [i2] = Undefined.
  Proof.
    exists (mkDeal 22 21 18446744073709551615 1 100000000),
           (mkDeal 22 21 100000000 9223372036864775808 10000000).
    split; [eapply history; [|reflexivity]; vm_compute; reflexivity|]. split; [repeat constructor|]. vm_compute. auto.
  Qed.
End Instance.
Print Assumptions c40_price_refuted.
Print Assumptions c12_market_buy_refuted.
Print Assumptions c53_extreme_amounts_refuted.
