(** Concrete histories of positions, and what does not hold (C14, C15, C35, C36, C44, C56-C58). *)
From Coq Require Import String List Bool NArith ZArith Lia Sorted.
From Coq Require Import ZifyBool ZifyNat ZifyN.
From Verif Require Import Prelude PreludeFacts AccountModel AccountSpec AccountProofs TxModel TxProofs
  DexModel DexSpec DexProofs DoubleModel CdpModel CdpSpec CdpProofs CdpDouble CdpInv CdpActions CdpClose
  CdpForce CdpReach CdpRatio CdpEffects CdpLists CdpProperties.
Import ListNotations.
Open Scope N_scope.

(** ** A world *)

Section World.
  (** Account [k] has stable coins, and the same amount of two assets. *)
  Definition person (x : N * (N * N)) : N * account :=
    let '(k, (u, w)) := x in
    (k, mkAccount k (7, k) (Some k)
          [("WUSD"%string, mkToken u 0 0 0 0); ("WICC"%string, mkToken w 0 0 0 0); ("WETH"%string, mkToken w 0 0 0 0)]
          0 0 0 all_perms).
  Definition world (l : list (N * (N * N))) : cstate :=
    mkC (mkD (map person l) (map (fun x => ((7, fst x), fst x)) l) [] []) [] [] [] [] [].

  Fixpoint increasing (l : list N) : bool :=
    match l with
    | x :: (y :: _) as l' => (x <? y) && increasing l'
    | _ => true
    end.
  Lemma increasing_all l : forall x y, increasing (x :: l) = true -> In y l -> x < y.
  Proof.
    induction l as [|z l IH]; intros x y H; [intros []|]. intros [E|I].
    - subst z. cbn in H. lia.
    - cbn [increasing] in H. apply andb_true_iff in H as (H1 & H2).
      specialize (IH z y H2 I). lia.
  Qed.
  Lemma increasing_nodup l : increasing l = true -> NoDup l.
  Proof.
    induction l as [|x l IH]; intros H; constructor.
    - intros I. pose proof (increasing_all l x x H I). lia.
    - apply IH. destruct l; [reflexivity|]. cbn [increasing] in H. now apply andb_true_iff in H as (_ & H).
  Qed.

  Lemma person_holding k u w s : holding (snd (person (k, (u, w)))) s <= u + w.
  Proof.
    cbn [person snd]. unfold holding, bal, get_token. cbn [a_tokens fget]. 
    destruct (String.eqb s "WUSD") eqn:E1; [cbn; lia|].
    destruct (String.eqb s "WICC") eqn:E2; [cbn; lia|].
    destruct (String.eqb s "WETH") eqn:E3; cbn; lia.
  Qed.

  Lemma world_sound l : increasing (map fst l) = true -> nsum (map (fun x => fst (snd x) + snd (snd x)) l) < two63 ->
    sound (c_dex (world l)) /\ no_positions (world l).
  Proof.
    intros I T. assert (Nd : NoDup (map fst l)) by now apply increasing_nodup.
    split; [|unfold no_positions; conj; reflexivity]. split; [|split]; cbn [world c_dex d_ledger d_reg].
    - split.
      + rewrite map_map. erewrite map_ext; [exact Nd|]. intros (k & u & w). reflexivity.
      + intros k a H. apply (fget_in N.eqb N_eqb_ok) in H. apply in_map_iff in H as ((k' & u & w) & E & _).
        cbn [person] in E. injection E as <- <-. reflexivity.
    - intros k a H _. apply (fget_in N.eqb N_eqb_ok) in H. apply in_map_iff in H as ((k' & u & w) & E & X).
      cbn [person] in E. injection E as <- <-. cbn [a_regid].
      apply (in_fget regid_eqb regid_eqb_ok).
      + unfold keys. rewrite map_map. cbn [fst]. clear - Nd. induction l as [|x l IH]; cbn [map] in *; [constructor|].
        inversion Nd as [|? ? A B]; subst. constructor; [|now apply IH].
        intros Y. apply in_map_iff in Y as (y & E & Y). injection E as E. apply A. rewrite <- E. now apply in_map.
      + apply in_map_iff. exists (k', (u, w)). split; [reflexivity | exact X].
    - intros s. eapply N.le_lt_trans; [|exact T]. unfold supply. clear I T Nd.
      induction l as [|(k & u & w) l IH]; [cbn; lia|]. cbn [map nsum fst snd].
      change (person (k, (u, w)) :: map person l) with ([person (k, (u, w))] ++ map person l)%list.
      pose proof (person_holding k u w s) as Q. cbn [person] in *. cbn [snd app msum] in *. lia.
  Qed.
End World.

(** ** Running a history *)

Section Run.
  Definition no_junk (_ : double) : N := 0.
  (** An interest of a part in a million per block. *)
  Definition rate (_ : string * string) (owed from to : N) : N := owed * (to - from) / 1000000.
  Definition io (txid id : N) : N := 500000 + 1000 * txid + id.
  Definition so (id : N) (s : string) : N := 600000 + 2 * id + N.of_nat (String.length s) mod 2.
  Notation step := (cstep no_junk rate io so).
  Notation reach := (creaches no_junk rate io so).

  Fixpoint run (st : cstate) (acts : list caction) : outcome cstate :=
    match acts with
    | [] => Done st
    | a :: acts' => do st1 <- step st a; run st1 acts'
    end.
  Definition get {A} (d : A) (x : outcome A) : A := match x with Done a => a | _ => d end.

  Definition pays_debtb (e : cenv) (st : cstate) (t : liquidate_tx) : bool :=
    match fget N.eqb (c_cdps st) (q_cdp t) with
    | None => true
    | Some c =>
        match price_of e (pair_of c) with
        | Done price =>
            match closing_terms no_junk e c price with
            | Done k =>
                if k_scoins k <=? q_scoins t then c_owed c <=? k_scoins k
                else part_of no_junk (c_owed c) (ddiv (of_N (q_scoins t)) (of_N (k_scoins k))) <=? q_scoins t
            | _ => true
            end
        | _ => true
        end
    end.
  Lemma pays_debtb_ok e st t : pays_debtb e st t = true -> pays_debt no_junk e st t.
  Proof.
    unfold pays_debtb, pays_debt. intros H c price k Hc Hp Hk. rewrite Hc, Hp, Hk in H.
    destruct (k_scoins k <=? q_scoins t); now apply N.leb_le in H.
  Qed.
  Definition allowedb (st : cstate) (a : caction) : bool :=
    (wusd st + fst (creates no_junk rate st a) <? two63) &&
    (supply (ledger_of st) "WGRT" + snd (creates no_junk rate st a) <? two63) &&
    match a with
    | CStake e t => (s_amount t <? two64) && (s_mint t <? two64) &&
        (negb (s_cdp t =? 0) || (negb (s_id t =? 0) && match fget N.eqb (c_cdps st) (s_id t) with None => true | _ => false end))
    | CLiquidate e t => pays_debtb e st t
    | CElse d => false
    | _ => true
    end.
  Lemma allowedb_ok st a : allowedb st a = true -> allowed no_junk rate st a.
  Proof.
    unfold allowedb, allowed. intros H. apply andb_true_iff in H as (H & H3). apply andb_true_iff in H as (H1 & H2).
    apply N.ltb_lt in H1, H2. split; [exact H1|]. split; [exact H2|].
    destruct a as [e t|e t|e t|e txid ids|e fprice ps|d]; auto; try discriminate.
    - apply andb_true_iff in H3 as (H3 & H5). apply andb_true_iff in H3 as (H3 & H4). apply N.ltb_lt in H3, H4.
      split; [exact H3|]. split; [exact H4|]. intros Z. rewrite (proj2 (N.eqb_eq _ _) Z) in H5. cbn [negb orb] in H5.
      apply andb_true_iff in H5 as (H5 & H6). split; [lia|]. destruct (fget N.eqb (c_cdps st) (s_id t)); [discriminate | reflexivity].
    - now apply pays_debtb_ok.
  Qed.
  Fixpoint runs (st : cstate) (acts : list caction) : bool :=
    match acts with
    | [] => true
    | a :: acts' => allowedb st a && match step st a with Done st1 => runs st1 acts' | _ => false end
    end.
  Lemma runs_reach acts : forall st0 st, reach st0 st -> runs st acts = true -> reach st0 (get st (run st acts)).
  Proof.
    induction acts as [|a acts IH]; cbn [runs run get]; intros st0 st R H; [exact R|].
    apply andb_true_iff in H as (H1 & H2). destruct (step st a) as [st1| | |] eqn:E; try discriminate. cbn [bind].
    assert (R1 : reach st0 st1) by (eapply creach_next; [exact R | apply allowedb_ok, H1 | exact E]).
    specialize (IH st0 st1 R1 H2).
    assert (X : forall l s d1 d2, runs s l = true -> get d1 (run s l) = get d2 (run s l)).
    { clear. induction l as [|a l IH]; cbn [runs run get]; intros s d1 d2 H; [reflexivity|].
      apply andb_true_iff in H as (_ & H). destruct (step s a) as [s1| | |]; try discriminate. cbn [bind]. now apply IH. }
    rewrite (X acts st1 st st1 H2). exact IH.
  Qed.

  (** A world, then a history of it. *)
  Definition after (l : list (N * (N * N))) (acts : list caction) : cstate := get (world l) (run (world l) acts).
  Definition goes (l : list (N * (N * N))) (acts : list caction) : bool :=
    increasing (map fst l) && (nsum (map (fun x => fst (snd x) + snd (snd x)) l) <? two63) && runs (world l) acts.
  Lemma goes_ok l acts : goes l acts = true ->
    no_positions (world l) /\ sound (c_dex (world l)) /\ reach (world l) (after l acts).
  Proof.
    unfold goes. intros H. apply andb_true_iff in H as (H & H3). apply andb_true_iff in H as (H1 & H2). apply N.ltb_lt in H2.
    destruct (world_sound l H1 H2) as (A & B). conj; auto. apply runs_reach; [apply creach_here | exact H3].
  Qed.
End Run.

(** ** Parameters and transactions *)

Section Instance.
  Definition param (_ : string * string) (x : cparam) : N :=
    match x with
    | PCeiling => 1000000000 | PGlobalMin => 8000 | PStart => 19000 | PStartLiquidate => 15000
    | PNonReturn => 13000 | PForce => 10400 | PDiscount => 9700 | PMinStake => 90 | PDays => 30
    end.
  Definition env_of (param : (string * string) -> cparam -> N) (h n price : N) : cenv :=
    mkCenv (mkDenv (h, n) true (7, 4) (7, 5) 4 (7, 3)) false param (fun _ => (price, true)) (fun _ => true) 10.
  Definition env := env_of param.
  Definition opens (id k : N) (asset : string) (amount mint : N) : stake_tx := mkStake id k 0 asset amount "WUSD" mint.
  Definition wicc : string * string := ("WICC"%string, "WUSD"%string).
  Definition weth : string * string := ("WETH"%string, "WUSD"%string).

  Definition people : list (N * (N * N)) :=
    [(1, (0, 900000000000)); (2, (0, 900000000000)); (3, (900000000000, 0)); (4, (0, 0)); (5, (400000000000, 0))].
  (** Two positions, one added to after some time, the other reduced. *)
  Definition story : list caction :=
    [CStake (env 100 1 200000000) (opens 11 1 "WICC" 100000000000 100000000000);
     CStake (env 100 2 200000000) (opens 12 2 "WICC" 300000000000 200000000000);
     CStake (env 200 1 200000000) (mkStake 13 1 11 "WICC" 1000000000 "WUSD" 500000000);
     CRedeem (env 200 2 200000000) (mkRedeem 14 2 12 50000000000 "WICC" 100000000)].
  Definition s1 := after people story.
  (** The price falls; interest is settled; part of the first position is liquidated. *)
  Definition story2 : list caction :=
    (story ++ [CSettle (env 600 1 200000000) 15 [12; 11];
               CLiquidate (env 700 1 125000000) (mkLiquidate 16 3 11 "WICC" 20000000000)])%list.
  Definition s2 := after people story2.
  Definition force_at := env 800 0 101000000.
  Definition s3 := after people (story2 ++ [CForce force_at 5000000 [(wicc, (101000000, true))]])%list.

  Example story_goes : goes people (story2 ++ [CForce force_at 5000000 [(wicc, (101000000, true))]])%list = true.
  Proof. vm_compute. reflexivity. Qed.

  (** The steps of the story, for the theorems on histories. *)
  Lemma parts_goes : goes people story = true /\ goes people story2 = true.
  Proof. split; vm_compute; reflexivity. Qed.
  Lemma s1_reached : no_positions (world people) /\ sound (c_dex (world people)) /\
    creaches no_junk rate io so (world people) s1.
  Proof. apply goes_ok, parts_goes. Qed.
  Lemma s2_reached : no_positions (world people) /\ sound (c_dex (world people)) /\
    creaches no_junk rate io so (world people) s2.
  Proof. apply goes_ok, parts_goes. Qed.

  Definition first := mkCdp 11 (7, 1) 600 "WICC" "WUSD" 84505154640 84120447015.
  Definition second := mkCdp 12 (7, 2) 600 "WICC" "WUSD" 299900000000 150060000000.

  Example c14_example :
    in_step no_junk s2 /\ c_cdps s2 = [(11, first); (12, second)] /\
    totals s2 wicc = (384405154640, 234180447015) /\
    totals s2 wicc = (staked_total s2 wicc, owed_total s2 wicc).
  Proof.
    destruct s2_reached as (A & B & C). split; [exact (c14_indexes _ _ _ _ _ _ A B C)|].
    split; [vm_compute; reflexivity|]. split; [vm_compute; reflexivity|].
    exact (c14_totals _ _ _ _ _ _ wicc A B C ltac:(vm_compute; reflexivity)).
  Qed.

  Example c15_example :
    list_by_ratio no_junk s2 wicc 10400 101000000 = Done [first] /\
    list_by_ratio no_junk s2 wicc 25000 101000000 = Done [first; second] /\
    ordinary first /\ ordinary second.
  Proof.
    split; [vm_compute; reflexivity|]. split; [vm_compute; reflexivity|].
    split; unfold ordinary; cbn [c_staked c_owed first second]; unfold two63, two64; lia.
  Qed.
  (** No debt left, some collateral still there. *)
  Example c15_no_debt_example :
    let c := mkCdp 11 (7, 1) 600 "WICC" "WUSD" 5000 0 in ratio_number no_junk c = MAX64.
  Proof. vm_compute. reflexivity. Qed.

  (** A position with much too little collateral is not listed: the price of its collateral has
      fallen from 200 million stable coins to ten. *)
  Definition dust_story : list caction :=
    [CStake (env 100 1 20000000000000000) (opens 11 1 "WICC" 10 1050000000)].
  Theorem c15_dust_refuted :
    exists l acts ratio price, goes l acts = true /\ 0 < ratio <= 1000000 /\ 0 < price < two64 /\
      exists c, is_open (after l acts) c /\ pair_of c = wicc /\ c_staked c <> 0 /\ c_owed c <> 0 /\
        100 * (c_staked c * price) < ratio * c_owed c * 10 ^ 4 /\
        list_by_ratio no_junk (after l acts) wicc ratio price = Done [].
  Proof.
    exists people, dust_story, 10400, 1000000000. split; [vm_compute; reflexivity|].
    split; [lia|]. split; [unfold two64; lia|]. exists (mkCdp 11 (7, 1) 100 "WICC" "WUSD" 10 1050000000).
    conj; try discriminate; vm_compute; reflexivity.
  Qed.

  (** ** C35 *)

  Example c35_example :
    force_liquidate no_junk so force_at s2 5000000 [(wicc, (101000000, true))] = Done s3 /\
    supply (ledger_of s2) "WGRT" + issues no_junk s2 5000000 [(wicc, (101000000, true))] < two63 /\
    force_pair no_junk so force_at s2 5 wicc 101000000 5000000 1000 = Done (s3, 1) /\
    closed s2 s3 first /\ is_open s3 second /\
    floor_reached no_junk force_at s2 wicc 101000000 = false /\
    lbal (ledger_of s2) 5 "WUSD" BFree = 401790123507 /\ lbal (ledger_of s3) 5 "WUSD" BFree = 317669676492 /\
    lbal (ledger_of s3) 5 "WICC" BFrozen = 84505154640.
  Proof.
    conj; try (vm_compute; reflexivity). split; vm_compute; reflexivity.
  Qed.

  (** The lowest position is too much for the reserve, and one it could pay for stays open. *)
  Definition few : list (N * (N * N)) :=
    [(1, (0, 900000000000)); (2, (0, 900000000000)); (4, (0, 0)); (5, (20000000000, 0)); (6, (0, 900000000000))].
  Definition blocked_story : list caction :=
    [CStake (env 100 1 200000000) (opens 11 1 "WICC" 100000000000 100000000000);
     CStake (env 100 2 200000000) (opens 12 2 "WICC" 20000000000 10000000000);
     CStake (env 100 3 200000000) (opens 13 6 "WICC" 900000000000 100000000000)].
  Theorem c35_affordable_refuted :
    exists l acts e price fprice st', goes l acts = true /\ price <> 0 /\ fprice <> 0 /\
      force_liquidate no_junk so e (after l acts) fprice [(wicc, (price, true))] = Done st' /\
      floor_reached no_junk e (after l acts) wicc price = false /\
      positions (after l acts) = positions st' /\
      exists c f, is_open st' c /\ pair_of c = wicc /\
        c_staked c * price <= e_param e wicc PForce * c_owed c * 10 ^ 4 /\
        account_of st' (n_reserve (e_dex e)) = Some f /\
        c_owed c <= lbal (ledger_of st') f "WUSD" BFree.
  Proof.
    exists few, blocked_story, (env 200 0 45000000), 45000000, 5000000, (after few blocked_story).
    split; [vm_compute; reflexivity|]. split; [discriminate|]. split; [discriminate|].
    split; [vm_compute; reflexivity|]. split; [vm_compute; reflexivity|]. split; [reflexivity|].
    exists (mkCdp 12 (7, 2) 100 "WICC" "WUSD" 20000000000 10000000000), 5.
    conj; try (vm_compute; reflexivity); vm_compute; discriminate.
  Qed.

  (** ** C36 *)

  Example c36_example :
    floor_reached no_junk (env 600 1 200000000) s1 wicc 200000000 = false /\
    settle_proposal no_junk (env 600 1 200000000) s1 [(wicc, (200000000, true))] = [11; 12] /\
    settle_proposal no_junk (env 600 1 200000000) s1 [(weth, (200000000, true)); (wicc, (200000000, true))] = [11; 12] /\
    settle_proposal no_junk (env 400 1 200000000) s1 [(wicc, (200000000, true))] = [].
  Proof. conj; vm_compute; reflexivity. Qed.

  (** Two pairs, a hundred due positions in the first and two in the second: more are proposed
      than a transaction may settle. *)
  Definition many : list N := map N.of_nat (seq 101 100).
  Definition crowd : list (N * (N * N)) :=
    ([(4, (0, 0)); (5, (400000000000, 0))] ++ map (fun k => (k, (0, 10000000000))) many)%list.
  Definition crowd_story : list caction :=
    (map (fun k => CStake (env 100 k 200000000) (opens (1000 + k) k "WICC" 2000000000 1000000000)) many
     ++ map (fun k => CStake (env 100 k 200000000) (opens (2000 + k) k "WETH" 2000000000 1000000000)) [101; 102])%list.
  Theorem c36_limit_refuted :
    exists l acts e ps, goes l acts = true /\
      (forall d, In d ps -> floor_reached no_junk e (after l acts) (fst d) (fst (snd d)) = false) /\
      (100 < List.length (settle_proposal no_junk e (after l acts) ps))%nat /\
      forall txid, settle_interest no_junk rate io e (after l acts) txid
                     (settle_proposal no_junk e (after l acts) ps) = Reject.
  Proof.
    exists crowd, crowd_story, (env 600 1 200000000), [(wicc, (200000000, true)); (weth, (200000000, true))].
    split; [vm_compute; reflexivity|]. split.
    { intros d [<-|[<-|[]]]; vm_compute; reflexivity. }
    assert (L : List.length (settle_proposal no_junk (env 600 1 200000000) (after crowd crowd_story)
                 [(wicc, (200000000, true)); (weth, (200000000, true))]) = 101%nat) by (vm_compute; reflexivity).
    split; [rewrite L; lia|]. intros txid. unfold settle_interest. rewrite L.
    change (N.of_nat 101 <=? SETTLE_MAX) with false. rewrite andb_false_r. reflexivity.
  Qed.

  (** One pair: the debts that are settled first bring the pair below the floor at which nothing
      more is settled, and the transaction is rejected. *)
  Theorem c36_accepted_refuted :
    exists l acts e price, goes l acts = true /\
      settle_proposal no_junk e (after l acts) [(wicc, (price, true))] = [11; 12] /\
      (forall p, e_price e p = (price, true)) /\
      settle_interest no_junk rate io e (after l acts) 15 [11; 12] = Reject.
  Proof.
    exists people, story, (env 600 1 49988783), 49988783.
    split; [vm_compute; reflexivity|]. split; [vm_compute; reflexivity|]. split; [reflexivity|].
    vm_compute. reflexivity.
  Qed.

  (** ** C44 *)

  Definition s2a := after people (removelast story2).
  Example c44_example :
    let e := env 700 1 125000000 in let t := mkLiquidate 16 3 11 "WICC" 20000000000 in
    pays_debt no_junk e s2a t /\ liquidate no_junk e s2a t = Done s2 /\
    lbal (ledger_of s2a) 1 "WICC" BPledged = 101000000000 /\ lbal (ledger_of s2) 1 "WICC" BPledged = 84505154640 /\
    lbal (ledger_of s2a) 3 "WICC" BFree = 0 /\ lbal (ledger_of s2) 3 "WICC" BFree = 16494845360.
  Proof.
    cbv zeta. split; [apply pays_debtb_ok; vm_compute; reflexivity|]. conj; vm_compute; reflexivity.
  Qed.
  Example c44_covers_example :
    let e := env 700 1 125000000 in let t := mkLiquidate 16 3 11 "WICC" 20000000000 in
    pays_debt no_junk e s2a t.
  Proof.
    cbv zeta. apply c44_price_covers_debt; [discriminate | reflexivity|].
    assert (G : fget N.eqb (c_cdps s2a) 11 = Some (mkCdp 11 (7, 1) 600 "WICC" "WUSD" 101000000000 100540200000))
      by (vm_compute; reflexivity).
    cbn [q_cdp]. intros c price H1 H2. rewrite G in H1. injection H1 as <-. unfold price_of in H2.
    change (e_price (env 700 1 125000000) (pair_of (mkCdp 11 (7, 1) 600 "WICC" "WUSD" 101000000000 100540200000))) with (125000000, true) in H2.
    cbn in H2. injection H2 as <-. cbv zeta. conj; vm_compute; try reflexivity; discriminate.
  Qed.

  (** With 2^54 units of debt, paying 2^53 + 3 takes off 2^53 + 4: the part for the reserve
      wraps around. *)
  Definition big : list (N * (N * N)) :=
    [(1, (0, 36028797018963968)); (3, (36028797018963968, 0)); (4, (0, 0)); (5, (0, 0))].
  Definition big_story : list caction :=
    [CStake (env 100 1 200000000) (opens 11 1 "WICC" 36028797018963968 18014398509481984)].
  Theorem c44_part_refuted :
    exists l acts e t st' f, goes l acts = true /\
      liquidate no_junk e (after l acts) t = Done st' /\
      account_of st' (n_reserve (e_dex e)) = Some f /\
      q_scoins t = 2 ^ 53 + 3 /\
      lbal (ledger_of (after l acts)) f "WUSD" BFree + lbal (ledger_of (after l acts)) f "WUSD" BFrozen = 0 /\
      lbal (ledger_of st') f "WUSD" BFree + lbal (ledger_of st') f "WUSD" BFrozen = 2 ^ 64 - 1.
  Proof.
    exists big, big_story, (env 200 1 50000000), (mkLiquidate 16 3 11 "WICC" 9007199254740995).
    eexists. exists 5. split; [vm_compute; reflexivity|].
    split; [vm_compute; reflexivity|]. conj; vm_compute; reflexivity.
  Qed.

  (** ** C56 *)

  Example c56_example :
    collateral s2 1 "WICC" = 84505154640 /\ lbal (ledger_of s2) 1 "WICC" BPledged = 84505154640 /\
    collateral s2 2 "WICC" = 299900000000 /\ lbal (ledger_of s2) 2 "WICC" BPledged = 299900000000.
  Proof. conj; vm_compute; reflexivity. Qed.

  (** ** C57 *)

  Definition last_act := CLiquidate (env 700 1 125000000) (mkLiquidate 16 3 11 "WICC" 20000000000).
  Example c57_example :
    allowed no_junk rate s2a last_act /\ cstep no_junk rate io so s2a last_act = Done s2 /\
    wusd s2a = 1550600200000 /\ debt s2a = 250600200000 /\ wusd s2 = 1534180447015 /\ debt s2 = 234180447015.
  Proof. split; [apply allowedb_ok; vm_compute; reflexivity|]. conj; vm_compute; reflexivity. Qed.

  (** Adding to a position of which more interest is due than the owner has creates the missing
      stable coins, and no debt for them. *)
  Definition late := CStake (env 2000100 1 200000000) (mkStake 13 1 11 "WICC" 100000000000 "WUSD" 0).
  Theorem c57_gift_refuted :
    exists l acts a st', goes l acts = true /\ allowed no_junk rate (after l acts) a /\
      cstep no_junk rate io so (after l acts) a = Done st' /\ (forall d, a <> CElse d) /\
      uncovered st' = (uncovered (after l acts) + 100000000000)%Z.
  Proof.
    exists people, (firstn 1 story), late, (after people (firstn 1 story ++ [late])%list).
    split; [vm_compute; reflexivity|]. split; [apply allowedb_ok; vm_compute; reflexivity|].
    split; [vm_compute; reflexivity|]. split; [discriminate|]. vm_compute. reflexivity.
  Qed.

  (** Parameters governance may set, 110% and 90%, let a liquidator pay less than the debt taken
      off; the difference wraps around and the reserve gets almost 2^64 stable coins. *)
  Definition loose (p : string * string) (x : cparam) : N :=
    match x with PNonReturn => 11000 | PDiscount => 9000 | _ => param p x end.
  Definition poor : list (N * (N * N)) :=
    [(1, (0, 900000000000)); (3, (900000000000, 0)); (4, (0, 0)); (5, (0, 0))].
  Definition loose_act := CLiquidate (env_of loose 200 1 125000000) (mkLiquidate 16 3 11 "WICC" 100000000000).
  Theorem c57_underpaid_refuted :
    exists l acts e t st', goes l acts = true /\
      10000 <= e_param e wicc PNonReturn <= 100000 /\ e_param e wicc PDiscount <= 10000 /\
      cstep no_junk rate io so (after l acts) (CLiquidate e t) = Done st' /\
      wusd (after l acts) < 2 ^ 40 /\ 2 ^ 63 < wusd st' /\ debt st' = 0.
  Proof.
    exists poor, (firstn 1 story), (env_of loose 200 1 125000000), (mkLiquidate 16 3 11 "WICC" 100000000000).
    eexists. split; [vm_compute; reflexivity|]. split; [vm_compute; split; discriminate|].
    split; [vm_compute; discriminate|]. split; [vm_compute; reflexivity|]. conj; vm_compute; reflexivity.
  Qed.

  (** ** C58 *)

  Example c58_example :
    stake no_junk rate (env 100 1 200000000) (world people) (opens 11 1 "WICC" 100000000000 100000000000) =
      Done (after people (firstn 1 story)) /\
    redeem no_junk rate (env 200 2 200000000) (after people (firstn 3 story)) (mkRedeem 14 2 12 50000000000 "WICC" 100000000) = Done s1 /\
    fget N.eqb (c_cdps s1) 12 = Some (mkCdp 12 (7, 2) 200 "WICC" "WUSD" 299900000000 150000000000) /\
    stake no_junk rate (env 100 1 200000000) (world people) (opens 11 1 "WICC" 100000000000 105300000000) = Reject.
  Proof. conj; vm_compute; reflexivity. Qed.

  (** A position below the ratio required for opening may take on more debt, if what is added
      meets the ratio by itself. *)
  Theorem c58_added_refuted :
    exists l acts e t st' c c', goes l acts = true /\ allowed no_junk rate (after l acts) (CStake e t) /\
      stake no_junk rate e (after l acts) t = Done st' /\
      fget N.eqb (c_cdps (after l acts)) (s_cdp t) = Some c /\ fget N.eqb (c_cdps st') (s_cdp t) = Some c' /\
      c_owed c < c_owed c' /\
      10 * (c_staked c' * fst (e_price e (pair_of c'))) < 8 * (e_param e (pair_of c') PStart * c_owed c' * 10 ^ 4).
  Proof.
    exists people, (firstn 1 story), (env 200 1 150000000), (mkStake 13 1 11 "WICC" 1000000000 "WUSD" 700000000).
    exists (after people (firstn 1 story ++ [CStake (env 200 1 150000000) (mkStake 13 1 11 "WICC" 1000000000 "WUSD" 700000000)])%list).
    exists (mkCdp 11 (7, 1) 100 "WICC" "WUSD" 100000000000 100000000000), (mkCdp 11 (7, 1) 200 "WICC" "WUSD" 101000000000 100700000000).
    split; [vm_compute; reflexivity|]. split; [apply allowedb_ok; vm_compute; reflexivity|].
    conj; vm_compute; reflexivity.
  Qed.
End Instance.

Print Assumptions c15_dust_refuted.
Print Assumptions c35_affordable_refuted.
Print Assumptions c36_limit_refuted.
Print Assumptions c36_accepted_refuted.
Print Assumptions c44_part_refuted.
Print Assumptions c57_gift_refuted.
Print Assumptions c57_underpaid_refuted.
Print Assumptions c58_added_refuted.
