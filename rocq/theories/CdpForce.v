(** Proofs about positions: the list by ratio, forced liquidation. *)
From Coq Require Import String List Bool NArith ZArith Lia Permutation Sorted.
From Coq Require Import ZifyBool ZifyNat ZifyN.
From Verif Require Import Prelude PreludeFacts AccountModel AccountSpec AccountProofs TxModel TxProofs
  DexModel DexSpec DexProofs DoubleModel CdpModel CdpSpec CdpProofs CdpDouble CdpInv CdpActions.
Import ListNotations.
Open Scope N_scope.

(** ** Sorting *)

Lemma key_leb_cons x y a b : key_leb (x :: a) (y :: b) = if x =? y then key_leb a b else x <? y.
Proof. reflexivity. Qed.

Lemma key_leb_refl a : key_leb a a = true.
Proof. induction a as [|x a IH]; [reflexivity|]. now rewrite key_leb_cons, N.eqb_refl. Qed.

Lemma key_leb_total a : forall b, key_leb a b = false -> key_leb b a = true.
Proof.
  induction a as [|x a IH]; intros [|y b] H; try discriminate; try reflexivity.
  rewrite key_leb_cons in *. rewrite (N.eqb_sym y x). destruct (x =? y) eqn:E; [auto | lia].
Qed.

Lemma key_leb_trans a : forall b c, key_leb a b = true -> key_leb b c = true -> key_leb a c = true.
Proof.
  induction a as [|x a IH]; intros [|y b] [|z c] H1 H2; try discriminate; try reflexivity.
  rewrite key_leb_cons in *. destruct (x =? y) eqn:E1, (y =? z) eqn:E2.
  - replace (x =? z) with true by lia. eauto.
  - replace (x =? z) with false by lia. lia.
  - replace (x =? z) with false by lia. lia.
  - replace (x =? z) with false by lia. lia.
Qed.

Lemma key_leb_antisym a : forall b, List.length a = List.length b ->
  key_leb a b = true -> key_leb b a = true -> a = b.
Proof.
  induction a as [|x a IH]; intros [|y b] L H1 H2; try discriminate; [reflexivity|].
  rewrite key_leb_cons in *. rewrite (N.eqb_sym y x) in H2. destruct (x =? y) eqn:E.
  - apply N.eqb_eq in E. f_equal; [exact E|]. apply IH; [now injection L | assumption..].
  - lia.
Qed.

Section Sorting.
  Context {A : Type}.
  Variable key : A -> list N.
  Definition key_le (x y : A) : Prop := key_leb (key x) (key y) = true.

  Lemma insert_perm x l : Permutation (insert_by key x l) (x :: l).
  Proof.
    induction l as [|y l IH]; cbn [insert_by]; [reflexivity|].
    destruct (key_leb (key x) (key y)); [reflexivity|]. rewrite IH. apply perm_swap.
  Qed.
  Lemma sort_perm l : Permutation (sort_by key l) l.
  Proof. induction l as [|x l IH]; cbn; [reflexivity|]. rewrite insert_perm. now constructor. Qed.

  Lemma insert_sorted x l : StronglySorted key_le l -> StronglySorted key_le (insert_by key x l).
  Proof.
    induction 1 as [|y l S IH F]; cbn [insert_by]; [constructor; constructor|].
    destruct (key_leb (key x) (key y)) eqn:E.
    - constructor; [constructor; assumption|]. constructor; [exact E|].
      eapply Forall_impl; [|exact F]. intros z Z. unfold key_le in *. eapply key_leb_trans; eassumption.
    - constructor; [exact IH|]. rewrite insert_perm. constructor; [apply key_leb_total, E | exact F].
  Qed.
  Lemma sort_sorted l : StronglySorted key_le (sort_by key l).
  Proof. induction l as [|x l IH]; cbn; [constructor | now apply insert_sorted]. Qed.
End Sorting.

Lemma nodup_by {A B C} (f : A -> B) (g : A -> C) l :
  NoDup (map f l) -> (forall x y, In x l -> In y l -> g x = g y -> f x = f y) -> NoDup (map g l).
Proof.
  induction l as [|a l IH]; cbn [map]; intros N1 H; [constructor|].
  inversion N1 as [|? ? Ni N2]; subst. constructor.
  - intros X. apply in_map_iff in X as (b & E & Hb). apply Ni.
    rewrite <- (H b a); [now apply in_map | now right | now left | congruence].
  - apply IH; [assumption|]. intros x y Hx Hy. apply H; now right.
Qed.

Lemma nodup_filter_map {A B} (f : A -> B) (p : A -> bool) l : NoDup (map f l) -> NoDup (map f (filter p l)).
Proof.
  induction l as [|a l IH]; cbn [map filter]; intros H; [constructor|].
  inversion H as [|? ? Ni N2]; subst. destruct (p a); [|auto]. cbn [map]. constructor; [|auto].
  intros X. apply Ni. apply in_map_iff in X as (b & E & Hb). rewrite <- E. apply in_map. apply filter_In in Hb. apply Hb.
Qed.

Section List.
  Variable junk : double -> N.
  Notation in_step := (in_step junk).
  Notation ratio_number := (ratio_number junk).

  (** Worst first: by ratio, then by height, then by id. *)
  Definition rank (c : cdp) : list N := [ratio_number c; c_height c; c_id c].

  Lemma ratios_in st p r x c : in_step st ->
    (In (r, x, c) (ratios_of st p) <->
     is_open st c /\ pair_of c = p /\ r = ratio_number c /\ x = (c_height c, c_id c)).
  Proof.
    intros I. unfold ratios_of. split.
    - intros H. apply (Permutation_in _ (sort_perm _ _)) in H.
      apply in_map_iff in H as ([[[q r'] x'] c'] & E & F). cbn [fst snd] in E. injection E as <- <- <-.
      apply filter_In in F as (F & Q). cbn [fst] in Q. apply cpair_eqb_ok in Q. subst q.
      apply (in_fget ratio_eqb ratio_eqb_ok) in F; [|apply (is_once _ _ I)].
      apply (is_ratio _ _ I) in F as (E & O). injection E as -> -> ->. auto.
    - intros (O & <- & -> & ->). apply (Permutation_in _ (Permutation_sym (sort_perm _ _))).
      apply in_map_iff. exists (((pair_of c, ratio_number c), (c_height c, c_id c)), c).
      split; [reflexivity|]. apply filter_In. split; [|cbn [fst]; now apply cpair_eqb_ok].
      apply (fget_in ratio_eqb ratio_eqb_ok). apply (is_ratio _ _ I). auto.
  Qed.

  Lemma ratios_nodup st p : in_step st -> NoDup (map (fun x => c_id (snd x)) (ratios_of st p)).
  Proof.
    intros I. eapply Permutation_NoDup.
    { apply Permutation_map, Permutation_sym, sort_perm. }
    rewrite map_map. cbn [snd]. apply nodup_filter_map.
    apply (nodup_by fst); [apply (is_once _ _ I)|].
    intros [k1 c1] [k2 c2] H1 H2 E. cbn [fst snd] in *.
    apply (in_fget ratio_eqb ratio_eqb_ok) in H1; [|apply (is_once _ _ I)].
    apply (in_fget ratio_eqb ratio_eqb_ok) in H2; [|apply (is_once _ _ I)].
    apply (is_ratio _ _ I) in H1 as (-> & O1). apply (is_ratio _ _ I) in H2 as (-> & O2).
    unfold is_open in *. assert (c1 = c2) by congruence. now subst.
  Qed.

  Lemma up_to_prefix b l : exists rest, map snd l = up_to b l ++ rest.
  Proof.
    induction l as [|[[r x] c] l (rest & IH)]; [exists []; reflexivity|]. cbn [up_to map snd].
    destruct (b <? r); [eexists; reflexivity|]. exists rest. now rewrite IH.
  Qed.

  Lemma up_to_in b l c :
    StronglySorted (key_le (fun x : N * (N * N) * cdp => [fst (fst x); fst (snd (fst x)); snd (snd (fst x))])) l ->
    (In c (up_to b l) <-> exists r x, In (r, x, c) l /\ r <= b).
  Proof.
    induction 1 as [|[[r x] d] l S IH F]; cbn [up_to].
    - split; [intros [] | intros (? & ? & [] & _)].
    - destruct (b <? r) eqn:E.
      + split; [intros []|]. intros (r' & x' & [X|X] & L).
        * injection X as <- _ _. lia.
        * rewrite Forall_forall in F. apply F in X. unfold key_le in X. rewrite key_leb_cons in X. cbn [fst snd] in X.
          destruct (r =? r') eqn:E2; lia.
      + cbn [In]. rewrite IH. split.
        * intros [->|(r' & x' & X & L)]; [exists r, x; split; [now left | lia]|]. exists r', x'. auto.
        * intros (r' & x' & [X|X] & L); [left; congruence|]. right. eauto.
  Qed.

  (** The list: exactly the positions of the pair up to the bound, each once, worst first. *)
  Lemma list_done st p ratio price l : in_step st -> list_by_ratio junk st p ratio price = Done l ->
    (forall c, In c l <-> is_open st c /\ pair_of c = p /\ ratio_number c <= cast junk (ratio_bound ratio price)) /\
    NoDup (map c_id l) /\ StronglySorted (fun c d => key_leb (rank c) (rank d) = true) l.
  Proof.
    intros I H. unfold list_by_ratio in H. cbv zeta in H. step H as u G. clear u G.
    assert (El : l = up_to (cast junk (ratio_bound ratio price)) (ratios_of st p)) by congruence. clear H.
    pose proof (sort_sorted (fun x : N * (N * N) * cdp => [fst (fst x); fst (snd (fst x)); snd (snd (fst x))])
      (map (fun kv => (snd (fst (fst kv)), snd (fst kv), snd kv))
         (filter (fun kv => cpair_eqb (fst (fst (fst kv))) p) (c_ratio st)))) as S.
    fold (ratios_of st p) in S.
    split; [|split].
    - intros c. rewrite El, up_to_in by exact S. split.
      + intros (r & x & X & L). apply ratios_in in X; [|exact I]. destruct X as (O & Q & -> & _). auto.
      + intros (O & Q & L). exists (ratio_number c), (c_height c, c_id c). split; [|exact L].
        apply ratios_in; auto.
    - destruct (up_to_prefix (cast junk (ratio_bound ratio price)) (ratios_of st p)) as (rest & E).
      pose proof (ratios_nodup st p I) as N1. rewrite <- map_map with (f := snd) (g := c_id), E, <- El, map_app in N1.
      clear - N1. induction (map c_id l) as [|x m IH]; [constructor|]. cbn [app] in N1. inversion N1; subst.
      constructor; [|auto]. intros X. apply H1. apply in_or_app. now left.
    - assert (Q : forall r x c, In (r, x, c) (ratios_of st p) -> r = ratio_number c /\ x = (c_height c, c_id c)).
      { intros r x c X. apply ratios_in in X; [|exact I]. tauto. }
      rewrite El. clear El. revert Q S. generalize (ratios_of st p) as m. intros m Q S.
      induction S as [|[[r x] d] m S IH F]; cbn [up_to]; [constructor|].
      destruct (cast junk (ratio_bound ratio price) <? r) eqn:E; [constructor|]. constructor.
      + apply IH. intros. apply Q. now right.
      + apply Forall_forall. intros c X. apply up_to_in in X; [|exact S]. destruct X as (r' & x' & X & L).
        rewrite Forall_forall in F. pose proof (F _ X) as Y. unfold key_le in Y. cbn [fst snd] in Y.
        destruct (Q r x d) as (-> & ->); [now left|]. destruct (Q r' x' c) as (-> & ->); [now right|].
        exact Y.
  Qed.
End List.

Section Force.
  Variable junk : double -> N.
  Variable sell_order : N -> string -> N.
  Notation in_step := (in_step junk).
  Notation cinv := (cinv junk).
  Notation issue := (issue junk).

  Lemma sell_asset_money e st f coin asset v id st' :
    sell_asset e st f coin asset v id = Done st' -> money st [mkReq f asset Freeze v None] st'.
  Proof.
    unfold sell_asset. intros H. step H as st1 H1. apply cop_money in H1. apply cplace_money in H.
    exact (money_trans _ _ _ _ _ H1 H).
  Qed.

  (** What closing [c] by force changes: the reserve [f] pays the debt, the pledged collateral
      becomes a frozen balance of the reserve, as do new fund coins. *)
  Definition force_change (st : cstate) (f price fprice : N) (c : cdp) (k : N) (s : string) (b : bucket) : Z :=
    match b with
    | BFree => if (k =? f)%N && String.eqb s "WUSD" then - Z.of_N (c_owed c) else 0
    | BFrozen => (if (k =? f)%N && String.eqb s (c_bcoin c) then Z.of_N (c_staked c) else 0) +
                 (if (k =? f)%N && String.eqb s "WGRT" then Z.of_N (issue price fprice c) else 0)
    | BPledged => - Z.of_N (weight st k s c)
    | _ => 0
    end%Z.

  Lemma force_one_ok P e st f price fprice c st' :
    cinv P st -> is_open st c -> supply (ledger_of st) "WGRT" + issue price fprice c < two63 ->
    force_one junk sell_order e st f (pair_of c) price fprice c = Done st' ->
    cinv P st' /\ uncovered st' = uncovered st /\
    supply (ledger_of st') "WGRT" = supply (ledger_of st) "WGRT" + issue price fprice c /\
    c_cdps st' = fdel N.eqb (c_cdps st) (c_id c) /\ d_reg (c_dex st') = d_reg (c_dex st) /\
    (forall k s b, Z.of_N (lbal (ledger_of st') k s b) =
       (Z.of_N (lbal (ledger_of st) k s b) + force_change st f price fprice c k s b)%Z).
  Proof.
    intros I Op A H. unfold force_one in H.
    step H as owner Ho. apply need_done, holder_done in Ho as (Ac & Ex).
    pose proof Op as Gc. unfold is_open in Gc.
    destruct (proj1 (proj2 (proj2 I)) _ _ Gc) as (Q1 & Q2 & Q3 & Q4 & Q5 & Q6).
    step H as st1 H1. step H as st2 H2. step H as st3 H3. step H as st4 H4. step H as st5 H5. injection H as <-.
    apply cop_money in H1, H2, H3. apply sell_asset_money in H4.
    pose proof (money_trans _ _ _ _ _ (money_trans _ _ _ _ _ (money_trans _ _ _ _ _ H1 H2) H3) H4) as M4.
    cbn [app] in M4. clear H1 H2 H3 H4. unfold pair_of in M4. cbn [fst] in M4.
    set (x := issue price fprice c) in *.
    assert (M5 : exists q5, money st4 q5 st5 /\ (forall s, mints s q5 = if String.eqb "WGRT" s then x else 0) /\
               (forall s, burns s q5 = 0) /\
               (forall k s b, net q5 k s b = match b with BFrozen => if (k =? f)%N && String.eqb s "WGRT" then Z.of_N x else 0 | _ => 0 end%Z)).
    { unfold x, CdpSpec.issue. cbv zeta in H5 |- *.
      destruct (cast junk (ddiv (dmul (of_N (c_staked c)) (of_N price)) (of_N PRICE_BOOST)) <? c_owed c).
      - step H5 as u1 K. clear u1 K. step H5 as sa Ha. apply cop_money in Ha. apply sell_asset_money in H5.
        pose proof (money_trans _ _ _ _ _ Ha H5) as M. cbn [app] in M. eexists. split; [exact M|]. conj.
        + intros s. unfold mints. cbn [map nsum mint_of q_op q_other q_symbol q_amount].
          destruct (String.eqb "WGRT" s); lia.
        + reflexivity.
        + intros k s b. unfold net, net1.
          cbn [fold_right q_who q_op q_other q_symbol q_amount credited debited internal at_place bucket_eqb].
          destruct b; cbn [bucket_eqb]; rewrite ?andb_false_r, ?andb_true_r;
            destruct ((k =? f) && String.eqb s "WGRT"); lia.
      - injection H5 as <-. exists []. conj; [apply money_refl | | reflexivity |].
        + intros s. destruct (String.eqb "WGRT" s); reflexivity.
        + intros k s []; cbn; try reflexivity. destruct ((k =? f) && String.eqb s "WGRT"); reflexivity. }
    clear H5. destruct M5 as (q5 & M5 & Mi5 & Bu5 & N5).
    set (q4 := [mkReq f "WUSD" SubFree (c_owed c) None; mkReq owner (c_bcoin c) Unpledge (c_staked c) None;
                mkReq owner (c_bcoin c) SubFree (c_staked c) (Some f); mkReq f (c_bcoin c) Freeze (c_staked c) None]) in *.
    pose proof (money_trans _ _ _ _ _ M4 M5) as M.
    assert (Mi : forall s, mints s (q4 ++ q5) = if String.eqb "WGRT" s then x else 0).
    { intros s. rewrite mints_app, Mi5. reflexivity. }
    assert (Bu : forall s, burns s (q4 ++ q5) = if String.eqb "WUSD" s then c_owed c else 0).
    { intros s. rewrite burns_app, Bu5. unfold q4, burns. cbn [map nsum burn_of q_op q_other q_symbol q_amount].
      destruct (String.eqb "WUSD" s); lia. }
    assert (Nt : forall k s b, net (q4 ++ q5) k s b = force_change st f price fprice c k s b).
    { intros k s b. rewrite net_app, N5. unfold q4, net, net1.
      cbn [fold_right q_who q_op q_other q_symbol q_amount credited debited internal at_place bucket_eqb].
      unfold force_change. rewrite (weight_known st owner c k s Ac). fold x.
      destruct b; cbn [bucket_eqb]; rewrite ?andb_false_r, ?andb_true_r;
        destruct ((k =? f) && String.eqb s "WUSD"); destruct ((k =? f) && String.eqb s (c_bcoin c));
        destruct ((k =? owner) && String.eqb s (c_bcoin c)); destruct ((k =? f) && String.eqb s "WGRT"); lia. }
    destruct I as (So & Is & Go & Pl). assert (I : cinv P st) by (split; auto).
    assert (B1 : forall s, supply (ledger_of st) s + mints s (q4 ++ q5) < two64).
    { intros s. rewrite Mi. destruct So as (_ & _ & Su). specialize (Su s). unfold ledger_of in *.
      destruct (String.eqb "WGRT" s) eqn:E; [apply String.eqb_eq in E; subst s|]; unfold two63, two64 in *; lia. }
    destruct (change_step junk P st (erase_cdp junk st5 c c) (q4 ++ q5) (Some c) None I) as (J & S & D).
    - apply (mo_reg _ _ _ M).
    - apply (mo_ran _ _ _ M).
    - apply erased_in_step; auto.
      + eapply in_step_money; [exact M | exact Is].
      + apply (open_money _ _ _ _ M), Op.
      + split; [reflexivity|]; split; reflexivity.
    - intros g. rewrite cdps_of_erased, (mo_cdps _ _ _ M). apply (sums_erased junk st c g); assumption.
    - intros id d. rewrite cdps_of_erased, (mo_cdps _ _ _ M), (fget_del N.eqb N_eqb_ok).
      destruct (id =? c_id c); [discriminate | auto].
    - intros d X. discriminate.
    - intros k s. rewrite Nt. cbn [force_change ov]. lia.
    - exact B1.
    - intros s. rewrite Mi, Bu. destruct So as (_ & _ & Su). specialize (Su s). unfold ledger_of in *.
      destruct (String.eqb "WGRT" s) eqn:E; [apply String.eqb_eq in E; subst s; lia|]. destruct (String.eqb "WUSD" s); lia.
    - split; [exact J|]. pose proof (S "WUSD"%string) as Sw. pose proof (S "WGRT"%string) as Sg. rewrite Mi, Bu in Sw, Sg.
      change (String.eqb "WUSD" "WUSD") with true in Sw. change (String.eqb "WUSD" "WGRT") with false in Sg.
      change (String.eqb "WGRT" "WUSD") with false in Sw. change (String.eqb "WGRT" "WGRT") with true in Sg.
      cbv iota in Sw, Sg. cbn [ov] in D. conj.
      + unfold uncovered, wusd. clear - Sw D. lia.
      + clear - Sg. lia.
      + rewrite cdps_of_erased, (mo_cdps _ _ _ M). reflexivity.
      + apply (mo_reg _ _ _ M).
      + intros k s b. rewrite <- Nt.
        destruct (ran_facts _ _ _ (mo_ran _ _ _ M) (proj1 So) B1) as (_ & _ & Dl). apply Dl.
  Qed.

  (** The loop. *)
  Definition force_changes (st : cstate) (f price fprice : N) (cs : list cdp) (k : N) (s : string) (b : bucket) : Z :=
    fold_right (fun c z => (force_change st f price fprice c k s b + z)%Z) 0%Z cs.

  Lemma weight_reg st st' k s c : d_reg (c_dex st') = d_reg (c_dex st) -> weight st' k s c = weight st k s c.
  Proof. intros R. unfold weight, owns, account_of. now rewrite R. Qed.
  Lemma force_change_reg st st' f price fprice c k s b : d_reg (c_dex st') = d_reg (c_dex st) ->
    force_change st' f price fprice c k s b = force_change st f price fprice c k s b.
  Proof. intros R. unfold force_change. now rewrite (weight_reg st st' _ _ _ R). Qed.
  Lemma force_changes_reg st st' f price fprice cs k s b : d_reg (c_dex st') = d_reg (c_dex st) ->
    force_changes st' f price fprice cs k s b = force_changes st f price fprice cs k s b.
  Proof.
    intros R. unfold force_changes. induction cs as [|c cs IH]; cbn [fold_right]; [reflexivity|].
    now rewrite IH, (force_change_reg st st' _ _ _ _ _ _ _ R).
  Qed.

  Definition pair_issue (price fprice : N) (p : string * string) (c : cdp) : N :=
    if cpair_eqb (pair_of c) p then issue price fprice c else 0.

  (** Closed one after the other. *)
  Definition without (m : list (N * cdp)) (cs : list cdp) : list (N * cdp) :=
    fold_left (fun m c => fdel N.eqb m (c_id c)) cs m.

  Lemma force_list_ok P e f p price fprice limit : forall l st count st' n,
    cinv P st -> (forall c, In c l -> is_open st c /\ pair_of c = p) -> NoDup (map c_id l) ->
    supply (ledger_of st) "WGRT" + msum (pair_issue price fprice p) (c_cdps st) < two63 ->
    count <= limit ->
    force_list junk sell_order e st f p price fprice count limit l = Done (st', n) ->
    cinv P st' /\ uncovered st' = uncovered st /\
    supply (ledger_of st') "WGRT" + msum (pair_issue price fprice p) (c_cdps st') =
      supply (ledger_of st) "WGRT" + msum (pair_issue price fprice p) (c_cdps st) /\
    (forall g, msum g (c_cdps st') <= msum g (c_cdps st)) /\
    d_reg (c_dex st') = d_reg (c_dex st) /\
    exists cs rest, l = cs ++ rest /\ c_cdps st' = without (c_cdps st) cs /\
      count + N.of_nat (List.length cs) <= limit /\ count + N.of_nat (List.length cs) <= n /\
      n = count + N.of_nat (List.length cs) + (match rest with [] => 0 | _ => 1 end) /\
      (forall k s b, Z.of_N (lbal (ledger_of st') k s b) =
         (Z.of_N (lbal (ledger_of st) k s b) + force_changes st f price fprice cs k s b)%Z) /\
      (rest = [] \/ count + N.of_nat (List.length cs) = limit \/
       exists c rest', rest = c :: rest' /\ lbal (ledger_of st') f "WUSD" BFree < c_owed c).
  Proof.
    induction l as [|c l IH]; intros st count st' n I Ol Nd A Lc H.
    - cbn [force_list] in H. injection H as <- <-. conj; auto; try lia.
      exists [], []. conj; auto; cbn; lia.
    - cbn [force_list] in H. cbv zeta in H. destruct (limit <? count + 1) eqn:El.
      { injection H as <- <-. conj; auto; try lia. exists [], (c :: l). cbn [app List.length].
        conj; auto; cbn; try lia. }
      destruct (free_of st f "WUSD" <? c_owed c) eqn:Ef.
      { injection H as <- <-. conj; auto; try lia. exists [], (c :: l). cbn [app List.length].
        conj; auto; cbn [without fold_left force_changes fold_right]; try lia.
        right. right. exists c, l. split; [reflexivity|]. rewrite free_of_lbal in Ef. lia. }
      step H as st1 H1. destruct (Ol c ltac:(now left)) as (Op & Pc). rewrite <- Pc in H1.
      pose proof (fval_le_msum N.eqb N_eqb_ok (pair_issue price fprice p) (c_cdps st) (c_id c) (proj1 (is_once _ _ (proj1 (proj2 I))))) as Le.
      unfold fval in Le. rewrite Op in Le. unfold pair_issue at 1 in Le.
      rewrite (proj2 (cpair_eqb_ok _ _) Pc) in Le.
      destruct (force_one_ok P e st f price fprice c st1 I Op ltac:(lia) H1) as (I1 & U1 & W1 & C1 & R1 & B1).
      inversion Nd as [|? ? Ni Nd1]; subst x l0.
      assert (Sm : forall g, msum g (c_cdps st1) + g c = msum g (c_cdps st)).
      { intros g. rewrite C1. pose proof (sums_erased junk st c g (proj1 (proj2 I)) Op) as X. cbn [ov] in X. lia. }
      pose proof (Sm (pair_issue price fprice p)) as S1. unfold pair_issue at 2 in S1. rewrite (proj2 (cpair_eqb_ok _ _) Pc) in S1.
      destruct (IH st1 (count + 1) st' n I1) as (I2 & U2 & W2 & L2 & R2 & cs & rest & E & C2 & N1 & N2 & N3 & B2 & F2).
      + intros d Hd. destruct (Ol d ltac:(now right)) as (Od & Pd). split; [|exact Pd].
        unfold is_open. rewrite C1, (fget_del N.eqb N_eqb_ok). destruct (c_id d =? c_id c) eqn:E; [|exact Od].
        exfalso. apply N.eqb_eq in E. apply Ni. rewrite <- E. now apply in_map.
      + exact Nd1.
      + lia.
      + lia.
      + exact H.
      + conj; [exact I2 | congruence | lia | | congruence |].
        * intros g. specialize (L2 g). specialize (Sm g). lia.
        * exists (c :: cs), rest. cbn [app List.length]. conj; try lia.
          -- now rewrite E.
          -- cbn [without fold_left]. fold (without (fdel N.eqb (c_cdps st) (c_id c)) cs). now rewrite C2, C1.
          -- intros k s b. rewrite B2, B1, (force_changes_reg st st1 _ _ _ _ _ _ _ R1).
             cbn [force_changes fold_right]. fold (force_changes st f price fprice cs k s b). lia.
          -- destruct F2 as [F2|[F2|F2]]; [now left | right; left; lia | now right; right].
  Qed.

  Lemma force_pair_ok P e st f p price fprice limit st' n :
    cinv P st -> supply (ledger_of st) "WGRT" + msum (pair_issue price fprice p) (c_cdps st) < two63 ->
    force_pair junk sell_order e st f p price fprice limit = Done (st', n) ->
    cinv P st' /\ uncovered st' = uncovered st /\
    supply (ledger_of st') "WGRT" + msum (pair_issue price fprice p) (c_cdps st') =
      supply (ledger_of st) "WGRT" + msum (pair_issue price fprice p) (c_cdps st) /\
    (forall g, msum g (c_cdps st') <= msum g (c_cdps st)).
  Proof.
    intros I A H. unfold force_pair in H. destruct (floor_reached junk e st p price).
    { injection H as <- <-. conj; auto. intros. lia. }
    step H as l Hl. destruct (list_done junk st p _ price l (proj1 (proj2 I)) Hl) as (Li & Nd & _).
    destruct (force_list_ok P e f p price fprice limit l st 0 st' n I) as (J & U & W & L & _); auto; [|lia].
    intros c Hc. apply Li in Hc. tauto.
  Qed.

  Lemma force_pairs_ok P e f fprice : forall ps st limit st',
    cinv P st -> supply (ledger_of st) "WGRT" + issues junk st fprice ps < two63 ->
    force_pairs junk sell_order e st f fprice limit ps = Done st' ->
    cinv P st' /\ uncovered st' = uncovered st.
  Proof.
    induction ps as [|[p [price active]] ps IH]; intros st limit st' I A H; cbn [force_pairs] in H.
    - injection H as <-. auto.
    - unfold issues in A. cbn [map nsum fst snd] in A. fold (issues junk st fprice ps) in A.
      change (msum _ (c_cdps st)) with (msum (pair_issue price fprice p) (c_cdps st)) in A.
      destruct (e_r3 e && negb active); [apply (IH st limit st'); auto; lia|].
      step H as r Hr. destruct r as [st1 n]. cbn [fst snd] in H.
      destruct (force_pair_ok P e st f p price fprice limit st1 n I ltac:(lia) Hr) as (J & U & W & L).
      destruct (limit <=? n); [injection H as <-; auto|].
      destruct (IH st1 (limit - n) st' J) as (J2 & U2); [|exact H | split; congruence].
      assert (X : issues junk st1 fprice ps <= issues junk st fprice ps).
      { unfold issues. clear - L. induction ps as [|d ps IH]; cbn [map nsum]; [lia|].
        pose proof (L (fun c => if cpair_eqb (pair_of c) (fst d) then issue (fst (snd d)) fprice c else 0)). lia. }
      lia.
  Qed.

  Lemma force_ok P e st fprice ps st' :
    cinv P st -> supply (ledger_of st) "WGRT" + issues junk st fprice ps < two63 ->
    force_liquidate junk sell_order e st fprice ps = Done st' ->
    cinv P st' /\ uncovered st' = uncovered st.
  Proof.
    intros I A H. unfold force_liquidate in H. destruct (fprice =? 0); [injection H as <-; auto|].
    step H as f Hf. apply (force_pairs_ok P e f fprice ps st FORCE_MAX st' I A H).
  Qed.
End Force.
