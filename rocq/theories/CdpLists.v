(** Proofs about positions: forced liquidation as a whole, and the list for settling interest. *)
From Coq Require Import String List Bool NArith ZArith Lia Permutation Sorted.
From Coq Require Import ZifyBool ZifyNat ZifyN.
From Verif Require Import Prelude PreludeFacts AccountModel AccountSpec AccountProofs TxModel TxProofs
  DexModel DexSpec DexProofs DoubleModel CdpModel CdpSpec CdpProofs CdpDouble CdpInv CdpActions CdpClose
  CdpForce CdpRatio.
Import ListNotations.
Open Scope N_scope.

(** ** Positions taken out *)

Lemma without_nodup cs : forall m, NoDup (keys m) -> NoDup (keys (without m cs)).
Proof. induction cs as [|c cs IH]; intros m H; cbn; [exact H|]. apply IH, nodup_del; [apply N_eqb_ok | exact H]. Qed.

Lemma without_get cs : forall m id,
  fget N.eqb (without m cs) id = if existsb (fun c => id =? c_id c) cs then None else fget N.eqb m id.
Proof.
  induction cs as [|c cs IH]; intros m id; cbn [without fold_left existsb]; [reflexivity|].
  change (fold_left _ cs ?x) with (without x cs). rewrite IH, (fget_del N.eqb N_eqb_ok).
  destruct (id =? c_id c), (existsb (fun c => id =? c_id c) cs); reflexivity.
Qed.

Lemma without_sums (g : cdp -> N) cs : forall m,
  NoDup (keys m) -> NoDup (map c_id cs) -> (forall c, In c cs -> fget N.eqb m (c_id c) = Some c) ->
  msum g (without m cs) + nsum (map g cs) = msum g m.
Proof.
  induction cs as [|c cs IH]; intros m Nm Nc O; cbn [without fold_left map nsum]; [lia|].
  change (fold_left _ cs ?x) with (without x cs). inversion Nc as [|? ? Ni Nd]; subst.
  rewrite <- (msum_del N.eqb N_eqb_ok g m (c_id c) Nm). unfold fval. rewrite (O c ltac:(now left)).
  rewrite <- (IH (fdel N.eqb m (c_id c))); [lia | now apply nodup_del; [apply N_eqb_ok|] | exact Nd |].
  intros d Hd. rewrite (fget_del N.eqb N_eqb_ok). destruct (c_id d =? c_id c) eqn:E; [|apply O; now right].
  exfalso. apply N.eqb_eq in E. apply Ni. rewrite <- E. now apply in_map.
Qed.

Lemma msum_one {V} (m : list (N * V)) : msum (fun _ => 1) m = N.of_nat (List.length m).
Proof. induction m as [|[k v] m IH]; cbn [msum List.length]; lia. Qed.
Lemma nsum_one {A} (l : list A) : nsum (map (fun _ => 1) l) = N.of_nat (List.length l).
Proof. induction l as [|x l IH]; cbn [map nsum List.length]; lia. Qed.

Lemma nodup_left {A} (a b : list A) : NoDup (a ++ b) -> NoDup a.
Proof.
  induction a as [|x a IH]; cbn [app]; intros H; [constructor|]. inversion H; subst. constructor; [|auto].
  intros X. apply H2. apply in_or_app. now left.
Qed.

Section Round.
  Variable junk : double -> N.
  Variable sell_order : N -> string -> N.
  Notation cinv := (cinv junk).
  Notation issue := (issue junk).
  Notation ratio_number := (ratio_number junk).

  Lemma changes_free st f price fprice cs k s :
    force_changes junk st f price fprice cs k s BFree =
    (if (k =? f)%N && String.eqb s "WUSD" then - Z.of_N (nsum (map c_owed cs)) else 0)%Z.
  Proof.
    unfold force_changes. induction cs as [|c cs IH]; cbn [fold_right map nsum].
    - destruct ((k =? f)%N && String.eqb s "WUSD"); reflexivity.
    - rewrite IH. unfold force_change. destruct ((k =? f)%N && String.eqb s "WUSD"); lia.
  Qed.
  Lemma changes_frozen st f price fprice cs k s coin :
    (forall c, In c cs -> c_bcoin c = coin) -> coin <> "WGRT"%string ->
    force_changes junk st f price fprice cs k s BFrozen =
    (if (k =? f)%N && String.eqb s coin then Z.of_N (nsum (map c_staked cs))
     else if (k =? f)%N && String.eqb s "WGRT" then Z.of_N (nsum (map (issue price fprice) cs)) else 0)%Z.
  Proof.
    intros C Ng. unfold force_changes. induction cs as [|c cs IH]; cbn [fold_right map nsum].
    - destruct ((k =? f)%N && String.eqb s coin); [reflexivity|]. destruct ((k =? f)%N && String.eqb s "WGRT"); reflexivity.
    - rewrite IH by (intros; apply C; now right). unfold force_change. rewrite (C c ltac:(now left)).
      destruct (k =? f); cbn [andb]; [|lia].
      destruct (String.eqb s coin) eqn:E1; destruct (String.eqb s "WGRT") eqn:E2; try lia.
      apply String.eqb_eq in E1, E2. congruence.
  Qed.
  Lemma changes_other st f price fprice cs k s b :
    b <> BFree -> b <> BFrozen -> b <> BPledged -> force_changes junk st f price fprice cs k s b = 0%Z.
  Proof.
    intros H1 H2 H3. unfold force_changes. induction cs as [|c cs IH]; cbn [fold_right]; [reflexivity|].
    rewrite IH. destruct b; try congruence; reflexivity.
  Qed.

  (** One pair. *)
  Lemma force_pair_effect P e st f p price fprice limit st' n :
    cinv P st -> supply (ledger_of st) "WGRT" + msum (pair_issue junk price fprice p) (c_cdps st) < two63 ->
    force_pair junk sell_order e st f p price fprice limit = Done (st', n) ->
    cinv P st' /\ (forall d, is_open st' d -> is_open st d) /\
    (forall d, is_open st d -> closed st st' d \/ is_open st' d) /\
    (forall c, closed st st' c -> pair_of c = p /\ ratio_number c <= cast junk (ratio_bound (e_param e p PForce) price)) /\
    (forall c d, closed st st' c -> is_open st d -> pair_of d = p -> ratio_number d < ratio_number c -> closed st st' d) /\
    positions st' <= positions st <= positions st' + N.min limit n /\
    (forall k s b, (b = BFree \/ b = BFrozen) -> k <> f -> lbal (ledger_of st') k s b = lbal (ledger_of st) k s b) /\
    (forall s, lbal (ledger_of st') f s BFree + (if String.eqb s "WUSD" then debt st else 0) =
               lbal (ledger_of st) f s BFree + (if String.eqb s "WUSD" then debt st' else 0)) /\
    (forall s, s <> "WGRT"%string ->
       lbal (ledger_of st') f s BFrozen + (if String.eqb s (fst p) then staked_total st' p else 0) =
       lbal (ledger_of st) f s BFrozen + (if String.eqb s (fst p) then staked_total st p else 0)) /\
    (floor_reached junk e st p price = false ->
       positions st = positions st' + limit \/
       (forall d, is_open st' d -> pair_of d = p ->
          ratio_number d <= cast junk (ratio_bound (e_param e p PForce) price) ->
          exists d0, is_open st' d0 /\ pair_of d0 = p /\ ratio_number d0 <= ratio_number d /\
            lbal (ledger_of st') f "WUSD" BFree < c_owed d0)).
  Proof.
    intros I A H. unfold force_pair in H. destruct (floor_reached junk e st p price) eqn:Fl.
    { injection H as <- <-. conj; auto; try lia.
      - intros c (O & C). unfold is_open in O. congruence.
      - intros c d (O & C). unfold is_open in O. congruence. }
    step H as l Hl. destruct (list_done junk st p _ price l (proj1 (proj2 I)) Hl) as (Li & Nd & So).
    assert (Ol : forall c, In c l -> is_open st c /\ pair_of c = p) by (intros c Hc; apply Li in Hc; tauto).
    destruct (force_list_ok junk sell_order P e f p price fprice limit l st 0 st' n I Ol Nd A ltac:(lia) H)
      as (J & U & W & Lm & R & cs & rest & El & Ec & N1 & N2 & N3 & B & F).
    pose proof (proj1 (is_once _ _ (proj1 (proj2 I)))) as Nm.
    assert (Ncs : NoDup (map c_id cs)) by (rewrite El, map_app in Nd; exact (nodup_left _ _ Nd)).
    assert (Ocs : forall c, In c cs -> fget N.eqb (c_cdps st) (c_id c) = Some c).
    { intros c Hc. apply (Ol c). rewrite El. apply in_or_app. now left. }
    assert (Gt : forall id, fget N.eqb (c_cdps st') id = if existsb (fun c => id =? c_id c) cs then None else fget N.eqb (c_cdps st) id)
      by (intros; rewrite Ec; apply without_get).
    assert (Ex : forall c, is_open st c -> existsb (fun d => c_id c =? c_id d) cs = true <-> In c cs).
    { intros c O. rewrite existsb_exists. split.
      - intros (d & Hd & E). apply N.eqb_eq in E. pose proof (Ocs d Hd) as X. unfold is_open in O. rewrite E, X in O. injection O as <-. exact Hd.
      - intros Hc. exists c. split; [exact Hc | apply N.eqb_refl]. }
    assert (Cl : forall c, closed st st' c <-> In c cs).
    { intros c. split.
      - intros (O & C). rewrite Gt in C. apply (Ex c O). destruct (existsb _ cs); [reflexivity|]. unfold is_open in O. congruence.
      - intros Hc. assert (O : is_open st c) by (apply Ocs, Hc). split; [exact O|]. rewrite Gt, (proj2 (Ex c O) Hc). reflexivity. }
    assert (Sm : forall g, msum g (c_cdps st') + nsum (map g cs) = msum g (c_cdps st)).
    { intros g. rewrite Ec. apply without_sums; assumption. }
    assert (Po : positions st = positions st' + N.of_nat (List.length cs)).
    { unfold positions. rewrite <- !msum_one, <- (Sm (fun _ => 1)), nsum_one. reflexivity. }
    assert (Bc : forall c, In c cs -> c_bcoin c = fst p).
    { intros c Hc. destruct (Ol c) as (_ & E); [rewrite El; apply in_or_app; now left|]. now rewrite <- E. }
    assert (Stop : forall d, is_open st d -> ~ In d cs -> In d l -> In d rest).
    { intros d _ Nd' Hd. rewrite El in Hd. apply in_app_or in Hd. tauto. }
    conj; auto.
    - intros d O. unfold is_open in *. rewrite Gt in O. destruct (existsb _ cs); [discriminate | exact O].
    - intros d O. destruct (existsb (fun c => c_id d =? c_id c) cs) eqn:E.
      + left. apply Cl, (Ex d O), E.
      + right. unfold is_open. now rewrite Gt, E.
    - intros c Hc. apply Cl in Hc. assert (Hl' : In c l) by (rewrite El; apply in_or_app; now left). apply Li in Hl'. tauto.
    - intros c d Hc Od Pd Lt. apply Cl. apply Cl in Hc.
      assert (Hcl : In c l) by (rewrite El; apply in_or_app; now left).
      assert (Hd : In d l) by (apply Li; apply Li in Hcl; conj; auto; lia).
      rewrite El in Hd. apply in_app_or in Hd as [Hd|Hd]; [exact Hd|]. exfalso.
      rewrite El in So. apply in_split in Hc as (c1 & c2 & ->).
      assert (K : key_leb (rank junk c) (rank junk d) = true).
      { clear - So Hd. revert So. induction c1 as [|x c1 IH]; cbn [app]; intros So; inversion So as [|? ? S' Fa]; subst.
        - rewrite Forall_forall in Fa. apply Fa. apply in_or_app. now right.
        - apply IH, S'. }
      unfold rank in K. cbn [key_leb] in K. destruct (ratio_number c =? ratio_number d) eqn:E; lia.
    - lia.
    - lia.
    - intros k s b Hb Nk. specialize (B k s b). destruct Hb as [-> | ->].
      + rewrite changes_free in B. replace (k =? f) with false in B by lia. cbn [andb] in B. lia.
      + destruct cs as [|c0 cs0]; [cbn in B; lia|].
        assert (Ng : c_bcoin c0 <> "WGRT"%string).
        { pose proof (Ocs c0 ltac:(now left)) as O. apply (proj1 (proj2 (proj2 I)) _ _) in O. apply O. }
        rewrite (changes_frozen st f price fprice (c0 :: cs0) k s (c_bcoin c0)) in B; [|intros c Hc; rewrite (Bc c Hc), (Bc c0); [reflexivity | now left] | exact Ng].
        replace (k =? f) with false in B by lia. cbn [andb] in B. lia.
    - intros s. specialize (B f s BFree). rewrite changes_free, N.eqb_refl in B. cbn [andb] in B.
      unfold debt. rewrite <- (Sm c_owed). destruct (String.eqb s "WUSD"); lia.
    - intros s Ns. specialize (B f s BFrozen). destruct cs as [|c0 cs0].
      + unfold staked_total. rewrite Ec. cbn in *. lia.
      + assert (Ng : c_bcoin c0 <> "WGRT"%string).
        { pose proof (Ocs c0 ltac:(now left)) as O. apply (proj1 (proj2 (proj2 I)) _ _) in O. apply O. }
        rewrite (changes_frozen st f price fprice (c0 :: cs0) f s (fst p)) in B;
          [|exact Bc | rewrite <- (Bc c0); [exact Ng | now left]].
        rewrite N.eqb_refl in B. cbn [andb] in B. rewrite (proj2 (String.eqb_neq _ _) Ns) in B.
        unfold staked_total. rewrite <- (Sm (fun c => if cpair_eqb (pair_of c) p then c_staked c else 0)).
        assert (X : nsum (map (fun c => if cpair_eqb (pair_of c) p then c_staked c else 0) (c0 :: cs0)) = nsum (map c_staked (c0 :: cs0))).
        { f_equal. apply map_ext_in. intros c Hc. destruct (Ol c) as (_ & E); [rewrite El; apply in_or_app; now left|].
          now rewrite (proj2 (cpair_eqb_ok _ _) E). }
        rewrite X. destruct (String.eqb s (fst p)); lia.
    - intros _. destruct F as [-> |[F|(d0 & rest' & Er & Lf)]].
      + right. intros d O Pd Ld. exfalso. rewrite app_nil_r in El. subst cs.
        unfold is_open in O. rewrite Gt in O. destruct (existsb (fun c => c_id d =? c_id c) l) eqn:E; [discriminate|].
        assert (Hd : In d l) by (apply Li; conj; auto).
        assert (X : existsb (fun c => c_id d =? c_id c) l = true) by (rewrite existsb_exists; exists d; split; [exact Hd | apply N.eqb_refl]).
        congruence.
      + left. lia.
      + right. intros d O Pd Ld. exists d0.
        assert (H0l : In d0 l) by (rewrite El, Er; apply in_or_app; right; now left).
        destruct (Ol d0 H0l) as (O0 & P0).
        assert (N0 : ~ In d0 cs).
        { intros X. rewrite El, Er, map_app in Nd. cbn [map] in Nd. apply NoDup_remove_2 in Nd. apply Nd. apply in_or_app. left. now apply in_map. }
        assert (E0 : existsb (fun c => c_id d0 =? c_id c) cs = false).
        { destruct (existsb (fun c => c_id d0 =? c_id c) cs) eqn:E; [|reflexivity]. apply (Ex d0 O0) in E. contradiction. }
        conj; auto.
        * unfold is_open. now rewrite Gt, E0.
        * unfold is_open in O. rewrite Gt in O. destruct (existsb (fun c => c_id d =? c_id c) cs) eqn:E; [discriminate|].
          assert (Hd : In d l) by (apply Li; conj; auto).
          assert (Hr : In d rest).
          { rewrite El in Hd. apply in_app_or in Hd as [Hd|Hd]; [|exact Hd]. apply (Ex d O) in Hd. congruence. }
          rewrite Er in Hr. destruct Hr as [<- | Hr]; [lia|].
          rewrite El, Er in So.
          assert (K : key_leb (rank junk d0) (rank junk d) = true).
          { clear - So Hr. revert So. induction cs as [|x cs IH]; cbn [app]; intros So; inversion So as [|? ? S' Fa]; subst.
            - rewrite Forall_forall in Fa. apply Fa, Hr.
            - apply IH, S'. }
          unfold rank in K. cbn [key_leb] in K. destruct (ratio_number d0 =? ratio_number d) eqn:E'; lia.
  Qed.

  Lemma force_pairs_count P e f fprice : forall ps st limit st',
    cinv P st -> supply (ledger_of st) "WGRT" + issues junk st fprice ps < two63 ->
    force_pairs junk sell_order e st f fprice limit ps = Done st' ->
    positions st' <= positions st <= positions st' + limit /\
    (forall s, lbal (ledger_of st') f s BFree + (if String.eqb s "WUSD" then debt st else 0) =
               lbal (ledger_of st) f s BFree + (if String.eqb s "WUSD" then debt st' else 0)).
  Proof.
    induction ps as [|[p [price active]] ps IH]; intros st limit st' I A H; cbn [force_pairs] in H.
    - injection H as <-. split; [lia|]. intros; lia.
    - unfold issues in A. cbn [map nsum fst snd] in A. fold (issues junk st fprice ps) in A.
      change (msum _ (c_cdps st)) with (msum (pair_issue junk price fprice p) (c_cdps st)) in A.
      destruct (e_r3 e && negb active); [apply (IH st limit st'); auto; lia|].
      step H as r Hr. destruct r as [st1 n]. cbn [fst snd] in H.
      destruct (force_pair_ok junk sell_order P e st f p price fprice limit st1 n I ltac:(lia) Hr) as (J & U & W & L).
      destruct (force_pair_effect P e st f p price fprice limit st1 n I ltac:(lia) Hr) as (_ & _ & _ & _ & _ & Po & _ & Mo & _).
      destruct (limit <=? n) eqn:El; [injection H as <-; split; [lia | exact Mo]|].
      destruct (IH st1 (limit - n) st' J) as (P2 & M2); [|exact H|].
      { assert (X : issues junk st1 fprice ps <= issues junk st fprice ps).
        { unfold issues. clear - L. induction ps as [|d ps IH]; cbn [map nsum]; [lia|].
          pose proof (L (fun c => if cpair_eqb (pair_of c) (fst d) then issue (fst (snd d)) fprice c else 0)). lia. }
        lia. }
      split; [lia|]. intros s. specialize (Mo s). specialize (M2 s). lia.
  Qed.

  Lemma force_count P e st fprice ps st' :
    cinv P st -> supply (ledger_of st) "WGRT" + issues junk st fprice ps < two63 ->
    force_liquidate junk sell_order e st fprice ps = Done st' ->
    positions st <= positions st' + 1000 /\
    (st' = st \/ exists f, account_of st (n_reserve (e_dex e)) = Some f /\
       lbal (ledger_of st') f "WUSD" BFree + debt st = lbal (ledger_of st) f "WUSD" BFree + debt st').
  Proof.
    intros I A H. unfold force_liquidate in H. destruct (fprice =? 0); [injection H as <-; split; [lia | now left]|].
    step H as f Hf. destruct (force_pairs_count P e f fprice ps st FORCE_MAX st' I A H) as (Po & Mo).
    split; [unfold FORCE_MAX in Po; lia|]. right. exists f.
    unfold reserve_of in Hf. apply need_done, holder_done in Hf as (Hf & _). split; [exact Hf|].
    specialize (Mo "WUSD"%string). change (String.eqb "WUSD" "WUSD") with true in Mo. exact Mo.
  Qed.
End Round.

(** ** Settling interest *)

Section Settle.
  Variable junk : double -> N.
  Notation in_step := (in_step junk).

  Lemma heights_in st p h id : in_step st ->
    (In (h, id) (heights_of st p) <-> exists c, is_open st c /\ pair_of c = p /\ c_height c = h /\ c_id c = id).
  Proof.
    intros I. unfold heights_of. split.
    - intros H. apply (Permutation_in _ (sort_perm _ _)) in H.
      apply in_map_iff in H as ([[q x] c] & E & F). cbn [fst snd] in E. subst x.
      apply filter_In in F as (F & Q). cbn [fst] in Q. apply cpair_eqb_ok in Q. subst q.
      apply (in_fget height_eqb height_eqb_ok) in F; [|apply (is_once _ _ I)].
      apply (is_height _ _ I) in F as (E & O). injection E as E1 E2 E3. exists c. conj; auto.
    - intros (c & O & E1 & E2 & E3). eapply Permutation_in; [apply Permutation_sym, sort_perm|].
      apply in_map_iff. exists ((p, (h, id)), c). split; [reflexivity|]. apply filter_In. cbn [fst]. split.
      + apply (fget_in height_eqb height_eqb_ok). apply (is_height _ _ I). split; [congruence | exact O].
      + now apply cpair_eqb_ok.
  Qed.

  Lemma heights_nodup st p : in_step st -> NoDup (map snd (heights_of st p)).
  Proof.
    intros I. eapply Permutation_NoDup.
    { apply Permutation_map, Permutation_sym. unfold heights_of. apply sort_perm. }
    rewrite map_map. apply nodup_filter_map.
    apply (nodup_by fst); [apply (is_once _ _ I)|].
    intros [k1 c1] [k2 c2] H1 H2 E. cbn [fst snd] in *.
    apply (in_fget height_eqb height_eqb_ok) in H1; [|apply (is_once _ _ I)].
    apply (in_fget height_eqb height_eqb_ok) in H2; [|apply (is_once _ _ I)].
    apply (is_height _ _ I) in H1 as (-> & O1). apply (is_height _ _ I) in H2 as (-> & O2).
    cbn [fst snd] in E. unfold is_open in *. rewrite E in O1. rewrite O1 in O2. injection O2 as <-. reflexivity.
  Qed.

  Definition isdue (e : cenv) (p : string * string) (x : N * N) : bool := due e p (fst x) (e_height e).

  Lemma due_before e p h1 h2 now : h1 <= h2 -> due e p h2 now = true -> due e p h1 now = true.
  Proof. unfold due. intros. lia. Qed.

  (** The ids the loop collects: all due ones, or all but the last of as many as were left. *)
  Lemma due_ids_spec e p : forall l count,
    StronglySorted (fun x y : N * N => fst x <= fst y) l -> 0 < count <= 100 ->
    let d := map snd (filter (isdue e p) l) in
    (N.of_nat (List.length d) < count /\ due_ids e p count l = (d, count - N.of_nat (List.length d))) \/
    (count <= N.of_nat (List.length d) /\ due_ids e p count l = (firstn (N.to_nat (count - 1)) d, 0)).
  Proof.
    induction l as [|[h id] l IH]; intros count S C; cbn [filter map due_ids].
    - left. cbn. split; [lia|]. f_equal. lia.
    - inversion S as [|? ? S' Fa]; subst. cbn [fst] in Fa. change (isdue e p (h, id)) with (due e p h (e_height e)).
      destruct (due e p h (e_height e)) eqn:D; cbn [map snd].
      + replace ((count + two32 - 1) mod two32) with (count - 1).
        2: { replace (count + two32 - 1) with (count - 1 + 1 * two32) by (unfold two32; lia).
             rewrite N.mod_add by (unfold two32; lia). symmetry. apply N.mod_small. unfold two32. lia. }
        destruct (count - 1 =? 0) eqn:Z.
        * right. cbn [List.length]. split; [lia|]. replace (N.to_nat (count - 1)) with O by lia. cbn [firstn]. f_equal. lia.
        * destruct (IH (count - 1) S' ltac:(lia)) as [(L & E)|(L & E)]; rewrite E; cbn [List.length].
          -- left. split; [lia|]. f_equal. lia.
          -- right. split; [lia|]. replace (N.to_nat (count - 1)) with (Datatypes.S (N.to_nat (count - 1 - 1))) by lia.
             cbn [firstn]. reflexivity.
      + (* not due: nothing later is *)
        assert (Z : filter (isdue e p) l = []).
        { clear IH S S'. induction l as [|[h2 id2] l IHl]; [reflexivity|]. cbn [filter]. inversion Fa as [|? ? Le Fa']; subst. cbn [fst] in Le.
          change (isdue e p (h2, id2)) with (due e p h2 (e_height e)). destruct (due e p h2 (e_height e)) eqn:D2; [|now apply IHl].
          rewrite (due_before _ _ _ _ _ Le D2) in D. discriminate. }
        rewrite Z. left. cbn. split; [lia|]. f_equal. lia.
  Qed.

  Lemma heights_sorted st p : StronglySorted (fun x y : N * N => fst x <= fst y) (heights_of st p).
  Proof.
    pose proof (sort_sorted (fun x : N * N => [fst x; snd x])
      (map (fun kv => snd (fst kv)) (filter (fun kv => cpair_eqb (fst (fst kv)) p) (c_heights st)))) as S.
    fold (heights_of st p) in S. induction S as [|x l S IH Fa]; constructor; [exact IH|].
    eapply Forall_impl; [|exact Fa]. intros y K. unfold key_le in K. cbn [key_leb] in K.
    destruct (fst x =? fst y) eqn:E; lia.
  Qed.

  (** Due positions of a pair. *)
  Definition dues (e : cenv) (st : cstate) (p : string * string) : list N :=
    map snd (filter (isdue e p) (heights_of st p)).

  Lemma dues_in e st p id : in_step st ->
    (In id (dues e st p) <-> exists c, is_open st c /\ pair_of c = p /\ c_id c = id /\ due e p (c_height c) (e_height e) = true).
  Proof.
    intros I. unfold dues. rewrite in_map_iff. split.
    - intros ([h i] & E & F). cbn [snd] in E. subst i. apply filter_In in F as (F & D).
      apply (heights_in st p h id I) in F as (c & O & E1 & E2 & E3). exists c. unfold isdue in D. cbn [fst] in D. subst h. conj; auto.
    - intros (c & O & E1 & E2 & D). exists (c_height c, id). split; [reflexivity|]. apply filter_In. split.
      + apply (heights_in st p _ _ I). exists c. conj; auto.
      + exact D.
  Qed.
  Lemma dues_nodup e st p : in_step st -> NoDup (dues e st p).
  Proof. intros I. unfold dues. apply nodup_filter_map. apply heights_nodup, I. Qed.

  Lemma dues_sorted e st p : in_step st ->
    StronglySorted (fun i j => forall c d, fget N.eqb (c_cdps st) i = Some c ->
                                 fget N.eqb (c_cdps st) j = Some d -> c_height c <= c_height d) (dues e st p).
  Proof.
    intros I. unfold dues. pose proof (heights_sorted st p) as S.
    assert (K : forall x, In x (heights_of st p) -> forall c, fget N.eqb (c_cdps st) (snd x) = Some c -> c_height c = fst x).
    { intros [h id] X c G. cbn [fst snd] in *. apply (heights_in st p h id I) in X as (c0 & O & _ & E2 & E3).
      unfold is_open in O. rewrite E3, G in O. injection O as ->. exact E2. }
    revert S K. generalize (heights_of st p) as l. induction l as [|x l IH]; intros S K; cbn [filter map]; [constructor|].
    inversion S as [|? ? S' Fa]; subst. specialize (IH S' (fun y Y => K y (or_intror Y))).
    destruct (isdue e p x); [|exact IH]. cbn [map]. constructor; [exact IH|].
    apply Forall_forall. intros i Hi c d Gc Gd. apply in_map_iff in Hi as (y & <- & Hy). apply filter_In in Hy as (Hy & _).
    rewrite (K x (or_introl eq_refl) c Gc), (K y (or_intror Hy) d Gd). rewrite Forall_forall in Fa. now apply Fa.
  Qed.

  Lemma one_pair e st p price :
    let d := dues e st p in
    (forall x, floor_reached junk e st p price = x ->
       settle_proposal junk e st [(p, (price, true))] = if x then [] else firstn 99 d).
  Proof.
    cbv zeta. intros x F. unfold settle_proposal. cbn [due_pairs]. rewrite F. destruct x; cbn [andb negb]; [reflexivity|].
    destruct (due_ids_spec e p (heights_of st p) 100 (heights_sorted st p) ltac:(lia)) as [(L & E)|(L & E)];
      unfold SETTLE_MAX; rewrite E, app_nil_r; fold (dues e st p) in *.
    - rewrite firstn_all2; [reflexivity | lia].
    - reflexivity.
  Qed.

  (** Several pairs that together have fewer than a hundred due positions. *)
  Definition open_pairs (e : cenv) (st : cstate) (ps : list ((string * string) * (N * bool))) : list (string * string) :=
    map fst (filter (fun d => snd (snd d) && negb (floor_reached junk e st (fst d) (fst (snd d)))) ps).
  Lemma few_pairs e st : forall ps count,
    count <= 100 ->
    N.of_nat (List.length (flat_map (dues e st) (open_pairs e st ps))) < count ->
    due_pairs junk e st count ps = flat_map (dues e st) (open_pairs e st ps).
  Proof.
    induction ps as [|[p [price active]] ps IH]; intros count C H; [reflexivity|].
    unfold open_pairs in *. cbn [due_pairs filter fst snd] in *.
    destruct (active && negb (floor_reached junk e st p price)); [|apply IH; auto].
    cbn [map flat_map fst] in *. rewrite app_length in H.
    destruct (due_ids_spec e p (heights_of st p) count (heights_sorted st p) ltac:(lia)) as [(L & E)|(L & E)];
      rewrite E; fold (dues e st p) in *; [|lia].
    f_equal. apply IH; lia.
  Qed.
End Settle.

(** ** What the list by ratio answers *)

Section Answers.
  Variable junk : double -> N.

  Lemma list_answers st p ratio price :
    ratio <> 0 -> ratio <= 1000000 -> price <> 0 -> price < two64 ->
    exists l, list_by_ratio junk st p ratio price = Done l.
  Proof.
    intros Zr Hr Zp Hp. pose proof (bound_small junk ratio price Zr Hr Zp Hp) as B.
    unfold list_by_ratio. cbv zeta. eexists. rewrite (proj2 (N.ltb_lt _ _) (N.lt_trans _ _ MAX64 B ltac:(unfold MAX64, two64; lia))). reflexivity.
  Qed.

  Lemma no_debt_unlisted c ratio price :
    c_owed c = 0 -> c_staked c <> 0 -> ratio <> 0 -> ratio <= 1000000 -> price <> 0 -> price < two64 ->
    ~ ratio_number junk c <= cast junk (ratio_bound ratio price).
  Proof.
    intros O S Zr Hr Zp Hp H. pose proof (bound_small junk ratio price Zr Hr Zp Hp) as B.
    pose proof (no_debt_number junk c O S). unfold two63 in *. lia.
  Qed.
End Answers.

(** ** Ratios required *)

Section Required.
  Variable junk : double -> N.
  Variable interest : (string * string) -> N -> N -> N -> N.
  Notation cinv := (cinv junk).

  Lemma price_known e p price : price_of e p = Done price -> price <> 0.
  Proof. unfold price_of. cbv zeta. intros Pr. step Pr as u G. apply guard_done in G. injection Pr as <-. lia. Qed.

  Lemma opened_ratio st e t st' : s_cdp t = 0 -> s_amount t < two64 -> s_mint t < two64 ->
    stake junk interest e st t = Done st' ->
    exists c price, fget N.eqb (c_cdps st') (s_id t) = Some c /\ price_of e (pair_of c) = Done price /\
      c_staked c = s_amount t /\ c_owed c = s_mint t /\
      (price < two64 -> e_param e (pair_of c) PStart < two64 ->
       2 ^ 49 * (e_param e (pair_of c) PStart * c_owed c * 10 ^ 4) <= (2 ^ 49 + 1) * (c_staked c * price)).
  Proof.
    intros Z Ha Hm H. unfold stake in H. cbv zeta in H. step H as a Ga. step H as u1 G1. step H as u2 G2. step H as price Pr.
    step H as u3 G3. rewrite (proj2 (N.eqb_eq _ _) Z) in H. step H as st1 H1. step H as st2 H2.
    apply cop_money in H2. apply cop_money in H. clear u1 u2 u3 G1 G2 G3.
    unfold open_cdp in H1. cbv zeta in H1. step H1 as u1 G1. apply guard_done in G1. step H1 as u2 G2. clear u2 G2.
    step H1 as u2 G2. apply guard_done, N.leb_le in G2. step H1 as u3 G3. clear u1 u2 u3 G3. injection H1 as <-.
    set (c := mkCdp (s_id t) (a_regid a) (e_height e) (s_asset t) (s_scoin t) (s_amount t) (s_mint t)) in *.
    exists c, price. conj; auto.
    - rewrite (mo_cdps _ _ _ H), (mo_cdps _ _ _ H2). unfold new_cdp, save_index. cbn [c_cdps CdpModel.set_user CdpModel.set_cdps].
      change (c_id c) with (s_id t). rewrite (fget_put N.eqb N_eqb_ok), N.eqb_refl. reflexivity.
    - intros Hp Hs. change (pair_of c) with (s_asset t, s_scoin t) in *. cbn [c_owed c_staked c].
      pose proof (calc_ratio_sound junk (s_amount t) (s_mint t) price (e_param e (s_asset t, s_scoin t) PStart)
        ltac:(lia) ltac:(lia) (price_known _ _ _ Pr) Ha Hm Hp Hs G2) as Q.
      change (2 ^ 49) with 562949953421312. change (10 ^ 4) with 10000. change (562949953421312 + 1) with 562949953421313.
      clear - Q. rewrite !N.mul_assoc in *. lia.
  Qed.

  Lemma redeemed_ratio P st e t st' c : cinv P st -> cinv P st' -> redeem junk interest e st t = Done st' ->
    r_assets t <> 0 -> fget N.eqb (c_cdps st') (r_cdp t) = Some c ->
    (forall c0, fget N.eqb (c_cdps st) (r_cdp t) = Some c0 -> c_staked c0 <> 0) ->
    exists price, price_of e (pair_of c) = Done price /\
      (price < two64 -> e_param e (pair_of c) PStart < two64 ->
       2 ^ 49 * (e_param e (pair_of c) PStart * c_owed c * 10 ^ 4) <= (2 ^ 49 + 1) * (c_staked c * price)).
  Proof.
    intros I I' H Za Gc' Zs. unfold redeem in H. step H as u0 G0. step H as a Ga. step H as u1 G1.
    step H as c0 Gc. apply need_done in Gc. specialize (Zs _ Gc). step H as u2 G2. step H as u3 G3. cbv zeta in H.
    step H as price Pr. step H as u4 G4. step H as u5 G5. step H as st1 H1. step H as u6 G6. step H as c' Hc.
    step H as st2 H2. step H as st3 H3. apply cop_money in H3. apply cop_money in H.
    clear u0 G0 a Ga u1 G1 u2 G2 u3 G3 u4 G4 u5 G5 u6 G6 H1.
    destruct (open_of_get junk st _ _ (proj1 (proj2 I)) Gc) as (_ & Ei & _).
    unfold take_out in Hc. step Hc as u1 T1. step Hc as u2 T2. clear u1 u2 T1 T2. injection Hc as Hc.
    assert (Ec' : c_id c' = r_cdp t) by (subst c'; exact Ei).
    rewrite (mo_cdps _ _ _ H), (mo_cdps _ _ _ H3) in Gc'.
    destruct ((c_owed c' =? 0) && (c_staked c' =? 0)).
    { injection H2 as <-. rewrite cdps_of_erased, (fget_del N.eqb N_eqb_ok), Ec', N.eqb_refl in Gc'. discriminate. }
    step H2 as u1 G1. apply guard_done in G1. unfold update_cdp in H2. step H2 as u2 G2. injection H2 as <-. clear u1 u2 G2.
    rewrite cdps_of_updated, (fget_put N.eqb N_eqb_ok), Ec', N.eqb_refl in Gc'. injection Gc' as <-.
    assert (Ep : pair_of c' = pair_of c0) by (subst c'; reflexivity). rewrite Ep. exists price. split; [exact Pr|].
    intros Hp Hst. unfold redeemed_ok in G1. cbv zeta in G1. rewrite Ep in G1.
    assert (N0 : (N.min (r_assets t) (c_staked c0) =? 0) = false) by lia. rewrite N0 in G1. cbn [orb] in G1.
    apply andb_true_iff in G1 as (G1 & _). apply N.leb_le in G1.
    (* sizes *)
    destruct (proj1 (proj2 (proj2 I)) _ _ Gc) as (_ & _ & _ & _ & Q5 & k & K1 & K2).
    assert (Op : is_open st c0) by (unfold is_open; now rewrite Ei).
    destruct (staked_pledged junk P st c0 k I Op K1) as (_ & L63).
    destruct (N.eq_dec (c_owed c') 0) as [Zo|Zo]; [rewrite Zo; lia|].
    assert (S1 : c_staked c' < two63) by (subst c'; cbn [c_staked resized]; lia).
    assert (O1 : c_owed c' < two64) by (subst c'; cbn [c_owed resized]; lia).
    pose proof (cdp_ratio_sound junk c' price (e_param e (pair_of c0) PStart) Zo (price_known _ _ _ Pr) S1 O1 Hp Hst G1) as Q.
    change (2 ^ 49) with 562949953421312. change (10 ^ 4) with 10000. change (562949953421312 + 1) with 562949953421313.
    clear - Q. rewrite !N.mul_assoc in *. lia.
  Qed.
End Required.
