(** Claims about block rewards: C37. *)
From Coq Require Import String List Bool NArith ZArith Lia ZifyBool ZifyNat ZifyN.
From Verif Require Import Prelude AccountModel AccountSpec TxModel TxSpec RegidModel RegidSpec RegidProofs
  RegidDeploy RegidProperties RewardSpec RewardProofs.
Import ListNotations.
Open Scope N_scope.

Section Claims.
  Variable pk_keyid : N -> N.
  Variable address : regid -> N.
  Variable valid : N -> bool.
  Variable mint_height : N.
  Variable lenient : N -> bool.
  Notation run := (run pk_keyid address valid mint_height lenient).
  Notation undue := (undue pk_keyid address valid mint_height lenient).
  Notation own := (own pk_keyid address valid mint_height lenient).
  Notation roomy := (roomy pk_keyid address valid mint_height lenient).
  Notation connect_at := (connect_at pk_keyid address valid mint_height lenient).

  Lemma run_grown_as g es ch : run g es [] = ch -> grown pk_keyid address valid mint_height lenient g ch.
  Proof. intros <-. now apply run_grown. Qed.

  (** When a block is connected, the reward of the block [maturity] below it is paid, and nothing
      else is done that the block would not do without it: the account that had the id of the producer
      when that block came gets what the reward promises, as spendable coins, and no other balance, id
      or account changes. A chain that is too short for that pays nothing. *)
  Theorem c37_credit : forall g es b st ch, no_collisions pk_keyid address -> start pk_keyid address g ->
    run g es [] = (b, st) :: ch -> fits ((b, st) :: ch) ->
    exists mid, undue g ch b = Some mid /\
    match nth_error ch 99 with
    | None => st = mid
    | Some (m, _) =>
        exists k, owner_of (tip g (skipn 100 ch)) (b_producer m) = Some k /\
          (forall j s p, p <> BFree -> lbal (t_acc st) j s p = lbal (t_acc mid) j s p) /\
          (forall j s, j <> k -> free_of st j s = free_of mid j s) /\
          (forall s, free_of st k s mod two64 = (free_of mid k s + promised (b_amounts m) s) mod two64) /\
          (forall s, free_of mid k s + promised (b_amounts m) s < two64 ->
             free_of st k s = free_of mid k s + promised (b_amounts m) s) /\
          (forall j, id_of st j = id_of mid j) /\ (forall r, owner_of st r = owner_of mid r)
    end.
  Proof.
    intros g es b st ch Hn S E F. apply run_grown_as in E.
    destruct (connected _ _ _ _ _ Hn g b st ch S E F) as (mid & U & D). exists mid. split; [exact U|].
    unfold due in D. change (maturity - 1)%nat with 99%nat in D. destruct (nth_error ch 99) as [[m sm]|]; [|exact D].
    destruct D as (k & a & O & A & L & W). exists k. change maturity with 100%nat in O. split; [exact O|].
    split. { intros j s p P. apply (free_paid st mid k a (b_amounts m) j s A L p). exact P. }
    split. { intros j s J. unfold free_of, lbal. rewrite L. apply N.eqb_neq in J. rewrite J. reflexivity. }
    split. { intros s. destruct (free_paid st mid k a (b_amounts m) k s A L BFree) as (M & _).
      rewrite N.eqb_refl in M. exact M. }
    split. { intros s R. destruct (free_paid st mid k a (b_amounts m) k s A L BFree) as (_ & X & _).
      rewrite N.eqb_refl in X. exact (X R). }
    split; [|exact W]. intros j. unfold id_of. rewrite L. destruct (j =? k) eqn:J; [|reflexivity].
    apply N.eqb_eq in J. subst j. rewrite A. destruct (plus_all_identity (items (b_amounts m)) a) as (_ & R & _).
    rewrite R. reflexivity.
  Qed.

  (** Over every history of blocks connected and disconnected: what an account can spend is what it
      had, what the blocks of the chain did to it by themselves, and the rewards of the blocks at
      least [maturity] below the tip, each of them once. *)
  Theorem c37_once : forall g es ch k s, no_collisions pk_keyid address -> start pk_keyid address g ->
    run g es [] = ch -> fits ch ->
    (exists z, Z.of_N (free_of (tip g ch) k s) =
       (Z.of_N (free_of g k s) + own g ch k s + Z.of_N (earned g (skipn 100 ch) k s) + z * 2 ^ 64)%Z) /\
    (roomy g ch -> Z.of_N (free_of (tip g ch) k s) =
       (Z.of_N (free_of g k s) + own g ch k s + Z.of_N (earned g (skipn 100 ch) k s))%Z).
  Proof.
    intros g es ch k s Hn S E F. apply run_grown_as in E.
    exact (once _ _ _ _ _ Hn g S ch E F k s).
  Qed.

  (** What a block says of its own reward has no effect when the block is connected: two blocks
      that differ in that only, if both are taken, give the same state. *)
  Theorem c37_immature : forall g ch b w mid mid',
    undue g ch b = Some mid ->
    undue g ch (mkBlock (b_reward b) (b_producer b) (b_txs b) w (b_fees b) (b_inflation b) (b_changes b)) = Some mid' ->
    mid' = mid.
  Proof.
    intros g ch b w mid mid'. unfold RewardSpec.undue, RegidModel.connect_at, verify_reward. cbn [b_reward b_producer b_txs b_changes].
    destruct (negb _); [discriminate|]. destruct (apply_txs _ _ _ _ _ _ _ _) as [st1|]; [|discriminate].
    destruct (negb (amounts_right lenient _ b)); [discriminate|].
    destruct (negb (amounts_right lenient _ _)); [discriminate|].
    destruct (execute_reward _ _ _ None st1) as [st2|]; [|discriminate].
    destruct (apply_changes _ _ st2); congruence.
  Qed.

  (** Outside the heights where the fees of rewards go unchecked, a reward promises the fees of its
      block: the plain kind those in the coin of the chain, the other kind both, and the inflation. *)
  Theorem c37_recorded : forall g es b st ch, run g es [] = (b, st) :: ch ->
    lenient (height_of ch + 1) = false -> forall s, promised (b_amounts b) s =
      match b_amounts b with
      | RPlain _ => if String.eqb s WICC then fst (b_fees b) else 0
      | RCoins _ _ =>
          if String.eqb s WICC then fst (b_fees b) + b_inflation b
          else if String.eqb s WUSD then snd (b_fees b) else 0
      end.
  Proof.
    intros g es b st ch E L s. apply run_grown_as in E. destruct E as [_ C].
    destruct (connect_checked _ _ _ _ _ _ _ _ _ _ C) as [_ A]. exact (right_promised lenient b _ L A s).
  Qed.

  (** If the reward that is due was taken with its fees checked, no block is refused for it. *)
  Theorem c37_not_refused : forall g es ch b mid, no_collisions pk_keyid address -> start pk_keyid address g ->
    run g es [] = ch -> fits ch -> height_of ch + 1 < two32 -> N.of_nat (List.length (b_txs b)) < two16 ->
    lenient (height_of (skipn 100 ch) + 1) = false -> undue g ch b = Some mid ->
    exists st, run g (es ++ [Connect b]) [] = (b, st) :: ch.
  Proof.
    intros g es ch b mid Hn S E F Hh Hl L U. pose proof (run_grown_as _ _ _ E) as G.
    assert (X : exists st, connect_at (height_of ch + 1) (due ch) b (tip g ch) = Some st).
    { destruct (due ch) as [m|] eqn:D.
      - rewrite <- D. apply (never_refused _ _ _ _ _ Hn g ch b mid m S G F Hh Hl U D).
        exact (due_payable _ _ _ _ _ g ch m G L D).
      - exists mid. exact U. }
    destruct X as (st & X). exists st. unfold RegidModel.run in *. rewrite fold_left_app. cbn [fold_left].
    rewrite E. cbn [step]. rewrite X. reflexivity.
  Qed.

  (** If the reward that is due promises a third token, no block can be connected. *)
  Theorem c37_stuck : forall g es ch b m sm fs i s v, no_collisions pk_keyid address -> start pk_keyid address g ->
    run g es [] = ch -> fits ch -> height_of ch + 1 < two32 -> N.of_nat (List.length (b_txs b)) < two16 ->
    nth_error ch 99 = Some (m, sm) -> b_amounts m = RCoins fs i -> In (s, v) fs -> s <> WICC -> s <> WUSD ->
    run g (es ++ [Connect b]) [] = ch.
  Proof.
    intros g es ch b m sm fs i s v Hn S E F Hh Hl D A I N1 N2. pose proof (run_grown_as _ _ _ E) as G.
    unfold RegidModel.run in *. rewrite fold_left_app. cbn [fold_left]. rewrite E. cbn [step].
    rewrite (refused _ _ _ _ _ Hn g ch b m S G F Hh Hl); [reflexivity| |].
    - unfold due. change (maturity - 1)%nat with 99%nat. rewrite D. reflexivity.
    - rewrite A. apply not_true_iff_false. intros P. unfold payable in P. rewrite forallb_forall in P.
      specialize (P (s, v) (in_or_app _ _ _ (or_introl I))). unfold known_symbol in P. cbn [fst] in P.
      apply orb_true_iff in P as [P|P]; apply String.eqb_eq in P; contradiction.
  Qed.
End Claims.

(** A concrete chain: 101 blocks of one producer; the first promises 3 WICC and 2 WUSD of fees and 5 WICC
    of inflation. *)
Section Instance.
  Definition earning (ts : list tx) (c u i : N) : block :=
    mkBlock (UReg (0, 2)) (0, 2) ts (RCoins [(WICC, c); (WUSD, u)] i) (c, u) i [].
  Definition plain (ts : list tx) (c u i : N) : block :=
    mkBlock (UReg (0, 2)) (0, 2) ts (RPlain c) (c, u) i [].
  Definition on_top (b : block) (n : nat) : list event := Connect b :: List.repeat (Connect (blk [])) n.
  Definition chain_of (es : list event) : list (block * txst) := run pk addr any 0 strict g0 es [].

  (** Nothing is paid up to the hundredth block, and the producer is paid with the next one. *)
  Definition paid_1 : list event := on_top (earning [pay (UReg (0, 1)) (UPub 7) 100] 3 2 5) 100.

  Example paid_1_is : let before := chain_of (firstn 100 paid_1) in let after := chain_of paid_1 in
    List.length before = 100%nat /\ List.length after = 101%nat /\
    free_of (tip g0 before) (pk 2) WICC = 0 /\ free_of (tip g0 before) (pk 2) WUSD = 0 /\
    free_of (tip g0 after) (pk 2) WICC = 8 /\ free_of (tip g0 after) (pk 2) WUSD = 2 /\
    earned g0 (skipn 100 before) (pk 2) WICC = 0 /\ earned g0 (skipn 100 after) (pk 2) WICC = 8 /\
    earned g0 (skipn 100 after) (pk 2) WUSD = 2.
  Proof. do 8 (split; [vm_compute; reflexivity|]). vm_compute. reflexivity. Qed.

  Example paid_1_fits : fits (chain_of paid_1) /\ height_of (chain_of paid_1) + 1 < two32.
  Proof. split; [apply fits_by_check|]; vm_compute; reflexivity. Qed.

  (** What the paying block does without the reward, and with it. *)
  Definition credit_check (ch : list (block * txst)) : bool :=
    match ch with
    | (b, st) :: ch =>
        match undue pk addr any 0 strict g0 ch b, nth_error ch 99 with
        | Some mid, Some (m, _) =>
            (free_of mid (pk 2) WICC =? 0) && (free_of st (pk 2) WICC =? 8) && (free_of mid (pk 2) WUSD =? 0)
            && (free_of st (pk 2) WUSD =? 2) && (promised (b_amounts m) WICC =? 8) && (promised (b_amounts m) WUSD =? 2)
        | _, _ => false
        end
    | [] => false
    end.
  Example paid_1_credit : credit_check (chain_of paid_1) = true.
  Proof. vm_compute. reflexivity. Qed.

  (** Disconnecting the paying block takes the reward back, and connecting it again pays it again:
      still once. *)
  Example paid_back : free_of (tip g0 (chain_of (paid_1 ++ [Disconnect]))) (pk 2) WICC = 0 /\
    free_of (tip g0 (chain_of (paid_1 ++ [Disconnect; Connect (blk []); Connect (blk [])]))) (pk 2) WICC = 8.
  Proof. split; vm_compute; reflexivity. Qed.

  (** A start with both tokens, and a block whose transactions pay fees in both. *)
  Definition both (c u : N) : content := mkContent [(WICC, mkToken c 0 0 0 0); (WUSD, mkToken u 0 0 0 0)] 0 0 0 0.
  Definition g1 : txst :=
    match genesis pk [GReward 1 (both 1000 100); GVote (0, 1) [(UPub 2, some_wicc 0)] (both 900 100)] with
    | Some g => g | None => mkTx [] [] [] None [] end.
  Definition fees_3_2 : list tx :=
    [TCoin (mkCoinTx (UReg (0, 1)) WICC 3 [mkXfer (UPub 7) WICC 100]) 0 (0, 1) (fun _ => 0);
     TCoin (mkCoinTx (UReg (0, 1)) WUSD 2 [mkXfer (UPub 7) WICC 100]) 0 (0, 1) (fun _ => 0)].
  Definition ends (len : N -> bool) (es : list event) : list (block * txst) := run pk addr any 0 len g1 es [].

  Example g1_starts : start pk addr g1.
  Proof.
    apply (c34_genesis pk addr 1 (both 1000 100) (0, 1) [(UPub 2, some_wicc 0)] (both 900 100)).
    - intros u v [E|[]]; inversion E; right; eauto.
    - vm_compute. discriminate.
    - vm_compute. reflexivity.
  Qed.

  (** Refuted: a producer gets the fees of its block and the inflation. A plain reward is taken for a
      block with fees in both tokens and with inflation, and promises the fees in one of them only: when
      it has been paid, 2 WUSD of fees have gone to nobody and 5 WICC were never made. With a reward of
      the other kind they are paid. *)
  Theorem c37_lost_refuted :
    let paid b := tip g1 (ends strict (on_top b 100)) in
    exists b b', b_txs b = b_txs b' /\ b_fees b = b_fees b' /\ b_inflation b = b_inflation b' /\
      fits (ends strict (on_top b 100)) /\ fits (ends strict (on_top b' 100)) /\
      List.length (ends strict (on_top b 100)) = 101%nat /\ List.length (ends strict (on_top b' 100)) = 101%nat /\
      supply (t_acc g1) WICC = 900 /\ supply (t_acc g1) WUSD = 100 /\
      supply (t_acc (paid b)) WICC = 905 /\ supply (t_acc (paid b)) WUSD = 100 /\
      supply (t_acc (paid b')) WICC = 900 /\ supply (t_acc (paid b')) WUSD = 98 /\
      free_of (paid b) (pk 2) WICC = 8 /\ free_of (paid b) (pk 2) WUSD = 2 /\
      free_of (paid b') (pk 2) WICC = 3 /\ free_of (paid b') (pk 2) WUSD = 0.
  Proof.
    exists (earning fees_3_2 3 2 5), (plain fees_3_2 3 2 5). do 3 (split; [reflexivity|]).
    do 2 (split; [apply fits_by_check; vm_compute; reflexivity|]).
    do 11 (split; [vm_compute; reflexivity|]). vm_compute. reflexivity.
  Qed.

  (** Refuted: a chain can always go on. Where the fees of rewards go unchecked, a block may promise
      a third token; it is taken, and no block can be connected 100 blocks later. *)
  Definition testing (h : N) : bool := h <? 200000.
  Definition odd_reward : block :=
    mkBlock (UReg (0, 2)) (0, 2) [] (RCoins [("WGRT"%string, 1)] 0) (0, 0) 0 [].

  Lemma ends_stuck len es b m sm fs i s v : fits (ends len es) -> height_of (ends len es) + 1 < two32 ->
    N.of_nat (List.length (b_txs b)) < two16 -> nth_error (ends len es) 99 = Some (m, sm) ->
    b_amounts m = RCoins fs i -> In (s, v) fs -> s <> WICC -> s <> WUSD ->
    ends len (es ++ [Connect b]) = ends len es.
  Proof.
    intros F Hh Hb E A I N1 N2.
    exact (c37_stuck pk addr any 0 len g1 es _ b m sm fs i s v no_collisions_here g1_starts eq_refl F Hh Hb E A I N1 N2).
  Qed.

  Theorem c37_stuck_refuted : exists es, List.length (ends testing es) = 100%nat /\ fits (ends testing es) /\
    (forall b, N.of_nat (List.length (b_txs b)) < two16 -> ends testing (es ++ [Connect b]) = ends testing es) /\
    List.length (ends testing (es ++ [Disconnect; Connect (blk [])])) = 100%nat.
  Proof.
    exists (on_top odd_reward 99). split; [vm_compute; reflexivity|].
    assert (F : fits (ends testing (on_top odd_reward 99))) by (apply fits_by_check; vm_compute; reflexivity).
    split; [exact F|]. split; [|vm_compute; reflexivity]. intros b Hb.
    assert (D : option_map (fun x => b_amounts (fst x)) (nth_error (ends testing (on_top odd_reward 99)) 99) = Some (b_amounts odd_reward))
      by (vm_compute; reflexivity).
    assert (Hh : (height_of (ends testing (on_top odd_reward 99)) + 1 <? two32) = true) by (vm_compute; reflexivity).
    destruct (nth_error (ends testing (on_top odd_reward 99)) 99) as [[m sm]|] eqn:E; [|discriminate D].
    cbn [option_map fst] in D. injection D as D'.
    assert (N1 : "WGRT"%string <> WICC) by discriminate. assert (N2 : "WGRT"%string <> WUSD) by discriminate.
    exact (ends_stuck testing (on_top odd_reward 99) b m sm _ _ _ _ F (proj1 (N.ltb_lt _ _) Hh) Hb E D' (or_introl eq_refl) N1 N2).
  Qed.
End Instance.

Print Assumptions c37_credit.
Print Assumptions c37_once.
Print Assumptions c37_immature.
Print Assumptions c37_recorded.
Print Assumptions c37_not_refused.
Print Assumptions c37_stuck.
Print Assumptions c37_lost_refuted.
Print Assumptions c37_stuck_refuted.
