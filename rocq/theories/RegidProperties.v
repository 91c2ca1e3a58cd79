(** Claims about registration ids (C34) and contract addresses (C70). *)
From Coq Require Import String List Bool NArith ZArith Lia ZifyBool ZifyNat ZifyN.
From Verif Require Import Prelude AccountModel AccountSpec TxModel TxSpec RegidModel RegidSpec RegidProofs
  RegidDeploy.
Import ListNotations.
Open Scope N_scope.

Section Claims.
  Variable pk_keyid : N -> N.
  Variable address : regid -> N.
  Variable valid : N -> bool.
  Variable mint_height : N.
  Variable lenient : N -> bool.
  Notation run := (run pk_keyid address valid mint_height lenient).
  Notation apply_tx := (apply_tx pk_keyid address valid mint_height).

  (** After every history of blocks connected and disconnected, no two accounts have the same
      registration id, and an id leads to exactly the account that has it. *)
  Theorem c34_unique : forall g es, no_collisions pk_keyid address -> start pk_keyid address g ->
    fits (run g es []) -> unique_ids (tip g (run g es [])) /\ leads_back (tip g (run g es [])).
  Proof.
    intros g es Hn S F. pose proof (run_grown pk_keyid address valid mint_height lenient g es [] Logic.I) as G.
    destruct (grown_inv _ _ _ _ Hn _ g S _ G F) as (I & _). pose proof (inv_back _ _ _ I). split; auto.
    now apply back_unique.
  Qed.

  (** Along a chain, an account keeps the id it has. *)
  Theorem c34_keeps : forall g es c1 c2, no_collisions pk_keyid address -> start pk_keyid address g ->
    run g es [] = c1 ++ c2 -> fits (c1 ++ c2) -> keeps_ids (tip g c2) (tip g (c1 ++ c2)).
  Proof.
    intros g es c1 c2 Hn S E F. apply (grown_keeps _ _ valid mint_height Hn lenient); auto. rewrite <- E.
    now apply run_grown.
  Qed.

  (** The id of an account is the position of the transaction that registered it: an id that is new
      with a block is of the height of the block, and its index is that of a transaction of it. *)
  Theorem c34_position : forall g es b st ch k r, no_collisions pk_keyid address ->
    start pk_keyid address g -> run g es [] = (b, st) :: ch -> fits ((b, st) :: ch) ->
    id_of st k = Some r -> id_of (tip g ch) k <> Some r ->
    fst r = height_of ch + 1 /\ 1 <= snd r <= N.of_nat (List.length (b_txs b)).
  Proof.
    intros g es b st ch k r Hn S E F H N.
    assert (G : grown pk_keyid address valid mint_height lenient g ((b, st) :: ch)) by (rewrite <- E; now apply run_grown).
    destruct (grown_new _ _ _ _ Hn _ g b st ch S G F k r H) as [X|X]; [contradiction|exact X].
  Qed.

  (** A transaction signed with a public key registers its sender, at its own position, unless it
      is registered. *)
  Theorem c34_sender : forall h i t st st' p, no_collisions pk_keyid address -> sane pk_keyid address st ->
    owner_of st (position h i) = None -> regid_empty (position h i) = false ->
    (exists fs fee, t = TRegister (UPub p) fs fee) \/ (exists fs fee to v, t = TBase (UPub p) fs fee to v) \/
    (exists c f r o, t = TCoin c f r o /\ c_uid c = UPub p) \/ (exists fs fee vs, t = TOther (UPub p) fs fee vs) ->
    apply_tx h i t st = Some st' ->
    id_of st' (pk_keyid p) = match id_of st (pk_keyid p) with Some r => Some r | None => Some (position h i) end.
  Proof.
    intros h i t st st' p Hn S F R T H.
    exact (sender_registered _ _ _ _ Hn h i t st st' p (sane_inv _ _ _ S) F R T H).
  Qed.

  (** A deployed contract gets the position of the deployment as its id, and no other account gets
      or loses an id. *)
  Theorem c34_contract : forall h i u fs fee fuel st st', no_collisions pk_keyid address ->
    sane pk_keyid address st -> owner_of st (position h i) = None -> regid_empty (position h i) = false ->
    apply_tx h i (TDeploy u fs fee fuel) st = Some st' ->
    id_of st' (address (position h i)) = Some (position h i) /\
    (forall k, k <> address (position h i) -> id_of st' k = id_of st k).
  Proof.
    intros h i u fs fee fuel st st' Hn S F R H.
    exact (deployed_registered _ _ _ _ Hn h i u fs fee fuel st st' (sane_inv _ _ _ S) F R H).
  Qed.

  (** Every accepted transaction leaves a sane state sane. *)
  Theorem c34_sane : forall h i t st st', no_collisions pk_keyid address -> sane pk_keyid address st ->
    owner_of st (position h i) = None -> regid_empty (position h i) = false ->
    apply_tx h i t st = Some st' -> sane pk_keyid address st' /\ keeps_ids st st'.
  Proof.
    intros h i t st st' Hn S F R H.
    destruct (apply_tx_inv _ _ _ _ Hn h i t st st' (sane_inv _ _ _ S) F R H) as [I [G _]].
    split; [now apply inv_sane|]. intros k r. rewrite !id_idv. apply G.
  Qed.

  (** The state after a genesis block of one reward and one vote, for the voter and for public keys,
      is one to start from. *)
  Theorem c34_genesis : forall p c r cs c' g,
    (forall u v, In (u, v) cs -> u = UReg r \/ exists q, u = UPub q) ->
    2 + N.of_nat (List.length cs) <= two16 ->
    genesis pk_keyid [GReward p c; GVote r cs c'] = Some g -> start pk_keyid address g.
  Proof. intros p c r cs c' g. apply (genesis_start pk_keyid address (fun _ => true) (fun _ => true)). Qed.

  (** C70: a deployment takes the fee from the sender, pays the fuel to the reserve and leaves the
      other balances as they are, but the account at the contract's address holds nothing
      afterwards; what it held before is gone from the supply. *)
  Theorem c70_deploy : forall h i u fs fee fuel st st',
    no_collisions pk_keyid address -> sane pk_keyid address st -> NoDup (map fst (t_orders st)) ->
    owner_of st (position h i) = None ->
    (forall s, supply (t_acc st) s + fuel_in fuel s < two64) ->
    (forall f v, fuel = Some (f, v) -> f <> position h i) ->
    apply_tx h i (TDeploy u fs fee fuel) st = Some st' ->
    exists k, denotes pk_keyid (t_reg st) u = Some k /\ k <> address (position h i) /\
      (forall j s b, lbal (t_acc st') j s b + at_place (Some (k, BFree)) fs fee j s b =
         (if j =? address (position h i) then 0 else lbal (t_acc st) j s b) + fuel_at st fuel j s b) /\
      (forall s, supply (t_acc st') s + fee_in fs fee s + held_at st (address (position h i)) s
         = supply (t_acc st) s + fuel_in fuel s).
  Proof.
    intros h i u fs fee fuel st st' Hn S No F B R H.
    exact (deploy_exact _ _ _ _ Hn h i u fs fee fuel st st' S No F B R H).
  Qed.

  (** If nobody has sent coins to the address, no coins are lost. *)
  Theorem c70_fresh : forall h i u fs fee fuel st st',
    no_collisions pk_keyid address -> sane pk_keyid address st -> NoDup (map fst (t_orders st)) ->
    owner_of st (position h i) = None -> l_get (t_acc st) (address (position h i)) = None ->
    (forall s, supply (t_acc st) s + fuel_in fuel s < two64) ->
    (forall f v, fuel = Some (f, v) -> f <> position h i) ->
    apply_tx h i (TDeploy u fs fee fuel) st = Some st' ->
    forall s, supply (t_acc st') s + fee_in fs fee s = supply (t_acc st) s + fuel_in fuel s.
  Proof.
    intros h i u fs fee fuel st st' Hn S No F A B R H s.
    destruct (c70_deploy h i u fs fee fuel st st' Hn S No F B R H) as (k & _ & _ & _ & X). specialize (X s).
    unfold held_at in X. rewrite A in X. lia.
  Qed.
End Claims.

(** A concrete instance: hashes that do not collide, a producer and two accounts with coins. *)
Section Instance.
  Definition pk (p : N) : N := 2 * p + 1.
  Definition addr (r : regid) : N := 2 * ((fst r + snd r) * (fst r + snd r) + snd r).
  Definition any (p : N) : bool := true.
  Definition strict (h : N) : bool := false.

  Example no_collisions_here : no_collisions pk addr.
  Proof.
    split.
    - intros [h1 i1] [h2 i2]. unfold addr. cbn [fst snd]. intros H.
      assert (h1 + i1 = h2 + i2) by nia. assert (i1 = i2) by nia. f_equal; lia.
    - intros p [h i]. unfold pk, addr. cbn [fst snd]. lia.
  Qed.

  Lemma fits_by_check (ch : list (block * txst)) :
    (height_of ch <? two32) && forallb (fun bs => N.of_nat (List.length (b_txs (fst bs))) <? two16) ch = true -> fits ch.
  Proof.
    intros H. apply andb_true_iff in H as [H1 H2]. split; [lia|]. intros b st X.
    rewrite forallb_forall in H2. specialize (H2 _ X). cbn [fst] in H2. lia.
  Qed.

  Definition some_wicc (v : N) : content := mkContent [(WICC, mkToken v 0 0 0 0)] 0 0 0 0.

  (** The genesis block: the account of the first key with coins votes for two others. *)
  Definition first_block : list gtx :=
    [GReward 1 (some_wicc 1000); GVote (0, 1) [(UPub 2, some_wicc 0); (UPub 3, some_wicc 0)] (some_wicc 900)].
  Definition g0 : txst := match genesis pk first_block with Some g => g | None => mkTx [] [] [] None [] end.

  Example g0_is : genesis pk first_block = Some g0 /\ id_of g0 (pk 1) = Some (0, 1) /\
    id_of g0 (pk 2) = Some (0, 2) /\ id_of g0 (pk 3) = Some (0, 3) /\ owner_of g0 (0, 3) = Some (pk 3).
  Proof. do 8 (try (split; [vm_compute; reflexivity|])). vm_compute; reflexivity. Qed.

  Example start_here : start pk addr g0.
  Proof.
    apply (c34_genesis pk addr 1 (some_wicc 1000) (0, 1) [(UPub 2, some_wicc 0); (UPub 3, some_wicc 0)] (some_wicc 900)).
    - intros u v [E|[E|[]]]; inversion E; right; eauto.
    - vm_compute. discriminate.
    - vm_compute. reflexivity.
  Qed.

  Definition pay (u : uid) (to : uid) (v : N) : tx := TCoin (mkCoinTx u WICC 1 [mkXfer to WICC v]) 0 (0, 1) (fun _ => 0).
  Definition blk (ts : list tx) : block := mkBlock (UReg (0, 2)) (0, 2) ts (RPlain 0) (0, 0) 0 [].

  (** The first key pays two new keys; the one given by public key is registered at once, the other
      when it sends. Then a contract is deployed. *)
  Definition day : list event :=
    [Connect (blk [pay (UReg (0, 1)) (UPub 7) 100; pay (UReg (0, 1)) (UKey (pk 8)) 50]);
     Connect (blk [TRegister (UPub 8) WICC 1; TDeploy (UReg (1, 1)) WICC 10 None])].

  Definition after (es : list event) : txst := tip g0 (run pk addr any 0 strict g0 es []).

  Example day_ids : let st := after day in
    List.length (run pk addr any 0 strict g0 day []) = 2%nat /\
    id_of st (pk 7) = Some (1, 1) /\ id_of st (pk 8) = Some (2, 1) /\ id_of st (addr (2, 2)) = Some (2, 2) /\
    owner_of st (2, 2) = Some (addr (2, 2)) /\ owner_of st (2, 1) = Some (pk 8) /\
    lbal (t_acc st) (pk 7) WICC BFree = 90 /\ lbal (t_acc st) (pk 8) WICC BFree = 49.
  Proof. do 8 (try (split; [vm_compute; reflexivity|])). vm_compute; reflexivity. Qed.

  Example day_fits : fits (run pk addr any 0 strict g0 day []).
  Proof.
    apply fits_by_check. vm_compute. reflexivity.
  Qed.

  (** The claims apply to it. *)
  Example day_unique : unique_ids (after day) /\ leads_back (after day).
  Proof. exact (c34_unique pk addr any 0 strict g0 day no_collisions_here start_here day_fits). Qed.

  (** A genesis block with two votes gives two accounts the same id. *)
  Theorem c34_genesis_refuted : exists gs g, genesis pk gs = Some g /\ ~ unique_ids g.
  Proof.
    exists [GReward 1 (some_wicc 1000); GVote (0, 1) [(UPub 2, some_wicc 0); (UPub 3, some_wicc 0)] (some_wicc 900);
            GVote (0, 1) [(UPub 4, some_wicc 0)] (some_wicc 800)].
    eexists. split; [vm_compute; reflexivity|]. intros U.
    assert (E : pk 3 = pk 4) by (apply (U _ _ (0, 3)); vm_compute; reflexivity). vm_compute in E. discriminate.
  Qed.

  (** A block with more than 65535 transactions gives two accounts the same id. *)
  Definition funded : txst := after
    [Connect (blk [pay (UReg (0, 1)) (UKey (pk 7)) 100; pay (UReg (0, 1)) (UKey (pk 8)) 50])].
  Definition long_block : list tx :=
    TRegister (UPub 7) WICC 1 :: List.repeat (TSystem []) (N.to_nat (two16 - 1)) ++ [TRegister (UPub 8) WICC 1].

  Theorem c34_wrap_refuted : exists st', sane pk addr funded /\
    apply_txs pk addr any 0 2 1 long_block funded = Some st' /\ ~ unique_ids st'.
  Proof.
    assert (F : fits (run pk addr any 0 strict g0 [Connect (blk [pay (UReg (0, 1)) (UKey (pk 7)) 100; pay (UReg (0, 1)) (UKey (pk 8)) 50])] [])).
    { apply fits_by_check. vm_compute. reflexivity. }
    pose proof (run_grown pk addr any 0 strict g0
      [Connect (blk [pay (UReg (0, 1)) (UKey (pk 7)) 100; pay (UReg (0, 1)) (UKey (pk 8)) 50])] [] Logic.I) as G.
    destruct (grown_inv _ _ _ _ no_collisions_here _ g0 start_here _ G F) as (I & _).
    eexists. split; [exact (inv_sane _ _ _ I)|]. split; [vm_compute; reflexivity|]. intros U.
    assert (E : pk 7 = pk 8) by (apply (U _ _ (2, 1)); vm_compute; reflexivity). vm_compute in E. discriminate.
  Qed.

  (** Across a reorganisation an account may get another id, and its old id may go to another
      account. *)
  Theorem c34_reorg_refuted : exists es1 es2,
    fits (run pk addr any 0 strict g0 es1 []) /\ fits (run pk addr any 0 strict g0 (es1 ++ es2) []) /\
    id_of (after es1) (pk 7) = Some (1, 1) /\ id_of (after (es1 ++ es2)) (pk 7) = Some (2, 1) /\
    owner_of (after (es1 ++ es2)) (1, 1) = Some (pk 8).
  Proof.
    exists [Connect (blk [pay (UReg (0, 1)) (UPub 7) 100])].
    exists [Disconnect; Connect (blk [pay (UReg (0, 1)) (UPub 8) 100]); Connect (blk [pay (UReg (0, 1)) (UPub 7) 100])].
    split. { apply fits_by_check. vm_compute. reflexivity. }
    split. { apply fits_by_check. vm_compute. reflexivity. }
    do 3 (try (split; [vm_compute; reflexivity|])). vm_compute; reflexivity.
  Qed.

  (** Coins sent to the address of a contract before it is deployed are destroyed by the
      deployment, although the address is known in advance. *)
  Definition sent_ahead : list event :=
    [Connect (blk [pay (UReg (0, 1)) (UPub 7) 100; pay (UReg (0, 1)) (UKey (addr (2, 1))) 50])].

  Theorem c70_refuted : exists st', sane pk addr (after sent_ahead) /\
    apply_tx pk addr any 0 2 1 (TDeploy (UReg (1, 1)) WICC 10 None) (after sent_ahead) = Some st' /\
    lbal (t_acc (after sent_ahead)) (addr (2, 1)) WICC BFree = 50 /\ lbal (t_acc st') (addr (2, 1)) WICC BFree = 0 /\
    supply (t_acc (after sent_ahead)) WICC = 898 /\ supply (t_acc st') WICC = 838.
  Proof.
    assert (F : fits (run pk addr any 0 strict g0 sent_ahead [])).
    { apply fits_by_check. vm_compute. reflexivity. }
    pose proof (run_grown pk addr any 0 strict g0 sent_ahead [] Logic.I) as G.
    destruct (grown_inv _ _ _ _ no_collisions_here _ g0 start_here _ G F) as (I & _).
    eexists. split; [exact (inv_sane _ _ _ I)|]. do 5 (try (split; [vm_compute; reflexivity|])). vm_compute; reflexivity.
  Qed.

  (** A deployment with fuel, and nothing at the address: exact balances. *)
  Example deployed : exists st',
    apply_tx pk addr any 0 3 1 (TDeploy (UReg (1, 1)) WICC 10 (Some ((0, 3), 7))) (after day) = Some st' /\
    id_of st' (addr (3, 1)) = Some (3, 1) /\ lbal (t_acc st') (pk 7) WICC BFree = 80 /\
    lbal (t_acc st') (pk 3) WUSD BFree = 7 /\ lbal (t_acc st') (pk 8) WICC BFree = 49 /\
    supply (t_acc st') WICC + 10 = supply (t_acc (after day)) WICC.
  Proof. eexists. do 5 (try (split; [vm_compute; reflexivity|])). vm_compute; reflexivity. Qed.

  Example deployed_meets : sane pk addr (after day) /\ NoDup (map fst (t_orders (after day))) /\
    owner_of (after day) (position 3 1) = None /\ l_get (t_acc (after day)) (addr (position 3 1)) = None /\
    regid_empty (position 3 1) = false.
  Proof.
    pose proof (run_grown pk addr any 0 strict g0 day [] Logic.I) as G.
    destruct (grown_inv _ _ _ _ no_collisions_here _ g0 start_here _ G day_fits) as (I & _).
    split; [exact (inv_sane _ _ _ I)|]. split; [vm_compute; constructor|]. do 2 (split; [vm_compute; reflexivity|]). vm_compute; reflexivity.
  Qed.

  (** A sender that is registered by its own transaction. *)
  Example sender_meets : exists st', apply_tx pk addr any 0 2 1 (TOther (UPub 8) WICC 1 []) funded = Some st' /\
    id_of funded (pk 8) = None /\ id_of st' (pk 8) = Some (2, 1).
  Proof. eexists. do 5 (try (split; [vm_compute; reflexivity|])). vm_compute; reflexivity. Qed.
End Instance.

Print Assumptions c34_unique.
Print Assumptions c34_keeps.
Print Assumptions c34_position.
Print Assumptions c34_sender.
Print Assumptions c34_contract.
Print Assumptions c34_sane.
Print Assumptions c34_genesis.
Print Assumptions c34_genesis_refuted.
Print Assumptions c34_wrap_refuted.
Print Assumptions c34_reorg_refuted.
Print Assumptions c70_deploy.
Print Assumptions c70_fresh.
Print Assumptions c70_refuted.
