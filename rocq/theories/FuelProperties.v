(** C71: processing or assembling a block never stops the node because a transaction's fuel costs more
    than its fee. C72: the block a producer assembles passes the nodes' checks of fuel. C73: the rate of
    fuel follows the load and stays within bounds. *)
From Coq Require Import List Bool NArith ZArith Lia.
From Verif Require Import Prelude PreludeFacts DexModel DoubleModel SingleModel FuelModel FuelSpec FuelFloat
  FuelRates FuelProofs.
Import ListNotations.
Open Scope N_scope.

(** ** C73 *)

(** On every chain that nodes accept the next rate is defined, at least 1 and at most 21,543. *)
Theorem c73_bounds c : fuel_chain 50 c ->
  (forall e, In e c -> 1 <= e_rate e <= highest_rate) /\
  exists r, element_for_burn 50 c = Done r /\ 1 <= r <= highest_rate.
Proof.
  intros H. split; [|apply chain_next; auto]. intros e I.
  destruct (chain_good c H) as [G _]. rewrite Forall_forall in G. apply (G e I).
Qed.
Print Assumptions c73_bounds.

(** The rate is 100 for the first 103 blocks. After that it falls by a tenth when the average load of
    the last 50 blocks was below three quarters of the limit, rises by a tenth when it was above 85
    percent, and stays otherwise. *)
Theorem c73_first c : fuel_chain 50 c -> N.of_nat (length c) <= 102 -> element_for_burn 50 c = Done 100.
Proof.
  intros H L. unfold element_for_burn. destruct c as [|t c]; [reflexivity|].
  replace (Z.of_N (N.of_nat (length (t :: c)) - 1) - 1 <=? Z.of_N 50 * 2)%Z with true; [reflexivity|].
  symmetry. apply Z.leb_le. lia.
Qed.
Print Assumptions c73_first.

Theorem c73_follows t c : fuel_chain 50 (t :: c) -> 102 < N.of_nat (length (t :: c)) ->
  (4 * load 50 (t :: c) < 3 * max_block_fuel ->
     element_for_burn 50 (t :: c) = Done (N.max 1 (e_rate t * 9 / 10))) /\
  (17 * max_block_fuel < 20 * load 50 (t :: c) ->
     element_for_burn 50 (t :: c) = Done (e_rate t * 11 / 10)) /\
  (3 * max_block_fuel <= 4 * load 50 (t :: c) -> 20 * load 50 (t :: c) <= 17 * max_block_fuel ->
     element_for_burn 50 (t :: c) = Done (e_rate t)).
Proof.
  intros H L. destruct (chain_good _ H) as [G _]. rewrite (next_exact t c G L).
  inversion G as [|? ? [[R _] _] _]; subst. clear H G L. set (a := load 50 (t :: c)). clearbody a.
  assert (e_rate t <= e_rate t * 11 / 10) by (apply N.div_le_lower_bound; lia).
  unfold max_block_fuel. split; [|split]; intros; f_equal.
  - destruct (N.ltb_spec a 450421875); lia.
  - destruct (N.ltb_spec a 450421875); [lia|]. destruct (N.ltb_spec 510478125 a); lia.
  - destruct (N.ltb_spec a 450421875); [lia|]. destruct (N.ltb_spec 510478125 a); lia.
Qed.
Print Assumptions c73_follows.

(** Refuted: that a high load makes the rate rise. Once it is below 10 it never again reaches 10, with
    whatever window and whatever load. *)
Theorem c73_stuck n newer t c : fuel_chain n (newer ++ t :: c) -> e_rate t < 10 ->
  forall e, In e newer -> e_rate e < 10.
Proof.
  intros H R e I. pose proof (stuck_forever n newer t c H R) as F. rewrite Forall_forall in F. auto.
Qed.
Print Assumptions c73_stuck.

Fixpoint grow (fees : list N) (c : list entry) : list entry :=
  match fees with
  | [] => c
  | f :: fees' => match element_for_burn 50 c with Done r => grow fees' (mkEntry r f :: c) | _ => c end
  end.

Lemma grow_chain fees c : fuel_chain 50 c -> forallb (fun f => f <? two32) fees = true ->
  fuel_chain 50 (grow fees c).
Proof.
  revert c. induction fees as [|f fees IH]; intros c H F; cbn [grow]; auto.
  cbn [forallb] in F. apply andb_true_iff in F as [F1 F2]. apply N.ltb_lt in F1.
  destruct (element_for_burn 50 c) as [r| | |] eqn:E; auto. apply IH; auto. constructor; auto.
Qed.

Section RateInstance.
  (** A busy chain of 146 blocks whose rate has risen to 5,835; an idle one whose rate has fallen to 1,
      and its extension by 80 full blocks. *)
  Definition start : list entry := [mkEntry 100 0].
  Definition busy : list entry := grow (repeat 4294967295 145) start.
  Definition idle : list entry := grow (repeat 0 130) start.
  Definition full : list entry := grow (repeat 6005625 80) idle.

  Lemma start_chain : fuel_chain 50 start.
  Proof. apply (fc_genesis 50 0). reflexivity. Qed.
  Lemma busy_chain : fuel_chain 50 busy.
  Proof. apply grow_chain; [apply start_chain|vm_compute; reflexivity]. Qed.
  Lemma idle_chain : fuel_chain 50 idle.
  Proof. apply grow_chain; [apply start_chain|vm_compute; reflexivity]. Qed.
  Lemma full_chain : fuel_chain 50 full.
  Proof. apply grow_chain; [apply idle_chain|vm_compute; reflexivity]. Qed.

  Example c73_bounds_ex : fuel_chain 50 busy /\ length busy = 146%nat /\
    element_for_burn 50 busy = Done 6418 /\ load 50 busy = 1456245114.
  Proof. split; [apply busy_chain|]. split; [|split]; vm_compute; reflexivity. Qed.

  Example c73_first_ex : fuel_chain 50 start /\ element_for_burn 50 start = Done 100.
  Proof. split; [apply start_chain|vm_compute; reflexivity]. Qed.

  Example c73_follows_ex :
    element_for_burn 50 busy = Done (5835 * 11 / 10) /\
    element_for_burn 50 (grow (repeat 0 105) start) = Done (72 * 9 / 10) /\
    element_for_burn 50 (grow (repeat 480450000 105) start) = Done 100.
  Proof. split; [|split]; vm_compute; reflexivity. Qed.

  Example c73_stuck_ex : exists newer t c, full = newer ++ t :: c /\ fuel_chain 50 full /\ e_rate t = 9 /\
    length newer = 89%nat /\ 17 * max_block_fuel < 20 * load 50 full /\
    element_for_burn 50 full = Done 1.
  Proof.
    exists (firstn 89 full), (nth 89 full (mkEntry 0 0)), (skipn 90 full).
    split; [vm_compute; reflexivity|]. split; [apply full_chain|].
    split; [|split; [|split]]; vm_compute; reflexivity.
  Qed.
End RateInstance.

(** ** C71 *)

(** A deployment: its fuel fee is at most its fee, at every rate that a chain can have. *)
Theorem c71_deploy {St} (gov : St -> kind -> symbol -> option N) rest rate i st t st' t' :
  fees_kept gov -> rest_ok gov rest -> 1 <= rate <= highest_rate ->
  held t -> is_deploy (x_kind t) -> check_and_execute gov rest true rate i st t = Done (st', t') ->
  exists f, fuel_fee gov true rate st' t' = Done f /\ f <= x_fee t'.
Proof.
  intros G R B H D E. destruct (deploy_covered gov rest rate G R B i st t st' t' H D E) as [f [F [L _]]].
  exists f. auto.
Qed.
Print Assumptions c71_deploy.

(** A call: the share of the fee that is kept back covers all the rounding. *)
Theorem c71_call {St} (gov : St -> kind -> symbol -> option N) rest rate i st t st' t' :
  fees_kept gov -> rest_ok gov rest -> 1 <= rate <= highest_rate ->
  held t -> x_kind t = LuaCall \/ x_kind t = UniCall ->
  check_and_execute gov rest true rate i st t = Done (st', t') ->
  exists f, fuel_fee gov true rate st' t' = Done f /\ f <= x_fee t'.
Proof.
  intros G R B H D E. destruct (call_covered gov rest rate G R B i st t st' t' H D E) as [f [F [L _]]].
  exists f. auto.
Qed.
Print Assumptions c71_call.

(** The fuel of a universal transaction is 10 for each of its bytes and each byte by which it makes the
    storage grow, and [fuel_per_recipient] for each account told of it; making the storage shrink takes
    nothing off. *)
Theorem c71_uni_fuel t u :
  (forall s, In s (u_sizes u) -> -900000000000000000 <= s <= 900000000000000000)%Z ->
  10 * x_size t + 10 * grown (u_sizes u) + fuel_per_recipient * u_recipients u < two64 ->
  universal_fuel t u = 10 * x_size t + 10 * grown (u_sizes u) + fuel_per_recipient * u_recipients u.
Proof.
  intros B H. unfold universal_fuel, mul64, fuel_per_byte.
  rewrite (N.mod_small (x_size t * 10)) by lia. rewrite storage_fuels_exact by (auto; lia).
  rewrite (N.mod_small (u_recipients u * fuel_per_recipient)) by lia.
  unfold add64. rewrite N.mod_small by lia. lia.
Qed.
Print Assumptions c71_uni_fuel.

(** A universal transaction: the fee covers each full hundred of fuel, and the fuel fee is at most two
    further hundreds and one part in 2^24 above that. *)
Theorem c71_uni {St} (gov : St -> kind -> symbol -> option N) rest rate i st t st' t' :
  1 <= rate <= highest_rate -> x_kind t = Uni ->
  check_and_execute gov rest true rate i st t = Done (st', t') ->
  exists f, fuel_fee gov true rate st' t' = Done f /\
    x_fuel t' / 100 * rate <= x_fee t' /\
    f * 2 ^ 24 <= (x_fuel t' / 100 + 2) * rate * (2 ^ 24 + 1).
Proof.
  intros B K E. destruct (uni_fee gov rest rate B i st t st' t' K E) as [f [F [L [_ [L2 _]]]]].
  exists f. auto.
Qed.
Print Assumptions c71_uni.

(** Connecting a block, at the rate that any chain leads to, never ends in an assertion or in undefined
    behaviour, when its universal transactions leave room for rounding. *)
Theorem c71_connect {St} (gov : St -> kind -> symbol -> option N) rest c rate st b :
  fuel_chain 50 c -> element_for_burn 50 c = Done rate -> fees_kept gov -> rest_ok gov rest ->
  Forall held (k_txs b) -> Forall (roomy rest rate) (k_txs b) ->
  goes_on (connect_block gov rest true rate st b).
Proof.
  intros C E G R H Ro. destruct (chain_next c C) as [r [E' B]]. rewrite E in E'. injection E' as <-.
  apply connect_block_goes_on; auto.
Qed.
Print Assumptions c71_connect.

(** Nor does assembling one; there the result is always a block. *)
Theorem c71_assemble {St} (gov : St -> kind -> symbol -> option N) rest c rate max_size st pool size :
  fuel_chain 50 c -> element_for_burn 50 c = Done rate -> fees_kept gov -> rest_ok gov rest ->
  Forall held pool -> Forall (roomy rest rate) pool ->
  exists st' b, assemble gov rest true rate max_size st pool size = Done (st', b).
Proof.
  intros C E G R H Ro. destruct (chain_next c C) as [r [E' B]]. rewrite E in E'. injection E' as <-.
  unfold assemble.
  destruct (pack_goes_on gov rest rate G R B max_size 1 st pool size no_totals H Ro) as [[[s1 txs] q] ->].
  cbn [bind]. eexists. eexists. reflexivity.
Qed.
Print Assumptions c71_assemble.

(** ** C72 *)

(** The assembled block passes, in the producer's own objects or in those of any other node, when its
    fuel fees fit in 32 bits. *)
Theorem c72_accepted {St} (gov : St -> kind -> symbol -> option N) rest c rate max_size st pool size st' b txs :
  fuel_chain 50 c -> element_for_burn 50 c = Done rate -> fees_kept gov -> rest_ok gov rest ->
  Forall held pool -> assemble gov rest true rate max_size st pool size = Done (st', b) ->
  k_fuel_fee b < two32 ->
  Forall2 same_tx (k_txs b) txs -> Forall held txs ->
  exists q, connect_block gov rest true rate st (mkBlock txs (k_fuel_fee b) (k_reward b)) = Done (st', q).
Proof.
  intros C E G R H A L F H'. destruct (chain_next c C) as [r [E' B]]. rewrite E in E'. injection E' as <-.
  apply (assembled gov rest rate G R B max_size st pool size st' b txs); auto.
Qed.
Print Assumptions c72_accepted.

Section FeeInstance.
  (** A state that lists the transactions executed; a call's fuel is its field for the length of code. *)
  Definition no_gov : list N -> kind -> symbol -> option N := fun _ _ _ => None.
  Definition simple (i l : N) (st : list N) (t : tx) : option (list N * burn) :=
    if existsb (N.eqb (x_id t)) st then None
    else match x_kind t, x_symbol t with
      | Plain, Token => None
      | LuaCall, _ => if max_money <? x_fee t then None else Some (x_id t :: st, mkBurn (x_code t) [] 0)
      | _, _ => Some (x_id t :: st, mkBurn (x_code t) [] 0)
      end.

  Lemma no_gov_kept : fees_kept no_gov.
  Proof. intros st k s f H. discriminate. Qed.

  Lemma simple_ok gov : (forall st st', gov st = gov st') -> rest_ok gov simple.
  Proof.
    intros G. constructor; unfold simple; intros.
    - apply G.
    - rewrite H0 in H. destruct (existsb _ st); [discriminate|]. destruct (x_symbol t); discriminate.
    - rewrite H0 in H. destruct (existsb _ st); [discriminate|].
      destruct (N.ltb_spec max_money (x_fee t)); [discriminate|auto].
  Qed.

  Definition lua_deploy (id fee : N) := mkTx id LuaDeploy Wicc fee 300 20 0 400 400 0.
  Definition lua_call (id fee fuel : N) := mkTx id LuaCall Wicc fee fuel 0 0 200 200 0.
  Definition uni_deploy (id fee : N) := mkTx id UniDeploy Wusd fee 60000 100 0 60300 60300 0.
  Definition uni_call (id fee fuel : N) := mkTx id UniCall Wusd fee fuel 0 0 200 200 0.
  Definition uni (id fee size : N) := mkTx id Uni Wicc fee 0 0 0 size size 0.
  Definition plain (id fee : N) := mkTx id Plain Wicc fee 0 0 0 200 200 0.

  (** One of each kind, at the busy chain's rate of 6,418. The Lua call uses all the fuel its fee buys. *)
  Definition pool : list tx :=
    [lua_deploy 1 100000500; lua_call 2 5000000 76300; uni_deploy 3 100100000; uni_call 4 1000000 14000;
     uni 5 1000000 200; plain 6 10000].
  Lemma pool_held : Forall held pool.
  Proof.
    repeat (apply Forall_cons;
      [constructor; cbn; unfold is_deploy; intuition (try discriminate)|]). constructor.
  Qed.

  Lemma pool_roomy : Forall (roomy simple 6418) pool.
  Proof.
    repeat (apply Forall_cons; [intros K; cbn in K; try discriminate K|]); [|constructor].
    intros i l st st' u R. unfold simple in R.
    destruct (existsb _ st); [discriminate|]. cbn in R. injection R as <- <-. vm_compute. discriminate.
  Qed.

  Example c71_deploy_ex : exists st t,
    check_and_execute no_gov simple true 6418 1 [] (uni_deploy 3 100100000) = Done (st, t) /\
    x_fuel t = 60107 /\ fuel_fee no_gov true 6418 st t = Done 100000000.
  Proof.
    eexists. eexists. split; [vm_compute; reflexivity|]. split; vm_compute; reflexivity.
  Qed.

  Example c71_call_ex : exists st t,
    check_and_execute no_gov simple true 6418 1 [] (lua_call 2 5000000 76300) = Done (st, t) /\
    x_fuel t = 76300 /\ fuel_fee no_gov true 6418 st t = Done 4896934.
  Proof.
    eexists. eexists. split; [vm_compute; reflexivity|]. split; vm_compute; reflexivity.
  Qed.

  Example c71_uni_fuel_ex : universal_fuel (uni 5 1000000 200) (mkBurn 0 [30; -30; 7]%Z 2) =
    2000 + 370 + 2 * fuel_per_recipient /\ grown [30; -30; 7]%Z = 37.
  Proof. split; vm_compute; reflexivity. Qed.

  Example c71_uni_ex : exists st t,
    check_and_execute no_gov simple true 6418 1 [] (uni 5 1000000 200) = Done (st, t) /\
    x_fuel t = 2000 /\ fuel_fee no_gov true 6418 st t = Done 128360.
  Proof.
    eexists. eexists. split; [vm_compute; reflexivity|]. split; vm_compute; reflexivity.
  Qed.

  Example c71_connect_ex : fuel_chain 50 busy /\ element_for_burn 50 busy = Done 6418 /\
    Forall held pool /\ Forall (roomy simple 6418) pool /\
    exists q, connect_block no_gov simple true 6418 [] (mkBlock pool 205923814 (985206, 201480)) =
      Done ([6; 5; 4; 3; 2; 1], q).
  Proof.
    split; [apply busy_chain|]. split; [vm_compute; reflexivity|].
    split; [apply pool_held|]. split; [apply pool_roomy|].
    eexists. vm_compute. reflexivity.
  Qed.

  Definition packed_block : block :=
    match assemble no_gov simple true 6418 1000000 [] pool 300 with Done (_, b) => b | _ => mkBlock [] 0 (0, 0) end.

  Example c71_assemble_ex : exists st,
    assemble no_gov simple true 6418 1000000 [] pool 300 = Done (st, packed_block) /\
    length (k_txs packed_block) = 6%nat /\ k_fuel_fee packed_block = 205923814.
  Proof. eexists. split; [vm_compute; reflexivity|]. split; vm_compute; reflexivity. Qed.

  (** The producer's own objects hold the fuel of the packing; the other nodes' objects are fresh. *)
  Example c72_accepted_ex :
    map x_fuel (k_txs packed_block) = [324; 76300; 60107; 14000; 2000; 0] /\
    Forall2 same_tx (k_txs packed_block) pool /\ Forall held pool /\ Forall held (k_txs packed_block) /\
    exists q, connect_block no_gov simple true 6418 [] packed_block = Done ([6; 5; 4; 3; 2; 1], q) /\
      connect_block no_gov simple true 6418 []
        (mkBlock pool (k_fuel_fee packed_block) (k_reward packed_block)) = Done ([6; 5; 4; 3; 2; 1], q).
  Proof.
    split; [vm_compute; reflexivity|].
    split; [vm_compute; repeat constructor|]. split; [apply pool_held|].
    split; [|eexists; split; vm_compute; reflexivity].
    replace (k_txs packed_block) with
      [with_fuel (lua_deploy 1 100000500) 324; with_fuel (lua_call 2 5000000 76300) 76300;
       with_fuel (uni_deploy 3 100100000) 60107; with_fuel (uni_call 4 1000000 14000) 14000;
       with_fuel (uni 5 1000000 200) 2000; plain 6 10000] by (vm_compute; reflexivity).
    repeat (apply Forall_cons; [constructor; cbn; unfold is_deploy; intuition (try discriminate)|]).
    constructor.
  Qed.

  (** ** Refuted: the same without room for rounding *)

  (** A universal transaction of 10,005 bytes and a fee of 100,000, at the initial rate: it is accepted,
      and its fuel fee is 100,100. A node that receives a block with it stops, and so does a producer
      that has it among its candidates. *)
  Theorem c71_uni_refuted : exists st t,
    check_and_execute no_gov simple true 100 1 [] (uni 1 100000 10005) = Done (st, t) /\
    fuel_fee no_gov true 100 st t = Done 100100 /\ x_fee t = 100000 /\ held (uni 1 100000 10005) /\
    (forall n r, connect_block no_gov simple true 100 [] (mkBlock [uni 1 100000 10005] n r) = Abort) /\
    assemble no_gov simple true 100 1000000 [] [uni 1 100000 10005] 300 = Abort.
  Proof.
    eexists. eexists. split; [vm_compute; reflexivity|].
    split; [vm_compute; reflexivity|]. split; [reflexivity|].
    split; [constructor; cbn; unfold is_deploy; intuition discriminate|].
    split; [|vm_compute; reflexivity].
    intros n r. unfold connect_block.
    replace (connect_txs no_gov simple true 100 1 [] (k_txs (mkBlock [uni 1 100000 10005] n r)) no_totals)
      with (@Abort (list N * totals)) by (vm_compute; reflexivity). reflexivity.
  Qed.

  (** With a deployment fee lowered by governance to 0.00001 coins, a deployment whose fee was accepted
      stops the nodes, here at a rate of 200. *)
  Definition low_gov (st : list N) (k : kind) (s : symbol) : option N :=
    match k, s with LuaDeploy, Wicc => Some 1000 | _, _ => None end.
  Definition cheap (id : N) := mkTx id LuaDeploy Wicc 62000 60000 10 0 60300 60300 0.

  Theorem c71_low_fee_refuted : rest_ok low_gov simple /\ held (cheap 1) /\
    exists st t, check_and_execute low_gov simple true 200 1 [] (cheap 1) = Done (st, t) /\
      fuel_fee low_gov true 200 st t = Done 120028 /\
      connect_block low_gov simple true 200 [] (mkBlock [cheap 1] 1000 (61000, 0)) = Abort.
  Proof.
    split; [apply simple_ok; reflexivity|].
    split; [constructor; cbn; unfold is_deploy; intuition discriminate|].
    eexists. eexists. split; [vm_compute; reflexivity|]. split; vm_compute; reflexivity.
  Qed.

  (** Before the release of the stable coin a call has no minimum fee, so nothing is kept back. *)
  Theorem c71_early_refuted : exists st t,
    check_and_execute no_gov simple false 100 1 [] (lua_call 1 600562450 600562400) = Done (st, t) /\
    fuel_fee no_gov false 100 st t = Done 600562496 /\ x_fee t = 600562450 /\
    connect_block no_gov simple false 100 [] (mkBlock [lua_call 1 600562450 600562400] 0 (0, 0)) = Abort.
  Proof.
    eexists. eexists. split; [vm_compute; reflexivity|].
    split; [vm_compute; reflexivity|]. split; vm_compute; reflexivity.
  Qed.

  (** Refuted: that every assembled block passes. Each deployment burns at least one coin, so 43 of them
      burn more than the 32 bits in which the header's fuel fee is read. The producer's own node, like
      every other, refuses the block. *)
  Definition deployments : list tx := map (fun i => lua_deploy (N.of_nat i) 100001000) (seq 1 43).
  Theorem c72_refuted : Forall held deployments /\
    exists st b, assemble no_gov simple true 100 1000000 [] deployments 300 = Done (st, b) /\
      length (k_txs b) = 43%nat /\ k_fuel_fee b = 4300000000 /\ header_fuel_fee b = 5032704 /\
      connect_block no_gov simple true 100 [] b = Reject /\
      connect_block no_gov simple true 100 []
        (mkBlock deployments (k_fuel_fee b) (k_reward b)) = Reject.
  Proof.
    split.
    { apply Forall_forall. intros t I. apply in_map_iff in I as [i [<- _]].
      constructor; cbn; unfold is_deploy; intuition discriminate. }
    eexists. eexists. split; [vm_compute; reflexivity|].
    do 4 (split; [vm_compute; reflexivity|]). vm_compute. reflexivity.
  Qed.

  (** With a lowered fee the verdict on a deployment depends on whether the object at hand has been
      executed before: the producer refuses its own block, and other nodes accept it. *)
  Theorem c72_history_refuted : exists st b q,
    assemble low_gov simple true 100 1000000 [] [cheap 1] 300 = Done (st, b) /\
    k_fuel_fee b = 60014 /\ Forall2 same_tx (k_txs b) [cheap 1] /\
    connect_block low_gov simple true 100 [] b = Reject /\
    connect_block low_gov simple true 100 [] (mkBlock [cheap 1] (k_fuel_fee b) (k_reward b)) = Done ([1], q).
  Proof.
    eexists. eexists. eexists. split; [vm_compute; reflexivity|].
    split; [vm_compute; reflexivity|]. split; [vm_compute; repeat constructor|].
    split; vm_compute; reflexivity.
  Qed.
End FeeInstance.
Print Assumptions c71_uni_refuted.
Print Assumptions c71_low_fee_refuted.
Print Assumptions c71_early_refuted.
Print Assumptions c72_refuted.
Print Assumptions c72_history_refuted.
