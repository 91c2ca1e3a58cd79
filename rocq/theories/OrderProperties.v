(** The theorems about the ordered containers: C78 and C79. *)
From Coq Require Import String List Bool NArith ZArith Sorted Permutation.
From Verif Require Import Prelude DexModel SysParamModel OrderModel OrderSpec OrderProofs OrderCands.
Import ListNotations.
Open Scope N_scope.

(** A map of CDP parameters, whatever its rotations, and the node's caches over it: one cache over
    a database. *)
Notation param_key := ((string * string) * N)%type (only parsing).
Definition zero (v : N) : bool := v =? 0.
Definition param_run {C} (red : C) (rotate : tree param_key N C -> tree param_key N C)
  (d : param_key -> option N) (os : list (op param_key N)) :=
  run param_lt red rotate param_eqb param_empty zero (mkStack [Leaf] d) os.
Definition param_views (d : param_key -> option N) (os : list (op param_key N)) :=
  let w k := match d k with Some v => stored zero v | None => None end in
  vrun param_eqb zero [w; w] os.

(** C78. Whatever is done to the caches of CDP parameters, every reading gives what was stored last
    as the views say, as long as no two coin pairs in use cross. *)
Theorem c78_reads : forall C (red : C) rotate d os,
  (forall t, entries (rotate t) = entries t) ->
  (forall a b, In a (flat_map (@touches _ _) os) -> In b (flat_map (@touches _ _) os) ->
     ~ crossed (fst a) (fst b)) ->
  Forall (fun k => snd k <> 0) (flat_map (@touches _ _) os) ->
  lawful 1 os = true ->
  exists s, param_run red rotate d os = Done (param_views d os, s).
Proof.
  intros C red rotate d os Hr Ha Ht Hl.
  set (P := fun p => exists k, In k (flat_map (@touches param_key N) os) /\ fst k = p).
  assert (apart : forall a b, P a -> P b -> ~ crossed a b).
  { intros a b (x & Hx & <-) (y & Hy & <-). auto. }
  apply (@run_ok _ _ _ param_lt (in_pairs P)); auto.
  - exact (@param_irr P).
  - intros a b c. apply (param_tr apart).
  - exact (param_tot apart).
  - apply param_eqb_ok.
  - exact (@param_full P).
  - cbn. split; [split; constructor|]. unfold norm. split; auto.
  - apply Forall_forall. intros k Hk. rewrite Forall_forall in Ht. split; auto. exists k. auto.
Qed.
Print Assumptions c78_reads.

(** In particular when all pairs have the same second symbol. *)
Theorem c78_one_scoin : forall C (red : C) rotate d os scoin,
  (forall t, entries (rotate t) = entries t) ->
  Forall (fun k => snd k <> 0 /\ snd (fst k) = scoin) (flat_map (@touches _ _) os) ->
  lawful 1 os = true ->
  exists s, param_run red rotate d os = Done (param_views d os, s).
Proof.
  intros C red rotate d os sc Hr Ht Hl. rewrite Forall_forall in Ht. apply c78_reads; auto.
  - intros a b Ha Hb [[_ H]|[_ H]]; rewrite (proj2 (Ht _ Ha)), (proj2 (Ht _ Hb)), str_irr in H; discriminate.
  - apply Forall_forall. intros k Hk. apply Ht; auto.
Qed.
Print Assumptions c78_one_scoin.

(** The history of the interest parameters, sysparamdb.h:294, is kept in such a cache too. *)
Definition history := list (Z * (N * N)).
Definition no_history (h : history) : bool := match h with [] => true | _ => false end.
Theorem c78_history : forall C (red : C) rotate d os,
  (forall t, entries (rotate t) = entries t) ->
  (forall a b, In a (flat_map (@touches _ _) os) -> In b (flat_map (@touches _ _) os) -> ~ crossed a b) ->
  Forall (fun k => coins_empty k = false) (flat_map (@touches _ _) os) ->
  lawful 1 os = true ->
  let w k := match d k with Some v => stored no_history v | None => None end in
  exists s, run coins_lt red rotate coins_eqb coins_empty no_history (mkStack [Leaf] d) os =
    Done (vrun coins_eqb no_history [w; w] os, s).
Proof.
  intros C red rotate d os Hr Ha Ht Hl w.
  set (P := fun p => In p (flat_map (@touches (string * string) history) os)).
  assert (apart : forall a b, P a -> P b -> ~ crossed a b) by (unfold P; auto).
  rewrite Forall_forall in Ht.
  apply (@run_ok _ _ _ coins_lt P); auto.
  - intros a _. apply coins_irr.
  - intros a b c. apply (@coins_tr P apart).
  - intros a b _ _. apply coins_tot.
  - apply coins_eqb_ok.
  - cbn. split; [split; constructor|]. unfold norm. split; auto.
  - apply Forall_forall. auto.
Qed.
Print Assumptions c78_history.

Section Instance.
  Let wicc := ("WICC", "WUSD")%string.
  Let weth := ("WETH", "WUSD")%string.
  Let wbtc := ("WBTC", "WUSD")%string.
  (** Three pairs, a block on top of the node's cache, a block given up, a flush. *)
  Let os : list (op param_key N) :=
    [ OSet (wicc, 4) 20000; ONew; OSet (weth, 4) 30000; OGet (wicc, 4); OGet (wbtc, 4); OFlush; ODrop;
      ONew; OSet (wicc, 4) 25000; ODrop; OGet (wicc, 4); OFlush; OUndo (weth, 4) 0; OGet (weth, 4);
      OSet (wbtc, 7) 10500; OSet (wbtc, 7) 10600; OGet (wbtc, 7) ].
  Example c78_reads_case :
    exists s, param_run tt (fun t => t) (fun k => if param_eqb k (wbtc, 4) then Some 18000 else None) os =
      Done ([Some 20000; Some 18000; Some 20000; None; Some 10600], s).
  Proof.
    destruct (@c78_one_scoin unit tt (fun t => t)
      (fun k => if param_eqb k (wbtc, 4) then Some 18000 else None) os "WUSD") as (s & E).
    - reflexivity.
    - repeat constructor; discriminate.
    - reflexivity.
    - exists s. rewrite E. reflexivity.
  Qed.
  (** Pairs with two second symbols that do not cross. *)
  Example c78_pairs_case :
    exists s, param_run tt (fun t => t) (fun _ => None)
      [ OSet (("WETH", "WCNY")%string, 4) 1; OSet (wicc, 4) 2; OGet (("WETH", "WCNY")%string, 4) ] =
      Done ([Some 1], s).
  Proof.
    destruct (@c78_reads unit tt (fun t => t) (fun _ => None)
      [ OSet (("WETH", "WCNY")%string, 4) 1; OSet (wicc, 4) 2; OGet (("WETH", "WCNY")%string, 4) ])
      as (s & E).
    - reflexivity.
    - intros a b Ha Hb. cbn in Ha, Hb.
      destruct Ha as [<-|[<-|[<-|[]]]]; destruct Hb as [<-|[<-|[<-|[]]]];
        intros [[H1 H2]|[H1 H2]]; vm_compute in H1, H2; discriminate.
    - repeat constructor; discriminate.
    - reflexivity.
    - exists s. rewrite E. reflexivity.
  Qed.
  Example c78_history_case :
    exists s, run coins_lt tt (fun t => t) coins_eqb coins_empty no_history (mkStack [Leaf] (fun _ => None))
      [ OSet wicc [(5%Z, (2, 1))]; OSet weth [(6%Z, (3, 1))]; OGet wicc ] =
      Done ([Some [(5%Z, (2, 1))]], s).
  Proof.
    destruct (@c78_history unit tt (fun t => t) (fun _ => None)
      [ OSet wicc [(5%Z, (2, 1))]; OSet weth [(6%Z, (3, 1))]; OGet wicc ]) as (s & E).
    - reflexivity.
    - intros a b Ha Hb. cbn in Ha, Hb.
      destruct Ha as [<-|[<-|[<-|[]]]]; destruct Hb as [<-|[<-|[<-|[]]]];
        intros [[H1 H2]|[H1 H2]]; vm_compute in H1, H2; discriminate.
    - repeat constructor.
    - reflexivity.
    - exists s. rewrite E. reflexivity.
  Qed.
End Instance.

(** A proposal that changes CDP parameters is accepted for any pair of symbols: of two pairs for
    which nothing is stored it accepts the same values. *)
Theorem c78_any_pair : forall p a b l,
  (forall ty, get_cdp_param p a ty = get_cdp_param p b ty) ->
  check_cdp p a l = check_cdp p b l.
Proof.
  intros p a b l H. unfold check_cdp. f_equal. induction l as [|[ty v] l IH]; cbn [forallb]; auto.
  rewrite IH. f_equal. unfold check_cdp_item. rewrite !H. auto.
Qed.
Print Assumptions c78_any_pair.
Example c78_any_pair_case :
  let p := mkParams [] [(("WICC", "WUSD")%string, 4, 20000)] [] [] 0 (0, 0) 0 in
  check_cdp p ("WUSD", "WICC")%string [(4, 21000)] = true /\
  check_cdp p ("", "no such coin")%string [(4, 21000)] = true.
Proof. split; reflexivity. Qed.

(** C78 is false without the condition. Once parameters are set for a pair with its symbols the wrong
    way round, a value set afterwards for the right pair is not found ... *)
Definition right_key : param_key := (("WICC", "WUSD")%string, 4).
Definition wrong_key : param_key := (("WUSD", "WICC")%string, 4).
Theorem c78_lost_refuted : forall C (red : C) rotate, exists s,
  param_run red rotate (fun _ => None) [OSet wrong_key 20000; OSet right_key 21000; OGet right_key] =
    Done ([None], s) /\
  param_views (fun _ => None) [OSet wrong_key 20000; OSet right_key 21000; OGet right_key] = [Some 21000].
Proof. intros C red rotate. eexists. split; reflexivity. Qed.
Print Assumptions c78_lost_refuted.

(** ... but it is found by a node that wrote its cache to disk in between, as nodes do at moments of
    their own: two nodes with the same blocks use different parameters ... *)
Theorem c78_flush_refuted : forall C (red : C) rotate, exists s,
  param_run red rotate (fun _ => None)
    [OSet wrong_key 20000; OFlush; OSet right_key 21000; OGet right_key] = Done ([Some 21000], s).
Proof. intros C red rotate. eexists. reflexivity. Qed.
Print Assumptions c78_flush_refuted.

(** ... and a node with the right pair's value on disk gets an exception when it reads it for the
    second time. *)
Theorem c78_throw_refuted : forall C (red : C) rotate,
  let d k := if param_eqb k right_key then Some 21000 else None in
  (exists s, param_run red rotate d [OSet wrong_key 20000; OGet right_key] = Done ([Some 21000], s)) /\
  param_run red rotate d [OSet wrong_key 20000; OGet right_key; OGet right_key] = Abort.
Proof. intros C red rotate d. split; [eexists|]; vm_compute; reflexivity. Qed.
Print Assumptions c78_throw_refuted.

(** The same with a block's cache on top of the node's: the block that sets the right pair's value a
    second time fails when its cache is flushed. *)
Theorem c78_block_refuted : forall C (red : C) rotate,
  let block k v := [ONew; OSet k v; OFlush; ODrop] in
  (exists s, param_run red rotate (fun _ => None)
     (block wrong_key 20000 ++ block right_key 21000 ++ [OGet right_key]) = Done ([None], s)) /\
  param_run red rotate (fun _ => None)
    (block wrong_key 20000 ++ block right_key 21000 ++ block right_key 22000) = Abort.
Proof. intros C red rotate block. split; [eexists|]; vm_compute; reflexivity. Qed.
Print Assumptions c78_block_refuted.

(** C79. A block producer looks at every transaction of its pool once ... *)
Theorem c79_all : forall C (red : C) rotate l,
  (forall t, entries (rotate t) = entries t) -> by_hash l -> Forall sane l ->
  Permutation l (taken red rotate l).
Proof. intros C red rotate l Hr Hb Hs. apply (taken_ok C red rotate l Hr Hb Hs). Qed.
Print Assumptions c79_all.

(** ... the price feeds first, and then, as among the price feeds, in falling order of the fee for
    each byte that is left after the fuel. *)
Theorem c79_order : forall C (red : C) rotate l,
  (forall t, entries (rotate t) = entries t) -> by_hash l -> Forall sane l ->
  Forall (fun x => t_fuel x <= t_fee x) l ->
  StronglySorted may_precede (taken red rotate l).
Proof.
  intros C red rotate l Hr Hb Hs Hf. destruct (taken_ok C red rotate l Hr Hb Hs) as [P S].
  refine (sorted_impl (fun x => sane x /\ t_fuel x <= t_fee x) _ _ _ _ _ S).
  - apply Forall_forall. intros x Hx. apply (Permutation_in _ (Permutation_sym P)) in Hx.
    rewrite Forall_forall in Hs, Hf. auto.
  - intros x y [Hx Fx] [Hy Fy]. apply tl_precede; auto.
Qed.
Print Assumptions c79_order.

(** A block after the release of stable coins: the median of the prices comes after all price feeds
    and before all other transactions; the settlement of interest, though it is given the highest
    priority of plain transactions, comes after all of them that leave any fee. The others keep their
    sequence. *)
Theorem c79_block : forall C (red : C) rotate l m s,
  (forall t, entries (rotate t) = entries t) -> by_hash l -> Forall sane l ->
  (forall x, s = Some x -> ~ In (t_hash x) (map t_hash l)) ->
  exists a b z, taken red rotate l = a ++ b ++ z /\
    Forall (fun x => t_feed x = true) a /\ Forall (fun x => t_feed x = false) (b ++ z) /\
    Forall (fun x => t_fee x = t_fuel x) z /\
    looked_at red rotate l m s = a ++ m :: b ++ match s with Some x => [x] | None => [] end ++ z.
Proof. intros C red rotate l m s. apply collect_ok. Qed.
Print Assumptions c79_block.

Section InstanceTaken.
  Let a := mkPoolt 1000000 0 200 false 5.
  Let b := mkPoolt 3000000 100 200 false 7.
  Let c := mkPoolt 3000000 100 250 false 8.
  Let f := mkPoolt 10000 0 180 true 9.
  Let e := mkPoolt 1000000 0 200 false 11.
  Example c79_case :
    by_hash [a; b; c; f; e] /\ Forall sane [a; b; c; f; e] /\
    Forall (fun x => t_fuel x <= t_fee x) [a; b; c; f; e] /\
    taken tt (fun t => t) [a; b; c; f; e] = [f; b; c; e; a].
  Proof.
    split; [|split; [|split]].
    - repeat constructor.
    - repeat constructor.
    - repeat constructor; discriminate.
    - vm_compute. reflexivity.
  Qed.
  Let m := mkPoolt 0 0 60 false 3.
  Let s := mkPoolt 0 0 90 false 12.
  Let z := mkPoolt 700 700 100 false 6.
  Example c79_block_case :
    by_hash [a; z; b; c; f; e] /\ Forall sane [a; z; b; c; f; e] /\
    ~ In (t_hash s) (map t_hash [a; z; b; c; f; e]) /\
    looked_at tt (fun t => t) [a; z; b; c; f; e] m (Some s) = [f; m; b; c; e; a; s; z].
  Proof.
    split; [|split; [|split]].
    - repeat constructor.
    - repeat constructor.
    - cbn. intuition discriminate.
    - vm_compute. reflexivity.
  Qed.
End InstanceTaken.

(** Refuted when the fuel costs more than the fee, as it may once the fuel rate has risen: the
    transaction that pays nothing for its place is taken first. *)
Theorem c79_fuel_refuted : exists a b,
  sane a /\ sane b /\ by_hash [a; b] /\ (net a < 0)%Z /\ (0 < net b)%Z /\
  t_feed a = false /\ t_feed b = false /\
  forall C (red : C) rotate, taken red rotate [a; b] = [a; b].
Proof.
  exists (mkPoolt 100000 110000 300 false 1), (mkPoolt 100000000 100000 300 false 2).
  do 7 (split; [repeat constructor|]). intros C red rotate. vm_compute. reflexivity.
Qed.
Print Assumptions c79_fuel_refuted.

(** The comparison is no order: of two transactions each may be below the other, and then it is the
    sequence in which they are put into the set that decides. *)
Theorem c79_comparison_refuted : exists a b,
  sane a /\ sane b /\ t_fuel a <= t_fee a /\ t_fuel b <= t_fee b /\
  cand_lt (cand_of a) (cand_of b) = true /\ cand_lt (cand_of b) (cand_of a) = true /\
  forall C (red : C) rotate, taken red rotate [a; b] = [a; b] /\ taken red rotate [b; a] = [b; a].
Proof.
  exists (mkPoolt 3000000 100 200 false 5), (mkPoolt 1000000 0 200 false 7).
  do 4 (split; [repeat constructor; discriminate|]). do 2 (split; [vm_compute; reflexivity|]).
  intros C red rotate. split; vm_compute; reflexivity.
Qed.
Print Assumptions c79_comparison_refuted.
