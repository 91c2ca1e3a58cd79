(** Proofs about the books a contract keeps for its users (C81). *)
From Coq Require Import String List Bool NArith ZArith Lia.
From Coq Require Import ZifyBool ZifyNat ZifyN.
From Verif Require Import Prelude PreludeFacts AccountModel AccountSpec AccountProofs TxModel TxSpec
  TxProofs DexModel LuaModel LuaSpec LuaProofs LuaTx.
Import ListNotations.
Open Scope N_scope.
Ltac Zify.zify_post_hook ::= Z.div_mod_to_equations.

Lemma bytes_eqb_ok : forall a b, bytes_eqb a b = true <-> a = b.
Proof.
  induction a as [|x a IH]; intros [|y b]; simpl; split; intros H; try discriminate; auto.
  - apply andb_true_iff in H as [H1 H2]. apply N.eqb_eq in H1. apply IH in H2. congruence.
  - inversion H; subst. rewrite N.eqb_refl. simpl. now apply IH.
Qed.

Lemma u64_i64 n : n < two64 -> u64 (i64 n) = n.
Proof.
  intros H. unfold u64, i64. destruct (n <? 9223372036854775808) eqn:E.
  - rewrite Z.mod_small; unfold two64 in *; lia.
  - replace (Z.of_N n - Z.of_N two64)%Z with (Z.of_N n + (-1) * Z.of_N two64)%Z by lia.
    rewrite Z_mod_plus_full, Z.mod_small; unfold two64 in *; lia.
Qed.

Lemma u64_small z : (0 <= z < two63)%Z -> Z.of_N (u64 z) = z.
Proof. intros H. unfold u64. rewrite Z.mod_small; unfold two63, two64 in *; lia. Qed.

(** *** What single operations do to the total *)

Definition funds_sum (l : list fund) : N := nsum (map f_value l).

Lemma add_fund_sum : forall l f l', add_fund l f = Done l' -> funds_sum l' = funds_sum l + f_value f.
Proof.
  induction l as [|g l IH]; intros f l' H; simpl in H.
  - inversion H; subst. unfold funds_sum. simpl. lia.
  - destruct (same_fund g f).
    + unfold asserted, need, bind, safe_add in H. destruct (0 <? f_value f); [|discriminate].
      destruct (f_value f + f_value g <? two64); [|discriminate]. inversion H; subst.
      unfold funds_sum. simpl. lia.
    + destruct (add_fund l f) as [r| | |] eqn:E; try discriminate. cbn [bind] in H. inversion H; subst.
      apply IH in E. unfold funds_sum in *. simpl. lia.
Qed.

Lemma take_fund_sum : forall l f l', take_fund l f = Done l' -> funds_sum l' + f_value f = funds_sum l.
Proof.
  induction l as [|g l IH]; intros f l' H; simpl in H; [discriminate|].
  destruct (same_fund g f).
  - destruct (f_value f <=? f_value g) eqn:E1; [|discriminate].
    destruct (f_value g =? f_value f) eqn:E2; inversion H; subst; unfold funds_sum; simpl; lia.
  - destruct (take_fund l f) as [r| | |] eqn:E; try discriminate. cbn [bind] in H. inversion H; subst.
    apply IH in E. unfold funds_sum in *. simpl. lia.
Qed.

Definition udelta (o : appop) : Z :=
  if (o_type o =? 1) || (o_type o =? 3) then Z.of_N (u64 (o_money o))
  else if (o_type o =? 2) || (o_type o =? 4) then - Z.of_N (u64 (o_money o)) else 0%Z.
Definition sdelta (o : appop) : Z :=
  if (o_type o =? 1) || (o_type o =? 3) then o_money o
  else if (o_type o =? 2) || (o_type o =? 4) then - o_money o else 0%Z.

Lemma operate_app_worth a o a' : operate_app a o = Done a' ->
  Z.of_N (worth a') = (Z.of_N (worth a) + udelta o)%Z.
Proof.
  unfold operate_app, udelta, worth.
  destruct (o_type o) as [|[[[| |]|[| |]|]|[[| |]|[| |]|]|]] eqn:Et; try discriminate; cbn [N.eqb Pos.eqb orb].
  - destruct (max_tag <? o_taglen o); [discriminate|]. destruct (fund_of o) as [f| | |] eqn:Ef; try discriminate.
    cbn [bind]. destruct (add_fund (p_funds a) f) as [l| | |] eqn:E; try discriminate. cbn [bind].
    intros H; inversion H; subst. cbn [p_free p_funds]. apply add_fund_sum in E. unfold funds_sum in E.
    unfold fund_of, asserted, bind in Ef. destruct (0 <? o_height o); [|discriminate].
    destruct (o_taglen o <=? max_tag); [|discriminate]. inversion Ef; subst f. cbn [f_value] in E. lia.
  - destruct (max_tag <? o_taglen o); [discriminate|]. destruct (fund_of o) as [f| | |] eqn:Ef; try discriminate.
    cbn [bind]. unfold minus_fund. destruct (asserted _); try discriminate. cbn [bind].
    destruct (take_fund (p_funds a) f) as [l| | |] eqn:E; try discriminate. cbn [bind].
    intros H; inversion H; subst. cbn [p_free p_funds]. apply take_fund_sum in E. unfold funds_sum in E.
    unfold fund_of, asserted, bind in Ef. destruct (0 <? o_height o); [|discriminate].
    destruct (o_taglen o <=? max_tag); [|discriminate]. inversion Ef; subst f. cbn [f_value] in E. lia.
  - destruct (u64 (o_money o) <=? p_free a) eqn:E; [|discriminate]. intros H; inversion H; subst.
    cbn [p_free p_funds]. lia.
  - unfold need, safe_add, bind. destruct (p_free a + u64 (o_money o) <? two64); [|discriminate].
    intros H; inversion H; subst. cbn [p_free p_funds]. lia.
Qed.

Definition zsum (l : list Z) : Z := fold_right Z.add 0%Z l.

Lemma operate_list_worth : forall os a a', operate_list a os = Done a' ->
  Z.of_N (worth a') = (Z.of_N (worth a) + zsum (map udelta os))%Z.
Proof.
  induction os as [|o os IH]; intros a a' H; simpl in H.
  - inversion H; subst. simpl. lia.
  - destruct (operate_app a o) as [a1| | |] eqn:E; try discriminate. cbn [bind] in H.
    apply operate_app_worth in E. apply IH in H. simpl. lia.
Qed.

Lemma free_up_sum h : forall l f v, free_up h l f = (true, v) ->
  v + funds_sum (filter (fun x => negb (f_height x <=? h)%Z) l) = f + funds_sum l.
Proof.
  induction l as [|g l IH]; intros f v H; simpl in H.
  - inversion H; subst. simpl. lia.
  - cbn [filter]. unfold funds_sum in *. destruct (f_height g <=? h)%Z; cbn [negb].
    + unfold safe_add in H. destruct (f + f_value g <? two64); [|discriminate]. apply IH in H. simpl. lia.
    + apply IH in H. simpl in *. lia.
Qed.

Lemma auto_merge_worth h a a' : auto_merge h a = (true, a') -> worth a' = worth a.
Proof.
  unfold auto_merge. destruct (free_up h (p_funds a) (p_free a)) as [[|] v] eqn:E; intros H; inversion H; subst.
  apply free_up_sum in E. unfold worth. cbn [p_free p_funds]. exact E.
Qed.

(** Sums over the operations asked for. *)
Definition tot (f : appop -> Z) (m : list (list N * list appop)) : Z :=
  zsum (map (fun uo => zsum (map f (snd uo))) m).

Lemma zsum_app l1 l2 : zsum (l1 ++ l2) = (zsum l1 + zsum l2)%Z.
Proof. induction l1; simpl; lia. Qed.

Lemma tot_insert f : forall m u o, tot f (insert_op m u o) = (tot f m + f o)%Z.
Proof.
  induction m as [|[v os] m IH]; intros u o; cbn [insert_op].
  - unfold tot. simpl. lia.
  - destruct (bytes_eqb u v).
    + unfold tot. cbn [map snd]. rewrite map_app. unfold zsum. cbn [fold_right].
      change (fold_right Z.add 0%Z (map f os ++ map f [o])) with (zsum (map f os ++ map f [o])).
      rewrite zsum_app. unfold zsum. cbn [map fold_right]. lia.
    + destruct (bytes_ltb u v).
      * unfold tot, zsum. cbn [map snd fold_right]. lia.
      * specialize (IH u o). unfold tot, zsum in *. cbn [map snd fold_right]. lia.
Qed.

Lemma operate_user_owed e P u os P' :
  NoDup (map fst P) -> operate_user e P u os = Done P' ->
  NoDup (map fst P') /\ Z.of_N (owed P') = (Z.of_N (owed P) + zsum (map udelta os))%Z.
Proof.
  intros Nd H. unfold operate_user in H.
  assert (A : exists a, worth a = match fget bytes_eqb P u with Some x => worth x | None => 0 end /\
     match auto_merge (n_height e) a with
     | (false, _) => Reject
     | (true, a1) =>
         match operate_list a1 os with
         | Done a2 => Done (fput bytes_eqb P u a2)
         | Reject => if n_log e then do _ <- all_printed os; Reject else Reject
         | Abort => Abort
         | Undefined => Undefined
         end
     end = Done P').
  { destruct (fget bytes_eqb P u) as [a|] eqn:E.
    - destruct (auto_merge (n_height e) a) as [[|] a'] eqn:Em; [|discriminate]. cbn [bind] in H.
      exists a'. split; auto. eapply auto_merge_worth; eauto.
    - cbn [bind] in H. exists (mkApp 0 []). split; auto. }
  destruct A as (a & Wa & H1). clear H.
  destruct (auto_merge (n_height e) a) as [[|] a1] eqn:Em; [|discriminate].
  apply auto_merge_worth in Em.
  destruct (operate_list a1 os) as [a2| | |] eqn:El; try discriminate.
  - inversion H1; subst. split; [apply (nodup_put bytes_eqb bytes_eqb_ok); auto|].
    apply operate_list_worth in El.
    pose proof (msum_put bytes_eqb bytes_eqb_ok worth P u a2 Nd) as S. unfold fval in S. unfold owed.
    rewrite Em, Wa in El.
    destruct (fget bytes_eqb P u); lia.
  - destruct (n_log e); [|discriminate]. destruct (all_printed os); discriminate.
Qed.

Lemma operate_users_owed e : forall m P P',
  NoDup (map fst P) -> operate_users e P m = Done P' ->
  NoDup (map fst P') /\ Z.of_N (owed P') = (Z.of_N (owed P) + tot udelta m)%Z.
Proof.
  induction m as [|[u os] m IH]; intros P P' Nd H; cbn [operate_users] in H.
  - inversion H; subst. split; auto. unfold tot. simpl. lia.
  - destruct (operate_user e P u os) as [P1| | |] eqn:E; try discriminate. cbn [bind] in H.
    destruct (operate_user_owed _ _ _ _ _ Nd E) as [N1 O1].
    destruct (IH _ _ N1 H) as [N2 O2]. split; auto. unfold tot, zsum in *. cbn [map snd fold_right]. lia.
Qed.

(** *** The check *)
Definition sadd (o : appop) : Z := if (o_type o =? 1) || (o_type o =? 3) then o_money o else 0%Z.
Definition ssub (o : appop) : Z := if (o_type o =? 2) || (o_type o =? 4) then o_money o else 0%Z.

Lemma sum_list_ok : forall os a s a' s', sum_list os a s = Some (a', s') ->
  a' = (a + zsum (map sadd os))%Z /\ s' = (s + zsum (map ssub os))%Z.
Proof.
  induction os as [|o os IH]; intros a s a' s' H; cbn [sum_list] in H.
  - inversion H; subst. simpl. lia.
  - cbn [map zsum fold_right]. unfold sadd at 1, ssub at 1.
    destruct ((o_type o =? 1) || (o_type o =? 3)) eqn:E1.
    + unfold safe_int in H. destruct (_ && _); [|discriminate]. apply IH in H.
      replace ((o_type o =? 2) || (o_type o =? 4)) with false by lia. unfold zsum in *. lia.
    + destruct ((o_type o =? 2) || (o_type o =? 4)) eqn:E2.
      * unfold safe_int in H. destruct (_ && _); [|discriminate]. apply IH in H. unfold zsum in *. lia.
      * apply IH in H. unfold zsum in *. lia.
Qed.

Lemma sum_map_ok : forall m a s a' s', sum_map m a s = Some (a', s') ->
  a' = (a + tot sadd m)%Z /\ s' = (s + tot ssub m)%Z.
Proof.
  induction m as [|[u os] m IH]; intros a s a' s' H; cbn [sum_map] in H.
  - inversion H; subst. unfold tot. simpl. lia.
  - destruct (sum_list os a s) as [[a1 s1]|] eqn:E; [|discriminate].
    apply sum_list_ok in E as [E1 E2]. apply IH in H as [H1 H2].
    unfold tot in *. cbn [map snd zsum fold_right]. unfold zsum in *. lia.
Qed.

Lemma tot_sdelta m : tot sdelta m = (tot sadd m - tot ssub m)%Z.
Proof.
  assert (L : forall os, zsum (map sdelta os) = (zsum (map sadd os) - zsum (map ssub os))%Z).
  { induction os as [|o os IH]; [reflexivity|]. cbn [map zsum fold_right]. unfold zsum in *.
    assert (sdelta o = sadd o - ssub o)%Z by (unfold sdelta, sadd, ssub; destruct ((o_type o =? 1) || (o_type o =? 3)) eqn:E1, ((o_type o =? 2) || (o_type o =? 4)) eqn:E2; lia).
    lia. }
  induction m as [|[u os] m IH]; [reflexivity|]. unfold tot in *. cbn [map snd zsum fold_right].
  specialize (L os). unfold zsum in *. lia.
Qed.

Section LuaApps.
  Variable pk_keyid : N -> N.
  Variable addr_of : N -> list N.
  Variable key_of : list N -> N.
  Notation tinv := (tinv pk_keyid).
  Notation kept := (kept pk_keyid).

  Section Run.
  Variables sender contract : N.
  Variable e : lenv.
  Notation step := (step pk_keyid addr_of key_of sender contract e).
  Notation steps := (steps pk_keyid addr_of key_of sender contract e).

  Definition even (m : list (list N * list appop)) : Prop := tot sdelta m = tot udelta m.

  Lemma insert_pair_even m from recv h money tl tag (k : bool) :
    even m -> even (insert_pair m from recv h money tl tag (if k then 4 else 2) (if k then 3 else 1)).
  Proof.
    intros E. unfold even, insert_pair in *. rewrite !tot_insert, E. unfold sdelta, udelta.
    destruct k; cbn [o_type o_money N.eqb Pos.eqb orb]; lia.
  Qed.

  Lemma move_funds_even from recv : forall l m, even m -> even (move_funds m from recv l).
  Proof.
    induction l as [|f l IH]; intros m E; cbn [move_funds]; auto. apply IH.
    exact (insert_pair_even m from recv _ _ _ _ true E).
  Qed.

  Lemma step_even P v c b v' : ver_r2 <= n_ver e -> in_range c = true ->
    even (m_ops v) -> step P v c = Done (b, v') -> even (m_ops v').
  Proof.
    intros Hv Hr Ev H. unfold LuaModel.step in H. destruct c as [o|o|recv|recv h money tl tag|ts].
    - inversion H; subst; auto.
    - destruct (_ || _); [inversion H; subst; auto|].
      replace (ver_r2 <=? n_ver e) with true in H by (symmetry; apply N.leb_le; auto). cbn [andb] in H.
      destruct (o_money o <? 0)%Z eqn:E; [inversion H; subst; auto|].
      inversion H; subst. cbn [with_ops m_ops]. unfold even in *. rewrite !tot_insert, Ev.
      cbn [in_range] in Hr. unfold sdelta, udelta. rewrite u64_small by lia. reflexivity.
    - destruct (negb (_ =? 34)); [inversion H; subst; auto|].
      unfold asserted, bind in H. destruct (negb _); [|discriminate]. destruct (negb _); [|discriminate].
      destruct (bytes_eqb _ _); [inversion H; subst; auto|].
      destruct (key_of recv =? 0); [inversion H; subst; auto|].
      destruct (fget bytes_eqb P _); [|inversion H; subst; auto].
      destruct (auto_merge _ _) as [b1 a1]. inversion H; subst. cbn [with_ops m_ops].
      apply move_funds_even. destruct (0 <? p_free a1); auto.
      exact (insert_pair_even (m_ops v) _ recv _ _ _ _ false Ev).
    - destruct (negb (_ =? 34)); [inversion H; subst; auto|].
      unfold asserted, bind in H. destruct (negb _); [|discriminate].
      destruct (bytes_eqb _ _); [inversion H; subst; auto|].
      destruct (key_of recv =? 0); [inversion H; subst; auto|].
      destruct (money =? 0); [inversion H; subst; auto|].
      destruct (_ <? _)%Z; [inversion H; subst; auto|].
      destruct (tl <=? max_tag); [|discriminate]. inversion H; subst. cbn [with_ops m_ops].
      apply insert_pair_even; auto.
    - destruct (_ <? _); [discriminate|]. destruct (_ || _); [inversion H; subst; auto|].
      destruct (_ <? _); [inversion H; subst; auto|].
      destruct (transfer_all _ _ _ ts (m_tx v)) as [b' st] eqn:E. inversion H; subst; auto.
  Qed.

  Lemma steps_even P : ver_r2 <= n_ver e -> forall cs v v', forallb in_range cs = true ->
    even (m_ops v) -> steps P v cs = Done v' -> even (m_ops v').
  Proof.
    intros Hv. induction cs as [|c cs IH]; intros v v' Hr Ev H; cbn [LuaModel.steps] in H.
    - inversion H; subst; auto.
    - cbn [forallb] in Hr. apply andb_true_iff in Hr as [Hr1 Hr2].
      destruct (step P v c) as [[b v1]| | |] eqn:E; try discriminate. cbn [bind snd] in H.
      eapply IH; [exact Hr2| |exact H]. eapply step_even; eauto.
  Qed.

  Lemma paid_out_ok st : forall outs s r,
    Forall (out_ok contract st) outs -> paid_out contract st outs s = Some r ->
    r = s + nsum (map subtr outs).
  Proof.
    induction outs as [|o outs IH]; intros s r Hf H; cbn [paid_out] in H.
    - inversion H; subst. simpl. lia.
    - inversion Hf as [|? ? Ho Hf']; subst. cbn [map nsum fold_right]. fold (nsum (map subtr outs)).
      unfold subtr at 1. destruct Ho as [Eo|(Eo & Er & Ea)]; rewrite Eo in H |- *.
      + cbn [N.eqb Pos.eqb] in *. rewrite andb_false_r in H. apply IH in H; auto.
      + rewrite Ea in H. rewrite (proj2 (regid_eqb_ok _ _) eq_refl) in H. cbn [andb N.eqb Pos.eqb] in *.
        destruct (i64 (w_money o) <? 0)%Z; [discriminate|].
        unfold safe_add in H. destruct (_ <? two64); [|discriminate]. apply IH in H; auto. lia.
  Qed.

  Lemma execute_books P sc st st' P' :
    tinv st -> l_get (t_mem st) sender <> None -> l_get (t_mem st) contract <> None ->
    (forall s, supply (commit st) s < two64) -> NoDup (map fst P) ->
    s_check sc = true -> n_symbol e = WICC -> ver_r2 <= n_ver e -> n_amount e < 9223372036854775808 ->
    forallb in_range (s_calls sc) = true -> withdrawn (s_calls sc) < 9223372036854775808 ->
    execute_contract pk_keyid addr_of key_of sender contract e P sc st = Done (st', P') ->
    NoDup (map fst P') /\ owed P' + withdrawn (s_calls sc) = owed P + n_amount e.
  Proof.
    intros T Hs Hc Hb Nd Hk Hsy Hv Ha Hr Hw H. unfold execute_contract in H.
    destruct (steps P (mkVm st [] [] 0) (s_calls sc)) as [v| | |] eqn:E1; try discriminate.
    cbn [bind] in H. destruct (guard (s_ends sc)) as [[]| | |]; try discriminate. cbn [bind] in H.
    destruct (check_outs contract (m_tx v) (m_out v) 0 0) as [[]| | |] eqn:E2; try discriminate. cbn [bind] in H.
    destruct (operate_accounts pk_keyid sender contract e (m_out v) (m_tx v)) as [st2| | |] eqn:E3; try discriminate. cbn [bind] in H.
    rewrite Hk, Hsy, String.eqb_refl in H. cbn [andb negb orb] in H.
    destruct (check_app contract e st2 (m_out v) (m_ops v)) eqn:Ec; [|discriminate]. cbn [guard bind] in H.
    destruct (asserted _); try discriminate. cbn [bind] in H.
    destruct (operate_users e P (m_ops v)) as [P2| | |] eqn:E5; try discriminate. cbn [bind] in H.
    inversion H; subst st2 P2; clear H.
    destruct (steps_ok _ _ _ _ _ _ _ P (mkVm st [] [] 0) v T Hs Hc Hb E1) as (K1 & O1 & _ & _).
    cbn [m_tx m_out app] in *. destruct (check_outs_ok pk_keyid addr_of key_of _ _ _ _ _ E2) as (_ & A2 & _).
    assert (T1 : tinv (m_tx v)) by apply K1.
    destruct (operate_accounts_ok pk_keyid addr_of key_of _ _ _ _ _ _ T1 (kp_mem _ _ _ K1 _ Hc) A2 E3) as (K2 & _).
    assert (A3 : Forall (out_ok contract st') (m_out v)).
    { eapply Forall_impl; [|exact A2]. intros x Hx. eapply out_ok_kept; [exact K2| |exact Hx]. apply K1; auto. }
    assert (Ev : even (m_ops v)).
    { eapply steps_even; [exact Hv|exact Hr| |exact E1]. reflexivity. }
    destruct (operate_users_owed _ _ _ _ Nd E5) as [N5 O5]. split; auto.
    unfold check_app in Ec. destruct (sum_map (m_ops v) 0 0) as [[sa ss]|] eqn:Es; [|discriminate].
    apply sum_map_ok in Es as [Es1 Es2].
    destruct (safe_int (sa - ss)) as [d|] eqn:Ed; [|discriminate].
    destruct (paid_out contract st' (m_out v) 0) as [out|] eqn:Ep; [|discriminate].
    apply paid_out_ok in Ep; auto. rewrite O1, outs_subtr in Ep.
    unfold safe_int in Ed. destruct (_ && _); [|discriminate]. inversion Ed; subst d.
    unfold safe_int in Ec. destruct (_ && _)%Z; [|discriminate].
    unfold even in Ev. rewrite tot_sdelta in Ev.
    unfold i64 in Ec. replace (n_amount e <? 9223372036854775808) with true in Ec by (symmetry; apply N.ltb_lt; auto).
    replace (out <? 9223372036854775808) with true in Ec by (symmetry; apply N.ltb_lt; lia).
    apply Z.eqb_eq in Ec. lia.
  Qed.
  End Run.

  Lemma invoke_tx_run h idx e i sc P st st' P' :
    consistent pk_keyid (t_acc st) (t_reg st) -> NoDup (map fst (t_orders st)) ->
    (forall s, supply (t_acc st) s < two64) ->
    fget regid_eqb (t_reg st) (h, idx) = None ->
    invoke_tx pk_keyid addr_of key_of h idx e i sc P st = Done (st', P') ->
    exists k c st7 st8, tinv st7 /\ l_get (t_mem st7) k <> None /\ l_get (t_mem st7) c <> None /\
      (forall s, supply (commit st7) s < two64) /\
      execute_contract pk_keyid addr_of key_of k c e P sc st7 = Done (st8, P').
  Proof.
    intros Co No Hs Hfr H. unfold invoke_tx in H.
    destruct (open_tx pk_keyid h idx (i_uid i) (i_fee_symbol i) (i_fee i) st) as [[k st4]|] eqn:Eo; [|discriminate].
    cbn [need bind] in H.
    destruct (open_tx_ok pk_keyid addr_of key_of _ _ _ _ _ _ _ _ Co No Hs Hfr Eo) as (T4 & M4 & Dk & A4 & O4 & R4 & S4 & B4 & Z4).
    destruct (invoke_body pk_keyid addr_of key_of e i sc P k st4) as [[st5 P5]| | |] eqn:Eb; try discriminate.
    cbn [bind] in H. inversion H; subst st' P5; clear H. unfold invoke_body in Eb.
    destruct (get_account pk_keyid st4 (UReg (i_app i))) as [[c|] st6] eqn:Gc; [|discriminate].
    destruct (get_account_kept _ _ _ _ _ T4 Gc) as (K6 & V6 & M6 & D6).
    assert (T6 : tinv st6) by apply K6.
    assert (Mk6 : l_get (t_mem st6) k <> None) by (apply K6; auto).
    assert (Hb6 : forall s, supply (commit st6) s < two64).
    { intros s. rewrite (mv_supply _ _ _ _ _ V6). specialize (S4 s). specialize (Hs s). lia. }
    set (mv := if i_universal i || (0 <? n_amount e) then _ else _) in Eb.
    assert (X : forall st7, mv = (true, st7) -> kept st6 st7 /\ forall s, supply (commit st7) s = supply (commit st6) s).
    { intros st7. unfold mv. destruct (i_universal i || (0 <? n_amount e)) eqn:Eu.
      - intros Hm. assert (Ho : forall k0, Some c = Some k0 -> l_get (t_mem st6) k0 <> None) by (intros k0 E; inversion E; subst; auto).
        split; [exact (m_operate_kept _ _ _ _ _ _ _ _ _ T6 Mk6 Ho Hm)|].
        apply (m_operate_moved pk_keyid st6 k (n_symbol e) SubFree (n_amount e) (Some c) st7 T6 Mk6 Ho Hm
          eq_refl (fun _ => eq_refl) (Hb6 _)).
      - intros Hm; inversion Hm; subst st7. split; [apply kept_refl; auto|auto]. }
    destruct mv as [[|] st7]; [|discriminate]. destruct (X _ eq_refl) as (K7 & V7). clear X.
    destruct (execute_contract pk_keyid addr_of key_of k c e P sc st7) as [[st8 P8]| | |] eqn:Ex; try discriminate.
    cbn [bind] in Eb. exists k, c, st7, st8.
    split; [apply K7|]. split; [apply K7; auto|]. split; [apply K7; auto|]. split; [intros; rewrite V7; auto|].
    rewrite Ex. f_equal. f_equal.
    destruct (i_universal i && String.eqb (i_fee_symbol i) WUSD); [|congruence].
    destruct (get_account pk_keyid st8 (UReg (i_reserve i))) as [[f|] st9]; [|discriminate].
    destruct (m_operate st9 f WUSD AddFree (i_fuel i) None) as [[|] st10]; [congruence|discriminate].
  Qed.
End LuaApps.
