(** Proofs about the height a call sees (C83) and about lists of transfers (C84). *)
From Coq Require Import String List Bool NArith ZArith Lia.
From Coq Require Import ZifyBool ZifyNat ZifyN.
From Verif Require Import Prelude PreludeFacts AccountModel AccountSpec AccountProofs TxModel TxSpec
  TxProofs DexModel LuaModel LuaSpec LuaProofs LuaTx LuaApps.
Import ListNotations.
Open Scope N_scope.
Ltac Zify.zify_post_hook ::= Z.div_mod_to_equations.

(** *** The height of the active chain *)

Lemma free_up_tip t t' : forall l f,
  forallb (fun f => Bool.eqb (f_height f <=? t)%Z (f_height f <=? t')%Z) l = true ->
  free_up t l f = free_up t' l f /\
  filter (fun f => negb (f_height f <=? t)%Z) l = filter (fun f => negb (f_height f <=? t')%Z) l.
Proof.
  induction l as [|g l IH]; intros f H; [auto|]. cbn [forallb] in H. apply andb_true_iff in H as [H1 H2].
  apply eqb_prop in H1. cbn [free_up filter]. rewrite <- H1. split.
  - destruct (f_height g <=? t)%Z; [|apply IH; auto]. destruct (safe_add f (f_value g)); auto. apply IH; auto.
  - destruct (IH 0 H2) as [_ ->]. reflexivity.
Qed.

Lemma auto_merge_tip t t' a :
  forallb (fun f => Bool.eqb (f_height f <=? t)%Z (f_height f <=? t')%Z) (p_funds a) = true ->
  auto_merge t a = auto_merge t' a.
Proof.
  intros H. unfold auto_merge. destruct (free_up_tip t t' _ (p_free a) H) as [-> E].
  destruct (free_up t' (p_funds a) (p_free a)) as [[|] v]; auto. now rewrite E.
Qed.

Section LuaRun.
  Variable pk_keyid : N -> N.
  Variable addr_of : N -> list N.
  Variable key_of : list N -> N.
  Notation tinv := (tinv pk_keyid).
  Notation moved := (moved pk_keyid).
  Notation kept := (kept pk_keyid).

  Section Run.
  Variables sender contract : N.
  Variable e : lenv.

  Lemma step_tip t P v c : moves_all c = false \/ unmoved P (n_tip e) t = true ->
    step pk_keyid addr_of key_of sender contract (at_tip e t) P v c =
    step pk_keyid addr_of key_of sender contract e P v c.
  Proof.
    intros H. unfold LuaModel.step. destruct c as [o|o|recv|recv h money tl tag|ts]; try reflexivity.
    destruct H as [H|H]; [discriminate|].
    destruct (negb (_ =? 34)); [reflexivity|].
    destruct (asserted (negb (regid_empty (regid_at (m_tx v) contract)))); try reflexivity. cbn [bind].
    destruct (asserted (negb (regid_empty (regid_at (m_tx v) sender)))); try reflexivity. cbn [bind].
    destruct (bytes_eqb _ recv); [reflexivity|]. destruct (key_of recv =? 0); [reflexivity|].
    destruct (fget bytes_eqb P (send_key addr_of sender (m_tx v))) as [ac|] eqn:G; [|reflexivity].
    apply (fget_in bytes_eqb bytes_eqb_ok) in G. unfold unmoved in H. rewrite forallb_forall in H.
    specialize (H _ G). cbn [snd] in H. cbn [at_tip n_tip]. now rewrite (auto_merge_tip _ _ _ H).
  Qed.

  Lemma steps_tip t P : forall cs v, existsb moves_all cs = false \/ unmoved P (n_tip e) t = true ->
    steps pk_keyid addr_of key_of sender contract (at_tip e t) P v cs =
    steps pk_keyid addr_of key_of sender contract e P v cs.
  Proof.
    induction cs as [|c cs IH]; intros v H; [reflexivity|]. cbn [LuaModel.steps]. rewrite step_tip.
    - destruct (step pk_keyid addr_of key_of sender contract e P v c); try reflexivity. cbn [bind]. apply IH.
      destruct H as [H|H]; auto. cbn [existsb] in H. apply orb_false_iff in H. left; apply H.
    - destruct H as [H|H]; auto. cbn [existsb] in H. apply orb_false_iff in H. left; apply H.
  Qed.

  Lemma execute_tip t P sc st : existsb moves_all (s_calls sc) = false \/ unmoved P (n_tip e) t = true ->
    execute_contract pk_keyid addr_of key_of sender contract (at_tip e t) P sc st =
    execute_contract pk_keyid addr_of key_of sender contract e P sc st.
  Proof.
    intros H. unfold execute_contract. rewrite steps_tip by auto. reflexivity.
  Qed.

  (** *** Lists of transfers *)

  Notation net := (net pk_keyid).

  Definition netD (reg : list (regid * N)) (ts : list transfer) (k : N) (s : string) (b : bucket) : Z :=
    if bucket_eqb b BFree then net reg sender contract ts k s else 0%Z.

  Lemma net_app reg l1 l2 k s : net reg sender contract (l1 ++ l2) k s =
    (net reg sender contract l1 k s + net reg sender contract l2 k s)%Z.
  Proof.
    unfold LuaSpec.net. induction l1 as [|x l1 IH]; [reflexivity|]. cbn [app map fold_right]. rewrite IH. lia.
  Qed.

  Lemma transfer_all_net : forall ts st b st',
    tinv st -> l_get (t_mem st) sender <> None -> l_get (t_mem st) contract <> None ->
    (forall s, supply (commit st) s < two64) ->
    transfer_all pk_keyid sender contract ts st = (b, st') ->
    kept st st' /\ exists n, (n <= List.length ts)%nat /\ (b = true <-> n = List.length ts) /\
      moved st st' (netD (t_reg st) (firstn n ts)) 0.
  Proof.
    induction ts as [|t ts IH]; intros st b st' T Hs Hc Hb H; cbn [LuaModel.transfer_all] in H.
    - inversion H; subst. split; [apply kept_refl; auto|]. exists O. split; [auto|]. split; [tauto|].
      eapply moved_ext; [apply moved_refl; auto| |reflexivity]. intros. unfold netD, zero3. destruct (bucket_eqb _ _); reflexivity.
    - assert (Stop : forall st1, kept st st1 -> moved st st1 zero3 0 -> b = false ->
        kept st st1 /\ exists n, (n <= List.length (t :: ts))%nat /\ (b = true <-> n = List.length (t :: ts)) /\
          moved st st1 (netD (t_reg st) (firstn n (t :: ts))) 0).
      { intros st1 K M ->. split; auto. exists O. split; [lia|]. split; [split; discriminate|].
        eapply moved_ext; [exact M| |reflexivity]. intros. unfold netD, zero3. destruct (bucket_eqb _ _); reflexivity. }
      destruct (find_or_new pk_keyid sender contract st (y_to t)) as [[d st1]|] eqn:F.
      2: { inversion H; subst. apply Stop; [apply kept_refl|apply moved_refl|]; auto. }
      destruct (find_or_new_some _ _ _ _ _ _ _ T F) as (K1 & M1 & Hd & De).
      set (who := if y_contract t then contract else sender) in H.
      assert (T1 : tinv st1) by apply K1.
      assert (Hw : l_get (t_mem st1) who <> None) by (unfold who; destruct (y_contract t); apply K1; auto).
      assert (Ho : forall k, Some d = Some k -> l_get (t_mem st1) k <> None) by (intros k E; inversion E; subst; auto).
      destruct (m_operate st1 who (y_symbol t) SubFree (y_amount t) (Some d)) as [[|] st2] eqn:O.
      2: { inversion H; subst b st2. apply Stop; auto.
           - eapply kept_trans; [exact K1|]. exact (m_operate_kept _ _ _ _ _ _ _ _ _ T1 Hw Ho O).
           - eapply moved_trans; [exact M1 | exact (m_transfer_fails _ _ _ _ _ _ _ T1 Hw Hd O) | | reflexivity].
             intros; reflexivity. }
      pose proof (m_operate_kept _ _ _ _ _ _ _ _ _ T1 Hw Ho O) as K2.
      assert (M2 := m_operate_moved pk_keyid st1 who (y_symbol t) SubFree (y_amount t) (Some d) st2 T1 Hw Ho O
        eq_refl ltac:(reflexivity) ltac:(rewrite (mv_supply _ _ _ _ _ M1); auto)).
      pose proof (kept_trans _ _ _ _ K1 K2) as K12.
      pose proof (moved_trans _ _ _ _ _ _ _ _ _ _ M1 M2 (fun _ _ _ => eq_refl) eq_refl) as M12.
      destruct (IH st2 b st') as (K3 & n & Hn & Hbn & M3); auto; try (apply K12; auto).
      { intros s. rewrite (mv_supply _ _ _ _ _ M12). auto. }
      split; [eapply kept_trans; eauto|]. exists (S n). cbn [List.length firstn]. split; [lia|].
      split; [rewrite Hbn; lia|].
      eapply moved_trans; [exact M12|exact M3| |reflexivity].
      intros k s b0. cbn [credited debited]. unfold zero3, netD, at_place. rewrite (kp_reg _ _ _ K12).
      destruct (bucket_eqb b0 BFree); [|rewrite !andb_false_r; reflexivity]. rewrite !andb_true_r.
      unfold LuaSpec.net. cbn [map fold_right]. unfold net1 at 1. rewrite De, (String.eqb_sym s).
      fold who. destruct (String.eqb (y_symbol t) s); [|rewrite !andb_false_r; lia].
      rewrite !andb_true_r. destruct (k =? d), (k =? who); lia.
  Qed.

  Lemma step_net P v c b v' :
    tinv (m_tx v) -> l_get (t_mem (m_tx v)) sender <> None -> l_get (t_mem (m_tx v)) contract <> None ->
    (forall s, supply (commit (m_tx v)) s < two64) ->
    step pk_keyid addr_of key_of sender contract e P v c = Done (b, v') ->
    kept (m_tx v) (m_tx v') /\ m_count v <= m_count v' /\
    exists ts, (forall cs l, carried cs l -> carried (c :: cs) (ts ++ l)) /\
      (ts = [] \/ m_count v + N.of_nat (List.length ts) <= m_count v' /\ m_count v' <= max_output) /\
      moved (m_tx v) (m_tx v') (netD (t_reg (m_tx v)) ts) 0 /\
      match c with
      | TransferAccountAssets l => exists n, ts = firstn n l /\ (b = true -> ts = l) /\ (b = false -> List.length ts < List.length l \/ l = [])%nat
      | _ => ts = []
      end.
  Proof.
    intros T Hs Hc Hb H.
    assert (Same : forall c, m_tx v' = m_tx v -> m_count v <= m_count v' ->
      match c with TransferAccountAssets l => b = false | _ => True end ->
      kept (m_tx v) (m_tx v') /\ m_count v <= m_count v' /\
      exists ts, (forall cs l, carried cs l -> carried (c :: cs) (ts ++ l)) /\
      (ts = [] \/ m_count v + N.of_nat (List.length ts) <= m_count v' /\ m_count v' <= max_output) /\
      moved (m_tx v) (m_tx v') (netD (t_reg (m_tx v)) ts) 0 /\
      match c with
      | TransferAccountAssets l => exists n, ts = firstn n l /\ (b = true -> ts = l) /\ (b = false -> List.length ts < List.length l \/ l = [])%nat
      | _ => ts = []
      end).
    { intros c0 -> Hm Hc0. split; [apply kept_refl; auto|]. split; auto. exists [].
      split; [intros; now apply carried_other|]. split; auto. split.
      - eapply moved_ext; [apply moved_refl; auto| |reflexivity]. intros. unfold netD, zero3. destruct (bucket_eqb _ _); reflexivity.
      - destruct c0 as [| | | |l]; auto. exists O. subst b. split; auto. split; [discriminate|]. intros _. destruct l; simpl; [auto|left; lia]. }
    unfold LuaModel.step in H. destruct c as [o|o|recv|recv h money tl tag|ts].
    - inversion H; subst. apply Same; simpl; auto; lia.
    - destruct (_ || _); [inversion H; subst; apply Same; auto; lia|].
      destruct (_ && _); inversion H; subst; apply Same; simpl; auto; lia.
    - destruct (negb (_ =? 34)); [inversion H; subst; apply Same; auto; lia|].
      destruct (asserted _); try discriminate. cbn [bind] in H.
      destruct (asserted _); try discriminate. cbn [bind] in H.
      destruct (bytes_eqb _ _); [inversion H; subst; apply Same; auto; lia|].
      destruct (key_of recv =? 0); [inversion H; subst; apply Same; auto; lia|].
      destruct (fget bytes_eqb P _) as [ac|]; [|inversion H; subst; apply Same; auto; lia].
      destruct (auto_merge (n_tip e) ac) as [b1 a1]. inversion H; subst; apply Same; simpl; auto; lia.
    - destruct (negb (_ =? 34)); [inversion H; subst; apply Same; auto; lia|].
      destruct (asserted _); try discriminate. cbn [bind] in H.
      destruct (bytes_eqb _ _); [inversion H; subst; apply Same; auto; lia|].
      destruct (key_of recv =? 0); [inversion H; subst; apply Same; auto; lia|].
      destruct (money =? 0); [inversion H; subst; apply Same; auto; lia|].
      destruct (i32 h <? 0)%Z; [inversion H; subst; apply Same; auto; lia|].
      destruct (asserted _); try discriminate. cbn [bind] in H. inversion H; subst; apply Same; simpl; auto; lia.
    - destruct (n_ver e <? ver_r2); [discriminate|].
      destruct (_ || _); [inversion H; subst; apply Same; auto; lia|].
      match type of H with context [if ?x then _ else _] => destruct x eqn:El end;
        [inversion H; subst; apply Same; simpl; auto; lia|].
      destruct (transfer_all pk_keyid sender contract ts (m_tx v)) as [b' st] eqn:Et.
      inversion H; subst b' v'; clear H. cbn [m_tx m_count].
      destruct (transfer_all_net _ _ _ _ T Hs Hc Hb Et) as (K & n & Hn & Hbn & M).
      split; auto. split; [lia|]. exists (firstn n ts).
      split; [intros; now apply carried_part|]. split.
      { right. rewrite firstn_length. lia. }
      split; auto. exists n. split; auto. split.
      + intros Ht. apply Hbn in Ht. subst n. apply firstn_all.
      + intros Hf. left. rewrite firstn_length. assert (n <> List.length ts) by (intros E; apply Hbn in E; congruence). lia.
  Qed.

  Lemma steps_net P : forall cs v v',
    tinv (m_tx v) -> l_get (t_mem (m_tx v)) sender <> None -> l_get (t_mem (m_tx v)) contract <> None ->
    (forall s, supply (commit (m_tx v)) s < two64) ->
    steps pk_keyid addr_of key_of sender contract e P v cs = Done v' ->
    kept (m_tx v) (m_tx v') /\ m_count v <= m_count v' /\
    exists ts, carried cs ts /\ (ts = [] \/ m_count v + N.of_nat (List.length ts) <= max_output) /\
      moved (m_tx v) (m_tx v') (netD (t_reg (m_tx v)) ts) 0.
  Proof.
    induction cs as [|c cs IH]; intros v v' T Hs Hc Hb H; cbn [LuaModel.steps] in H.
    - inversion H; subst. split; [apply kept_refl; auto|]. split; [lia|]. exists []. split; [constructor|]. split; auto.
      eapply moved_ext; [apply moved_refl; auto| |reflexivity]. intros. unfold netD, zero3. destruct (bucket_eqb _ _); reflexivity.
    - destruct (step pk_keyid addr_of key_of sender contract e P v c) as [[b v1]| | |] eqn:E; try discriminate. cbn [bind snd] in H.
      destruct (step_net P v c b v1 T Hs Hc Hb E) as (K1 & Hm1 & ts1 & C1 & L1 & M1 & _).
      destruct (IH v1 v') as (K2 & Hm2 & ts2 & C2 & L2 & M2); auto; try (apply K1; auto).
      { intros s. rewrite (mv_supply _ _ _ _ _ M1). auto. }
      split; [eapply kept_trans; eauto|]. split; [lia|]. exists (ts1 ++ ts2). split; auto. split.
      { rewrite app_length. destruct L1 as [->|L1]; destruct L2 as [->|L2]; simpl; auto; right; simpl; lia. }
      eapply moved_trans; [exact M1|exact M2| |reflexivity].
      intros k s b0. unfold netD. rewrite (kp_reg _ _ _ K1). destruct (bucket_eqb _ _); [|reflexivity]. apply net_app.
  Qed.

  Lemma execute_net P sc st st' P' :
    tinv st -> l_get (t_mem st) sender <> None -> l_get (t_mem st) contract <> None ->
    (forall s, supply (commit st) s < two64) -> existsb writes (s_calls sc) = false ->
    execute_contract pk_keyid addr_of key_of sender contract e P sc st = Done (st', P') ->
    kept st st' /\ exists ts, carried (s_calls sc) ts /\ N.of_nat (List.length ts) <= max_output /\
      moved st st' (netD (t_reg st) ts) 0.
  Proof.
    intros T Hs Hc Hb Hw H. unfold execute_contract in H.
    destruct (steps pk_keyid addr_of key_of sender contract e P (mkVm st [] [] 0) (s_calls sc)) as [v| | |] eqn:E1; try discriminate.
    destruct (steps_net P _ (mkVm st [] [] 0) v T Hs Hc Hb E1) as (K & _ & ts & C & L & M).
    destruct (steps_ok _ _ _ _ _ _ _ P (mkVm st [] [] 0) v T Hs Hc Hb E1) as (_ & O & _).
    assert (O0 : m_out v = []).
    { rewrite O. cbn [m_out app]. clear - Hw. revert Hw. induction (s_calls sc) as [|c cs IH]; [reflexivity|].
      cbn [existsb]. intros Hx. apply orb_false_iff in Hx as [H1 H2]. unfold outs_of in *. cbn [flat_map].
      rewrite IH by auto. destruct c; try discriminate; reflexivity. }
    cbn [bind] in H. rewrite O0 in H. destruct (guard (s_ends sc)) as [[]| | |]; try discriminate. cbn [bind] in H.
    cbn [check_outs operate_accounts] in H. destruct (guard (0 =? 0)); try discriminate. cbn [bind] in H.
    destruct (guard _); try discriminate. cbn [bind] in H.
    destruct (asserted _); try discriminate. cbn [bind] in H.
    destruct (operate_users e P (m_ops v)) as [P2| | |]; try discriminate. cbn [bind] in H.
    inversion H; subst st' P2. split; auto. exists ts. split; auto. split; auto.
    destruct L as [->|L]; simpl in *; lia.
  Qed.
  End Run.

  Lemma invoke_tip h idx e t i sc P st :
    existsb moves_all (s_calls sc) = false \/ unmoved P (n_tip e) t = true ->
    invoke_tx pk_keyid addr_of key_of h idx (at_tip e t) i sc P st =
    invoke_tx pk_keyid addr_of key_of h idx e i sc P st.
  Proof.
    intros H. unfold invoke_tx. destruct (need _) as [[k st4]| | |]; try reflexivity. cbn [bind].
    assert (B : invoke_body pk_keyid addr_of key_of (at_tip e t) i sc P k st4 =
                invoke_body pk_keyid addr_of key_of e i sc P k st4); [|now rewrite B].
    unfold invoke_body. change (n_amount (at_tip e t)) with (n_amount e). change (n_symbol (at_tip e t)) with (n_symbol e).
    destruct (get_account pk_keyid st4 (UReg (i_app i))) as [[c|] st6]; [|reflexivity].
    match goal with |- context [if i_universal i || (0 <? n_amount e) then ?x else ?y] =>
      destruct (if i_universal i || (0 <? n_amount e) then x else y) as [[|] st7] end; [|reflexivity].
    now rewrite (execute_tip k c e t P sc st7 H).
  Qed.

  Lemma invoke_tx_net h idx e i sc P st st' P' :
    consistent pk_keyid (t_acc st) (t_reg st) -> NoDup (map fst (t_orders st)) ->
    l_get (t_acc st) 0 = None ->
    (forall s, supply (t_acc st) s < two64) ->
    fget regid_eqb (t_reg st) (h, idx) = None ->
    i_fuel i <= i_fee i ->
    existsb writes (s_calls sc) = false ->
    invoke_tx pk_keyid addr_of key_of h idx e i sc P st = Done (st', P') ->
    exists k c ts, denotes pk_keyid (t_reg st) (i_uid i) = Some k /\
      denotes pk_keyid (t_reg st') (UReg (i_app i)) = Some c /\
      carried (s_calls sc) ts /\ N.of_nat (List.length ts) <= 100 /\
      forall k0 s, k0 <> 0 -> Z.of_N (lbal (t_acc st') k0 s BFree) =
        (Z.of_N (lbal (t_acc st) k0 s BFree) + LuaSpec.net pk_keyid (t_reg st') k c ts k0 s
         - (if (k0 =? k)%N then Z.of_N (fee_in (i_fee_symbol i) (i_fee i) s) + Z.of_N (fee_in (n_symbol e) (n_amount e) s) else 0)
         + (if (k0 =? c)%N then Z.of_N (fee_in (n_symbol e) (n_amount e) s) else 0)
         + (match denotes pk_keyid (t_reg st') (UReg (i_reserve i)) with
            | Some f => if (k0 =? f)%N then Z.of_N (reserved i s) else 0
            | None => 0
            end))%Z.
  Proof.
    intros Co No Hz Hs Hfr Hfu Hwr H. unfold invoke_tx in H.
    destruct (open_tx pk_keyid h idx (i_uid i) (i_fee_symbol i) (i_fee i) st) as [[k st4]|] eqn:Eo; [|discriminate].
    cbn [need bind] in H.
    destruct (open_tx_ok pk_keyid addr_of key_of _ _ _ _ _ _ _ _ Co No Hs Hfr Eo) as (T4 & M4 & Dk & A4 & O4 & R4 & S4 & B4 & Z4).
    destruct (invoke_body pk_keyid addr_of key_of e i sc P k st4) as [[st5 P5]| | |] eqn:Eb; try discriminate.
    cbn [bind] in H. inversion H; subst st' P5; clear H. unfold invoke_body in Eb.
    destruct (get_account pk_keyid st4 (UReg (i_app i))) as [[c|] st6] eqn:Gc; [|discriminate].
    destruct (get_account_kept _ _ _ _ _ T4 Gc) as (K6 & V6 & M6 & D6).
    assert (T6 : tinv st6) by apply K6.
    assert (Mk6 : l_get (t_mem st6) k <> None) by (apply K6; auto).
    assert (Hb6 : forall s, supply (commit st6) s < two64).
    { intros s. rewrite (mv_supply _ _ _ _ _ V6). specialize (S4 s). specialize (Hs s). lia. }
    set (mv := if i_universal i || (0 <? n_amount e) then _ else _) in Eb.
    assert (X : forall st7, mv = (true, st7) -> kept st6 st7 /\ moved st6 st7
       (fun k0 s b => Z.of_N (at_place (Some (c, BFree)) (n_symbol e) (n_amount e) k0 s b)
                      - Z.of_N (at_place (Some (k, BFree)) (n_symbol e) (n_amount e) k0 s b))%Z 0).
    { intros st7. unfold mv. destruct (i_universal i || (0 <? n_amount e)) eqn:Eu.
      - intros Hm. assert (Ho : forall k0, Some c = Some k0 -> l_get (t_mem st6) k0 <> None) by (intros k0 E; inversion E; subst; auto).
        split; [exact (m_operate_kept _ _ _ _ _ _ _ _ _ T6 Mk6 Ho Hm)|].
        exact (m_operate_moved pk_keyid st6 k (n_symbol e) SubFree (n_amount e) (Some c) st7 T6 Mk6 Ho Hm
          eq_refl (fun _ => eq_refl) (Hb6 _)).
      - intros Hm; inversion Hm; subst st7. split; [apply kept_refl; auto|].
        eapply moved_ext; [apply moved_refl; auto| |reflexivity].
        apply orb_false_iff in Eu as [_ Eu]. assert (E0 : n_amount e = 0) by lia. rewrite E0.
        intros k0 s b. unfold zero3, at_place. repeat match goal with |- context [if ?b then _ else _] => destruct b end; lia. }
    destruct mv as [[|] st7]; [|discriminate]. destruct (X _ eq_refl) as (K7 & V7). clear X.
    assert (T7 : tinv st7) by apply K7.
    destruct (execute_contract pk_keyid addr_of key_of k c e P sc st7) as [[st8 P8]| | |] eqn:Ex; try discriminate.
    cbn [bind] in Eb.
    assert (Hb7 : forall s, supply (commit st7) s < two64) by (intros s; rewrite (mv_supply _ _ _ _ _ V7); auto).
    destruct (execute_net _ _ _ _ _ _ _ _ T7 (kp_mem _ _ _ K7 _ Mk6) (kp_mem _ _ _ K7 _ M6) Hb7 Hwr Ex)
      as (K8 & ts & C8 & L8 & V8).
    assert (T8 : tinv st8) by apply K8.
    assert (R5 : kept st8 st5 /\ forall k0 s, Z.of_N (lbal (commit st5) k0 s BFree) = (Z.of_N (lbal (commit st8) k0 s BFree) +
        match denotes pk_keyid (t_reg st8) (UReg (i_reserve i)) with
        | Some f => if (k0 =? f)%N then Z.of_N (reserved i s) else 0
        | None => 0
        end)%Z).
    { destruct (i_universal i && String.eqb (i_fee_symbol i) WUSD) eqn:Eu.
      - destruct (get_account pk_keyid st8 (UReg (i_reserve i))) as [[f|] st9] eqn:Gf; [|discriminate].
        destruct (get_account_kept _ _ _ _ _ T8 Gf) as (K9 & V9 & M9 & D9).
        assert (T9 : tinv st9) by apply K9.
        destruct (m_operate st9 f WUSD AddFree (i_fuel i) None) as [[|] st10] eqn:Em; [|discriminate].
        inversion Eb; subst st10 P8; clear Eb.
        assert (HN : forall k0 : N, None = Some k0 -> l_get (t_mem st9) k0 <> None) by discriminate.
        pose proof (m_operate_kept _ _ _ _ _ _ _ _ _ T9 M9 HN Em) as K10.
        apply andb_true_iff in Eu as [Eu1 Eu2].
        destruct (m_operate_delta pk_keyid st9 f WUSD AddFree (i_fuel i) None st5 T9 M9 HN Em) as (_ & _ & _ & _ & _ & S10 & B10).
        { rewrite (mv_supply _ _ _ _ _ V9), (mv_supply _ _ _ _ _ V8), (mv_supply _ _ _ _ _ V7), (mv_supply _ _ _ _ _ V6).
          specialize (S4 WUSD). specialize (Hs WUSD).
          unfold fee_in in S4. rewrite Eu2 in S4. unfold mint_of. cbn [q_op q_other q_symbol q_amount].
          rewrite String.eqb_refl. clear - S4 Hs Hfu. lia. }
        split; [eapply kept_trans; eauto|]. intros k0 s. rewrite B10, (mv_bal _ _ _ _ _ V9), D9.
        cbn [debited credited]. rewrite at_none. unfold zero3, at_place, reserved. change "WUSD"%string with WUSD.
        rewrite Eu1, Eu2. cbn [andb bucket_eqb]. rewrite andb_true_r.
        destruct (k0 =? f), (String.eqb s WUSD); cbn [andb]; lia.
      - inversion Eb; subst st8 P8. split; [apply kept_refl; auto|]. intros k0 s. unfold reserved.
        change "WUSD"%string with WUSD. rewrite Eu. cbn [andb].
        match goal with |- context [match ?x with Some _ => _ | None => _ end] => destruct x as [f|] end;
          [destruct (k0 =? f)|]; lia. }
    destruct R5 as (K5 & B5).
    pose proof (kept_trans _ _ _ _ K6 K7) as K67. pose proof (kept_trans _ _ _ _ K67 K8) as K68.
    pose proof (kept_trans _ _ _ _ K68 K5) as K65.
    assert (T5 : tinv st5) by apply K5.
    assert (Hz5 : l_get (t_acc st5) 0 = None) by (rewrite (kp_acc _ _ _ K65), A4; auto).
    destruct (close_tx_ok pk_keyid addr_of key_of st5 T5 Hz5) as (C1 & C2 & C3 & C4 & C5 & C6 & C7). cbv zeta in *.
    set (st' := close_tx st5) in *.
    assert (Rg : forall u, denotes pk_keyid (t_reg st') u = denotes pk_keyid (t_reg st4) u).
    { intros [r|k0|p|]; cbn [denotes]; auto. rewrite C3. now rewrite (kp_reg _ _ _ K65). }
    assert (Rg8 : t_reg st8 = t_reg st4) by apply K68. assert (Rg7 : t_reg st7 = t_reg st4) by apply K67.
    assert (Nt : forall k0 s, LuaSpec.net pk_keyid (t_reg st') k c ts k0 s = LuaSpec.net pk_keyid (t_reg st4) k c ts k0 s).
    { intros k0 s. unfold LuaSpec.net. f_equal. apply map_ext. intros t. unfold net1. now rewrite Rg. }
    exists k, c, ts. split; auto. split; [rewrite Rg; exact D6|]. split; auto. split; [exact L8|].
    intros k0 s Hn. rewrite C5. replace (k0 =? 0) with false by (symmetry; apply N.eqb_neq; auto).
    rewrite B5, (mv_bal _ _ _ _ _ V8), (mv_bal _ _ _ _ _ V7), (mv_bal _ _ _ _ _ V6), B4.
    rewrite Rg8, Rg7, Rg, Nt. unfold zero3, netD, at_place, fee_in. cbn [bucket_eqb]. rewrite !andb_true_r.
    rewrite (String.eqb_sym s (i_fee_symbol i)), (String.eqb_sym s (n_symbol e)).
    destruct (k0 =? k), (k0 =? c), (String.eqb (i_fee_symbol i) s), (String.eqb (n_symbol e) s); cbn [andb]; lia.
  Qed.
End LuaRun.
