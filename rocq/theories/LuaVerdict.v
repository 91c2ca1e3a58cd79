(** Proofs that a call of a contract always comes to a verdict (C82). *)
From Coq Require Import String List Bool NArith ZArith Lia.
From Coq Require Import ZifyBool ZifyNat ZifyN.
From Verif Require Import Prelude PreludeFacts AccountModel AccountSpec AccountProofs TxModel TxSpec
  TxProofs DexModel LuaModel LuaSpec LuaProofs LuaTx LuaApps.
Import ListNotations.
Open Scope N_scope.
Ltac Zify.zify_post_hook ::= Z.div_mod_to_equations.

Definition fine {A} (x : outcome A) : Prop := x <> Abort /\ x <> Undefined.

Lemma fine_done {A} (a : A) : fine (Done a).
Proof. split; discriminate. Qed.
Lemma fine_reject {A} : fine (@Reject A).
Proof. split; discriminate. Qed.
Lemma fine_bind {A B} (x : outcome A) (f : A -> outcome B) :
  fine x -> (forall a, x = Done a -> fine (f a)) -> fine (bind x f).
Proof.
  intros [H1 H2] H. destruct x; cbn [bind].
  - apply H; auto.
  - apply fine_reject.
  - congruence.
  - congruence.
Qed.
Lemma fine_need {A} (x : option A) : fine (need x).
Proof. destruct x; [apply fine_done|apply fine_reject]. Qed.
Lemma fine_guard b : fine (guard b).
Proof. destruct b; [apply fine_done|apply fine_reject]. Qed.

(** *** The books *)

Lemma add_fund_fine : forall l f, sound_fund f = true -> forallb sound_fund l = true ->
  fine (add_fund l f) /\ (forall l', add_fund l f = Done l' -> forallb sound_fund l' = true).
Proof.
  induction l as [|g l IH]; intros f Hf Hl; cbn [add_fund].
  - split; [apply fine_done|]. intros l' H; inversion H; subst. cbn [forallb]. now rewrite Hf.
  - cbn [forallb] in Hl. apply andb_true_iff in Hl as [Hg Hl].
    destruct (same_fund g f).
    + unfold sound_fund in Hf, Hg. assert (E : 0 <? f_value f = true) by lia. rewrite E. cbn [asserted bind].
      split. { apply fine_bind; [apply fine_need|]. intros. apply fine_done. }
      intros l' H. unfold need, safe_add, bind in H.
      match type of H with context [if ?x then Some _ else _] => destruct x eqn:E2 end; [|discriminate].
      inversion H; subst. cbn [forallb]. rewrite Hl, andb_true_r. unfold sound_fund. cbn [f_value f_height f_tag]. lia.
    + destruct (IH f Hf Hl) as [I1 I2]. split.
      * apply fine_bind; auto. intros. apply fine_done.
      * intros l' H. destruct (add_fund l f) as [r| | |]; try discriminate. cbn [bind] in H. inversion H; subst.
        cbn [forallb]. rewrite Hg. apply I2; auto.
Qed.

Lemma take_fund_fine : forall l f, sound_fund f = true -> forallb sound_fund l = true ->
  fine (take_fund l f) /\ (forall l', take_fund l f = Done l' -> forallb sound_fund l' = true).
Proof.
  induction l as [|g l IH]; intros f Hf Hl; cbn [take_fund].
  - split; [apply fine_reject|discriminate].
  - cbn [forallb] in Hl. apply andb_true_iff in Hl as [Hg Hl].
    destruct (same_fund g f).
    + destruct (f_value f <=? f_value g) eqn:E1; [|split; [apply fine_reject|discriminate]].
      destruct (f_value g =? f_value f) eqn:E2; (split; [apply fine_done|]); intros l' H; inversion H; subst; auto.
      cbn [forallb]. rewrite Hl, andb_true_r. unfold sound_fund in *. cbn [f_value f_height f_tag]. lia.
    + destruct (IH f Hf Hl) as [I1 I2]. split.
      * apply fine_bind; auto. intros. apply fine_done.
      * intros l' H. destruct (take_fund l f) as [r| | |]; try discriminate. cbn [bind] in H. inversion H; subst.
        cbn [forallb]. rewrite Hg. apply I2; auto.
Qed.

Lemma u64_range z : u64 z < two64.
Proof. unfold u64. pose proof (Z.mod_pos_bound z (Z.of_N two64) ltac:(reflexivity)). lia. Qed.

Lemma u64_pos z : z <> 0%Z -> (- two63 <= z < two63)%Z -> 0 < u64 z.
Proof.
  intros Hn Hr. unfold u64. destruct (Z_lt_le_dec z 0).
  - replace z with ((z + Z.of_N two64) + (-1) * Z.of_N two64)%Z by lia.
    rewrite Z_mod_plus_full, Z.mod_small; unfold two63, two64 in *; lia.
  - rewrite Z.mod_small; unfold two63, two64 in *; lia.
Qed.

Lemma fund_of_fine o : plain_op o = true -> (o_type o =? 3) || (o_type o =? 4) = true ->
  exists f, fund_of o = Done f /\ sound_fund f = true.
Proof.
  intros H Ht. unfold plain_op in H. rewrite Ht in H.
  repeat (apply andb_true_iff in H as [H ?]). unfold fund_of, asserted, bind.
  assert (P : 0 < u64 (o_money o)) by (apply u64_pos; lia). pose proof (u64_range (o_money o)) as R.
  assert (E1 : 0 <? o_height o = true) by lia. assert (E2 : o_taglen o <=? max_tag = true) by (unfold max_tag; lia).
  rewrite E1, E2. eexists. split; [reflexivity|]. unfold sound_fund. cbn [f_value f_height f_tag].
  unfold i32. replace (o_height o <? 2147483648) with true by lia. lia.
Qed.

Lemma operate_app_fine a o : sound_record a = true -> plain_op o = true ->
  fine (operate_app a o) /\ (forall a', operate_app a o = Done a' -> sound_record a' = true).
Proof.
  intros Ha Ho. unfold sound_record in *. apply andb_true_iff in Ha as [Hfr Hl].
  assert (Tl : (max_tag <? o_taglen o) = false) by (unfold plain_op in Ho; unfold max_tag; lia).
  unfold operate_app.
  destruct (o_type o) as [|[[[| |]|[| |]|]|[[| |]|[| |]|]|]] eqn:Et;
    try (split; [apply fine_reject|discriminate]).
  - rewrite Tl. destruct (fund_of_fine o Ho) as (f & Ef & Sf); [now rewrite Et|]. rewrite Ef. cbn [bind].
    destruct (add_fund_fine (p_funds a) f Sf Hl) as [A1 A2]. split.
    + apply fine_bind; auto. intros. apply fine_done.
    + intros a' H. destruct (add_fund (p_funds a) f) as [l| | |]; try discriminate. cbn [bind] in H.
      inversion H; subst. cbn [p_free p_funds]. rewrite Hfr. apply A2; auto.
  - rewrite Tl. destruct (fund_of_fine o Ho) as (f & Ef & Sf); [now rewrite Et|]. rewrite Ef. cbn [bind].
    unfold minus_fund. assert (E : (0 <? f_height f)%Z = true) by (unfold sound_fund in Sf; lia).
    rewrite E. cbn [asserted bind]. destruct (take_fund_fine (p_funds a) f Sf Hl) as [A1 A2]. split.
    + apply fine_bind; auto. intros. apply fine_done.
    + intros a' H. destruct (take_fund (p_funds a) f) as [l| | |]; try discriminate. cbn [bind] in H.
      inversion H; subst. cbn [p_free p_funds]. rewrite Hfr. apply A2; auto.
  - destruct (u64 (o_money o) <=? p_free a) eqn:E; [|split; [apply fine_reject|discriminate]].
    split; [apply fine_done|]. intros a' H; inversion H; subst. cbn [p_free p_funds]. rewrite Hl. lia.
  - split. { apply fine_bind; [apply fine_need|intros; apply fine_done]. }
    intros a' H. unfold need, safe_add, bind in H.
    match type of H with context [if ?x then Some _ else _] => destruct x eqn:E end; [|discriminate]. inversion H; subst. cbn [p_free p_funds]. now rewrite Hl, E.
Qed.

Lemma operate_list_fine : forall os a, sound_record a = true -> forallb plain_op os = true ->
  fine (operate_list a os) /\ (forall a', operate_list a os = Done a' -> sound_record a' = true).
Proof.
  induction os as [|o os IH]; intros a Ha Ho; cbn [operate_list].
  - split; [apply fine_done|]. intros a' H; inversion H; subst; auto.
  - cbn [forallb] in Ho. apply andb_true_iff in Ho as [Ho1 Ho2].
    destruct (operate_app_fine a o Ha Ho1) as [A1 A2]. split.
    + apply fine_bind; auto. intros a1 E. apply IH; auto.
    + intros a' H. destruct (operate_app a o) as [a1| | |] eqn:E; try discriminate. cbn [bind] in H.
      eapply IH; [| |exact H]; auto.
Qed.

Lemma all_printed_fine : forall os, forallb plain_op os = true -> fine (all_printed os).
Proof.
  induction os as [|o os IH]; intros Ho; cbn [all_printed]; [apply fine_done|].
  cbn [forallb] in Ho. apply andb_true_iff in Ho as [Ho1 Ho2]. unfold plain_op in Ho1.
  unfold printed. assert (E1 : o_taglen o <=? max_tag = true) by (unfold max_tag; lia).
  assert (E2 : o_type o <=? 4 = true) by lia. rewrite E1, E2. cbn [asserted bind]. auto.
Qed.

Lemma free_up_range h : forall l f b v, f < two64 -> free_up h l f = (b, v) -> v < two64.
Proof.
  induction l as [|g l IH]; intros f b v Hf H; cbn [free_up] in H.
  - inversion H; subst; auto.
  - destruct (f_height g <=? h)%Z; [|eauto]. unfold safe_add in H.
    destruct (f + f_value g <? two64) eqn:E; [|inversion H; subst; auto]. eapply IH; [|exact H]. lia.
Qed.

Lemma auto_merge_sound h a b a' : sound_record a = true -> auto_merge h a = (b, a') -> sound_record a' = true.
Proof.
  intros Ha H. unfold auto_merge in H. unfold sound_record in *. apply andb_true_iff in Ha as [Hf Hl].
  destruct (free_up h (p_funds a) (p_free a)) as [[|] v] eqn:E; apply free_up_range in E; try lia;
    inversion H; subst; cbn [p_free p_funds].
  - assert (X : v <? two64 = true) by lia. rewrite X. cbn [andb]. rewrite forallb_forall in *.
    intros x Hx. apply filter_In in Hx as [Hx _]. auto.
  - assert (X : v <? two64 = true) by lia. now rewrite X, Hl.
Qed.

Lemma sound_get P u a : sound P = true -> fget bytes_eqb P u = Some a -> sound_record a = true.
Proof.
  intros H G. apply (fget_in bytes_eqb bytes_eqb_ok) in G. unfold sound in H. rewrite forallb_forall in H.
  apply (H _ G).
Qed.

Lemma sound_put P u a : sound P = true -> sound_record a = true -> sound (fput bytes_eqb P u a) = true.
Proof.
  intros H Ha. induction P as [|[v b] P IH]; cbn [fput].
  - unfold sound. cbn [forallb snd]. now rewrite Ha.
  - unfold sound in H. cbn [forallb snd] in H. apply andb_true_iff in H as [Hb HP].
    destruct (bytes_eqb u v); unfold sound; cbn [forallb snd].
    + now rewrite Ha.
    + rewrite Hb. apply IH. exact HP.
Qed.

Definition plain_map (m : list (list N * list appop)) : bool :=
  forallb (fun uo => forallb plain_op (snd uo)) m.

Lemma operate_user_fine e P u os : sound P = true -> forallb plain_op os = true ->
  fine (operate_user e P u os) /\ (forall P', operate_user e P u os = Done P' -> sound P' = true).
Proof.
  intros HP Ho.
  assert (R : forall a, sound_record a = true ->
    let r := match auto_merge (n_height e) a with
     | (false, _) => Reject
     | (true, a1) =>
         match operate_list a1 os with
         | Done a2 => Done (fput bytes_eqb P u a2)
         | Reject => if n_log e then do _ <- all_printed os; Reject else Reject
         | Abort => Abort
         | Undefined => Undefined
         end
     end in fine r /\ forall P', r = Done P' -> sound P' = true).
  { intros a Ha. cbv zeta. destruct (auto_merge (n_height e) a) as [[|] a1] eqn:E;
      [|split; [apply fine_reject|discriminate]].
    pose proof (auto_merge_sound _ _ _ _ Ha E) as Ha1.
    destruct (operate_list_fine os a1 Ha1 Ho) as [[A1 A2] A3].
    destruct (operate_list a1 os) as [a2| | |] eqn:El; try congruence.
    - split; [apply fine_done|]. intros P' H; inversion H; subst. apply sound_put; auto.
    - destruct (n_log e); [|split; [apply fine_reject|discriminate]]. split.
      + apply fine_bind; [apply all_printed_fine; auto|intros; apply fine_reject].
      + intros P' H. destruct (all_printed os); discriminate. }
  unfold operate_user. destruct (fget bytes_eqb P u) as [a|] eqn:G.
  - pose proof (sound_get _ _ _ HP G) as Ha. destruct (auto_merge (n_height e) a) as [[|] a'] eqn:E.
    + cbn [bind]. apply R. eapply auto_merge_sound; eauto.
    + cbn [bind]. split; [apply fine_reject|discriminate].
  - cbn [bind]. apply R. reflexivity.
Qed.

Lemma operate_users_fine e : forall m P, sound P = true -> plain_map m = true ->
  fine (operate_users e P m) /\ (forall P', operate_users e P m = Done P' -> sound P' = true).
Proof.
  induction m as [|[u os] m IH]; intros P HP Hm; cbn [operate_users].
  - split; [apply fine_done|]. intros P' H; inversion H; subst; auto.
  - unfold plain_map in Hm. cbn [forallb snd] in Hm. apply andb_true_iff in Hm as [H1 H2].
    destruct (operate_user_fine e P u os HP H1) as [A1 A2]. split.
    + apply fine_bind; auto. intros P1 E. apply IH; auto.
    + intros P' H. destruct (operate_user e P u os) as [P1| | |] eqn:E; try discriminate. cbn [bind] in H.
      eapply IH; [| |exact H]; auto.
Qed.

Lemma insert_plain : forall m u o, plain_map m = true -> plain_op o = true -> plain_map (insert_op m u o) = true.
Proof.
  induction m as [|[v os] m IH]; intros u o Hm Ho; cbn [insert_op].
  - unfold plain_map. cbn [forallb snd]. now rewrite Ho.
  - unfold plain_map in Hm. cbn [forallb snd] in Hm. apply andb_true_iff in Hm as [H1 H2].
    destruct (bytes_eqb u v).
    + unfold plain_map. cbn [forallb snd]. rewrite forallb_app. cbn [forallb]. now rewrite H1, Ho.
    + destruct (bytes_ltb u v); unfold plain_map; cbn [forallb snd].
      * now rewrite Ho, H1.
      * rewrite H1. apply IH; auto.
Qed.

Lemma i64_range n : n < two64 -> (- two63 <= i64 n < two63)%Z.
Proof. unfold i64, two63, two64. destruct (n <? 9223372036854775808) eqn:E; lia. Qed.
Lemma i64_nonzero n : n < two64 -> n <> 0 -> i64 n <> 0%Z.
Proof. unfold i64, two64. destruct (n <? 9223372036854775808) eqn:E; lia. Qed.

Section LuaVerdict.
  Variable pk_keyid : N -> N.
  Variable addr_of : N -> list N.
  Variable key_of : list N -> N.
  Notation tinv := (tinv pk_keyid).
  Notation kept := (kept pk_keyid).

  Section Run.
  Variables sender contract : N.
  Variable e : lenv.
  Notation step := (step pk_keyid addr_of key_of sender contract e).
  Notation steps := (steps pk_keyid addr_of key_of sender contract e).

  Lemma pair_plain m from recv h money tl tag (k : bool) :
    plain_map m = true -> tl <= 40 -> (N.of_nat (List.length tag) <= 40) ->
    (k = true -> 0 < h /\ h < 2147483648 /\ money <> 0%Z /\ (- two63 <= money < two63)%Z) ->
    plain_map (insert_pair m from recv h money tl tag (if k then 4 else 2) (if k then 3 else 1)) = true.
  Proof.
    intros Hm H1 H2 H3. unfold insert_pair.
    assert (X : forall ty u, (ty = if k then 4 else 2) \/ (ty = if k then 3 else 1) ->
                plain_op (mkOp ty h money u tl tag) = true).
    { intros ty u Hty. unfold plain_op. cbn [o_type o_taglen o_tag o_height o_money].
      destruct k; [destruct (H3 eq_refl) as (A & B & C & D)|]; destruct Hty; subst ty; cbn [N.leb N.eqb Pos.eqb orb andb];
        try lia. }
    apply insert_plain; [apply insert_plain|]; auto.
  Qed.

  Lemma u32_pos h : (0 < h < 2147483648)%Z -> u32 h < 2147483648 /\ 0 < u32 h.
  Proof. intros H. unfold u32. rewrite Z.mod_small; lia. Qed.

  Lemma move_funds_plain from recv : forall l m,
    forallb sound_fund l = true -> plain_map m = true -> plain_map (move_funds m from recv l) = true.
  Proof.
    induction l as [|f l IH]; intros m Hl Hm; cbn [move_funds]; auto.
    cbn [forallb] in Hl. apply andb_true_iff in Hl as [Hf Hl]. apply IH; auto.
    unfold sound_fund in Hf.
    apply (pair_plain m from recv (u32 (f_height f)) (i64 (f_value f)) _ _ true); auto; try lia.
    intros _. destruct (u32_pos (f_height f)) as [A B]; [lia|]. repeat split; auto.
    - apply i64_nonzero; lia.
    - apply i64_range; lia.
    - apply i64_range; lia.
  Qed.

  Lemma step_fine P v c :
    sound P = true -> plain_call c = true -> plain_map (m_ops v) = true ->
    regid_empty (regid_at (m_tx v) sender) = false -> regid_empty (regid_at (m_tx v) contract) = false ->
    fine (step P v c) /\ (forall b v', step P v c = Done (b, v') -> plain_map (m_ops v') = true).
  Proof.
    intros HP Hc Hm Hs Hk. unfold LuaModel.step. destruct c as [o|o|recv|recv h money tl tag|ts].
    - split; [apply fine_done|]. intros b v' H; inversion H; subst; auto.
    - assert (Same : fine (Done (false, v)) /\ (forall b v', Done (false, v) = Done (b, v') -> plain_map (m_ops v') = true))
        by (split; [apply fine_done|intros b v' H; inversion H; subst; auto]).
      destruct (_ || _); [exact Same|]. destruct (_ && _); [exact Same|].
      split; [apply fine_done|]. intros b v' H; inversion H; subst. cbn [with_ops m_ops]. apply insert_plain; auto.
    - assert (Same : fine (Done (false, v)) /\ (forall b v', Done (false, v) = Done (b, v') -> plain_map (m_ops v') = true))
        by (split; [apply fine_done|intros b v' H; inversion H; subst; auto]).
      destruct (negb (_ =? 34)); [exact Same|]. rewrite Hs, Hk. cbn [negb asserted bind].
      destruct (bytes_eqb _ _); [exact Same|].
      destruct (key_of recv =? 0); [exact Same|].
      destruct (fget bytes_eqb P _) as [a|] eqn:G; [|exact Same].
      destruct (auto_merge (n_tip e) a) as [b1 a1] eqn:Em.
      pose proof (auto_merge_sound _ _ _ _ (sound_get _ _ _ HP G) Em) as Ha. unfold sound_record in Ha.
      apply andb_true_iff in Ha as [Ha1 Ha2].
      split; [apply fine_done|]. intros b v' H; inversion H; subst. cbn [with_ops m_ops].
      apply move_funds_plain; auto. destruct (0 <? p_free a1); auto.
      apply (pair_plain (m_ops v) _ recv 0 _ 0 [] false); auto; try discriminate; simpl; lia.
    - assert (Same : fine (Done (false, v)) /\ (forall b v', Done (false, v) = Done (b, v') -> plain_map (m_ops v') = true))
        by (split; [apply fine_done|intros b v' H; inversion H; subst; auto]).
      cbn [plain_call] in Hc.
      destruct (negb (_ =? 34)); [exact Same|]. rewrite Hs. cbn [negb asserted bind].
      destruct (bytes_eqb _ _); [exact Same|].
      destruct (key_of recv =? 0); [exact Same|].
      destruct (money =? 0) eqn:Em; [exact Same|].
      destruct (i32 h <? 0)%Z eqn:Eh; [exact Same|].
      assert (Tl : tl <=? max_tag = true) by (unfold max_tag; lia). rewrite Tl. cbn [asserted bind].
      split; [apply fine_done|]. intros b v' H; inversion H; subst. cbn [with_ops m_ops].
      apply pair_plain; auto; try lia. intros Hk0. repeat split.
      + lia.
      + unfold i32 in Eh. destruct (h <? 2147483648) eqn:E1; lia.
      + apply i64_nonzero; lia.
      + apply i64_range; lia.
      + apply i64_range; lia.
    - assert (Same : forall (b : bool) (w : vm), m_ops w = m_ops v ->
         fine (Done (b, w)) /\ (forall b0 v', Done (b, w) = Done (b0, v') -> plain_map (m_ops v') = true))
        by (intros b w E; split; [apply fine_done|intros b0 v' H; inversion H; subst; rewrite E; auto]).
      destruct (_ <? _); [split; [apply fine_reject|discriminate]|]. destruct (_ || _); [apply Same; auto|].
      destruct (_ <? _); [apply Same; auto|].
      destruct (transfer_all _ _ _ ts (m_tx v)) as [b' st]. apply Same; auto.
  Qed.

  Lemma steps_fine P : sound P = true -> forall cs v, forallb plain_call cs = true -> plain_map (m_ops v) = true ->
    tinv (m_tx v) -> l_get (t_mem (m_tx v)) sender <> None -> l_get (t_mem (m_tx v)) contract <> None ->
    (forall s, supply (commit (m_tx v)) s < two64) ->
    regid_empty (regid_at (m_tx v) sender) = false -> regid_empty (regid_at (m_tx v) contract) = false ->
    fine (steps P v cs) /\ (forall v', steps P v cs = Done v' -> plain_map (m_ops v') = true).
  Proof.
    intros HP. induction cs as [|c cs IH]; intros v Hc Hm T Ms Mc Hb Hs Hk; cbn [LuaModel.steps].
    - split; [apply fine_done|]. intros v' H; inversion H; subst; auto.
    - cbn [forallb] in Hc. apply andb_true_iff in Hc as [Hc1 Hc2].
      destruct (step_fine P v c HP Hc1 Hm Hs Hk) as [A1 A2].
      assert (N1 : forall b v1, step P v c = Done (b, v1) ->
        fine (steps P v1 cs) /\ (forall v', steps P v1 cs = Done v' -> plain_map (m_ops v') = true)).
      { intros b v1 E.
        assert (E' : steps P v [c] = Done v1) by (cbn [LuaModel.steps]; rewrite E; reflexivity).
        destruct (steps_ok _ _ _ _ _ _ _ P v v1 T Ms Mc Hb E') as (K & _ & _ & D & M & _).
        apply IH; auto; try (apply K; auto).
        - eapply A2; eauto.
        - intros s. rewrite (mv_supply _ _ _ _ _ M). auto.
        - rewrite (kp_regid _ _ _ K); auto.
        - rewrite (kp_regid _ _ _ K); auto. }
      split.
      + apply fine_bind; auto. intros [b v1] E. cbn [snd]. apply (N1 _ _ E).
      + intros v' H. destruct (step P v c) as [[b v1]| | |] eqn:E; try discriminate. cbn [bind snd] in H.
        eapply N1; eauto.
  Qed.

  Lemma check_outs_fine st : regid_empty (regid_at st contract) = false ->
    forall outs add sub, fine (check_outs contract st outs add sub).
  Proof.
    intros Hk. induction outs as [|o outs IH]; intros add sub; cbn [check_outs]; [apply fine_guard|].
    destruct (w_op o) as [|[[| |]|[| |]|]]; try apply fine_reject.
    - destruct (account_id st (w_to o)); try apply fine_reject. rewrite Hk. cbn [negb asserted bind].
      apply fine_bind; [apply fine_guard|]. intros _ _. apply fine_bind; [apply fine_need|]. auto.
    - apply fine_bind; [apply fine_need|]. auto.
  Qed.

  Lemma operate_accounts_fine : forall outs st, fine (operate_accounts pk_keyid sender contract e outs st).
  Proof.
    induction outs as [|o outs IH]; intros st; cbn [LuaModel.operate_accounts]; [apply fine_done|].
    destruct (uid_empty _).
    - destruct (_ && _); [|apply fine_reject]. destruct (ok _); [auto|apply fine_reject].
    - apply fine_bind; [apply fine_need|]. intros [k st1] _.
      destruct (m_operate _ _ _ _ _ _) as [[|] st2]; [auto|apply fine_reject].
  Qed.

  Lemma execute_contract_fine P sc st :
    sound P = true -> forallb plain_call (s_calls sc) = true ->
    tinv st -> l_get (t_mem st) sender <> None -> l_get (t_mem st) contract <> None ->
    (forall s, supply (commit st) s < two64) ->
    regid_empty (regid_at st sender) = false -> regid_empty (regid_at st contract) = false ->
    fine (execute_contract pk_keyid addr_of key_of sender contract e P sc st) /\
    (forall st' P', execute_contract pk_keyid addr_of key_of sender contract e P sc st = Done (st', P') ->
       sound P' = true).
  Proof.
    intros HP Hc T Ms Mc Hb Hs Hk. unfold execute_contract.
    destruct (steps_fine P HP (s_calls sc) (mkVm st [] [] 0) Hc eq_refl T Ms Mc Hb Hs Hk) as [A1 A2].
    assert (R : forall v, steps P (mkVm st [] [] 0) (s_calls sc) = Done v ->
      plain_map (m_ops v) = true /\ kept st (m_tx v)).
    { intros v E. split; [auto|]. apply (steps_ok _ _ _ _ _ _ _ P (mkVm st [] [] 0) v T Ms Mc Hb E). }
    assert (R2 : forall v st2, steps P (mkVm st [] [] 0) (s_calls sc) = Done v ->
      check_outs contract (m_tx v) (m_out v) 0 0 = Done tt ->
      operate_accounts pk_keyid sender contract e (m_out v) (m_tx v) = Done st2 ->
      regid_empty (regid_at st2 contract) = false).
    { intros v st2 E1 E2 E3. destruct (R v E1) as [_ K].
      destruct (check_outs_ok pk_keyid addr_of key_of _ _ _ _ _ E2) as (_ & F & _).
      assert (T1 : tinv (m_tx v)) by apply K.
      destruct (operate_accounts_ok pk_keyid addr_of key_of _ _ _ _ _ _ T1 (kp_mem _ _ _ K _ Mc) F E3) as (K2 & _).
      rewrite (kp_regid _ _ _ K2), (kp_regid _ _ _ K); auto. apply K; auto. }
    split.
    - apply fine_bind; auto. intros v Ev. destruct (R v Ev) as [Pm K].
      apply fine_bind; [apply fine_guard|]. intros _ _.
      apply fine_bind. { apply check_outs_fine. rewrite (kp_regid _ _ _ K); auto. } intros [] E2.
      apply fine_bind; [apply operate_accounts_fine|]. intros st2 E3.
      apply fine_bind; [apply fine_guard|]. intros _ _.
      rewrite (R2 _ _ Ev E2 E3). cbn [negb orb asserted bind].
      apply fine_bind; [apply (operate_users_fine e (m_ops v) P HP Pm)|]. intros P' _. apply fine_done.
    - intros st' P' H.
      destruct (steps P (mkVm st [] [] 0) (s_calls sc)) as [v| | |] eqn:E1; try discriminate.
      destruct (R v eq_refl) as [Pm K].
      cbn [bind] in H. destruct (guard (s_ends sc)) as [[]| | |]; try discriminate. cbn [bind] in H.
      destruct (check_outs contract (m_tx v) (m_out v) 0 0) as [[]| | |] eqn:E2; try discriminate. cbn [bind] in H.
      destruct (operate_accounts pk_keyid sender contract e (m_out v) (m_tx v)) as [st2| | |] eqn:E3; try discriminate. cbn [bind] in H.
      destruct (guard _); try discriminate. cbn [bind] in H.
      destruct (asserted _); try discriminate. cbn [bind] in H.
      destruct (operate_users e P (m_ops v)) as [P2| | |] eqn:E5; try discriminate. cbn [bind] in H.
      inversion H; subst. eapply (operate_users_fine e (m_ops v) P HP Pm); eauto.
  Qed.
  End Run.

  (** *** Registration ids of the two accounts *)

  Lemma reg_at st k : tinv st -> registered (commit st) (t_reg st) -> l_get (t_mem st) k <> None ->
    forall r, fget regid_eqb (t_reg st) r = Some k -> regid_empty (regid_at st k) = false.
  Proof.
    intros T R M r H. destruct (R r k H) as (a & Ga & Ha). rewrite (commit_get _ _ _ T) in Ga.
    unfold regid_at. unfold l_get in *. destruct (fget N.eqb (t_mem st) k) as [x|]; [|congruence].
    inversion Ga; subst; auto.
  Qed.

  Lemma registered_leq L L' reg : leq L' L -> registered L reg -> registered L' reg.
  Proof. intros Q R r k H. destruct (R r k H) as (a & Ga & Ha). exists a. rewrite Q. auto. Qed.

  Lemma registered_operate st who s o v other b st' :
    tinv st -> l_get (t_mem st) who <> None ->
    (forall k, other = Some k -> l_get (t_mem st) k <> None) ->
    m_operate st who s o v other = (b, st') ->
    registered (commit st) (t_reg st) -> registered (commit st') (t_reg st').
  Proof.
    intros T Hw Ho H R. pose proof (m_operate_kept _ _ _ _ _ _ _ _ _ T Hw Ho H) as K.
    assert (T' : tinv st') by apply K.
    intros r k Hr. rewrite (kp_reg _ _ _ K) in Hr. destruct (R r k Hr) as (a & Ga & Ha).
    rewrite (commit_get _ _ _ T) in Ga. destruct (l_get (t_mem st) k) as [x|] eqn:Em.
    - inversion Ga; subst x. assert (M' : l_get (t_mem st') k <> None) by (apply K; congruence).
      pose proof (kp_regid _ _ _ K k ltac:(congruence)) as Q.
      destruct (l_get (t_mem st') k) as [y|] eqn:Ey; [|congruence].
      exists y. split; [rewrite (commit_get _ _ _ T'), Ey; auto|].
      unfold regid_at in Q. unfold l_get in Em, Ey. rewrite Em, Ey in Q. congruence.
    - exists a. split; auto. rewrite (commit_get _ _ _ T'), (kp_acc _ _ _ K).
      assert (E : l_get (t_mem st') k = None).
      { unfold m_operate in H. destruct (l_operate (t_mem st) who s o v other) as [b0 m'] eqn:E.
        inversion H; subst. apply (l_operate_none _ _ _ _ _ _ _ _ k E). exact Em. }
      now rewrite E.
  Qed.

  Lemma open_tx_registered h i u fs fee st k st4 :
    consistent pk_keyid (t_acc st) (t_reg st) -> NoDup (map fst (t_orders st)) ->
    fget regid_eqb (t_reg st) (h, i) = None ->
    registered (t_acc st) (t_reg st) -> regid_empty (h, i) = false ->
    match u with UReg _ | UPub _ => true | _ => false end = true ->
    open_tx pk_keyid h i u fs fee st = Some (k, st4) ->
    registered (commit st4) (t_reg st4) /\ regid_empty (regid_at st4 k) = false.
  Proof.
    intros [W G] No Hfr Hrg Hhi Hu H. unfold open_tx in H.
    set (st0 := mkTx (t_acc st) (t_reg st) [] None (t_orders st)) in H.
    assert (T0 : tinv st0).
    { constructor; simpl; auto. split; [constructor | discriminate]. discriminate. }
    destruct (get_account pk_keyid st0 u) as [[k1|] st1] eqn:G1; [|discriminate].
    destruct (get_account_some _ _ _ _ _ T0 G1) as (T1 & X1 & M1 & D1).
    assert (R1 : registered (commit st1) (t_reg st1)).
    { destruct X1 as (Q & Hr & _). rewrite Hr. eapply registered_leq; [exact Q|]. exact Hrg. }
    set (st2 := mkTx (t_acc st1) (t_reg st1) (t_mem st1) (Some k1) (t_orders st1)) in H.
    assert (T2 : tinv st2) by (destruct T1; constructor; auto).
    assert (R2 : registered (commit st2) (t_reg st2)) by exact R1.
    match type of H with context [if 0 <? fee then m_operate ?X _ _ _ _ _ else _] => set (st3 := X) in H end.
    assert (Hr1 : t_reg st1 = t_reg st) by apply X1.
    assert (A3 : tinv st3 /\ l_get (t_mem st3) k1 <> None /\ registered (commit st3) (t_reg st3) /\
                 regid_empty (regid_at st3 k1) = false).
    { destruct u as [r|k2|p|]; try discriminate.
      - subst st3. split; auto. split; auto. split; auto. eapply reg_at; eauto.
        simpl in D1. simpl. rewrite Hr1. exact D1.
      - subst st3. destruct (match fget N.eqb (t_mem st2) k1 with Some a => _ | None => _ end) eqn:E.
        + split; auto. split; auto. split; auto. unfold regid_at.
          destruct (fget N.eqb (t_mem st2) k1) as [a|]; [|discriminate]. now apply negb_true_iff.
        + destruct (fget N.eqb (t_mem st2) k1) as [a|] eqn:Ea; [|exfalso; apply M1; exact Ea].
          apply negb_false_iff in E. simpl in D1. inversion D1 as [D1'].
          destruct (register_ok pk_keyid st2 k1 p h i a T2 Ea E D1') as (T3 & B3 & O3 & R3 & M3).
          { simpl. rewrite Hr1. auto. }
          rewrite D1' in *. split; auto. split; [apply M3; unfold l_get; congruence|].
          assert (Ka : a_keyid a = k1) by (apply (ti_mem _ st2 T2); exact Ea).
          set (s3 := register_account st2 k1 p h i) in *.
          set (a' := mkAccount k1 (h, i) (Some p) (a_tokens a) (a_received_votes a)
                      (a_last_vote_height a) (a_last_vote_epoch a) (a_perms a)).
          assert (E3 : s3 = mkTx (t_acc st2) (fput regid_eqb (t_reg st2) (h, i) k1)
                              (fput N.eqb (t_mem st2) k1 a') (t_key st2) (t_orders st2)).
          { unfold s3, register_account. rewrite Ea, Ka. reflexivity. }
          assert (G3 : forall k0, l_get (commit s3) k0 = if k0 =? k1 then Some a' else l_get (commit st2) k0).
          { intros k0. rewrite (commit_get _ _ _ T3), (commit_get _ _ _ T2), E3. cbn [t_mem t_acc].
            change (fput N.eqb (t_mem st2) k1 a') with (l_put (t_mem st2) k1 a'). rewrite lget_put.
            destruct (k0 =? k1); reflexivity. }
          split.
          * intros r k0 Hr. rewrite E3 in Hr. cbn [t_reg] in Hr. rewrite (fget_put regid_eqb regid_eqb_ok) in Hr.
            rewrite G3. destruct (k0 =? k1) eqn:Ek; [exists a'; auto|].
            destruct (regid_eqb r (h, i)); [inversion Hr; subst; lia|]. apply (R2 r k0 Hr).
          * unfold regid_at. rewrite E3. cbn [t_mem]. now rewrite (fget_put_same N.eqb N_eqb_ok). }
    destruct A3 as (T3 & M3 & R3 & Q3).
    destruct (0 <? fee) eqn:E0.
    - destruct (m_operate st3 k1 fs SubFree fee None) as [[|] st5] eqn:Hc; [|discriminate].
      inversion H; subst k1 st5; clear H.
      assert (HN : forall k0 : N, None = Some k0 -> l_get (t_mem st3) k0 <> None) by discriminate.
      pose proof (m_operate_kept _ _ _ _ _ _ _ _ _ T3 M3 HN Hc) as K4.
      split; [eapply registered_operate; [exact T3|exact M3|exact HN|exact Hc|exact R3]|].
      rewrite (kp_regid _ _ _ K4); auto.
    - inversion H; subst; auto.
  Qed.

  Lemma invoke_tx_fine h idx e i sc P st :
    consistent pk_keyid (t_acc st) (t_reg st) -> NoDup (map fst (t_orders st)) ->
    (forall s, supply (t_acc st) s < two64) ->
    fget regid_eqb (t_reg st) (h, idx) = None -> regid_empty (h, idx) = false ->
    registered (t_acc st) (t_reg st) ->
    match i_uid i with UReg _ | UPub _ => true | _ => false end = true ->
    sound P = true -> forallb plain_call (s_calls sc) = true ->
    fine (invoke_tx pk_keyid addr_of key_of h idx e i sc P st) /\
    (forall st' P', invoke_tx pk_keyid addr_of key_of h idx e i sc P st = Done (st', P') -> sound P' = true).
  Proof.
    intros Co No Hs Hfr Hhi Hrg Hu HP Hc. unfold invoke_tx.
    destruct (open_tx pk_keyid h idx (i_uid i) (i_fee_symbol i) (i_fee i) st) as [[k st4]|] eqn:Eo;
      cbn [need bind]; [|split; [apply fine_reject|discriminate]].
    destruct (open_tx_ok pk_keyid addr_of key_of _ _ _ _ _ _ _ _ Co No Hs Hfr Eo) as (T4 & M4 & Dk & A4 & O4 & R4 & S4 & B4 & Z4).
    destruct (open_tx_registered _ _ _ _ _ _ _ _ Co No Hfr Hrg Hhi Hu Eo) as [Rg4 Q4].
    assert (B : fine (invoke_body pk_keyid addr_of key_of e i sc P k st4) /\
      forall st5 P5, invoke_body pk_keyid addr_of key_of e i sc P k st4 = Done (st5, P5) -> sound P5 = true).
    2: { destruct B as [B1 B2]. split.
         - apply fine_bind; auto. intros [st5 P5] _. apply fine_done.
         - intros st' P' H. destruct (invoke_body pk_keyid addr_of key_of e i sc P k st4) as [[st5 P5]| | |] eqn:Eb; try discriminate.
           cbn [bind] in H. inversion H; subst. eapply B2; eauto. }
    unfold invoke_body.
    destruct (get_account pk_keyid st4 (UReg (i_app i))) as [[c|] st6] eqn:Gc; [|split; [apply fine_reject|discriminate]].
    destruct (get_account_kept _ _ _ _ _ T4 Gc) as (K6 & V6 & M6 & D6).
    destruct (get_account_some _ _ _ _ _ T4 Gc) as (_ & X6 & _ & _).
    assert (T6 : tinv st6) by apply K6.
    assert (Rg6 : registered (commit st6) (t_reg st6)).
    { rewrite (kp_reg _ _ _ K6). eapply registered_leq; [apply X6|exact Rg4]. }
    assert (Qc6 : regid_empty (regid_at st6 c) = false).
    { eapply reg_at; eauto. rewrite (kp_reg _ _ _ K6). exact D6. }
    assert (Qk6 : regid_empty (regid_at st6 k) = false) by (rewrite (kp_regid _ _ _ K6); auto).
    assert (Mk6 : l_get (t_mem st6) k <> None) by (apply K6; auto).
    assert (Hb6 : forall s, supply (commit st6) s < two64).
    { intros s. rewrite (mv_supply _ _ _ _ _ V6). specialize (S4 s). specialize (Hs s). lia. }
    match goal with |- context [if i_universal i || (0 <? n_amount e) then ?x else ?y] =>
      set (mv := if i_universal i || (0 <? n_amount e) then x else y) end.
    assert (X : forall st7, mv = (true, st7) -> kept st6 st7 /\ forall s, supply (commit st7) s = supply (commit st6) s).
    { intros st7. unfold mv. destruct (i_universal i || (0 <? n_amount e)) eqn:Eu.
      - intros Hm. assert (Ho : forall k0, Some c = Some k0 -> l_get (t_mem st6) k0 <> None) by (intros k0 E; inversion E; subst; auto).
        split; [exact (m_operate_kept _ _ _ _ _ _ _ _ _ T6 Mk6 Ho Hm)|].
        apply (m_operate_moved pk_keyid st6 k (n_symbol e) SubFree (n_amount e) (Some c) st7 T6 Mk6 Ho Hm
          eq_refl (fun _ => eq_refl) (Hb6 _)).
      - intros Hm; inversion Hm; subst st7. split; [apply kept_refl; auto|auto]. }
    destruct mv as [[|] st7]; [|split; [apply fine_reject|discriminate]].
    destruct (X _ eq_refl) as (K7 & V7). clear X.
    assert (T7 : tinv st7) by apply K7.
    destruct (execute_contract_fine k c e P sc st7 HP Hc T7 (kp_mem _ _ _ K7 _ Mk6) (kp_mem _ _ _ K7 _ M6)) as [F1 F2].
    { intros s. rewrite V7. auto. } { rewrite (kp_regid _ _ _ K7); auto. } { rewrite (kp_regid _ _ _ K7); auto. }
    assert (Y : forall (st8 : txst) (P8 : list (list N * appacct)),
      let r := (if i_universal i && String.eqb (i_fee_symbol i) WUSD then
              match get_account pk_keyid st8 (UReg (i_reserve i)) with
              | (None, _) => Reject
              | (Some f, st4) =>
                  match m_operate st4 f WUSD AddFree (i_fuel i) None with
                  | (true, st5) => Done (st5, P8)
                  | (false, _) => Reject
                  end
              end
            else Done (st8, P8)) in fine r /\ forall st5 P5, r = Done (st5, P5) -> P5 = P8).
    { intros st8 P8. cbv zeta. destruct (_ && _).
      - destruct (get_account pk_keyid st8 (UReg (i_reserve i))) as [[f|] st9]; [|split; [apply fine_reject|discriminate]].
        destruct (m_operate st9 f WUSD AddFree (i_fuel i) None) as [[|] st10]; [|split; [apply fine_reject|discriminate]].
        split; [apply fine_done|congruence].
      - split; [apply fine_done|congruence]. }
    split.
    - apply fine_bind; auto. intros [st8 P8] _. apply Y.
    - intros st5 P5 H. destruct (execute_contract pk_keyid addr_of key_of k c e P sc st7) as [[st8 P8]| | |] eqn:Ex; try discriminate.
      cbn [bind] in H. apply Y in H. subst P5. eapply F2; eauto.
  Qed.
End LuaVerdict.
