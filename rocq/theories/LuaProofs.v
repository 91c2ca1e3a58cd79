(** Proofs about the payments a Lua contract makes (C80). *)
From Coq Require Import String List Bool NArith ZArith Lia.
From Coq Require Import ZifyBool ZifyNat ZifyN.
From Verif Require Import Prelude PreludeFacts AccountModel AccountSpec AccountProofs TxModel TxSpec
  TxProofs DexModel LuaModel LuaSpec.
Import ListNotations.
Open Scope N_scope.
Ltac Zify.zify_post_hook ::= Z.div_mod_to_equations.

(** *** Single operations, without any bound on the amounts *)

Lemma add_free_bal a s v s' b :
  bal (self' (operate_balance a s AddFree v NoPeer)) s' b =
  if String.eqb s' s && bucket_eqb b BFree then add64 (bal a s' b) v else bal a s' b.
Proof.
  cbn [operate_balance self']. unfold bal. rewrite !get_set_token.
  destruct (String.eqb s' s) eqn:E; [|reflexivity].
  apply String.eqb_eq in E; subst. destruct b; reflexivity.
Qed.

Lemma add64_split x v : add64 x v + two64 * ((x + v) / two64) = x + v.
Proof. unfold add64. pose proof (N.div_mod (x + v) two64 ltac:(discriminate)). lia. Qed.

(** An addition that nobody pays for: exact up to a wrap. *)
Lemma l_add_wrap L who s v b L' :
  ledger_wf L -> l_get L who <> None -> l_operate L who s AddFree v None = (b, L') ->
  b = true /\ exists W,
  (forall s', supply L' s' + (if String.eqb s' s then two64 * W else 0) =
              supply L s' + (if String.eqb s' s then v else 0)) /\
  (forall k s' b, k <> who \/ s' <> s \/ b <> BFree -> lbal L' k s' b = lbal L k s' b) /\
  lbal L' who s BFree + two64 * W = lbal L who s BFree + v.
Proof.
  intros Wf Hw H. unfold l_operate in H. destruct (l_get L who) as [a|] eqn:Ga; [|congruence].
  set (a' := self' (operate_balance a s AddFree v NoPeer)) in H.
  inversion H; subst b L'; clear H. split; [reflexivity|].
  exists ((bal a s BFree + v) / two64).
  pose proof (add_free_bal a s v) as B. fold a' in B.
  pose proof (add64_split (bal a s BFree) v) as A.
  assert (B0 : bal a' s BFree = add64 (bal a s BFree) v) by (rewrite B, String.eqb_refl; reflexivity).
  split; [|split].
  - intros s'. pose proof (supply_put L who a a' s' Wf Ga) as S.
    destruct (String.eqb s' s) eqn:E.
    + apply String.eqb_eq in E; subst s'. unfold holding in S. rewrite B0 in S.
      rewrite !B, !String.eqb_refl in S. cbn [andb bucket_eqb] in S. lia.
    + assert (holding a' s' = holding a s') by (apply holding_other; intros; rewrite B, E; auto). lia.
  - intros k s' b Hd. rewrite lbal_put. destruct (k =? who) eqn:Ek; [|reflexivity].
    apply N.eqb_eq in Ek; subst k. rewrite (lbal_get L who a s' b Ga), B.
    destruct (String.eqb s' s) eqn:E; [|reflexivity]. apply String.eqb_eq in E; subst s'.
    destruct b; try reflexivity. exfalso. tauto.
  - rewrite lbal_put, N.eqb_refl, (lbal_get L who a s BFree Ga), B0. exact A.
Qed.

(** A subtraction that nobody receives. *)
Lemma l_sub_exact L who s v L' :
  ledger_wf L -> l_operate L who s SubFree v None = (true, L') ->
  (forall s', supply L' s' + (if String.eqb s' s then v else 0) = supply L s') /\
  (forall k s' b, k <> who \/ s' <> s \/ b <> BFree -> lbal L' k s' b = lbal L k s' b) /\
  lbal L' who s BFree + v = lbal L who s BFree.
Proof.
  intros Wf H. unfold l_operate in H. destruct (l_get L who) as [a|] eqn:Ga; [|discriminate].
  destruct (sub_free_alone a s v) as [S1 S2].
  set (r := operate_balance a s SubFree v NoPeer) in *. inversion H; subst L'; clear H.
  rewrite H1 in *. destruct (S2 eq_refl) as [E1 E2]. pose proof (proj1 S1 eq_refl) as Hv.
  split; [|split].
  - intros s'. pose proof (supply_put L who a (self' r) s' Wf Ga) as S.
    destruct (String.eqb s' s) eqn:E.
    + apply String.eqb_eq in E; subst s'. unfold holding in S. rewrite E1 in S.
      rewrite !E2 in S by (right; discriminate). lia.
    + apply String.eqb_neq in E.
      assert (holding (self' r) s' = holding a s') by (apply holding_other; intros; apply E2; auto). lia.
  - intros k s' b Hd. rewrite lbal_put. destruct (k =? who) eqn:Ek; [|reflexivity].
    apply N.eqb_eq in Ek; subst k. rewrite (lbal_get L who a s' b Ga). apply E2. tauto.
  - rewrite lbal_put, N.eqb_refl, (lbal_get L who a s BFree Ga), E1. lia.
Qed.

(** A transfer that fails changes no balance. *)
Lemma l_transfer_fails L who s v d L' :
  ledger_wf L -> l_operate L who s SubFree v (Some d) = (false, L') ->
  forall k s' b, lbal L' k s' b = lbal L k s' b.
Proof.
  intros Wf H k s' b0. unfold l_operate in H.
  destruct (l_get L who) as [a|] eqn:Ga; [|inversion H; reflexivity].
  assert (Self : forall x, self' x = set_token a s (get_token a s) ->
                 lbal (l_put L who (self' x)) k s' b0 = lbal L k s' b0).
  { intros x E. rewrite lbal_put. destruct (k =? who) eqn:Ek; [|reflexivity].
    apply N.eqb_eq in Ek; subst k. rewrite (lbal_get L who a s' b0 Ga), E. apply set_get_same_bal. }
  destruct (d =? who) eqn:Ed.
  - unfold operate_balance in H. destruct (free (get_token a s) <? v); [|discriminate].
    inversion H. apply (Self (mkRes false (set_token a s (get_token a s)) SelfPeer None)). reflexivity.
  - destruct (l_get L d) as [p|] eqn:Gp; [|inversion H; reflexivity].
    assert (Kd : a_keyid a =? a_keyid p = false).
    { rewrite (proj2 Wf _ _ Ga), (proj2 Wf _ _ Gp). apply N.eqb_neq. apply N.eqb_neq in Ed. congruence. }
    unfold operate_balance in H. rewrite Kd in H. destruct (free (get_token a s) <? v); [|discriminate].
    cbn [ok self' peer'] in H. inversion H. rewrite lbal_put. destruct (k =? d) eqn:Ek.
    + apply N.eqb_eq in Ek; subst k. rewrite (lbal_get L d p s' b0 Gp). reflexivity.
    + apply (Self (mkRes false (set_token a s (get_token a s)) SelfPeer None)). reflexivity.
Qed.

Section LuaProofs.
  Variable pk_keyid : N -> N.
  Variable addr_of : N -> list N.
  Variable key_of : list N -> N.

  Notation tinv := (tinv pk_keyid).
  Notation moved := (moved pk_keyid).

  (** What the pieces of a run leave as it is. *)
  Record kept (st st' : txst) : Prop := {
    kp_inv : tinv st';
    kp_acc : t_acc st' = t_acc st;
    kp_reg : t_reg st' = t_reg st;
    kp_orders : t_orders st' = t_orders st;
    kp_key : t_key st' = t_key st;
    kp_mem : forall k, l_get (t_mem st) k <> None -> l_get (t_mem st') k <> None;
    kp_regid : forall k, l_get (t_mem st) k <> None -> regid_at st' k = regid_at st k }.

  Lemma kept_refl st : tinv st -> kept st st.
  Proof. intros T. constructor; auto. Qed.

  Lemma kept_trans a b c : kept a b -> kept b c -> kept a c.
  Proof.
    intros [A1 A2 A3 A4 A5 A6 A7] [B1 B2 B3 B4 B5 B6 B7]. constructor; auto; try congruence.
    intros k Hk. rewrite B7, A7; auto.
  Qed.

  Lemma regid_at_put st k a m k' :
    m = fput N.eqb (t_mem st) k a -> k' <> k ->
    regid_at (set_mem st m) k' = regid_at st k'.
  Proof.
    intros -> Hn. unfold regid_at, set_mem. cbn [t_mem].
    now rewrite (fget_put_other N.eqb N_eqb_ok) by auto.
  Qed.

  Lemma get_account_kept st u k st' :
    tinv st -> get_account pk_keyid st u = (Some k, st') ->
    kept st st' /\ moved st st' zero3 0 /\ l_get (t_mem st') k <> None /\
    denotes pk_keyid (t_reg st) u = Some k.
  Proof.
    intros T G. destruct (get_account_some pk_keyid st u k st' T G) as (T' & X & M & D).
    assert (Q : st' = st \/ exists a, l_get (t_mem st) k = None /\
                               st' = set_mem st (fput N.eqb (t_mem st) k a)).
    { unfold get_account in G. destruct (match t_key st with Some _ => _ | None => None end).
      - inversion G; auto.
      - destruct (get_key_id _ _ _) as [k1|]; [|discriminate].
        destruct (fget N.eqb (t_mem st) k1) eqn:Em; [inversion G; auto|].
        destruct (l_get (t_acc st) k1) as [a|]; [|discriminate]. inversion G; subst.
        right. exists a. split; auto. }
    split; [|split; [|split; auto]].
    - constructor; auto; try (destruct Q as [->|(a & _ & ->)]; reflexivity).
      + apply X.
      + intros k' Hk'. destruct Q as [->|(a & Hn & ->)]; [reflexivity|].
        eapply regid_at_put; [reflexivity|]. congruence.
    - apply extends_moved; auto.
  Qed.

  Lemma new_mem_kept st k :
    tinv st -> l_get (commit st) k = None ->
    let st' := new_mem_account st k in
    kept st st' /\ moved st st' zero3 0 /\ l_get (t_mem st') k <> None.
  Proof.
    intros T Hc. destruct (new_mem_account_ok pk_keyid st k T Hc) as (T' & B & M & R & O & Me).
    cbv zeta. assert (Hm : fget N.eqb (t_mem st) k = None).
    { rewrite (commit_get pk_keyid _ _ T) in Hc. unfold l_get in Hc at 1.
      destruct (fget N.eqb (t_mem st) k); congruence. }
    split; [|split; auto].
    - constructor; auto; unfold new_mem_account; rewrite Hm; try reflexivity.
      intros k' Hk'. eapply regid_at_put; [reflexivity|]. unfold l_get in Hk'. congruence.
    - apply same_lbal_moved; auto. now rewrite R.
  Qed.

  Lemma m_operate_kept st who s o v other b st' :
    tinv st -> l_get (t_mem st) who <> None ->
    (forall k, other = Some k -> l_get (t_mem st) k <> None) ->
    m_operate st who s o v other = (b, st') -> kept st st'.
  Proof.
    intros T Hw Ho H. pose proof (m_operate_commit pk_keyid st who s o v other T Hw Ho) as C.
    cbv zeta in C. rewrite H in C. cbn [fst snd] in C. destruct C as (T' & _ & _ & R & Or & K & M).
    unfold m_operate in H. destruct (l_operate (t_mem st) who s o v other) as [b0 m'] eqn:E.
    inversion H; subst b0 st'; clear H. constructor; auto.
    intros k Hk. unfold regid_at, set_mem. cbn [t_mem].
    unfold l_operate in E. unfold l_get in *. destruct (fget N.eqb (t_mem st) who) as [a|] eqn:Ga; [|congruence].
    assert (One : forall p, match fget N.eqb (l_put (t_mem st) who (self' (operate_balance a s o v p))) k with
                            | Some x => a_regid x | None => (0, 0) end =
                            match fget N.eqb (t_mem st) k with Some x => a_regid x | None => (0,0) end).
    { intros p. unfold l_put. rewrite (fget_put N.eqb N_eqb_ok). destruct (k =? who) eqn:Ek; [|reflexivity].
      apply N.eqb_eq in Ek; subst k. rewrite Ga. symmetry. apply (operate_identity a s o v p). }
    destruct other as [k2|]; [|inversion E; apply One].
    destruct (k2 =? who); [inversion E; apply One|].
    destruct (fget N.eqb (t_mem st) k2) as [p|] eqn:Gp; [|inversion E; reflexivity].
    destruct (operate_identity_peer a s o v p) as (p' & Hp & Hi). rewrite Hp in E. inversion E; subst b m'.
    unfold l_put at 1. rewrite (fget_put N.eqb N_eqb_ok). destruct (k =? k2) eqn:Ek; [|apply One].
    apply N.eqb_eq in Ek; subst k. rewrite Gp. symmetry. apply Hi.
  Qed.

  Section Run.
  Variables sender contract : N.
  Variable e : lenv.
  Notation vm_account := (vm_account pk_keyid sender contract).
  Notation find_or_new := (find_or_new pk_keyid sender contract).
  Notation transfer_all := (transfer_all pk_keyid sender contract).
  Notation operate_accounts := (operate_accounts pk_keyid sender contract e).

  Lemma is_self_denotes st k a u :
    tinv st -> l_get (t_mem st) k = Some a -> is_self_uid a u = true ->
    denotes pk_keyid (t_reg st) u = Some k.
  Proof.
    intros T Ha Hs. destruct (ti_good_mem _ st T k a Ha) as [G1 G2].
    assert (Ka : a_keyid a = k) by (apply (ti_mem _ st T); auto).
    unfold is_self_uid in Hs. destruct u; simpl.
    - apply andb_true_iff in Hs as [E1 E2]. apply regid_eqb_ok in E2. subst r.
      apply G2. destruct (regid_empty (a_regid a)); auto; discriminate.
    - apply N.eqb_eq in Hs. congruence.
    - destruct (a_pubkey a) as [q|]; [|discriminate]. apply N.eqb_eq in Hs; subst.
      f_equal. apply G1; auto.
    - discriminate.
  Qed.

  Lemma vm_account_some st u k st' :
    tinv st -> vm_account st u = (Some k, st') ->
    kept st st' /\ moved st st' zero3 0 /\ l_get (t_mem st') k <> None /\
    denotes pk_keyid (t_reg st) u = Some k.
  Proof.
    intros T. unfold LuaModel.vm_account.
    assert (S : forall k0, match fget N.eqb (t_mem st) k0 with
                           | Some a => is_self_uid a u | None => false end = true ->
              kept st st /\ moved st st zero3 0 /\ l_get (t_mem st) k0 <> None /\
              denotes pk_keyid (t_reg st) u = Some k0).
    { intros k0 Hk. destruct (fget N.eqb (t_mem st) k0) as [a|] eqn:Ea; [|discriminate].
      split; [apply kept_refl; auto|]. split; [apply moved_refl; auto|].
      split; [unfold l_get; congruence|]. eapply is_self_denotes; eauto. }
    destruct (match fget N.eqb (t_mem st) contract with Some a => _ | None => _ end) eqn:E1.
    { intros H; inversion H; subst. auto. }
    destruct (match fget N.eqb (t_mem st) sender with Some a => _ | None => _ end) eqn:E2.
    { intros H; inversion H; subst. auto. }
    apply get_account_kept; auto.
  Qed.

  Lemma find_or_new_some st u k st' :
    tinv st -> find_or_new st u = Some (k, st') ->
    kept st st' /\ moved st st' zero3 0 /\ l_get (t_mem st') k <> None /\
    denotes pk_keyid (t_reg st) u = Some k.
  Proof.
    intros T. unfold LuaModel.find_or_new. destruct (vm_account st u) as [[k0|] st0] eqn:G.
    - intros H; inversion H; subst. apply vm_account_some; auto.
    - unfold LuaModel.vm_account in G.
      destruct (match fget N.eqb (t_mem st) contract with Some a => _ | None => _ end); [discriminate|].
      destruct (match fget N.eqb (t_mem st) sender with Some a => _ | None => _ end); [discriminate|].
      destruct (get_account_none _ _ _ _ T G) as [-> Hn]. destruct u; try discriminate.
      intros H; inversion H; subst. destruct (new_mem_kept st k T (Hn _ eq_refl)) as (A & B & C).
      auto.
  Qed.

  (** What transfers between accounts can do: only free balances change, and only the
      contract and the sender can lose. *)
  Definition fair (D : N -> string -> bucket -> Z) : Prop :=
    (forall k s b, b <> BFree -> D k s b = 0%Z) /\
    (forall k s, k <> sender -> k <> contract -> (0 <= D k s BFree)%Z).

  Definition quiet (D : N -> string -> bucket -> Z) : Prop := (0 <= D contract WICC BFree)%Z.
  Definition spared (D : N -> string -> bucket -> Z) : Prop := forall s, (0 <= D sender s BFree)%Z.

  Lemma fair_plus D1 D2 : fair D1 -> fair D2 -> fair (fun k s b => D1 k s b + D2 k s b)%Z.
  Proof.
    intros [A1 A2] [B1 B2]. split; intros.
    - rewrite A1, B1; auto.
    - specialize (A2 k s). specialize (B2 k s). lia.
  Qed.

  Lemma fair_zero : fair zero3.
  Proof. split; intros; unfold zero3; lia. Qed.

  Lemma m_transfer_fails st who s v d st' :
    tinv st -> l_get (t_mem st) who <> None -> l_get (t_mem st) d <> None ->
    m_operate st who s SubFree v (Some d) = (false, st') -> moved st st' zero3 0.
  Proof.
    intros T Hw Hd H.
    assert (Ho : forall k, Some d = Some k -> l_get (t_mem st) k <> None) by (intros k E; inversion E; subst; auto).
    pose proof (m_operate_kept _ _ _ _ _ _ _ _ T Hw Ho H) as K.
    pose proof (m_operate_commit pk_keyid st who s SubFree v (Some d) T Hw Ho) as C.
    cbv zeta in C. rewrite H in C. cbn [fst snd] in C. destruct C as (T' & F & Lq & R & Or & Ky & M).
    destruct (l_operate (commit st) who s SubFree v (Some d)) as [b L'] eqn:E. cbn [fst snd] in F, Lq. subst b.
    apply same_lbal_moved; auto.
    - intros k' s' b. rewrite (leq_lbal _ _ _ _ _ Lq).
      eapply l_transfer_fails; [|exact E]. eapply commit_wf; eauto.
    - now rewrite R.
  Qed.

  Lemma transfer_all_ok : forall ts st b st',
    tinv st -> l_get (t_mem st) sender <> None -> l_get (t_mem st) contract <> None ->
    (forall s, supply (commit st) s < two64) ->
    transfer_all ts st = (b, st') ->
    kept st st' /\ exists D, moved st st' D 0 /\ fair D /\
      (existsb (fun t => y_contract t && String.eqb (y_symbol t) "WICC") ts = false ->
       sender <> contract -> quiet D) /\
      (existsb (fun t => negb (y_contract t)) ts = false -> sender <> contract -> spared D).
  Proof.
    induction ts as [|t ts IH]; intros st b st' T Hs Hc Hb H; cbn [LuaModel.transfer_all] in H.
    - inversion H; subst. split; [apply kept_refl; auto|]. exists zero3.
      split; [apply moved_refl; auto|]. split; [apply fair_zero|].
      split; unfold quiet, spared, zero3; intros; lia.
    - assert (Stop : forall st1, kept st st1 -> moved st st1 zero3 0 ->
        kept st st1 /\ exists D, moved st st1 D 0 /\ fair D /\
        (existsb (fun t => y_contract t && String.eqb (y_symbol t) "WICC") (t :: ts) = false ->
         sender <> contract -> quiet D) /\
        (existsb (fun t => negb (y_contract t)) (t :: ts) = false -> sender <> contract -> spared D)).
      { intros st1 K M. split; auto. exists zero3. split; auto. split; [apply fair_zero|].
        split; unfold quiet, spared, zero3; intros; lia. }
      destruct (find_or_new st (y_to t)) as [[d st1]|] eqn:F.
      2: { inversion H; subst. apply Stop; [apply kept_refl|apply moved_refl]; auto. }
      destruct (find_or_new_some _ _ _ _ T F) as (K1 & M1 & Hd & _).
      set (who := if y_contract t then contract else sender) in H.
      assert (T1 : tinv st1) by apply K1.
      assert (Hw : l_get (t_mem st1) who <> None) by (unfold who; destruct (y_contract t); apply K1; auto).
      destruct (m_operate st1 who (y_symbol t) SubFree (y_amount t) (Some d)) as [[|] st2] eqn:O.
      2: { inversion H; subst. apply Stop.
           - eapply kept_trans; [exact K1|]. eapply m_operate_kept; [exact T1|exact Hw| |exact O].
             intros k E; inversion E; subst; auto.
           - eapply moved_trans; [exact M1 | exact (m_transfer_fails _ _ _ _ _ _ T1 Hw Hd O) | | reflexivity].
             intros; reflexivity. }
      assert (Ho : forall k, Some d = Some k -> l_get (t_mem st1) k <> None) by (intros k E; inversion E; subst; auto).
      pose proof (m_operate_kept _ _ _ _ _ _ _ _ T1 Hw Ho O) as K2.
      assert (M2 := m_operate_moved pk_keyid st1 who (y_symbol t) SubFree (y_amount t) (Some d) st2 T1 Hw Ho O
        eq_refl ltac:(reflexivity) ltac:(rewrite (mv_supply _ _ _ _ _ M1); auto)).
      pose proof (kept_trans _ _ _ K1 K2) as K12.
      pose proof (moved_trans _ _ _ _ _ _ _ _ _ _ M1 M2 (fun _ _ _ => eq_refl) eq_refl) as M12.
      destruct (IH st2 b st') as (K3 & D & M3 & Fr & Q & Sp); auto; try (apply K12; auto).
      { intros s. rewrite (mv_supply _ _ _ _ _ M12). auto. }
      split; [eapply kept_trans; eauto|].
      eexists. split; [eapply moved_trans; [exact M12|exact M3|intros; reflexivity|reflexivity]|].
      unfold zero3. cbn [credited debited].
      split; [|split].
      + destruct Fr as [F1 F2]. split.
        * intros k s b0 Hn. rewrite F1 by auto. unfold at_place.
          assert (bucket_eqb b0 BFree = false) by (destruct b0; auto; congruence).
          rewrite H0, !andb_false_r. lia.
        * intros k s Hks Hkc. specialize (F2 k s Hks Hkc). unfold at_place.
          assert (k =? who = false) by (unfold who; destruct (y_contract t); apply N.eqb_neq; auto).
          rewrite H0. cbn [andb]. destruct (_ && _); lia.
      + intros Hx Hn. cbn [existsb] in Hx. apply orb_false_iff in Hx as [Hx1 Hx2].
        specialize (Q Hx2 Hn). unfold quiet in *. unfold at_place.
        assert (E0 : (contract =? who) && String.eqb WICC (y_symbol t) = false).
        { unfold who. destruct (y_contract t).
          - cbn [andb] in Hx1. rewrite String.eqb_sym. unfold WICC. rewrite Hx1. apply andb_false_r.
          - replace (contract =? sender) with false; [reflexivity|]. symmetry. apply N.eqb_neq. congruence. }
        rewrite E0. cbn [andb]. destruct ((contract =? d) && _ && _); lia.
      + intros Hx Hn s. cbn [existsb] in Hx. apply orb_false_iff in Hx as [Hx1 Hx2].
        specialize (Sp Hx2 Hn s). unfold at_place. apply negb_false_iff in Hx1. unfold who. rewrite Hx1.
        replace (sender =? contract) with false by (symmetry; apply N.eqb_neq; congruence).
        cbn [andb]. destruct ((sender =? d) && _ && _); lia.
  Qed.

  (** *** The outputs *)
  Definition added (o : vmop) : N := if w_op o =? 1 then w_money o else 0.
  Definition subtr (o : vmop) : N := if w_op o =? 2 then w_money o else 0.
  Definition lost (o : vmop) : bool := match w_to o with TAddr 0 => true | _ => false end.

  (** What [check_outs] makes sure of. *)
  Definition out_ok (st : txst) (o : vmop) : Prop :=
    w_op o = 1 \/
    (w_op o = 2 /\ regid_empty (regid_at st contract) = false /\
     account_id st (w_to o) = UReg (regid_at st contract)).

  Lemma check_outs_ok : forall outs st add sub,
    check_outs contract st outs add sub = Done tt ->
    add + nsum (map added outs) = sub + nsum (map subtr outs) /\
    Forall (out_ok st) outs /\
    (add < two64 -> add + nsum (map added outs) < two64).
  Proof.
    induction outs as [|o outs IH]; intros st add sub H; cbn [check_outs] in H.
    - unfold guard in H. destruct (add =? sub) eqn:E; [|discriminate]. simpl. split; [lia|]. split; auto. lia.
    - cbn [map nsum fold_right]. fold (nsum (map added outs)). fold (nsum (map subtr outs)).
      unfold added at 1 3, subtr at 1.
      destruct (w_op o) as [|[[| |]|[| |]|]] eqn:Eo; try discriminate.
      + destruct (account_id st (w_to o)) as [r|k|p|] eqn:Ea; try discriminate.
        unfold asserted, guard, need, bind, safe_add in H.
        destruct (negb (regid_empty (regid_at st contract))) eqn:E1; [|discriminate].
        destruct (regid_eqb r (regid_at st contract)) eqn:E2; [|discriminate].
        destruct (sub + w_money o <? two64) eqn:E3; [|discriminate].
        apply regid_eqb_ok in E2; subst r. apply IH in H as (A & B & C). simpl.
        split; [lia|]. split; [|lia]. constructor; auto. right. repeat split; auto.
        now apply negb_true_iff.
      + unfold need, bind, safe_add in H. destruct (add + w_money o <? two64) eqn:E3; [|discriminate].
        apply IH in H as (A & B & C). simpl. split; [lia|]. split; [|lia]. constructor; auto. left; auto.
  Qed.

  Lemma account_id_kept st st' t : t_acc st' = t_acc st -> account_id st' t = account_id st t.
  Proof. intros H. unfold account_id. now rewrite H. Qed.

  Lemma out_ok_kept st st' o : kept st st' -> l_get (t_mem st) contract <> None ->
    out_ok st o -> out_ok st' o.
  Proof.
    intros K Hc [H|(H1 & H2 & H3)]; [left; auto|right].
    rewrite (kp_regid _ _ K contract Hc), (account_id_kept st st' (w_to o)); auto. apply K.
  Qed.

  Lemma account_id_empty st t u : tinv st -> account_id st t = u -> uid_empty u = true -> is_reg u = false ->
    t = TAddr 0.
  Proof.
    intros T. unfold account_id. destruct t as [r|k].
    - intros <-. discriminate.
    - destruct (k =? 0) eqn:E. { intros. f_equal. lia. }
      destruct (l_get (t_acc st) k) as [a|].
      + destruct (regid_empty (a_regid a)); intros <-; simpl; [lia|discriminate].
      + intros <-; simpl; lia.
  Qed.

  Lemma self_found st : l_get (t_mem st) contract <> None ->
    regid_empty (regid_at st contract) = false ->
    find_or_new st (UReg (regid_at st contract)) = Some (contract, st).
  Proof.
    intros Hc Hr. unfold LuaModel.find_or_new, LuaModel.vm_account. unfold regid_at in *.
    unfold l_get in Hc. destruct (fget N.eqb (t_mem st) contract) as [a|]; [|congruence].
    simpl. rewrite Hr. simpl. rewrite (proj2 (regid_eqb_ok (a_regid a) (a_regid a)) eq_refl). reflexivity.
  Qed.

  Lemma operate_accounts_ok : forall outs st st',
    tinv st -> l_get (t_mem st) contract <> None ->
    Forall (out_ok st) outs ->
    operate_accounts outs st = Done st' ->
    kept st st' /\ exists W burnt D,
      supply (commit st') WICC + nsum (map subtr outs) + burnt + two64 * W =
        supply (commit st) WICC + nsum (map added outs) /\
      (forall s, s <> WICC -> supply (commit st') s = supply (commit st) s) /\
      (existsb lost outs = false -> burnt = 0) /\
      (W = 0 ->
        (forall k s b, Z.of_N (lbal (commit st') k s b) = (Z.of_N (lbal (commit st) k s b) + D k s b)%Z) /\
        (forall k s b, s <> WICC \/ b <> BFree -> D k s b = 0%Z) /\
        (forall k, k <> contract -> (0 <= D k WICC BFree)%Z) /\
        (- Z.of_N (nsum (map subtr outs)) <= D contract WICC BFree)%Z).
  Proof.
    induction outs as [|o outs IH]; intros st st' T Hc Hf H; cbn [LuaModel.operate_accounts] in H.
    - inversion H; subst. split; [apply kept_refl; auto|]. exists 0, 0, zero3. unfold zero3.
      cbn [map nsum fold_right]. split; [lia|]. split; [auto|]. split; [auto|].
      intros _. split; [intros; lia|]. split; [auto|]. split; intros; lia.
    - inversion Hf as [|? ? Ho Hf']; subst.
      cbn [map nsum fold_right existsb]. fold (nsum (map subtr outs)). fold (nsum (map added outs)).
      destruct (uid_empty (account_id st (w_to o))) eqn:Eu.
      + destruct (n_ver e <=? ver_r2); [|discriminate].
        destruct (is_reg (account_id st (w_to o))) eqn:Er; [discriminate|]. cbn [andb negb] in H.
        pose proof (account_id_empty _ _ _ T eq_refl Eu Er) as Hl.
        destruct (ok (operate_balance (new_account 0) _ _ _ _)) eqn:Eok; [|discriminate].
        destruct (IH _ _ T Hc Hf' H) as (K & W & burnt & D & S1 & S2 & S3 & S4).
        split; auto. exists W, (burnt + w_money o), D.
        assert (Eo : w_op o = 1).
        { destruct Ho as [E|(E & _ & Ea)]; auto. rewrite Ea in Er. discriminate. }
        unfold subtr at 1 3, added at 1, lost at 1. rewrite Eo, Hl. cbn [N.eqb Pos.eqb].
        split; [lia|]. split; [auto|]. split; [discriminate|]. exact S4.
      + destruct (find_or_new st (account_id st (w_to o))) as [[k st1]|] eqn:F; [|discriminate].
        cbn [need bind] in H.
        destruct (find_or_new_some _ _ _ _ T F) as (K1 & M1 & Hk & _).
        destruct (m_operate st1 k WICC (balance_op_of (w_op o)) (w_money o) None) as [[|] st2] eqn:O; [|discriminate].
        assert (T1 : tinv st1) by apply K1.
        assert (HN : forall k0 : N, None = Some k0 -> l_get (t_mem st1) k0 <> None) by discriminate.
        pose proof (m_operate_kept _ _ _ _ _ _ _ _ T1 Hk HN O) as K2.
        pose proof (kept_trans _ _ _ K1 K2) as K12. assert (T2 : tinv st2) by apply K2.
        assert (Hf2 : Forall (out_ok st2) outs).
        { eapply Forall_impl; [|exact Hf']. intros x Hx. eapply out_ok_kept; eauto. }
        destruct (IH st2 st' T2 (kp_mem _ _ K12 _ Hc) Hf2 H) as (K3 & W & burnt & D & S1 & S2 & S3 & S4).
        split; [eapply kept_trans; eauto|].
        pose proof (m_operate_commit pk_keyid st1 k WICC (balance_op_of (w_op o)) (w_money o) None T1 Hk HN) as C.
        cbv zeta in C. rewrite O in C. cbn [fst snd] in C. destruct C as (_ & Fl & Lq & _).
        destruct (l_operate (commit st1) k WICC (balance_op_of (w_op o)) (w_money o) None) as [bb L'] eqn:El.
        cbn [fst snd] in Fl, Lq. subst bb.
        assert (W1 : ledger_wf (commit st1)) by (eapply commit_wf; eauto).
        assert (W2 : ledger_wf (commit st2)) by (eapply commit_wf; eauto).
        assert (WL : ledger_wf L') by (exact (l_operate_wf _ _ _ _ _ _ _ _ W1 El)).
        assert (HC : l_get (commit st1) k <> None).
        { rewrite (commit_get pk_keyid _ _ T1). destruct (l_get (t_mem st1) k); congruence. }
        assert (SL : forall s, supply (commit st2) s = supply L' s) by (intros; apply leq_supply; auto).
        assert (BL : forall k s b, lbal (commit st2) k s b = lbal L' k s b) by (intros; apply leq_lbal; auto).
        assert (S0 : forall s, supply (commit st1) s = supply (commit st) s) by apply M1.
        assert (B0 : forall k s b, lbal (commit st1) k s b = lbal (commit st) k s b).
        { intros. pose proof (mv_bal _ _ _ _ _ M1 k0 s b). unfold zero3 in *. lia. }
        assert (NW : forall s, s <> WICC -> String.eqb s WICC = false) by (intros; apply String.eqb_neq; auto).
        assert (Lost : lost o || existsb lost outs = false -> burnt = 0).
        { intros Hx. apply orb_false_iff in Hx as [_ Hx]. auto. }
        destruct Ho as [Eo|(Eo & Er & Ea)]; unfold subtr at 1 3, added at 1; rewrite Eo in *; cbn [N.eqb Pos.eqb balance_op_of] in *.
        * destruct (l_add_wrap _ _ _ _ _ _ W1 HC El)
            as (_ & V & A1 & A2 & A3).
          exists (W + V), burnt, (fun k0 s b => D k0 s b + Z.of_N (at_place (Some (k, BFree)) WICC (w_money o) k0 s b))%Z.
          split. { specialize (A1 WICC). rewrite String.eqb_refl in A1. rewrite SL in S1. rewrite S0 in A1. lia. }
          split. { intros s Hn. rewrite (S2 s Hn), SL. specialize (A1 s). rewrite (NW s Hn), S0 in A1. lia. }
          split; [exact Lost|].
          intros HW. assert (W = 0) by lia. assert (V = 0) by lia. subst W V. clear HW.
          destruct (S4 eq_refl) as (E1 & E2 & E3 & E4). split; [|split; [|split]].
          -- intros k0 s b. rewrite E1, BL. unfold at_place.
             destruct ((k0 =? k) && String.eqb s WICC && bucket_eqb b BFree) eqn:Ep.
             ++ apply andb_true_iff in Ep as [Ep E5]. apply andb_true_iff in Ep as [E6 E7].
                apply N.eqb_eq in E6; apply String.eqb_eq in E7; apply bucket_eqb_ok in E5; subst.
                rewrite B0 in A3. lia.
             ++ rewrite A2, B0; [lia|].
                destruct (k0 =? k) eqn:X1; [|left; lia]. destruct (String.eqb s WICC) eqn:X2.
                ** right; right. intros ->. discriminate.
                ** right; left. intros ->. rewrite String.eqb_refl in X2. discriminate.
          -- intros k0 s b Hn. rewrite (E2 k0 s b Hn). unfold at_place.
             destruct ((k0 =? k) && String.eqb s WICC && bucket_eqb b BFree) eqn:Ep; [|lia].
             apply andb_true_iff in Ep as [Ep E5]. apply andb_true_iff in Ep as [E6 E7].
             apply String.eqb_eq in E7; apply bucket_eqb_ok in E5. tauto.
          -- intros k0 Hn. specialize (E3 k0 Hn). lia.
          -- lia.
        * rewrite Ea in F. rewrite self_found in F by auto. inversion F; subst k st1; clear F.
          destruct (l_sub_exact _ _ _ _ _ W1 El) as (A1 & A2 & A3).
          exists W, burnt, (fun k0 s b => D k0 s b - Z.of_N (at_place (Some (contract, BFree)) WICC (w_money o) k0 s b))%Z.
          split. { specialize (A1 WICC). rewrite String.eqb_refl in A1. rewrite SL in S1. lia. }
          split. { intros s Hn. rewrite (S2 s Hn), SL. specialize (A1 s). rewrite (NW s Hn) in A1. lia. }
          split; [exact Lost|].
          intros HW. destruct (S4 HW) as (E1 & E2 & E3 & E4). split; [|split; [|split]].
          -- intros k0 s b. rewrite E1, BL. unfold at_place.
             destruct ((k0 =? contract) && String.eqb s WICC && bucket_eqb b BFree) eqn:Ep.
             ++ apply andb_true_iff in Ep as [Ep E5]. apply andb_true_iff in Ep as [E6 E7].
                apply N.eqb_eq in E6; apply String.eqb_eq in E7; apply bucket_eqb_ok in E5; subst. lia.
             ++ rewrite A2; [lia|].
                destruct (k0 =? contract) eqn:X1; [|left; lia]. destruct (String.eqb s WICC) eqn:X2.
                ** right; right. intros ->. discriminate.
                ** right; left. intros ->. rewrite String.eqb_refl in X2. discriminate.
          -- intros k0 s b Hn. rewrite (E2 k0 s b Hn). unfold at_place.
             destruct ((k0 =? contract) && String.eqb s WICC && bucket_eqb b BFree) eqn:Ep; [|lia].
             apply andb_true_iff in Ep as [Ep E5]. apply andb_true_iff in Ep as [E6 E7].
             apply String.eqb_eq in E7; apply bucket_eqb_ok in E5. tauto.
          -- intros k0 Hn. specialize (E3 k0 Hn). unfold at_place.
             replace (k0 =? contract) with false by (symmetry; apply N.eqb_neq; auto). cbn [andb]. lia.
          -- unfold at_place. rewrite N.eqb_refl, String.eqb_refl. cbn [andb bucket_eqb]. lia.
  Qed.

  (** *** The empty key id *)
  Definition nokey (st : txst) : Prop := l_get (t_acc st) 0 = None /\ l_get (t_mem st) 0 = None.

  Lemma nokey_put st k a : nokey st -> k <> 0 -> nokey (set_mem st (fput N.eqb (t_mem st) k a)).
  Proof.
    intros [A B] Hk. split; [exact A|]. unfold l_get, set_mem in *. cbn [t_mem].
    rewrite (fget_put_other N.eqb N_eqb_ok); auto.
  Qed.

  Lemma get_account_nokey st u o st' : nokey st -> get_account pk_keyid st u = (o, st') ->
    nokey st' /\ o <> Some 0.
  Proof.
    intros [A B] G. unfold get_account in G.
    destruct (match t_key st with Some _ => _ | None => None end) as [k0|] eqn:Es.
    - inversion G; subst. split; [split; auto|]. intros X; inversion X; subst.
      destruct (t_key st') as [k1|]; [|discriminate].
      destruct (fget N.eqb (t_mem st') k1) eqn:Em; [|discriminate].
      destruct (_ && _); [|discriminate]. inversion Es; subst. unfold l_get in B. congruence.
    - destruct (get_key_id _ _ _) as [k1|]; [|inversion G; subst; split; [split; auto|discriminate]].
      destruct (fget N.eqb (t_mem st) k1) eqn:Em.
      + inversion G; subst. split; [split; auto|]. intros X; inversion X; subst. unfold l_get in B. congruence.
      + destruct (l_get (t_acc st) k1) as [a|] eqn:Ea; [|inversion G; subst; split; [split; auto|discriminate]].
        inversion G; subst. split; [apply nokey_put; [split; auto|congruence] | congruence].
  Qed.

  Lemma vm_account_nokey st u o st' : nokey st -> vm_account st u = (o, st') -> nokey st'.
  Proof.
    intros K. unfold LuaModel.vm_account.
    destruct (match fget N.eqb (t_mem st) contract with Some a => _ | None => _ end).
    { intros H; inversion H; subst; auto. }
    destruct (match fget N.eqb (t_mem st) sender with Some a => _ | None => _ end).
    { intros H; inversion H; subst; auto. }
    intros H. apply (get_account_nokey st u o st' K H).
  Qed.

  Lemma find_or_new_nokey st u k st' : nokey st -> u <> UKey 0 ->
    find_or_new st u = Some (k, st') -> nokey st'.
  Proof.
    intros K Hu. unfold LuaModel.find_or_new. destruct (vm_account st u) as [o st0] eqn:G.
    pose proof (vm_account_nokey _ _ _ _ K G) as K0. destruct o as [k0|].
    - intros H; inversion H; subst; auto.
    - destruct u as [| k1 | |]; try discriminate. intros H; inversion H; subst.
      unfold new_mem_account. destruct (fget N.eqb (t_mem st0) k); auto.
      apply nokey_put; auto. congruence.
  Qed.

  Lemma m_operate_nokey st who s o v other b st' :
    tinv st -> nokey st -> m_operate st who s o v other = (b, st') -> nokey st'.
  Proof.
    intros T [A B] H. unfold m_operate in H.
    destruct (l_operate (t_mem st) who s o v other) as [b0 m'] eqn:E. inversion H; subst. split; [exact A|].
    apply (l_operate_none _ _ _ _ _ _ _ _ 0 E). exact B.
  Qed.

  Lemma transfer_all_nokey : forall ts st b st',
    tinv st -> l_get (t_mem st) sender <> None -> l_get (t_mem st) contract <> None -> nokey st ->
    forallb (fun t => match y_to t with UKey 0 => false | _ => true end) ts = true ->
    transfer_all ts st = (b, st') -> nokey st'.
  Proof.
    induction ts as [|t ts IH]; intros st b st' T Hs Hc K Ha H; cbn [LuaModel.transfer_all forallb] in *.
    - inversion H; subst; auto.
    - apply andb_true_iff in Ha as [Ha1 Ha2].
      destruct (find_or_new st (y_to t)) as [[d st1]|] eqn:F; [|inversion H; subst; auto].
      assert (K1 : nokey st1).
      { eapply find_or_new_nokey; [exact K| |exact F]. intros E. rewrite E in Ha1. discriminate. }
      destruct (find_or_new_some _ _ _ _ T F) as (P1 & _ & Hd & _).
      set (who := if y_contract t then contract else sender) in H.
      assert (Hw : l_get (t_mem st1) who <> None) by (unfold who; destruct (y_contract t); apply P1; auto).
      assert (T1 : tinv st1) by apply P1.
      destruct (m_operate st1 who (y_symbol t) SubFree (y_amount t) (Some d)) as [[|] st2] eqn:O.
      + assert (Ho : forall k, Some d = Some k -> l_get (t_mem st1) k <> None) by (intros k E; inversion E; subst; auto).
        pose proof (m_operate_kept _ _ _ _ _ _ _ _ T1 Hw Ho O) as P2.
        eapply (IH st2); eauto using m_operate_nokey.
        * apply P2.
        * apply P2, P1; auto.
        * apply P2, P1; auto.
      + inversion H; subst. eapply m_operate_nokey; eauto.
  Qed.

  Lemma operate_accounts_nokey : forall outs st st',
    tinv st -> nokey st -> operate_accounts outs st = Done st' -> nokey st'.
  Proof.
    induction outs as [|o outs IH]; intros st st' T K H; cbn [LuaModel.operate_accounts] in H.
    - inversion H; subst; auto.
    - destruct (uid_empty (account_id st (w_to o))) eqn:Eu.
      + destruct (_ && _); [|discriminate]. destruct (ok _); [|discriminate]. eauto.
      + destruct (find_or_new st (account_id st (w_to o))) as [[k st1]|] eqn:F; [|discriminate].
        cbn [need bind] in H.
        assert (K1 : nokey st1).
        { eapply find_or_new_nokey; [exact K| |exact F]. intros E. rewrite E in Eu. discriminate. }
        destruct (find_or_new_some _ _ _ _ T F) as (P1 & _ & Hk & _).
        assert (T1 : tinv st1) by apply P1.
        destruct (m_operate st1 k WICC (balance_op_of (w_op o)) (w_money o) None) as [[|] st2] eqn:O; [|discriminate].
        assert (HN : forall k0 : N, None = Some k0 -> l_get (t_mem st1) k0 <> None) by discriminate.
        pose proof (m_operate_kept _ _ _ _ _ _ _ _ T1 Hk HN O) as P2.
        eapply (IH st2); eauto using m_operate_nokey. apply P2.
  Qed.

  (** *** The calls *)
  Notation step := (step pk_keyid addr_of key_of sender contract e).
  Notation steps := (steps pk_keyid addr_of key_of sender contract e).

  Definition outs_of (cs : list call) : list vmop :=
    flat_map (fun c => match c with WriteOutput o => [o] | _ => [] end) cs.

  Lemma step_tx P v c b v' :
    step P v c = Done (b, v') ->
    m_out v' = m_out v ++ outs_of [c] /\
    match c with
    | TransferAccountAssets ts =>
        m_tx v' = m_tx v \/ exists b', transfer_all ts (m_tx v) = (b', m_tx v')
    | _ => m_tx v' = m_tx v
    end.
  Proof.
    intros H. unfold LuaModel.step in H. destruct c as [o|o|recv|recv h money tl tag|ts]; cbn [outs_of flat_map]; rewrite ?app_nil_r.
    - inversion H; subst; auto.
    - destruct (_ || _); [inversion H; subst; auto|].
      destruct (_ && _); inversion H; subst; auto.
    - destruct (negb (_ =? 34)); [inversion H; subst; auto|].
      unfold asserted, bind in H. destruct (negb _); [|discriminate]. destruct (negb _); [|discriminate].
      destruct (bytes_eqb _ _); [inversion H; subst; auto|].
      destruct (key_of recv =? 0); [inversion H; subst; auto|].
      destruct (fget bytes_eqb P _); [|inversion H; subst; auto].
      destruct (auto_merge _ _). inversion H; subst; auto.
    - destruct (negb (_ =? 34)); [inversion H; subst; auto|].
      unfold asserted, bind in H. destruct (negb _); [|discriminate].
      destruct (bytes_eqb _ _); [inversion H; subst; auto|].
      destruct (key_of recv =? 0); [inversion H; subst; auto|].
      destruct (money =? 0); [inversion H; subst; auto|].
      destruct (_ <? _)%Z; [inversion H; subst; auto|].
      destruct (tl <=? max_tag); [|discriminate]. inversion H; subst; auto.
    - destruct (_ <? _); [discriminate|]. destruct (_ || _); [inversion H; subst; auto|].
      destruct (_ <? _); [inversion H; subst; auto|].
      destruct (transfer_all ts (m_tx v)) as [b' st] eqn:E. inversion H; subst. simpl. split; auto.
      right; eauto.
  Qed.

  Lemma steps_ok : forall cs P v v',
    tinv (m_tx v) -> l_get (t_mem (m_tx v)) sender <> None -> l_get (t_mem (m_tx v)) contract <> None ->
    (forall s, supply (commit (m_tx v)) s < two64) ->
    steps P v cs = Done v' ->
    kept (m_tx v) (m_tx v') /\ m_out v' = m_out v ++ outs_of cs /\
    (forallb addressed cs = true -> nokey (m_tx v) -> nokey (m_tx v')) /\
    exists D, moved (m_tx v) (m_tx v') D 0 /\ fair D /\
      (existsb drains cs = false -> sender <> contract -> quiet D) /\
      (existsb charges cs = false -> sender <> contract -> spared D).
  Proof.
    induction cs as [|c cs IH]; intros P v v' T Hs Hc Hb H; cbn [LuaModel.steps] in H.
    - inversion H; subst. split; [apply kept_refl; auto|]. split; [simpl; now rewrite app_nil_r|].
      split; auto. exists zero3. split; [apply moved_refl; auto|]. split; [apply fair_zero|].
      split; unfold quiet, spared, zero3; intros; lia.
    - destruct (step P v c) as [[b v1]| | |] eqn:E; try discriminate. cbn [bind snd] in H.
      destruct (step_tx _ _ _ _ _ E) as [O1 X].
      assert (A : kept (m_tx v) (m_tx v1) /\
        (addressed c = true -> nokey (m_tx v) -> nokey (m_tx v1)) /\
        exists D, moved (m_tx v) (m_tx v1) D 0 /\ fair D /\
        (drains c = false -> sender <> contract -> quiet D) /\
        (charges c = false -> sender <> contract -> spared D)).
      { assert (Same : m_tx v1 = m_tx v -> kept (m_tx v) (m_tx v1) /\
          (addressed c = true -> nokey (m_tx v) -> nokey (m_tx v1)) /\
          exists D, moved (m_tx v) (m_tx v1) D 0 /\ fair D /\
          (drains c = false -> sender <> contract -> quiet D) /\
          (charges c = false -> sender <> contract -> spared D)).
        { intros ->. split; [apply kept_refl; auto|]. split; auto. exists zero3.
          split; [apply moved_refl; auto|]. split; [apply fair_zero|].
          split; unfold quiet, spared, zero3; intros; lia. }
        destruct c as [o|o|recv|recv h money tl tag|ts]; auto.
        destruct X as [X|[b' X]]; auto.
        destruct (transfer_all_ok _ _ _ _ T Hs Hc Hb X) as (K & D & M & F & Q & S).
        split; auto. split; [|exists D; auto].
        intros Ha Hn. eapply transfer_all_nokey; eauto. }
      destruct A as (K1 & N1 & D1 & M1 & F1 & Q1 & S1).
      destruct (IH P v1 v') as (K2 & O2 & N2 & D2 & M2 & F2 & Q2 & S2); auto; try (apply K1; auto).
      { intros s. rewrite (mv_supply _ _ _ _ _ M1). auto. }
      split; [eapply kept_trans; eauto|]. split.
      { rewrite O2, O1. unfold outs_of. cbn [flat_map]. now rewrite app_nil_r, <- app_assoc. }
      split. { cbn [forallb]. intros Ha Hn. apply andb_true_iff in Ha as [Ha1 Ha2]. auto. }
      eexists. split; [eapply moved_trans; [exact M1|exact M2|intros; reflexivity|reflexivity]|].
      split; [apply fair_plus; auto|].
      split; cbn [existsb]; intros Hx Hn; apply orb_false_iff in Hx as [Hx1 Hx2].
      + specialize (Q1 Hx1 Hn). specialize (Q2 Hx2 Hn). unfold quiet in *. lia.
      + specialize (S1 Hx1 Hn). specialize (S2 Hx2 Hn). unfold spared in *. intros s.
        specialize (S1 s). specialize (S2 s). lia.
  Qed.

  Lemma outs_subtr : forall cs, nsum (map subtr (outs_of cs)) = withdrawn cs.
  Proof.
    induction cs as [|c cs IH]; [reflexivity|]. unfold outs_of, withdrawn in *. cbn [flat_map map].
    rewrite map_app, nsum_app, IH. cbn [nsum fold_right]. f_equal.
    destruct c; cbn; rewrite ?N.add_0_r; reflexivity.
  Qed.

  Lemma outs_lost : forall cs, forallb addressed cs = true -> existsb lost (outs_of cs) = false.
  Proof.
    induction cs as [|c cs IH]; [reflexivity|]. cbn [forallb]. intros H. apply andb_true_iff in H as [H1 H2].
    unfold outs_of in *. cbn [flat_map]. rewrite existsb_app, IH by auto. rewrite orb_false_r.
    destruct c as [o|o|recv|recv h money tl tag|ts]; try reflexivity. cbn. unfold addressed in H1. unfold lost.
    destruct (w_to o) as [r|[|p]]; auto; discriminate.
  Qed.

  (** The run as a whole. *)
  Lemma execute_contract_ok P sc st st' P' :
    tinv st -> l_get (t_mem st) sender <> None -> l_get (t_mem st) contract <> None ->
    (forall s, supply (commit st) s < two64) ->
    execute_contract pk_keyid addr_of key_of sender contract e P sc st = Done (st', P') ->
    kept st st' /\ (forallb addressed (s_calls sc) = true -> nokey st -> nokey st') /\
    exists D burnt,
      (forall s, supply (commit st') s + burnt s = supply (commit st) s) /\
      (forallb addressed (s_calls sc) = true -> forall s, burnt s = 0) /\
      (forall k s b, Z.of_N (lbal (commit st') k s b) = (Z.of_N (lbal (commit st) k s b) + D k s b)%Z) /\
      fair D /\
      (existsb drains (s_calls sc) = false -> sender <> contract ->
         (- Z.of_N (withdrawn (s_calls sc)) <= D contract WICC BFree)%Z) /\
      (existsb charges (s_calls sc) = false -> sender <> contract -> spared D).
  Proof.
    intros T Hs Hc Hb H. unfold execute_contract in H.
    destruct (steps P (mkVm st [] [] 0) (s_calls sc)) as [v| | |] eqn:E1; try discriminate.
    cbn [bind] in H. destruct (guard (s_ends sc)) as [[]| | |]; try discriminate. cbn [bind] in H.
    destruct (check_outs contract (m_tx v) (m_out v) 0 0) as [[]| | |] eqn:E2; try discriminate. cbn [bind] in H.
    destruct (operate_accounts (m_out v) (m_tx v)) as [st2| | |] eqn:E3; try discriminate. cbn [bind] in H.
    destruct (guard _); try discriminate. cbn [bind] in H.
    destruct (asserted _); try discriminate. cbn [bind] in H.
    destruct (operate_users e P (m_ops v)) as [P2| | |]; try discriminate. cbn [bind] in H.
    inversion H; subst st2 P2; clear H.
    destruct (steps_ok _ P (mkVm st [] [] 0) v T Hs Hc Hb E1) as (K1 & O1 & N1 & D1 & M1 & F1 & Q1 & S1).
    cbn [m_tx m_out app] in *. destruct (check_outs_ok _ _ _ _ E2) as (A1 & A2 & A3).
    assert (T1 : tinv (m_tx v)) by apply K1.
    destruct (operate_accounts_ok _ _ _ T1 (kp_mem _ _ K1 _ Hc) A2 E3) as (K2 & W & burnt & D2 & B1 & B2 & B3 & B4).
    assert (HW : W = 0).
    { rewrite (mv_supply _ _ _ _ _ M1 WICC) in B1. specialize (Hb WICC).
      rewrite !N.add_0_l in A1. rewrite A1 in B1. clear - B1 Hb. destruct W; [reflexivity|]. unfold two64 in *. lia. }
    destruct (B4 HW) as (C1 & C2 & C3 & C4). subst W.
    split; [eapply kept_trans; eauto|]. split.
    { intros Ha Hn. eapply operate_accounts_nokey; [exact T1| |exact E3]. auto. }
    exists (fun k s b => D1 k s b + D2 k s b)%Z, (fun s => if String.eqb s WICC then burnt else 0).
    split; [|split; [|split; [|split; [|split]]]].
    - intros s. rewrite <- (mv_supply _ _ _ _ _ M1 s). destruct (String.eqb s WICC) eqn:Es.
      + apply String.eqb_eq in Es; subst s. lia.
      + apply String.eqb_neq in Es. rewrite (B2 s Es). lia.
    - intros Ha s. rewrite B3; [destruct (String.eqb s WICC); auto|]. rewrite O1. apply outs_lost; auto.
    - intros k s b. rewrite C1, (mv_bal _ _ _ _ _ M1). lia.
    - destruct F1 as [F1 F2]. split.
      + intros k s b Hn. rewrite F1, C2; auto.
      + intros k s Hk Hk2. specialize (F2 k s Hk Hk2). destruct (String.eqb s WICC) eqn:Es.
        * apply String.eqb_eq in Es; subst s. specialize (C3 k Hk2). lia.
        * apply String.eqb_neq in Es. rewrite C2; auto. lia.
    - intros Hd Hn. specialize (Q1 Hd Hn). unfold quiet in Q1. rewrite O1, outs_subtr in C4. lia.
    - intros Hd Hn s. specialize (S1 Hd Hn s). destruct (String.eqb s WICC) eqn:Es.
      + apply String.eqb_eq in Es; subst s. specialize (C3 sender Hn). lia.
      + apply String.eqb_neq in Es. rewrite C2; auto. lia.
  Qed.
  End Run.
End LuaProofs.
