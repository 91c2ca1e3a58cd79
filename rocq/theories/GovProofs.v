(** Proofs about governance proposals. *)
From Coq Require Import String List Bool Arith NArith Lia.
From Verif Require Import Prelude PreludeFacts AccountModel TxProofs GovModel GovSpec.
Import ListNotations.
Open Scope N_scope.

Section GovProofs.
  Context {A P : Type}.
  Variable by_delegates : P -> bool.
  Variable is_axc : P -> bool.
  Variable is_axc_out : P -> bool.
  Variable delegates : A -> option (list (N * N)).
  Variable stored_governors : A -> list (N * N).
  Variable expire_count : A -> N.
  Variable genesis_height : N.
  Variable check : P -> A -> N -> bool.
  Variable exec : P -> A -> N -> list (N * N) -> option A.
  Variable sign : P -> P.
  Variable own : P -> (N * N) -> P.

  Notation gov := (@gov A P).
  Notation approve := (approve by_delegates is_axc_out delegates stored_governors genesis_height
                        check exec sign).
  Notation request := (request by_delegates is_axc is_axc_out delegates stored_governors
                         expire_count genesis_height check own).
  Notation electorate := (electorate by_delegates delegates stored_governors genesis_height).
  Notation step := (step by_delegates is_axc is_axc_out delegates stored_governors expire_count
                      genesis_height check exec sign own).
  Notation run := (run by_delegates is_axc is_axc_out delegates stored_governors expire_count
                      genesis_height check exec sign own).

  Lemma existsb_regid r l : existsb (regid_eqb r) l = true <-> In r l.
  Proof.
    rewrite existsb_exists. split.
    - intros (x & Hi & E). apply regid_eqb_ok in E. subst; auto.
    - intros Hi. exists r. split; auto. apply regid_eqb_ok; auto.
  Qed.

  (** What the trace so far says about the tables. *)
  Record inv (tr : list accepted) (g : gov) : Prop := {
    iv_appr : forall id, get_approvals g id = approvers tr id;
    iv_nodup : forall id, NoDup (approvers tr id);
    iv_prop : forall id pr, fget N.eqb (v_props g) id = Some pr ->
       In (Requested id (pr_min pr) (pr_expiry pr)) tr /\
       (List.length (approvers tr id) <= N.to_nat (pr_min pr))%nat /\
       happenings tr id =
         (if (0 <? pr_min pr) && (N.of_nat (List.length (approvers tr id)) =? pr_min pr) then 1%nat else 0%nat);
    iv_none : forall id, fget N.eqb (v_props g) id = None ->
       ~ In id (requested_ids tr) /\ approvers tr id = [] /\ happenings tr id = 0%nat }.

  Lemma approvers_app : forall t1 t2 id, approvers (t1 ++ t2) id = approvers t1 id ++ approvers t2 id.
  Proof.
    induction t1 as [|[|] t1 IH]; intros t2 i; simpl; auto.
    destruct (id =? i); simpl; rewrite IH; auto.
  Qed.
  Lemma happenings_app : forall t1 t2 id,
    happenings (t1 ++ t2) id = (happenings t1 id + happenings t2 id)%nat.
  Proof.
    induction t1 as [|[|? ? ? ? [|]] t1 IH]; intros t2 i; simpl; auto. rewrite IH. lia.
  Qed.
  Lemma requested_app : forall t1 t2, requested_ids (t1 ++ t2) = requested_ids t1 ++ requested_ids t2.
  Proof. induction t1 as [|[|] t1 IH]; intros t2; simpl; auto. f_equal; auto. Qed.
  Lemma requested_in : forall tr id m l, In (Requested id m l) tr -> In id (requested_ids tr).
  Proof.
    induction tr as [|[|] tr IH]; simpl; intros i m l H; auto.
    - destruct H as [E|H]; [inversion E; auto|right; eauto].
    - destruct H as [E|H]; [discriminate|eauto].
  Qed.

  Lemma inv_request tr g id p who h g' : inv tr g -> request g id p who h = Some g' ->
    ~ In id (requested_ids tr) ->
    exists pr, fget N.eqb (v_props g') id = Some pr /\
      inv (tr ++ [Requested id (pr_min pr) (pr_expiry pr)]) g'.
  Proof.
    intros I H Hn. unfold GovModel.request in H. destruct (check p (v_rest g) h); [|discriminate].
    inversion H; subst g'; clear H. cbn [v_props]. eexists. rewrite (fget_put_same N.eqb N_eqb_ok).
    split; [reflexivity|].
    assert (Hno : fget N.eqb (v_props g) id = None).
    { destruct (fget N.eqb (v_props g) id) as [pr|] eqn:E; auto.
      destruct (iv_prop _ _ I _ _ E) as [Hin _]. elim Hn. eapply requested_in; eauto. }
    destruct (iv_none _ _ I _ Hno) as (_ & Ha & Hh).
    constructor; cbn [v_props v_appr pr_min pr_expiry].
    - intros i. rewrite approvers_app. simpl. rewrite app_nil_r. exact (iv_appr _ _ I i).
    - intros i. rewrite approvers_app. simpl. rewrite app_nil_r. apply I.
    - intros i pr E. rewrite (fget_put N.eqb N_eqb_ok) in E.
      rewrite approvers_app, happenings_app. simpl. rewrite app_nil_r, Nat.add_0_r.
      destruct (N.eqb_spec i id).
      + subst i. inversion E; subst pr; clear E. cbn [pr_min pr_expiry].
        rewrite Ha, Hh. split; [apply in_app_iff; right; left; auto|]. split; [simpl; lia|].
        simpl. match goal with |- context [0 <? ?m] => destruct m eqn:Em end; auto.
      + destruct (iv_prop _ _ I _ _ E) as (H1 & H2 & H3). split; [apply in_app_iff; auto|]. auto.
    - intros i E. rewrite (fget_put N.eqb N_eqb_ok) in E.
      destruct (N.eqb_spec i id); [discriminate|].
      destruct (iv_none _ _ I _ E) as (H1 & H2 & H3).
      rewrite requested_app, approvers_app, happenings_app. simpl. rewrite app_nil_r, Nat.add_0_r.
      split; auto. rewrite in_app_iff. simpl. intuition congruence.
  Qed.

  (** What an accepted approval looks like. *)
  Lemma approve_some g id who h s g' now : approve g id who h s = Some (g', now) ->
    exists pr, fget N.eqb (v_props g) id = Some pr /\
      In who (electorate (pr_body pr) (v_rest g)) /\ h <= pr_expiry pr /\
      (List.length (get_approvals g id) < N.to_nat (pr_min pr))%nat /\
      ~ In who (get_approvals g id) /\
      now = (N.of_nat (List.length (get_approvals g id ++ [who])) =? pr_min pr) /\
      v_appr g' = fput N.eqb (v_appr g) id (get_approvals g id ++ [who]) /\
      (exists pr', fget N.eqb (v_props g') id = Some pr' /\ pr_min pr' = pr_min pr /\ pr_expiry pr' = pr_expiry pr) /\
      (forall i, i <> id -> fget N.eqb (v_props g') i = fget N.eqb (v_props g) i) /\
      (if now then check (pr_body pr) (v_rest g) h = true /\
                   exec (pr_body pr) (v_rest g) h (get_approvals g id ++ [who]) = Some (v_rest g')
       else v_rest g' = v_rest g).
  Proof.
    clear is_axc expire_count own.
    unfold GovModel.approve. destruct (fget N.eqb (v_props g) id) as [pr|] eqn:Ep; [|discriminate].
    destruct (is_governor _ _ _ _ (pr_body pr) (v_rest g) who) eqn:Eg; cbn [negb]; [|discriminate].
    destruct (is_axc_out (pr_body pr) && negb s); [discriminate|].
    destruct (N.leb_spec (pr_min pr) (N.of_nat (List.length (get_approvals g id)))); [discriminate|].
    destruct (N.ltb_spec (pr_expiry pr) h); [discriminate|].
    unfold set_approval. destruct (existsb (regid_eqb who) (get_approvals g id)) eqn:Ee; [discriminate|].
    set (now0 := _ + 1 =? _).
    intros Hx. exists pr. split; auto.
    assert (En : now0 = (N.of_nat (List.length (get_approvals g id ++ [who])) =? pr_min pr)).
    { unfold now0. rewrite app_length. simpl. f_equal. lia. }
    destruct (if now0 then if check (pr_body pr) (v_rest g) h then exec (pr_body pr) (v_rest g) h (get_approvals g id ++ [who]) else None else Some (v_rest g)) as [a'|] eqn:Er; [|discriminate].
    inversion Hx; subst g' now; clear Hx. cbn [v_appr v_props v_rest].
    split; [apply existsb_regid; exact Eg|]. split; [lia|]. split; [lia|].
    split; [intros Hi; apply existsb_regid in Hi; congruence|]. split; [exact En|]. split; [reflexivity|].
    split.
    { destruct (is_axc_out (pr_body pr)).
      - rewrite (fget_put_same N.eqb N_eqb_ok). eexists. split; [reflexivity|]. auto.
      - eauto. }
    split.
    { intros i Hi. destruct (is_axc_out (pr_body pr)); auto.
      apply (fget_put_other N.eqb N_eqb_ok). auto. }
    destruct now0; [|inversion Er; auto].
    destruct (check (pr_body pr) (v_rest g) h); [|discriminate]. auto.
  Qed.

  Lemma nodup_snoc {T} (l : list T) x : NoDup l -> ~ In x l -> NoDup (l ++ [x]).
  Proof.
    induction l as [|y l IH]; simpl; intros Hn Hx; [constructor; auto; constructor|].
    inversion Hn; subst. constructor.
    - rewrite in_app_iff. simpl. intuition congruence.
    - apply IH; auto.
  Qed.

  Lemma inv_approve tr g id who h s g' now ent : inv tr g -> approve g id who h s = Some (g', now) ->
    inv (tr ++ [Approved id who h ent now]) g'.
  Proof.
    intros I H. destruct (approve_some _ _ _ _ _ _ _ H) as
      (pr & Ep & _ & Hh & Hlt & Hni & Hnow & Ha & (pr' & Ep' & Em & Ex) & Hoth & _).
    rewrite (iv_appr _ _ I) in *.
    destruct (iv_prop _ _ I _ _ Ep) as (P1 & P2 & P3).
    constructor.
    - intros i. unfold get_approvals. rewrite Ha, (fget_put N.eqb N_eqb_ok), approvers_app. simpl.
      rewrite (N.eqb_sym id i). destruct (N.eqb_spec i id); [subst; auto|].
      rewrite app_nil_r. exact (iv_appr _ _ I i).
    - intros i. rewrite approvers_app. simpl. destruct (N.eqb_spec id i).
      + subst i. apply nodup_snoc; auto. apply I.
      + rewrite app_nil_r. apply I.
    - intros i pr0 E0. destruct (N.eqb_spec i id) as [->|Hi].
      + rewrite Ep' in E0. inversion E0; subst pr0. rewrite Em, Ex.
        rewrite approvers_app, happenings_app. simpl. rewrite N.eqb_refl.
        split; [apply in_app_iff; auto|]. split; [rewrite app_length; simpl; lia|].
        rewrite P3.
        assert ((0 <? pr_min pr) = true) as -> by (apply N.ltb_lt; lia).
        rewrite <- Hnow. cbn [andb].
        assert ((N.of_nat (Datatypes.length (approvers tr id)) =? pr_min pr) = false) as ->
          by (apply N.eqb_neq; lia).
        destruct now; auto.
      + rewrite Hoth in E0 by auto. destruct (iv_prop _ _ I _ _ E0) as (Q1 & Q2 & Q3).
        rewrite approvers_app, happenings_app. simpl.
        assert ((id =? i) = false) as -> by (apply N.eqb_neq; auto).
        rewrite app_nil_r. split; [apply in_app_iff; auto|]. split; auto. rewrite Q3.
        destruct now; simpl; rewrite Nat.add_0_r; auto.
    - intros i E0. destruct (N.eqb_spec i id) as [->|Hi]; [congruence|].
      rewrite Hoth in E0 by auto. destruct (iv_none _ _ I _ E0) as (Q1 & Q2 & Q3).
      rewrite requested_app, approvers_app, happenings_app, Q2, Q3. simpl. rewrite app_nil_r.
      assert ((id =? i) = false) as -> by (apply N.eqb_neq; auto).
      split; auto. split; auto. destruct now; auto.
  Qed.

  Definition gov0 (a : A) : gov := mkGov [] [] a.
  Lemma inv0 a : inv [] (gov0 a).
  Proof. constructor; intros; simpl in *; auto; try constructor; try discriminate; auto. Qed.

  Lemma run_good : forall es tr g g' tr', inv tr g -> run g es = (g', tr') ->
    NoDup (requested_ids (tr ++ tr')) ->
    inv (tr ++ tr') g' /\
    (forall t1 x t2, tr' = t1 ++ x :: t2 -> good_entry (tr ++ t1) x).
  Proof.
    induction es as [|e es IH]; intros tr g g' tr' I H Hnd.
    - inversion H; subst. rewrite app_nil_r. split; auto. intros [|] ? ? E; discriminate.
    - cbn [run] in H. destruct (step g e) as [g1 t1] eqn:Es. destruct (run g1 es) as [g2 t2] eqn:Er.
      inversion H; subst g' tr'; clear H. rewrite app_assoc in Hnd.
      assert (J : (inv (tr ++ t1) g1) /\ (t1 = [] \/ exists x, t1 = [x] /\ good_entry tr x)).
      { destruct e as [id p who h|id who h s|a]; cbn [step] in Es.
        - destruct (request g id p who h) as [g1'|] eqn:Eq.
          + destruct (fget N.eqb (v_props g1') id) as [pr|] eqn:Ep.
            * inversion Es; subst g1 t1; clear Es.
              assert (Hn : ~ In id (requested_ids tr)).
              { rewrite requested_app, requested_app in Hnd. simpl in Hnd.
                rewrite <- app_assoc in Hnd. simpl in Hnd. apply NoDup_remove_2 in Hnd.
                intros Hi. apply Hnd. apply in_app_iff; auto. }
              destruct (inv_request _ _ _ _ _ _ _ I Eq Hn) as (pr' & Ep' & I').
              rewrite Ep in Ep'. inversion Ep'; subst pr'. split; auto. right. eexists. split; eauto. simpl. auto.
            * exfalso. unfold GovModel.request in Eq. destruct (check p (v_rest g) h); [|discriminate].
              inversion Eq; subst g1'. cbn [v_props] in Ep. rewrite (fget_put_same N.eqb N_eqb_ok) in Ep. discriminate.
          + inversion Es; subst. rewrite app_nil_r. auto.
        - destruct (approve g id who h s) as [[g1' now]|] eqn:Eq.
          + inversion Es; subst g1 t1; clear Es. split.
            * eapply inv_approve; eauto.
            * right. eexists. split; [reflexivity|].
              destruct (approve_some _ _ _ _ _ _ _ Eq) as
                (pr & Ep & Hin & Hh & Hlt & Hni & Hnow & _).
              rewrite Ep. simpl. rewrite (iv_appr _ _ I) in *.
              split; auto. split; auto. exists (pr_min pr), (pr_expiry pr).
              split; [apply (iv_prop _ _ I _ _ Ep)|]. split; auto. split; auto.
              rewrite Hnow, N.eqb_eq, app_length. simpl. split; intros; lia.
          + inversion Es; subst. rewrite app_nil_r. auto.
        - inversion Es; subst. rewrite app_nil_r. split; auto.
          constructor; cbn [v_props]; intros; try apply I; auto. }
      destruct J as [I1 J]. destruct (IH (tr ++ t1) g1 g2 t2 I1 Er Hnd) as [I2 G2].
      rewrite app_assoc. split; auto.
      intros u x v E. destruct J as [->|(y & -> & Gy)].
      + simpl in E. rewrite app_nil_r in G2. eapply G2; eauto.
      + destruct u as [|y' u]; simpl in E; inversion E; subst.
        * rewrite app_nil_r. auto.
        * replace (tr ++ y' :: u) with ((tr ++ [y']) ++ u) by (rewrite <- app_assoc; auto).
          eapply G2; eauto.
  Qed.

  Lemma happen_once es a g' tr : run (gov0 a) es = (g', tr) -> NoDup (requested_ids tr) ->
    forall id, (happenings tr id <= 1)%nat.
  Proof.
    intros H Hn id. destruct (run_good es [] (gov0 a) g' tr (inv0 a) H Hn) as [I _]. simpl in I.
    destruct (fget N.eqb (v_props g') id) as [pr|] eqn:E.
    - destruct (iv_prop _ _ I _ _ E) as (_ & _ & ->). destruct (_ && _); auto.
    - destruct (iv_none _ _ I _ E) as (_ & _ & ->). auto.
  Qed.

  Lemma happen_good es a g' tr : run (gov0 a) es = (g', tr) -> NoDup (requested_ids tr) ->
    forall t1 x t2, tr = t1 ++ x :: t2 -> good_entry t1 x.
  Proof.
    intros H Hn. destruct (run_good es [] (gov0 a) g' tr (inv0 a) H Hn) as [_ G]. exact G.
  Qed.
End GovProofs.
