(** Proofs about the ordered containers: search trees over a strict total order are maps, and the
    caches over them are views; the candidates for a block. *)
From Coq Require Import String Ascii List Bool NArith ZArith Lia Sorted Permutation.
From Coq Require Import ZifyBool ZifyNat ZifyN.
From Verif Require Import Prelude DexModel OrderModel OrderSpec.
Import ListNotations.

Set Implicit Arguments.

Section TreeFacts.
  Variables K V C : Type.
  Variable lt : K -> K -> bool.
  Variable U : K -> Prop.
  Hypothesis irr : forall a, U a -> lt a a = false.
  Hypothesis tr : forall a b c, U a -> U b -> U c -> lt a b = true -> lt b c = true -> lt a c = true.
  Hypothesis tot : forall a b, U a -> U b -> lt a b = false -> lt b a = false -> a = b.
  Variable red : C.
  Variable rotate : tree K V C -> tree K V C.
  Hypothesis rotate_keeps : forall t, entries (rotate t) = entries t.
  Variable Keqb : K -> K -> bool.
  Hypothesis Keqb_ok : forall a b, Keqb a b = true <-> a = b.

  Definition in_order (es : list (K * V)) : Prop :=
    Forall (fun e => U (fst e)) es /\ StronglySorted (fun a b => lt (fst a) (fst b) = true) es.
  Definition fine (t : tree K V C) : Prop := in_order (entries t).

  Fixpoint assoc (es : list (K * V)) (k : K) : option V :=
    match es with [] => None | (k', v) :: es => if Keqb k k' then Some v else assoc es k end.

  Lemma order_app a b : in_order (a ++ b) <->
    in_order a /\ in_order b /\ (forall x y, In x a -> In y b -> lt (fst x) (fst y) = true).
  Proof.
    unfold in_order. induction a as [|e a IH]; simpl.
    - split; [intros [H1 H2]|intros ((_ & _) & (H1 & H2) & _)]; repeat split; auto; try constructor; tauto.
    - split.
      + intros [H1 H2]. inversion H1; subst. inversion H2; subst.
        apply Forall_app in H4 as [H4 H4']. pose proof (proj1 (Forall_app _ _ _) H6) as [H6a H6b].
        destruct IH as [IH _]. destruct IH as (I1 & I2 & I3).
        { split; [apply Forall_app; auto|auto]. }
        split; [|split].
        * split; constructor; try tauto. 
        * tauto.
        * intros x y [<-|Hx] Hy; [|auto]. rewrite Forall_forall in H6b. auto.
      + intros ((H1 & H2) & (H3 & H4) & H5). inversion H1; subst. inversion H2; subst.
        destruct IH as [_ IH]. destruct IH as [I1 I2].
        { split; [split; auto|split; [split; auto|auto]]. }
        split; constructor; auto. apply Forall_app; split; auto.
        apply Forall_forall; auto.
  Qed.

  Lemma order_cons e b : in_order (e :: b) <->
    U (fst e) /\ in_order b /\ (forall y, In y b -> lt (fst e) (fst y) = true).
  Proof.
    change (e :: b) with ([e] ++ b). rewrite order_app. split.
    - intros ((H1 & _) & H2 & H3). inversion H1; subst. split; [auto|split; [auto|]].
      intros y Hy. apply H3; simpl; auto.
    - intros (H1 & H2 & H3). split; [|split; [auto|]].
      + split; repeat constructor; auto.
      + intros x y [<-|[]] Hy; auto.
  Qed.

  Lemma fine_node c l k v r : fine (Node c l k v r) ->
    fine l /\ fine r /\ U k /\ (forall e, In e (entries l) -> lt (fst e) k = true) /\
    (forall e, In e (entries r) -> lt k (fst e) = true).
  Proof.
    unfold fine; simpl. rewrite order_app, order_cons. simpl. intros (H1 & (H2 & H3 & H4) & H5).
    split; [auto|split; [auto|split; [auto|split; [|auto]]]].
    intros e He. apply (H5 e (k, v)); auto.
  Qed.

  Lemma fine_U t e : fine t -> In e (entries t) -> U (fst e).
  Proof. intros [H _] Hi. rewrite Forall_forall in H. auto. Qed.

  Lemma asym a b : U a -> U b -> lt a b = true -> lt b a = true -> False.
  Proof. intros Ha Hb H1 H2. pose proof (tr Ha Hb Ha H1 H2). rewrite irr in H; auto; discriminate. Qed.

  Definition notbelow (k : K) (e : K * V) : bool := negb (lt (fst e) k).

  Lemma find_app (f : K * V -> bool) a b :
    List.find f (a ++ b) = match List.find f a with Some e => Some e | None => List.find f b end.
  Proof. induction a as [|e a IH]; simpl; auto. destruct (f e); auto. Qed.

  Lemma lower_ok t k y : fine t -> U k ->
    lower lt t k y = match List.find (notbelow k) (entries t) with Some e => Some e | None => y end.
  Proof.
    revert y. induction t as [|c l IHl k' v' r IHr]; intros y F Hk; simpl; auto.
    apply fine_node in F as (Fl & Fr & Uk & Hl & Hr).
    rewrite find_app. simpl. unfold notbelow at 2; simpl.
    destruct (lt k' k) eqn:E; simpl.
    - rewrite IHr by auto. replace (List.find (notbelow k) (entries l)) with (@None (K * V)); auto.
      symmetry. destruct (List.find (notbelow k) (entries l)) eqn:Ef; auto.
      apply find_some in Ef as [Hi Hn]. unfold notbelow in Hn.
      rewrite (tr (fine_U _ Fl Hi) Uk Hk (Hl _ Hi) E) in Hn. discriminate.
    - rewrite IHl by auto. destruct (List.find _ (entries l)); auto.
  Qed.

  Lemma assoc_app a b k : assoc (a ++ b) k = match assoc a k with Some v => Some v | None => assoc b k end.
  Proof. induction a as [|[k' v] a IH]; simpl; auto. destruct (Keqb k k'); auto. Qed.

  Lemma assoc_in es k v : assoc es k = Some v -> In (k, v) es.
  Proof.
    induction es as [|[k' v'] es IH]; simpl; [discriminate|].
    destruct (Keqb k k') eqn:E.
    - intros [= ->]. apply Keqb_ok in E. subst. auto.
    - auto.
  Qed.

  Lemma assoc_none es k v : assoc es k = None -> In (k, v) es -> False.
  Proof.
    induction es as [|[k' v'] es IH]; simpl; auto.
    destruct (Keqb k k') eqn:E; [discriminate|]. intros H [[= -> ->]|Hi]; auto.
    assert (Keqb k k = true) by (apply Keqb_ok; auto). congruence.
  Qed.

  Lemma assoc_find es k : in_order es -> U k ->
    assoc es k = match List.find (notbelow k) es with
                 | Some e => if lt k (fst e) then None else Some (snd e)
                 | None => None
                 end.
  Proof.
    induction es as [|[k' v'] es IH]; simpl; auto. intros O Hk.
    apply order_cons in O as (Uk & O & Hb). simpl in *. unfold notbelow at 1; simpl.
    destruct (lt k' k) eqn:E; simpl.
    - destruct (Keqb k k') eqn:Ek.
      + apply Keqb_ok in Ek. subst. rewrite irr in E by auto. discriminate.
      + auto.
    - destruct (lt k k') eqn:E2.
      + destruct (Keqb k k') eqn:Ek.
        * apply Keqb_ok in Ek. subst. rewrite irr in E2 by auto. discriminate.
        * destruct (assoc es k) as [v|] eqn:Ea; auto. apply assoc_in in Ea.
          pose proof (Hb _ Ea) as Hc. simpl in Hc. destruct (asym Uk Hk Hc E2).
      + assert (k = k') by (apply tot; auto). subst.
        replace (Keqb k' k') with true; auto. symmetry. apply Keqb_ok; auto.
  Qed.

  Lemma find_ok t k : fine t -> U k -> find lt t k = assoc (entries t) k.
  Proof.
    intros F Hk. unfold find. rewrite lower_ok by auto. rewrite assoc_find by auto.
    destruct (List.find (notbelow k) (entries t)) as [[k' v]|]; auto.
  Qed.

  Fixpoint ins (es : list (K * V)) (k : K) (v : V) : list (K * V) :=
    match es with
    | [] => [(k, v)]
    | e :: es => if lt k (fst e) then (k, v) :: e :: es else e :: ins es k v
    end.

  Lemma ins_right a b k v : (forall e, In e a -> lt k (fst e) = false) -> ins (a ++ b) k v = a ++ ins b k v.
  Proof.
    induction a as [|e a IH]; simpl; auto. intros H. rewrite (H e) by auto. rewrite IH; auto.
  Qed.
  Lemma ins_left a b k v :
    (exists e r, b = e :: r /\ lt k (fst e) = true) -> ins (a ++ b) k v = ins a k v ++ b.
  Proof.
    intros (e & r & -> & H). induction a as [|x a IH]; simpl.
    - rewrite H. auto.
    - destruct (lt k (fst x)); simpl; [|rewrite IH]; auto.
  Qed.

  Lemma place_ok t k v : fine t -> U k -> entries (place lt red t k v) = ins (entries t) k v.
  Proof.
    induction t as [|c l IHl k' v' r IHr]; intros F Hk; simpl; auto.
    apply fine_node in F as (Fl & Fr & Uk & Hl & Hr).
    destruct (lt k k') eqn:E; simpl.
    - rewrite IHl by auto. symmetry. apply ins_left. exists (k', v'), (entries r). auto.
    - rewrite IHr by auto. symmetry. rewrite ins_right.
      + simpl. rewrite E. auto.
      + intros e He. destruct (lt k (fst e)) eqn:Ee; auto.
        rewrite (tr Hk (fine_U _ Fl He) Uk Ee (Hl _ He)) in E. discriminate.
  Qed.

  Lemma ins_in es k v e : In e (ins es k v) -> e = (k, v) \/ In e es.
  Proof.
    induction es as [|x es IH]; simpl.
    - intros [<-|[]]; auto.
    - destruct (lt k (fst x)); simpl; intros [<-|H]; auto. destruct (IH H); auto.
  Qed.

  Lemma ins_order es k v : in_order es -> U k -> (forall e, In e es -> fst e <> k) ->
    in_order (ins es k v).
  Proof.
    induction es as [|x es IH]; simpl; intros O Hk Hn.
    - apply order_cons. simpl. split; [auto|split; [auto|tauto]].
    - pose proof O as O0. apply order_cons in O as (Ux & O & Hb).
      destruct (lt k (fst x)) eqn:E.
      + apply order_cons. split; [auto|split; [auto|]].
        intros y [<-|Hy]; simpl; auto. apply (tr Hk Ux); auto.
        destruct O as [O _]. rewrite Forall_forall in O. auto.
      + apply order_cons. split; [auto|split; [apply IH; auto|]].
        intros y Hy. apply ins_in in Hy as [->|Hy]; auto. simpl.
        destruct (lt (fst x) k) eqn:E2; auto. exfalso. apply (Hn x); auto.
  Qed.

  Lemma ins_assoc es k v k2 : in_order es -> U k -> (forall e, In e es -> fst e <> k) ->
    assoc (ins es k v) k2 = if Keqb k2 k then Some v else assoc es k2.
  Proof.
    induction es as [|[a b] es IH]; simpl; intros O Hk Hn; auto.
    apply order_cons in O as (Ux & O & Hb). simpl in *.
    destruct (lt k a) eqn:E; simpl.
    - destruct (Keqb k2 k); auto.
    - rewrite IH by auto. destruct (Keqb k2 a) eqn:E1, (Keqb k2 k) eqn:E2; auto.
      apply Keqb_ok in E1. apply Keqb_ok in E2. exfalso. apply (Hn (a, b)); simpl; auto. congruence.
  Qed.

  Lemma before_in (t : tree K V C) k j : before lt t k j = j \/
    exists k' v, before lt t k j = Some k' /\ In (k', v) (entries t) /\ lt k k' = false.
  Proof.
    revert j. induction t as [|c l IHl k' v' r IHr]; intros j; simpl; auto.
    destruct (lt k k') eqn:E.
    - destruct (IHl j) as [->|(a & b & H1 & H2 & H3)]; auto. right. exists a, b.
      split; [auto|split; [apply in_or_app; auto|auto]].
    - destruct (IHr (Some k')) as [->|(a & b & H1 & H2 & H3)].
      + right. exists k', v'. split; [auto|split; [apply in_or_app; simpl; auto|auto]].
      + right. exists a, b. split; [auto|split; [apply in_or_app; simpl; auto|auto]].
  Qed.

  Lemma settle_entries (t : tree K V C) : entries (settle rotate t) = entries t.
  Proof. unfold settle. destruct (Nat.leb (nodes t) 2); auto. Qed.

  Lemma emplace_ok (t : tree K V C) k v : fine t -> U k -> (forall e, In e (entries t) -> fst e <> k) ->
    exists t', emplace lt red rotate t k v = Some t' /\ entries t' = ins (entries t) k v.
  Proof.
    intros F Hk Hn. exists (settle rotate (place lt red t k v)).
    rewrite settle_entries, place_ok by auto. split; auto. unfold emplace.
    destruct (before_in t k None) as [->|(a & b & -> & H2 & H3)]; auto.
    destruct (lt a k) eqn:E; auto. exfalso. apply (Hn _ H2). simpl.
    apply tot; auto. apply (fine_U _ F H2).
  Qed.

  Lemma assoc_not es k : assoc es k = None -> forall e, In e es -> fst e <> k.
  Proof. intros H [a b] Hi Hc. simpl in Hc. subst. eapply assoc_none; eauto. Qed.

  (** [emplace] of a key that is not there. *)
  Lemma emplace_new t k v : fine t -> U k -> assoc (entries t) k = None ->
    exists t', emplace lt red rotate t k v = Some t' /\ fine t' /\
    forall k2, assoc (entries t') k2 = if Keqb k2 k then Some v else assoc (entries t) k2.
  Proof.
    intros F Hk Hn. pose proof (@assoc_not _ _ Hn) as Hn'.
    destruct (emplace_ok v F Hk Hn') as (t' & E & He). exists t'. split; [auto|]. unfold fine.
    rewrite He. split; [apply ins_order; auto|]. intros k2. apply ins_assoc; auto.
  Qed.

  (** [assign] to the key that was found. *)
  Fixpoint repl (es : list (K * V)) (k : K) (v : V) : list (K * V) :=
    match es with
    | [] => []
    | e :: es => if notbelow k e then (fst e, v) :: es else e :: repl es k v
    end.
  Lemma repl_app a b k v : repl (a ++ b) k v =
    match List.find (notbelow k) a with Some _ => repl a k v ++ b | None => a ++ repl b k v end.
  Proof.
    induction a as [|e a IH]; simpl; auto. destruct (notbelow k e); simpl; auto. rewrite IH.
    destruct (List.find (notbelow k) a); auto.
  Qed.
  Lemma assign_ok t k v : fine t -> U k -> entries (assign lt t k v) = repl (entries t) k v.
  Proof.
    induction t as [|c l IHl k' v' r IHr]; intros F Hk; simpl; auto.
    apply fine_node in F as (Fl & Fr & Uk & Hl & Hr).
    rewrite repl_app. simpl. unfold notbelow at 2; simpl.
    destruct (lt k' k) eqn:E; simpl.
    - rewrite IHr by auto. replace (List.find (notbelow k) (entries l)) with (@None (K * V)); auto.
      symmetry. destruct (List.find (notbelow k) (entries l)) eqn:Ef; auto.
      apply find_some in Ef as [Hi Hn]. unfold notbelow in Hn.
      rewrite (tr (fine_U _ Fl Hi) Uk Hk (Hl _ Hi) E) in Hn. discriminate.
    - rewrite lower_ok by auto. destruct (List.find (notbelow k) (entries l)); simpl; auto.
      rewrite IHl by auto. auto.
  Qed.
  Lemma repl_keys es k v : map fst (repl es k v) = map fst es.
  Proof. induction es as [|e es IH]; simpl; auto. destruct (notbelow k e); simpl; f_equal; auto. Qed.
  Lemma order_keys es es2 : map fst es = map fst es2 -> in_order es -> in_order es2.
  Proof.
    revert es2. induction es as [|e es IH]; intros [|e2 es2] E; simpl in E; try discriminate; auto.
    injection E as E1 E2. rewrite !order_cons. rewrite <- E1. intros (H1 & H2 & H3).
    split; [auto|split; [apply IH; auto|]]. intros y Hy.
    assert (Hm : In (fst y) (map fst es2)) by (apply in_map; auto).
    rewrite <- E2 in Hm. apply in_map_iff in Hm as (z & <- & Hz). auto.
  Qed.
  Lemma repl_assoc es k v k2 : in_order es -> U k -> assoc es k <> None ->
    assoc (repl es k v) k2 = if Keqb k2 k then Some v else assoc es k2.
  Proof.
    induction es as [|[a b] es IH]; simpl; intros O Hk Hn; [congruence|].
    pose proof O as O0. apply order_cons in O as (Ux & O & Hb). simpl in *. unfold notbelow; simpl.
    destruct (lt a k) eqn:E; simpl.
    - destruct (Keqb k a) eqn:Ek.
      { apply Keqb_ok in Ek. subst. rewrite irr in E by auto. discriminate. }
      rewrite IH by auto. destruct (Keqb k2 a) eqn:E1, (Keqb k2 k) eqn:E2; auto.
      apply Keqb_ok in E1. apply Keqb_ok in E2. subst.
      assert (Keqb a a = true) by (apply Keqb_ok; auto). congruence.
    - assert (k = a).
      { destruct (Keqb k a) eqn:Ek; [apply Keqb_ok; auto|].
        destruct (assoc es k) as [v2|] eqn:Ea; [|congruence]. apply assoc_in in Ea.
        pose proof (Hb _ Ea) as Hc. simpl in Hc. congruence. }
      subst. destruct (Keqb k2 a); auto.
  Qed.

  Lemma assign_old t k v : fine t -> U k -> assoc (entries t) k <> None ->
    fine (assign lt t k v) /\
    forall k2, assoc (entries (assign lt t k v)) k2 = if Keqb k2 k then Some v else assoc (entries t) k2.
  Proof.
    intros F Hk Hn. unfold fine. rewrite assign_ok by auto. split.
    - apply (@order_keys (entries t)); auto. rewrite repl_keys; auto.
    - intros k2. apply repl_assoc; auto.
  Qed.

  (** The caches. *)
  Variable emptyK : K -> bool.
  Variable emptyV : V -> bool.
  Hypothesis U_full : forall k, U k -> emptyK k = false.

  Fixpoint look (ls : list (tree K V C)) (d : K -> option V) (k : K) : option V :=
    match ls with
    | [] => d k
    | m :: base => match assoc (entries m) k with Some v => Some v | None => look base d k end
    end.
  Definition norm (o : option V) : option V :=
    match o with Some v => stored emptyV v | None => None end.

  (** The views a chain of caches stands for, on the keys of [U]. *)
  Fixpoint shows (ls : list (tree K V C)) (d : K -> option V) (vs : list (K -> option V)) : Prop :=
    match ls, vs with
    | [], [w] => forall k, U k -> w k = norm (d k)
    | m :: base, w :: vs =>
        fine m /\ (forall k, U k -> w k = norm (look (m :: base) d k)) /\ shows base d vs
    | _, _ => False
    end.

  Lemma get_it_ok ls d k : Forall fine ls -> U k ->
    exists ls', get_it lt red rotate ls d k = Done (look ls d k, ls') /\ Forall2 (fun m m' =>
      fine m') ls ls' /\ forall n k2, U k2 -> look (skipn n ls') d k2 = look (skipn n ls) d k2.
  Proof.
    induction ls as [|m base IH]; intros F Hk; simpl.
    - exists []. split; [auto|split; [constructor|auto]].
    - inversion F as [|? ? Fm Fb]; subst. rewrite find_ok by auto.
      destruct (assoc (entries m) k) as [v|] eqn:Ea.
      + exists (m :: base). split; [auto|split; [|auto]].
        constructor; auto. clear - Fb. induction Fb; constructor; auto.
      + destruct (IH Fb Hk) as (b' & -> & Fb' & Lb). simpl.
        destruct (look base d k) as [v|] eqn:El.
        * destruct (emplace_new v Fm Hk Ea) as (m' & -> & Fm' & Am). exists (m' :: b').
          split; [auto|split; [constructor; auto|]].
          intros [|n] k2 Hk2; simpl; [|apply (Lb n); auto].
          rewrite Am. pose proof (Lb O k2 Hk2) as Lb0. simpl in Lb0. rewrite Lb0.
          destruct (Keqb k2 k) eqn:E; auto. apply Keqb_ok in E. subst. rewrite Ea, El. auto.
        * exists (m :: b'). split; [auto|split; [constructor; auto|]].
          intros [|n] k2 Hk2; simpl; [|apply (Lb n); auto].
          pose proof (Lb O k2 Hk2) as Lb0. simpl in Lb0. rewrite Lb0. auto.
  Qed.

  Lemma shows_fine ls d vs : shows ls d vs -> Forall fine ls.
  Proof.
    revert vs. induction ls as [|m base IH]; intros [|w vs]; simpl; try tauto; try constructor; 
    destruct H as (H1 & H2 & H3); eauto.
  Qed.

  Lemma shows_same ls ls' d vs : shows ls d vs -> Forall2 (fun m m' => fine m') ls ls' ->
    (forall n k2, U k2 -> look (skipn n ls') d k2 = look (skipn n ls) d k2) -> shows ls' d vs.
  Proof.
    revert ls' vs. induction ls as [|m base IH]; intros ls' [|w vs] S F L; inversion F; subst;
      simpl in S; try tauto.
    destruct S as (S1 & S2 & S3). simpl. split; [auto|split].
    - intros k2 Hk2. rewrite S2 by auto. f_equal. symmetry. apply (L O); auto.
    - apply (IH l' vs); auto. intros n k2 Hk2. apply (L (S n)); auto.
  Qed.

  Lemma shows_head ls d vs : shows ls d vs -> exists w r, vs = w :: r /\
    forall k, U k -> w k = norm (look ls d k).
  Proof. destruct ls, vs as [|w vs]; simpl; try tauto. 
    - destruct vs; try tauto. intros H. exists w, []. auto.
    - intros (H1 & H2 & H3). exists w, vs. auto.
  Qed.

  Lemma set_self_ok m k v : fine m -> U k -> exists m', set_self lt red rotate m k v = Done m' /\
    fine m' /\ forall k2, assoc (entries m') k2 = if Keqb k2 k then Some v else assoc (entries m) k2.
  Proof.
    intros F Hk. unfold set_self. rewrite find_ok by auto.
    destruct (assoc (entries m) k) as [v0|] eqn:Ea.
    - destruct (@assign_old m k v F Hk) as [F' A]; [congruence|]. eauto.
    - destruct (emplace_new v F Hk Ea) as (m' & -> & F' & A). eauto.
  Qed.

  Lemma keq_refl k : Keqb k k = true. Proof. apply Keqb_ok; auto. Qed.

  Lemma pour_ok es m : in_order es -> fine m -> exists m', pour lt red rotate es m = Done m' /\
    fine m' /\ forall k2, assoc (entries m') k2 =
      match assoc es k2 with Some v => Some v | None => assoc (entries m) k2 end.
  Proof.
    revert m. induction es as [|[k v] es IH]; intros m O F; simpl.
    - exists m. auto.
    - apply order_cons in O as (Uk & O & Hb). simpl in *.
      destruct (set_self_ok v F Uk) as (m1 & -> & F1 & A1). simpl.
      destruct (IH m1 O F1) as (m2 & -> & F2 & A2). exists m2. split; [auto|split; [auto|]].
      intros k2. rewrite A2, A1. destruct (Keqb k2 k) eqn:E; auto.
      apply Keqb_ok in E. subst. destruct (assoc es k) as [v2|] eqn:Ea; auto.
      apply assoc_in in Ea. pose proof (Hb _ Ea) as Hc. simpl in Hc. rewrite irr in Hc by auto. discriminate.
  Qed.

  Lemma write_ok es d k2 : in_order es -> U k2 ->
    norm (write Keqb emptyV es d k2) = norm (match assoc es k2 with Some v => Some v | None => d k2 end).
  Proof.
    revert d. induction es as [|[k v] es IH]; intros d O Hk; simpl; auto.
    apply order_cons in O as (Uk & O & Hb). simpl in *. rewrite IH by auto.
    destruct (Keqb k2 k) eqn:E.
    - apply Keqb_ok in E. subst. destruct (assoc es k) as [v2|] eqn:Ea.
      + apply assoc_in in Ea. pose proof (Hb _ Ea) as Hc. simpl in Hc. rewrite irr in Hc by auto. discriminate.
      + unfold norm, stored. destruct (emptyV v) eqn:Ev; auto. rewrite Ev. auto.
    - auto.
  Qed.

  Lemma fine_leaf : fine Leaf.
  Proof. split; constructor. Qed.

  Notation stepm := (step lt red rotate Keqb emptyK emptyV).
  Notation runm := (run lt red rotate Keqb emptyK emptyV).

  Definition drops (n : nat) (o : op K V) : bool :=
    match o with ODrop => Nat.ltb 1 n | _ => true end.
  Definition grows (n : nat) (o : op K V) : nat :=
    match o with ODrop => pred n | ONew => S n | _ => n end.

  Lemma step_ok s o vs : (0 < length (s_layers s))%nat -> shows (s_layers s) (s_db s) vs ->
    Forall U (touches o) -> drops (length (s_layers s)) o = true ->
    exists rs s', stepm s o = Done (rs, s') /\ rs = fst (vstep Keqb emptyV vs o) /\
      shows (s_layers s') (s_db s') (snd (vstep Keqb emptyV vs o)) /\
      length (s_layers s') = grows (length (s_layers s)) o.
  Proof.
    destruct s as [ls d]. simpl. intros Hn S HU Hd.
    pose proof (shows_fine _ _ _ S) as F.
    destruct (shows_head _ _ _ S) as (w & r & -> & Hw).
    destruct o as [k v|k|k v| | |]; simpl in *.
    - (* set *)
      inversion HU as [|? ? Uk _]; subst. unfold set_data. rewrite U_full by auto. simpl.
      destruct ls as [|m base]; [simpl in Hn; lia|]. inversion F as [|? ? Fm Fb]; subst.
      simpl in S. destruct S as (S1 & S2 & S3).
      rewrite find_ok by auto. destruct (assoc (entries m) k) as [v0|] eqn:Ea.
      + destruct (@assign_old m k v Fm Uk) as [F' A]; [congruence|].
        simpl. do 2 eexists. split; [reflexivity|split; [reflexivity|split; [|reflexivity]]].
        simpl. split; [auto|split; [|auto]]. intros k2 Hk2. rewrite A. destruct (Keqb k2 k); [reflexivity|].
        rewrite Hw by auto. reflexivity.
      + destruct (@get_it_ok base d k Fb Uk) as (b' & -> & Fb' & Lb). simpl.
        destruct (emplace_new v Fm Uk Ea) as (m' & -> & Fm' & Am). simpl.
        do 2 eexists. split; [reflexivity|split; [reflexivity|split]].
        * simpl. split; [auto|split; [|eapply shows_same; eauto]].
          intros k2 Hk2. rewrite Am. destruct (Keqb k2 k); [reflexivity|]. rewrite Hw by auto. simpl.
          pose proof (Lb O k2 Hk2) as Lb0. simpl in Lb0. rewrite Lb0. reflexivity.
        * simpl. f_equal. clear - Fb'. induction Fb'; simpl; auto.
    - (* get *)
      inversion HU as [|? ? Uk _]; subst. unfold get_data. rewrite U_full by auto. simpl.
      destruct (@get_it_ok ls d k F Uk) as (ls' & -> & F' & L). simpl.
      do 2 eexists. split; [reflexivity|split; [|split]].
      + simpl. rewrite Hw by auto. unfold norm, stored. destruct (look ls d k); auto.
      + simpl. eapply shows_same; eauto.
      + simpl. clear - F'. induction F'; simpl; auto.
    - (* undo *)
      inversion HU as [|? ? Uk _]; subst. unfold undo_data. simpl.
      destruct ls as [|m base]; [simpl in Hn; lia|]. inversion F as [|? ? Fm Fb]; subst.
      simpl in S. destruct S as (S1 & S2 & S3).
      destruct (set_self_ok v Fm Uk) as (m' & -> & F' & A). simpl.
      do 2 eexists. split; [reflexivity|split; [reflexivity|split; [|reflexivity]]].
      simpl. split; [auto|split; [|auto]]. intros k2 Hk2. rewrite A. destruct (Keqb k2 k); [reflexivity|].
      rewrite Hw by auto. reflexivity.
    - (* new *)
      do 2 eexists. split; [reflexivity|split; [reflexivity|split; [|reflexivity]]].
      simpl. split; [apply fine_leaf|split; [|auto]]. intros k2 Hk2. rewrite Hw by auto. auto.
    - (* flush *)
      unfold flush. simpl. destruct ls as [|m [|b base]]; [simpl in Hn; lia| |].
      + simpl in S. destruct r as [|w2 r]; [tauto|]. destruct S as (S1 & S2 & S3).
        destruct r; [|tauto]. simpl.
        do 2 eexists. split; [reflexivity|split; [reflexivity|split; [|reflexivity]]].
        simpl. split; [apply fine_leaf|].
        assert (Hwr : forall k, U k -> w k = norm (write Keqb emptyV (entries m) d k)).
        { intros k Hk. rewrite write_ok by auto. apply S2; auto. }
        split; [auto|auto].
      + inversion F as [|? ? Fm Fb]; subst. inversion Fb as [|? ? Fb1 Fb2]; subst.
        simpl in S. destruct r as [|w2 r]; [tauto|]. destruct S as (S1 & S2 & S3 & S4 & S5).
        destruct (@pour_ok (entries m) b S1 Fb1) as (b' & -> & Fb' & Ab). simpl.
        do 2 eexists. split; [reflexivity|split; [reflexivity|split; [|reflexivity]]].
        simpl. split; [apply fine_leaf|].
        assert (Hwr : forall k, U k -> w k = norm match assoc (entries b') k with
                        | Some v => Some v | None => look base d k end).
        { intros k Hk. rewrite S2 by auto. rewrite Ab. destruct (assoc (entries m) k); auto. }
        split; [auto|split; [auto|split; auto]].
    - (* drop *)
      destruct ls as [|m [|b base]]; simpl in Hd; try discriminate.
      simpl in S. destruct r as [|w2 r]; [tauto|]. destruct S as (S1 & S2 & S3).
      do 2 eexists. split; [reflexivity|split; [reflexivity|split; [|reflexivity]]].
      exact S3.
  Qed.

  Lemma lawful_step n o os : lawful n (o :: os) = true ->
    drops n o = true /\ lawful (grows n o) os = true.
  Proof. destruct o; simpl; auto. destruct n as [|[|n]]; try discriminate; auto. Qed.

  Lemma grows_pos n o : (0 < n)%nat -> drops n o = true -> (0 < grows n o)%nat.
  Proof. clear. destruct o; simpl; lia. Qed.

  Lemma run_ok os : forall s vs, (0 < length (s_layers s))%nat -> shows (s_layers s) (s_db s) vs ->
    Forall U (flat_map (@touches K V) os) -> lawful (length (s_layers s)) os = true ->
    exists s', runm s os = Done (vrun Keqb emptyV vs os, s').
  Proof.
    induction os as [|o os IH]; intros s vs Hn S HU HL.
    - simpl. eauto.
    - simpl in HU. apply Forall_app in HU as [HU1 HU2].
      apply lawful_step in HL as [HD HL].
      destruct (@step_ok s o vs Hn S HU1 HD) as (rs & s1 & E & -> & S1 & L1).
      cbn [run vrun]. rewrite E. cbn [bind fst snd].
      destruct (IH s1 (snd (vstep Keqb emptyV vs o))) as (s2 & E2); auto.
      + rewrite L1. apply grows_pos; auto.
      + rewrite L1. auto.
      + rewrite E2. cbn [bind fst snd]. eauto.
  Qed.
End TreeFacts.

(** The order of strings. *)
Lemma str_irr a : str_lt a a = false.
Proof. induction a as [|x a IH]; simpl; auto. rewrite N.ltb_irrefl. auto. Qed.

Lemma str_tot a : forall b, str_lt a b = false -> str_lt b a = false -> a = b.
Proof.
  induction a as [|x a IH]; intros [|y b]; simpl; try discriminate; auto.
  destruct (N.ltb_spec (N_of_ascii x) (N_of_ascii y)), (N.ltb_spec (N_of_ascii y) (N_of_ascii x));
    try discriminate; try lia.
  intros H1 H2. f_equal; auto.
  rewrite <- (ascii_N_embedding x), <- (ascii_N_embedding y). f_equal. lia.
Qed.

Lemma str_tr a : forall b c, str_lt a b = true -> str_lt b c = true -> str_lt a c = true.
Proof.
  induction a as [|x a IH]; intros [|y b] [|z c]; simpl; try discriminate; auto.
  destruct (N.ltb_spec (N_of_ascii x) (N_of_ascii y)), (N.ltb_spec (N_of_ascii y) (N_of_ascii x)),
    (N.ltb_spec (N_of_ascii y) (N_of_ascii z)), (N.ltb_spec (N_of_ascii z) (N_of_ascii y)),
    (N.ltb_spec (N_of_ascii x) (N_of_ascii z)), (N.ltb_spec (N_of_ascii z) (N_of_ascii x));
    try discriminate; try lia; eauto.
Qed.

Lemma str_asym a b : str_lt a b = true -> str_lt b a = false.
Proof.
  intros H. destruct (str_lt b a) eqn:E; auto. pose proof (str_tr _ _ _ H E). rewrite str_irr in H0. discriminate.
Qed.
(** From [a] not above [b] and [b] below [c]. *)
Lemma str_le_lt a b c : str_lt b a = false -> str_lt b c = true -> str_lt a c = true.
Proof.
  intros H1 H2. destruct (str_lt a b) eqn:E; [eapply str_tr; eauto|].
  rewrite (str_tot _ _ E H1). auto.
Qed.
Lemma str_lt_le a b c : str_lt a b = true -> str_lt c b = false -> str_lt a c = true.
Proof.
  intros H1 H2. destruct (str_lt b c) eqn:E; [eapply str_tr; eauto|].
  rewrite <- (str_tot _ _ E H2). auto.
Qed.

(** Coin pairs no two of which cross. *)
Section Pairs.
  Variable P : string * string -> Prop.
  Hypothesis apart : forall a b, P a -> P b -> ~ crossed a b.

  Lemma coins_irr a : coins_lt a a = false.
  Proof. unfold coins_lt. rewrite !str_irr. auto. Qed.

  Lemma coins_tot a b : coins_lt a b = false -> coins_lt b a = false -> a = b.
  Proof.
    unfold coins_lt. intros H1 H2. apply orb_false_iff in H1 as [H1 H3].
    apply orb_false_iff in H2 as [H2 H4]. destruct a, b; simpl in *. f_equal; apply str_tot; auto.
  Qed.

  Lemma apart_l a b : P a -> P b -> str_lt (fst a) (fst b) = true -> str_lt (snd b) (snd a) = false.
  Proof.
    intros Ha Hb H. destruct (str_lt (snd b) (snd a)) eqn:E; auto. exfalso.
    apply (apart Ha Hb). left; auto.
  Qed.
  Lemma apart_r a b : P a -> P b -> str_lt (snd a) (snd b) = true -> str_lt (fst b) (fst a) = false.
  Proof.
    intros Ha Hb H. destruct (str_lt (fst b) (fst a)) eqn:E; auto. exfalso.
    apply (apart Ha Hb). right; auto.
  Qed.

  Lemma coins_tr a b c : P a -> P b -> P c -> coins_lt a b = true -> coins_lt b c = true ->
    coins_lt a c = true.
  Proof.
    unfold coins_lt. intros Ha Hb Hc H1 H2. apply orb_true_iff.
    apply orb_true_iff in H1 as [H1|H1]; apply orb_true_iff in H2 as [H2|H2].
    - left. eapply str_tr; eauto.
    - left. eapply str_lt_le; eauto. apply apart_r; auto.
    - right. eapply str_lt_le; eauto. apply apart_l; auto.
    - right. eapply str_tr; eauto.
  Qed.

  Lemma coins_asym a b : P a -> P b -> coins_lt a b = true -> coins_lt b a = false.
  Proof.
    intros Ha Hb H. destruct (coins_lt b a) eqn:E; auto.
    pose proof (coins_tr Ha Hb Ha H E) as Hc. rewrite coins_irr in Hc. discriminate.
  Qed.

  Definition in_pairs (k : (string * string) * N) : Prop := P (fst k) /\ snd k <> 0%N.

  Lemma param_irr a : in_pairs a -> param_lt a a = false.
  Proof. intros _. unfold param_lt, pair_lt. rewrite coins_irr, N.ltb_irrefl. auto. Qed.

  Lemma param_tot a b : in_pairs a -> in_pairs b -> param_lt a b = false -> param_lt b a = false -> a = b.
  Proof.
    intros _ _. unfold param_lt, pair_lt. intros H1 H2.
    apply orb_false_iff in H1 as [H1 H3]. apply orb_false_iff in H2 as [H2 H4].
    rewrite H1, H2 in *. simpl in *. destruct a as [a x], b as [b y]; simpl in *.
    f_equal; [apply coins_tot; auto|]. lia.
  Qed.

  Lemma param_tr a b c : in_pairs a -> in_pairs b -> in_pairs c ->
    param_lt a b = true -> param_lt b c = true -> param_lt a c = true.
  Proof.
    intros [Ha _] [Hb _] [Hc _]. destruct a as [a x], b as [b y], c as [c z].
    unfold param_lt, pair_lt. simpl in *. intros H1 H2.
    destruct (coins_lt a b) eqn:Eab; simpl in *.
    - destruct (coins_lt b c) eqn:Ebc; simpl in *.
      + rewrite (coins_tr Ha Hb Hc Eab Ebc). auto.
      + destruct (coins_lt c b) eqn:Ecb; simpl in *; [discriminate|].
        rewrite <- (coins_tot _ _ Ebc Ecb). rewrite Eab. auto.
    - destruct (coins_lt b a) eqn:Eba; simpl in *; [discriminate|].
      rewrite (coins_tot _ _ Eab Eba). destruct (coins_lt b c); auto. simpl in *.
      destruct (coins_lt c b); simpl in *; [discriminate|]. lia.
  Qed.

  Lemma param_full k : in_pairs k -> param_empty k = false.
  Proof.
    intros [_ H]. unfold param_empty. destruct (N.eqb_spec (snd k) 0); [tauto|].
    rewrite andb_false_r. auto.
  Qed.
End Pairs.

Lemma param_eqb_ok a b : param_eqb a b = true <-> a = b.
Proof.
  destruct a as [[a1 a2] x], b as [[b1 b2] y]. unfold param_eqb; simpl. rewrite !andb_true_iff.
  rewrite !String.eqb_eq, N.eqb_eq. split; [intros [[-> ->] ->]; auto|intros [= -> -> ->]; auto].
Qed.
Lemma coins_eqb_ok a b : coins_eqb a b = true <-> a = b.
Proof.
  destruct a as [a1 a2], b as [b1 b2]; unfold coins_eqb; simpl. rewrite andb_true_iff, !String.eqb_eq.
  split; [intros [-> ->]; auto|intros [= -> ->]; auto].
Qed.
