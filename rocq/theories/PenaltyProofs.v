(** Proofs about penalties. *)
From Coq Require Import List Bool NArith ZArith Lia.
From Verif Require Import PenaltyModel PenaltySpec.
Import ListNotations.
Open Scope Z_scope.

Lemma look_change {A} (l : list (N * A)) k f k' :
  look (change l k f) k' = if N.eqb k' k then option_map f (look l k') else look l k'.
Proof.
  induction l as [|[q x] l IH]; cbn [change look]; [destruct (N.eqb k' k); reflexivity|].
  destruct (N.eqb_spec k q) as [->|D]; cbn [look].
  - destruct (N.eqb k' q); reflexivity.
  - rewrite IH. destruct (N.eqb_spec k' q), (N.eqb_spec k' k); congruence || reflexivity.
Qed.

Lemma look_filter {A} (l : list (N * A)) k k' :
  look (filter (fun x => negb (N.eqb k (fst x))) l) k' = if N.eqb k k' then None else look l k'.
Proof.
  induction l as [|[q x] l IH]; cbn [filter look fst]; [destruct (N.eqb k k'); reflexivity|].
  destruct (N.eqb_spec k q) as [->|D]; cbn [negb look].
  - rewrite IH. destruct (N.eqb_spec q k') as [->|]; [reflexivity|].
    destruct (N.eqb_spec k' q); congruence.
  - rewrite IH. destruct (N.eqb_spec k' q) as [->|]; [|reflexivity].
    destruct (N.eqb_spec k q); congruence.
Qed.

Lemma total_app id l l' : total id (l ++ l') = total id l + total id l'.
Proof. induction l as [|[]]; cbn [app total]; lia. Qed.

Section Run.
Variables (threshold bantime : Z) (local : N -> bool).
Notation step := (step threshold bantime local).
Notation run := (run threshold bantime local).

Lemma run_app l l' : forall s, run s (l ++ l') = match run s l with Some s' => run s' l' | None => None end.
Proof. induction l as [|e l IH]; intros s; cbn [app PenaltyModel.run]; [reflexivity|]. destruct (step s e); auto. Qed.

(** What one event does to a connection that it does not end. *)
Record follows (id : N) (e : event) (p p' : peer) : Prop := {
  f_addr : p_addr p' = p_addr p;
  f_score : p_score p' = p_score p + total id [e];
  f_greeted : p_greeted p = true -> p_greeted p' = true;
  f_greets : e = Greets id -> p_greeted p' = true;
  f_greeted_inv : p_greeted p' = true -> p_greeted p = true \/ e = Greets id;
  f_ban : p_ban p = true -> e <> Serves id -> p_ban p' = true;
  f_ban_inv : p_ban p' = true -> p_ban p = true \/ threshold <= p_score p';
  f_errs : forall h, e = Errs id h -> h <> 0 -> threshold <= p_score p' -> p_ban p' = true;
  f_leaving : p_leaving p = true -> p_leaving p' = true;
  f_silent : p_greeted p = false -> p_leaving p' = p_leaving p
}.

Lemma follows_same id e p : total id [e] = 0 -> e <> Greets id -> (forall h, e = Errs id h -> h = 0) ->
  follows id e p p.
Proof.
  intros T G E. constructor; auto; try lia; try congruence.
Qed.

Lemma step_follows s e s' id p : look (n_peers s) id = Some p -> (id < n_next s)%N -> step s e = Some s' ->
  e <> Leaves id -> exists p', look (n_peers s') id = Some p' /\ (id < n_next s')%N /\ follows id e p p'.
Proof.
  intros L B S D.
  assert (J : forall a, look (n_peers (join s a)) id = Some p /\ (id < n_next (join s a))%N).
  { intros a. unfold join; cbn [n_peers n_next look]. destruct (N.eqb_spec id (n_next s)); [lia|]. split; [exact L|lia]. }
  destruct e as [w a|i|i h|i|i|t]; cbn [PenaltyModel.step] in S.
  - exists p. assert (F : follows id (Joins w a) p p) by (apply follows_same; [reflexivity|congruence|congruence]).
    destruct w; [destruct (is_banned s a)|destruct (is_banned s a)|]; injection S as <-;
      try (split; [exact L|split; [exact B|exact F]]); destruct (J a); auto.
  - injection S as <-. cbn [n_peers n_next with_peers]. rewrite look_change, L.
    destruct (N.eqb_spec id i) as [->|Di]; cbn [option_map].
    + eexists; split; [reflexivity|]. split; [exact B|]. constructor; cbn; auto; try lia; try congruence.
    + exists p. split; [reflexivity|]. split; [exact B|]. apply follows_same; [reflexivity|congruence|congruence].
  - unfold misbehaving in S. destruct (Z.eqb_spec h 0) as [->|Hh].
    { injection S as <-. exists p. split; [exact L|]. split; [exact B|].
      apply follows_same; [cbn [total]; destruct (N.eqb i id); lia|congruence|]. intros h E; congruence. }
    destruct (N.eqb_spec i id) as [->|Di].
    + rewrite L in S. destruct (int32 (p_score p + h)); [|discriminate]. injection S as <-.
      cbn [n_peers n_next with_peers]. rewrite look_change, L, N.eqb_refl. cbn [option_map].
      eexists; split; [reflexivity|]. split; [exact B|].
      constructor; cbn [p_addr p_score p_greeted p_ban p_leaving total]; rewrite ?N.eqb_refl; auto; try lia; try congruence.
      * intros ->. destruct (threshold <=? _); reflexivity.
      * destruct (Z.leb_spec threshold (p_score p + h)); auto.
      * intros h' E _ T. destruct (Z.leb_spec threshold (p_score p + h)); [reflexivity|lia].
    + assert (F : follows id (Errs i h) p p).
      { apply follows_same; [|congruence|intros ? E; congruence]. cbn [total].
        destruct (N.eqb_spec i id); [congruence|lia]. }
      exists p. destruct (look (n_peers s) i) as [q|].
      * destruct (int32 (p_score q + h)); [|discriminate]. injection S as <-.
        cbn [n_peers n_next with_peers]. rewrite look_change, L. destruct (N.eqb_spec id i); [congruence|]. auto.
      * injection S as <-. auto.
  - injection S as <-. unfold serve. destruct (look (n_peers s) i) as [q|] eqn:Q.
    2:{ exists p. split; [exact L|]. split; [exact B|]. apply follows_same; [reflexivity|congruence|congruence]. }
    destruct (p_greeted q) eqn:G; cbn [negb].
    2:{ exists p. split; [exact L|]. split; [exact B|]. apply follows_same; [reflexivity|congruence|congruence]. }
    destruct (p_ban q) eqn:BQ.
    2:{ exists p. split; [exact L|]. split; [exact B|]. apply follows_same; [reflexivity|congruence|congruence]. }
    cbn [n_peers n_next]. rewrite look_change, L.
    destruct (N.eqb_spec id i) as [->|Di]; cbn [option_map].
    + assert (q = p) by congruence. subst q.
      eexists; split; [reflexivity|]. split; [exact B|].
      constructor; cbn [p_addr p_score p_greeted p_ban p_leaving total]; auto; try lia; try congruence.
      intros ->. apply orb_true_r.
    + exists p. split; [reflexivity|]. split; [exact B|]. apply follows_same; [reflexivity|congruence|congruence].
  - injection S as <-. cbn [n_peers n_next with_peers]. rewrite look_filter.
    destruct (N.eqb_spec i id); [congruence|]. exists p. split; [exact L|]. split; [exact B|].
    apply follows_same; [reflexivity|congruence|congruence].
  - injection S as <-. exists p. split; [exact L|]. split; [exact B|].
    apply follows_same; [reflexivity|congruence|congruence].
Qed.

Lemma run_follows l id : forall s s' p, look (n_peers s) id = Some p -> (id < n_next s)%N -> run s l = Some s' ->
  ~ In (Leaves id) l ->
  exists p', look (n_peers s') id = Some p' /\ (id < n_next s')%N /\ p_addr p' = p_addr p /\
    p_score p' = p_score p + total id l /\ (p_greeted p = true \/ In (Greets id) l -> p_greeted p' = true) /\
    (p_ban p = true -> ~ In (Serves id) l -> p_ban p' = true) /\
    (p_greeted p = false -> ~ In (Greets id) l -> p_greeted p' = false /\ p_leaving p' = p_leaving p).
Proof.
  induction l as [|e l IH]; intros s s' p L B R NL; cbn [PenaltyModel.run] in R.
  - injection R as <-. exists p. cbn [total In]. repeat split; auto; try lia. intros [H|[]]; exact H.
  - destruct (step s e) as [s1|] eqn:S; [|discriminate].
    destruct (step_follows s e s1 id p L B S) as (p1 & L1 & B1 & F); [intros ->; apply NL; left; reflexivity|].
    destruct (IH s1 s' p1 L1 B1 R) as (p2 & L2 & B2 & A & T & G & K & Q); [intros H; apply NL; right; exact H|].
    exists p2. split; [exact L2|]. split; [exact B2|]. split; [rewrite A; apply F|].
    split. { rewrite T, (f_score _ _ _ _ F). change (e :: l) with ([e] ++ l). rewrite total_app. lia. }
    split. { intros [H|[H|H]]; apply G; [left; apply (f_greeted _ _ _ _ F H)|left; apply (f_greets _ _ _ _ F H)|right; exact H]. }
    split. { intros H NS. apply K; [|intros I; apply NS; right; exact I].
             apply (f_ban _ _ _ _ F H). intros ->. apply NS. left; reflexivity. }
    intros H NG. destruct (Q) as [Q1 Q2].
    { destruct (p_greeted p1) eqn:E; [|reflexivity]. destruct (f_greeted_inv _ _ _ _ F E) as [| ->]; [congruence|].
      exfalso. apply NG. left; reflexivity. }
    { intros I. apply NG. right; exact I. }
    split; [exact Q1|]. rewrite Q2. apply (f_silent _ _ _ _ F H).
Qed.

(** A connection that was accepted. *)
Lemma accepts_join s w a s' : accepts threshold bantime local s w a s' -> s' = join s a.
Proof.
  intros [S D]. cbn [PenaltyModel.step] in S. destruct w; [| |congruence]; destruct (is_banned s a); congruence.
Qed.
Lemma look_join s a : look (n_peers (join s a)) (n_next s) =
  Some {| p_addr := a; p_greeted := false; p_score := 0; p_ban := false; p_leaving := false |}.
Proof. unfold join; cbn [n_peers look]. rewrite N.eqb_refl. reflexivity. Qed.

Lemma score_of s w a s1 l s2 : accepts threshold bantime local s w a s1 -> run s1 l = Some s2 ->
  ~ In (Leaves (n_next s)) l ->
  exists p, look (n_peers s2) (n_next s) = Some p /\ p_addr p = a /\ p_score p = total (n_next s) l.
Proof.
  intros A R NL. apply accepts_join in A. subst s1.
  destruct (run_follows l (n_next s) (join s a) s2 _ (look_join s a)) as (p & L & _ & E & T & _);
    [unfold join; cbn [n_next]; lia|exact R|exact NL|].
  exists p. auto.
Qed.

(** Bans are not shortened. *)
Lemma step_banned s e s' a t : step s e = Some s' -> look (n_banned s) a = Some t ->
  exists t', t <= t' /\ look (n_banned s') a = Some t'.
Proof.
  intros S L. destruct e as [w b|i|i h|i|i|u]; cbn [PenaltyModel.step] in S.
  - destruct w; [destruct (is_banned s b)|destruct (is_banned s b)|]; injection S as <-; exists t; split; auto; lia.
  - injection S as <-. exists t; split; auto; lia.
  - unfold misbehaving in S. destruct (h =? 0); [injection S as <-; exists t; split; auto; lia|].
    destruct (look (n_peers s) i) as [q|]; [destruct (int32 _); [|discriminate]|];
      injection S as <-; exists t; split; auto; lia.
  - injection S as <-. unfold serve. destruct (look (n_peers s) i) as [q|]; [|exists t; split; auto; lia].
    destruct (negb (p_greeted q)); [exists t; split; auto; lia|].
    destruct (p_ban q); [|exists t; split; auto; lia]. cbn [n_banned].
    destruct (negb (local (p_addr q))); [|exists t; split; auto; lia].
    unfold ban. cbn [look]. destruct (N.eqb_spec a (p_addr q)) as [<-|]; [|exists t; split; auto; lia].
    rewrite L. eexists; split; [|reflexivity]. destruct (Z.ltb_spec t (n_now s + bantime)); lia.
  - injection S as <-. exists t; split; auto; lia.
  - injection S as <-. exists t; split; auto; lia.
Qed.
Lemma run_banned l a : forall s s' t, run s l = Some s' -> look (n_banned s) a = Some t ->
  exists t', t <= t' /\ look (n_banned s') a = Some t'.
Proof.
  induction l as [|e l IH]; intros s s' t R L; cbn [PenaltyModel.run] in R.
  - injection R as <-. exists t. split; auto; lia.
  - destruct (step s e) as [s1|] eqn:S; [|discriminate].
    destruct (step_banned _ _ _ _ _ S L) as (t1 & H1 & L1). destruct (IH _ _ _ R L1) as (t2 & H2 & L2).
    exists t2. split; auto; lia.
Qed.

Lemma refused_for s w a s1 la h lb s2 l3 s3 :
  accepts threshold bantime local s w a s1 ->
  run s1 (la ++ [Errs (n_next s) h] ++ lb ++ [Serves (n_next s)]) = Some s2 ->
  h <> 0 -> threshold <= total (n_next s) la + h -> local a = false ->
  ~ In (Leaves (n_next s)) (la ++ lb) -> ~ In (Serves (n_next s)) lb -> In (Greets (n_next s)) (la ++ lb) ->
  (exists p, look (n_peers s2) (n_next s) = Some p /\ p_leaving p = true) /\
  (run s2 l3 = Some s3 -> n_now s3 < n_now s2 + bantime ->
   refuses threshold bantime local s3 Calls a /\ refuses threshold bantime local s3 Dials a).
Proof.
  intros A R Hh T NLoc NL NS G. apply accepts_join in A. subst s1. set (id := n_next s) in *.
  rewrite run_app in R. destruct (run (join s a) la) as [sa|] eqn:Ra; [|discriminate].
  rewrite run_app in R. destruct (run sa [Errs id h]) as [sb|] eqn:Rb; [|discriminate].
  rewrite run_app in R. destruct (run sb lb) as [sc|] eqn:Rc; [|discriminate].
  assert (NLa : ~ In (Leaves id) la) by (intros I; apply NL, in_or_app; auto).
  assert (NLb : ~ In (Leaves id) lb) by (intros I; apply NL, in_or_app; auto).
  destruct (run_follows la id (join s a) sa _ (look_join s a)) as (pa & La & Ba & Ea & Ta & Ga & _ & _);
    [unfold join, id; cbn [n_next]; lia|exact Ra|exact NLa|].
  cbn [PenaltyModel.run] in Rb. destruct (step sa (Errs id h)) as [sb'|] eqn:Sb; [|discriminate].
  injection Rb as ->.
  destruct (step_follows sa _ sb id pa La Ba Sb) as (pb & Lb & Bb & Fb); [discriminate|].
  cbn [p_addr p_score p_greeted] in *.
  assert (Kb : p_ban pb = true).
  { apply (f_errs _ _ _ _ Fb h eq_refl Hh). rewrite (f_score _ _ _ _ Fb), Ta. cbn [total]. rewrite N.eqb_refl. lia. }
  destruct (run_follows lb id sb sc pb Lb Bb Rc NLb) as (pc & Lc & Bc & Ec & _ & Gc & Kc & _).
  assert (Gr : p_greeted pc = true).
  { apply Gc. apply in_app_or in G. destruct G as [G|G]; [left; apply (f_greeted _ _ _ _ Fb); auto|right; exact G]. }
  specialize (Kc Kb NS).
  assert (Ad : p_addr pc = a) by (rewrite Ec, (f_addr _ _ _ _ Fb), Ea; reflexivity).
  cbn [PenaltyModel.run PenaltyModel.step] in R. injection R as <-.
  unfold serve. rewrite Lc, Gr, Kc. cbn [negb]. rewrite Ad, NLoc. cbn [negb].
  split.
  { cbn [n_peers]. rewrite look_change, N.eqb_refl, Lc. cbn [option_map]. eexists; split; reflexivity. }
  cbn [n_now]. intros R3 H3.
  match type of R3 with PenaltyModel.run _ _ _ ?s0 _ = _ =>
    assert (L0 : exists t, n_now sc + bantime <= t /\ look (n_banned s0) a = Some t) end.
  { cbn [n_banned]. unfold ban. cbn [look]. rewrite N.eqb_refl. eexists; split; [|reflexivity].
    destruct (Z.ltb_spec match look (n_banned sc) a with Some t' => t' | None => 0 end (n_now sc + bantime)); lia. }
  destruct L0 as (t & Ht & L0). destruct (run_banned _ _ _ _ _ R3 L0) as (t' & Ht' & L').
  assert (I : is_banned s3 a = true) by (unfold is_banned; rewrite L'; apply Z.ltb_lt; lia).
  unfold refuses. cbn [PenaltyModel.step]. rewrite I. auto.
Qed.

Lemma silent_stays s w a s1 l s2 : accepts threshold bantime local s w a s1 -> run s1 l = Some s2 ->
  ~ In (Leaves (n_next s)) l -> ~ In (Greets (n_next s)) l ->
  exists p, look (n_peers s2) (n_next s) = Some p /\ p_leaving p = false.
Proof.
  intros A R NL NG. apply accepts_join in A. subst s1.
  destruct (run_follows l (n_next s) (join s a) s2 _ (look_join s a)) as (p & L & _ & _ & _ & _ & _ & Q);
    [unfold join; cbn [n_next]; lia|exact R|exact NL|].
  exists p. split; [exact L|]. apply Q; auto.
Qed.

(** Bans end. *)
Lemma run_ends T l : 0 <= T + bantime -> (forall t, In (Clock t) l -> t <= T) -> forall s s',
  n_now s <= T -> (forall a t, look (n_banned s) a = Some t -> t <= T + bantime) -> run s l = Some s' ->
  n_now s' <= T /\ forall a t, look (n_banned s') a = Some t -> t <= T + bantime.
Proof.
  intros P. induction l as [|e l IH]; intros C s s' N B R; cbn [PenaltyModel.run] in R; [injection R as <-; auto|].
  destruct (step s e) as [s1|] eqn:S; [|discriminate].
  assert (X : n_now s1 <= T /\ forall a t, look (n_banned s1) a = Some t -> t <= T + bantime).
  { destruct e as [w b|i|i h|i|i|u]; cbn [PenaltyModel.step] in S.
    - destruct w; [destruct (is_banned s b)|destruct (is_banned s b)|]; injection S as <-; auto.
    - injection S as <-. auto.
    - unfold misbehaving in S. destruct (h =? 0); [injection S as <-; auto|].
      destruct (look (n_peers s) i) as [q|]; [destruct (int32 _); [|discriminate]|]; injection S as <-; auto.
    - injection S as <-. unfold serve. destruct (look (n_peers s) i) as [q|]; [|auto].
      destruct (negb (p_greeted q)); [auto|]. destruct (p_ban q); [|auto]. cbn [n_now n_banned]. split; [exact N|].
      destruct (negb (local (p_addr q))); [|exact B]. intros a t. unfold ban. cbn [look].
      destruct (N.eqb a (p_addr q)); [|apply B]. intros E. injection E as <-.
      destruct (look (n_banned s) (p_addr q)) as [t'|] eqn:L; [apply B in L|];
        match goal with |- context [?x <? ?y] => destruct (Z.ltb_spec x y) end; lia.
    - injection S as <-. auto.
    - injection S as <-. cbn [n_now n_banned]. split; [apply C; left; reflexivity|exact B]. }
  destruct X as [N1 B1]. apply (IH (fun t H => C t (or_intror H)) s1 s' N1 B1 R).
Qed.
Lemma bans_end start T l s t s' a : start <= T -> 0 <= T + bantime -> (forall u, In (Clock u) l -> u <= T) ->
  run (fresh start) l = Some s -> T + bantime <= t -> step s (Clock t) = Some s' -> is_banned s' a = false.
Proof.
  intros H P C R Ht S. cbn [PenaltyModel.step] in S. injection S as <-.
  destruct (run_ends T l P C (fresh start) s H) as [_ B]; [cbn; discriminate|exact R|].
  unfold is_banned. cbn [n_banned n_now]. destruct (look (n_banned s) a) as [u|] eqn:L; [|reflexivity].
  apply B in L. apply Z.ltb_ge. lia.
Qed.

(** Blaming a single connection until its score overflows. *)
Lemma errs_overflow n : forall s p, n_peers s = [(0%N, p)] -> 0 <= p_score p <= 2147483647 ->
  2147483647 < p_score p + 100 * Z.of_nat n -> run s (repeat (Errs 0 100) n) = None.
Proof.
  induction n as [|n IH]; intros s p P B H; [lia|].
  cbn [repeat PenaltyModel.run PenaltyModel.step]. unfold misbehaving. rewrite P.
  cbn [Z.eqb look]. rewrite N.eqb_refl.
  destruct (int32 (p_score p + 100)) eqn:I; [|reflexivity].
  unfold int32 in I. apply andb_true_iff in I. destruct I as [_ I]. apply Z.leb_le in I.
  eapply IH; [unfold with_peers; cbn [n_peers change]; rewrite N.eqb_refl; reflexivity| |];
    cbn [p_score]; lia.
Qed.

(** Only guilty addresses are banned. *)
Section Only.
Variable start : Z.
Notation guilty := (guilty threshold bantime local start).

Lemma guilty_app l l' a : guilty l a -> guilty (l ++ l') a.
Proof.
  intros (N & l1 & w & l2 & l3 & s & E & R & H). split; [exact N|].
  exists l1, w, l2, (l3 ++ l'), s. split; [|auto]. rewrite E, <- app_assoc. cbn [app]. rewrite <- app_assoc. reflexivity.
Qed.

Definition traced (l : list event) (id : N) (p : peer) : Prop :=
  (exists l1 w l2 s, l = l1 ++ Joins w (p_addr p) :: l2 /\ run (fresh start) l1 = Some s /\ id = n_next s /\
    ~ In (Leaves id) l2 /\ p_score p = total id l2) /\
  (p_ban p = true -> local (p_addr p) = false -> guilty l (p_addr p)).

Lemma run_only l : forall s, run (fresh start) l = Some s ->
  (forall id p, look (n_peers s) id = Some p -> (id < n_next s)%N /\ traced l id p) /\
  (forall a t, look (n_banned s) a = Some t -> guilty l a).
Proof.
  induction l as [|e l IH] using rev_ind; intros s R.
  - injection R as <-. split; cbn; discriminate.
  - rewrite run_app in R. destruct (run (fresh start) l) as [s0|] eqn:R0; [|discriminate].
    cbn [PenaltyModel.run] in R. destruct (step s0 e) as [s1|] eqn:S; [|discriminate]. injection R as ->.
    destruct (IH s0 eq_refl) as [IP IB].
    assert (Old : forall id p p', look (n_peers s0) id = Some p -> look (n_peers s) id = Some p' ->
              e <> Leaves id -> (id < n_next s)%N /\ traced (l ++ [e]) id p').
    { intros id p p' L L' D. destruct (IP id p L) as [B [(l1 & w & l2 & s2 & E & R2 & I & NL & T) K]].
      destruct (step_follows s0 e s id p L B S D) as (q & Lq & Bq & F).
      assert (q = p') by congruence. subst q. split; [exact Bq|].
      assert (X : l ++ [e] = l1 ++ Joins w (p_addr p') :: l2 ++ [e]).
      { rewrite (f_addr _ _ _ _ F), E, <- app_assoc. reflexivity. }
      assert (NL' : ~ In (Leaves id) (l2 ++ [e])).
      { intros H. apply in_app_or in H. destruct H as [H|[H|[]]]; [exact (NL H)|congruence]. }
      assert (T' : p_score p' = total id (l2 ++ [e])) by (rewrite total_app, (f_score _ _ _ _ F), T; reflexivity).
      split.
      - exists l1, w, (l2 ++ [e]), s2. auto.
      - intros Kb NLoc. destruct (f_ban_inv _ _ _ _ F Kb) as [Kp|Th].
        + apply guilty_app. rewrite (f_addr _ _ _ _ F) in *. auto.
        + split; [exact NLoc|]. exists l1, w, (l2 ++ [e]), [], s2. rewrite app_nil_r. subst id.
          split; [exact X|]. split; [exact R2|]. split; [exact NL'|]. lia. }
    split.
    + intros id p' L'. destruct (look (n_peers s0) id) as [p|] eqn:L.
      * apply (Old id p p' L L'). intros ->. cbn [PenaltyModel.step] in S. injection S as <-.
        cbn [n_peers with_peers] in L'. rewrite look_filter, N.eqb_refl in L'. discriminate.
      * destruct e as [w b|i|i h|i|i|u]; cbn [PenaltyModel.step] in S.
        -- assert (C : s = s0 \/ s = join s0 b).
           { destruct w; [destruct (is_banned s0 b)|destruct (is_banned s0 b)|]; injection S as <-; auto. }
           destruct C as [->| ->]; [congruence|]. unfold join in L'. cbn [n_peers look] in L'.
           destruct (N.eqb_spec id (n_next s0)) as [->|]; [|congruence]. injection L' as <-.
           split; [unfold join; cbn [n_next]; lia|]. split; [|discriminate].
           exists l, w, [], s0. cbn [p_addr p_score total In]. repeat split; auto.
        -- injection S as <-. cbn [n_peers with_peers] in L'. rewrite look_change, L in L'.
           destruct (N.eqb id i); discriminate.
        -- unfold misbehaving in S. destruct (h =? 0); [congruence|].
           destruct (look (n_peers s0) i) as [q|]; [|congruence]. destruct (int32 _); [|discriminate].
           injection S as <-. cbn [n_peers with_peers] in L'. rewrite look_change, L in L'.
           destruct (N.eqb id i); discriminate.
        -- injection S as <-. unfold serve in L'. destruct (look (n_peers s0) i) as [q|]; [|congruence].
           destruct (negb (p_greeted q)); [congruence|]. destruct (p_ban q); [|congruence].
           cbn [n_peers] in L'. rewrite look_change, L in L'. destruct (N.eqb id i); discriminate.
        -- injection S as <-. cbn [n_peers with_peers] in L'. rewrite look_filter, L in L'.
           destruct (N.eqb i id); discriminate.
        -- injection S as <-. cbn [n_peers] in L'. congruence.
    + intros a t L'. destruct (look (n_banned s0) a) as [t0|] eqn:L; [apply guilty_app, (IB a t0 L)|].
      destruct e as [w b|i|i h|i|i|u]; cbn [PenaltyModel.step] in S.
      * destruct w; [destruct (is_banned s0 b)|destruct (is_banned s0 b)|]; injection S as <-;
          unfold join in L'; cbn [n_banned] in L'; congruence.
      * injection S as <-. cbn [n_banned with_peers] in L'. congruence.
      * unfold misbehaving in S. destruct (h =? 0); [congruence|].
        destruct (look (n_peers s0) i) as [q|]; [|congruence]. destruct (int32 _); [|discriminate].
        injection S as <-. cbn [n_banned with_peers] in L'. congruence.
      * injection S as <-. unfold serve in L'. destruct (look (n_peers s0) i) as [q|] eqn:Q; [|congruence].
        destruct (negb (p_greeted q)); [congruence|]. destruct (p_ban q) eqn:K; [|congruence].
        cbn [n_banned] in L'. destruct (local (p_addr q)) eqn:Lo; cbn [negb] in L'; [congruence|].
        unfold ban in L'. cbn [look] in L'. destruct (N.eqb_spec a (p_addr q)) as [->|]; [|congruence].
        apply guilty_app. destruct (IP i q Q) as [_ [_ G]]. auto.
      * injection S as <-. cbn [n_banned with_peers] in L'. congruence.
      * injection S as <-. cbn [n_banned] in L'. congruence.
Qed.

Lemma banned_only l s a : run (fresh start) l = Some s -> is_banned s a = true -> guilty l a.
Proof.
  intros R I. unfold is_banned in I. destruct (look (n_banned s) a) as [t|] eqn:L; [|discriminate].
  exact (proj2 (run_only l s R) a t L).
Qed.
End Only.
End Run.
