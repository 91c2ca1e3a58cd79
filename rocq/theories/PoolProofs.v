(** Lemmas for the theorems on the pool. *)
From Coq Require Import List Bool NArith ZArith Lia ZifyBool ZifyNat ZifyN Sorting.Sorted Permutation.
From Verif Require Import Prelude PoolModel PoolSpec.
Import ListNotations.
Open Scope N_scope.

(** ** Layers *)
Lemma same_refl s : same s s. Proof. intros k. reflexivity. Qed.
Lemma same_sym s s' : same s s' -> same s' s. Proof. intros E k. now rewrite E. Qed.
Lemma same_trans s s' s2 : same s s' -> same s' s2 -> same s s2. Proof. intros A B k. now rewrite A. Qed.

Lemma after_ext s s' w : same s s' -> same (after s w) (after s' w).
Proof. intros E. induction w as [|e w IH]; intros k; cbn; [easy|]. destruct (k =? fst e); [easy|]. apply IH. Qed.

Lemma upd_nil s : same (upd s []) s. Proof. intros k. reflexivity. Qed.
Lemma upd_app s w l : same (upd s (w ++ l)) (after (upd s l) w).
Proof.
  induction w as [|e w IH]; intros k; cbn; [easy|]. unfold upd, held. cbn. rewrite (N.eqb_sym k).
  destruct (fst e =? k); [easy|]. rewrite <- IH. reflexivity.
Qed.
Lemma upd_after s w : same (upd s w) (after s w).
Proof. rewrite <- (app_nil_r w) at 1. intros k. rewrite upd_app. apply after_ext. apply upd_nil. Qed.

Lemma warm1_same s l k : same (upd s (warm1 s l k)) (upd s l).
Proof.
  intros j. unfold warm1. destruct (held l k) eqn:E; [easy|]. destruct (s k =? 0); [easy|]. unfold upd.
  unfold held at 1. cbn. destruct (k =? j) eqn:Q; [|fold (held l j); now destruct (held l j)].
  apply N.eqb_eq in Q. subst j. now rewrite E.
Qed.
Lemma warm_same s ks l : same (upd s (warm s ks l)) (upd s l).
Proof.
  revert l. induction ks as [|k ks IH]; intros l; [apply same_refl|]. cbn. eapply same_trans; [apply IH|apply warm1_same].
Qed.

(** ** Executions *)
Section Exec.
Variable ex : pctx -> ptx -> (N -> N) -> option (list (N * N)).
Hypothesis RS : reads_state ex.
Variable c : N -> pctx.

Lemma executes_left s s' l r : same s s' -> executes ex c s l r -> executes ex c s' l r.
Proof.
  intros E X. revert s' E. induction X as [s r A|s i t w l r A X IH]; intros s' E.
  - constructor. intros k. now rewrite <- E.
  - apply ex_step with w; [now rewrite <- (RS _ _ _ _ E)|]. apply IH. now apply after_ext.
Qed.
Lemma executes_right s l r r' : same r r' -> executes ex c s l r -> executes ex c s l r'.
Proof.
  intros E X. induction X as [s r A|s i t w l r A X IH].
  - constructor. intros k. now rewrite A.
  - apply ex_step with w; auto.
Qed.
Lemma executes_snoc s l r i t w : executes ex c s l r -> ex (c i) t r = Some w ->
  executes ex c s (l ++ [(i, t)]) (after r w).
Proof.
  intros X Y. induction X as [s r A|s j u v l r A X IH]; cbn.
  - apply ex_step with w; [now rewrite (RS _ _ _ _ A)|]. constructor. now apply after_ext.
  - apply ex_step with v; auto.
Qed.

Lemma sieve_executes may i s p k r : sieve may ex c i s p k r -> executes ex c s k r.
Proof. induction 1; [now constructor|eapply ex_step; eassumption|easy]. Qed.
Lemma sieve_may may i s p k r : sieve may ex c i s p k r -> Forall may (map snd k).
Proof. induction 1; cbn; auto. Qed.
Lemma sieve_sub may i s p k r t : sieve may ex c i s p k r -> In t (map snd k) -> In t p.
Proof. induction 1; cbn; intuition. Qed.
Lemma sieve_index may i s p k r : sieve may ex c i s p k r -> StronglySorted (fun a b => fst a < fst b) k /\ Forall (fun a => i <= fst a) k.
Proof.
  induction 1 as [i s r E|i s t w p k r M E S [A B]|i s t p k r E S [A B]].
  - split; constructor.
  - split.
    + constructor; [easy|]. eapply Forall_impl; [|exact B]. cbn. intros. lia.
    + constructor; cbn; [lia|]. eapply Forall_impl; [|exact B]. cbn. intros. lia.
  - split; [easy|]. eapply Forall_impl; [|exact B]. cbn. intros. lia.
Qed.
Lemma sieve_sorted may i s p k r : sieve may ex c i s p k r -> by_id p -> by_id (map snd k).
Proof.
  induction 1 as [i s r E|i s t w p k r M E S IH|i s t p k r E S IH]; intros B.
  - constructor.
  - apply StronglySorted_inv in B as [B F]. cbn. constructor; [now apply IH|].
    apply Forall_forall. intros u I. rewrite Forall_forall in F. apply F. eapply sieve_sub; eassumption.
  - apply StronglySorted_inv in B as [B F]. now apply IH.
Qed.
Lemma sieve_left may i s s' p k r : same s s' -> sieve may ex c i s p k r -> sieve may ex c i s' p k r.
Proof.
  intros E X. revert s' E. induction X as [i s r A|i s t w p k r M A S IH|i s t p k r A S IH]; intros s' E.
  - constructor. intros j. now rewrite <- E.
  - apply sv_keep with w; [easy|now rewrite <- (RS _ _ _ _ E)|]. apply IH. now apply after_ext.
  - apply sv_drop; [now rewrite <- (RS _ _ _ _ E)|]. now apply IH.
Qed.
End Exec.

(** The same context at each index. *)
Lemma executes_ctx ex c c' s l r : (forall i, c i = c' i) -> executes ex c s l r -> executes ex c' s l r.
Proof. intros E. induction 1; [now constructor|]. eapply ex_step; [|eassumption]. now rewrite <- E. Qed.
Lemma sieve_ctx may ex c c' i s p k r : (forall i, c i = c' i) -> sieve may ex c i s p k r -> sieve may ex c' i s p k r.
Proof.
  intros E. induction 1; [now constructor| |].
  - eapply sv_keep; [easy| |eassumption]. now rewrite <- E.
  - apply sv_drop; [|easy]. now rewrite <- E.
Qed.
Lemma ctx_next burn n i : pool_ctx burn n i = next_ctx burn n i.
Proof.
  unfold pool_ctx, next_ctx, n_tip, n_prev_time, n_blocks, n_height.
  destruct (n_chain n) as [|[b s] [|[b2 s2] c]]; reflexivity.
Qed.

(** ** The map of ids *)
Lemma put_perm t l : Permutation (put t l) (t :: l).
Proof.
  induction l as [|u l IH]; cbn; [easy|]. destruct (p_id t <? p_id u); [easy|]. rewrite IH. apply perm_swap.
Qed.
Lemma put_in t l u : In u (put t l) <-> u = t \/ In u l.
Proof.
  split; intros I.
  - apply (Permutation_in _ (put_perm t l)) in I. cbn in I. intuition.
  - apply (Permutation_in _ (Permutation_sym (put_perm t l))). cbn. intuition.
Qed.
Lemma exists_in_spec id l : exists_in id l = true <-> exists u, In u l /\ p_id u = id.
Proof.
  unfold exists_in. rewrite existsb_exists. split; intros (u & I & E); exists u; (split; [easy|]); now apply N.eqb_eq.
Qed.
Lemma put_sorted t l : by_id l -> exists_in (p_id t) l = false -> by_id (put t l).
Proof.
  intros B. induction l as [|u l IH]; intros E; cbn.
  - constructor; constructor.
  - cbn in E. apply orb_false_iff in E as [E1 E2]. apply StronglySorted_inv in B as [B F].
    destruct (p_id t <? p_id u) eqn:L.
    + constructor; [constructor; assumption|]. constructor; [lia|]. eapply Forall_impl; [|exact F]. cbn. intros. lia.
    + constructor; [now apply IH|]. apply Forall_forall. intros v I. apply put_in in I as [->|I]; [lia|].
      rewrite Forall_forall in F. now apply F.
Qed.
Lemma filter_sorted (f : ptx -> bool) l : by_id l -> by_id (filter f l).
Proof.
  intros B. induction B as [|u l B IH F]; cbn; [constructor|]. destruct (f u); [|easy]. constructor; [easy|].
  apply Forall_forall. intros v I. apply filter_In in I as [I _]. rewrite Forall_forall in F. now apply F.
Qed.
Lemma sorted_nodup l : by_id l -> NoDup (map p_id l).
Proof.
  intros B. induction B as [|u l B IH F]; cbn; constructor; [|easy]. intros I. apply in_map_iff in I as (v & E & I).
  rewrite Forall_forall in F. specialize (F v I). cbn in F. lia.
Qed.

(** ** The pool *)
Lemma valid_near H cur t : p_valid_at H cur t = true <-> near H cur t.
Proof.
  unfold p_valid_at, near. set (h := Z.of_N (H / 2)). clearbody h. destruct (p_always t); cbn; [intuition|].
  split; [intros E; right; lia|intros [E|E]; [discriminate|lia]].
Qed.
Lemma known_recent H n id : n_known H n id = true <-> recent H n id.
Proof.
  unfold n_known, recent. rewrite existsb_exists, <- firstn_map. split.
  - intros (b & I & E). apply existsb_exists in E as (u & J & E). apply N.eqb_eq in E. eauto.
  - intros (b & u & I & J & E). exists b. split; [easy|]. apply existsb_exists. exists u. split; [easy|]. now apply N.eqb_eq.
Qed.
Lemma near_dec H cur t : near H cur t \/ ~ near H cur t.
Proof. rewrite <- valid_near. destruct (p_valid_at H cur t); intuition. Qed.

Section Pool.
Variable H : N.
Variable burn : list pblock -> N.
Variable exec : pctx -> ptx -> (N -> N) -> option (list (N * N)).
Variable exec_reads : pctx -> ptx -> (N -> N) -> list N.
Notation cip := (check_in_pool H burn exec exec_reads).
Notation ctx := (pool_ctx burn).

Lemma cip_true n l t i l' : cip n l t i = (true, l') ->
  fit H n t /\ exists w, exec (ctx n i) t (upd (n_base n) l) = Some w
    /\ same (upd (n_base n) l') (after (upd (n_base n) l) w).
Proof.
  unfold check_in_pool. destruct (p_valid_at H (n_height n + 1) t) eqn:V; cbn; [|discriminate].
  destruct (n_known H n (p_id t)) eqn:K; [discriminate|].
  destruct (exec _ _ _) as [w|] eqn:E; [|discriminate]. intros [= <-]. split.
  - split; [now apply valid_near|]. rewrite <- known_recent. now rewrite K.
  - exists w. split; [easy|]. eapply same_trans; [apply upd_app|]. apply after_ext. apply warm_same.
Qed.
Lemma cip_false n l t i l' : cip n l t i = (false, l') ->
  (~ fit H n t \/ exec (ctx n i) t (upd (n_base n) l) = None) /\ same (upd (n_base n) l') (upd (n_base n) l).
Proof.
  unfold check_in_pool. destruct (p_valid_at H (n_height n + 1) t) eqn:V; cbn.
  2:{ intros [= <-]. split; [|apply same_refl]. left. intros [F _]. apply valid_near in F. congruence. }
  destruct (n_known H n (p_id t)) eqn:K.
  { intros [= <-]. split; [|apply same_refl]. left. intros [_ F]. apply F. now apply known_recent. }
  destruct (exec _ _ _) as [w|] eqn:E; [discriminate|]. intros [= <-]. split; [now right|]. apply warm_same.
Qed.
Lemma cip_sound n l t i : fit H n t -> exec (ctx n i) t (upd (n_base n) l) <> None -> fst (cip n l t i) = true.
Proof.
  intros F E. destruct (cip n l t i) as [[|] l'] eqn:Q; [easy|]. apply cip_false in Q as [[Q|Q] _]; tauto.
Qed.

Lemma rescan_sieve (RS : reads_state exec) n l i p : exists k,
  sieve (fit H n) exec (ctx n) i (upd (n_base n) l) p k (upd (n_base n) (snd (rescan_from H burn exec exec_reads n l i p)))
  /\ map snd k = fst (rescan_from H burn exec exec_reads n l i p).
Proof.
  revert l i. induction p as [|t p IH]; intros l i; cbn [rescan_from].
  - exists []. split; [constructor; apply same_refl|easy].
  - destruct (cip n l t i) as [[|] l1] eqn:Q.
    + apply cip_true in Q as (F & w & E & S). destruct (IH l1 (i + 1)) as (k & A & B). exists ((i, t) :: k). cbn. split; [|now rewrite B].
      apply sv_keep with w; [easy|easy|]. now apply (sieve_left exec RS _ _ _ _ _ _ _ _ S).
    + apply cip_false in Q as (F & S). destruct (IH l1 (i + 1)) as (k & A & B). exists k. split; [|easy].
      apply sv_drop; [easy|]. now apply (sieve_left exec RS _ _ _ _ _ _ _ _ S).
Qed.
Lemma rescan_from_in n l i p t : In t (fst (rescan_from H burn exec exec_reads n l i p)) -> In t p.
Proof.
  revert l i. induction p as [|u p IH]; intros l i; cbn [rescan_from]; [easy|].
  destruct (cip n l u i) as [[|] l1]; cbn; intros I; [destruct I as [I|I]; [now left|]|]; right; eapply IH; eassumption.
Qed.
Lemma rescan_from_sorted n l i p : by_id p -> by_id (fst (rescan_from H burn exec exec_reads n l i p)).
Proof.
  revert l i. induction p as [|u p IH]; intros l i B; cbn [rescan_from]; [constructor|].
  apply StronglySorted_inv in B as [B F]. destruct (cip n l u i) as [[|] l1]; cbn; [|now apply IH].
  constructor; [now apply IH|]. apply Forall_forall. intros v I. apply rescan_from_in in I. rewrite Forall_forall in F. now apply F.
Qed.
(** What executes in every state stays. *)
Lemma rescan_from_keeps n l i p t : In t p -> fit H n t -> (forall x s, exec x t s <> None) ->
  In t (fst (rescan_from H burn exec exec_reads n l i p)).
Proof.
  intros I F E. revert l i I. induction p as [|u p IH]; intros l i; cbn [rescan_from]; [easy|].
  intros [->|I].
  - pose proof (cip_sound n l t i F (E _ _)) as Q. destruct (cip n l t i) as [[|] l1]; [now left|discriminate].
  - destruct (cip n l u i) as [[|] l1]; cbn; [right|]; now apply IH.
Qed.

Definition good (n : pnode) (l : list (N * ptx)) : Prop :=
  joint exec (ctx n) n l /\ Permutation (map snd l) (n_pool n) /\ Forall (fit H n) (n_pool n).
Lemma rescan_good (RS : reads_state exec) n : exists l, good (rescan H burn exec exec_reads n) l.
Proof.
  destruct (rescan_sieve RS n [] 0 (n_pool n)) as (k & A & B). exists k. unfold good, joint, rescan. cbn.
  split; [|split].
  - apply sieve_executes in A. exact A.
  - rewrite B. easy.
  - apply sieve_may in A. rewrite <- B. exact A.
Qed.

Variable check : pctx -> ptx -> (N -> N) -> bool.
Variable check_reads : pctx -> ptx -> (N -> N) -> list N.
Variable standard : ptx -> bool.
Notation acc := (accept H burn check exec check_reads exec_reads standard).

(** Acceptance: what changes. *)
Lemma accept_true n t sp n1 : acc n t sp = (true, n1) ->
  exists_in (p_id t) (n_pool n) = false /\ p_forbid t = false /\ standard t = true
  /\ check (ctx n 0) t (upd (n_base n) (n_layer n)) = true /\ sp = true
  /\ fit H n t
  /\ exists w l1 l2, exec (ctx n (N.of_nat (length (n_pool n)))) t (upd (n_base n) l1) = Some w
    /\ same (upd (n_base n) l1) (upd (n_base n) (n_layer n))
    /\ n1 = set_pool n (put t (n_pool n)) l2 /\ same (upd (n_base n) l2) (after (upd (n_base n) l1) w).
Proof.
  unfold accept. destruct (exists_in _ _); [discriminate|]. destruct (p_forbid t); [discriminate|].
  destruct (standard t); cbn; [|discriminate]. destruct (check _ _ _); cbn; [|discriminate]. destruct sp; cbn; [|discriminate].
  destruct (cip _ _ _ _) as [[|] l2] eqn:Q; [|discriminate]. intros [= <-].
  apply cip_true in Q as (F & w & E & S). do 6 (split; [easy|]). exists w, (warm (n_base n) (check_reads (ctx n 0) t (upd (n_base n) (n_layer n))) (n_layer n)), l2.
  split; [easy|]. split; [apply warm_same|]. split; [easy|easy].
Qed.
Lemma accept_false n t sp n1 : acc n t sp = (false, n1) ->
  exists l1, n1 = set_pool n (n_pool n) l1 /\ same (upd (n_base n) l1) (upd (n_base n) (n_layer n)).
Proof.
  assert (Z : n = set_pool n (n_pool n) (n_layer n)) by (destruct n; reflexivity).
  unfold accept. destruct (exists_in _ _); [intros [= <-]; exists (n_layer n); split; [easy|apply same_refl]|].
  destruct (p_forbid t); [intros [= <-]; exists (n_layer n); split; [easy|apply same_refl]|].
  destruct (standard t); cbn; [|intros [= <-]; exists (n_layer n); split; [easy|apply same_refl]].
  destruct (check _ _ _); cbn; [|intros [= <-]; eexists; split; [reflexivity|apply warm_same]].
  destruct sp; cbn; [|intros [= <-]; eexists; split; [reflexivity|apply warm_same]].
  destruct (cip _ _ _ _) as [[|] l2] eqn:Q; [discriminate|]. intros [= <-]. apply cip_false in Q as (_ & S).
  exists l2. split; [reflexivity|]. eapply same_trans; [exact S|]. apply warm_same.
Qed.
Lemma accept_verdict (RS : reads_state exec) n t sp : fst (acc n t sp) = true <->
  (~ exists u, In u (n_pool n) /\ p_id u = p_id t) /\ p_forbid t = false /\ standard t = true /\ sp = true
  /\ check (ctx n 0) t (upd (n_base n) (n_layer n)) = true
  /\ fit H n t /\ exec (ctx n (N.of_nat (length (n_pool n)))) t (upd (n_base n) (n_layer n)) <> None.
Proof.
  rewrite <- exists_in_spec. split.
  - destruct (acc n t sp) as [[|] n1] eqn:Q; [|discriminate]. intros _.
    apply accept_true in Q as (A & B & C & D & E & F & w & l1 & l2 & X & S & _). rewrite A. do 6 (split; [easy|]).
    rewrite <- (RS _ _ _ _ S), X. discriminate.
  - intros (A & B & C & D & E & F & X). unfold accept. destruct (exists_in _ _); [now destruct A|].
    rewrite B, C, D, E. cbn [negb].
    match goal with |- context [cip n ?l t ?i] => pose proof (cip_sound n l t i F) as Q end.
    rewrite (RS _ _ _ _ (warm_same _ _ _)) in Q. specialize (Q X).
    destruct (cip _ _ _ _) as [[|] l2]; [easy|discriminate].
Qed.

Lemma accept_good (RS : reads_state exec) n t sp l : good n l -> exists l', good (snd (acc n t sp)) l'.
Proof.
  intros (J & P & F). destruct (acc n t sp) as [[|] n1] eqn:Q; cbn [snd].
  - apply accept_true in Q as (_ & _ & _ & _ & _ & Ft & w & l1 & l2 & X & S & -> & S2).
    exists (l ++ [(N.of_nat (length (n_pool n)), t)]). split; [|split].
    + unfold joint in *. cbn. eapply executes_right; [apply same_sym; exact S2|].
      eapply (executes_right exec); [apply after_ext, same_sym; exact S|].
      apply (executes_snoc exec RS); [exact J|]. now rewrite <- (RS _ _ _ _ S).
    + cbn. rewrite map_app. cbn. rewrite put_perm, P. symmetry. apply Permutation_cons_append.
    + cbn. apply Forall_forall. intros u I. apply put_in in I as [->|I]; [exact Ft|].
      rewrite Forall_forall in F. exact (F u I).
  - apply accept_false in Q as (l1 & -> & S). exists l. split; [|split; [exact P|exact F]].
    unfold joint in *. cbn. eapply executes_right; [apply same_sym; exact S|exact J].
Qed.

(** ** Invariants of every history *)
Definition tidy (n : pnode) : Prop := by_id (n_pool n) /\ Forall (fun t => p_forbid t = false /\ standard t = true) (n_pool n).
Lemma rescan_tidy n : tidy n -> tidy (rescan H burn exec exec_reads n).
Proof.
  intros [A B]. split; cbn; [now apply rescan_from_sorted|]. apply Forall_forall. intros t I. apply rescan_from_in in I.
  rewrite Forall_forall in B. now apply B.
Qed.
Lemma accept_tidy n t sp : tidy n -> tidy (snd (acc n t sp)).
Proof.
  intros [A B]. destruct (acc n t sp) as [[|] n1] eqn:Q; cbn [snd].
  - apply accept_true in Q as (E & Fb & Sd & _ & _ & _ & w & l1 & l2 & _ & _ & -> & _). split; cbn; [now apply put_sorted|].
    apply Forall_forall. intros u I. apply put_in in I as [->|I]; [easy|]. rewrite Forall_forall in B. now apply B.
  - apply accept_false in Q as (l1 & -> & _). split; assumption.
Qed.
Lemma filter_tidy n f l : tidy n -> tidy (set_pool n (filter f (n_pool n)) l).
Proof.
  intros [A B]. split; cbn; [now apply filter_sorted|]. apply Forall_forall. intros t I. apply filter_In in I as [I _].
  rewrite Forall_forall in B. now apply B.
Qed.
Notation off := (offer H burn check exec check_reads exec_reads standard).
Lemma offer_tidy l : forall n, tidy n -> tidy (off n l).
Proof.
  induction l as [|t l IH]; intros n T; cbn; [easy|]. destruct (p_forbid t); [now apply IH|].
  pose proof (accept_tidy n t true T) as A. destruct (acc n t true) as [[|] n1]; cbn [snd] in A; apply IH; [easy|].
  now apply filter_tidy.
Qed.
Lemma disconnect_tidy k : forall n, tidy n -> tidy (disconnect H burn check exec check_reads exec_reads standard k n).
Proof.
  induction k as [|k IH]; intros n T; cbn; [easy|]. apply IH. unfold disconnect_tip. destruct (n_chain n) as [|[b s] c]; [easy|].
  now apply offer_tidy.
Qed.
Lemma go_back_tidy k n : tidy n -> tidy (go_back H burn check exec check_reads exec_reads standard k n).
Proof. intros T. destruct k; cbn [go_back]; [easy|]. now apply rescan_tidy, disconnect_tidy. Qed.

Variable joins : list pblock -> (N -> N) -> pblock -> option (list (N * N)).
Notation con := (connect_on H burn exec exec_reads joins).
Lemma connect_tidy n b n1 : tidy n -> connect_tip joins n b = Some n1 -> tidy n1.
Proof. intros T. unfold connect_tip. destruct (joins _ _ _); [|discriminate]. intros [= <-]. apply (filter_tidy n _ (n_layer n) T). Qed.
Lemma connect_on_tidy bs : forall n, tidy n -> tidy (con n bs).
Proof.
  induction bs as [|b r IH]; intros n T; cbn [connect_on]; [easy|]. destruct (connect_tip joins n b) as [n1|] eqn:E; [|easy].
  apply (connect_tidy _ _ _ T) in E. destruct r; [now apply rescan_tidy|now apply IH].
Qed.
Lemma lives_tidy g s n : plives H burn check exec check_reads exec_reads standard joins g s n -> tidy n.
Proof.
  induction 1 as [|n e L T]; [split; constructor|]. destruct e; cbn [pstep].
  - now apply accept_tidy.
  - now apply rescan_tidy, (filter_tidy n _ (n_layer n)).
  - destruct T. now split.
  - unfold round. now apply connect_on_tidy, go_back_tidy.
  - unfold fin_connect. apply rescan_tidy. destruct (connect_tip joins n b) eqn:E; [eapply connect_tidy; eassumption|easy].
Qed.
Lemma calm_lives g s n : calm H burn check exec check_reads exec_reads standard joins g s n ->
  plives H burn check exec check_reads exec_reads standard joins g s n.
Proof. induction 1; [constructor|now constructor|now constructor]. Qed.

(** ** Rounds *)
Lemma connect_on_good (RS : reads_state exec) b r : forall n n1, connect_tip joins n b = Some n1 -> ~ breaks_off joins n (b :: r) ->
  exists l, good (con n (b :: r)) l.
Proof.
  revert b. induction r as [|b2 r IH]; intros b n n1 E NB.
  { cbn [connect_on]. rewrite E. now apply rescan_good. }
  change (con n (b :: b2 :: r)) with (match connect_tip joins n b with None => n | Some n1 => con n1 (b2 :: r) end).
  rewrite E. destruct (connect_tip joins n1 b2) as [n2|] eqn:E2.
  - apply (IH b2 n1 n2 E2). intros B. apply NB. eapply bo_later; eassumption.
  - destruct NB. eapply bo_now; eassumption.
Qed.
Lemma connect_on_none n b r : connect_tip joins n b = None -> con n (b :: r) = n.
Proof. intros E. cbn [connect_on]. now rewrite E. Qed.
Lemma connect_on_keeps (RS : reads_state exec) n bs : (exists l, good n l) -> ~ breaks_off joins n bs -> exists l, good (con n bs) l.
Proof.
  intros G NB. destruct bs as [|b r]; [exact G|]. destruct (connect_tip joins n b) as [n1|] eqn:E.
  - eapply connect_on_good; eassumption.
  - now rewrite connect_on_none.
Qed.
Lemma calm_good (RS : reads_state exec) g s n :
  calm H burn check exec check_reads exec_reads standard joins g s n -> exists l, good n l.
Proof.
  induction 1 as [|n e C IH W|n e L M].
  - exists []. split; [|split; [easy|constructor]]. constructor. intros k. reflexivity.
  - destruct e as [t sp|id|ks|k bs|b]; cbn [pstep].
    + destruct IH as (l & G). eapply accept_good; eassumption.
    + now apply rescan_good.
    + destruct IH as (l & J & P & F). exists l. split; [|split; [exact P|exact F]].
      unfold joint in *. cbn. eapply executes_right; [apply same_sym, warm_same|exact J].
    + cbn [whole] in W. unfold round. apply connect_on_keeps; [exact RS| |exact W].
      destruct k; cbn [go_back]; [exact IH|now apply rescan_good].
    + now apply rescan_good.
  - destruct e as [t sp|id|ks|k bs|b]; cbn [pstep mends] in *; [easy|now apply rescan_good|easy| |now apply rescan_good].
    destruct M as [NB M]. unfold round. destruct k as [|k].
    + destruct M as [M|(b & r & n1 & -> & E)]; [easy|]. cbn [go_back] in *. eapply connect_on_good; eassumption.
    + apply connect_on_keeps; [exact RS| |exact NB]. now apply rescan_good.
Qed.

(** ** Transactions of disconnected blocks *)

(** A transaction that every state accepts. *)
Definition hardy (t : ptx) : Prop :=
  p_forbid t = false /\ standard t = true /\ (forall x s, check x t s = true) /\ forall x s, exec x t s <> None.
Lemma accept_hardy n t : hardy t -> fit H n t -> exists_in (p_id t) (n_pool n) = false ->
  exists n1, acc n t true = (true, n1) /\ In t (n_pool n1) /\ n_chain n1 = n_chain n.
Proof.
  intros (A & B & C & D) F E. unfold accept. rewrite E, A, B, C. cbn [negb].
  match goal with |- context [cip n ?l t ?i] => pose proof (cip_sound n l t i F (D _ _)) as Q; destruct (cip n l t i) as [[|] l2] end; [|discriminate].
  eexists. split; [reflexivity|]. cbn. split; [|easy]. apply put_in. now left.
Qed.
Lemma accept_chain n t sp : n_chain (snd (acc n t sp)) = n_chain n.
Proof.
  destruct (acc n t sp) as [[|] n1] eqn:Q; cbn [snd].
  - apply accept_true in Q as (_ & _ & _ & _ & _ & _ & w & l1 & l2 & _ & _ & -> & _). reflexivity.
  - apply accept_false in Q as (l1 & -> & _). reflexivity.
Qed.
Lemma accept_pool_in n t sp u : In u (n_pool n) -> In u (n_pool (snd (acc n t sp))).
Proof.
  intros I. destruct (acc n t sp) as [[|] n1] eqn:Q; cbn [snd].
  - apply accept_true in Q as (_ & _ & _ & _ & _ & _ & w & l1 & l2 & _ & _ & -> & _). cbn. apply put_in. now right.
  - apply accept_false in Q as (l1 & -> & _). exact I.
Qed.
Lemma accept_pool_back n t sp u : In u (n_pool (snd (acc n t sp))) -> u = t \/ In u (n_pool n).
Proof.
  destruct (acc n t sp) as [[|] n1] eqn:Q; cbn [snd].
  - apply accept_true in Q as (_ & _ & _ & _ & _ & _ & w & l1 & l2 & _ & _ & -> & _). cbn. apply put_in.
  - apply accept_false in Q as (l1 & -> & _). now right.
Qed.
Lemma offer_chain l : forall n, n_chain (off n l) = n_chain n.
Proof.
  induction l as [|t l IH]; intros n; cbn; [easy|]. destruct (p_forbid t); [apply IH|].
  pose proof (accept_chain n t true) as A. destruct (acc n t true) as [[|] n1]; cbn [snd] in A; rewrite IH; easy.
Qed.
Lemma offer_keeps l u : forall n, In u (n_pool n) -> (forall t, In t l -> p_id t <> p_id u) -> In u (n_pool (off n l)).
Proof.
  induction l as [|t l IH]; intros n I D; cbn; [easy|]. assert (D' : forall v, In v l -> p_id v <> p_id u) by (intros; apply D; now right).
  destruct (p_forbid t); [now apply IH|]. pose proof (accept_pool_in n t true u I) as A.
  destruct (acc n t true) as [[|] n1]; cbn [snd] in A; apply IH; try easy. cbn. apply filter_In. split; [easy|].
  apply negb_true_iff, N.eqb_neq. intros E. apply (D t); [now left|easy].
Qed.
Lemma offer_back l u : forall n, In u (n_pool (off n l)) -> In u l \/ In u (n_pool n).
Proof.
  induction l as [|t l IH]; intros n I; cbn in *; [now right|]. destruct (p_forbid t).
  - apply IH in I as [I|I]; tauto.
  - pose proof (accept_pool_back n t true u) as A. destruct (acc n t true) as [[|] n1]; cbn [snd] in A.
    + apply IH in I as [I|I]; [tauto|]. apply A in I as [->|I]; tauto.
    + apply IH in I as [I|I]; [tauto|]. cbn in I. apply filter_In in I as [I _]. apply A in I as [->|I]; tauto.
Qed.
Lemma fit_chain n n' t : n_chain n' = n_chain n -> fit H n t -> fit H n' t.
Proof. unfold fit, recent, n_height. intros ->. easy. Qed.
Lemma offer_adds t : hardy t -> forall l n, In t l -> NoDup (map p_id l) -> fit H n t ->
  (forall u, In u (n_pool n) -> p_id u <> p_id t) -> In t (n_pool (off n l)).
Proof.
  intros Hd. induction l as [|u l IH]; intros n I ND F NP; [easy|]. cbn in ND. apply NoDup_cons_iff in ND as [NI ND].
  destruct I as [->|I].
  - assert (E : exists_in (p_id t) (n_pool n) = false).
    { destruct (exists_in _ _) eqn:E; [|easy]. apply exists_in_spec in E as (v & J & E). now destruct (NP v J). }
    destruct (accept_hardy n t Hd F E) as (n1 & A & J & _). destruct Hd as (Fb & _). cbn. rewrite Fb, A. apply offer_keeps; [easy|].
    intros v K E2. apply NI. rewrite <- E2. now apply in_map.
  - assert (NE : p_id u <> p_id t) by (intros E; apply NI; rewrite E; now apply in_map).
    cbn. destruct (p_forbid u); [now apply IH|].
    pose proof (accept_chain n u true) as CH. pose proof (fun v => accept_pool_back n u true v) as BK.
    destruct (acc n u true) as [[|] n1]; cbn [snd] in *; apply IH; try easy.
    + now apply (fit_chain n).
    + intros v J. apply BK in J as [->|J]; [easy|now apply NP].
    + now apply (fit_chain n).
    + cbn. intros v J. apply filter_In in J as [J _]. apply BK in J as [->|J]; [easy|now apply NP].
Qed.

Notation dis := (disconnect H burn check exec check_reads exec_reads standard).
Notation dtip := (disconnect_tip H burn check exec check_reads exec_reads standard).
Lemma dtip_chain n : n_chain (dtip n) = tl (n_chain n).
Proof. unfold disconnect_tip. destruct (n_chain n) as [|[b s] c] eqn:E; [now rewrite E|]. now rewrite offer_chain. Qed.
Lemma dis_chain k : forall n, n_chain (dis k n) = skipn k (n_chain n).
Proof.
  induction k as [|k IH]; intros n; cbn [disconnect]; [easy|]. rewrite IH, dtip_chain. destruct (n_chain n); [now rewrite skipn_nil|easy].
Qed.
Lemma dtip_keeps n t : In t (n_pool n) ->
  (forall b s u, In (b, s) (firstn 1 (n_chain n)) -> In u (b_txs b) -> p_id u <> p_id t) -> In t (n_pool (dtip n)).
Proof.
  intros I D. unfold disconnect_tip. destruct (n_chain n) as [|[b s] c] eqn:E; [easy|]. apply offer_keeps; [easy|].
  intros u J. apply (D b s u); [now left|easy].
Qed.
Lemma dis_keeps t k : forall n, In t (n_pool n) ->
  (forall b s u, In (b, s) (firstn k (n_chain n)) -> In u (b_txs b) -> p_id u <> p_id t) -> In t (n_pool (dis k n)).
Proof.
  induction k as [|k IH]; intros n I D; cbn [disconnect]; [easy|]. apply IH.
  - apply dtip_keeps; [easy|]. intros b s u J. apply (D b s u). destruct (n_chain n); [easy|]. cbn in J. destruct J as [J|[]]. now left.
  - intros b s u J. apply (D b s u). rewrite dtip_chain in J. destruct (n_chain n); [now destruct k|]. cbn. now right.
Qed.
(** The blocks of a chain hold different ids. *)
Definition chain_ids (c : list (pblock * (N -> N))) : list N := concat (map (fun e => map p_id (b_txs (fst e))) c).
Lemma chain_ids_app a b : chain_ids (a ++ b) = chain_ids a ++ chain_ids b.
Proof. unfold chain_ids. now rewrite map_app, concat_app. Qed.
Lemma in_chain_ids c b s u : In (b, s) c -> In u (b_txs b) -> In (p_id u) (chain_ids c).
Proof.
  intros I J. apply in_concat. exists (map p_id (b_txs b)). split; [|now apply in_map].
  apply in_map_iff. exists (b, s). easy.
Qed.
Lemma recent_ids n id : recent H n id -> In id (chain_ids (n_chain n)).
Proof.
  intros (b & u & I & J & <-). rewrite firstn_map in I. apply in_map_iff in I as ([b' s] & E & I). cbn in E. subst b'.
  apply (in_chain_ids _ b s); [|easy]. rewrite <- (firstn_skipn (N.to_nat H) (n_chain n)). apply in_or_app. now left.
Qed.
Lemma nodup_app {A} (a b : list A) : NoDup (a ++ b) -> NoDup a /\ NoDup b /\ forall x, In x a -> ~ In x b.
Proof.
  induction a as [|x a IH]; cbn; intros ND; [repeat split; [constructor|easy|easy]|].
  apply NoDup_cons_iff in ND as [NI ND]. destruct (IH ND) as (P & Q & R). split; [|split; [easy|]].
  - constructor; [|easy]. intros I. apply NI. apply in_or_app. now left.
  - intros y [->|I] J; [apply NI; apply in_or_app; now right|now apply (R y)].
Qed.
Lemma dis_returns t k : hardy t -> forall n j b s, nth_error (n_chain n) j = Some (b, s) -> (j < k)%nat -> In t (b_txs b) ->
  NoDup (chain_ids (n_chain n)) -> (forall u, In u (n_pool n) -> p_id u <> p_id t) ->
  near H (N.of_nat (length (n_chain n) - j)) t ->
  In t (n_pool (dis k n)).
Proof.
  intros Hd. induction k as [|k IH]; intros n j b s E L I ND NP V; [lia|]. cbn [disconnect].
  destruct (n_chain n) as [|[b0 s0] c] eqn:C; [now destruct j|]. unfold chain_ids in ND. cbn in ND. fold (chain_ids c) in ND.
  apply nodup_app in ND as (ND0 & ND & DJ). destruct j as [|j].
  - cbn in E. injection E as -> ->. apply dis_keeps.
    + unfold disconnect_tip. rewrite C. apply offer_adds; try easy. split.
      * unfold n_height. cbn. replace (length ((b, s) :: c) - 0)%nat with (S (length c)) in V by (cbn; lia).
        replace (N.of_nat (length c) + 1) with (N.of_nat (S (length c))) by lia. exact V.
      * intros R. apply recent_ids in R. cbn in R. now apply (DJ (p_id t)); [apply in_map|].
    + rewrite dtip_chain, C. cbn. intros b1 s1 u J K Q. apply (DJ (p_id t)); [now apply in_map|].
      rewrite <- Q. apply (in_chain_ids _ b1 s1); [|easy]. rewrite <- (firstn_skipn k c). apply in_or_app. now left.
  - cbn in E. assert (J : In (p_id t) (chain_ids c)) by (eapply in_chain_ids; [eapply nth_error_In; exact E|exact I]).
    apply (IH (dtip n) j b s); rewrite ?dtip_chain, ?C; cbn [tl]; try easy; [lia|].
    intros u K. unfold disconnect_tip in K. rewrite C in K. apply offer_back in K as [K|K]; [|now apply NP].
      intros Q. apply (DJ (p_id u)); [now apply in_map|now rewrite Q].
Qed.

Lemma nth_firstn {A} (l : list A) : forall j k x, nth_error l j = Some x -> (j < k)%nat -> In x (firstn k l).
Proof.
  induction l as [|y l IH]; intros j k x E L; [now destruct j|]. destruct k; [lia|]. destruct j; cbn in *; [left; congruence|].
  right. apply (IH j); [easy|lia].
Qed.
(** It stays while blocks without it are connected. *)
Lemma rescan_keeps n t : hardy t -> fit H n t -> In t (n_pool n) -> In t (n_pool (rescan H burn exec exec_reads n)).
Proof. intros (_ & _ & _ & D) F I. cbn. now apply rescan_from_keeps. Qed.
Lemma connect_keeps n b n1 t : connect_tip joins n b = Some n1 -> In t (n_pool n) ->
  (forall u, In u (b_txs b) -> p_id u <> p_id t) -> In t (n_pool n1).
Proof.
  unfold connect_tip. destruct (joins _ _ _); [|discriminate]. intros [= <-] I D. cbn. apply filter_In. split; [easy|].
  apply negb_true_iff. destruct (exists_in _ _) eqn:E; [|easy]. apply exists_in_spec in E as (u & J & E). now destruct (D u J).
Qed.
Lemma connect_chain n b n1 : connect_tip joins n b = Some n1 -> n_chain n1 = (b, n_base n) :: n_chain n.
Proof. unfold connect_tip. destruct (joins _ _ _); [|discriminate]. now intros [= <-]. Qed.
Lemma connect_on_stays t : hardy t -> forall bs n, In t (n_pool n) ->
  (forall b u, In b bs -> In u (b_txs b) -> p_id u <> p_id t) -> ~ In (p_id t) (chain_ids (n_chain n)) ->
  (forall h, n_height n + 1 <= h <= n_height n + 1 + N.of_nat (length bs) -> near H h t) ->
  In t (n_pool (con n bs)).
Proof.
  intros Hd. induction bs as [|b r IH]; intros n I D NC V; cbn [connect_on]; [easy|].
  destruct (connect_tip joins n b) as [n1|] eqn:E; [|easy].
  assert (I1 : In t (n_pool n1)) by (apply (connect_keeps n b); [easy|easy|]; intros u; apply D; now left).
  assert (NC1 : ~ In (p_id t) (chain_ids (n_chain n1))).
  { rewrite (connect_chain _ _ _ E). unfold chain_ids. cbn. intros J. apply in_app_or in J as [J|J]; [|easy].
    apply in_map_iff in J as (u & Q & J). apply (D b u); [now left|easy|easy]. }
  assert (HT : n_height n1 = n_height n + 1) by (unfold n_height; rewrite (connect_chain _ _ _ E); cbn [length]; lia).
  destruct r as [|b2 r].
  - apply rescan_keeps; [easy| |easy]. split.
    + apply V. rewrite HT. cbn [length]. lia.
    + intros R. now apply NC1, recent_ids.
  - apply IH; [easy| |easy|].
    + intros b1 u J. apply D. now right.
    + intros h Q. apply V. rewrite HT in Q. cbn [length] in *. lia.
Qed.
Lemma go_back_returns t k n j b s : hardy t -> nth_error (n_chain n) j = Some (b, s) -> (j < k)%nat -> (k <= length (n_chain n))%nat -> In t (b_txs b) ->
  NoDup (chain_ids (n_chain n)) -> (forall u, In u (n_pool n) -> p_id u <> p_id t) ->
  near H (N.of_nat (length (n_chain n) - j)) t -> near H (N.of_nat (length (n_chain n) - k) + 1) t ->
  In t (n_pool (go_back H burn check exec check_reads exec_reads standard k n)).
Proof.
  intros Hd E L L2 I ND NP V V2. destruct k as [|k]; [lia|]. cbn [go_back]. apply rescan_keeps; [easy| |].
  - split.
    + unfold n_height. rewrite dis_chain, skipn_length. exact V2.
    + intros R. apply recent_ids in R. rewrite dis_chain in R. rewrite <- (firstn_skipn (S k) (n_chain n)), chain_ids_app in ND.
      apply nodup_app in ND as (_ & _ & DJ). apply (DJ (p_id t)); [|easy]. apply (in_chain_ids _ b s); [|easy].
      eapply nth_firstn; eassumption.
  - eapply dis_returns; eassumption.
Qed.
End Pool.

(** ** Blocks *)
Section Blocks.
Variable H : N.
Variable check : pctx -> ptx -> (N -> N) -> bool.
Variable exec : pctx -> ptx -> (N -> N) -> option (list (N * N)).
Variable fuel_of : pctx -> ptx -> (N -> N) -> N.
Variable check_reads exec_reads : pctx -> ptx -> (N -> N) -> list N.
Hypothesis RC : reads_state check.
Hypothesis RE : reads_state exec.
Hypothesis RF : reads_state fuel_of.
Variable max_fuel cap : N.
Notation try := (try_tx check exec check_reads exec_reads).
Notation pck := (pack check exec fuel_of check_reads exec_reads max_fuel cap).

Lemma try_spec s x t l : fst (try s x t l) = (if check x t (upd s l) then exec x t (upd s l) else None)
  /\ same (upd s (snd (try s x t l))) (upd s l).
Proof.
  unfold try_tx. destruct (check x t (upd s l)); cbn; (split; [easy|]); [|apply warm_same].
  eapply same_trans; apply warm_same.
Qed.
Lemma pack_runs n mk cs : Forall (fun e => n_known H n (p_id (fst e)) = false /\ p_valid_at H (n_height n) (fst e) = true) cs ->
  forall l l' i size fuel, same (upd (n_base n) l') (upd (n_base n) l) ->
  exists lf, run_block H check exec fuel_of check_reads exec_reads max_fuel n mk l' (i + 1) fuel (fst (pck mk (n_base n) l i size fuel cs)) = Some lf
    /\ same (upd (n_base n) lf) (upd (n_base n) (snd (pck mk (n_base n) l i size fuel cs))).
Proof.
  induction cs as [|[t tl] cs IH]; intros F l l' i size fuel S; cbn [pack]; [exists l'; now split|].
  apply Forall_cons_iff in F as [[K V] F]. cbn [fst] in K, V. destruct tl; cbn [negb]; [|exists l'; now split].
  destruct (cap <=? add64 size (p_size t)); [now apply IH|].
  pose proof (try_spec (n_base n) (mk (i + 1)) t l) as [A B]. pose proof (try_spec (n_base n) (mk (i + 1)) t l') as [A' B'].
  destruct (try (n_base n) (mk (i + 1)) t l) as [[w|] l1]; cbn [fst snd] in A, B.
  2:{ apply IH; [easy|]. eapply same_trans; [exact S|]. now apply same_sym. }
  destruct (max_fuel <=? add64 fuel (fuel_of (mk (i + 1)) t (upd (n_base n) l))) eqn:M.
  { apply IH; [easy|]. eapply same_trans; [exact S|]. now apply same_sym. }
  cbn [fst snd run_block]. rewrite K, V. cbn [negb].
  destruct (try (n_base n) (mk (i + 1)) t l') as [o l1']; cbn [fst snd] in A', B'.
  rewrite (RC _ _ _ _ S), (RE _ _ _ _ S), <- A in A'. subst o. rewrite (RF _ _ _ _ S).
  replace (max_fuel <? add64 fuel (fuel_of (mk (i + 1)) t (upd (n_base n) l))) with false
    by (set (f := add64 _ _) in *; clearbody f; lia).
  apply IH; [easy|]. eapply same_trans; [apply upd_app|]. eapply same_trans; [|apply same_sym, upd_app].
  apply after_ext. eapply same_trans; [exact B'|]. eapply same_trans; [exact S|]. now apply same_sym.
Qed.
Lemma pack_in mk s cs : forall l i size fuel t, In t (fst (pck mk s l i size fuel cs)) -> In t (map fst cs).
Proof.
  induction cs as [|[u tl] cs IH]; intros l i size fuel t; cbn [pack]; [easy|]. destruct (negb tl); [easy|].
  destruct (cap <=? add64 size (p_size u)); [intros I; right; eapply IH; exact I|].
  destruct (try s (mk (i + 1)) u l) as [[w|] l1]; [|intros I; right; eapply IH; exact I].
  destruct (max_fuel <=? _); [intros I; right; eapply IH; exact I|]. cbn. intros [->|I]; [now left|right; eapply IH; exact I].
Qed.

Definition total {A} (f : A -> N) (l : list A) : N := fold_right (fun a z => f a + z) 0 l.
Lemma pack_all mk s (most : ptx -> N) cs : 
  (forall t x s', In t (map fst cs) -> check x t s' = true /\ exec x t s' <> None /\ fuel_of x t s' <= most t) ->
  Forall (fun e => snd e = true) cs ->
  cap <= two64 -> max_fuel <= two64 ->
  forall l i size fuel, size + total p_size (map fst cs) < cap -> fuel + total most (map fst cs) < max_fuel ->
  fst (pck mk s l i size fuel cs) = map fst cs.
Proof.
  intros A T C1 C2. induction cs as [|[t tl] cs IH]; intros l i size fuel SZ FU; cbn [pack]; [easy|].
  apply Forall_cons_iff in T as [E T]. cbn in E. subst tl. cbn [negb]. cbn [map fst total fold_right] in SZ, FU.
  fold (total p_size (map fst cs)) in SZ. fold (total most (map fst cs)) in FU.
  destruct (A t (mk (i + 1)) (upd s l) (or_introl eq_refl)) as (Ck & Ex & Fl).
  assert (Q1 : add64 size (p_size t) = size + p_size t) by (unfold add64; apply N.mod_small; unfold two64 in *; lia).
  rewrite Q1. replace (cap <=? size + p_size t) with false by lia.
  pose proof (try_spec s (mk (i + 1)) t l) as [B _]. rewrite Ck in B.
  destruct (try s (mk (i + 1)) t l) as [[w|] l1]; cbn [fst] in B; [|congruence].
  assert (Q2 : add64 fuel (fuel_of (mk (i + 1)) t (upd s l)) = fuel + fuel_of (mk (i + 1)) t (upd s l))
    by (unfold add64; apply N.mod_small; unfold two64 in *; lia).
  rewrite Q2. replace (max_fuel <=? fuel + fuel_of (mk (i + 1)) t (upd s l)) with false by lia.
  cbn [fst map]. f_equal. apply IH; [|easy|lia|lia]. intros u x s' I. apply A. now right.
Qed.

Lemma pack_size mk s cs : cap <= two64 - 2 ^ 32 -> Forall (fun e => p_size (fst e) < 2 ^ 32) cs ->
  forall l i size fuel, size < two64 - 2 ^ 32 -> fst (pck mk s l i size fuel cs) <> [] ->
  size + total p_size (fst (pck mk s l i size fuel cs)) < cap.
Proof.
  intros Hc F. induction cs as [|[t tl] cs IH]; intros l i size fuel Hs; cbn [pack]; [easy|].
  apply Forall_cons_iff in F as [St F]. cbn [fst] in St. destruct (negb tl); [easy|].
  assert (Q : add64 size (p_size t) = size + p_size t) by (unfold add64; apply N.mod_small; unfold two64 in *; lia).
  rewrite Q. destruct (cap <=? size + p_size t) eqn:E; [now apply IH|].
  destruct (try s (mk (i + 1)) t l) as [[w|] l1]; [|now apply IH].
  destruct (max_fuel <=? add64 fuel (fuel_of (mk (i + 1)) t (upd s l))); [now apply IH|].
  cbn [fst]. intros _. set (f := add64 fuel _). clearbody f.
  specialize (IH F (w ++ l1) (i + 1) (size + p_size t) f ltac:(lia)).
  destruct (fst (pck mk s (w ++ l1) (i + 1) (size + p_size t) f cs)) as [|u us] eqn:R.
  - cbn. lia.
  - specialize (IH ltac:(discriminate)). change (total p_size (t :: u :: us)) with (p_size t + total p_size (u :: us)). lia.
Qed.
End Blocks.
