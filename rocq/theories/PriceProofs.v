(** Proofs about fed prices: the median of a list, the cache of price points as a stack of books,
    and what the events of a node do to it. *)
From Coq Require Import List Bool NArith Lia Permutation Sorting.Sorted Arith ZifyBool ZifyNat ZifyN.
From Verif Require Import Prelude PreludeFacts DexModel DexProofs PriceModel PriceSpec.
Import ListNotations.
Open Scope N_scope.

(** ** The median *)

Lemma insert_perm x l : Permutation (insert x l) (x :: l).
Proof.
  induction l as [|y l IH]; [reflexivity|]. cbn. destruct (x <=? y); [reflexivity|]. rewrite IH. apply perm_swap.
Qed.
Lemma sorted_perm l : Permutation (sorted l) l.
Proof. induction l as [|x l IH]; [reflexivity|]. cbn. rewrite insert_perm. now constructor. Qed.
Lemma insert_sorted x l : StronglySorted N.le l -> StronglySorted N.le (insert x l).
Proof.
  induction 1 as [|y l S IH F]; [repeat constructor|]. cbn. destruct (N.leb_spec x y) as [H|H].
  - constructor; [now constructor|]. constructor; [easy|]. eapply Forall_impl; [|apply F]. cbn. intros; lia.
  - constructor; [easy|]. apply (Permutation_Forall (Permutation_sym (insert_perm x l))). constructor; [lia|easy].
Qed.
Lemma sorted_sorted l : StronglySorted N.le (sorted l).
Proof. induction l as [|x l IH]; [constructor|]. cbn. now apply insert_sorted. Qed.
Lemma sorted_same l l' : StronglySorted N.le l -> StronglySorted N.le l' -> Permutation l l' -> l = l'.
Proof.
  intros S. revert l'. induction S as [|x l S IH F]; intros l' S' P.
  - now apply Permutation_nil in P.
  - destruct S' as [|y l' S' F']; [apply Permutation_sym in P; now apply Permutation_nil_cons in P|].
    assert (E : x = y).
    { assert (I : In x (y :: l')) by (eapply Permutation_in; [exact P|now left]).
      assert (I' : In y (x :: l)) by (eapply Permutation_in; [apply Permutation_sym, P|now left]).
      rewrite Forall_forall in F, F'. destruct I as [<-|I]; [easy|]. destruct I' as [->|I']; [easy|].
      apply F in I'. apply F' in I. lia. }
    subst. f_equal. apply IH; [easy|]. now apply Permutation_cons_inv in P.
Qed.
Lemma sorted_eq l l' : Permutation l l' -> sorted l = sorted l'.
Proof.
  intros P. apply sorted_same; try apply sorted_sorted.
  now rewrite !sorted_perm.
Qed.
Lemma sorted_length l : length (sorted l) = length l.
Proof. apply Permutation_length, sorted_perm. Qed.
Lemma median_perm l l' : Permutation l l' -> median l = median l'.
Proof.
  intros P. unfold median. rewrite (Permutation_length P).
  destruct (Nat.ltb_spec (length l') 2) as [H|H]; [|now rewrite (sorted_eq l l' P)].
  destruct l' as [|x [|y l']]; cbn in H; try lia.
  - apply Permutation_sym, Permutation_nil in P. now subst.
  - apply Permutation_sym, Permutation_length_1_inv in P. now subst.
Qed.

Lemma filter_perm {A} (f : A -> bool) l l' : Permutation l l' -> Permutation (filter f l) (filter f l').
Proof.
  induction 1 as [|x l l' P IH|x y l|l m n P IH P' IH']; [easy| | |now rewrite IH]; cbn.
  - destruct (f x); [now constructor|easy].
  - destruct (f x), (f y); try reflexivity. apply perm_swap.
Qed.
Lemma below_count l lo i : StronglySorted N.le l -> (i < length l)%nat -> nth i l 0 < lo ->
  (i < length (filter (fun x => (x <? lo)%N) l))%nat.
Proof.
  intros S. revert i. induction S as [|x l S IH F]; intros i Hi H; [cbn in Hi; lia|].
  assert (X : x < lo).
  { destruct i as [|i]; [easy|]. cbn in H, Hi. rewrite Forall_forall in F. specialize (F (nth i l 0) ltac:(apply nth_In; lia)). lia. }
  cbn. destruct (N.ltb_spec x lo); [|lia]. destruct i as [|i]; cbn; [lia|]. cbn in H, Hi. specialize (IH i ltac:(lia) H). lia.
Qed.
Lemma above_count l hi i : StronglySorted N.le l -> (i < length l)%nat -> hi < nth i l 0 ->
  (length l - i <= length (filter (fun x => (hi <? x)%N) l))%nat.
Proof.
  intros S. revert i. induction S as [|x l S IH F]; intros i Hi H; [cbn in Hi; lia|].
  destruct i as [|i]; cbn [nth length] in *.
  - assert (E : filter (fun x => (hi <? x)%N) (x :: l) = x :: l).
    { cbn. destruct (N.ltb_spec hi x); [|lia]. f_equal. clear - F H. induction l as [|y l IH]; [easy|].
      inversion F; subst. cbn. destruct (N.ltb_spec hi y); [|lia]. f_equal. now apply IH. }
    rewrite E. cbn. lia.
  - specialize (IH i ltac:(lia) H). cbn. destruct (hi <? x); cbn; lia.
Qed.
Lemma counts l lo hi :
  (length (filter (fun x => (lo <=? x)%N && (x <=? hi)%N) l) + length (filter (fun x => (x <? lo)%N) l) <= length l)%nat
  /\ (length (filter (fun x => (lo <=? x)%N && (x <=? hi)%N) l) + length (filter (fun x => (hi <? x)%N) l) <= length l)%nat.
Proof.
  induction l as [|x l [A B]]; [easy|]. cbn.
  destruct (N.leb_spec lo x), (N.leb_spec x hi), (N.ltb_spec x lo), (N.ltb_spec hi x); cbn; lia.
Qed.
Lemma majority l lo hi : (length l < 2 * length (filter (fun x => (lo <=? x)%N && (x <=? hi)%N) l))%nat ->
  (forall x, In x l -> x < 2 ^ 63) -> lo <= median l <= hi.
Proof.
  intros M B. unfold median. set (s := sorted l).
  assert (Ls : length s = length l) by apply sorted_length.
  assert (S : StronglySorted N.le s) by apply sorted_sorted.
  assert (P : Permutation s l) by apply sorted_perm.
  assert (M' : (length l < 2 * length (filter (fun x => (lo <=? x)%N && (x <=? hi)%N) s))%nat).
  { now rewrite (Permutation_length (filter_perm _ _ _ P)). }
  destruct (counts s lo hi) as [C1 C2].
  assert (Q : forall i, (length l <= 2 * i + 2)%nat -> (2 * i <= length l)%nat -> (i < length l)%nat -> lo <= nth i s 0 <= hi).
  { intros i I1 I2 I3. split.
    - destruct (N.ltb_spec (nth i s 0) lo) as [H|H]; [|easy]. apply below_count in H; [lia|easy|lia].
    - destruct (N.ltb_spec hi (nth i s 0)) as [H|H]; [|easy]. apply above_count in H; [lia|easy|lia]. }
  assert (Bs : forall i, (i < length l)%nat -> nth i s 0 < 2 ^ 63).
  { intros i Hi. apply B. eapply Permutation_in; [exact P|]. apply nth_In. lia. }
  destruct (Nat.ltb_spec (length l) 2) as [L|L].
  - destruct l as [|x [|y l]]; cbn in L, M; try lia. cbn. clear - M.
    destruct (N.leb_spec lo x), (N.leb_spec x hi); cbn in M; lia.
  - pose proof (Nat.div_mod (length l) 2 ltac:(lia)) as D.
    pose proof (Nat.mod_upper_bound (length l) 2 ltac:(lia)) as U.
    set (q := Nat.div (length l) 2) in *. set (m := Nat.modulo (length l) 2) in *.
    destruct (Nat.eqb_spec m 0) as [E|E].
    + pose proof (Q (q - 1)%nat ltac:(lia) ltac:(lia) ltac:(lia)) as Q1.
      pose proof (Q q ltac:(lia) ltac:(lia) ltac:(lia)) as Q2.
      pose proof (Bs (q - 1)%nat ltac:(lia)) as B1. pose proof (Bs q ltac:(lia)) as B2.
      set (a := nth (q - 1) s 0) in *. set (b := nth q s 0) in *.
      rewrite add64_small by (unfold two64; clear - B1 B2; lia).
      clear - Q1 Q2. split; [apply N.div_le_lower_bound|apply N.div_le_upper_bound]; lia.
    + apply Q; lia.
Qed.

(** ** Books *)

Lemma cells_put b p m q : cells_of (fput N.eqb b p m) q = if q =? p then m else cells_of b q.
Proof. unfold cells_of. rewrite fget_put by apply N_eqb_ok. now destruct (q =? p). Qed.
Lemma cell_set b p h c q k : cell (set_cell b p h c) q k = if (q =? p) && (k =? h) then Some c else cell b q k.
Proof.
  unfold cell, set_cell. rewrite cells_put. destruct (N.eqb_spec q p) as [->|]; [|easy].
  rewrite fget_put by apply N_eqb_ok. now destruct (k =? h).
Qed.
Lemma full_set b p h c q k :
  cell_or_empty (set_cell b p h c) q k = if (q =? p) && (k =? h) then c else cell_or_empty b q k.
Proof. unfold cell_or_empty. rewrite cell_set. now destruct ((q =? p) && (k =? h)). Qed.

(** A book without a key twice. *)
Definition wf (b : list (N * list (N * list (N * N)))) : Prop :=
  NoDup (keys b) /\ forall p, NoDup (keys (cells_of b p)).
Lemma wf_nil : wf [].
Proof. split; [constructor|]. intros p. constructor. Qed.
Lemma wf_set b p h c : wf b -> wf (set_cell b p h c).
Proof.
  intros [W1 W2]. split; [apply nodup_put; [apply N_eqb_ok|easy]|]. intros q. unfold set_cell. rewrite cells_put.
  destruct (q =? p); [apply nodup_put; [apply N_eqb_ok|easy]|easy].
Qed.

Lemma put_absent {V} (m : list (N * V)) k v : fget N.eqb m k = None -> fput N.eqb m k v = m ++ [(k, v)].
Proof.
  induction m as [|(k', v') m IH]; [easy|]. cbn. destruct (k =? k'); [easy|]. intros H. now rewrite IH.
Qed.

(** What a cell holds after points were added in a block. *)
Definition empty_at (s : list (list (N * list (N * list (N * N))))) (h : N) : Prop :=
  forall b p, In b s -> cell_or_empty b p h = [].
Lemma exist_base s h r p : empty_at s h -> exist_price s h r p = false.
Proof.
  induction s as [|b s IH]; intros E; [easy|]. cbn. rewrite (E b p) by now left. cbn. apply IH.
  intros b' q I. apply E. now right.
Qed.
Definition points (p r : N) (pps : list (N * N)) : list (N * N) :=
  map (fun x => (r, snd x)) (filter (fun x => fst x =? p) pps).
(** The cells at other heights stay; those at [h] get the points [f p] at their end. *)
Definition grown (h : N) (f : N -> list (N * N)) (a b : list (N * list (N * list (N * N)))) : Prop :=
  (forall p k, k <> h -> cell b p k = cell a p k)
  /\ (forall p, cell_or_empty b p h = cell_or_empty a p h ++ f p)
  /\ (wf a -> wf b).
Lemma grown_none h a : grown h (fun _ => []) a a.
Proof. split; [easy|]. split; [|easy]. intros p. now rewrite app_nil_r. Qed.
Lemma grown_trans h f g a b c : grown h f a b -> grown h g b c -> grown h (fun p => f p ++ g p) a c.
Proof.
  intros (A1 & A2 & A3) (B1 & B2 & B3). split; [|split]; [| |tauto].
  - intros p k H. now rewrite B1, A1.
  - intros p. now rewrite B2, A2, app_assoc.
Qed.
Lemma grown_ext h f g a b : (forall p, f p = g p) -> grown h f a b -> grown h g a b.
Proof. intros E (A & B & C). split; [easy|]. split; [|easy]. intros p. now rewrite B, E. Qed.
Lemma grown_one h a p r x : fget N.eqb (cell_or_empty a p h) r = None ->
  grown h (fun q => if q =? p then [(r, x)] else []) a (add_user_price a p h r x).
Proof.
  intros H. unfold add_user_price. split; [|split].
  - intros q k K. rewrite cell_set. destruct (N.eqb_spec k h); [easy|]. now rewrite andb_false_r.
  - intros q. rewrite full_set, N.eqb_refl, andb_true_r. destruct (N.eqb_spec q p) as [->|].
    + now apply put_absent.
    + now rewrite app_nil_r.
  - apply wf_set.
Qed.
Lemma mem_senders c r : fmem N.eqb c r = true <-> In r (senders c).
Proof.
  unfold fmem. destruct (fget N.eqb c r) eqn:E.
  - split; [|easy]. intros _. now apply (fget_some_key N.eqb N_eqb_ok) in E.
  - split; [easy|]. intros I. now apply (fget_none N.eqb N_eqb_ok) in E.
Qed.
Lemma nodup_snoc {A} (l : list A) x : NoDup l -> ~ In x l -> NoDup (l ++ [x]).
Proof.
  intros N H. apply (Permutation_NoDup (Permutation_cons_append l x)). now constructor.
Qed.

Lemma senders_front (l l' : list (N * N)) : NoDup (senders (l ++ l')) -> NoDup (senders l).
Proof.
  unfold senders. rewrite map_app. induction (map fst l) as [|x m IH]; [constructor|].
  cbn. intros H. inversion H as [|? ? A B]; subst. constructor; [|now apply IH]. intros I. apply A, in_or_app. now left.
Qed.

Lemma add_prices_done h r pps top base top' : empty_at base h ->
  (forall p, NoDup (senders (cell_or_empty top p h))) ->
  add_prices h r pps top base = (true, top') ->
  grown h (fun p => points p r pps) top top' /\ forall p, NoDup (senders (cell_or_empty top' p h)).
Proof.
  intros E. revert top. induction pps as [|(p, x) pps IH]; intros top Nd H; cbn in H.
  - injection H as <-. split; [apply grown_none|easy].
  - rewrite exist_base, orb_false_r in H by easy. destruct (fmem N.eqb (cell_or_empty top p h) r) eqn:F; [discriminate|].
    assert (Ge : fget N.eqb (cell_or_empty top p h) r = None).
    { unfold fmem in F. now destruct (fget N.eqb (cell_or_empty top p h) r). }
    pose proof (grown_one h top p r x Ge) as G.
    assert (Nd' : forall q, NoDup (senders (cell_or_empty (add_user_price top p h r x) q h))).
    { intros q. destruct G as (_ & G & _). rewrite G. destruct (N.eqb_spec q p) as [->|]; [|now rewrite app_nil_r].
      unfold senders. rewrite map_app. cbn. apply nodup_snoc; [apply Nd|]. intros I. apply (mem_senders _ r) in I. congruence. }
    apply IH in H; [|easy]. destruct H as [G' Nd'']. split; [|easy].
    eapply grown_ext; [|eapply grown_trans; [apply G|apply G']]. intros q. unfold points. cbn. rewrite (N.eqb_sym q p).
    now destruct (p =? q).
Qed.
Lemma add_prices_ok h r pps top base : empty_at base h ->
  (forall p, NoDup (senders (cell_or_empty top p h ++ points p r pps))) ->
  exists top', add_prices h r pps top base = (true, top').
Proof.
  intros E. revert top. induction pps as [|(p, x) pps IH]; intros top Nd; [now exists top|]. cbn.
  rewrite exist_base, orb_false_r by easy.
  assert (Nr : ~ In r (senders (cell_or_empty top p h))).
  { specialize (Nd p). unfold points in Nd. cbn in Nd. rewrite N.eqb_refl in Nd. cbn in Nd. unfold senders in Nd.
    rewrite map_app in Nd. cbn in Nd. apply NoDup_remove_2 in Nd. intros I. apply Nd. apply in_or_app. now left. }
  destruct (fmem N.eqb (cell_or_empty top p h) r) eqn:F; [now apply mem_senders in F|].
  assert (Ge : fget N.eqb (cell_or_empty top p h) r = None).
  { unfold fmem in F. now destruct (fget N.eqb (cell_or_empty top p h) r). }
  apply IH. intros q. destruct (grown_one h top p r x Ge) as (_ & G & _). rewrite G. specialize (Nd q).
  unfold points in Nd |- *. cbn in Nd. rewrite (N.eqb_sym q p). destruct (p =? q); cbn in Nd.
  - now rewrite <- app_assoc.
  - now rewrite app_nil_r.
Qed.

(** ** The transactions of a block *)

Notation all_points l p := (concat (map (points_of p) l)).

Lemma run_app h b l l' latest top base : run_txs h b (l ++ l') latest top base =
  bind (run_txs h b l latest top base) (fun r => run_txs h b l' (fst r) (snd r) base).
Proof.
  revert latest top. induction l as [|t l IH]; intros latest top; [easy|]. destruct t as [r pps|claimed|]; cbn.
  - destruct (add_prices h r pps top base) as [ok top']. destruct ok; cbn; [apply IH|easy].
  - destruct (equal_prices claimed _); cbn; [apply IH|easy].
  - apply IH.
Qed.
Lemma run_feeds h b fs latest top base latest' top' : forallb is_feed fs = true -> empty_at base h ->
  (forall p, NoDup (senders (cell_or_empty top p h))) ->
  run_txs h b fs latest top base = Done (latest', top') ->
  latest' = latest /\ grown h (fun p => all_points fs p) top top' /\ forall p, NoDup (senders (cell_or_empty top' p h)).
Proof.
  intros F E. revert top. induction fs as [|t fs IH]; intros top Nd H.
  - injection H as <- <-. split; [easy|]. split; [apply grown_none|easy].
  - cbn in F. apply andb_true_iff in F as [F1 F2]. destruct t as [r pps| |]; try discriminate. cbn in H.
    destruct (add_prices h r pps top base) as [ok top1] eqn:A. destruct ok; [|discriminate]. cbn in H.
    apply add_prices_done in A as [G Nd1]; [|easy|easy]. apply IH in H; [|easy|easy]. destruct H as (-> & G' & Nd').
    split; [easy|]. split; [|easy]. eapply grown_ext; [|eapply grown_trans; [apply G|apply G']]. easy.
Qed.
Lemma run_others h b l latest top base latest' top' : forallb (fun t => negb (is_feed t)) l = true ->
  length (filter is_median l) = 1%nat ->
  run_txs h b l latest top base = Done (latest', top') ->
  top' = top /\ latest' = calc_details (top :: base) latest h (b_window_at b) (b_pairs b)
  /\ exists claimed, In (TMedian claimed) l /\ equal_prices claimed latest' = true.
Proof.
  assert (Z : forall l latest latest' top', forallb (fun t => negb (is_feed t)) l = true ->
    length (filter is_median l) = 0%nat -> run_txs h b l latest top base = Done (latest', top') ->
    top' = top /\ latest' = latest).
  { clear. induction l as [|t l IH]; intros latest latest' top' F M H; [now injection H as <- <-|].
    cbn in F. apply andb_true_iff in F as [F1 F2]. destruct t; try discriminate. cbn in H, M. now apply (IH latest). }
  revert latest. induction l as [|t l IH]; intros latest F M H; [discriminate|].
  cbn in F. apply andb_true_iff in F as [F1 F2]. destruct t as [|claimed|]; try discriminate; cbn in H, M.
  - destruct (equal_prices claimed _) eqn:Q; [|discriminate]. cbn in H. injection M as M.
    apply Z in H as [-> ->]; [|easy|easy]. split; [easy|]. split; [easy|]. exists claimed. split; [now left|easy].
  - destruct (IH latest F2 M H) as (A & B & claimed & C & D). split; [easy|]. split; [easy|]. exists claimed. split; [now right|easy].
Qed.
Lemma run_others_ok h b l latest top base : forallb (fun t => negb (is_feed t)) l = true ->
  length (filter is_median l) = 1%nat ->
  run_txs h b l latest top base = 
  (let calc := calc_details (top :: base) latest h (b_window_at b) (b_pairs b) in
   match filter is_median l with TMedian claimed :: _ => if equal_prices claimed calc then Done (calc, top) else Reject | _ => Reject end).
Proof.
  assert (Z : forall l latest, forallb (fun t => negb (is_feed t)) l = true ->
    length (filter is_median l) = 0%nat -> run_txs h b l latest top base = Done (latest, top)).
  { clear. induction l as [|t l IH]; intros latest F M; [easy|].
    cbn in F. apply andb_true_iff in F as [F1 F2]. destruct t; try discriminate. cbn in M |- *. now apply IH. }
  revert latest. induction l as [|t l IH]; intros latest F M; [discriminate|].
  cbn in F. apply andb_true_iff in F as [F1 F2]. destruct t as [|claimed|]; try discriminate; cbn in M |- *.
  - destruct (equal_prices claimed _) eqn:Q; [|easy]. cbn. injection M as M. now apply Z.
  - now apply IH.
Qed.

(** ** Stacks of books *)

Fixpoint vis (s : list (list (N * list (N * list (N * N))))) (p h : N) : list (N * N) :=
  match s with
  | [] => []
  | b :: s => match cell b p h with Some c => c | None => vis s p h end
  end.
Lemma vis_one b p h : vis [b] p h = cell_or_empty b p h.
Proof. cbn. unfold cell_or_empty. now destruct (cell b p h). Qed.
Lemma vis_empty s p h : (forall b, In b s -> cell_or_empty b p h = []) -> vis s p h = [].
Proof.
  induction s as [|b s IH]; intros E; [easy|]. cbn. destruct (cell b p h) eqn:C.
  - specialize (E b ltac:(now left)). unfold cell_or_empty in E. now rewrite C in E.
  - apply IH. intros b' I. apply E. now right.
Qed.

Definition some_if {A} (l : list A) : option (list A) := match l with [] => None | _ => Some l end.
Lemma gather_cells_spec m : forall exp got exp' got', gather_cells m exp got = (exp', got') ->
  forall h,
  fget N.eqb got' h = (if fmem N.eqb got h || existsb (N.eqb h) exp then fget N.eqb got h
                       else match fget N.eqb m h with Some c => some_if c | None => None end)
  /\ (fmem N.eqb got' h || existsb (N.eqb h) exp' = fmem N.eqb got h || existsb (N.eqb h) exp || fmem N.eqb m h).
Proof.
  induction m as [|(k, c) m IH]; intros exp got exp' got' H h.
  - injection H as <- <-. cbn. rewrite orb_false_r. split; [|easy]. unfold fmem.
    destruct (fget N.eqb got h) eqn:E; cbn; [easy|]. now destruct (existsb (N.eqb h) exp).
  - destruct c as [|x c].
    + cbn [gather_cells] in H. apply IH with (h := h) in H. destruct H as [A B]. rewrite A, B. cbn [existsb fget]. clear.
      unfold fmem. cbn [fget]. destruct (fget N.eqb got h) eqn:G; cbn; [easy|].
      destruct (N.eqb_spec h k) as [->|]; cbn; destruct (existsb _ exp); cbn; now rewrite ?orb_true_r.
    + cbn [gather_cells] in H. destruct (existsb (N.eqb k) exp || fmem N.eqb got k) eqn:Q.
      * apply IH with (h := h) in H. destruct H as [A B]. rewrite A, B. cbn [fget]. clear - Q. unfold fmem in *. cbn [fget].
        destruct (N.eqb_spec h k) as [->|]; [|easy]. rewrite (orb_comm _ (existsb _ exp)). now rewrite Q.
      * apply IH with (h := h) in H. destruct H as [A B]. rewrite A, B. clear A B IH. cbn [fget].
        unfold fmem in *. cbn [fget]. rewrite !fget_put by apply N_eqb_ok.
        apply orb_false_iff in Q as [Q1 Q2]. destruct (N.eqb_spec h k) as [->|]; [|easy].
        rewrite Q1. destruct (fget N.eqb got k); [discriminate|]. cbn. easy.
Qed.
Lemma gather_spec s p : forall exp got h,
  fget N.eqb (gather s p exp got) h
  = if fmem N.eqb got h || existsb (N.eqb h) exp then fget N.eqb got h else some_if (vis s p h).
Proof.
  induction s as [|b s IH]; intros exp got h.
  - cbn. unfold fmem. destruct (fget N.eqb got h); cbn; [easy|]. now destruct (existsb _ exp).
  - cbn [gather vis]. destruct (gather_cells (cells_of b p) exp got) as [exp' got'] eqn:G. rewrite IH.
    destruct (gather_cells_spec _ _ _ _ _ G h) as [A B]. rewrite B, A. unfold cell.
    destruct (fmem N.eqb got h || existsb (N.eqb h) exp) eqn:Q; [easy|].
    rewrite orb_false_l. unfold fmem. now destruct (fget N.eqb (cells_of b p) h).
Qed.
Lemma gather_all s p h : fget N.eqb (gather s p [] []) h = some_if (vis s p h).
Proof. now rewrite gather_spec. Qed.
Lemma prices_vis s p h : prices_at (gather s p [] []) h = map snd (vis s p h).
Proof. unfold prices_at. rewrite gather_all. now destruct (vis s p h). Qed.

Lemma median_nil : median [] = 0. Proof. reflexivity. Qed.
Lemma block_median_vis s p h w : 0 < h ->
  block_median h w (gather s p [] []) =
  (median (concat (map (fun k => map snd (vis s p k)) (downs (N.to_nat (N.min w h)) h))),
   if (0 <? w) && negb (Nat.eqb (length (vis s p h)) 0) then h else 0).
Proof.
  intros Ph. unfold block_median.
  assert (E : h - (if w <? h then h - w else 0) = N.min w h) by (destruct (N.ltb_spec w h); lia).
  assert (E' : ((if w <? h then h - w else 0) <? h) = (0 <? w)).
  { destruct (N.ltb_spec w h); destruct (N.ltb_spec 0 w); lia. }
  destruct (gather s p [] []) as [|x g] eqn:G.
  - assert (V : forall k, vis s p k = []).
    { intros k. pose proof (gather_all s p k) as A. rewrite G in A. cbn in A. now destruct (vis s p k). }
    rewrite V. cbn [length Nat.eqb negb]. rewrite andb_false_r.
    replace (concat _) with (@nil N); [easy|]. symmetry. generalize (downs (N.to_nat (N.min w h)) h) as l. intros l.
    induction l as [|k l IH]; [easy|]. cbn. now rewrite V.
  - rewrite E, E', <- G. f_equal.
    + f_equal. f_equal. apply map_ext. intros k. apply prices_vis.
    + unfold fmem. rewrite gather_all. now destruct (vis s p h).
Qed.

(** ** Forgetting a block *)

Lemma clear_spec h ps : forall a, let b := clear_cells h ps a in
  (forall p k, k <> h -> cell b p k = cell a p k)
  /\ (forall p, In p ps -> cell b p h = Some [])
  /\ (forall p, ~ In p ps -> cell b p h = cell a p h)
  /\ (wf a -> wf b)
  /\ (forall p, In p (keys b) <-> In p ps \/ In p (keys a)).
Proof.
  induction ps as [|q ps IH]; intros a b; [cbn in *; intuition|]. subst b. cbn [clear_cells fold_left].
  destruct (IH (set_cell a q h [])) as (A & B & C & D & E). unfold clear_cells in *.
  split; [|split; [|split; [|split]]].
  - intros p k K. rewrite A, cell_set by easy. destruct (N.eqb_spec k h); [easy|]. now rewrite andb_false_r.
  - intros p I. destruct (in_dec N.eq_dec p ps) as [J|J]; [now apply B|]. destruct I as [->|I]; [|easy].
    rewrite C, cell_set, !N.eqb_refl by easy. easy.
  - intros p I. rewrite C, cell_set by (intros J; apply I; now right). destruct (N.eqb_spec p q) as [->|]; [|easy].
    now destruct I; left.
  - intros W. apply D. now apply wf_set.
  - intros p. rewrite E. unfold set_cell. rewrite keys_put_in by apply N_eqb_ok. cbn. intuition.
Qed.
Lemma no_key a p h : ~ In p (keys a) -> cell a p h = None.
Proof. intros H. unfold cell, cells_of. apply (fget_none N.eqb N_eqb_ok) in H. now rewrite H. Qed.
Definition front_pairs (b : pblock) : list N := map fst (concat (map snd (front_feeds (b_txs b)))).
Lemma delete_spec h b top : let t := delete_block h b top in
  (forall p k, k <> h -> cell t p k = cell top p k)
  /\ (forall p, In p (front_pairs b) -> cell t p h = Some [])
  /\ (forall p, cell t p h = Some [] \/ (cell t p h = None /\ cell top p h = None))
  /\ (wf top -> wf t).
Proof.
  intros t. subst t. unfold delete_block. fold (front_pairs b).
  destruct (clear_spec h (front_pairs b) top) as (A & B & C & D & E). set (t1 := clear_cells h (front_pairs b) top) in *.
  destruct (clear_spec h (keys t1) t1) as (A' & B' & C' & D' & E'). set (t := clear_cells h (keys t1) t1) in *.
  split; [|split; [|split]].
  - intros p k K. rewrite A', A; easy.
  - intros p I. apply B'. apply E. now left.
  - intros p. destruct (in_dec N.eq_dec p (keys t1)) as [I|I]; [left; now apply B'|]. right. split.
    + rewrite C' by easy. now apply no_key.
    + apply no_key. intros J. apply I. apply E. now right.
  - tauto.
Qed.

(** ** Flushing *)

Lemma write_fold p h c : forall base, (forall r, In r (senders c) -> ~ In r (senders (cell_or_empty base p h))) ->
  NoDup (senders c) ->
  let b := fold_left (fun b rp =>
           let old := cell_or_empty b p h in
           set_cell b p h (if fmem N.eqb old (fst rp) then old else fput N.eqb old (fst rp) (snd rp))) c base in
  forall q k, cell_or_empty b q k = if (q =? p) && (k =? h) then cell_or_empty base p h ++ c else cell_or_empty base q k.
Proof.
  induction c as [|(r, x) c IH]; intros base H Nd b q k.
  - subst b. cbn. rewrite app_nil_r. destruct (N.eqb_spec q p) as [->|], (N.eqb_spec k h) as [->|]; easy.
  - subst b. cbn [fold_left]. inversion Nd as [|? ? Nr Nd']; subst.
    destruct (fmem N.eqb (cell_or_empty base p h) (fst (r, x))) eqn:F.
    { apply mem_senders in F. exfalso. apply (H r); [now left|easy]. }
    cbn [fst snd] in F |- *.
    assert (P : fput N.eqb (cell_or_empty base p h) r x = cell_or_empty base p h ++ [(r, x)]).
    { apply put_absent. unfold fmem in F. now destruct (fget N.eqb _ r). }
    rewrite P. rewrite IH.
    + rewrite !full_set, !N.eqb_refl. cbn [andb]. destruct ((q =? p) && (k =? h)); [|easy]. now rewrite <- app_assoc.
    + intros r' I. rewrite full_set, !N.eqb_refl. cbn [andb]. unfold senders. rewrite map_app. intros J.
      apply in_app_or in J as [J|J]; [apply (H r'); [now right|easy]|]. destruct J as [<-|[]]. easy.
    + easy.
Qed.
Lemma write_cell_spec p base h c : (c <> [] -> cell_or_empty base p h = []) -> NoDup (senders c) ->
  forall q k, cell_or_empty (write_cell p base (h, c)) q k = if (q =? p) && (k =? h) then c else cell_or_empty base q k.
Proof.
  intros H Nd q k. unfold write_cell. destruct c as [|x c].
  - unfold cell_or_empty, cell. rewrite cells_put. destruct (N.eqb_spec q p) as [->|]; [|easy].
    rewrite fget_del by apply N_eqb_ok. now destruct (k =? h).
  - rewrite write_fold; [|rewrite H by easy; easy|easy]. now rewrite H.
Qed.
Lemma write_cells p m : forall base, NoDup (keys m) ->
  (forall h c, In (h, c) m -> (c <> [] -> cell_or_empty base p h = []) /\ NoDup (senders c)) ->
  forall q k, cell_or_empty (fold_left (write_cell p) m base) q k
    = if q =? p then match fget N.eqb m k with Some c => c | None => cell_or_empty base q k end else cell_or_empty base q k.
Proof.
  induction m as [|(h, c) m IH]; intros base Nd H q k; [now destruct (q =? p)|].
  cbn [fold_left]. inversion Nd as [|? ? Nh Nd']; subst. destruct (H h c ltac:(now left)) as [Hc Sc]. cbn [fst] in Nh.
  rewrite IH; [|easy|].
  - rewrite write_cell_spec by easy. cbn [fget]. destruct (N.eqb_spec q p) as [->|]; [|easy]. cbn [andb].
    destruct (N.eqb_spec k h) as [->|]; [|easy]. apply (fget_none N.eqb N_eqb_ok) in Nh. now rewrite Nh.
  - intros k' c' I. destruct (H k' c' ltac:(now right)) as [Hc' Sc']. split; [|easy]. intros N'. rewrite write_cell_spec by easy.
    destruct (N.eqb_spec k' h) as [->|]; [|rewrite andb_false_r; now apply Hc'].
    exfalso. apply Nh. now apply (in_map fst) in I.
Qed.
Lemma batch_spec top : forall base, NoDup (keys top) -> (forall p, NoDup (keys (cells_of top p))) ->
  (forall p h, cell_or_empty top p h <> [] -> cell_or_empty base p h = []) ->
  (forall p h, NoDup (senders (cell_or_empty top p h))) ->
  forall q k, cell_or_empty (batch_write top base) q k = vis [top; base] q k.
Proof.
  unfold batch_write. induction top as [|(p, m) top IH]; intros base Nd Nc H Sn q k; [now rewrite <- vis_one|].
  inversion Nd as [|? ? Np Nd']; subst. cbn [fst snd fold_left] in *.
  assert (Cp : forall q, cells_of ((p, m) :: top) q = if q =? p then m else cells_of top q).
  { intros q'. unfold cells_of. cbn. now destruct (q' =? p). }
  assert (Ct : forall h, cell top p h = None) by (intros h; now apply no_key).
  assert (Nm : NoDup (keys m)) by (specialize (Nc p); rewrite Cp, N.eqb_refl in Nc; easy).
  assert (Cm : forall h c, In (h, c) m -> cell_or_empty ((p, m) :: top) p h = c).
  { intros h c I. unfold cell_or_empty, cell. rewrite Cp, N.eqb_refl. now rewrite (in_fget N.eqb N_eqb_ok m h c). }
  assert (Co : forall q h, q <> p -> cell_or_empty ((p, m) :: top) q h = cell_or_empty top q h).
  { intros q' h D. unfold cell_or_empty, cell. rewrite Cp. now destruct (N.eqb_spec q' p). }
  assert (Hm : forall h c, In (h, c) m -> (c <> [] -> cell_or_empty base p h = []) /\ NoDup (senders c)).
  { intros h c I. rewrite <- (Cm h c I). split; [apply H|apply Sn]. }
  pose proof (write_cells p m base Nm Hm) as Wr.
  rewrite IH.
  - cbn [vis]. change (match cell ?b q k with Some c => c | None => [] end) with (cell_or_empty b q k).
    rewrite Wr. unfold cell at 2. rewrite Cp. destruct (N.eqb_spec q p) as [->|D]; [now rewrite Ct|easy].
  - easy.
  - intros q'. destruct (N.eqb_spec q' p) as [->|D].
    + unfold cells_of. apply (fget_none N.eqb N_eqb_ok) in Np. rewrite Np. constructor.
    + specialize (Nc q'). rewrite Cp in Nc. now destruct (N.eqb_spec q' p).
  - intros q' h Ne. rewrite Wr. destruct (N.eqb_spec q' p) as [->|D].
    + exfalso. apply Ne. unfold cell_or_empty. now rewrite Ct.
    + apply H. now rewrite Co.
  - intros q' h. destruct (N.eqb_spec q' p) as [->|D].
    + unfold cell_or_empty. rewrite Ct. constructor.
    + rewrite <- Co by easy. apply Sn.
Qed.

(** ** Feeds at the front of a block *)

Lemma front_split fs others : forallb is_feed fs = true -> forallb (fun t => negb (is_feed t)) others = true ->
  front_feeds (fs ++ others) = front_feeds fs
  /\ forall p, concat (map (fun f => points p (fst f) (snd f)) (front_feeds fs)) = all_points (fs ++ others) p.
Proof.
  intros F O. induction fs as [|t fs IH].
  - cbn. split.
    + destruct others as [|t others]; [easy|]. cbn in O. now destruct t.
    + intros p. induction others as [|t others IH]; [easy|]. cbn in O. destruct t; try discriminate; cbn; now apply IH.
  - cbn in F. apply andb_true_iff in F as [F1 F2]. destruct t as [r pps| |]; try discriminate. destruct (IH F2) as [A B].
    cbn. split; [now rewrite A|]. intros p. now rewrite B.
Qed.
(** A block with its feeds at the front, each sender once for a pair. *)
Definition front (b : pblock) : Prop :=
  exists fs others, b_txs b = fs ++ others /\ forallb is_feed fs = true
     /\ forallb (fun t => negb (is_feed t)) others = true.
Lemma front_points b p : front b -> concat (map (fun f => points p (fst f) (snd f)) (front_feeds (b_txs b))) = feeds_of b p.
Proof. intros (fs & o & E & F & O). destruct (front_split fs o F O) as [A B]. unfold feeds_of. rewrite E, A. apply B. Qed.
Lemma front_pairs_all b p : front b -> ~ In p (front_pairs b) -> feeds_of b p = [].
Proof.
  intros F. rewrite <- front_points by easy. unfold front_pairs. generalize (front_feeds (b_txs b)). intros l H.
  induction l as [|(r, pps) l IH]; [easy|]. cbn in H |- *. rewrite map_app in H. rewrite IH by (intros I; apply H, in_or_app; now right).
  rewrite app_nil_r. unfold points. replace (filter _ pps) with (@nil (N * N)); [easy|]. symmetry.
  assert (H' : ~ In p (map fst pps)) by (intros I; apply H, in_or_app; now left). clear - H'.
  induction pps as [|(q, x) pps IH]; [easy|]. cbn in H' |- *. destruct (N.eqb_spec q p); [tauto|]. apply IH. tauto.
Qed.

Lemma add_feeds_spec h fs base : empty_at base h -> forall top,
  (forall p, NoDup (senders (cell_or_empty top p h ++ concat (map (fun f => points p (fst f) (snd f)) fs)))) ->
  grown h (fun p => concat (map (fun f => points p (fst f) (snd f)) fs)) top (add_feeds h fs top base).
Proof.
  intros E. induction fs as [|(r, pps) fs IH]; intros top Nd; [apply grown_none|]. cbn [add_feeds map concat fst snd] in *.
  destruct (add_prices_ok h r pps top base E) as (top' & A).
  { intros p. specialize (Nd p). rewrite app_assoc in Nd. now apply senders_front in Nd. }
  rewrite A. cbn [snd]. apply add_prices_done in A as [G _]; [|easy|].
  - apply (grown_trans h _ _ _ _ _ G). apply IH. intros p. destruct G as (_ & G & _). rewrite G, <- app_assoc. apply Nd.
  - intros p. specialize (Nd p). now apply senders_front in Nd.
Qed.
(** A block as it may stand on a chain: one median, or the first block. *)
Definition block_ok (w : N) (b : pblock) : Prop :=
  front b /\ once b /\ b_window b = w /\ (b_txs b = [] \/ length (filter is_median (b_txs b)) = 1%nat).
Lemma few_txs w b p : block_ok w b -> Nat.ltb (S (length (b_txs b))) 3 = true -> feeds_of b p = [].
Proof.
  intros (_ & _ & _ & M) L. unfold feeds_of. destruct M as [->|M]; [easy|].
  destruct (b_txs b) as [|t [|u l]]; [easy| |cbn in L; destruct (length l); discriminate].
  cbn in M. destruct t; cbn in M; easy.
Qed.
Lemma add_block_spec w h b top base : block_ok w b -> empty_at (top :: base) h ->
  grown h (feeds_of b) top (add_block h b top base).
Proof.
  intros B E. unfold add_block. destruct (Nat.ltb (S (length (b_txs b))) 3) eqn:L.
  - eapply grown_ext; [|apply grown_none]. intros p. symmetry. now apply (few_txs w).
  - destruct B as (F & O & _). eapply grown_ext; [|apply add_feeds_spec].
    + intros p. now apply front_points.
    + intros b' p I. apply E. now right.
    + intros p. rewrite front_points by easy. rewrite (E top p ltac:(now left)). apply O.
Qed.

(** ** Chains *)

Lemma block_at_cons b d c h : block_at ((b, d) :: c) h = if h =? N.of_nat (length c) then Some b else block_at c h.
Proof.
  unfold block_at. cbn [length]. destruct (N.eqb_spec h (N.of_nat (length c))) as [->|D].
  - destruct (N.ltb_spec (N.of_nat (length c)) (N.of_nat (S (length c)))); [|lia].
    replace (S (length c) - 1 - N.to_nat (N.of_nat (length c)))%nat with O by lia. easy.
  - destruct (N.ltb_spec h (N.of_nat (S (length c)))), (N.ltb_spec h (N.of_nat (length c))); try lia; [|easy].
    replace (S (length c) - 1 - N.to_nat h)%nat with (S (length c - 1 - N.to_nat h)) by lia. easy.
Qed.
Lemma fed_cons b d c p h : fed ((b, d) :: c) p h = if h =? N.of_nat (length c) then feeds_of b p else fed c p h.
Proof. unfold fed. rewrite block_at_cons. now destruct (h =? N.of_nat (length c)). Qed.
Lemma fed_beyond c p h : N.of_nat (length c) <= h -> fed c p h = [].
Proof. intros H. unfold fed, block_at. destruct (N.ltb_spec h (N.of_nat (length c))); [lia|easy]. Qed.
Lemma block_at_some c h : h < N.of_nat (length c) -> exists b, block_at c h = Some b.
Proof.
  intros H. induction c as [|(b, d) c IH]; [cbn in H; lia|]. rewrite block_at_cons. destruct (N.eqb_spec h (N.of_nat (length c))); [now exists b|].
  apply IH. cbn [length] in H. lia.
Qed.
Lemma block_at_in c h b : block_at c h = Some b -> exists d, In (b, d) c.
Proof.
  intros H. induction c as [|(b', d) c IH]; [unfold block_at in H; now destruct (h <? _)|].
  rewrite block_at_cons in H. destruct (h =? N.of_nat (length c)).
  - injection H as <-. exists d. now left.
  - destruct (IH H) as (d' & I). exists d'. now right.
Qed.

Lemma last_prices_downs p c : (1 <= length c)%nat -> forall k : nat,
  last_prices c p k = concat (map (fun h => map snd (fed c p h)) (downs (Nat.min k (length c - 1)) (tip_height c))).
Proof.
  induction c as [|(b, d) c IH]; intros L k; [cbn in L; lia|]. destruct c as [|x c0].
  - cbn. rewrite Nat.min_0_r. now destruct k.
  - set (c := x :: c0) in *. assert (Lc : (1 <= length c)%nat) by (cbn; lia). specialize (IH Lc).
    destruct k as [|k]; [easy|].
    replace (Nat.min (S k) (length ((b, d) :: c) - 1)) with (S (Nat.min k (length c - 1))) by (cbn [length]; lia).
    change (last_prices ((b, d) :: c) p (S k)) with (map snd (feeds_of b p) ++ last_prices c p k).
    cbn [downs map concat].
    assert (T : tip_height ((b, d) :: c) = N.of_nat (length c)) by (unfold tip_height; cbn [length]; lia).
    rewrite T, fed_cons, N.eqb_refl, IH. f_equal. f_equal.
    replace (N.of_nat (length c) - 1) with (tip_height c) by reflexivity.
    apply map_ext_in. intros h I. rewrite fed_cons.
    assert (h < N.of_nat (length c)).
    { revert I. unfold tip_height. generalize (Nat.min k (length c - 1)). clear - Lc. intros n.
      assert (G : forall n a, In h (downs n a) -> h <= a).
      { induction n0 as [|n0 IH]; cbn; [easy|]. intros a [<-|I]; [lia|]. apply IH in I. lia. }
      intros I. apply G in I. lia. }
    destruct (N.eqb_spec h (N.of_nat (length c))); [lia|easy].
Qed.
Lemma downs_in h : forall n a, In h (downs n a) -> (N.of_nat n <= a) -> h <= a /\ a < h + N.of_nat n /\ 0 < h.
Proof.
  induction n as [|n IH]; cbn [downs]; [easy|]. intros a [<-|I] L; [lia|]. apply IH in I; lia.
Qed.

(** What [accept] says, in terms of the comparison the code makes. *)
Definition acceptable (w : N) (c : list (pblock * list (N * (N * N)))) (b : pblock) : Prop :=
  length (filter is_median (b_txs b)) = 1%nat /\ once b
  /\ exists claimed, In (TMedian claimed) (b_txs b) /\ equal_prices claimed (dues w c b) = true.
Lemma same_prices_spec a b : same_prices a b = true <-> a = map (fun x => (fst x, fst (snd x))) b.
Proof.
  revert b. induction a as [|(p, x) a IH]; intros [|(q, d) b]; cbn; try easy.
  rewrite !andb_true_iff, IH, !N.eqb_eq. split; [intros [[-> ->] ->]; easy|]. intros E. injection E as -> -> ->. easy.
Qed.
Lemma acceptable_iff w c b : acceptable w c b <-> accept w c b.
Proof.
  unfold acceptable, accept, equal_prices. split; intros (A & B & cl & I & E); (split; [easy|]); (split; [easy|]); exists cl; (split; [easy|]); now apply same_prices_spec.
Qed.

Section Window.
  Variable W : N.
  Inductive chain_ok : list (pblock * list (N * (N * N))) -> Prop :=
  | co_first g : first_block W g -> chain_ok [(g, [])]
  | co_next c b : chain_ok c -> tidy W b -> length (filter is_median (b_txs b)) = 1%nat -> once b ->
      (exists claimed, In (TMedian claimed) (b_txs b) /\ equal_prices claimed (dues W c b) = true) ->
      chain_ok ((b, dues W c b) :: c).
  Lemma chain_blocks c b d : chain_ok c -> In (b, d) c -> block_ok W b.
  Proof.
    intros C I. induction C as [g [E G]|c b' C IH (F & T1 & T2) M O _].
    - destruct I as [[= <- _]|[]]. split; [exists [], []; now rewrite E|]. split; [|split; [easy|now left]].
      intros p. unfold feeds_of. rewrite E. constructor.
    - destruct I as [[= <- _]|I]; [|now apply IH]. split; [easy|]. split; [easy|]. split; [easy|]. now right.
  Qed.
  Lemma chain_length c : chain_ok c -> (1 <= length c)%nat.
  Proof. intros []; cbn; lia. Qed.
  Lemma chain_first c p : chain_ok c -> fed c p 0 = [].
  Proof.
    induction 1 as [g [E G]|c b C IH T M O _].
    - unfold fed, block_at. cbn. unfold feeds_of. now rewrite E.
    - rewrite fed_cons. pose proof (chain_length c C). destruct (N.eqb_spec 0 (N.of_nat (length c))); [lia|easy].
  Qed.
  Lemma chain_window c : chain_ok c -> window_of c = W.
  Proof. intros [g []|c' b C (_ & _ & E) M O]; easy. Qed.

  (** What a cache has to hold: the feeds of the last [W] blocks. *)
  Definition want (c : list (pblock * list (N * (N * N)))) (p h : N) : list (N * N) :=
    if N.of_nat (length c) <=? h + W then fed c p h else [].
  Lemma want_beyond c p h : N.of_nat (length c) <= h -> want c p h = [].
  Proof. intros H. unfold want. rewrite fed_beyond by easy. now destruct (_ <=? _). Qed.

  (** A new book on top of another. *)
  Definition linked (c : list (pblock * list (N * (N * N)))) (top base : list (N * list (N * list (N * N)))) : Prop :=
    chain_ok c /\ (forall p h, vis [top; base] p h = want c p h) /\ wf top
    /\ (forall p h, N.of_nat (length c) <= h -> cell_or_empty base p h = [])
    /\ (forall p h, cell_or_empty top p h <> [] -> cell_or_empty base p h = [])
    /\ (forall p h, NoDup (senders (cell_or_empty top p h))).
  Definition good (c : list (pblock * list (N * (N * N)))) (k : list (N * list (N * list (N * N)))) : Prop :=
    chain_ok c /\ forall p h, cell_or_empty k p h = want c p h.
  Lemma link c k : good c k -> linked c [] k.
  Proof.
    intros [C G]. split; [easy|]. split; [|split; [apply wf_nil|split; [|split]]].
    - intros p h. rewrite <- G, <- vis_one. easy.
    - intros p h L. rewrite G. now apply want_beyond.
    - easy.
    - intros p h. constructor.
  Qed.
  Lemma unlink c top base : linked c top base -> good c (batch_write top base).
  Proof.
    intros (C & V & [Wt Wt'] & _ & T & S). split; [easy|]. intros p h. rewrite <- V. now apply batch_spec.
  Qed.
  Lemma top_beyond c top base p h : linked c top base -> N.of_nat (length c) <= h -> cell_or_empty top p h = [].
  Proof.
    intros (C & V & _) L. specialize (V p h). rewrite want_beyond in V by easy. cbn in V. unfold cell_or_empty.
    now destruct (cell top p h).
  Qed.

  Lemma delete_vis h b top base : front b -> (forall p, vis (top :: base) p h <> [] -> In p (front_pairs b)) ->
    forall p k, vis (delete_block h b top :: base) p k = if k =? h then [] else vis (top :: base) p k.
  Proof.
    intros F H p k. destruct (delete_spec h b top) as (A & B & C & _). cbn [vis]. destruct (N.eqb_spec k h) as [->|D].
    - destruct (C p) as [E|[E E']]; [now rewrite E|]. rewrite E. specialize (H p). cbn [vis] in H. rewrite E' in H.
      destruct (vis base p h) eqn:V; [easy|]. specialize (H ltac:(easy)). apply B in H. congruence.
    - now rewrite A.
  Qed.
  Lemma grown_vis h f top top' base p k : grown h f top top' -> empty_at (top :: base) h ->
    vis (top' :: base) p k = if k =? h then f p else vis (top :: base) p k.
  Proof.
    intros (A & B & _) E. cbn [vis]. destruct (N.eqb_spec k h) as [->|D]; [|now rewrite A].
    specialize (B p). rewrite (E top p ltac:(now left)) in B. cbn in B.
    destruct (cell top' p h) eqn:Ce; unfold cell_or_empty in B; rewrite Ce in B; [easy|]. rewrite <- B.
    apply vis_empty. intros b' I. apply E. now right.
  Qed.

  Lemma feeds_total h b fs latest base : forallb is_feed fs = true -> empty_at base h -> forall top,
    (forall p, NoDup (senders (cell_or_empty top p h))) ->
    (exists top', run_txs h b fs latest top base = Done (latest, top')
       /\ (forall p, NoDup (senders (cell_or_empty top p h ++ all_points fs p))) /\ grown h (fun p => all_points fs p) top top')
    \/ (run_txs h b fs latest top base = Reject /\ ~ forall p, NoDup (senders (cell_or_empty top p h ++ all_points fs p))).
  Proof.
    intros F E. induction fs as [|t fs IH]; intros top Nd.
    - left. exists top. split; [easy|]. split; [|apply grown_none]. intros p. now rewrite app_nil_r.
    - cbn in F. apply andb_true_iff in F as [F1 F2]. destruct t as [r pps| |]; try discriminate. cbn [run_txs].
      destruct (add_prices h r pps top base) as [ok top1] eqn:A. destruct ok; cbn [guard bind].
      + apply add_prices_done in A as [G Nd1]; [|easy|easy].
        assert (X : forall p, cell_or_empty top1 p h ++ all_points fs p = cell_or_empty top p h ++ all_points (TFeed r pps :: fs) p).
        { intros p. destruct G as (_ & G & _). now rewrite G, <- app_assoc. }
        destruct (IH F2 top1 Nd1) as [(top' & R & N1 & G')|[R N1]].
        * left. exists top'. split; [easy|]. split; [intros p; now rewrite <- X|].
          apply (grown_trans h _ _ _ _ _ G G').
        * right. split; [easy|]. intros N2. apply N1. intros p. now rewrite X.
      + right. split; [easy|]. intros N2.
        destruct (add_prices_ok h r pps top base E) as (top' & A').
        { intros p. specialize (N2 p). cbn [map concat] in N2. change (points_of p (TFeed r pps)) with (points p r pps) in N2.
          rewrite app_assoc in N2. now apply senders_front in N2. }
        congruence.
  Qed.

  Lemma median_due c b s p : chain_ok c -> 0 < W ->
    (forall k, k < N.of_nat (length c) -> N.of_nat (length c) <= k + W -> vis s p k = fed c p k) ->
    vis s p (N.of_nat (length c)) = feeds_of b p ->
    median_price s (stored c) (N.of_nat (length c)) W p = due W c b p.
  Proof.
    intros C Pw V1 V2. pose proof (chain_length c C) as L. unfold median_price, due. rewrite block_median_vis by lia.
    rewrite V2. replace (0 <? W) with true by lia. cbn [andb fst snd].
    set (m := median _). set (m' := median (last_prices _ _ _)).
    assert (E : m = m').
    { unfold m, m'. f_equal. rewrite last_prices_downs by (cbn; lia). unfold tip_height. cbn [length].
      replace (N.of_nat (S (length c)) - 1) with (N.of_nat (length c)) by lia.
      replace (Nat.min (N.to_nat W) (S (length c) - 1)) with (N.to_nat (N.min W (N.of_nat (length c)))) by lia.
      f_equal. apply map_ext_in. intros k I. f_equal. rewrite fed_cons. apply downs_in in I; [|lia].
      destruct (N.eqb_spec k (N.of_nat (length c))) as [->|D]; [easy|]. apply V1; lia. }
    rewrite E. destruct (fget N.eqb (stored c) p) as [old|]; [|easy]. destruct (m' =? 0); [easy|].
    destruct (negb (Nat.eqb (length (feeds_of b p)) 0)); [now rewrite N.eqb_refl|].
    destruct (N.eqb_spec 0 (N.of_nat (length c))); [lia|easy].
  Qed.

  Lemma connect_outcome c b top base : 0 < W -> linked c top base -> tidy W b ->
    (acceptable W c b /\ exists t, connect_block c b top [base] = Done ((b, dues W c b) :: c, t)
       /\ linked ((b, dues W c b) :: c) t base)
    \/ (~ acceptable W c b /\ connect_block c b top [base] = Reject).
  Proof.
    intros Pw K T. pose proof K as (C & V & Wt & Bb & Tb & Sn). pose proof (chain_length c C) as L.
    destruct T as (F & T1 & T2). pose proof F as (fs & others & Et & Ff & Fo).
    set (h := N.of_nat (length c)) in *.
    assert (Eh : empty_at [top; base] h).
    { intros b' p [<-|[<-|[]]]; [apply (top_beyond c top base p h K); unfold h; lia|apply Bb; unfold h; lia]. }
    assert (Eb : empty_at [base] h) by (intros b' p I; apply Eh; now right).
    unfold connect_block. fold h.
    destruct (Nat.eqb_spec (length (filter is_median (b_txs b))) 1) as [M|M].
    2: { right. split; [|easy]. intros (M' & _). contradiction. }
    cbn [guard bind]. rewrite Et, run_app.
    assert (Fd : forall p, all_points fs p = feeds_of b p).
    { intros p. destruct (front_split fs others Ff Fo) as [_ X]. unfold feeds_of. rewrite Et, <- X.
      rewrite <- (app_nil_r fs) at 1. destruct (front_split fs [] Ff eq_refl) as [_ Y]. now rewrite Y. }
    assert (Fm : filter is_median (b_txs b) = filter is_median others).
    { rewrite Et, filter_app. replace (filter is_median fs) with (@nil ptx); [easy|]. symmetry. clear - Ff.
      induction fs as [|t fs IH]; [easy|]. cbn in Ff. apply andb_true_iff in Ff as [F1 F2]. cbn. destruct t; try discriminate. now apply IH. }
    destruct (feeds_total h b fs (stored c) [base] Ff Eb top (fun p => Sn p h)) as [(top1 & R & N1 & G)|[R N1]].
    2: { right. rewrite R. split; [|easy]. intros (_ & O & _). apply N1. intros p. rewrite (Eh top p ltac:(now left)), Fd. apply O. }
    rewrite R. cbn [bind fst snd]. rewrite Fm in M. rewrite run_others_ok by easy. cbv zeta.
    assert (On : once b). { intros p. specialize (N1 p). rewrite (Eh top p ltac:(now left)), Fd in N1. exact N1. }
    assert (V1 : forall p k, vis [top1; base] p k = if k =? h then feeds_of b p else want c p k).
    { intros p k. rewrite (grown_vis h _ top top1 [base] p k G Eh), V. now rewrite Fd. }
    assert (Ca : calc_details [top1; base] (stored c) h (b_window_at b) (b_pairs b) = dues W c b).
    { unfold calc_details, dues. f_equal. apply map_ext. intros p. f_equal. rewrite T1. apply median_due; [easy|easy| |].
      - intros k K1 K2. rewrite V1. destruct (N.eqb_spec k h); [unfold h in *; lia|]. unfold want.
        destruct (N.leb_spec (N.of_nat (length c)) (k + W)); [easy|lia].
      - fold h. now rewrite V1, N.eqb_refl. }
    rewrite Ca.
    destruct (filter is_median others) as [|t ms] eqn:Fi; [discriminate|].
    assert (It : forall t', In t' (filter is_median others) -> t' = t).
    { rewrite Fi. destruct ms; [|discriminate]. intros t' [<-|[]]. easy. }
    assert (Tm : is_median t = true) by (apply (proj2 (proj1 (filter_In is_median t others) ltac:(rewrite Fi; now left)))).
    assert (Io : In t others) by (apply (proj1 (proj1 (filter_In is_median t others) ltac:(rewrite Fi; now left)))).
    destruct t as [|claimed|]; try discriminate.
    destruct (equal_prices claimed (dues W c b)) eqn:Q.
    2: { right. split; [|easy]. intros (_ & _ & cl & I & Q'). rewrite Et in I.
         assert (J : In (TMedian cl) (filter is_median (b_txs b))) by (rewrite filter_In, Et; easy).
         rewrite Fm, <- Fi in J. apply It in J. injection J as ->. congruence. }
    cbn [bind fst snd]. left.
    assert (Ac : acceptable W c b).
    { split; [now rewrite Fm|]. split; [easy|]. exists claimed. split; [rewrite Et; apply in_or_app; now right|easy]. }
    split; [easy|]. set (c1 := (b, dues W c b) :: c).
    assert (C1 : chain_ok c1).
    { destruct Ac as (A1 & A2 & A3). unfold c1. now constructor. }
    assert (L1 : N.of_nat (length c1) = h + 1) by (unfold c1; cbn [length]; unfold h; lia).
    assert (Ti : tip_height c1 = h) by (unfold tip_height; lia).
    unfold push_block. rewrite Ti, T2.
    assert (Wt1 : wf top1) by (destruct G as (_ & _ & G); now apply G).
    assert (Tb1 : forall p k, cell_or_empty top1 p k <> [] -> cell_or_empty base p k = []).
    { intros p k Ne. destruct (N.eqb_spec k h) as [->|D]; [apply (Eb base p); now left|].
      apply Tb. destruct G as (G & _). unfold cell_or_empty in Ne |- *. now rewrite G in Ne. }
    assert (Sn1 : forall p k, NoDup (senders (cell_or_empty top1 p k))).
    { intros p k. destruct (N.eqb_spec k h) as [->|D].
      - destruct G as (_ & G & _). rewrite G, (Eh top p ltac:(now left)), Fd. apply On.
      - destruct G as (G & _). unfold cell_or_empty. rewrite G by easy. apply Sn. }
    assert (Bb1 : forall p k, N.of_nat (length c1) <= k -> cell_or_empty base p k = []).
    { intros p k Hk. apply Bb. unfold h in *. lia. }
    assert (V1' : forall p k, k <> h - W \/ h <= W -> vis [top1; base] p k = want c1 p k).
    { intros p k Hk. rewrite V1. unfold want. rewrite L1. unfold c1. rewrite fed_cons. fold h.
      destruct (N.eqb_spec k h) as [->|D].
      - destruct (N.leb_spec (h + 1) (h + W)); [easy|lia].
      - destruct (N.leb_spec h (k + W)), (N.leb_spec (h + 1) (k + W)); try easy; try lia.
        assert (k = 0) by lia. subst k. now rewrite (chain_first c p C). }
    destruct (N.ltb_spec W h) as [Wh|Wh].
    - destruct (block_at_some c1 (h - W) ltac:(lia)) as (b' & Hb'). rewrite Hb'. cbn [need bind].
      eexists. split; [reflexivity|].
      assert (Ok' : block_ok W b').
      { destruct (block_at_in _ _ _ Hb') as (d' & I). apply (chain_blocks c1 b' d' C1 I). }
      destruct (delete_spec (h - W) b' top1) as (D1 & D2 & D3 & D4).
      assert (De : forall p k, cell_or_empty (delete_block (h - W) b' top1) p k <> [] ->
        cell_or_empty (delete_block (h - W) b' top1) p k = cell_or_empty top1 p k).
      { intros p k Ne. unfold cell_or_empty in Ne |- *. destruct (N.eqb_spec k (h - W)) as [->|D]; [|now rewrite D1].
        destruct (D3 p) as [E|[E _]]; now rewrite E in Ne. }
      split; [easy|]. split; [|split; [tauto|split; [easy|split]]].
      + intros p k. rewrite delete_vis; [|apply Ok'|].
        * destruct (N.eqb_spec k (h - W)) as [->|D].
          -- unfold want. rewrite L1. destruct (N.leb_spec (h + 1) (h - W + W)); [lia|easy].
          -- apply V1'. now left.
        * intros q Ne. destruct (in_dec N.eq_dec q (front_pairs b')) as [I|I]; [easy|]. exfalso. apply Ne.
          apply front_pairs_all in I; [|apply Ok']. rewrite V1. destruct (N.eqb_spec (h - W) h); [lia|].
          unfold want. unfold fed. unfold c1 in Hb'. rewrite block_at_cons in Hb'. fold h in Hb'.
          destruct (N.eqb_spec (h - W) h); [lia|]. rewrite Hb', I. now destruct (_ <=? _).
      + intros p k Ne. pose proof (De p k Ne) as E. rewrite E in Ne. now apply Tb1.
      + intros p k. destruct (cell_or_empty (delete_block (h - W) b' top1) p k) eqn:E; [constructor|].
        rewrite <- E. rewrite De by (now rewrite E). apply Sn1.
    - exists top1. split; [easy|]. split; [easy|]. split; [|split; [easy|split; [easy|split; easy]]].
      intros p k. apply V1'. right. lia.
  Qed.

  Lemma chain_tail b d c : chain_ok ((b, d) :: c) -> (1 <= length c)%nat -> chain_ok c.
  Proof. intros C L. inversion C; subst; [cbn in L; lia|easy]. Qed.
  Lemma disconnect_spec b d c top base : 0 < W -> chain_ok ((b, d) :: c) -> (1 <= length c)%nat ->
    (forall k p h, In k (top :: base) -> want ((b, d) :: c) p h = [] -> cell_or_empty k p h = []) ->
    (forall p h, vis (top :: base) p h = want ((b, d) :: c) p h) ->
    exists t, disconnect_block ((b, d) :: c) top base = Done (c, t) /\ chain_ok c
      /\ (forall p h, vis (t :: base) p h = want c p h) /\ (wf top -> wf t)
      /\ (forall p h, cell_or_empty t p h <> [] -> cell_or_empty t p h = cell_or_empty top p h
            \/ (NoDup (senders (cell_or_empty t p h)) /\ forall k, In k base -> cell_or_empty k p h = [])).
  Proof.
    intros Pw C L Fl V. pose proof (chain_tail b d c C L) as C0.
    unfold disconnect_block. destruct c as [|x c0]; [cbn in L; lia|]. set (c := x :: c0) in *.
    set (h := N.of_nat (length c)) in *. set (c1 := (b, d) :: c) in *.
    assert (L1 : N.of_nat (length c1) = h + 1) by (unfold c1, h; cbn [length]; lia).
    assert (Ti : tip_height c1 = h) by (unfold tip_height; lia).
    rewrite (chain_window c C0). unfold undo_block. rewrite Ti. unfold c1 at 1.
    assert (Ob : block_ok W b) by (apply (chain_blocks c1 b d C); now left).
    assert (V1 : forall p k, vis (delete_block h b top :: base) p k = if k =? h then [] else want c1 p k).
    { intros p k. rewrite delete_vis; [now rewrite V|apply Ob|]. intros q. rewrite V. intros Ne.
      destruct (in_dec N.eq_dec q (front_pairs b)) as [I|I]; [easy|]. exfalso. apply Ne. apply front_pairs_all in I; [|apply Ob].
      unfold want, c1. rewrite fed_cons. fold h. rewrite N.eqb_refl, I. now destruct (_ <=? _). }
    destruct (delete_spec h b top) as (D1 & D2 & D3 & D4). set (t1 := delete_block h b top) in *.
    assert (De : forall p k, cell_or_empty t1 p k <> [] -> cell_or_empty t1 p k = cell_or_empty top p k).
    { intros p k Ne. unfold cell_or_empty in Ne |- *. destruct (N.eqb_spec k h) as [->|D]; [|now rewrite D1].
      destruct (D3 p) as [E|[E _]]; now rewrite E in Ne. }
    assert (Wa : forall p k, k <> h -> k <> h - W \/ h <= W -> want c1 p k = want c p k).
    { intros p k Hk Hw. unfold want. rewrite L1. unfold c1. rewrite fed_cons. fold h.
      destruct (N.eqb_spec k h); [easy|].
      destruct (N.leb_spec h (k + W)), (N.leb_spec (h + 1) (k + W)); try easy; try lia.
      assert (k = 0) by lia. subst k. now rewrite (chain_first c p C0). }
    destruct (N.ltb_spec W h) as [Wh|Wh].
    - destruct (block_at_some c1 (h - W) ltac:(lia)) as (b' & Hb'). rewrite Hb'. cbn [bind].
      assert (Ok' : block_ok W b').
      { destruct (block_at_in _ _ _ Hb') as (d' & I). apply (chain_blocks c1 b' d' C I). }
      assert (Wn : forall p, want c1 p (h - W) = []).
      { intros p. unfold want. rewrite L1. destruct (N.leb_spec (h + 1) (h - W + W)); [lia|easy]. }
      assert (Em : empty_at (t1 :: base) (h - W)).
      { intros k p [<-|I].
        - unfold cell_or_empty. rewrite D1 by lia. apply (Fl top p (h - W)); [now left|apply Wn].
        - apply (Fl k p (h - W)); [now right|apply Wn]. }
      pose proof (add_block_spec W (h - W) b' t1 base Ok' Em) as G. set (t := add_block (h - W) b' t1 base) in *.
      exists t. split; [easy|]. split; [easy|]. split; [|split].
      + intros p k. rewrite (grown_vis (h - W) _ t1 t base p k G Em), V1.
        destruct (N.eqb_spec k (h - W)) as [->|D].
        * unfold want. fold h. destruct (N.leb_spec h (h - W + W)); [|lia]. unfold fed.
          unfold c1 in Hb'. rewrite block_at_cons in Hb'. fold h in Hb'. destruct (N.eqb_spec (h - W) h); [lia|]. now rewrite Hb'.
        * destruct (N.eqb_spec k h) as [->|D']; [symmetry; apply want_beyond; unfold h; lia|]. apply Wa; [easy|now left].
      + destruct G as (_ & _ & G). tauto.
      + intros p k Ne. destruct (N.eqb_spec k (h - W)) as [->|D].
        * right. split; [|intros k I; apply (Em k p); now right]. destruct G as (_ & G & _). rewrite G.
          rewrite (Em t1 p ltac:(now left)). apply Ok'.
        * left. destruct G as (G & _). unfold cell_or_empty in Ne |- *. rewrite G in Ne |- * by easy. now apply De.
    - exists t1. cbn [bind]. split; [easy|]. split; [easy|]. split; [|split].
      + intros p k. rewrite V1. destruct (N.eqb_spec k h) as [->|D']; [symmetry; apply want_beyond; unfold h; lia|].
        apply Wa; [easy|right; lia].
      + easy.
      + intros p k Ne. left. now apply De.
  Qed.

  (** ** The events *)
  Hypothesis W_pos : 0 < W.
  Lemma tip_connect c b k : good c k -> tidy W b ->
    (acceptable W c b /\ exists k', connect_tip c b k = Done ((b, dues W c b) :: c, k') /\ good ((b, dues W c b) :: c) k')
    \/ (~ acceptable W c b /\ connect_tip c b k = Reject).
  Proof.
    intros G T. unfold connect_tip. destruct (connect_outcome c b [] k W_pos (link c k G) T) as [(A & t & E & Li)|[A E]].
    - left. split; [easy|]. rewrite E. cbn [bind fst snd]. eexists. split; [reflexivity|]. now apply unlink.
    - right. split; [easy|]. now rewrite E.
  Qed.
  Lemma good_flat c k : good c k -> forall p h, want c p h = [] -> cell_or_empty k p h = [].
  Proof. intros [_ G] p h E. now rewrite G. Qed.
  Lemma tip_disconnect c k r : good c k -> disconnect_tip c k = Done r -> good (fst r) (snd r).
  Proof.
    intros G. unfold disconnect_tip. destruct c as [|(b, d) c]; [discriminate|]. destruct c as [|x c0]; [discriminate|].
    set (c := x :: c0) in *.
    destruct (disconnect_spec b d c [] [k] W_pos (proj1 G) ltac:(cbn; lia)) as (t & E & C & V & Wt & Nt).
    { intros k' p h [<-|[<-|[]]] Wn; [easy|]. now apply (good_flat _ k G). }
    { intros p h. destruct G as [_ G]. rewrite <- G, <- vis_one. easy. }
    rewrite E. cbn [bind fst snd]. intros [= <-]. cbn [fst snd]. split; [easy|]. intros p h. rewrite <- V.
    destruct (Wt wf_nil) as [W1 W2]. apply batch_spec; [easy|easy| |].
    - intros q n Ne. destruct (Nt q n Ne) as [Z|[_ Z]]; [now rewrite Z in Ne|]. apply Z. now left.
    - intros q n. destruct (cell_or_empty t q n) eqn:Z; [constructor|]. destruct (Nt q n ltac:(now rewrite Z)) as [Y|[Y _]].
      + rewrite Z in Y. discriminate.
      + now rewrite Z in Y.
  Qed.
  Lemma back n : forall c k r, good c k -> fork_back n c k = Done r -> good (fst r) (snd r).
  Proof.
    induction n as [|n IH]; intros c k r G H; [now injection H as <-|]. cbn [fork_back] in H.
    step H as r1 H1. apply (IH _ _ _) in H; [easy|]. clear H IH.
    destruct c as [|(b, d) c]; [discriminate|]. destruct c as [|x c0]; [discriminate|]. set (c := x :: c0) in *.
    destruct (disconnect_spec b d c k [] W_pos (proj1 G) ltac:(cbn; lia)) as (t & E & C & V & _).
    { intros k' p h [<-|[]] Wn. now apply (good_flat _ k G). }
    { intros p h. destruct G as [_ G]. rewrite <- G. apply vis_one. }
    rewrite E in H1. injection H1 as <-. split; [easy|]. intros p h. cbn [fst snd]. rewrite <- V. symmetry. apply vis_one.
  Qed.
  Lemma on_fork bs : forall c top base r, linked c top base -> (forall b, In b bs -> tidy W b) ->
    fork_on c bs top base = Done r -> linked (fst r) (snd r) base.
  Proof.
    induction bs as [|b bs IH]; intros c top base r Li T H; [now injection H as <-|]. cbn [fork_on] in H.
    step H as r1 H1.
    destruct (connect_outcome c b top base W_pos Li (T b ltac:(now left))) as [(A & t & E & Li')|[A E]]; [|congruence].
    rewrite E in H1. injection H1 as <-. cbn [fst snd] in H. apply (IH _ _ _ _ Li') in H; [easy|]. intros b' I. apply T. now right.
  Qed.

  Lemma reload_spec : forall n c top, (forall b d, In (b, d) c -> block_ok W b) ->
    (forall p h, h < N.of_nat (length c) -> cell_or_empty top p h = []) ->
    forall p h, cell_or_empty (reload n c top) p h
      = if (h <? N.of_nat (length c)) && (N.of_nat (length c) <=? h + N.of_nat n) then fed c p h else cell_or_empty top p h.
  Proof.
    induction n as [|n IH]; intros c top B E p h.
    - replace ((h <? _) && _) with false by (destruct (N.ltb_spec h (N.of_nat (length c))), (N.leb_spec (N.of_nat (length c)) (h + N.of_nat 0)); cbn; try lia; easy).
      easy.
    - destruct c as [|(b, d) c]; [cbn; now destruct h|].
      replace (h <? N.of_nat (length ((b, d) :: c))) with ((h =? N.of_nat (length c)) || (h <? N.of_nat (length c))) by (cbn [length]; lia).
      cbn [reload]. set (l := N.of_nat (length c)) in *.
      assert (Ll : N.of_nat (length ((b, d) :: c)) = l + 1) by (unfold l; cbn [length]; lia).
      assert (Ti : tip_height ((b, d) :: c) = l) by (unfold tip_height; lia).
      rewrite Ti, Ll. rewrite Ll in E. rewrite fed_cons. fold l.
      pose proof (add_block_spec W l b top [] (B b d ltac:(now left))) as G.
      specialize (G ltac:(intros k q [<-|[]]; apply E; lia)). destruct G as (G1 & G2 & _).
      rewrite IH; [|intros b' d' I; apply (B b' d'); now right|].
      + fold l. destruct (N.eqb_spec h l) as [->|D].
        * rewrite N.ltb_irrefl. cbn [andb orb]. destruct (N.leb_spec (l + 1) (l + N.of_nat (S n))); [|lia].
          rewrite G2, E by lia. easy.
        * cbn [orb]. replace (l + 1 <=? h + N.of_nat (S n)) with (l <=? h + N.of_nat n) by lia.
          destruct (_ && _); [easy|]. unfold cell_or_empty. now rewrite G1.
      + fold l. intros q k Hk. unfold cell_or_empty. rewrite G1 by lia. apply E. lia.
  Qed.
  Lemma restart_good c : chain_ok c -> good c (restart c).
  Proof.
    intros C. split; [easy|]. intros p h. unfold restart. rewrite (chain_window c C).
    rewrite reload_spec; [|intros b d I; apply (chain_blocks c b d C I)|easy].
    unfold want. replace (N.of_nat (N.to_nat W)) with W by lia.
    destruct (N.ltb_spec h (N.of_nat (length c))), (N.leb_spec (N.of_nat (length c)) (h + W)); cbn [andb]; try easy.
    now rewrite fed_beyond.
  Qed.

  Lemma lives_good g w : first_block W g -> plives (tidy W) g w -> forall c k, held w c k -> good c k.
  Proof.
    intros Fg P. induction P as [|w e w' P IH T1 T2 H]; intros c k Hd.
    - destruct Hd as [[-> ->]|[]]. split; [now constructor|]. intros p h. cbn. symmetry. unfold want.
      destruct (N.eqb_spec h 0) as [->|D]; [rewrite (chain_first [(g, [])] p (co_first g Fg))|rewrite fed_beyond by (cbn; lia)]; now destruct (_ <=? _).
    - assert (Gm : good (w_chain w) (w_book w)) by (apply IH; now left).
      destruct e as [b| | |n|i bs]; cbn [pstep] in H.
      + step H as r Hr. injection H as <-. destruct Hd as [[-> ->]|I]; [|apply IH; now right]. cbn [w_chain w_book].
        destruct (tip_connect _ b _ Gm (T1 b eq_refl)) as [(A & k' & E & G)|[A E]]; rewrite E in Hr; [|discriminate].
        now injection Hr as <-.
      + step H as r Hr. injection H as <-. destruct Hd as [[-> ->]|I]; [|apply IH; now right]. cbn [w_chain w_book].
        now apply (tip_disconnect _ _ _ Gm).
      + injection H as <-. destruct Hd as [[-> ->]|[]]. apply restart_good. apply Gm.
      + step H as r Hr. injection H as <-. destruct Hd as [[-> ->]|[I|I]]; [apply IH; now left| |apply IH; now right].
        subst r. apply (back n _ _ _ Gm Hr).
      + step H as f Hf. apply need_done in Hf. step H as r Hr. injection H as <-.
        destruct Hd as [[-> ->]|[I|I]]; [apply IH; now left| |apply IH; now right]. subst r.
        unfold fork_connect in Hr. step Hr as r1 H1. injection Hr as <- <-.
        apply unlink. apply (on_fork bs (fst f) [] (snd f) r1); [|intros b; now apply (T2 i bs)|easy].
        apply link. apply IH. right. apply nth_error_In in Hf. now destruct f.
  Qed.
End Window.
