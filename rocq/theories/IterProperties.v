(** Claims about listings (C41): going through a stack of caches on a database. *)
From Coq Require Import List Bool NArith Lia Sorting.Sorted Arith.
From Verif Require Import Prelude CodecModel CodecSpec CodecProofs IterModel IterSpec IterProofs.
Import ListNotations.

Section Claims.
Context {K V : Type}.
(** The order of the claims, that of the code's comparison, that of the bytes of stored keys. *)
Variables (ltb mltb dltb : K -> K -> bool) (no_value : V -> bool) (no_key : K -> bool) (ok : K -> Prop).
Notation opened := (open_iter mltb dltb no_value no_key).
Notation orders := (total_order ltb /\ keeps_order ltb mltb ok /\ keeps_order ltb dltb ok).

Lemma content_lists caches d : orders -> content mltb dltb no_value ok caches d ->
  forall st, start_ok no_key ok st -> lists ltb no_value no_key (opened caches d) caches d st.
Proof.
  intros (T & M & D) (C & A & H) st O. apply (open_lists ltb mltb dltb no_value no_key T ok M D); try easy.
  - intros m J. now apply C.
  - apply Forall_forall. intros m J. destruct (C m J). now apply (stored_asc ltb mltb ok M).
  - apply (stored_asc ltb dltb ok D); [easy|]. intros k v J. now apply H in J.
  - intros k v J. now apply H in J.
  - intros k v J. now apply H in J.
Qed.

(** From the first position on: every entry that a read finds, and no other, in the order of the keys. *)
Theorem c41_listing : forall caches d, orders -> content mltb dltb no_value ok caches d ->
  exists l, shows (opened caches d) (i_cur (opened caches d)) (i_first (opened caches d)) l
    /\ ascending ltb l /\ forall k v, In (k, v) l <-> reads no_value caches d k v.
Proof.
  intros caches d O C. destruct (content_lists caches d O C First Logic.I) as (l & S & As & _ & I).
  exists l. split; [exact S|]. split; [exact As|]. intros k v. rewrite I. cbn. tauto.
Qed.

(** From a key on, and from behind a key on. An empty key means from the first position on. *)
Theorem c41_seek : forall caches d s, orders -> content mltb dltb no_value ok caches d -> ok s -> no_key s = false ->
  (exists l, shows (opened caches d) (i_cur (opened caches d)) (i_seek (opened caches d) s) l
    /\ ascending ltb l /\ forall k v, In (k, v) l <-> reads no_value caches d k v /\ ltb k s = false)
  /\ (exists l, shows (opened caches d) (i_cur (opened caches d)) (i_upper (opened caches d) s) l
    /\ ascending ltb l /\ forall k v, In (k, v) l <-> reads no_value caches d k v /\ ltb s k = true).
Proof.
  intros caches d s O C P N. pose proof (content_lists caches d O C) as X. split.
  - destruct (X (Seek s) (fun _ => P)) as (l & S & As & _ & I). exists l. split; [exact S|]. split; [exact As|].
    intros k v. rewrite I. cbn. rewrite N. now rewrite negb_true_iff.
  - destruct (X (Upper s) (fun _ => P)) as (l & S & As & _ & I). exists l. split; [exact S|]. split; [exact As|].
    intros k v. rewrite I. cbn. now rewrite N.
Qed.
Theorem c41_empty_key : forall caches d s, no_key s = true ->
  i_seek (opened caches d) s = i_first (opened caches d) /\ i_upper (opened caches d) s = i_first (opened caches d).
Proof.
  intros caches d s N. unfold open_iter. destruct caches; cbn; rewrite N; easy.
Qed.

(** Pages: listing from behind the last key of a page shows what the listing has after it. *)
Theorem c41_pages : forall caches d l1 k v l2, orders -> content mltb dltb no_value ok caches d -> no_key k = false ->
  shows (opened caches d) (i_cur (opened caches d)) (i_first (opened caches d)) (l1 ++ (k, v) :: l2) ->
  shows (opened caches d) (i_cur (opened caches d)) (i_upper (opened caches d) k) l2.
Proof.
  intros caches d l1 k v l2 O C N S. destruct (c41_listing caches d O C) as (l & S' & A & I).
  pose proof (shows_same _ _ _ _ S _ S') as <-.
  destruct O as (T & M & D). destruct (C) as (C1 & C2 & C3).
  assert (P : ok k).
  { apply (reads_held no_value ok caches d k v); [intros m J; now apply C1|intros a b J; now apply (C3 a b)|].
    apply I, in_elt. }
  destruct (c41_seek caches d k (conj T (conj M D)) C P N) as [_ (l & S2 & A2 & I2)].
  replace l2 with l; [exact S2|].
  assert (X : forall a b, In (a, b) l2 <-> In (a, b) (l1 ++ (k, v) :: l2) /\ ltb k a = true).
  { intros a b. clear - A T. induction l1 as [|e l1 IH]; cbn [app In] in *.
    - apply (asc_inv ltb) in A as [A F]. split; [intros J; split; [now right|eapply F, J]|].
      intros [[E|J] L]; [|easy]. injection E as <- <-. now apply (not_self ltb T) in L.
    - apply (asc_inv ltb) in A as [A F]. rewrite (IH A). split; [tauto|]. intros [[E|J] L]; [|easy]. subst e.
      specialize (F k v (in_elt _ _ _)). cbn in F. destruct (not_self ltb T k). now apply (trans ltb T _ a). }
  apply (asc_same ltb T); [easy| |].
  - clear - A. induction l1 as [|e l1 IH]; cbn [app] in A; apply (asc_inv ltb) in A as [A F]; [easy|now apply IH].
  - intros a b. rewrite I2, X, I. easy.
Qed.

(** The listing depends on what reads find only: not on which cache holds what. *)
Theorem c41_flush : forall caches d caches' d' l l', orders ->
  content mltb dltb no_value ok caches d -> content mltb dltb no_value ok caches' d' ->
  (forall k v, reads no_value caches d k v <-> reads no_value caches' d' k v) ->
  shows (opened caches d) (i_cur (opened caches d)) (i_first (opened caches d)) l ->
  shows (opened caches' d') (i_cur (opened caches' d')) (i_first (opened caches' d')) l' -> l = l'.
Proof.
  intros caches d caches' d' l l' O C C' E S S'. destruct (c41_listing caches d O C) as (x & Sx & A & I).
  destruct (c41_listing caches' d' O C') as (y & Sy & B & J). rewrite (shows_same _ _ _ _ S _ Sx), (shows_same _ _ _ _ S' _ Sy).
  destruct O as (T & _). apply (asc_same ltb T); [easy|easy|]. intros k v. now rewrite I, J.
Qed.

(** Listing the keys that match a prefix: it starts at a key, which is not above the matching keys, and ends
    at the first key that does not match; between the start and a matching key all keys match. *)
Theorem c41_prefix : forall caches d s (matches : K -> bool), orders -> content mltb dltb no_value ok caches d -> ok s ->
  (forall k, matches k = true -> ltb k s = false) ->
  (forall k k', ltb k s = false -> ltb k k' = true -> matches k' = true -> matches k = true) ->
  (no_key s = true -> forall k, ltb k s = false) ->
  exists l, shows (opened caches d) (prefix_cur (opened caches d) matches) (i_seek (opened caches d) s) l
    /\ ascending ltb l /\ forall k v, In (k, v) l <-> reads no_value caches d k v /\ matches k = true.
Proof.
  intros caches d s matches (T & M & D) (C & A & H) P M1 M2 M3.
  destruct (prefix_lists ltb mltb dltb no_value no_key T ok M D caches d matches s) as (l & X & Y & _ & Z); try easy; [| | | | |now exists l].
  - intros m J. now apply C.
  - apply Forall_forall. intros m J. destruct (C m J). now apply (stored_asc ltb mltb ok M).
  - apply (stored_asc ltb dltb ok D); [easy|]. intros k v J. now apply H in J.
  - intros k v J. now apply H in J.
  - intros k v J. now apply H in J.
Qed.
End Claims.

(** The keys for which the claims hold: numbers of fixed width, registration ids, symbols of one length, loans
    in one stable coin against collaterals whose symbols have one length. *)
Theorem c41_orders :
  (forall w, total_order N.ltb /\ keeps_order N.ltb (fixed_dltb w) (fun a => a < 2 ^ w))
  /\ (total_order regid_ltb /\ keeps_order regid_ltb regid_dltb regid_ok)
  /\ (forall n, total_order byte_ltb /\ keeps_order byte_ltb symbol_dltb (fun a => length a = n))
  /\ (forall s n, total_order loan_order /\ keeps_order loan_order loan_ltb (alike s n) /\ keeps_order loan_order loan_dltb (alike s n)).
Proof.
  split; [intros w; split; [exact N_total|apply fixed_keeps]|]. split; [split; [exact regid_total|exact regid_keeps]|].
  split; [intros n; split; [exact byte_total|apply symbol_keeps]|]. intros s n. split; [exact loan_total|]. split; [apply loan_keeps|apply loan_stored].
Qed.

Lemma of_pair_true p q h i : of_pair p (q, h, i) = true <-> q = p.
Proof.
  unfold of_pair. destruct (list_eq_dec N.eq_dec (fst q) (fst p)) as [E|E], (list_eq_dec N.eq_dec (snd q) (snd p)) as [E'|E']; cbn;
    split; intros H; try easy; try (subst; easy). destruct p, q; cbn in *; congruence.
Qed.
Lemma pair_lex (p q : list N * list N) : lex byte_ltb byte_ltb p p = false.
Proof. unfold lex. now rewrite !byte_ltb_irr. Qed.
(** The loans of a pair, by height: those that reads find, all of them. *)
Theorem c41_loans : forall s n caches d b, content loan_ltb loan_dltb (N.eqb 0) (alike s n) caches d -> length b = n ->
  ascending loan_order (loans_of caches d (b, s))
  /\ forall k v, In (k, v) (loans_of caches d (b, s)) <-> reads (N.eqb 0) caches d k v /\ fst (fst k) = (b, s).
Proof.
  intros s n caches d b (C & A & H) L.
  destruct (prefix_lists loan_order loan_ltb loan_dltb (N.eqb 0) no_loan_key loan_total (alike s n) (loan_keeps s n) (loan_stored s n)
    caches d (of_pair (b, s)) (pair_start (b, s))) as (l & S & As & Ll & I).
  - intros m J. now apply C.
  - apply Forall_forall. intros m J. destruct (C m J). now apply (stored_asc loan_order loan_ltb (alike s n) (loan_keeps s n)).
  - apply (stored_asc loan_order loan_dltb (alike s n) (loan_stored s n)); [easy|]. intros k v J. now apply H in J.
  - intros k v J. now apply H in J.
  - intros k v J. now apply H in J.
  - intros _. unfold pair_start, alike. cbn. split; [easy|]. split; [easy|]. split; reflexivity.
  - intros ((q, h), i) E. apply of_pair_true in E as ->. unfold loan_order, pair_start, lex at 1 2. cbn [fst snd].
    rewrite (pair_lex (b, s) (b, s)). cbn. destruct h, i; reflexivity.
  - intros ((q, h), i) ((q', h'), i') G1 G2 E. apply of_pair_true in E as ->. apply of_pair_true.
    unfold loan_order, pair_start in *. unfold lex at 1 2 in G1. unfold lex at 1 2 in G2. cbn [fst snd] in *.
    destruct (lex_total _ _ byte_total byte_total) as (T1 & T2 & T3).
    destruct (lex byte_ltb byte_ltb q (b, s)) eqn:E1; [discriminate|].
    destruct (lex byte_ltb byte_ltb (b, s) q) eqn:E2; [|now apply T3]. discriminate.
  - intros E ((q, h), i). destruct b, s; try discriminate. unfold loan_order, pair_start, lex. cbn.
    destruct q as [[|x u] [|y w]]; cbn; destruct h, i; reflexivity.
  - unfold loans_of. rewrite (collect_shows _ _ _ _ S) by easy. split; [easy|]. intros k v. rewrite I.
    destruct k as ((q, h), i). cbn [fst]. now rewrite of_pair_true.
Qed.

Section Instance.
(** Symbols: WICC, WUSD, ABCDEFG, and of four letters ETHX. *)
Let WICC := [87; 73; 67; 67]. Let WUSD := [87; 85; 83; 68].
Let ABCDEFG := [65; 66; 67; 68; 69; 70; 71]. Let ETHX := [69; 84; 72; 88].

Ltac sorted := repeat constructor.
(** Heights: two caches on a database; 2 and 5 are overwritten, 3 is erased, 1 and 7 are below. *)
Let caches := [[(3, 0); (5, 50)]; [(2, 20); (3, 30)]].
Let d := [(1, 10); (2, 11); (3, 12); (5, 13); (7, 14)].
Let it := open_iter N.ltb (fixed_dltb 32) (N.eqb 0) (N.eqb 0) caches d.
Example c41_listing_ex : (total_order N.ltb /\ keeps_order N.ltb N.ltb (fun a => a < 2 ^ 32) /\ keeps_order N.ltb (fixed_dltb 32) (fun a => a < 2 ^ 32))
  /\ content N.ltb (fixed_dltb 32) (N.eqb 0) (fun a => a < 2 ^ 32) caches d
  /\ collect it (i_cur it) 10 (i_first it) = [(1, 10); (2, 20); (5, 50); (7, 14)]
  /\ collect it (i_cur it) 10 (i_seek it 3) = [(5, 50); (7, 14)]
  /\ collect it (i_cur it) 10 (i_upper it 5) = [(7, 14)]
  /\ collect it (i_cur it) 10 (i_upper it 0) = [(1, 10); (2, 20); (5, 50); (7, 14)]
  /\ collect it (prefix_cur it (fun k => k <? 4)) 10 (i_seek it 2) = [(2, 20)].
Proof.
  split; [split; [exact N_total|split; [intros a b _ _; reflexivity|apply fixed_keeps]]|]. split; [|vm_compute; repeat split].
  split; [intros m [<-|[<-|[]]]|split]; [split; [sorted|]|split; [sorted|]|sorted|];
    intros k v I; cbn in I; repeat destruct I as [E|I]; try destruct I; injection E as <- <-; vm_compute; auto.
Qed.

(** Loans of WICC and ETHX, both of four letters. *)
Let lcaches := [[((WICC, WUSD), 9, 4, 1); ((WICC, WUSD), 12, 3, 0)]].
Let ld := [((ETHX, WUSD), 3, 1, 1); ((WICC, WUSD), 10, 2, 1); ((WICC, WUSD), 12, 3, 1)].
Example c41_loans_ex : content loan_ltb loan_dltb (N.eqb 0) (alike WUSD 4) lcaches ld
  /\ map fst (loans_of lcaches ld (WICC, WUSD)) = [((WICC, WUSD), 9, 4); ((WICC, WUSD), 10, 2)].
Proof.
  split; [|vm_compute; reflexivity].
  split; [intros m [<-|[]]|split]; [split; [sorted|]|sorted|];
    intros k v I; cbn in I; repeat destruct I as [E|I]; try destruct I; injection E as <- <-; vm_compute; auto.
Qed.

(** Symbols of different lengths are stored in another order than they are compared. An asset that was erased
    is listed, and one that was changed is listed twice: its old value too. *)
Theorem c41_stale_refuted :
  exists caches d, content byte_ltb symbol_dltb (N.eqb 0) (fun a => (2 <= length a <= 7)%nat) caches d
    /\ (forall v, reads (N.eqb 0) caches d ABCDEFG v <-> v = 2)
    /\ exists l, shows (open_iter byte_ltb symbol_dltb (N.eqb 0) (fun _ => false) caches d)
         (i_cur (open_iter byte_ltb symbol_dltb (N.eqb 0) (fun _ => false) caches d))
         (i_first (open_iter byte_ltb symbol_dltb (N.eqb 0) (fun _ => false) caches d)) l
       /\ l = [(ABCDEFG, 2); (WICC, 7); (ABCDEFG, 1)].
Proof.
  exists [[(ABCDEFG, 2)]], [(WICC, 7); (ABCDEFG, 1)]. split; [|split].
  - split; [intros m [<-|[]]|split]; [split; [sorted|]|sorted|].
    + intros k v [E|[]]. injection E as <- <-. cbn. lia.
    + intros k v [E|[E|[]]]; injection E as <- <-; (split; [reflexivity|cbn; lia]).
  - intros v. split.
    + intros R. inversion R as [? ? ? ? ? I|? ? ? ? ? N|]; subst; [|destruct N; now left]. destruct I as [E|[]]. now injection E as <-.
    + intros ->. apply rd_here; [now left|reflexivity].
  - exists [(ABCDEFG, 2); (WICC, 7); (ABCDEFG, 1)]. split; [|reflexivity]. repeat (apply sh_entry; [vm_compute; reflexivity|]). apply sh_end. vm_compute. reflexivity.
Qed.
Theorem c41_erased_refuted :
  exists caches d, content byte_ltb symbol_dltb (N.eqb 0) (fun a => (2 <= length a <= 7)%nat) caches d
    /\ (forall v, ~ reads (N.eqb 0) caches d ABCDEFG v)
    /\ exists l, shows (open_iter byte_ltb symbol_dltb (N.eqb 0) (fun _ => false) caches d)
         (i_cur (open_iter byte_ltb symbol_dltb (N.eqb 0) (fun _ => false) caches d))
         (i_first (open_iter byte_ltb symbol_dltb (N.eqb 0) (fun _ => false) caches d)) l
       /\ In (ABCDEFG, 1) l.
Proof.
  exists [[(ABCDEFG, 0)]], [(WICC, 7); (ABCDEFG, 1)]. split; [|split].
  - split; [intros m [<-|[]]|split]; [split; [sorted|]|sorted|].
    + intros k v [E|[]]. injection E as <- <-. cbn. lia.
    + intros k v [E|[E|[]]]; injection E as <- <-; (split; [reflexivity|cbn; lia]).
  - intros v R. inversion R as [? ? ? ? ? I N|? ? ? ? ? N|]; subst; [|destruct N; now left]. destruct I as [E|[]]. injection E as <-. discriminate.
  - exists [(WICC, 7); (ABCDEFG, 1)]. split; [|cbn; tauto]. repeat (apply sh_entry; [vm_compute; reflexivity|]). apply sh_end. vm_compute. reflexivity.
Qed.

(** The loans of a pair depend on what has been written to the database: with a loan against a collateral of
    seven letters in the database, a loan of WICC that is still in a cache is not found. Written, it is. *)
Theorem c41_loans_refuted :
  exists caches d caches' d',
    content loan_ltb loan_dltb (N.eqb 0) (fun k => snd (fst (fst k)) = WUSD) caches d
    /\ content loan_ltb loan_dltb (N.eqb 0) (fun k => snd (fst (fst k)) = WUSD) caches' d'
    /\ (forall k v, reads (N.eqb 0) caches d k v <-> reads (N.eqb 0) caches' d' k v)
    /\ reads (N.eqb 0) caches d ((WICC, WUSD), 9, 4) 1
    /\ loans_of caches d (WICC, WUSD) = [] /\ loans_of caches' d' (WICC, WUSD) = [((WICC, WUSD), 9, 4, 1)].
Proof.
  exists [[((WICC, WUSD), 9, 4, 1)]], [((ABCDEFG, WUSD), 3, 1, 1)], [[]], [((WICC, WUSD), 9, 4, 1); ((ABCDEFG, WUSD), 3, 1, 1)].
  split; [|split; [|split; [|split; [|split; vm_compute; reflexivity]]]].
  - split; [intros m [<-|[]]|split]; [split; [sorted|]|sorted|];
      intros k v I; cbn in I; repeat destruct I as [E|I]; try destruct I; injection E as <- <-; vm_compute; auto.
  - split; [intros m [<-|[]]|split]; [split; [sorted|]|sorted|];
      intros k v I; cbn in I; repeat destruct I as [E|I]; try destruct I; injection E as <- <-; vm_compute; auto.
  - intros k v. rewrite !(reads_cons (N.eqb 0) no_loan_key). cbn [In map fst]. split.
    + intros [[[E|[]] N]|[N R]]; right; (split; [tauto|]); apply rd_db.
      * injection E as <- <-. now left.
      * inversion R; subst. now right.
    + intros [[[] _]|[_ R]]. inversion R as [| |? ? ? I]; subst. destruct I as [E|[E|[]]].
      * injection E as <- <-. left. split; [now left|reflexivity].
      * injection E as <- <-. right. split; [intros [E|[]]; discriminate E|]. apply rd_db. now left.
  - apply rd_here; [now left|reflexivity].
Qed.

(** The comparison of pairs is no order once there are two stable coins: each of two pairs is below the other. *)
Theorem c41_pairs_refuted : exists a b, pair_ltb a b = true /\ pair_ltb b a = true.
Proof. exists (ABCDEFG, WUSD), (WICC, ABCDEFG). now split. Qed.
End Instance.

Print Assumptions c41_listing.
Print Assumptions c41_seek.
Print Assumptions c41_empty_key.
Print Assumptions c41_pages.
Print Assumptions c41_flush.
Print Assumptions c41_prefix.
Print Assumptions c41_orders.
Print Assumptions c41_loans.
Print Assumptions c41_stale_refuted.
Print Assumptions c41_erased_refuted.
Print Assumptions c41_loans_refuted.
Print Assumptions c41_pairs_refuted.
