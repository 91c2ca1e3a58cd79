(** Proofs about listings: what the merge of a cache and of what is below it shows. *)
From Coq Require Import List Bool NArith Lia Sorting.Sorted Arith.
From Verif Require Import Prelude CodecModel CodecSpec CodecProofs IterModel IterSpec.
Import ListNotations.

Section Proofs.
Context {K V : Type}.
Variable ltb : K -> K -> bool.
(** The order of the claims; the comparison of the code, that of the bytes. *)
Variable mltb : K -> K -> bool.
Variable dltb : K -> K -> bool.
Variable no_value : V -> bool.
Variable no_key : K -> bool.
Hypothesis T : total_order ltb.
(** The keys on which they agree. *)
Variable Pk : K -> Prop.
Hypothesis Dm : forall a b, Pk a -> Pk b -> mltb a b = ltb a b.
Hypothesis D : forall a b, Pk a -> Pk b -> dltb a b = ltb a b.
Notation lt a b := (ltb a b = true) (only parsing).
Notation asc := (@ascending K V ltb).
Notation held d := (forall k v, In (k, v) d -> Pk k) (only parsing).
Notation full l := (forall k v, In (k, v) l -> no_value v = false) (only parsing).

Lemma irr a : ltb a a = false. Proof. apply T. Qed.
Lemma trans a b c : lt a b -> lt b c -> lt a c. Proof. apply T. Qed.
Lemma tri a b : ltb a b = false -> ltb b a = false -> a = b. Proof. apply T. Qed.
Lemma not_self a : ~ lt a a. Proof. rewrite irr. discriminate. Qed.

Lemma asc_inv e l : asc (e :: l) -> asc l /\ forall k v, In (k, v) l -> lt (fst e) k.
Proof.
  intros A. inversion A as [|? ? A' F]; subst. split; [easy|]. intros k v I. rewrite Forall_forall in F. exact (F (k, v) I).
Qed.
Lemma asc_cons e l : asc l -> (forall k v, In (k, v) l -> lt (fst e) k) -> asc (e :: l).
Proof. intros A F. constructor; [easy|]. apply Forall_forall. intros (k, v) I. exact (F k v I). Qed.
Lemma key_in (k : K) (l : list (K * V)) : In k (map fst l) <-> exists v, In (k, v) l.
Proof.
  rewrite in_map_iff. split.
  - intros ((k', v) & <- & I). now exists v.
  - intros (v & I). now exists (k, v).
Qed.
Lemma in_of k v (l : list (K * V)) : In (k, v) l -> In k (map fst l).
Proof. intros I. apply key_in. now exists v. Qed.

(** Two ascending lists with the same entries are the same. *)
Lemma asc_same l : forall l', asc l -> asc l' -> (forall k v, In (k, v) l <-> In (k, v) l') -> l = l'.
Proof.
  induction l as [|(k, v) l IH]; intros [|(k', v') l'] A A' E; [easy| | |].
  - destruct (proj2 (E k' v') (or_introl eq_refl)).
  - destruct (proj1 (E k v) (or_introl eq_refl)).
  - apply asc_inv in A as [A F]. apply asc_inv in A' as [A' F']. cbn [fst] in F, F'.
    assert (Q : (k, v) = (k', v')).
    { destruct (proj1 (E k v) (or_introl eq_refl)) as [Q|Q]; [easy|]. destruct (proj2 (E k' v') (or_introl eq_refl)) as [P|P]; [easy|].
      destruct (not_self k). apply (trans k k' k); eauto. }
    injection Q as -> ->. f_equal. apply IH; [easy|easy|]. intros x y. split; intros I.
    + destruct (proj1 (E x y) (or_intror I)) as [Q|Q]; [|easy]. injection Q as <- <-. destruct (not_self k'). eauto.
    + destruct (proj2 (E x y) (or_intror I)) as [Q|Q]; [|easy]. injection Q as <- <-. destruct (not_self k'). eauto.
Qed.
Lemma asc_filter f l : asc l -> asc (filter f l).
Proof.
  induction l as [|e l IH]; intros A; [easy|]. apply asc_inv in A as [A F]. cbn. destruct (f e); [|now apply IH].
  apply asc_cons; [now apply IH|]. intros k v I. apply filter_In in I as [I _]. eauto.
Qed.
Lemma asc_one l k v v' : asc l -> In (k, v) l -> In (k, v') l -> v = v'.
Proof.
  induction l as [|(a, b) l IH]; intros A I J; [easy|]. apply asc_inv in A as [A F]. cbn [fst] in F.
  destruct I as [I|I], J as [J|J].
  - congruence.
  - injection I as -> ->. destruct (not_self k). eauto.
  - injection J as -> ->. destruct (not_self k). eauto.
  - now apply IH.
Qed.

(** The entries of a cache that are not erased, and those below it that it does not have. *)
Definition merged (m lb l : list (K * V)) : Prop :=
  asc l /\ forall k v, In (k, v) l <-> (In (k, v) m /\ no_value v = false) \/ (~ In k (map fst m) /\ In (k, v) lb).

Lemma merged_nil : merged [] [] []. Proof. split; [constructor|]. cbn. tauto. Qed.
Lemma merged_base x m y lb l : asc (x :: m) -> asc (y :: lb) -> lt (fst y) (fst x) ->
  merged (x :: m) lb l -> merged (x :: m) (y :: lb) (y :: l).
Proof.
  intros A B L [M I]. apply asc_inv in A as [A F]. apply asc_inv in B as [B G].
  assert (NY : ~ In (fst y) (map fst (x :: m))).
  { intros [E|J]; [rewrite E in L; now apply not_self in L|]. apply key_in in J as (v & J). apply F in J.
    apply (not_self (fst y)). now apply (trans _ (fst x)). }
  split.
  - apply asc_cons; [easy|]. intros k v J. apply I in J as [[[J|J] _]|[_ J]].
    + subst x. exact L.
    + apply (trans _ (fst x)); eauto.
    + eauto.
  - intros k v. cbn [In]. rewrite I. split.
    + intros [J|[J|[N J]]]; [right; subst y; split; [exact NY|now left]|now left|right; split; [exact N|now right]].
    + intros [J|[N [J|J]]]; [right; now left|now left|right; now right].
Qed.
Lemma merged_only m y lb l : m = [] -> asc (y :: lb) -> merged m lb l -> merged m (y :: lb) (y :: l).
Proof.
  intros -> B [M I]. apply asc_inv in B as [B G]. split.
  - apply asc_cons; [easy|]. intros k v J. apply I in J as [[[] _]|[_ J]]. eauto.
  - intros k v. cbn [In]. rewrite I. cbn. tauto.
Qed.
Lemma merged_map x m lb l : asc (x :: m) -> (forall k v, In (k, v) lb -> lt (fst x) k) -> merged m lb l ->
  merged (x :: m) lb (if no_value (snd x) then l else x :: l).
Proof.
  intros A L [M I]. apply asc_inv in A as [A F]. destruct x as [a c]. cbn [fst snd] in *.
  assert (Q : forall k v, In (k, v) l -> lt a k).
  { intros k v J. apply I in J as [[J _]|[_ J]]; eauto. }
  assert (Z : forall k v, In (k, v) lb -> k <> a) by (intros k v J ->; apply L in J; now apply not_self in J).
  destruct (no_value c) eqn:N.
  - split; [easy|]. intros k v. rewrite I. cbn [In map fst]. split.
    + intros [[J X]|[J X]]; [left; tauto|right]. split; [|easy]. intros [E|E]; [|easy]. subst. now apply Z in X.
    + intros [[[J|J] X]|[J X]]; [congruence|left; tauto|right; tauto].
  - split; [now apply asc_cons|]. intros k v. cbn [In map fst]. rewrite I. split.
    + intros [J|[[J X]|[J X]]]; [injection J as <- <-; left; tauto|left; tauto|right]. split; [|easy].
      intros [E|E]; [|easy]. subst. now apply Z in X.
    + intros [[[J|J] X]|[J X]]; [left; easy|right; left; tauto|right; right; tauto].
Qed.
Lemma merged_same x m y lb l : asc (x :: m) -> asc (y :: lb) -> fst x = fst y -> merged m lb l ->
  merged (x :: m) (y :: lb) (if no_value (snd x) then l else x :: l).
Proof.
  intros A B E M. apply asc_inv in B as [B G]. rewrite <- E in G.
  destruct (merged_map x m lb l A G M) as [P Q]. split; [easy|]. intros k v. rewrite Q. cbn [In map]. split.
  - intros [J|[J X]]; [now left|right; tauto].
  - intros [J|[J [X|X]]]; [now left| |right; tauto]. subst y. cbn in E. destruct J. now left.
Qed.

Section Level.
Variable base : iter K V.
Variable fuel0 : nat.
Variable m0 : list (K * V).
Notation lev := (cache_iter mltb no_value no_key base fuel0 m0).
Notation bshows := (shows base (i_cur base)).
Notation proc := (process mltb no_value base).

Lemma shows_inv b lb : bshows b lb -> match lb with
  | [] => i_cur base b = None
  | e :: l => i_cur base b = Some e /\ bshows (i_next base b) l
  end.
Proof. now intros [s E|s e l E S]. Qed.
Lemma shows_empty n m b : i_cur base b = None -> m = [] -> shows lev (i_cur lev) (proc n m b) [].
Proof. intros E ->. constructor. destruct n; cbn [process]; rewrite E; reflexivity. Qed.

Lemma process_shows n : forall m b lb fuel, bshows b lb -> asc m -> asc lb -> full lb -> held m -> held lb ->
  (length m + length lb <= n)%nat -> (n <= fuel)%nat -> (n <= fuel0)%nat ->
  exists l, shows lev (i_cur lev) (proc fuel m b) l /\ merged m lb l.
Proof.
  induction n as [|n IH]; intros m b lb fuel S A B F Hm Hb L Lf L0.
  - destruct m, lb; cbn in L; try lia. apply shows_inv in S. exists []. split; [now apply shows_empty|apply merged_nil].
  - assert (Step : forall e fm same m' b' lb' l',
       pick mltb (hd_error m) (i_cur base b) = Some (e, fm, same) -> advance base fm same m b = (m', b') ->
       bshows b' lb' -> asc m' -> asc lb' -> full lb' -> held m' -> held lb' -> (length m' + length lb' <= n)%nat ->
       (forall l, merged m' lb' l -> merged m lb (l' l)) ->
       (forall l, l' l = if no_value (snd e) then l else e :: l) ->
       exists l, shows lev (i_cur lev) (proc fuel m b) l /\ merged m lb l).
    { intros e fm same m' b' lb' l' P Q S' A' B' F' Hm' Hb' L' M E.
      assert (C1 : forall f, proc (Datatypes.S f) m b = if no_value (snd e) then proc f m' b' else mkMs _ m b (Some e) fm same).
      { intros f. cbn [process]. rewrite P. rewrite Q. reflexivity. }
      destruct fuel as [|fuel]; [lia|]. rewrite C1. destruct (no_value (snd e)) eqn:N.
      - destruct (IH m' b' lb' fuel S' A' B' F' Hm' Hb' L' ltac:(lia) ltac:(lia)) as (l & X & Y). exists l. split; [easy|].
        rewrite <- (E l). now apply M.
      - destruct (IH m' b' lb' fuel0 S' A' B' F' Hm' Hb' L' ltac:(lia) ltac:(lia)) as (l & X & Y). exists (e :: l). split.
        + apply sh_entry; [reflexivity|]. cbn [i_next cache_iter ms_cur ms_map ms_base ms_from_map ms_same]. rewrite Q. exact X.
        + rewrite <- (E l). now apply M. }
    apply shows_inv in S. destruct m as [|x m], lb as [|y lb].
    + exists []. split; [now apply shows_empty|apply merged_nil].
    + destruct S as [C S]. pose proof (asc_inv _ _ B) as [B' _].
      assert (Ny : no_value (snd y) = false) by (destruct y; eapply F; now left).
      refine (Step y false false [] (i_next base b) lb (fun l => y :: l) _ _ S A B' _ Hm _ _ _ _).
      * now rewrite C.
      * reflexivity.
      * intros k v I. apply (F k v). now right.
      * intros k v I. apply (Hb k v). now right.
      * cbn in *; lia.
      * intros l M. now apply merged_only.
      * intros l. now rewrite Ny.
    + pose proof (asc_inv _ _ A) as [A' G].
      refine (Step x true false m b [] (fun l => if no_value (snd x) then l else x :: l) _ _ _ A' B F _ Hb _ _ _).
      * now rewrite S.
      * reflexivity.
      * now constructor.
      * intros k v I. apply (Hm k v). now right.
      * cbn in *; lia.
      * intros l M. now apply merged_map.
      * reflexivity.
    + destruct S as [C S]. pose proof (asc_inv _ _ A) as [A' GA]. pose proof (asc_inv _ _ B) as [B' GB].
      assert (Ny : no_value (snd y) = false) by (destruct y; eapply F; now left).
      assert (F' : full lb) by (intros k v I; apply (F k v); now right).
      assert (Hm' : held m) by (intros k v I; apply (Hm k v); now right).
      assert (Hb' : held lb) by (intros k v I; apply (Hb k v); now right).
      assert (Px : Pk (fst x)) by (destruct x as [a c]; apply (Hm a c); now left).
      assert (Py : Pk (fst y)) by (destruct y as [a c]; apply (Hb a c); now left).
      destruct (ltb (fst y) (fst x)) eqn:E1; [|destruct (ltb (fst x) (fst y)) eqn:E2].
      * refine (Step y false false (x :: m) (i_next base b) lb (fun l => y :: l) _ _ S A B' F' Hm Hb' _ _ _).
        -- cbn [hd_error pick]. rewrite C. cbn [pick]. now rewrite !Dm, E1 by easy.
        -- reflexivity.
        -- cbn in *; lia.
        -- intros l M. now apply merged_base.
        -- intros l. now rewrite Ny.
      * refine (Step x true false m b (y :: lb) (fun l => if no_value (snd x) then l else x :: l) _ _ _ A' B F Hm' Hb _ _ _).
        -- cbn [hd_error pick]. rewrite C. cbn [pick]. now rewrite !Dm, E1, E2 by easy.
        -- reflexivity.
        -- now constructor.
        -- cbn in *; lia.
        -- intros l M. apply merged_map; [easy| |easy]. intros k v [E|I]; [subst y; easy|]. apply (trans _ (fst y)); eauto.
        -- reflexivity.
      * refine (Step x true true m (i_next base b) lb (fun l => if no_value (snd x) then l else x :: l) _ _ S A' B' F' Hm' Hb' _ _ _).
        -- cbn [hd_error pick]. rewrite C. cbn [pick]. now rewrite !Dm, E1, E2 by easy.
        -- reflexivity.
        -- cbn in *; lia.
        -- intros l M. apply merged_same; [easy|easy| |easy]. now apply tri.
        -- reflexivity.
Qed.
End Level.

(** The three ways to start, and the keys each keeps. *)
Inductive start := First | Seek (k : K) | Upper (k : K).
Definition begin (it : iter K V) (st : start) : St it :=
  match st with First => i_first it | Seek k => i_seek it k | Upper k => i_upper it k end.
Definition keep (st : start) (k : K) : bool :=
  match st with
  | First => true
  | Seek s => if no_key s then true else negb (ltb k s)
  | Upper s => if no_key s then true else ltb s k
  end.
Notation kept st := (filter (fun e => keep st (fst e))).

Lemma skip_filter (f : K -> bool) l : asc l -> (forall a b, lt a b -> f b = true -> f a = true) ->
  skip (fun e => f (fst e)) l = filter (fun e => negb (f (fst e))) l.
Proof.
  intros A M. induction l as [|e l IH]; [easy|]. apply asc_inv in A as [A F]. cbn. destruct (f (fst e)) eqn:E; cbn.
  - now apply IH.
  - f_equal. symmetry. clear IH A. induction l as [|(k, v) l IH]; [easy|]. cbn.
    destruct (f k) eqn:E'; cbn.
    + rewrite (M (fst e) k) in E; [easy|eapply F; now left|easy].
    + f_equal. apply IH. intros k' v' I. apply (F k' v'). now right.
Qed.
Lemma filter_all {A} (f : A -> bool) l : (forall x, In x l -> f x = true) -> filter f l = l.
Proof. induction l as [|x l IH]; intros H; [easy|]. cbn. rewrite (H x) by now left. f_equal. apply IH. intros y I. apply H. now right. Qed.
Lemma filter_same {A} (f g : A -> bool) l : (forall x, f x = g x) -> filter f l = filter g l.
Proof. intros H. induction l as [|x l IH]; [easy|]. cbn. now rewrite H, IH. Qed.
Lemma le_asc a b c : lt a b -> ltb b c = true -> ltb a c = true.
Proof. apply trans. Qed.
Lemma skip_same {A} (f g : A -> bool) l : (forall x, In x l -> f x = g x) -> skip f l = skip g l.
Proof. induction l as [|x l IH]; intros H; [easy|]. cbn. rewrite H by now left. rewrite IH; [easy|]. intros y I. apply H. now right. Qed.
Definition start_ok (st : start) : Prop := match st with First => True | Seek k | Upper k => no_key k = false -> Pk k end.
Lemma map_seek_kept m k : asc m -> held m -> start_ok (Seek k) -> map_seek mltb no_key m k = kept (Seek k) m.
Proof.
  intros A H O. unfold map_seek. cbn [keep]. cbn in O. destruct (no_key k).
  - symmetry. now apply filter_all.
  - rewrite (skip_same _ (fun e => ltb (fst e) k)) by (intros (a, b) I; apply Dm; [now apply (H a b)|now apply O]).
    apply (skip_filter (fun x => ltb x k)); [easy|]. intros a b. apply trans.
Qed.
Lemma not_lt_trans s a b : lt a b -> negb (ltb s b) = true -> negb (ltb s a) = true.
Proof. rewrite !negb_true_iff. intros L N. destruct (ltb s a) eqn:E; [|easy]. now rewrite (trans s a b) in N. Qed.
Lemma map_upper_kept m k : asc m -> held m -> start_ok (Upper k) -> map_upper mltb no_key m k = kept (Upper k) m.
Proof.
  intros A H O. unfold map_upper. cbn [keep]. cbn in O. destruct (no_key k).
  - symmetry. now apply filter_all.
  - rewrite (skip_same _ (fun e => negb (ltb k (fst e)))) by (intros (a, b) I; f_equal; apply Dm; [now apply O|now apply (H a b)]).
    rewrite (skip_filter (fun x => negb (ltb k x)) m A); [|intros a b; apply not_lt_trans].
    apply filter_same. intros x. apply negb_involutive.
Qed.
Lemma db_upper d k : asc d ->
  match filter (fun e => negb (ltb (fst e) k)) d with
  | e :: l => if negb (ltb (fst e) k) && negb (ltb k (fst e)) then l else e :: l
  | [] => []
  end = filter (fun e => ltb k (fst e)) d.
Proof.
  induction d as [|e d IH]; intros A; [easy|]. apply asc_inv in A as [A F]. cbn [filter].
  destruct (ltb (fst e) k) eqn:E; cbn [negb].
  - replace (ltb k (fst e)) with false; [now apply IH|]. destruct (ltb k (fst e)) eqn:E'; [|easy].
    destruct (not_self k). now apply (trans _ (fst e)).
  - rewrite E. cbn [negb andb]. assert (X : forall x, In x d -> lt (fst e) (fst x)) by (intros (a, b) I; eapply F, I).
    destruct (ltb k (fst e)) eqn:E'; cbn [negb].
    + f_equal. rewrite !filter_all; [easy| |].
      * intros x I. now apply (trans _ (fst e)); [|apply X].
      * intros x I. apply negb_true_iff. destruct (ltb (fst x) k) eqn:Q; [|easy]. rewrite (trans (fst e) (fst x) k) in E; [easy|now apply X|easy].
    + rewrite (tri _ _ E E') in X. rewrite !filter_all; [easy| |]; intros x I; [now apply X|].
      apply negb_true_iff. destruct (ltb (fst x) k) eqn:Q; [|easy]. destruct (not_self k). apply (trans _ (fst x)); [now apply X|easy].
Qed.
Lemma db_begin d st : asc d -> held d -> start_ok st -> begin (db_iter dltb no_key d) st = kept st d.
Proof.
  intros A H O. assert (X : forall k, Pk k -> skip (fun e => dltb (fst e) k) d = filter (fun e => negb (ltb (fst e) k)) d).
  { intros k HP. rewrite (skip_same _ (fun e => ltb (fst e) k)) by (intros (a, b) I; apply D; [now apply (H a b)|easy]).
    apply (skip_filter (fun x => ltb x k)); [easy|]. intros a b. apply trans. }
  destruct st as [|k|k]; cbn [begin keep db_iter i_first i_seek i_upper].
  - symmetry. now apply filter_all.
  - cbn in O. destruct (no_key k); [symmetry; now apply filter_all|]. now apply X, O.
  - cbn in O. destruct (no_key k); [symmetry; now apply filter_all|]. specialize (O eq_refl).
    rewrite X by easy. rewrite <- (db_upper d k A).
    destruct (filter (fun e => negb (ltb (fst e) k)) d) as [|e l] eqn:E; [easy|].
    assert (Pe : Pk (fst e)).
    { assert (I : In e d) by (apply (filter_In (fun e => negb (ltb (fst e) k))); rewrite E; now left). destruct e as [a b]. now apply (H a b). }
    now rewrite !D.
Qed.
Lemma db_shows (d : list (K * V)) : forall l, shows (db_iter dltb no_key d) (i_cur (db_iter dltb no_key d)) l l.
Proof. induction l as [|e l IH]; [now constructor|]. now apply sh_entry. Qed.

Lemma asc_nodup l : asc l -> NoDup (map fst l).
Proof.
  induction l as [|e l IH]; intros A; [constructor|]. apply asc_inv in A as [A F]. cbn. constructor; [|now apply IH].
  intros I. apply key_in in I as (v & I). apply F in I. now apply not_self in I.
Qed.
Lemma merged_length m lb l : merged m lb l -> (length l <= length m + length lb)%nat.
Proof.
  intros [A I]. rewrite <- (map_length fst l), <- (map_length fst m), <- (map_length fst lb), <- app_length.
  apply NoDup_incl_length; [now apply asc_nodup|]. intros k J. apply key_in in J as (v & J). apply in_or_app.
  apply I in J as [[J _]|[_ J]]; [left|right]; eapply in_of, J.
Qed.
Lemma kept_length st (m : list (K * V)) : (length (kept st m) <= length m)%nat.
Proof. induction m as [|e m IH]; [easy|]. cbn. destruct (keep st (fst e)); cbn; lia. Qed.
Lemma in_kept st k v (m : list (K * V)) : In (k, v) (kept st m) <-> In (k, v) m /\ keep st k = true.
Proof. apply (filter_In (fun e => keep st (fst e)) (k, v)). Qed.
Lemma level_begin base fuel m st : asc m -> held m -> start_ok st ->
  begin (cache_iter mltb no_value no_key base fuel m) st = process mltb no_value base fuel (kept st m) (begin base st)
  \/ (begin (cache_iter mltb no_value no_key base fuel m) st = process mltb no_value base fuel (kept First m) (begin base First)
     /\ forall k, keep st k = true).
Proof.
  intros A H O. destruct st as [|k|k]; cbn [begin cache_iter i_first i_seek i_upper].
  - left. now rewrite filter_all.
  - destruct (no_key k) eqn:N; [right; split; [now rewrite filter_all|cbn; now rewrite N]|left].
    now rewrite map_seek_kept.
  - destruct (no_key k) eqn:N; [right; split; [now rewrite filter_all|cbn; now rewrite N]|left].
    now rewrite map_upper_kept.
Qed.

Definition lists (it : iter K V) caches d st := exists l, shows it (i_cur it) (begin it st) l /\ asc l
  /\ (length l <= entries caches d)%nat /\ (forall k v, In (k, v) l <-> reads no_value caches d k v /\ keep st k = true).

Lemma reads_full caches d (k : K) v : full d -> reads no_value caches d k v -> no_value v = false.
Proof. intros F R. induction R; eauto. Qed.
Lemma reads_cons m ms d (k : K) v : reads no_value (m :: ms) d k v <->
  (In (k, v) m /\ no_value v = false) \/ (~ In k (map fst m) /\ reads no_value ms d k v).
Proof.
  split.
  - intros R. inversion R; subst; tauto.
  - intros [[A B]|[A B]]; [now apply rd_here|now apply rd_below].
Qed.
Lemma in_kept_keys st k (m : list (K * V)) : keep st k = true -> In k (map fst (kept st m)) <-> In k (map fst m).
Proof.
  intros E. rewrite !key_in. split; intros (v & I); exists v; [now apply in_kept in I|]. now apply in_kept.
Qed.

Lemma reads_held caches d k v : (forall m, In m caches -> held m) -> held d -> reads no_value caches d k v -> Pk k.
Proof.
  intros Hc Hd R. induction R as [m ms d k v I N|m ms d k v N R IH|d k v I].
  - apply (Hc m (or_introl eq_refl) k v I).
  - apply IH; [|easy]. intros m' J. apply Hc. now right.
  - now apply (Hd k v).
Qed.
Lemma stack_lists fuel caches d : (forall m, In m caches -> held m) -> Forall asc caches -> asc d -> full d -> held d -> (entries caches d <= fuel)%nat ->
  forall st, start_ok st -> lists (stack_iter mltb dltb no_value no_key fuel caches d) caches d st.
Proof.
  intros Hc C A F H. revert fuel Hc. induction C as [|m caches Am C IH]; intros fuel Hc L st O.
  - exists (kept st d). cbn [stack_iter]. rewrite db_begin by easy. split; [apply db_shows|]. split; [now apply asc_filter|].
    split; [unfold entries; cbn; apply kept_length|]. intros k v. rewrite in_kept. split.
    + intros [I E]. split; [now constructor|easy].
    + intros [R E]. inversion R; subst. easy.
  - assert (L' : (length m + entries caches d <= fuel)%nat) by (unfold entries in *; cbn in L; rewrite app_length in L; lia).
    assert (Hc' : forall m, In m caches -> held m) by (intros m' J; apply Hc; now right).
    assert (Hm : held m) by (apply Hc; now left).
    assert (X : forall st', start_ok st' -> exists l, shows (stack_iter mltb dltb no_value no_key fuel (m :: caches) d)
        (i_cur (stack_iter mltb dltb no_value no_key fuel (m :: caches) d))
        (process mltb no_value (stack_iter mltb dltb no_value no_key fuel caches d) fuel (kept st' m)
          (begin (stack_iter mltb dltb no_value no_key fuel caches d) st')) l
      /\ asc l /\ (length l <= entries (m :: caches) d)%nat
      /\ (forall k v, In (k, v) l <-> reads no_value (m :: caches) d k v /\ keep st' k = true)).
    { intros st' O'. destruct (IH fuel Hc' ltac:(lia) st' O') as (lb & S & B & N & I). cbn [stack_iter].
      destruct (process_shows (stack_iter mltb dltb no_value no_key fuel caches d) fuel m (length (kept st' m) + length lb)
        (kept st' m) _ lb fuel S) as (l & X & M).
      - now apply asc_filter.
      - easy.
      - intros k v J. apply I in J as [J _]. now apply reads_full in J.
      - intros k v J. apply in_kept in J as [J _]. now apply (Hm k v).
      - intros k v J. apply I in J as [J _]. now apply reads_held in J.
      - easy.
      - pose proof (kept_length st' m). lia.
      - pose proof (kept_length st' m). lia.
      - exists l. split; [exact X|]. pose proof (merged_length _ _ _ M) as N'. destruct M as [Al Il]. split; [easy|]. split.
        + pose proof (kept_length st' m). unfold entries in *. cbn. rewrite app_length. lia.
        + intros k v. rewrite Il, in_kept, I, reads_cons. split.
          * intros [[[J E] W]|[J [R E]]]; [tauto|]. split; [|easy]. right. rewrite in_kept_keys in J by easy. tauto.
          * intros [[[J W]|[J R]] E]; [tauto|]. right. rewrite in_kept_keys by easy. tauto. }
    unfold lists. destruct (level_begin (stack_iter mltb dltb no_value no_key fuel caches d) fuel m st Am Hm O) as [E|[E Q]];
      cbn [stack_iter] in *; rewrite E.
    + now apply X.
    + destruct (X First I) as (l & P1 & P2 & P3 & P4). exists l. split; [easy|]. split; [easy|]. split; [easy|].
      intros k v. rewrite P4, Q. cbn. tauto.
Qed.
Lemma open_lists caches d st : (forall m, In m caches -> held m) -> Forall asc caches -> asc d -> full d -> held d -> start_ok st ->
  lists (open_iter mltb dltb no_value no_key caches d) caches d st.
Proof. intros Hc C A F H O. now apply stack_lists. Qed.

Lemma none_kept {A} (f : A -> bool) l : (forall x, In x l -> f x = false) -> filter f l = [].
Proof. induction l as [|x l IH]; intros H; [easy|]. cbn. rewrite (H x) by now left. apply IH. intros y I. apply H. now right. Qed.
Lemma prefix_shows it matches s l : shows it (i_cur it) s l -> asc l ->
  (forall k v k' v', In (k, v) l -> In (k', v') l -> lt k k' -> matches k' = true -> matches k = true) ->
  shows it (prefix_cur it matches) s (filter (fun e => matches (fst e)) l).
Proof.
  intros S. induction S as [s E|s e l E S IH]; intros A M.
  - constructor. unfold prefix_cur. now rewrite E.
  - apply asc_inv in A as [A F]. cbn [filter]. destruct (matches (fst e)) eqn:Q.
    + apply sh_entry; [unfold prefix_cur; now rewrite E, Q|]. apply IH; [easy|]. intros k v k' v' I J. apply (M k v k' v'); now right.
    + rewrite none_kept; [constructor; unfold prefix_cur; now rewrite E, Q|]. intros (k', v') I. cbn.
      destruct (matches k') eqn:R; [|easy]. destruct e as [k v]. cbn in *. rewrite (M k v k' v') in Q; eauto.
Qed.
Lemma prefix_lists caches d (matches : K -> bool) s : (forall m, In m caches -> held m) -> Forall asc caches -> asc d -> full d -> held d -> (no_key s = false -> Pk s) ->
  (forall k, matches k = true -> ltb k s = false) ->
  (forall k k', ltb k s = false -> lt k k' -> matches k' = true -> matches k = true) ->
  (no_key s = true -> forall k, ltb k s = false) ->
  exists l, shows (open_iter mltb dltb no_value no_key caches d) (prefix_cur (open_iter mltb dltb no_value no_key caches d) matches)
      (i_seek (open_iter mltb dltb no_value no_key caches d) s) l
    /\ asc l /\ (length l <= entries caches d)%nat
    /\ forall k v, In (k, v) l <-> reads no_value caches d k v /\ matches k = true.
Proof.
  intros Hc C A F H O M1 M2 M3. destruct (open_lists caches d (Seek s) Hc C A F H O) as (l & S & Al & Ll & I). cbn [begin] in S.
  assert (X : forall k, keep (Seek s) k = true <-> ltb k s = false).
  { intros k. cbn. destruct (no_key s); [|apply negb_true_iff]. split; auto. }
  exists (filter (fun e => matches (fst e)) l). split; [|split; [|split]].
  - apply prefix_shows; [exact S|exact Al|]. intros k v k' v' J _ L. apply M2; [|easy]. apply I in J. now apply X.
  - now apply asc_filter.
  - enough (length (filter (fun e => matches (fst e)) l) <= length l)%nat by lia. clear. induction l as [|e l IH]; [easy|].
    cbn. destruct (matches (fst e)); cbn; lia.
  - intros k v. rewrite filter_In, I. cbn [fst]. split; [tauto|]. intros [R M]. split; [|easy]. split; [easy|]. apply X. now apply M1.
Qed.

(** The database's order is the keys' order. *)
Lemma stored_asc d : @ascending K V dltb d -> held d -> asc d.
Proof.
  intros A H. induction A as [|e l A IH F]; [constructor|]. constructor.
  - apply IH. intros k v J. apply (H k v). now right.
  - rewrite Forall_forall in *. intros x J. specialize (F x J). cbn beta in *. rewrite D in F; [easy| |].
    + destruct e as [a b]. apply (H a b). now left.
    + destruct x as [a b]. apply (H a b). now right.
Qed.

Lemma shows_same it cur s l : shows it cur s l -> forall l' : list (K * V), shows it cur s l' -> l = l'.
Proof.
  intros S. induction S as [s E|s e l E S IH]; intros l' S'; destruct S' as [s E'|s e' l' E' S']; try congruence.
  rewrite E in E'. injection E' as <-. f_equal. now apply IH.
Qed.
Lemma collect_shows it cur s l : shows it cur s l -> forall n, (length l <= n)%nat -> collect it cur n s = (l : list (K * V)).
Proof.
  intros S. induction S as [s E|s e l E S IH]; intros n L; destruct n; cbn in *; try lia; try easy; rewrite E; [easy|].
  f_equal. apply IH. lia.
Qed.
End Proofs.

(** * Orders *)
Lemma N_total : total_order N.ltb.
Proof. repeat split; intros; try apply N.ltb_irrefl; rewrite ?N.ltb_lt, ?N.ltb_ge in *; lia. Qed.
Lemma byte_ltb_irr a : byte_ltb a a = false.
Proof. induction a as [|x a IH]; [easy|]. cbn. now rewrite N.ltb_irrefl. Qed.
Lemma byte_total : total_order byte_ltb.
Proof.
  split; [exact byte_ltb_irr|]. split.
  - intros a. induction a as [|x a IH]; intros [|y b] [|z c]; cbn; try easy.
    destruct (x <? y) eqn:A, (y <? z) eqn:B, (x <? z) eqn:C; rewrite ?N.ltb_lt, ?N.ltb_ge in *; try lia; try easy;
      destruct (y <? x) eqn:A'; rewrite ?N.ltb_lt, ?N.ltb_ge in *; try lia; try easy;
      destruct (z <? y) eqn:B'; rewrite ?N.ltb_lt, ?N.ltb_ge in *; try lia; try easy;
      destruct (z <? x) eqn:C'; rewrite ?N.ltb_lt, ?N.ltb_ge in *; try lia; try easy. apply IH.
  - intros a. induction a as [|x a IH]; intros [|y b]; cbn; try easy.
    destruct (x <? y) eqn:A, (y <? x) eqn:B; try easy. rewrite ?N.ltb_lt, ?N.ltb_ge in *. intros P Q.
    assert (x = y) as <- by lia. f_equal. now apply IH.
Qed.
Lemma lex_total {A B} (f : A -> A -> bool) (g : B -> B -> bool) : total_order f -> total_order g -> total_order (lex f g).
Proof.
  intros (F1 & F2 & F3) (G1 & G2 & G3). unfold lex. repeat split.
  - intros a. now rewrite F1, G1.
  - intros (a, x) (b, y) (c, z). cbn. rewrite !orb_true_iff, !andb_true_iff, !negb_true_iff. intros [P|[P P']] [Q|[Q Q']].
    + left. eauto.
    + left. destruct (f b c) eqn:E; [eauto|]. now rewrite <- (F3 b c E Q).
    + left. destruct (f a b) eqn:E; [eauto|]. now rewrite (F3 a b E P).
    + destruct (f a b) eqn:E, (f b c) eqn:E2; [left; eauto| | |].
      * left. now rewrite <- (F3 b c E2 Q).
      * left. now rewrite (F3 a b E P).
      * right. rewrite (F3 a b E P), (F3 b c E2 Q). split; [apply F1|eauto].
  - intros (a, x) (b, y). cbn. rewrite !orb_false_iff, !andb_false_iff, !negb_false_iff. intros [P P'] [Q Q'].
    rewrite P, Q in *. destruct P' as [|P'], Q' as [|Q']; try easy. f_equal; auto.
Qed.
Lemma loan_total : total_order loan_order.
Proof. repeat apply lex_total; (exact byte_total || exact N_total). Qed.

Lemma byte_ltb_order a : forall b, byte_ltb a b = match byte_order a b with Lt => true | _ => false end.
Proof.
  induction a as [|x a IH]; intros [|y b]; try easy. cbn. unfold N.ltb at 1 2. rewrite (N.compare_antisym x y).
  destruct (x ?= y); cbn; auto.
Qed.
Lemma byte_ltb_app x y x' y' : length x = length y ->
  byte_ltb (x ++ x') (y ++ y') = if byte_ltb x y then true else if byte_ltb y x then false else byte_ltb x' y'.
Proof.
  revert y. induction x as [|a x IH]; intros [|b y] L; try easy. cbn in *. injection L as L.
  destruct (a <? b), (b <? a); try easy. now apply IH.
Qed.
Lemma fixed_app w u v x y : u < 2 ^ w -> v < 2 ^ w ->
  byte_ltb (write_fixed w u ++ x) (write_fixed w v ++ y) = if u <? v then true else if v <? u then false else byte_ltb x y.
Proof.
  intros U W. rewrite !byte_ltb_order, fixed_key_order by easy. unfold N.ltb. rewrite (N.compare_antisym u v).
  now destruct (u ?= v).
Qed.
Lemma fixed_keeps w : keeps_order N.ltb (fixed_dltb w) (fun a => a < 2 ^ w).
Proof.
  intros a b A B. unfold fixed_dltb. pose proof (fixed_app w a b [] [] A B) as E. rewrite !app_nil_r in E. rewrite E.
  destruct (a <? b), (b <? a); easy.
Qed.
Lemma regid_lex a b : regid_ltb a b = lex N.ltb N.ltb a b.
Proof. unfold regid_ltb, lex. destruct (fst a <? fst b), (fst b <? fst a); easy. Qed.
Lemma regid_keeps : keeps_order regid_ltb regid_dltb regid_ok.
Proof.
  intros a b A B. unfold regid_dltb, regid_ltb. pose proof (regid_key_order a b [] [] A B) as E. rewrite !app_nil_r in E.
  rewrite byte_ltb_order, E. clear. unfold N.ltb. rewrite (N.compare_antisym (fst a) (fst b)).
  destruct (fst a ?= fst b); try reflexivity. destruct (snd a ?= snd b); reflexivity.
Qed.
Lemma regid_total : total_order regid_ltb.
Proof.
  destruct (lex_total _ _ N_total N_total) as (A & B & C). split; [|split].
  - intros a. rewrite regid_lex. apply A.
  - intros a b c. rewrite !regid_lex. apply B.
  - intros a b. rewrite !regid_lex. apply C.
Qed.
Lemma symbol_app a b x y : length a = length b ->
  byte_ltb (symbol_bytes a ++ x) (symbol_bytes b ++ y) = if byte_ltb a b then true else if byte_ltb b a then false else byte_ltb x y.
Proof. intros L. unfold symbol_bytes. cbn. rewrite L, N.ltb_irrefl. now apply byte_ltb_app. Qed.
Lemma symbol_keeps n : keeps_order byte_ltb symbol_dltb (fun a => length a = n).
Proof.
  intros a b A B. unfold symbol_dltb. pose proof (symbol_app a b [] [] (eq_trans A (eq_sym B))) as E. rewrite !app_nil_r in E. rewrite E.
  destruct (byte_ltb a b), (byte_ltb b a); easy.
Qed.
Lemma loan_keeps s n : keeps_order loan_order loan_ltb (alike s n).
Proof.
  intros (((b, ?), h), i) (((b', ?), h'), i') (_ & E & _) (_ & E' & _). cbn [fst snd] in E, E'. subst.
  unfold loan_order, loan_ltb, pair_ltb, lex. cbn [fst snd]. rewrite !byte_ltb_irr, !orb_false_r.
  destruct (byte_ltb b b'), (byte_ltb b' b); cbn; try easy. destruct (h <? h'), (h' <? h); easy.
Qed.
Lemma loan_stored s n : keeps_order loan_order loan_dltb (alike s n).
Proof.
  intros (((b, ?), h), i) (((b', ?), h'), i') (L & E & H & I) (L' & E' & H' & I'). cbn [fst snd] in L, L', E, E'. subst.
  unfold loan_dltb, loan_bytes. cbn [fst snd]. rewrite symbol_app by now symmetry. rewrite symbol_app by reflexivity.
  rewrite fixed_app by assumption. pose proof (fixed_keeps 256 i i' I I') as F. unfold fixed_dltb in F. rewrite F. clear.
  unfold loan_order, lex. cbn [fst snd]. rewrite !byte_ltb_irr. cbn [negb andb orb].
  destruct (byte_ltb b b'), (byte_ltb b' b); cbn; try easy. destruct (h <? h'), (h' <? h); easy.
Qed.
