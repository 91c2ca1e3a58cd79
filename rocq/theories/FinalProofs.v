(** Proofs about the finality of blocks. *)
From Coq Require Import List Bool NArith ZArith Lia Permutation Sorted.
From Coq Require Import ZifyBool ZifyNat ZifyN.
From Verif Require Import Prelude PreludeFacts AccountModel DexModel DexProofs ContainerModel ChainSpec
  ChainModel ChainProofs SelectModel SelectProofs FinalModel FinalSpec.
Import ListNotations.
Open Scope Z_scope.

(** ** Producers and messages *)
Section Fifo.
  Context {V : Type}.
  Implicit Types s : fifo (K := N) (V := V).

  Lemma insert_find s s' k v x y : fifo_insert N.eqb s k v = Done s' -> fifo_find N.eqb s' x = Some y ->
    fifo_find N.eqb s x = Some y \/ (x = k /\ y = v /\ fifo_find N.eqb s k = None).
  Proof.
    unfold fifo_insert, fifo_find. intros H E.
    assert (A : fget N.eqb (f_map (if fmem N.eqb (f_map s) k then s
       else mkFifo (fput N.eqb (f_map s) k v) (f_keys s ++ [k]) (f_max s))) x = Some y).
    { destruct (f_max s) as [n|]; [|discriminate]. destruct (n <? _)%N.
      - unfold erase_first in H. destruct (f_keys _) as [|k0 ks]; [discriminate|]. injection H as <-.
        cbn [f_map] in E. rewrite (fget_del N.eqb N_eqb_ok) in E. now destruct (N.eqb x k0).
      - injection H as <-. exact E. }
    unfold fmem in A. destruct (fget N.eqb (f_map s) k) eqn:K; cbn [f_map] in A; [now left|].
    destruct (N.eq_dec x k) as [->|D].
    - rewrite (fget_put_same N.eqb N_eqb_ok) in A. injection A as <-. now right.
    - rewrite (fget_put_other N.eqb N_eqb_ok) in A by easy. now left.
  Qed.
  Lemma update_find s k v x y : fifo_find N.eqb (fifo_update N.eqb s k v) x = Some y ->
    (x <> k /\ fifo_find N.eqb s x = Some y) \/ (x = k /\ y = v) \/ (x = k /\ fifo_find N.eqb s x = None).
  Proof.
    unfold fifo_update, fifo_find, fmem. destruct (fget N.eqb (f_map s) k) eqn:K; cbn [f_map].
    - destruct (N.eq_dec x k) as [->|D].
      + rewrite (fget_put_same N.eqb N_eqb_ok). intros E. injection E as <-. auto.
      + rewrite (fget_put_other N.eqb N_eqb_ok) by easy. auto.
    - intros E. destruct (N.eq_dec x k) as [->|D]; [congruence|auto].
  Qed.
End Fifo.

Lemma miners_in ds : forall l x, In x (fold_left add_miner ds l) <-> In x l \/ In x ds.
Proof.
  induction ds as [|d ds IH]; intros l x; cbn [fold_left In]; [tauto|]. rewrite IH. unfold add_miner.
  destruct (existsb (N.eqb d) l) eqn:E.
  - apply existsb_exists in E. destruct E as (y & Y & Q). apply N.eqb_eq in Q. subst y.
    split; [tauto|]. intros [A|[->|A]]; tauto.
  - rewrite in_app_iff. cbn [In]. tauto.
Qed.
Lemma miners_nodup ds : forall l, NoDup l -> NoDup (fold_left add_miner ds l).
Proof.
  induction ds as [|d ds IH]; intros l D; cbn [fold_left]; [easy|]. apply IH. unfold add_miner.
  destruct (existsb (N.eqb d) l) eqn:E; [easy|].
  assert (N : ~ In d l).
  { intros I. rewrite (proj2 (existsb_exists (N.eqb d) l)) in E; [discriminate|].
    exists d. split; [easy|apply N.eqb_refl]. }
  clear - D N. induction l as [|x l IH]; cbn [app]; [constructor; auto|].
  inversion D; subst. constructor.
  - rewrite in_app_iff. cbn. intros [A|[A|[]]]; [easy|]. subst. apply N. now left.
  - apply IH; [easy|]. intros A. apply N. now right.
Qed.

(** What is known about the messages [ms] for block [b]. *)
Definition told (es : list event) (t : list (N * node)) (b : N) (ms : list msg) : Prop :=
  known t b /\ NoDup (map m_miner ms)
  /\ forall m, In m ms -> m_block m = b /\ m_height m = height_of t b /\ spoke es (m_miner m) b.

Lemma told_add es t b ms m : told es t b ms -> m_block m = b -> m_height m = height_of t b ->
  spoke es (m_miner m) b -> told es t b (add_msg ms m).
Proof.
  intros (K & D & A) B H S. unfold add_msg. destruct (existsb (msg_same m) ms) eqn:E; [easy|].
  split; [easy|]. split.
  - rewrite map_app. cbn [map].
    assert (N : ~ In (m_miner m) (map m_miner ms)).
    { intros I. apply in_map_iff in I. destruct I as (m' & Em & I). destruct (A m' I) as (B' & H' & _).
      rewrite (proj2 (existsb_exists (msg_same m) ms)) in E; [discriminate|].
      exists m'. split; [easy|]. unfold msg_same. rewrite B, B', H, H', Em, Z.eqb_refl, !N.eqb_refl. easy. }
    apply Permutation_NoDup with (m_miner m :: map m_miner ms); [apply Permutation_cons_append|now constructor].
  - intros m' I. apply in_app_iff in I. destruct I as [I|[<-|[]]]; auto.
Qed.
Lemma told_one es t b m : known t b -> m_block m = b -> m_height m = height_of t b ->
  spoke es (m_miner m) b -> told es t b [m].
Proof.
  intros K B H S. split; [easy|]. split; [repeat constructor; auto|]. intros m' [<-|[]]. auto.
Qed.

(** What is known about a store of messages. *)
Definition tells (es : list event) (t : list (N * node)) (f : fifo (K := N) (V := list msg)) : Prop :=
  forall b ms, fifo_find N.eqb f b = Some ms -> told es t b ms.

Lemma save_tells es t f b m r : save_msg f b m = Done r -> tells es t f -> known t b ->
  m_block m = b -> m_height m = height_of t b -> spoke es (m_miner m) b -> tells es t (fst r).
Proof.
  intros H A K B Hh S. unfold save_msg in H. destruct (fifo_find N.eqb f b) as [v|] eqn:E.
  - cbn zeta in H. injection H as <-. cbn [fst]. intros x ms X.
    destruct (update_find f b _ x ms X) as [(D & Y)|[(-> & ->)|(-> & Y)]]; [now apply A| |congruence].
    apply told_add; auto.
  - step H as f1 F. injection H as <-. cbn [fst]. intros x ms X.
    destruct (insert_find f f1 b [m] x ms F X) as [Y|(-> & -> & _)]; [now apply A|].
    now apply told_one.
Qed.
Lemma own_tells es t p own f b f' : own_msgs t p own f b = Done f' -> tells es t f ->
  (forall x, In x own -> spoke es x b) -> tells es t f'.
Proof.
  unfold own_msgs. intros H A S. step H as n D. apply deref_fget in D.
  destruct (n_prev n) as [q|]; [|injection H as <-; easy]. cbn zeta in H.
  remember (match fifo_find N.eqb (p_lists p) q with Some l => l | None => [] end) as ds eqn:Eds. clear Eds.
  revert f A H. induction ds as [|d ds IH]; intros f A H; cbn [fold_left] in H; [injection H as <-; easy|].
  cbn [bind] in H. destruct (existsb (N.eqb d) own) eqn:E; [|now apply (IH f)].
  apply existsb_exists in E. destruct E as (y & Y & Q). apply N.eqb_eq in Q. subst y.
  destruct (save_msg f b (mkMsg (n_height n) d b (Some q))) as [r| | |] eqn:R; cbn [bind] in H.
  - apply (IH (fst r)); [|exact H]. apply (save_tells es t f b _ r R A); cbn; auto; [now exists n|].
    now rewrite (height_known t b n D).
  - exfalso. clear - H. induction ds; cbn in H; [discriminate|]; auto.
  - exfalso. clear - H. induction ds; cbn in H; [discriminate|]; auto.
  - exfalso. clear - H. induction ds; cbn in H; [discriminate|]; auto.
Qed.

Lemma counted_enough miners need0 : forall ms c, counted miners need0 c ms = true ->
  (need0 <= c + length (filter (fun x => existsb (N.eqb x) miners) (map m_miner ms)))%nat.
Proof.
  induction ms as [|m ms IH]; intros c H; cbn [counted] in H; [discriminate|]. cbn [map filter].
  cbn zeta in H. destruct (existsb (N.eqb (m_miner m)) miners); cbn [length];
    destruct (Nat.leb_spec need0 (if true then S c else c));
    destruct (Nat.leb_spec need0 (S c)), (Nat.leb_spec need0 c); try discriminate; try lia;
    try (apply IH in H; lia).
Qed.

(** Enough messages: that many different producers spoke. *)
Lemma enough_quorum es t p f need0 b q : tells es t f -> enough p f need0 b q = true ->
  exists L Q, fifo_find N.eqb (p_lists p) q = Some L /\ NoDup Q /\ incl Q L /\ (need0 <= length Q)%nat
    /\ forall x, In x Q -> spoke es x b.
Proof.
  intros A E. unfold enough in E. destruct (fifo_find N.eqb f b) as [ms|] eqn:M; [|discriminate].
  destruct (fifo_find N.eqb (p_lists p) q) as [L|] eqn:P; [|discriminate].
  destruct (Nat.leb need0 (length ms)); [|discriminate]. apply counted_enough in E. cbn [Nat.add] in E.
  exists L, (filter (fun x => existsb (N.eqb x) L) (map m_miner ms)).
  destruct (A b ms M) as (K & D & S). split; [easy|]. split; [now apply NoDup_filter|].
  split; [|split; [easy|]].
  - intros x I. apply filter_In in I. destruct I as (_ & I). apply existsb_exists in I.
    destruct I as (y & Y & Q). apply N.eqb_eq in Q. now subst y.
  - intros x I. apply filter_In in I. destruct I as (I & _). apply in_map_iff in I.
    destruct I as (m & <- & I). now apply S.
Qed.

(** ** The final block moves *)
Section Raise.
  Variable par : N -> option N.
  Variables (t : list (N * node)) (act : list (option N)) (T F : N).
  Hypothesis G : good par t.
  Hypothesis E : ends par t act T.
  Hypothesis B : back par T F.

  (** The block [b] with predecessor [q] becomes final. *)
  Definition raised (p : pbft) (need0 : nat) (f f' : fin) (b q : N) : Prop :=
    par b = Some q /\ enough p (p_final p) need0 b q = true /\ f_global f' = Some b
    /\ fixed act f' b /\ back par b F /\ b <> F /\ back par T b.

  Lemma act_height h b : c_at act h = Some b -> known t b /\ height_of t b = h /\ back par T b.
  Proof.
    intros C. destruct E as (K & Ln). destruct G as (L & _).
    apply (line_at par t T act h b L K Ln) in C. destruct C as (R & U).
    split; [exact (up_known par t T _ b L K U)|]. split; [|red; eauto].
    rewrite (height_up par t T _ b L K U). lia.
  Qed.
  Lemma act_order a b : back par T a -> back par T b -> height_of t a <= height_of t b -> back par b a.
  Proof.
    intros (i & A) (j & C) H. destruct E as (K & _). destruct G as (L & _).
    pose proof (height_up par t T i a L K A). pose proof (height_up par t T j b L K C).
    apply (back_linear par T b a j i); [easy|easy|lia].
  Qed.
  Lemma at_done q h : height_at t (Some q) = Done h -> known t q /\ h = height_of t q.
  Proof.
    unfold height_at. intros H. step H as n D. apply deref_fget in D. injection H as <-.
    split; [now exists n|]. symmetry. now apply height_known.
  Qed.

  Lemma global_to_ok f h r p need0 b q : global_to t act f h = Done r -> fixed act f F ->
    c_at act h = Some b -> par b = Some q -> enough p (p_final p) need0 b q = true ->
    (f_global f = None -> back par q F) ->
    r = (f, false) \/ raised p need0 f (fst r) b q.
  Proof.
    intros H Fx C P En Nq. unfold global_to in H. destruct (local_fin act f) as [lf|]; [|injection H as <-; auto].
    step H as lh LH. destruct (lh <? h); [injection H as <-; auto|].
    destruct (act_height h b C) as (Kb & Hb & Tb). destruct G as (L & Ro).
    step H as stop S. destruct stop; [injection H as <-; auto|]. rewrite C in H.
    step H as bh BH. injection H as <-. right. cbn [fst]. unfold raised. cbn [f_global].
    assert (Bb : back par b F /\ b <> F).
    { unfold global_fin in S. destruct (f_global f) as [g|] eqn:Gl.
      - assert (g = F).
        { destruct Fx as (X & _). unfold global_hash in X. rewrite Gl in X. cbn in X. congruence. }
        subst g. step S as gh GH. apply at_done in GH. destruct GH as (KF & ->). injection S as S.
        destruct (Z.leb_spec h (height_of t F)) as [|Gt]; [discriminate|].
        split; [apply act_order; [easy|easy|lia]|]. intros ->. lia.
      - split; [apply (back_trans par b q); [exists 1%nat; now apply up_one|auto]|].
        intros ->. destruct (Nq eq_refl) as (k & U).
        assert (Kq : known t q) by (eapply up_known; [exact L|exact Kb|now apply up_one]).
        pose proof (height_up par t F 1 q L Kb (up_one par F q P)).
        pose proof (height_up par t q k F L Kq U). lia. }
    split; [easy|]. split; [easy|]. split; [easy|]. split; [|split; [apply Bb|split; [apply Bb|easy]]].
    unfold fixed, global_hash. cbn. split; [easy|]. split; [easy|]. intros g Eg. injection Eg as <-. eauto.
  Qed.

  Lemma sweep_ok p f need0 floor k : forall h r, sweep t act p f need0 floor k h = Done (Some r) ->
    exists b q, c_at act r = Some b /\ par b = Some q /\ enough p f need0 b q = true.
  Proof.
    induction k as [|k IH]; intros h r H; cbn [sweep] in H; [discriminate|].
    destruct ((floor <? h) && (0 <? h)); [|discriminate]. destruct (c_at act h) as [b|] eqn:C; [|discriminate].
    step H as n D. apply deref_fget in D. destruct (n_prev n) as [q|] eqn:P; [|discriminate].
    destruct (enough p f need0 b q) eqn:En; [|now apply IH in H].
    injection H as <-. exists b, q. split; [easy|]. split; [|easy].
    destruct G as ((Lp & _) & _). now rewrite <- (Lp b n D).
  Qed.
  Lemma by_msg_ok p current ms old m count r : by_msg t act p current ms old m count = Done (Some r) ->
    c_at act r = Some (m_block m) /\ exists q, par (m_block m) = Some q
    /\ enough p ms (need_count p current (m_prev m)) (m_block m) q = true.
  Proof.
    unfold by_msg. intros H. cbn zeta in H. destruct (Nat.ltb _ _); [discriminate|].
    destruct old as [o|]; [|discriminate]. step H as oh OH. destruct (m_height m <=? oh); [discriminate|].
    destruct (c_at act (m_height m)) as [b|] eqn:C; [|discriminate]. step H as n D. apply deref_fget in D.
    destruct (n_prev n) as [q|] eqn:P; [|discriminate].
    destruct (N.eqb_spec b (m_block m)) as [->|]; [|discriminate]. cbn [negb] in H.
    destruct (enough p ms _ (m_block m) q) eqn:En; [|discriminate]. injection H as <-.
    destruct (act_height _ _ C) as (K & Hh & _). rewrite (height_known t _ n D) in Hh.
    split; [now rewrite Hh|]. exists q. split; [|easy].
    destruct G as ((Lp & _) & _). now rewrite <- (Lp _ n D).
  Qed.

  (** Where the lists of producers come from. *)
  Variables (es : list event) (p : pbft).
  Hypothesis Ls : forall b l, fifo_find N.eqb (p_lists p) b = Some l -> known t b
    /\ exists ds, producers es b ds /\ l = fold_left add_miner ds [].
  Hypothesis Tl : tells es t (p_final p).

  Lemma miners_size ds : length (fold_left add_miner ds []) = length (nodup N.eq_dec ds).
  Proof.
    apply Permutation_length, NoDup_Permutation.
    - apply miners_nodup. constructor.
    - apply NoDup_nodup.
    - intros x. rewrite miners_in, nodup_In. cbn. tauto.
  Qed.
  Lemma need_counts current pre : exists n, need_count p current pre = quorum n /\ counted_on es pre current n.
  Proof.
    unfold need_count, quorum. cbn zeta. destruct pre as [h|]; [|exists current; split; [easy|now left]].
    destruct (fifo_find N.eqb (p_lists p) h) as [l|] eqn:X; [|exists current; split; [easy|now left]].
    exists (length l). split; [easy|]. right. destruct (Ls h l X) as (_ & ds & P & ->). exists h, ds.
    split; [easy|]. split; [easy|]. apply miners_size.
  Qed.
  Lemma enough_spoken need0 b q : enough p (p_final p) need0 b q = true ->
    exists Q, spoken es q b need0 Q.
  Proof.
    intros En. destruct (enough_quorum es t p _ _ b q Tl En) as (l & Q & X & D & I & Le & S).
    destruct (Ls q l X) as (_ & ds & P & ->). exists Q, ds. split; [easy|]. split; [easy|].
    split; [|easy]. intros x Ix. apply I, miners_in in Ix. now destruct Ix.
  Qed.
  Lemma enough_list f need0 b q : enough p f need0 b q = true ->
    exists l, fifo_find N.eqb (p_lists p) q = Some l.
  Proof.
    unfold enough. destruct (fifo_find N.eqb f b); [|discriminate].
    destruct (fifo_find N.eqb (p_lists p) q); [eauto|discriminate].
  Qed.

  Lemma global_index_ok current f b0 r : global_index t act p current f b0 = Done r -> fixed act f F ->
    (f_global f = None -> forall q l, fifo_find N.eqb (p_lists p) q = Some l -> back par q F) ->
    fst r = f \/ exists b q, raised p (need_count p current (par b0)) f (fst r) b q.
  Proof.
    unfold global_index. intros H Fx Nq. step H as n D. apply deref_fget in D.
    destruct (n_height n =? 0); [injection H as <-; auto|]. step H as z Z. step H as fl FL. step H as o O.
    destruct G as ((Lp & _) & _). rewrite (Lp b0 n D) in O.
    destruct o as [h|]; [|injection H as <-; auto].
    destruct (sweep_ok _ _ _ _ _ _ _ O) as (b & q & C & P & En).
    destruct (global_to_ok f h r p _ b q H Fx C P En) as [->|R]; [|now left|right; eauto].
    intros N. destruct (enough_list _ _ b q En) as (l & X). eauto.
  Qed.
  Lemma global_msg_ok current f m count r : global_msg t act p current f m count = Done r -> fixed act f F ->
    (f_global f = None -> forall q l, fifo_find N.eqb (p_lists p) q = Some l -> back par q F) ->
    fst r = f \/ exists q, raised p (need_count p current (m_prev m)) f (fst r) (m_block m) q.
  Proof.
    unfold global_msg. intros H Fx Nq. step H as o O. destruct o as [h|]; [|injection H as <-; auto].
    destruct (by_msg_ok _ _ _ _ _ _ _ O) as (C & q & P & En).
    destruct (global_to_ok f h r p _ _ q H Fx C P En) as [->|R]; [|now left|right; eauto].
    intros N. destruct (enough_list _ _ _ q En) as (l & X). eauto.
  Qed.
End Raise.

(** The block final for the node itself does not matter here. *)
Lemma local_to_same t act now f h r : local_to t act now f h = Done r ->
  f_global (fst r) = f_global f /\ (forall F, fixed act f F -> fixed act (fst r) F)
  /\ (snd r = true -> local_fin act (fst r) = c_at act h).
Proof.
  unfold local_to. intros H. step H as o O. destruct (h <=? o); [injection H as <-; cbn; split; [easy|]; split; [auto|]; intros X; discriminate X|].
  destruct (c_at act h) as [b|]; [|injection H as <-; cbn; split; [easy|]; split; [auto|]; intros X; discriminate X].
  injection H as <-. cbn [fst snd f_global]. split; [easy|]. split; [|easy].
  intros F (A & Bq & C). unfold fixed, global_hash in *. cbn [f_global f_hash f_record] in *.
  destruct (f_global f), (f_hash f), (f_record f); auto.
Qed.
Lemma local_index_same t act p current now f b r : local_index t act p current now f b = Done r ->
  f_global (fst r) = f_global f /\ (forall F, fixed act f F -> fixed act (fst r) F).
Proof.
  unfold local_index. intros H. step H as n D. destruct (n_height n =? 0); [injection H as <-; auto|].
  step H as z Z. step H as fl FL. step H as o O. destruct o as [h|]; [|injection H as <-; auto].
  apply local_to_same in H. tauto.
Qed.

(** ** A node's history *)

Record stands (l : list (N * option N)) (es : list event) (w : world) (T F : N) : Prop := {
  st_grown : grown l (w_tree w);
  st_ends : ends (pred_in l) (w_tree w) (w_act w) T;
  st_back : back (pred_in l) T F;
  st_fixed : fixed (w_act w) (w_fin w) F;
  st_lists : forall b x, fifo_find N.eqb (p_lists (w_pbft w)) b = Some x -> known (w_tree w) b
    /\ (f_global (w_fin w) = None -> back (pred_in l) b F)
    /\ exists ds, producers es b ds /\ x = fold_left add_miner ds [];
  st_final : tells es (w_tree w) (p_final (w_pbft w)) }.

(** The blocks known before keep their predecessors. *)
Definition extends (l l' : list (N * option N)) : Prop :=
  forall b, In b (map fst l) -> In b (map fst l') /\ pred_in l' b = pred_in l b.

(** How the final block moved with event [e]. *)
Definition moved (l' : list (N * option N)) (es : list event) (e : event) (F F' : N) : Prop :=
  F' = F
  \/ (back (pred_in l') F' F /\ F' <> F
      /\ exists pre current n q Q, basis e = Some (pre, current) /\ counted_on (e :: es) pre current n
         /\ pred_in l' F' = Some q /\ spoken (e :: es) q F' (quorum n) Q).

Lemma good_grown l t : grown l t -> good (pred_in l) t.
Proof. intros G. destruct (grown_proper l t G) as [(L & _ & R & _) _]. now split. Qed.

Lemma spoke_more e es x b : spoke es x b -> spoke (e :: es) x b.
Proof.
  intros [(c & m & I & R)|[(a & d & p & I & R)|(n & c & o & m & I & R)]].
  - left. exists c, m. split; [now right|easy].
  - right; left. exists a, d, p. split; [now right|easy].
  - right; right. exists n, c, o, m. split; [now right|easy].
Qed.
Lemma producers_more e es b ds : producers es b ds -> producers (e :: es) b ds.
Proof. intros (a & d & p & I & R). exists a, d, p. split; [now right|easy]. Qed.
Lemma tells_more e es t t' f : tells es t f -> (forall b, known t b -> known t' b /\ height_of t' b = height_of t b) ->
  tells (e :: es) t' f.
Proof.
  intros A K b ms M. destruct (A b ms M) as (Kb & D & S). destruct (K b Kb) as (K' & H').
  split; [easy|]. split; [easy|]. intros m I. destruct (S m I) as (B & H & P). rewrite H'.
  auto using spoke_more.
Qed.

(** Nothing but the final block and the messages changes. *)
Lemma same_heights t t' : same_links t t' -> forall b, known t b -> known t' b /\ height_of t' b = height_of t b.
Proof.
  intros S b K. split; [now apply (same_known t)|]. symmetry. now apply same_height.
Qed.

Lemma rehab_remarks ok l : forall t r, rehabilitate t ok l = Done r -> remarks t (fst r).
Proof.
  induction l as [|b l IH]; intros t r H; cbn [rehabilitate] in H; [injection H as <-; constructor|].
  destruct (ok b); [|injection H as <-; constructor]. step H as n D. apply deref_fget in D.
  eapply remarks_trans; [|exact (IH _ _ H)]. econstructor; [constructor|easy].
Qed.
Lemma fork_remarks w e prev r : process_fork w e prev = Done r -> remarks (w_tree w) (fst r).
Proof.
  unfold process_fork. intros H. step H as h Hh. step H as o O. destruct o as [l|].
  - now apply rehab_remarks in H.
  - injection H as <-. constructor.
Qed.

Lemma grown_extends l t b prev seq t' : grown l t -> fmem N.eqb t b = false -> fmem N.eqb t prev = true ->
  add_index t b prev seq = Done t' ->
  grown ((b, Some prev) :: l) t' /\ extends l ((b, Some prev) :: l)
  /\ pred_in ((b, Some prev) :: l) b = Some prev
  /\ (forall x, known t x -> known t' x /\ height_of t' x = height_of t x) /\ known t' b.
Proof.
  intros G Nb Kp A. destruct (grown_proper l t G) as [P Kn].
  assert (Ip : In prev (map fst l)) by (apply Kn, fmem_true; easy).
  assert (G' : grown ((b, Some prev) :: l) t') by now apply (grown_next l t b prev seq t').
  assert (Nl : ~ In b (map fst l)) by (intros I; apply Kn, fmem_true in I; congruence).
  assert (X : extends l ((b, Some prev) :: l)).
  { intros x I. cbn [map fst In]. split; [now right|]. apply pred_in_other. intros ->. easy. }
  destruct (grown_proper _ _ G') as [P' Kn'].
  split; [easy|]. split; [easy|]. split; [apply pred_in_here|]. split; [|apply Kn'; now left].
  intros x Kx. assert (Kx' : known t' x) by (apply Kn'; right; apply Kn, Kx). split; [easy|].
  destruct P as (L & _). destruct P' as (L' & _).
  destruct (height_gen (pred_in l) t x L Kx) as [B1 G1].
  destruct (height_gen _ t' x L' Kx') as [B2 G2].
  apply (ext_generation (pred_in l) (pred_in ((b, Some prev) :: l)) t x) in G1; [|easy| |easy].
  - pose proof (generation_det _ _ _ _ G1 G2). lia.
  - intros y Ky. now apply X, Kn.
Qed.

Lemma back_extends l l' t x y : grown l t -> extends l l' -> known t x -> back (pred_in l) x y -> back (pred_in l') x y.
Proof.
  intros G X K (k & U). destruct (grown_proper l t G) as [(L & _) Kn]. exists k.
  apply (ext_up (pred_in l) (pred_in l') t); auto. intros z Kz. now apply X, Kn.
Qed.
Lemma ends_extends l l' t t' c b : grown l t -> extends l l' -> (forall x, known t x -> known t' x) ->
  ends (pred_in l) t c b -> ends (pred_in l') t' c b.
Proof.
  intros G X M (K & Ln). destruct (grown_proper l t G) as [(L & _) Kn]. split; [auto|].
  apply (line_ext (pred_in l) (pred_in l') t); auto. intros z Kz. now apply X, Kn.
Qed.

Lemma extends_refl l : extends l l.
Proof. intros b I. auto. Qed.
Lemma extends_trans l1 l2 l3 : extends l1 l2 -> extends l2 l3 -> extends l1 l3.
Proof. intros A B b I. destruct (A b I) as [I2 E2]. destruct (B b I2) as [I3 E3]. split; congruence. Qed.

(** The state after the final block may have moved. *)
Lemma stands_raise l e es s f f' p seq T F need0 pre current :
  stands l (e :: es) (mkWorld s f p seq) T F ->
  f' = f \/ (exists b q, raised (pred_in l) (s_act s) T F p need0 f f' b q) ->
  basis e = Some (pre, current) -> need0 = need_count p current pre ->
  exists F', stands l (e :: es) (mkWorld s f' p seq) T F' /\ moved l es e F F'.
Proof.
  intros St R Ba Ne. destruct R as [->|(b & q & P & En & Gl & Fx & Bb & Nb & Tb)].
  { exists F. split; [easy|now left]. }
  destruct St as [Gr E B Fx0 Ls Tl]. cbn [w_tree w_act w_fin w_pbft w_sel] in *. exists b. split.
  - constructor; cbn [w_tree w_act w_fin w_pbft w_sel]; auto.
    intros x y X. destruct (Ls x y X) as (A1 & _ & A3). split; [easy|]. split; [|easy].
    rewrite Gl. discriminate.
  - right. split; [easy|]. split; [easy|].
    assert (Ls' : forall b x, fifo_find N.eqb (p_lists p) b = Some x -> known (s_tree s) b
      /\ exists ds, producers (e :: es) b ds /\ x = fold_left add_miner ds [])
      by (intros x y X; destruct (Ls x y X) as (A1 & _ & A3); auto).
    destruct (need_counts (s_tree s) (e :: es) p Ls' current pre) as (n & Nn & Co).
    destruct (enough_spoken (s_tree s) (e :: es) p Ls' Tl need0 b q En) as (Q & SQ).
    exists pre, current, n, q, Q. split; [easy|]. split; [easy|]. split; [easy|].
    rewrite <- Nn, <- Ne. exact SQ.
Qed.

Lemma accept_ok l es w T F addr e b prev r : stands l es w T F -> accept_block addr w e b prev = Done r ->
  exists l' T' F', stands l' (EBlock addr e b prev :: es) (fst r) T' F' /\ extends l l'
    /\ moved l' es (EBlock addr e b prev) F F'.
Proof.
  intros [Gr E B Fx Ls Tl] H. unfold accept_block in H.
  step H as u0 U0. step H as u1 U1. unfold guard in U0. unfold asserted in U1.
  destruct (fmem N.eqb (w_tree w) b) eqn:Nb; [discriminate|]. clear U0 u0.
  destruct (fmem N.eqb (w_tree w) prev) eqn:Kp; [|discriminate]. clear U1 u1.
  step H as k K.
  assert (R0 : remarks (w_tree w) (fst k)).
  { destruct (opt_eqb (Some prev) (c_tip (w_act w))); [injection K as <-; constructor|].
    now apply fork_remarks in K. }
  clear K. cbn zeta in H. set (ev := EBlock addr e b prev).
  pose proof (remarks_grown l _ _ R0 Gr) as Gr0. pose proof (remarks_links _ _ R0) as Sl0.
  pose proof (same_heights _ _ Sl0) as Hs0.
  destruct (negb (snd k && o_fine e)).
  { injection H as <-. cbn [fst]. exists l, T, F. split; [|split; [apply extends_refl|now left]].
    constructor; cbn [w_tree w_act w_fin w_pbft w_sel s_tree s_act]; auto.
    - now apply (ends_remarks _ (w_tree w)).
    - intros x y X. destruct (Ls x y X) as (A1 & A2 & ds & A3 & A4). split; [now apply Hs0|]. split; [easy|].
      exists ds. split; [now apply producers_more|easy].
    - now apply (tells_more ev es (w_tree w)). }
  step H as t1 A1.
  assert (Nb0 : fmem N.eqb (fst k) b = false).
  { destruct (fmem N.eqb (fst k) b) eqn:M; [|easy]. apply fmem_true in M.
    apply (same_known _ (w_tree w)) in M; [|now apply same_sym]. apply fmem_true in M. congruence. }
  assert (Kp0 : fmem N.eqb (fst k) prev = true).
  { apply fmem_true. apply (same_known (w_tree w)); [easy|]. now apply fmem_true. }
  destruct (grown_extends l (fst k) b prev (w_seq w) t1 Gr0 Nb0 Kp0 A1) as (Gr1 & X1 & Pb & Hs1 & Kb1).
  set (l1 := (b, Some prev) :: l) in *.
  assert (Hs : forall x, known (w_tree w) x -> known t1 x /\ height_of t1 x = height_of (w_tree w) x).
  { intros x Kx. destruct (Hs0 x Kx) as (K0 & E0). destruct (Hs1 x K0) as (K1 & E1). split; congruence. }
  assert (E1 : ends (pred_in l1) t1 (w_act w) T).
  { apply (ends_extends l l1 (fst k)); [easy|easy| |now apply (ends_remarks _ (w_tree w))].
    intros x Kx. now apply Hs1. }
  assert (B1 : back (pred_in l1) T F) by (apply (back_extends l l1 (w_tree w)); auto; apply E).
  step H as a Ac. pose proof (good_grown l1 t1 Gr1) as G1.
  destruct (activate_safe (pred_in l1) _ _ _ _ F _ _ _ T a Ac) as (R2 & Gl2 & Rc2 & T2 & E2 & B2 & F2);
    cbn [s_tree s_act]; [easy|easy|easy|easy|]. cbn [s_tree s_act] in R2.
  set (s2 := fst (fst a)) in *. set (f2 := snd (fst a)) in *.
  pose proof (remarks_grown l1 _ _ R2 Gr1) as Gr2. pose proof (same_heights _ _ (remarks_links _ _ R2)) as Hs2.
  assert (Hs3 : forall x, known (w_tree w) x -> known (s_tree s2) x /\ height_of (s_tree s2) x = height_of (w_tree w) x).
  { intros x Kx. destruct (Hs x Kx) as (K0 & E0). destruct (Hs2 x K0) as (K1 & E3). split; congruence. }
  (* the lists and messages kept from before *)
  assert (Ls2 : forall x y, fifo_find N.eqb (p_lists (w_pbft w)) x = Some y -> known (s_tree s2) x
    /\ (f_global f2 = None -> back (pred_in l1) x F)
    /\ exists ds, producers (ev :: es) x ds /\ y = fold_left add_miner ds []).
  { intros x y X. destruct (Ls x y X) as (A & A' & ds & A3 & A4). split; [now apply Hs3|].
    split; [|exists ds; split; [now apply producers_more|easy]].
    rewrite Gl2. intros N. apply (back_extends l l1 (w_tree w)); auto. }
  assert (Tl2 : tells (ev :: es) (s_tree s2) (p_final (w_pbft w))) by now apply (tells_more ev es (w_tree w)).
  match type of H with (if ?c then _ else _) = _ => destruct c eqn:Tip end.
  2:{ injection H as <-. cbn [fst]. exists l1, T2, F. split; [|split; [easy|now left]].
      constructor; cbn [w_tree w_act w_fin w_pbft w_sel]; auto. }
  apply andb_true_iff in Tip. destruct Tip as [_ Tip]. apply opt_eqb_true in Tip.
  assert (L2 := proj1 (good_grown _ _ Gr2)).
  rewrite (ends_tip (pred_in l1) _ _ T2 L2 E2) in Tip. injection Tip as ->.
  step H as p1 P1.
  assert (Ls3 : forall x y, fifo_find N.eqb (p_lists p1) x = Some y -> known (s_tree s2) x
    /\ (f_global f2 = None -> back (pred_in l1) x F)
    /\ exists ds, producers (ev :: es) x ds /\ y = fold_left add_miner ds []).
  { intros x y X. destruct (o_delegates e) as [ds|] eqn:Od; [|injection P1 as <-; now apply Ls2].
    unfold save_miners in P1. step P1 as q1 Q1. injection P1 as <-. cbn [p_lists] in X.
    destruct (insert_find _ _ _ _ x y Q1 X) as [Y|(-> & -> & _)]; [now apply Ls2|].
    split; [now apply Hs2|]. split; [easy|]. exists ds. split; [|easy].
    exists addr, e, prev. split; [now left|easy]. }
  assert (Tl3 : tells (ev :: es) (s_tree s2) (p_final p1)).
  { destruct (o_delegates e) as [ds|]; [|injection P1 as <-; easy].
    unfold save_miners in P1. step P1 as q1 Q1. injection P1 as <-. exact Tl2. }
  step H as c1 C1. cbn zeta in H. step H as u U.
  destruct (local_index_same _ _ _ _ _ _ _ _ U) as (Gl3 & Fx3).
  destruct (snd u).
  - step H as c2 C2. step H as g Gi. injection H as <-. cbn [fst].
    set (p3 := mkPbft (p_lists p1) c1 c2) in *.
    assert (Tl4 : tells (ev :: es) (s_tree s2) c2).
    { apply (own_tells (ev :: es) _ _ _ _ b c2 C2); cbn [p_final]; [easy|]. intros x Ix. right; left.
      exists addr, e, prev. split; [now left|easy]. }
    assert (St : stands l1 (ev :: es) (mkWorld s2 (fst u) p3 (w_seq w + 1)) b F).
    { constructor; cbn [w_tree w_act w_fin w_pbft w_sel]; auto. unfold p3; cbn [p_lists].
      now rewrite Gl3. }
    destruct (stands_raise l1 ev es s2 (fst u) (fst g) p3 (w_seq w + 1)%N b F
               (need_count p3 (o_current e) (Some prev)) (Some prev) (o_current e) St) as (F' & St' & Mv);
      [|reflexivity|reflexivity|].
    { rewrite <- Pb.
      destruct (global_index_ok (pred_in l1) (s_tree s2) (s_act s2) b F (good_grown _ _ Gr2) E2 B2 p3
        (o_current e) (fst u) b g Gi) as [Q|Q]; auto.
      rewrite Gl3. intros N q y X. now apply (Ls3 q y X). }
    exists l1, b, F'. auto.
  - injection H as <-. cbn [fst]. exists l1, b, F. split; [|split; [easy|now left]].
    constructor; cbn [w_tree w_act w_fin w_pbft w_sel p_lists p_final]; auto.
    now rewrite Gl3.
Qed.

Lemma check_known par t act f signed m T : good par t -> ends par t act T ->
  check_msg t act f signed m = Done true ->
  signed = true /\ c_at act (m_height m) = Some (m_block m) /\ known t (m_block m)
  /\ m_height m = height_of t (m_block m).
Proof.
  intros G E H. unfold check_msg in H. step H as lh L. destruct (_ || _); [discriminate|].
  injection H as H. apply andb_true_iff in H. destruct H as [C S]. apply opt_eqb_true in C.
  destruct (act_height par t act T G E _ _ C) as (K & Hh & _). auto.
Qed.

Lemma final_ok l es w T F current signed m w' : stands l es w T F -> on_final w current signed m = Done w' ->
  exists F', stands l (EFinal current signed m :: es) w' T F' /\ moved l es (EFinal current signed m) F F'.
Proof.
  intros [Gr E B Fx Ls Tl] H. unfold on_final in H. step H as y Y. set (ev := EFinal current signed m).
  assert (Ls2 : forall x y, fifo_find N.eqb (p_lists (w_pbft w)) x = Some y -> known (w_tree w) x
    /\ (f_global (w_fin w) = None -> back (pred_in l) x F)
    /\ exists ds, producers (ev :: es) x ds /\ y = fold_left add_miner ds []).
  { intros x z X. destruct (Ls x z X) as (A & A' & ds & A3 & A4). split; [easy|]. split; [easy|].
    exists ds. split; [now apply producers_more|easy]. }
  assert (Tl2 : tells (ev :: es) (w_tree w) (p_final (w_pbft w))) by (apply (tells_more ev es (w_tree w)); auto).
  destruct y; cbn [negb] in H.
  2:{ injection H as <-. exists F. split; [constructor; auto|now left]. }
  destruct (check_known _ _ _ _ _ _ T (good_grown _ _ Gr) E Y) as (-> & C & Km & Hm).
  step H as c S. cbn zeta in H. step H as u U. injection H as <-.
  set (p := mkPbft (p_lists (w_pbft w)) (p_confirm (w_pbft w)) (fst c)) in *.
  assert (Tl3 : tells (ev :: es) (w_tree w) (fst c)).
  { apply (save_tells (ev :: es) _ _ _ m c S Tl2); auto. left. exists current, m. split; [now left|easy]. }
  assert (St : stands l (ev :: es) (mkWorld (w_sel w) (w_fin w) p (w_seq w)) T F) by (constructor; auto).
  destruct (stands_raise l ev es (w_sel w) (w_fin w) (fst u) p (w_seq w) T F
               (need_count p current (m_prev m)) (m_prev m) current St) as (F' & St' & Mv);
      [|reflexivity|reflexivity|].
  { destruct (global_msg_ok (pred_in l) (w_tree w) (w_act w) T F (good_grown _ _ Gr) E B p
        current (w_fin w) m (snd c) u U) as [Q|(q & Q)]; auto; [|right; eauto].
    intros N q y X. now apply (Ls2 q y X). }
  exists F'. auto.
Qed.

Lemma confirm_ok l es w T F now current own signed m w' : stands l es w T F ->
  on_confirm w now current own signed m = Done w' ->
  stands l (EConfirm now current own signed m :: es) w' T F.
Proof.
  intros [Gr E B Fx Ls Tl] H. unfold on_confirm in H. step H as y Y.
  set (ev := EConfirm now current own signed m).
  assert (Ls2 : forall x y, fifo_find N.eqb (p_lists (w_pbft w)) x = Some y -> known (w_tree w) x
    /\ (f_global (w_fin w) = None -> back (pred_in l) x F)
    /\ exists ds, producers (ev :: es) x ds /\ y = fold_left add_miner ds []).
  { intros x z X. destruct (Ls x z X) as (A & A' & ds & A3 & A4). split; [easy|]. split; [easy|].
    exists ds. split; [now apply producers_more|easy]. }
  assert (Tl2 : tells (ev :: es) (w_tree w) (p_final (w_pbft w))) by (apply (tells_more ev es (w_tree w)); auto).
  destruct y; cbn [negb] in H.
  2:{ injection H as <-. constructor; auto. }
  pose proof (good_grown _ _ Gr) as G.
  destruct (check_known _ _ _ _ _ _ T G E Y) as (-> & C & Km & Hm).
  step H as c S. cbn zeta in H. step H as u U.
  assert (Lu : f_global (fst u) = f_global (w_fin w) /\ fixed (w_act w) (fst u) F
               /\ (snd u = true -> local_fin (w_act w) (fst u) = Some (m_block m))).
  { unfold local_msg in U. step U as o O. destruct o as [h|].
    - destruct (by_msg_ok (pred_in l) _ _ T G E _ _ _ _ _ _ _ O) as (Ch & _).
      destruct (local_to_same _ _ _ _ _ _ U) as (A1 & A2 & A3). split; [easy|]. split; [auto|].
      intros X. rewrite A3; auto.
    - injection U as <-. cbn. split; [easy|]. split; [easy|discriminate]. }
  destruct Lu as (Gl & Fu & Lf).
  destruct (snd u).
  - rewrite (Lf eq_refl) in H. step H as c2 C2. injection H as <-.
    constructor; cbn [w_tree w_act w_fin w_pbft w_sel p_lists p_final]; auto; [now rewrite Gl|].
    apply (own_tells (ev :: es) _ _ _ _ (m_block m) c2 C2); cbn [p_final]; [easy|].
    intros x Ix. right; right. exists now, current, own, m. split; [now left|easy].
  - injection H as <-. constructor; cbn [w_tree w_act w_fin w_pbft w_sel p_lists p_final]; auto.
    now rewrite Gl.
Qed.

Lemma sorted_ext {A} (P Q : A -> A -> Prop) l : (forall a b, P a b -> Q a b) ->
  StronglySorted P l -> StronglySorted Q l.
Proof.
  intros I S. induction S as [|a l S IH H]; constructor; auto. eapply Forall_impl; [|exact H]. auto.
Qed.

Lemma restart_ok l es w T F addr rounds disk order now v r : stands l es w T F ->
  legal w (ERestart addr rounds disk order now v) -> restart addr w rounds disk order now v = Done r ->
  exists T', stands l (ERestart addr rounds disk order now v :: es) (fst r) T' F.
Proof.
  intros [Gr E B Fx Ls Tl] (Pm & So) H. unfold restart in H. step H as t Bt. cbn zeta in H.
  pose proof (remark_links disk (w_tree w)) as Sl.
  pose proof (grown_marks l _ disk Gr) as Gr0.
  assert (Pm0 : Permutation order (keys (remark disk (w_tree w)))) by now rewrite remark_keys.
  assert (So0 : StronglySorted (fun a b => height_of (remark disk (w_tree w)) a
                                        <= height_of (remark disk (w_tree w)) b) order).
  { eapply sorted_ext; [|exact So]. intros a b. cbn beta. change (tall w) with (height_of (w_tree w)).
    now rewrite !(same_height _ _ _ Sl). }
  pose proof (grown_load l _ order t Gr0 Pm0 So0 Bt) as Gr1.
  destruct (grown_proper _ _ Gr0) as [P0 Kn0]. destruct (grown_proper _ _ Gr1) as [P1 Kn1].
  pose proof (good_grown _ _ Gr) as (L & _).
  rewrite (ends_tip (pred_in l) _ _ T L E) in H. step H as c C. destruct c as [c cf]. cbn [fst] in H.
  pose proof (good_grown _ _ Gr1) as (L1 & Ro1).
  assert (KT : known t T).
  { apply Kn1, Kn0. apply (same_known (w_tree w)); [easy|apply E]. }
  assert (E1 : ends (pred_in l) t c T).
  { apply (ends_set (pred_in l) t [] T c cf L1 Ro1 KT); [now left|easy]. }
  assert (F1 : fixed c (mkFin None 0 None None (f_record (w_fin w))) F).
  { destruct Fx as (_ & X & _). unfold fixed, global_hash. cbn. destruct (f_record (w_fin w)) as [rc|]; cbn.
    - split; [now rewrite X|]. split; [easy|discriminate].
    - assert (Q : c_at c 0 = Some F); [|split; [easy|split; [easy|discriminate]]].
      rewrite <- X. apply (ends_same_first (pred_in l) t _ T _ T L1 Ro1); [|easy].
      split; [easy|apply E]. }
  step H as a Ac. injection H as <-. cbn [fst].
  destruct (activate_safe (pred_in l) _ _ _ _ F _ _ _ T a Ac) as (R2 & Gl2 & Rc2 & T2 & E2 & B2 & F2);
    cbn [s_tree s_act]; [now split|easy|easy|easy|]. cbn [s_tree s_act] in R2.
  exists T2. constructor; cbn [w_tree w_act w_fin w_pbft w_sel]; auto.
  - now apply (remarks_grown l t).
  - intros b x X. discriminate X.
  - intros b ms X. discriminate X.
Qed.

Lemma step_ok l es w T F e w' : stands l es w T F -> legal w e -> next w e = Done w' ->
  exists l' T' F', stands l' (e :: es) w' T' F' /\ extends l l' /\ moved l' es e F F'.
Proof.
  intros St Lg H. destruct e as [addr e b prev|now current own signed m|current signed m|addr rounds disk order now v];
    cbn [next] in H.
  - step H as r R. injection H as <-. now apply (accept_ok l es w T).
  - exists l, T, F. split; [now apply (confirm_ok l es w T F)|]. split; [apply extends_refl|now left].
  - destruct (final_ok l es w T F current signed m w' St H) as (F' & St' & Mv). exists l, T, F'.
    split; [easy|]. split; [apply extends_refl|easy].
  - step H as r R. injection H as <-. destruct (restart_ok l es w T F _ _ _ _ _ _ r St Lg R) as (T' & St').
    exists l, T', F. split; [easy|]. split; [apply extends_refl|now left].
Qed.

Lemma genesis_ok g : stands [(g, None)] [] (genesis_world g) g g.
Proof.
  assert (Gr : grown [(g, None)] (w_tree (genesis_world g))).
  { apply (grown_first g (g + 1)%N 1%N); [lia|]. apply add_first. lia. }
  constructor; [exact Gr| |apply back_refl| | |].
  - split; [eexists; cbn; now rewrite N.eqb_refl|]. exists 0%nat.
    assert (P : pred_in [(g, None)] g = None) by (cbn; now rewrite N.eqb_refl).
    split; [exists g; split; [constructor|easy]|]. split; [easy|]. intros k a Lk U.
    assert (k = 0%nat) by lia. subst k. inversion U; subst. reflexivity.
  - unfold fixed, global_hash. cbn. split; [easy|]. split; [easy|discriminate].
  - intros b x X. discriminate X.
  - intros b ms X. discriminate X.
Qed.

(** ** Whole histories *)

Lemma lives_stands g es w : lives g es w -> exists l T F, stands l es w T F.
Proof.
  induction 1 as [|es w e w' Lv (l & T & F & St) Lg H].
  - eauto using genesis_ok.
  - destruct (step_ok l es w T F e w' St Lg H) as (l' & T' & F' & St' & _). eauto.
Qed.

Lemma after_stands w w' : after w w' -> forall l es T F, stands l es w T F ->
  exists l' es' T' F', stands l' es' w' T' F' /\ extends l l' /\ back (pred_in l') F' F.
Proof.
  induction 1 as [|w1 e w2 Af IH Lg H]; intros l es T F St.
  - exists l, es, T, F. split; [easy|]. split; [apply extends_refl|apply back_refl].
  - destruct (IH l es T F St) as (l1 & es1 & T1 & F1 & St1 & Ex1 & B1).
    destruct (step_ok l1 es1 w1 T1 F1 e w2 St1 Lg H) as (l2 & T2 & F2 & St2 & Ex2 & Mv).
    exists l2, (e :: es1), T2, F2. split; [easy|]. split; [now apply (extends_trans l l1)|].
    assert (B : back (pred_in l2) F1 F).
    { apply (back_extends l1 l2 (w_tree w1)); [apply St1|easy| |easy].
      destruct (good_grown _ _ (st_grown _ _ _ _ _ St1)) as (L & _).
      destruct (st_ends _ _ _ _ _ St1) as (K & _). destruct (st_back _ _ _ _ _ St1) as (k & U).
      exact (up_known (pred_in l1) _ T1 k F1 L K U). }
    destruct Mv as [->|(B2 & _)]; [easy|]. now apply (back_trans _ F2 F1).
Qed.

Lemma stands_prev l es w T F b : stands l es w T F -> known (w_tree w) b -> prev_of w b = pred_in l b.
Proof.
  intros St (n & E). unfold prev_of. rewrite E.
  destruct (good_grown _ _ (st_grown _ _ _ _ _ St)) as ((L & _) & _). now apply L.
Qed.
Lemma stands_up l es w T F : stands l es w T F -> forall b k x, known (w_tree w) b ->
  up (pred_in l) b k x -> up (prev_of w) b k x.
Proof.
  intros St b k x K U. pose proof (proj1 (good_grown _ _ (st_grown _ _ _ _ _ St))) as L.
  induction U as [b|b p k a P U IH]; [constructor|]. apply up_next with p.
  - now rewrite (stands_prev l es w T F b St K).
  - apply IH. destruct L as (_ & _ & L). destruct K as (n & E). now apply (L b n).
Qed.
Lemma stands_on l es w T F x : stands l es w T F -> back (pred_in l) T x -> on_chain w x.
Proof.
  intros St (k & U). pose proof (proj1 (good_grown _ _ (st_grown _ _ _ _ _ St))) as L.
  destruct (st_ends _ _ _ _ _ St) as (K & Ln).
  destruct (line_contains _ _ _ _ x L K Ln (up_known _ _ _ _ _ L K U)) as (y & C & I).
  unfold on_chain. rewrite C. f_equal. apply I. red. eauto.
Qed.
Lemma on_stands l es w T F x : stands l es w T F -> on_chain w x -> back (pred_in l) T x.
Proof.
  intros St O. pose proof (proj1 (good_grown _ _ (st_grown _ _ _ _ _ St))) as L.
  destruct (st_ends _ _ _ _ _ St) as (K & Ln). unfold on_chain in O.
  assert (Kx : known (w_tree w) x).
  { unfold c_contains in O. step O as n D. apply deref_fget in D. now exists n. }
  destruct (line_contains _ _ _ _ x L K Ln Kx) as (y & C & I). apply I. congruence.
Qed.
Lemma stands_final l es w T F : stands l es w T F -> final_of w = Some F.
Proof. intros St. apply (st_fixed _ _ _ _ _ St). Qed.

(** A block confirmed not long ago stays when a block comes. *)
Lemma accept_local l es w T F addr e b prev r X : stands l es w T F -> accept_block addr w e b prev = Done r ->
  f_local (w_fin w) = Some X -> on_chain w X -> o_now e - f_time (w_fin w) <= 60 -> on_chain (fst r) X.
Proof.
  intros St H Lf On Tm. pose proof (on_stands l es w T F X St On) as Bx.
  destruct St as [Gr E B Fx Ls Tl]. unfold accept_block in H.
  step H as u1 Nb. apply guard_done in Nb. apply negb_true_iff in Nb.
  step H as u2 Kp. apply asserted_done in Kp. step H as k K.
  assert (R0 : remarks (w_tree w) (fst k)).
  { destruct (opt_eqb (Some prev) (c_tip (w_act w))); [injection K as <-; constructor|].
    now apply fork_remarks in K. }
  clear K. cbn zeta in H.
  pose proof (remarks_grown l _ _ R0 Gr) as Gr0. pose proof (remarks_links _ _ R0) as Sl0.
  assert (Fin : forall l' t act T', grown l' t -> ends (pred_in l') t act T' -> back (pred_in l') T' X ->
                  c_contains t act (Some X) = Done true).
  { intros l' t act T' G (Kt & Ln) (j & V). pose proof (proj1 (good_grown _ _ G)) as L.
    destruct (line_contains _ _ _ _ X L Kt Ln (up_known _ _ _ _ _ L Kt V)) as (y & C & I).
    rewrite C. f_equal. apply I. red. eauto. }
  unfold on_chain, w_tree, w_act.
  destruct (negb (snd k && o_fine e)).
  { injection H as <-. cbn [fst w_sel s_tree s_act]. apply (Fin l _ _ T); [easy| |easy].
    now apply (ends_remarks _ (w_tree w)). }
  step H as t1 A1.
  assert (Nb0 : fmem N.eqb (fst k) b = false).
  { destruct (fmem N.eqb (fst k) b) eqn:M; [|easy]. apply fmem_true in M.
    apply (same_known _ (w_tree w)) in M; [|now apply same_sym]. apply fmem_true in M. congruence. }
  assert (Kp0 : fmem N.eqb (fst k) prev = true).
  { apply fmem_true. apply (same_known (w_tree w)); [easy|]. now apply fmem_true. }
  destruct (grown_extends l (fst k) b prev (w_seq w) t1 Gr0 Nb0 Kp0 A1) as (Gr1 & X1 & Pb & Hs1 & Kb1).
  set (l1 := (b, Some prev) :: l) in *.
  assert (E1 : ends (pred_in l1) t1 (w_act w) T).
  { apply (ends_extends l l1 (fst k)); [easy|easy| |now apply (ends_remarks _ (w_tree w))].
    intros x Kx. now apply Hs1. }
  assert (B1 : back (pred_in l1) T X) by (apply (back_extends l l1 (w_tree w)); auto; apply E).
  step H as a Ac. pose proof (good_grown l1 t1 Gr1) as G1.
  destruct (activate_safe (pred_in l1) _ _ _ _ F _ _ _ T a Ac) as (R2 & _);
    cbn [s_tree s_act]; [easy|easy|apply (back_extends l l1 (w_tree w)); auto; apply E|easy|].
  cbn [s_tree s_act] in R2. pose proof (remarks_grown l1 _ _ R2 Gr1) as Gr2.
  destruct (activate_local (pred_in l1) _ _ _ _ X _ _ _ T a Ac) as (T2 & E2 & B2);
    cbn [s_tree s_act]; [easy|easy|easy|easy|easy|].
  assert (S : w_sel (fst r) = fst (fst a)).
  { match type of H with (if ?c then _ else _) = _ => destruct c end; [|now injection H as <-].
    step H as p1 P1. step H as c1 C1. cbn zeta in H. step H as u U. destruct (snd u); [|now injection H as <-].
    step H as c2 C2. step H as g Gi. now injection H as <-. }
  rewrite S. apply (Fin l1 _ _ T2); easy.
Qed.

(** Two groups of a list of different members have many in common. *)
Lemma filter_split {A} (P : A -> bool) l :
  (length (filter P l) + length (filter (fun x => negb (P x)) l) = length l)%nat.
Proof. induction l as [|x l IH]; cbn; [easy|]. destruct (P x); cbn; lia. Qed.
Lemma common_members (Q1 Q2 ds : list N) : NoDup Q1 -> NoDup Q2 -> incl Q1 ds -> incl Q2 ds ->
  exists B, NoDup B /\ (forall x, In x B -> In x Q1 /\ In x Q2)
    /\ (length Q1 + length Q2 <= length ds + length B)%nat.
Proof.
  intros N1 N2 I1 I2. set (P := fun x => existsb (N.eqb x) Q2).
  assert (PI : forall x, P x = true <-> In x Q2).
  { intros x. unfold P. rewrite existsb_exists. split; [intros (y & Y & E)|intros I; exists x].
    - apply N.eqb_eq in E. now subst y.
    - split; [easy|apply N.eqb_refl]. }
  exists (filter P Q1). split; [now apply NoDup_filter|]. split.
  { intros x I. apply filter_In in I. rewrite PI in I. easy. }
  assert (Nd : NoDup (Q2 ++ filter (fun x => negb (P x)) Q1)).
  { clear I2. assert (D : forall x, In x Q2 -> ~ In x (filter (fun x => negb (P x)) Q1)).
    { intros x I J. apply filter_In in J. apply PI in I. rewrite I in J. destruct J as (_ & J). discriminate. }
    assert (N3 := NoDup_filter (fun x => negb (P x)) N1). revert D N3.
    generalize (filter (fun x => negb (P x)) Q1). clear - N2. intros l.
    induction N2 as [|a q Na Nq IH]; intros D N3; cbn; [easy|]. constructor.
    - rewrite in_app_iff. intros [I|I]; [easy|]. apply (D a); [now left|easy].
    - apply IH; [|easy]. intros x I. apply D. now right. }
  apply NoDup_incl_length with (l' := ds) in Nd.
  - rewrite app_length in Nd. pose proof (filter_split P Q1). lia.
  - apply incl_app; [easy|]. intros x I. apply filter_In in I. now apply I1.
Qed.
