(** Proofs on the schedule of block producers. *)
From Coq Require Import List Bool NArith ZArith Lia Permutation FinFun.
From Coq Require Import ZifyBool ZifyNat ZifyN.
From Verif Require Import Prelude DexModel DexProofs SchedModel SchedSpec.
Import ListNotations.
Open Scope Z_scope.

(** ** Vectors *)
Section Vector.
  Context {A : Type}.
  Implicit Types l : list A.

  Lemma set_length l : forall i x, length (set_index l i x) = length l.
  Proof. induction l as [|y l IH]; intros [|i] x; cbn; auto. Qed.
  Lemma set_same l : forall i x, (i < length l)%nat -> nth_error (set_index l i x) i = Some x.
  Proof. induction l as [|y l IH]; intros [|i] x H; cbn in *; try lia; [easy|]. apply IH. lia. Qed.
  Lemma set_other l : forall i j x, i <> j -> nth_error (set_index l i x) j = nth_error l j.
  Proof. induction l as [|y l IH]; intros [|i] [|j] x H; cbn; try easy. apply IH. lia. Qed.

  Lemma exchange_ok l i j : (i < length l)%nat -> (j < length l)%nat ->
    exists l', exchange l i j = Done l' /\ Permutation l l'.
  Proof.
    intros Hi Hj. unfold exchange, at_index.
    destruct (nth_error l j) as [d|] eqn:D; [|apply nth_error_None in D; lia].
    destruct (nth_error l i) as [e|] eqn:E; [|apply nth_error_None in E; lia]. cbn [bind].
    eexists. split; [reflexivity|]. apply Permutation_nth_error. split; [now rewrite !set_length|].
    exists (fun k => if Nat.eqb k i then j else if Nat.eqb k j then i else k). split.
    - intros a b. destruct (Nat.eqb_spec a i), (Nat.eqb_spec b i), (Nat.eqb_spec a j), (Nat.eqb_spec b j); lia.
    - intros k. destruct (Nat.eqb_spec k i) as [->|Ni].
      + rewrite set_same by now rewrite set_length. now rewrite D.
      + rewrite set_other by lia. destruct (Nat.eqb_spec k j) as [->|Nj].
        * now rewrite set_same, E.
        * now rewrite set_other by lia.
  Qed.

  Lemma words_ok word n k : forall i x l, length l = n ->
    exists i' l', shuffle_words word n k i x l = Done (i', l') /\ Permutation l l' /\ (i <= i')%nat.
  Proof.
    induction k as [|k IH]; intros i x l Ln; cbn [shuffle_words]; [eauto|].
    destruct (Nat.ltb_spec i n); [|eauto]. destruct (Z.eqb_spec (Z.of_nat n) 0); [lia|]. cbn [bind].
    assert (B : 0 <= word x mod Z.of_nat n < Z.of_nat n) by (apply Z.mod_pos_bound; lia).
    destruct (exchange_ok l i (Z.to_nat (word x mod Z.of_nat n))) as (l1 & X & P); [lia|lia|].
    rewrite X. cbn [bind]. destruct (IH (S i) (S x) l1) as (i' & l' & S' & P' & Le).
    { rewrite <- Ln. symmetry. now apply Permutation_length. }
    exists i', l'. split; [easy|]. split; [now transitivity l1|lia].
  Qed.
  Lemma rounds_ok hash seed n fuel : forall round i l, length l = n -> (n <= i + fuel)%nat ->
    exists l', shuffle_rounds hash seed n fuel round i l = Done l' /\ Permutation l l'.
  Proof.
    induction fuel as [|fuel IH]; intros round i l Ln Le; cbn [shuffle_rounds]; destruct (Nat.ltb_spec i n);
      try (now exists l); [lia|].
    destruct (words_ok (hash seed round) n 4 i 0 l Ln) as (i' & l1 & W & P & Li). rewrite W. cbn [bind fst snd].
    destruct (IH (S round) (S i') l1) as (l' & R & P'); [|lia|].
    { rewrite <- Ln. symmetry. now apply Permutation_length. }
    exists l'. split; [easy|]. now transitivity l1.
  Qed.
End Vector.

Section Duty.
  Context {A : Type}.
  Variable hash : Z -> nat -> nat -> Z.
  Variable r : rules.
  Hypothesis Se : sensible r.

  Lemma interval_pos h : 0 < interval r h.
  Proof. destruct Se as (_ & I & J & _). unfold interval. now destruct (h <? r_ver2 r). Qed.
  Lemma row_pos h : 0 < in_row r h.
  Proof. destruct Se as (_ & _ & _ & I & J). unfold in_row. now destruct (h <? r_ver3 r). Qed.
  Lemma quot_done a b : 0 < b -> quot a b = Done (a / b).
  Proof. intros B. unfold quot. destruct (Z.eqb_spec b 0); [lia|easy]. Qed.

  Definition origin (h t : Z) : Z := if h <? r_ver3 r then h else t / interval r h / in_row r h.
  Lemma origin_done h t : origin_seed r h t = Done (origin h t).
  Proof.
    unfold origin_seed, origin. destruct (h <? r_ver3 r); [easy|].
    rewrite (quot_done _ _ (interval_pos h)). cbn [bind]. apply quot_done. apply row_pos.
  Qed.
  Definition seed_of (n o : Z) : Z := o mod 2 ^ 64 / n + (if 0 <? (o mod 2 ^ 64) mod n then 1 else 0).
  Lemma shuffle_done (l : list A) h t : l <> [] ->
    shuffle hash r h t l
    = shuffle_rounds hash (seed_of (Z.of_nat (length l)) (origin h t)) (length l) (length l) 0 0 l.
  Proof.
    intros Nl. unfold shuffle. rewrite origin_done. cbn [bind]. cbn zeta.
    rewrite quot_done; [easy|]. destruct l; [easy|cbn [length]; lia].
  Qed.
  Lemma shuffle_ok (l : list A) h t : l <> [] -> exists l', shuffle hash r h t l = Done l' /\ Permutation l l'.
  Proof. intros Nl. rewrite shuffle_done by easy. now apply rounds_ok. Qed.

  Lemma current_done (l : list A) h t : l <> [] ->
    exists d, nth_error l (Z.to_nat ((t / interval r h / in_row r h) mod 2 ^ 32 mod Z.of_nat (length l))) = Some d
      /\ current r t h l = Done d.
  Proof.
    intros Nl. unfold current. rewrite (quot_done _ _ (interval_pos h)). cbn [bind].
    rewrite (quot_done _ _ (row_pos h)). cbn [bind].
    assert (Ln : (0 < length l)%nat) by (destruct l; [easy|cbn; lia]).
    destruct (Z.eqb_spec (Z.of_nat (length l)) 0); [lia|]. unfold at_index.
    pose proof (Z.mod_pos_bound ((t / interval r h / in_row r h) mod 2 ^ 32) (Z.of_nat (length l))).
    destruct (nth_error l _) as [d|] eqn:E; [eauto|]. apply nth_error_None in E. lia.
  Qed.
  Lemma duty_ok (l : list A) h t : l <> [] -> exists d, on_duty hash r h t l = Done d /\ In d l.
  Proof.
    intros Nl. unfold on_duty. destruct (shuffle_ok l h t Nl) as (l1 & S & P). rewrite S. cbn [bind].
    assert (N1 : l1 <> []) by (intros ->; apply Nl; now apply Permutation_sym, Permutation_nil in P).
    destruct (current_done l1 h t N1) as (d & Nt & C). exists d. split; [easy|].
    apply (Permutation_in d (Permutation_sym P)). now apply nth_error_In in Nt.
  Qed.

  (** All slots of a round have the same seed. *)
  Lemma seed_round n k j : 0 < n -> 0 <= k -> 0 <= j < n -> k * n + 1 + j < 2 ^ 64 ->
    seed_of n (k * n + 1 + j) = k + 1.
  Proof.
    intros Pn Pk Hj Lt. unfold seed_of. rewrite Z.mod_small by (split; [nia|easy]).
    destruct (Z.eq_dec (1 + j) n) as [E|D].
    - replace (k * n + 1 + j) with ((k + 1) * n) by nia. rewrite Z.div_mul, Z.mod_mul by lia. cbn [Z.ltb Z.compare]. lia.
    - replace (k * n + 1 + j) with (1 + j + k * n) by ring. rewrite Z.div_add, Z.mod_add by lia.
      rewrite Z.div_small, Z.mod_small by lia. destruct (Z.ltb_spec 0 (1 + j)); lia.
  Qed.
  Lemma index_round n k j : 0 < n -> 0 <= k -> 0 <= j < n -> k * n + 1 + j < 2 ^ 32 ->
    (k * n + 1 + j) mod 2 ^ 32 mod n = if 1 + j =? n then 0 else 1 + j.
  Proof.
    intros Pn Pk Hj Lt. rewrite (Z.mod_small _ (2 ^ 32)) by (split; [nia|easy]).
    destruct (Z.eqb_spec (1 + j) n) as [E|D].
    - replace (k * n + 1 + j) with ((k + 1) * n) by nia. now rewrite Z.mod_mul by lia.
    - replace (k * n + 1 + j) with (1 + j + k * n) by ring. rewrite Z.mod_add by lia. apply Z.mod_small. lia.
  Qed.
  Lemma slot_split h t : r_ver3 r <= h -> t / interval r h / in_row r h = slot r t.
  Proof.
    intros H. destruct Se as (V & _ & I & _ & R). unfold interval, in_row, slot.
    destruct (Z.ltb_spec h (r_ver2 r)); [lia|]. destruct (Z.ltb_spec h (r_ver3 r)); [lia|].
    now rewrite Z.div_div by lia.
  Qed.
  Lemma slot_range t : 0 <= t < 2 ^ 32 -> 0 <= slot r t < 2 ^ 32.
  Proof.
    intros T. destruct Se as (_ & _ & I & _ & R). unfold slot.
    split; [apply Z.div_pos; nia|]. apply Z.le_lt_trans with (t / 1); [|now rewrite Z.div_1_r].
    apply Z.div_le_compat_l; nia.
  Qed.

  (** The list of a round, in the order of duty. *)
  Lemma round_list (l : list A) k : l <> [] -> exists l',
    (exists x l1, shuffle_rounds hash (k + 1) (length l) (length l) 0 0 l = Done (x :: l1) /\ l' = l1 ++ [x])
    /\ Permutation l l'.
  Proof.
    intros Nl. destruct (rounds_ok hash (k + 1) (length l) (length l) 0 0 l eq_refl) as (l1 & S1 & P); [lia|].
    destruct l1 as [|x l1].
    { exfalso. apply Permutation_sym, Permutation_nil in P. easy. }
    exists (l1 ++ [x]). split; [eauto|]. rewrite P. apply Permutation_cons_append.
  Qed.
  Lemma slot_duty (l : list A) k h t j : l <> [] -> 0 <= k -> (j < length l)%nat -> r_ver3 r <= h -> 0 <= t < 2 ^ 32 ->
    slot r t = k * Z.of_nat (length l) + 1 + Z.of_nat j ->
    forall l', (exists x l1, shuffle_rounds hash (k + 1) (length l) (length l) 0 0 l = Done (x :: l1) /\ l' = l1 ++ [x]) ->
    exists d, nth_error l' j = Some d /\ on_duty hash r h t l = Done d.
  Proof.
    intros Nl Pk Hj V T Sl l' (x & l1 & S1 & ->). set (n := Z.of_nat (length l)) in *.
    assert (Pn : 0 < n) by (destruct l; [easy|subst n; cbn; lia]).
    destruct (rounds_ok hash (k + 1) (length l) (length l) 0 0 l eq_refl) as (l2 & S2 & P); [lia|].
    rewrite S1 in S2. injection S2 as <-.
    assert (L1 : length (x :: l1) = length l) by (symmetry; now apply Permutation_length).
    pose proof (slot_range _ T) as Sr. rewrite Sl in Sr.
    unfold on_duty. rewrite shuffle_done by easy. fold n.
    assert (O : origin h t = k * n + 1 + Z.of_nat j).
    { unfold origin. destruct (Z.ltb_spec h (r_ver3 r)); [lia|]. now rewrite slot_split. }
    rewrite O, seed_round by lia. rewrite S1. cbn [bind].
    destruct (current_done (x :: l1) h t) as (d & Nt & C); [easy|]. exists d. split; [|easy].
    rewrite slot_split, Sl, L1 in Nt by easy. fold n in Nt. rewrite index_round in Nt by lia.
    destruct (Z.eqb_spec (1 + Z.of_nat j) n) as [E|D].
    - cbn in Nt. cbn [length] in L1. rewrite nth_error_app2 by lia. replace (j - length l1)%nat with 0%nat by lia. easy.
    - replace (Z.to_nat (1 + Z.of_nat j)) with (S j) in Nt by lia. cbn [nth_error] in Nt. cbn [length] in L1.
      now rewrite nth_error_app1 by lia.
  Qed.
  Lemma round_ok (l : list A) k (hs ts : nat -> Z) : l <> [] -> 0 <= k ->
    (forall j, (j < length l)%nat -> r_ver3 r <= hs j /\ 0 <= ts j < 2 ^ 32
       /\ slot r (ts j) = k * Z.of_nat (length l) + 1 + Z.of_nat j) ->
    exists l', Permutation l l'
      /\ forall j, (j < length l)%nat -> exists d, nth_error l' j = Some d /\ on_duty hash r (hs j) (ts j) l = Done d.
  Proof.
    intros Nl Pk H. destruct (round_list l k Nl) as (l' & Rl & P). exists l'. split; [easy|].
    intros j Hj. destruct (H j Hj) as (V & T & Sl). now apply (slot_duty l k).
  Qed.

  (** At most so many blocks in a slot as a producer makes in a row. *)
  Lemma spaced_span l : forall t, spaced r (t :: l) -> forall t', In t' (t :: l) -> t <= t'.
  Proof.
    destruct Se as (_ & _ & I & _). induction l as [|u l IH]; intros t S t' [<-|In']; try lia; [easy|].
    inversion S as [| |? ? ? Le S']; subst. specialize (IH u S' t' In'). lia.
  Qed.
  Lemma spaced_tail t l : spaced r (t :: l) -> spaced r l.
  Proof. inversion 1; subst; [constructor|easy]. Qed.
  Lemma spaced_count l : forall t, spaced r (t :: l) -> forall bound,
    Forall (fun t' => t' < bound) (t :: l) -> t + r_interval r * Z.of_nat (length l) < bound.
  Proof.
    induction l as [|u l IH]; intros t S bound F.
    - inversion F; subst. cbn. lia.
    - inversion S as [| |? ? ? Le S']; subst. inversion F as [|? ? _ F']; subst.
      specialize (IH u S' bound F'). cbn [length]. rewrite Nat2Z.inj_succ. nia.
  Qed.
  (** The blocks of one slot are spaced too. *)
  Lemma spaced_lower t : forall l, (forall u, hd_error l = Some u -> t + r_interval r <= u) -> spaced r l -> spaced r (t :: l).
  Proof. intros [|u l] H S; [constructor|]. constructor; [now apply H|easy]. Qed.
  Lemma spaced_filter f l : spaced r l -> spaced r (filter f l).
  Proof.
    induction l as [|t l IH]; intros S; [constructor|]. cbn [filter]. pose proof (spaced_tail _ _ S) as S'.
    destruct (f t); [|now apply IH]. apply spaced_lower; [|now apply IH]. intros u U.
    destruct l as [|v l]; [discriminate|]. inversion S as [| |? ? ? Le _]; subst.
    assert (In u (v :: l)).
    { destruct (filter f (v :: l)) as [|w m] eqn:E; [discriminate|]. injection U as <-.
      apply (filter_In f). rewrite E. now left. }
    pose proof (spaced_span l v S' u H). lia.
  Qed.
  Lemma slot_count l s : spaced r l ->
    Z.of_nat (length (filter (fun t => slot r t =? s) l)) <= r_row r.
  Proof.
    intros S. apply (spaced_filter (fun t => slot r t =? s)) in S. destruct Se as (_ & _ & I & _ & R).
    set (m := filter _ l) in *.
    assert (F : Forall (fun t => slot r t = s) m).
    { apply Forall_forall. intros t In'. apply filter_In in In'. now apply Z.eqb_eq. }
    destruct m as [|t m']; [cbn; lia|].
    assert (Lo : s * (r_interval r * r_row r) <= t).
    { inversion F as [|? ? E _]; subst. unfold slot. rewrite Z.mul_comm. apply Z.mul_div_le. nia. }
    assert (Hi : Forall (fun t' => t' < (s + 1) * (r_interval r * r_row r)) (t :: m')).
    { eapply Forall_impl; [|exact F]. intros a E. cbn beta in E. subst s. unfold slot.
      pose proof (Z.mul_succ_div_gt a (r_interval r * r_row r)). nia. }
    pose proof (spaced_count m' t S _ Hi) as X. cbn [length]. rewrite Nat2Z.inj_succ.
    assert (r_interval r * Z.of_nat (length m') < r_interval r * r_row r) by nia.
    assert (Z.of_nat (length m') < r_row r) by nia. lia.
  Qed.
End Duty.

(** ** From votes to producers *)
Lemma vds_eqb_true a : forall b, vds_eqb a b = true -> a = b.
Proof.
  induction a as [|[x v] a IH]; intros [|[y u] b] H; try discriminate; [easy|]. cbn in H.
  apply andb_true_iff in H. destruct H as [H R]. apply andb_true_iff in H. destruct H as [X V].
  apply N.eqb_eq in X, V. rewrite (IH b R). congruence.
Qed.
Lemma pstate_is_true a b : pstate_is a b = true <-> a = b.
Proof. destruct a, b; cbn; split; congruence. Qed.

Lemma top_front r3 least n : forall l, exists rest, l = top_of r3 n least l ++ rest
  /\ (length (top_of r3 n least l) <= n)%nat
  /\ (r3 = true -> forall x, In x (top_of r3 n least l) -> (least <= snd x)%N)
  /\ (length (top_of r3 n least l) = n
      \/ rest = []
      \/ exists x rest', rest = x :: rest' /\ r3 = true /\ (snd x < least)%N).
Proof.
  induction n as [|n IH]; intros l.
  - exists l. cbn. split; [now destruct l|]. split; [lia|]. split; [easy|now left].
  - destruct l as [|x l]; cbn [top_of]; [exists []; cbn; repeat split; try easy; try lia; now right; left|].
    destruct (r3 && (snd x <? least)%N) eqn:E.
    + apply andb_true_iff in E. destruct E as [-> E]. exists (x :: l). cbn. split; [easy|]. split; [lia|].
      split; [easy|]. right. right. exists x, l. split; [easy|]. split; [easy|lia].
    + destruct (IH l) as (rest & E1 & E2 & E3 & E4). exists rest. cbn [app length].
      split; [now rewrite <- E1|]. split; [lia|]. split.
      * intros -> y [<-|I]; [|now apply E3]. cbn in E. lia.
      * destruct E4 as [E4|E4]; [left; lia|now right].
Qed.
Lemma top_elected r t : elected r t (top_votes (r_ver3 r <=? t_height t) t).
Proof.
  unfold elected, top_votes.
  destruct (top_front (r_ver3 r <=? t_height t) (t_min t) (N.to_nat (t_number t)) (t_ranking t)) as (rest & A & B & C & D).
  exists rest. split; [easy|]. split; [easy|]. split; [intros X; apply C; lia|].
  destruct D as [D|[D|(x & rest' & D1 & D2 & D3)]]; [now left|right; now left|right; right].
  exists x, rest'. split; [easy|]. split; [lia|easy].
Qed.

Section Votes.
  Variable r : rules.

  (** Where a list comes from: a block of the history that counted it. *)
  Definition from (ts : list tally) (h : Z) (l : list (N * N)) : Prop :=
    exists t, In t ts /\ t_height t = h /\ elected r t l.
  Lemma from_more ts t h l : from ts h l -> from (t :: ts) h l.
  Proof. intros (u & I & E). exists u. split; [now right|easy]. Qed.

  Definition waits (h : Z) : Z := if r_ver3 r <=? h then 100 else 0.
  Hypothesis V3 : 0 < r_ver3 r.

  Record inv (ts : list tally) (s : lists) : Prop := {
    iv_pend : p_state (l_pending s) = PPending ->
      from ts (p_counted (l_pending s)) (p_top (l_pending s)) /\ p_top (l_pending s) <> []
      /\ r_ver3 r <= p_counted (l_pending s) /\ p_counted (l_pending s) mod 100 = 0
      /\ Z.of_nat (length ts) <= p_counted (l_pending s) + 100;
    iv_counted : 0 <= p_counted (l_pending s) /\ (ts <> [] -> p_counted (l_pending s) < Z.of_nat (length ts));
    iv_none : p_state (l_pending s) = PNone -> ts = [] /\ s = no_lists;
    iv_start : ts = [] -> s = no_lists;
    iv_done : p_state (l_pending s) = PActivated -> p_top (l_pending s) = l_active s;
    iv_active : l_active s = [] \/ exists h a, from ts h (l_active s) /\ h + waits a <= a < Z.of_nat (length ts) }.

  (** What counting does. *)
  Definition top_now (t : tally) := top_votes (r_ver3 r <=? t_height t) t.
  Lemma gen_cases t active p : let p1 := gen_pending (r_ver3 r <=? t_height t) t active p in
    p_counted p1 = t_height t
    /\ ((p_state p1 = p_state p /\ p_top p1 = p_top p /\ top_now t = [])
        \/ (p_state p1 = p_state p /\ p_top p1 = active /\ top_now t = active /\ active <> [])
        \/ (p_state p1 = PPending /\ p_top p1 = top_now t /\ top_now t <> [] /\ (active <> [] -> top_now t <> active))).
  Proof.
    unfold gen_pending, top_now. set (top := top_votes _ t). destruct top as [|x top'] eqn:E; cbn zeta.
    { split; [easy|]. now left. }
    destruct (negb (Nat.eqb (length active) 0) && vds_eqb (x :: top') active) eqn:C; cbn [p_counted p_state p_top].
    - split; [easy|]. right. left. apply andb_true_iff in C. destruct C as [_ C]. apply vds_eqb_true in C. subst active. easy.
    - split; [easy|]. right. right. split; [easy|]. split; [easy|]. split; [easy|]. intros Na X. rewrite X in C.
      destruct active as [|y active]; [easy|]. cbn [length Nat.eqb negb andb] in C.
      assert (Rf : forall l, vds_eqb l l = true).
      { induction l as [|[a b] l IH]; [easy|]. cbn. now rewrite !N.eqb_refl, IH. }
      now rewrite Rf in C.
  Qed.
  Lemma now_from ts t : from (t :: ts) (t_height t) (top_now t).
  Proof. exists t. split; [now left|]. split; [easy|]. apply top_elected. Qed.

  (** The cases of a block, from the third release on and before. *)
  Definition counting (t : tally) (s : lists) : bool :=
    (p_counted (l_pending s) =? 0) || (p_counted (l_pending s) <? t_last t)
    || negb (N.of_nat (length (l_active s)) =? t_number t)%N.
  Lemma process_new t s : r_ver3 r <= t_height t -> process_delegates r t s =
    let p1 := if negb (pstate_is (p_state (l_pending s)) PPending) && (t_height t mod 100 =? 0) && counting t s
              then gen_pending (r_ver3 r <=? t_height t) t (l_active s) (l_pending s) else l_pending s in
    if negb (pstate_is (p_state p1) PActivated) && (100 <=? (t_height t - p_counted p1) mod 2 ^ 32)
    then mkLists (mkPending PActivated (p_counted p1) (p_top p1)) (p_top p1) else mkLists p1 (l_active s).
  Proof.
    intros H. unfold process_delegates, counting, count_interval, activate_delay. cbn zeta.
    destruct (Z.leb_spec (r_ver3 r) (t_height t)); [|lia]. easy.
  Qed.
  Lemma process_old t s : t_height t < r_ver3 r -> process_delegates r t s =
    let p1 := if negb (pstate_is (p_state (l_pending s)) PPending) && counting t s
              then gen_pending (r_ver3 r <=? t_height t) t (l_active s) (l_pending s) else l_pending s in
    if negb (pstate_is (p_state p1) PActivated)
    then mkLists (mkPending PActivated (p_counted p1) (p_top p1)) (p_top p1) else mkLists p1 (l_active s).
  Proof.
    intros H. unfold process_delegates, counting, count_interval, activate_delay. cbn zeta.
    destruct (Z.leb_spec (r_ver3 r) (t_height t)); [lia|]. cbn [Z.eqb orb]. rewrite !andb_true_r.
    match goal with |- context [0 <=? ?x mod ?y] => pose proof (Z.mod_pos_bound x y ltac:(lia)) as B end.
    match goal with |- context [0 <=? ?x] => destruct (Z.leb_spec 0 x) end; [|lia]. now rewrite andb_true_r.
  Qed.

  Lemma step_inv ts t s : inv ts s -> t_height t = Z.of_nat (length ts) -> inv (t :: ts) (process_delegates r t s).
  Proof.
    intros [Ip Ic In' Is Id Ia] Ht.
    assert (Ia' : l_active s = [] \/ exists h a, from (t :: ts) h (l_active s) /\ h + waits a <= a < Z.of_nat (length (t :: ts))).
    { destruct Ia as [Ia|(h & a & F & L)]; [now left|]. right. exists h, a. split; [now apply from_more|].
      cbn [length]. lia. }
    destruct (Z.lt_ge_cases (t_height t) (r_ver3 r)) as [Lt|Ge].
    - rewrite process_old by easy. cbn zeta.
      assert (Np : p_state (l_pending s) <> PPending).
      { intros X. destruct (Ip X) as (_ & _ & B & _ & _).
        destruct ts as [|t0 ts]; [cbn in Ht; destruct Ic; specialize (Ip X); destruct Ip as ((u & Iu & _) & _); destruct Iu|].
        destruct Ic as [_ Ic]. specialize (Ic ltac:(easy)). lia. }
      set (b := negb _ && counting t s).
      set (p1 := if b then _ else _).
      assert (X : (p_counted p1 = p_counted (l_pending s) \/ p_counted p1 = t_height t)
                  /\ (p_state p1 = PActivated -> p_top p1 = l_active s)
                  /\ (p_state p1 <> PActivated -> p_top p1 = [] \/ from (t :: ts) (t_height t) (p_top p1))).
      { subst p1. destruct b eqn:B.
        - pose proof (gen_cases t (l_active s) (l_pending s)) as G. cbn zeta in G. destruct G as (G1 & G2).
          split; [now right|]. destruct G2 as [(A1 & A2 & A3)|[(A1 & A2 & A3 & A4)|(A1 & A2 & A3 & A4)]].
          + split; [rewrite A1, A2; exact Id|]. intros Y. left. rewrite A2. rewrite A1 in Y.
            destruct (p_state (l_pending s)) eqn:Ps; [|easy|easy]. destruct (In' eq_refl) as (_ & ->). reflexivity.
          + split; [easy|]. intros _. right. rewrite A2, <- A3. apply now_from.
          + split; [rewrite A1; discriminate|]. intros _. right. rewrite A2. apply now_from.
        - split; [now left|]. split; [exact Id|]. intros Y. destruct (p_state (l_pending s)) eqn:Ps; [|easy|easy].
          destruct (In' eq_refl) as (-> & ->). now left. }
      destruct X as (Xc & Xd & Xp).
      assert (Bc : 0 <= p_counted p1 < Z.of_nat (length (t :: ts))).
      { cbn [length]. destruct Ic as [Ic1 Ic2]. destruct Xc as [-> | ->]; [|lia].
        destruct ts as [|t0 ts0].
        - rewrite (Is eq_refl). cbn. lia.
        - specialize (Ic2 ltac:(easy)). lia. }
      destruct (negb (pstate_is (p_state p1) PActivated)) eqn:E.
      + apply negb_true_iff in E.
        assert (E' : p_state p1 <> PActivated) by (intros Z; apply pstate_is_true in Z; congruence).
        constructor; cbn [l_pending l_active p_state p_counted p_top]; try discriminate; try easy.
        destruct (Xp E') as [->|F]; [now left|]. right. exists (t_height t), (t_height t). split; [easy|].
        unfold waits. destruct (Z.leb_spec (r_ver3 r) (t_height t)); [lia|]. cbn [length]. lia.
      + apply negb_false_iff in E. apply pstate_is_true in E.
        constructor; cbn [l_pending l_active]; rewrite ?E; try discriminate; try easy.
        intros _. now apply Xd.
    - rewrite process_new by easy. cbn zeta.
      destruct ts as [|t0 ts0] eqn:Ets; [cbn in Ht; lia|]. rewrite <- Ets in *.
      assert (Nts : ts <> []) by (rewrite Ets; easy). destruct Ic as [Ic1 Ic2]. specialize (Ic2 Nts). clear Ets t0 ts0.
      destruct (p_state (l_pending s)) eqn:Ps.
      { destruct (In' eq_refl). now elim Nts. }
      + (* pending *)
        cbn [pstate_is negb andb]. rewrite Ps. cbn [pstate_is negb andb].
        destruct (Ip eq_refl) as (F & Nt & B & M & L).
        rewrite Z.mod_small by lia.
        destruct (Z.leb_spec 100 (t_height t - p_counted (l_pending s))).
        * constructor; cbn [l_pending l_active p_state p_counted p_top]; try discriminate; try easy.
          { cbn [length]. lia. }
          right. exists (p_counted (l_pending s)), (t_height t). split; [now apply from_more|].
          unfold waits. destruct (Z.leb_spec (r_ver3 r) (t_height t)); [|lia]. cbn [length]. lia.
        * constructor; cbn [l_pending l_active]; rewrite ?Ps; try discriminate; try easy.
          { intros _. split; [now apply from_more|]. split; [easy|]. split; [easy|]. split; [easy|]. cbn [length]. lia. }
          { cbn [length]. lia. }
      + (* activated *)
        cbn [pstate_is negb andb]. specialize (Id eq_refl).
        destruct ((t_height t mod 100 =? 0) && counting t s) eqn:B.
        * apply andb_true_iff in B. destruct B as [B _]. apply Z.eqb_eq in B.
          pose proof (gen_cases t (l_active s) (l_pending s)) as G. cbn zeta in G. destruct G as (G1 & G2).
          set (p1 := gen_pending _ t (l_active s) (l_pending s)) in *.
          destruct G2 as [(A1 & A2 & A3)|[(A1 & A2 & A3 & A4)|(A1 & A2 & A3 & A4)]].
          1,2: rewrite A1, Ps; cbn [pstate_is negb andb];
            constructor; cbn [l_pending l_active]; rewrite ?A1, ?Ps; try discriminate; try easy;
            try congruence; rewrite G1; cbn [length]; lia.
          rewrite A1, G1. cbn [pstate_is negb andb]. rewrite Z.sub_diag. cbn [Z.modulo Z.div_eucl Z.leb Z.compare].
          change (100 <=? 0 mod 2 ^ 32) with false. cbn [andb].
          constructor; cbn [l_pending l_active]; rewrite ?A1, ?G1; try discriminate; try easy.
          { intros _. rewrite A2. split; [apply now_from|]. split; [easy|]. split; [easy|]. split; [easy|]. cbn [length]. lia. }
          { cbn [length]. lia. }
        * rewrite Ps. cbn [pstate_is negb andb].
          constructor; cbn [l_pending l_active]; rewrite ?Ps; try discriminate; try easy.
          cbn [length]. lia.
  Qed.
  Lemma counted_inv ts s : counted_to r ts s -> inv ts s.
  Proof.
    induction 1 as [|ts t s C IH Ht].
    - constructor; cbn; try discriminate; try easy. now left.
    - now apply step_inv.
  Qed.

  (** The list in force changes at multiples of 100 only. *)
  Lemma stable ts s t : counted_to r ts s -> t_height t = Z.of_nat (length ts) -> r_ver3 r <= t_height t ->
    l_active (process_delegates r t s) <> l_active s -> t_height t mod 100 = 0.
  Proof.
    intros C Ht V. pose proof (counted_inv ts s C) as [Ip Ic In' Is Id Ia]. rewrite process_new by easy. cbn zeta.
    assert (Nts : ts <> []) by (intros ->; cbn in Ht; lia). destruct Ic as [Ic1 Ic2]. specialize (Ic2 Nts).
    destruct (p_state (l_pending s)) eqn:Ps.
    { destruct (In' eq_refl). now elim Nts. }
    - cbn [pstate_is negb andb]. rewrite Ps. cbn [pstate_is negb andb].
      destruct (Ip eq_refl) as (F & Nt & B & M & L). rewrite Z.mod_small by lia.
      destruct (Z.leb_spec 100 (t_height t - p_counted (l_pending s))); [|easy]. intros _.
      assert (E : t_height t = p_counted (l_pending s) + 1 * 100) by lia. now rewrite E, Z.mod_add.
    - cbn [pstate_is negb andb]. destruct (Z.eqb_spec (t_height t mod 100) 0); [easy|]. cbn [andb]. rewrite Ps.
      cbn [pstate_is negb andb]. easy.
  Qed.

  (** A list that comes into force was elected some time before. *)
  Lemma changed ts s t : counted_to r ts s -> t_height t = Z.of_nat (length ts) ->
    l_active (process_delegates r t s) <> l_active s ->
    l_active (process_delegates r t s) <> []
    /\ exists t', In t' (t :: ts) /\ elected r t' (l_active (process_delegates r t s))
      /\ t_height t' + waits (t_height t) <= t_height t.
  Proof.
    intros C Ht. pose proof (counted_inv ts s C) as [Ip Ic In' Is Id Ia]. unfold waits.
    destruct (Z.lt_ge_cases (t_height t) (r_ver3 r)) as [Lt|Ge].
    - rewrite process_old by easy. cbn zeta. destruct (Z.leb_spec (r_ver3 r) (t_height t)); [lia|].
      assert (Np : p_state (l_pending s) <> PPending).
      { intros X. destruct (Ip X) as (_ & _ & B & _ & _).
        destruct ts as [|t0 ts]; [rewrite (Is eq_refl) in X; discriminate X|].
        destruct Ic as [_ Ic]. specialize (Ic ltac:(easy)). lia. }
      set (b := negb _ && counting t s). destruct b eqn:B.
      + pose proof (gen_cases t (l_active s) (l_pending s)) as G. cbn zeta in G. destruct G as (G1 & G2).
        destruct (Z.leb_spec (r_ver3 r) (t_height t)) in G1, G2; [lia|].
        set (p1 := gen_pending _ t (l_active s) (l_pending s)) in *.
        destruct G2 as [(A1 & A2 & A3)|[(A1 & A2 & A3 & A4)|(A1 & A2 & A3 & A4)]].
        * rewrite A1. destruct (negb (pstate_is (p_state (l_pending s)) PActivated)) eqn:E; cbn [l_active]; [|easy]. rewrite A2.
          destruct (p_state (l_pending s)) eqn:Ps; [destruct (In' eq_refl) as (_ & ->); easy| |easy].
          now elim Np.
        * rewrite A1. destruct (negb (pstate_is (p_state (l_pending s)) PActivated)) eqn:E; cbn [l_active]; [|easy]. rewrite A2. easy.
        * rewrite A1. cbn [pstate_is negb l_active]. rewrite A2. intros _. split; [easy|].
          destruct (now_from ts t) as (u & I1 & I2 & I3). exists u. split; [easy|]. split; [easy|]. lia.
      + destruct (negb (pstate_is (p_state (l_pending s)) PActivated)) eqn:E; cbn [l_active]; [|easy].
        destruct (p_state (l_pending s)) eqn:Ps; [destruct (In' eq_refl) as (_ & ->); easy| |discriminate E].
        now elim Np.
    - rewrite process_new by easy. cbn zeta. destruct (Z.leb_spec (r_ver3 r) (t_height t)); [|lia].
      assert (Nts : ts <> []) by (intros ->; cbn in Ht; lia). destruct Ic as [Ic1 Ic2]. specialize (Ic2 Nts).
      destruct (p_state (l_pending s)) eqn:Ps.
      { destruct (In' eq_refl). now elim Nts. }
      + cbn [pstate_is negb andb]. rewrite Ps. cbn [pstate_is negb andb].
        destruct (Ip eq_refl) as (F & Nt & B & M & L). rewrite Z.mod_small by lia.
        destruct (Z.leb_spec 100 (t_height t - p_counted (l_pending s))); [|easy]. cbn [l_active]. intros _.
        split; [easy|]. destruct F as (u & I1 & I2 & I3). exists u. split; [now right|]. split; [easy|]. lia.
      + cbn [pstate_is negb andb]. destruct ((t_height t mod 100 =? 0) && counting t s) eqn:B.
        * pose proof (gen_cases t (l_active s) (l_pending s)) as G. cbn zeta in G. destruct G as (G1 & G2).
          destruct (Z.leb_spec (r_ver3 r) (t_height t)) in G1, G2; [|lia].
          set (p1 := gen_pending _ t (l_active s) (l_pending s)) in *.
          destruct G2 as [(A1 & A2 & A3)|[(A1 & A2 & A3 & A4)|(A1 & A2 & A3 & A4)]]; rewrite A1, ?Ps;
            cbn [pstate_is negb andb]; [easy|easy|].
          rewrite G1, Z.sub_diag. change (100 <=? 0 mod 2 ^ 32) with false. easy.
        * rewrite Ps. cbn [pstate_is negb andb]. easy.
  Qed.

  (** ** New votes lead to a new list *)
  Section Settle.
    Variables (R : list (N * N)) (n m : N) (v : Z).
    Definition steady (t : tally) : Prop :=
      t_ranking t = R /\ t_number t = n /\ t_min t = m /\ t_last t = v.
    Definition goal := top_of true (N.to_nat n) m R.
    Hypothesis Ng : goal <> [].
    Hypothesis Vv : r_ver3 r <= v.

    Inductive phase (h : Z) (s : lists) : Prop :=
    | ph_old : p_state (l_pending s) = PPending -> p_counted (l_pending s) < v ->
        p_counted (l_pending s) < h <= p_counted (l_pending s) + 100 -> p_counted (l_pending s) mod 100 = 0 -> phase h s
    | ph_act q : p_state (l_pending s) = PActivated -> p_counted (l_pending s) < v -> q mod 100 = 0 ->
        q - 100 < h <= q -> q < v + 200 -> phase h s
    | ph_new : p_state (l_pending s) = PPending -> p_top (l_pending s) = goal -> p_counted (l_pending s) < v + 200 ->
        p_counted (l_pending s) < h <= p_counted (l_pending s) + 100 -> phase h s
    | ph_done : p_state (l_pending s) = PActivated -> p_top (l_pending s) = goal -> l_active s = goal -> phase h s.

    Lemma steady_top t : steady t -> v <= t_height t -> top_now t = goal.
    Proof.
      intros (E1 & E2 & E3 & E4) H. unfold top_now, top_votes, goal.
      destruct (Z.leb_spec (r_ver3 r) (t_height t)); [|lia]. congruence.
    Qed.
    Lemma phase_step t s : steady t -> v <= t_height t -> phase (t_height t) s ->
      phase (t_height t + 1) (process_delegates r t s).
    Proof.
      intros St H Ph. rewrite process_new by lia. cbn zeta. pose proof (steady_top t St H) as Tp.
      destruct Ph as [Ps C B M|q Ps C M B Q|Ps Tg C B|Ps Tg Ac].
      - rewrite Ps. cbn [pstate_is negb andb]. rewrite Ps. cbn [pstate_is negb andb].
        rewrite Z.mod_small by lia. destruct (Z.leb_spec 100 (t_height t - p_counted (l_pending s))).
        + apply ph_act with (p_counted (l_pending s) + 2 * 100); cbn [l_pending p_state p_counted]; try easy; try lia.
        + apply ph_old; cbn [l_pending]; try easy; lia.
      - rewrite Ps. cbn [pstate_is negb andb].
        destruct (Z.eqb_spec (t_height t mod 100) 0) as [E|E]; cbn [andb].
        + assert (t_height t = q).
          { destruct (Z.eq_dec (t_height t) q) as [|D]; [easy|]. exfalso.
            pose proof (Z.div_mod (t_height t) 100). pose proof (Z.div_mod q 100). lia. }
          assert (Cn : counting t s = true).
          { unfold counting. destruct St as (_ & _ & _ & E4). rewrite E4.
            destruct (Z.ltb_spec (p_counted (l_pending s)) v); [|lia]. now rewrite orb_true_r. }
          rewrite Cn. pose proof (gen_cases t (l_active s) (l_pending s)) as G. cbn zeta in G. destruct G as (G1 & G2).
          set (p1 := gen_pending _ t (l_active s) (l_pending s)) in *.
          destruct G2 as [(A1 & A2 & A3)|[(A1 & A2 & A3 & A4)|(A1 & A2 & A3 & A4)]].
          * exfalso. congruence.
          * rewrite A1, Ps. cbn [pstate_is negb andb]. apply ph_done; cbn [l_pending l_active]; congruence.
          * rewrite A1, G1. cbn [pstate_is negb andb]. rewrite Z.sub_diag. change (100 <=? 0 mod 2 ^ 32) with false.
            apply ph_new; cbn [l_pending]; rewrite ?A1, ?A2, ?G1; try easy; lia.
        + rewrite Ps. cbn [pstate_is negb andb]. apply ph_act with q; cbn [l_pending]; try easy; try lia.
      - rewrite Ps. cbn [pstate_is negb andb]. rewrite Ps. cbn [pstate_is negb andb].
        rewrite Z.mod_small by lia. destruct (Z.leb_spec 100 (t_height t - p_counted (l_pending s))).
        + now apply ph_done.
        + apply ph_new; cbn [l_pending]; try easy; lia.
      - rewrite Ps. cbn [pstate_is negb andb].
        destruct ((t_height t mod 100 =? 0) && counting t s).
        + pose proof (gen_cases t (l_active s) (l_pending s)) as G. cbn zeta in G. destruct G as (G1 & G2).
          set (p1 := gen_pending _ t (l_active s) (l_pending s)) in *.
          destruct G2 as [(A1 & A2 & A3)|[(A1 & A2 & A3 & A4)|(A1 & A2 & A3 & A4)]].
          * exfalso. congruence.
          * rewrite A1, Ps. cbn [pstate_is negb andb]. apply ph_done; cbn [l_pending l_active]; congruence.
          * exfalso. apply A4; congruence.
        + rewrite Ps. cbn [pstate_is negb andb]. now apply ph_done.
    Qed.
    Lemma settle ts1 ts2 s : counted_to r (ts2 ++ ts1) s -> Z.of_nat (length ts1) = v ->
      (forall t, In t ts2 -> steady t) -> phase (Z.of_nat (length (ts2 ++ ts1))) s.
    Proof.
      intros C L1. revert s C. induction ts2 as [|t ts2 IH]; intros s C A; cbn [app] in *.
      - pose proof (counted_inv _ _ C) as [Ip Ic In' Is Id Ia]. rewrite L1.
        assert (Nts : ts1 <> []) by (intros ->; cbn in L1; lia). destruct Ic as [Ic1 Ic2]. specialize (Ic2 Nts).
        destruct (p_state (l_pending s)) eqn:Ps.
        + destruct (In' eq_refl). now elim Nts.
        + destruct (Ip eq_refl) as (F & Nt & B & M & L). apply ph_old; try easy; lia.
        + apply ph_act with ((v + 99) / 100 * 100); try easy; try lia.
      - inversion C as [|ts t' s0 C0 Ht E1]; subst. cbn [length]. rewrite Nat2Z.inj_succ. unfold Z.succ. rewrite <- Ht.
        apply phase_step.
        + apply A. now left.
        + rewrite Ht, app_length. lia.
        + rewrite Ht. apply IH; [easy|]. intros t' I. apply A. now right.
    Qed.
    Lemma settled ts1 ts2 s : counted_to r (ts2 ++ ts1) s -> Z.of_nat (length ts1) = v -> (300 <= length ts2)%nat ->
      (forall t, In t ts2 -> steady t) -> l_active s = goal.
    Proof.
      intros C L1 L2 A. pose proof (settle ts1 ts2 s C L1 A) as Ph. rewrite app_length in Ph.
      destruct Ph; [lia|lia|lia|easy].
    Qed.
  End Settle.
End Votes.

(** ** Blocks and the producer on duty *)
Section Mined.
  Context {Uid : Type}.
  Variables (hash : Z -> nat -> nat -> Z) (signed : N -> N -> N -> bool) (r : rules) (l : list N).
  Hypothesis Se : sensible r.
  Notation mined := (@mined Uid hash signed r l).

  Lemma mined_fact prev bs : mined prev bs -> forall b d, In (b, d) bs ->
    on_duty hash r (b_height b) (b_time b) l = Done d /\ l <> []
    /\ exists key, signed (b_hash b) (b_sig b) key = true.
  Proof.
    induction 1 as [|prev by_reg by_uid first b a bs Ro T V A M IH]; intros b' d I'; [easy|].
    destruct I' as [E|I']; [|now apply IH].
    injection E as <- <-. unfold verify_reward in V.
    step V as x1 X1. apply guard_done in X1. step V as d X2. step V as da X3. apply need_done in X3.
    step V as x4 X4. step V as a' X5. apply need_done in X5. step V as x6 X6. apply guard_done in X6.
    step V as x7 X7. apply guard_done in V.
    rewrite A in X5. injection X5 as <-. apply N.eqb_eq in X6. rewrite <- X6, (Ro _ _ X3).
    split; [easy|]. split; [intros ->; discriminate|]. apply orb_true_iff in V. destruct V; eauto.
  Qed.

  Lemma mined_spaced prev bs : mined prev bs -> (forall b d, In (b, d) bs -> r_ver2 r <= b_height b) ->
    spaced r (b_time prev :: map (fun p => b_time (fst p)) bs).
  Proof.
    induction 1 as [prev|prev by_reg by_uid first b a bs Ro T V A M IH]; intros H; cbn [map]; [constructor|].
    cbn [fst]. constructor.
    - unfold timely in T. step T as x X. apply guard_done in T. specialize (H b (a_regid a) ltac:(now left)).
      unfold interval in T. destruct (Z.ltb_spec (b_height b) (r_ver2 r)); lia.
    - apply IH. intros b' d I'. apply (H b' d). now right.
  Qed.

  Lemma share prev bs k x : NoDup l -> mined prev bs ->
    (forall b d, In (b, d) bs -> r_ver3 r <= b_height b /\ 0 <= b_time b < 2 ^ 32
       /\ k * Z.of_nat (length l) < slot r (b_time b) <= (k + 1) * Z.of_nat (length l)) ->
    0 <= k -> Z.of_nat (length (filter (fun p => snd p =? x)%N bs)) <= r_row r.
  Proof.
    intros Nd M H Pk. set (mine := filter _ bs).
    assert (Mi : forall b d, In (b, d) mine -> In (b, d) bs /\ d = x).
    { intros b d I'. apply filter_In in I'. cbn in I'. destruct I' as [I' E]. split; [easy|]. now apply N.eqb_eq. }
    destruct mine as [|[b0 d0] mine'] eqn:Em.
    { destruct Se as (_ & _ & _ & _ & R). cbn. lia. }
    destruct (Mi b0 d0) as [I0 ->]; [now left|].
    destruct (mined_fact _ _ M _ _ I0) as (D0 & Nl & _).
    assert (Same : forall b d, In (b, d) mine -> slot r (b_time b) = slot r (b_time b0)).
    { intros b d I'. rewrite Em in I'. destruct (Mi b d I') as [Ib ->]. destruct (mined_fact _ _ M _ _ Ib) as (D & _ & _).
      destruct (H _ _ Ib) as (V & T & S1). destruct (H _ _ I0) as (V0 & T0 & S0).
      set (n := Z.of_nat (length l)) in *.
      set (j := Z.to_nat (slot r (b_time b) - k * n - 1)). set (j0 := Z.to_nat (slot r (b_time b0) - k * n - 1)).
      destruct (Z.eq_dec (slot r (b_time b)) (slot r (b_time b0))) as [|Df]; [easy|]. exfalso.
      assert (Bj : (j < length l)%nat) by (subst j n; lia). assert (Bj0 : (j0 < length l)%nat) by (subst j0 n; lia).
      assert (Dj : j <> j0) by (subst j j0; lia).
      (* any times in the other slots *)
      set (w := r_interval r * r_row r).
      assert (Pw : 0 < w) by (destruct Se as (_ & _ & A1 & _ & A2); subst w; nia).
      assert (one : on_duty hash r (b_height b) (b_time b) l = Done x) by exact D.
      pose proof (slot_duty hash r Se l k (b_height b) (b_time b) j Nl Pk Bj V T ltac:(subst j; fold n; lia)) as E1.
      pose proof (slot_duty hash r Se l k (b_height b0) (b_time b0) j0 Nl Pk Bj0 V0 T0 ltac:(subst j0; fold n; lia)) as E2.
      rewrite D in E1. rewrite D0 in E2.
      destruct (round_list hash l k Nl) as (l' & Rl & P). 
      destruct (E1 l' Rl) as (x1 & N1 & X1). destruct (E2 l' Rl) as (x2 & N2 & X2).
      injection X1 as <-. injection X2 as <-.
      assert (Nd' : NoDup l') by (eapply Permutation_NoDup; [exact P|exact Nd]).
      apply Dj. rewrite NoDup_nth_error in Nd'. apply Nd'; [|congruence].
      rewrite <- (Permutation_length P). exact Bj. }
    rewrite <- Em.
    assert (Sp : spaced r (map (fun p => b_time (fst p)) bs)).
    { apply spaced_tail with (b_time prev). apply mined_spaced; [easy|]. intros b d I'. destruct (H b d I') as (V & _).
      destruct Se as (Vv & _). lia. }
    pose proof (slot_count hash r Se _ (slot r (b_time b0)) Sp) as C.
    eapply Z.le_trans; [|exact C]. apply inj_le. subst mine. clear - Same.
    induction bs as [|[b d] bs IH]; [easy|]. cbn [filter map fst snd] in *.
    destruct (N.eqb_spec d x) as [E|E].
    - rewrite (Same b d) by now left. rewrite Z.eqb_refl. cbn [length]. apply le_n_S, IH. intros b' d' I'.
      apply (Same b' d'). now right.
    - destruct (_ =? _); cbn [length]; [apply Nat.le_trans with (2 := Nat.le_succ_diag_r _)|]; apply IH; easy.
  Qed.
End Mined.
