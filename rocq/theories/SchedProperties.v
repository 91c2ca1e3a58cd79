(** The schedule of block producers: C32, C66, C67. *)
From Coq Require Import List Bool NArith ZArith Lia Permutation.
From Coq Require Import ZifyBool ZifyNat ZifyN.
From Verif Require Import Prelude DexModel DexProofs SchedModel SchedSpec SchedProofs.
Import ListNotations.
Open Scope Z_scope.

(** ** C32: the order of producers *)

(** Shuffling loses nobody and adds nobody, and for every time there is a producer on duty, one of
    the list. *)
Theorem c32_permutation (A : Type) hash r (l : list A) h t : sensible r -> l <> [] ->
  (exists l', shuffle hash r h t l = Done l' /\ Permutation l l')
  /\ exists d, on_duty hash r h t l = Done d /\ In d l.
Proof. intros Se Nl. split; [now apply shuffle_ok|now apply duty_ok]. Qed.

(** From the third release on, over the slots of one round (as many slots as producers, the last one
    at a multiple of that number), every producer is on duty in exactly one slot: for any times in
    these slots and any heights. *)
Theorem c32_round (A : Type) hash r (l : list A) k (hs ts : nat -> Z) : sensible r -> l <> [] -> 0 <= k ->
  (forall j, (j < length l)%nat -> r_ver3 r <= hs j /\ 0 <= ts j < 2 ^ 32
     /\ slot r (ts j) = k * Z.of_nat (length l) + 1 + Z.of_nat j) ->
  exists l', Permutation l l'
    /\ forall j, (j < length l)%nat -> exists d, nth_error l' j = Some d /\ on_duty hash r (hs j) (ts j) l = Done d.
Proof. intros Se. now apply round_ok. Qed.

(** The same does not hold for any other row of slots: a producer may be on duty in two slots of
    such a row, the last of one round and the first of the next. *)
Theorem c32_any_round_refuted : exists hash r (l : list N) s t1 t2, sensible r /\ NoDup l /\ length l = 2%nat
  /\ slot r t1 = s /\ slot r t2 = s + 1
  /\ on_duty hash r 100 t1 l = Done 1%N /\ on_duty hash r 100 t2 l = Done 1%N.
Proof.
  exists (fun seed _ x => if (seed =? 1) && Nat.eqb x 0 then 0 else 1), (mkRules 0 0 10 3 1 2), [1; 2]%N, 2, 12, 18.
  split; [unfold sensible; cbn; lia|]. split; [repeat constructor; cbn; intuition discriminate|].
  repeat split.
Qed.

(** Before the third release the seed follows the height, not the time: where a slot has no block, a
    producer may be on duty in both slots of a round. *)
Theorem c32_old_refuted : exists hash r (l : list N) t1 t2 h, sensible r /\ NoDup l /\ length l = 2%nat
  /\ h + 1 < r_ver3 r /\ r_ver2 r <= h /\ t1 / interval r h = 3 /\ t2 / interval r (h + 1) = 4
  /\ on_duty hash r h t1 l = Done 2%N /\ on_duty hash r (h + 1) t2 l = Done 2%N.
Proof.
  exists (fun seed _ x => if (seed =? 1) && Nat.eqb x 0 then 0 else 1), (mkRules 0 1000 10 3 1 2), [1; 2]%N, 9, 12, 2.
  split; [unfold sensible; cbn; lia|]. split; [repeat constructor; cbn; intuition discriminate|].
  repeat split; try easy.
Qed.

Section Order.
  Let hash (seed : Z) (k x : nat) : Z := seed * 7 + Z.of_nat k * 5 + Z.of_nat (x * x).
  Let r := mkRules 0 1 10 3 1 2.
  Let l := [11; 12; 13; 14; 15; 16]%N.
  Example c32_permutation_instance : sensible r /\ l <> [] /\ shuffle hash r 500 66 l = Done [11; 12; 13; 16; 15; 14]%N
    /\ on_duty hash r 500 66 l = Done 14%N.
  Proof. split; [unfold sensible; cbn; lia|]. repeat split; easy. Qed.
  (** Slots 7 to 12, some of their times, some heights. *)
  Let hs (j : nat) := 500 + Z.of_nat j.
  Let ts (j : nat) := 43 + 6 * Z.of_nat j.
  Example c32_round_instance : (forall j, (j < length l)%nat -> r_ver3 r <= hs j /\ 0 <= ts j < 2 ^ 32
      /\ slot r (ts j) = 1 * Z.of_nat (length l) + 1 + Z.of_nat j)
    /\ map (fun j => on_duty hash r (hs j) (ts j) l) [0; 1; 2; 3; 4; 5]%nat
       = map Done [12; 13; 16; 15; 14; 11]%N.
  Proof.
    split; [|reflexivity]. intros j Hj. cbn in Hj. do 6 (destruct j as [|j]; [vm_compute; intuition discriminate|]). lia.
  Qed.
End Order.

(** ** C66: blocks are made by the producer on duty *)

(** A block that is found in order was made by the producer on duty, one of the list, and carries a
    valid signature. *)
Theorem c66_on_duty (Uid : Type) hash signed r l (prev : @blk Uid) bs b d : sensible r ->
  mined hash signed r l prev bs -> In (b, d) bs ->
  on_duty hash r (b_height b) (b_time b) l = Done d /\ In d l
  /\ exists key, signed (b_hash b) (b_sig b) key = true.
Proof.
  intros Se M I. destruct (mined_fact hash signed r l prev bs M b d I) as (D & Nl & K). split; [easy|].
  split; [|easy]. destruct (duty_ok hash r Se l (b_height b) (b_time b) Nl) as (d' & D' & I'). congruence.
Qed.

(** The signature is by a key of that producer's account, and of the block itself. *)
Theorem c66_signed (Uid : Type) hash signed r by_reg by_uid l first (prev b : @blk Uid) :
  verify_reward hash signed r by_reg by_uid l first prev b = Done tt ->
  exists d da a, on_duty hash r (b_height b) (b_time b) l = Done d /\ by_reg d = Some da
    /\ by_uid (b_uid b) = Some a /\ a_regid a = a_regid da /\ (0 < b_sig_size b <= 100)%N
    /\ (signed (b_hash b) (b_sig b) (a_owner a) = true \/ signed (b_hash b) (b_sig b) (a_miner a) = true)
    /\ (first = false -> forall pa, by_uid (b_uid prev) = Some pa -> a_regid pa = a_regid a ->
        interval r (b_height b) <= b_time b - b_time prev).
Proof.
  intros V. unfold verify_reward in V.
  step V as x1 X1. step V as d X2. step V as da X3. apply need_done in X3.
  step V as x4 X4. step V as a X5. apply need_done in X5. step V as x6 X6. apply guard_done in X6.
  step V as x7 X7. apply guard_done in X7. apply guard_done in V. apply N.eqb_eq in X6.
  exists d, da, a. split; [easy|]. split; [easy|]. split; [easy|]. split; [easy|].
  split; [unfold MAX_SIGNATURE_SIZE in X7; lia|]. split; [now apply orb_true_iff|].
  intros -> pa Pa E. step X4 as pa' P. apply need_done in P. apply guard_done in X4. rewrite Pa in P. injection P as <-.
  rewrite E, X6, N.eqb_refl, andb_true_r in X4. lia.
Qed.

(** From the third release on, no producer makes more blocks in a round than the number it may make
    in a row, as long as the list of producers stays. *)
Theorem c66_share (Uid : Type) hash signed r l (prev : @blk Uid) bs k x : sensible r -> NoDup l -> 0 <= k ->
  mined hash signed r l prev bs ->
  (forall b d, In (b, d) bs -> r_ver3 r <= b_height b /\ 0 <= b_time b < 2 ^ 32
     /\ k * Z.of_nat (length l) < slot r (b_time b) <= (k + 1) * Z.of_nat (length l)) ->
  Z.of_nat (length (filter (fun p => snd p =? x)%N bs)) <= r_row r.
Proof. intros Se Nd Pk M H. now apply (share hash signed r l Se prev bs k x). Qed.

(** Heights go up one by one, and times by at least the block interval. *)
Theorem c66_line (Uid : Type) hash signed r l (prev : @blk Uid) bs : mined hash signed r l prev bs ->
  forall i b d, nth_error bs i = Some (b, d) -> b_height b = b_height prev + 1 + Z.of_nat i
    /\ (forall b' d', nth_error bs (S i) = Some (b', d') ->
        b_time b + (if b_height b' <? r_ver2 r then r_interval_old r else r_interval r) <= b_time b').
Proof.
  assert (Ti : forall prev b : @blk Uid, timely r prev b = Done tt -> b_height b = b_height prev + 1
    /\ b_time prev + interval r (b_height b) <= b_time b).
  { intros p b T. unfold timely in T. step T as x X. apply guard_done in X. apply guard_done in T. lia. }
  induction 1 as [prev|prev by_reg by_uid first b a bs Ro T V A M IH]; intros i b' d Hi; [now destruct i|].
  apply Ti in T as [T1 T2]. destruct i as [|i].
  - injection Hi as <- <-. split; [lia|]. intros b2 d2 H2. destruct M as [|? ? ? ? ? ? ? ? T']; [discriminate|].
    injection H2 as <- <-. now apply Ti in T' as [_ T'].
  - cbn in Hi. destruct (IH i b' d Hi) as [I1 I2]. split; [lia|]. easy.
Qed.

(** Before the third release the order of producers goes by the height, and the place in it by the
    time: each stays on duty for the time of the blocks it may make in a row. *)
Theorem c66_old_turns (A : Type) hash r (l : list A) h : sensible r -> l <> [] -> h < r_ver3 r ->
  exists l', Permutation l l' /\ forall t, 0 <= t < 2 ^ 32 -> exists d,
    on_duty hash r h t l = Done d
    /\ nth_error l' (Z.to_nat (t / ((if h <? r_ver2 r then r_interval_old r else r_interval r) * r_row_old r)
         mod Z.of_nat (length l))) = Some d.
Proof.
  intros Se Nl Hh. destruct (shuffle_ok hash r Se l h 0 Nl) as (l' & S & P). exists l'. split; [easy|]. intros t Ht.
  assert (S' : shuffle hash r h t l = Done l').
  { rewrite shuffle_done in S |- * by easy. unfold origin in *. now destruct (Z.ltb_spec h (r_ver3 r)); [|lia]. }
  assert (N1 : l' <> []) by (intros ->; apply Nl; now apply Permutation_sym, Permutation_nil in P).
  destruct (current_done hash r Se l' h t N1) as (d & Nt & C). exists d. unfold on_duty. rewrite S'. split; [easy|].
  rewrite <- Nt. f_equal. f_equal. rewrite (Permutation_length P). f_equal.
  pose proof (interval_pos r Se h) as Ip. pose proof (row_pos r Se h) as Rp. rewrite Z.div_div by lia.
  unfold in_row in *. destruct (Z.ltb_spec h (r_ver3 r)); [|lia]. fold (interval r h).
  symmetry. apply Z.mod_small. split; [apply Z.div_pos; nia|]. apply Z.div_lt_upper_bound; nia.
Qed.
Example c66_old_turns_instance : let hash (seed : Z) (k x : nat) := seed * 7 + Z.of_nat k * 5 + Z.of_nat (x * x) in
  let r := mkRules 0 1000 10 3 2 4 in sensible r /\ map (fun t => on_duty hash r 500 t [11; 12; 13]%N) [600; 605; 606; 612]
  = map (fun d => Done d) [13; 13; 12; 11]%N.
Proof. cbv zeta. split; [unfold sensible; cbn; lia|]. vm_compute. reflexivity. Qed.

Section Blocks.
  Let hash (seed : Z) (k x : nat) : Z := seed * 7 + Z.of_nat k * 5 + Z.of_nat (x * x).
  Let r := mkRules 0 1 10 3 1 2.
  Let l := [11; 12; 13]%N.
  (** Accounts have their registration id as user id; keys and signatures are numbers too. *)
  Let signed (h s key : N) : bool := (s =? h + key)%N.
  Let acc (d : N) : option acct := if (10 <? d)%N then Some (mkAcct d (d + 100) (d + 200)) else None.
  Let block (h t : Z) (d key : N) : @blk N := mkBlk h t 7 (7 + key) 70 d.
  Let b0 := block 500 21 11 111.
  Let bs := [(block 501 24 13 113, 13); (block 502 27 13 213, 13); (block 503 31 12 112, 12);
             (block 504 36 11 111, 11)]%N.
  Lemma blocks_mined : mined hash signed r l b0 bs.
  Proof.
    assert (Ac : forall d x, acc d = Some x -> a_regid x = d).
    { intros d x. subst acc. cbn beta. destruct (10 <? d)%N; [|discriminate]. now intros [= <-]. }
    repeat (apply mn_next with (by_reg := acc) (by_uid := acc) (first := false)
      (a := mkAcct 13 113 213); [easy|reflexivity|vm_compute; reflexivity|reflexivity|]).
    apply mn_next with (by_reg := acc) (by_uid := acc) (first := false)
      (a := mkAcct 12 112 212); [easy|reflexivity|vm_compute; reflexivity|reflexivity|].
    apply mn_next with (by_reg := acc) (by_uid := acc) (first := false)
      (a := mkAcct 11 111 211); [easy|reflexivity|vm_compute; reflexivity|reflexivity|].
    constructor.
  Qed.
  (** A round with two blocks by one producer and one by each of the others. *)
  Example c66_share_instance : sensible r /\ NoDup l
    /\ (forall b d, In (b, d) bs -> r_ver3 r <= b_height b /\ 0 <= b_time b < 2 ^ 32
         /\ 1 * Z.of_nat (length l) < slot r (b_time b) <= (1 + 1) * Z.of_nat (length l))
    /\ Z.of_nat (length (filter (fun p => snd p =? 13)%N bs)) = r_row r.
  Proof.
    split; [unfold sensible; cbn; lia|]. split; [repeat constructor; cbn; intuition discriminate|].
    split; [|reflexivity]. intros b d I.
    repeat (destruct I as [[= <- <-]|I]; [vm_compute; intuition discriminate|]). destruct I.
  Qed.
  Example c66_on_duty_instance : In (block 502 27 13 213, 13)%N bs /\ on_duty hash r 502 27 l = Done 13%N
    /\ verify_reward hash signed r acc acc l false (block 501 24 13 113) (block 502 27 12 112) = Reject
    /\ verify_reward hash signed r acc acc l false (block 501 24 13 113) (block 502 26 13 113) = Reject
    /\ verify_reward hash signed r acc acc l false (block 501 24 13 113) (block 502 27 13 112) = Reject.
  Proof. split; [right; now left|]. vm_compute. easy. Qed.
End Blocks.

(** ** C67: votes decide who may produce *)

(** When a block changes the list of producers, the new list is not empty; it consists of the best
    by votes as some block of the chain found them, from the third release on at least 100 blocks
    before. *)
Theorem c67_elected r ts s t : 0 < r_ver3 r -> counted_to r ts s -> t_height t = Z.of_nat (length ts) ->
  l_active (process_delegates r t s) <> l_active s ->
  l_active (process_delegates r t s) <> []
  /\ exists t', In t' (t :: ts) /\ elected r t' (l_active (process_delegates r t s))
    /\ t_height t' + (if r_ver3 r <=? t_height t then 100 else 0) <= t_height t.
Proof. intros V. now apply changed. Qed.

(** From the third release on, the list changes only at heights that are multiples of 100. *)
Theorem c67_stable r ts s t : 0 < r_ver3 r -> counted_to r ts s -> t_height t = Z.of_nat (length ts) ->
  r_ver3 r <= t_height t -> l_active (process_delegates r t s) <> l_active s -> t_height t mod 100 = 0.
Proof. intros V. now apply stable. Qed.

(** Votes are heeded: if the last vote was in block [v] (from the third release on), and from then
    on for 300 blocks neither votes nor the number of producers change, then the list in force is
    the one elected, if anybody has enough votes. *)
Theorem c67_settles r ts1 ts2 s R n m v : 0 < r_ver3 r -> r_ver3 r <= v ->
  counted_to r (ts2 ++ ts1) s -> Z.of_nat (length ts1) = v -> (300 <= length ts2)%nat ->
  (forall t, In t ts2 -> t_ranking t = R /\ t_number t = n /\ t_min t = m /\ t_last t = v) ->
  (exists x, hd_error R = Some x /\ (m <= snd x)%N) -> n <> 0%N ->
  exists t, In t ts2 /\ elected r t (l_active s) /\ l_active s <> [].
Proof.
  intros V Vv C L1 L2 A (x & Hx & Mx) Nn.
  assert (Ng : goal R n m <> []).
  { unfold goal. destruct R as [|y R']; [discriminate|]. injection Hx as ->.
    destruct (N.to_nat n) eqn:E; [lia|]. cbn. destruct (N.ltb_spec (snd x) m); [lia|easy]. }
  rewrite (settled r V R n m v Ng Vv ts1 ts2 s C L1 L2 A).
  destruct ts2 as [|t ts2]; [cbn in L2; lia|]. exists t. split; [now left|]. split; [|easy].
  assert (Hh : v <= t_height t).
  { inversion C as [|ts t' s0 C0 Ht E1]; subst. rewrite Ht, app_length. lia. }
  rewrite <- (steady_top r R n m v Vv t (A t ltac:(now left)) Hh). apply top_elected.
Qed.

Section Election.
  Let r := mkRules 0 5 10 3 1 2.
  (** Producer 3 gets more votes in block 150. *)
  Let at_height (h : Z) : tally :=
    mkTally h (if (h <? 150)%Z then [(1, 90); (2, 50); (3, 40); (4, 5)] else [(3, 95); (1, 90); (2, 50); (4, 5)])%N 2 10
      (if h <? 1 then 0 else if h <? 150 then 1 else 150).
  Let hist := fix hist (n : nat) : list tally :=
    match n with O => [] | S n => at_height (Z.of_nat n) :: hist n end.
  Let run := fix run (n : nat) : lists :=
    match n with O => no_lists | S n => process_delegates r (at_height (Z.of_nat n)) (run n) end.
  Lemma hist_length n : length (hist n) = n.
  Proof. induction n as [|n IH]; [easy|]. cbn. now rewrite IH. Qed.
  Lemma hist_counted n : counted_to r (hist n) (run n).
  Proof.
    induction n as [|n IH]; [constructor|]. change (counted_to r (at_height (Z.of_nat n) :: hist n)
      (process_delegates r (at_height (Z.of_nat n)) (run n))). constructor; [easy|]. now rewrite hist_length.
  Qed.
  (** Block 300 brings the list elected in block 200. *)
  Example c67_elected_instance : 0 < r_ver3 r /\ counted_to r (hist 300) (run 300)
    /\ t_height (at_height 300) = Z.of_nat (length (hist 300))
    /\ l_active (run 300) = [(1, 90); (2, 50)]%N
    /\ l_active (process_delegates r (at_height 300) (run 300)) = [(3, 95); (1, 90)]%N.
  Proof.
    split; [easy|]. split; [apply hist_counted|]. split; [now rewrite hist_length|]. split; vm_compute; reflexivity.
  Qed.
  Let later := fix later (n : nat) : list tally :=
    match n with O => [] | S n => at_height (150 + Z.of_nat n) :: later n end.
  Lemma later_hist n : hist (n + 150) = later n ++ hist 150.
  Proof.
    induction n as [|n IH]; [easy|].
    change (at_height (Z.of_nat (n + 150)) :: hist (n + 150) = at_height (150 + Z.of_nat n) :: later n ++ hist 150).
    rewrite IH. f_equal. f_equal. lia.
  Qed.
  Lemma later_steady n t : In t (later n) -> t_ranking t = [(3, 95); (1, 90); (2, 50); (4, 5)]%N
    /\ t_number t = 2%N /\ t_min t = 10%N /\ t_last t = 150.
  Proof.
    induction n as [|n IH]; [easy|]. intros [<-|I]; [|now apply IH]. unfold at_height.
    cbn [t_ranking t_number t_min t_last].
    destruct (Z.ltb_spec (150 + Z.of_nat n) 150); [lia|]. now destruct (Z.ltb_spec (150 + Z.of_nat n) 1); [lia|].
  Qed.
  Lemma later_length n : length (later n) = n.
  Proof. induction n as [|n IH]; [easy|]. cbn. now rewrite IH. Qed.
  Example c67_settles_instance : counted_to r (later 300 ++ hist 150) (run 450)
    /\ Z.of_nat (length (hist 150)) = 150 /\ r_ver3 r <= 150 /\ (300 <= length (later 300))%nat
    /\ l_active (run 450) = [(3, 95); (1, 90)]%N.
  Proof.
    split; [rewrite <- later_hist; apply hist_counted|]. split; [now rewrite hist_length|]. split; [easy|].
    split; [rewrite later_length; lia|]. vm_compute. reflexivity.
  Qed.
End Election.

Print Assumptions c32_permutation.
Print Assumptions c32_round.
Print Assumptions c32_any_round_refuted.
Print Assumptions c32_old_refuted.
Print Assumptions c66_on_duty.
Print Assumptions c66_signed.
Print Assumptions c66_share.
Print Assumptions c66_line.
Print Assumptions c66_old_turns.
Print Assumptions c67_elected.
Print Assumptions c67_stable.
Print Assumptions c67_settles.
