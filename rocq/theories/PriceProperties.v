(** Properties of fed prices: C21 (the median), C22 (nodes agree on it) and C68 (feed heights). *)
From Coq Require Import List Bool NArith Arith Lia Permutation ZifyBool ZifyNat ZifyN.
From Verif Require Import Prelude PreludeFacts DexModel DexProofs PriceModel PriceSpec PriceProofs.
Import ListNotations.
Open Scope N_scope.

(** ** C21: the median is robust *)

(** If more than half of the prices lie between two bounds, then so does the median, as long as
    prices stay below 2^63. A minority of senders cannot move it out. *)
Theorem c21_majority l lo hi : (length l < 2 * length (filter (fun x => (lo <=? x)%N && (x <=? hi)%N) l))%nat ->
  (forall x, In x l -> x < 2 ^ 63) -> lo <= median l <= hi.
Proof. apply majority. Qed.
Example c21_majority_instance : median [100; 1; 102; 101; 2 ^ 62] = 101 /\ median [100; 1; 102; 110; 2 ^ 62; 101] = 101
  /\ (6 < 2 * length (filter (fun x => (100 <=? x)%N && (x <=? 110)%N) [100; 1; 102; 110; 2 ^ 62; 101]%N))%nat.
Proof. split; [reflexivity|]. split; [reflexivity|]. cbn. lia. Qed.

(** The order of the prices is of no importance. *)
Theorem c21_order l l' : Permutation l l' -> median l = median l'.
Proof. apply median_perm. Qed.
Example c21_order_instance : Permutation [3; 1; 2; 8] [8; 2; 3; 1] /\ median [3; 1; 2; 8] = 2.
Proof.
  split; [|reflexivity]. apply NoDup_Permutation; [repeat constructor; cbn; intuition discriminate..|].
  intros x. cbn. intuition.
Qed.

(** Half is the best: where half of the senders agree, the others can move the median out. *)
Theorem c21_half_refuted : exists l lo hi, length l = (2 * length (filter (fun x => (lo <=? x)%N && (x <=? hi)%N) l))%nat
  /\ (forall x, In x l -> x < 2 ^ 63) /\ hi < median l.
Proof. exists [10; 11; 1000; 1000], 10, 11. split; [reflexivity|]. split; [|reflexivity]. intros x [<-|[<-|[<-|[<-|[]]]]]; reflexivity. Qed.

(** The sum of the two middle prices is one of 64 bits: with an even number of large prices the
    median is below all of them, though all are the same. *)
Theorem c21_overflow_refuted : exists x, x < 2 ^ 64 /\ median [x; x] = 0.
Proof. exists (2 ^ 63). split; reflexivity. Qed.

(** ** C22: nodes agree on prices *)

(** Whatever a node went through (blocks connected and disconnected, restarts, forks), the prices it
    holds for a block, on its chain or on a fork, are the medians of the prices fed in the last [W]
    blocks. *)
Theorem c22_window W g w c k c1 b d c2 : 0 < W -> first_block W g -> plives (tidy W) g w -> held w c k ->
  c = c1 ++ (b, d) :: c2 -> c2 <> [] -> d = dues W c2 b.
Proof.
  intros Pw Fg P Hd -> Ne. destruct (lives_good W Pw g w Fg P _ _ Hd) as [C _]. clear Hd.
  induction c1 as [|(b', d') c1 IH]; cbn in C.
  - inversion C; subst; [now destruct Ne|easy].
  - apply IH. apply (chain_tail W b' d'); [easy|]. rewrite app_length. cbn. lia.
Qed.

(** A further block is accepted if and only if its prices are those due; so the prices are then
    stored. *)
Theorem c22_verdict W g w c k b : 0 < W -> first_block W g -> plives (tidy W) g w -> held w c k -> tidy W b ->
  (accept W c b /\ verdict c k b = Done (dues W c b)) \/ (~ accept W c b /\ verdict c k b = Reject).
Proof.
  intros Pw Fg P Hd T. unfold verdict. rewrite <- acceptable_iff.
  destruct (tip_connect W Pw c b k (lives_good W Pw g w Fg P c k Hd) T) as [(A & k' & E & _)|[A E]]; rewrite E.
  - now left.
  - now right.
Qed.

(** Two nodes that hold the same chain, whatever each went through, agree on every further block. *)
Theorem c22_same W g w w' c k k' b : 0 < W -> first_block W g -> plives (tidy W) g w -> plives (tidy W) g w' ->
  held w c k -> held w' c k' -> tidy W b -> verdict c k b = verdict c k' b.
Proof.
  intros Pw Fg P P' Hd Hd' T.
  destruct (c22_verdict W g w c k b Pw Fg P Hd T) as [[A E]|[A E]], (c22_verdict W g w' c k' b Pw Fg P' Hd' T) as [[A' E']|[A' E']];
    now rewrite E, E'.
Qed.

(** A majority of the prices in the window decides the price that is stored. *)
Theorem c22_majority W g w c k c1 b d c2 p x f lo hi : 0 < W -> first_block W g -> plives (tidy W) g w -> held w c k ->
  c = c1 ++ (b, d) :: c2 -> c2 <> [] -> In (p, (x, f)) d -> 0 < lo ->
  (let l := last_prices ((b, d) :: c2) p (N.to_nat W) in
   (length l < 2 * length (filter (fun x => (lo <=? x)%N && (x <=? hi)%N) l))%nat /\ forall y, In y l -> y < 2 ^ 63) ->
  lo <= x <= hi.
Proof.
  intros Pw Fg P Hd E Ne I Pl (M & B). pose proof (c22_window W g w c k c1 b d c2 Pw Fg P Hd E Ne) as D.
  rewrite D in I at 1. unfold dues in I. apply filter_In in I as [I _]. apply in_map_iff in I as (q & [= -> Du] & _).
  assert (L : last_prices ((b, d) :: c2) p (N.to_nat W) = last_prices ((b, []) :: c2) p (N.to_nat W)).
  { destruct (N.to_nat W); [easy|]. now destruct c2. }
  rewrite L in M, B. pose proof (majority _ lo hi M B) as Q. unfold due in Du.
  destruct (fget N.eqb (stored c2) p) as [old|].
  - destruct (N.eqb_spec (median (last_prices ((b, []) :: c2) p (N.to_nat W))) 0) as [Z|Z]; [lia|]. injection Du as <- _. easy.
  - injection Du as <- _. easy.
Qed.

(** Several events, one after the other. *)
Fixpoint steps (w : pworld) (es : list pevent) : outcome pworld :=
  match es with [] => Done w | e :: es => bind (pstep w e) (fun w => steps w es) end.
Definition event_ok (ok : pblock -> Prop) (e : pevent) : Prop :=
  match e with EConnect b => ok b | EExtend _ bs => forall b, In b bs -> ok b | _ => True end.
Lemma steps_lives (ok : pblock -> Prop) g es : forall w w', plives ok g w -> (forall e, In e es -> event_ok ok e) ->
  steps w es = Done w' -> plives ok g w'.
Proof.
  induction es as [|e es IH]; intros w w' P O H; [now injection H as <-|]. cbn [steps] in H. step H as w1 H1.
  apply (IH w1 w'); [|intros; apply O; now right|easy]. pose proof (O e ltac:(now left)) as Oe.
  apply (pl_step _ _ w e w1 P); [intros b ->; easy|intros i bs b ->; apply Oe|easy].
Qed.

Section Nodes.
  Let W := 2.
  Let p := 5.
  Let blk (fs : list ptx) (prices : list (N * N)) (others : list ptx) : pblock :=
    mkPblock (fs ++ TMedian prices :: others) [p; 6] W W.
  Let g := mkPblock [] [] W W.
  Let b1 := blk [TFeed 1 [(p, 100)]; TFeed 2 [(p, 104)]] [(p, 102)] [].
  Let b2 := blk [TFeed 3 [(p, 130)]] [(p, 104)] [TOther].
  Let b2' := blk [TFeed 1 [(p, 90)]; TFeed 2 [(6, 7)]] [(p, 100); (6, 7)] [].
  Let b3 := blk [] [(p, 130)] [TOther].
  Let b4 := blk [] [(p, 130)] [].
  Let b5 := blk [TFeed 9 [(p, 40)]] [(p, 40)] [].
  Lemma blk_tidy fs prices others : forallb is_feed fs = true -> forallb (fun t => negb (is_feed t)) others = true ->
    tidy W (blk fs prices others).
  Proof. intros F O. split; [|easy]. exists fs, (TMedian prices :: others). easy. Qed.
  (** One node goes back and forth, opens a fork and restarts; the other only connects. *)
  Let es1 := [EConnect b1; EConnect b2; EOpen 1; EExtend 0 [b2']; EConnect b3; EDisconnect; EDisconnect; EConnect b2;
              EConnect b3; ERestart; EConnect b4; EDisconnect; EOpen 1].
  Let es2 := [EConnect b1; EConnect b2].
  Let got {A} (o : outcome A) (d : A) : A := match o with Done x => x | _ => d end.
  Let w1 := Eval vm_compute in got (steps (pstart g) es1) (pstart g).
  Let w2 := Eval vm_compute in got (steps (pstart g) es2) (pstart g).
  Lemma tidy_blocks b : In b [b1; b2; b2'; b3; b4; b5] -> tidy W b.
  Proof. intros [<-|[<-|[<-|[<-|[<-|[<-|[]]]]]]]; now apply blk_tidy. Qed.
  Let c := w_chain w2.
  Let k := match w_forks w1 with (_, k) :: _ => k | [] => [] end.
  Example c22_same_instance : 0 < W /\ first_block W g /\ plives (tidy W) g w1 /\ plives (tidy W) g w2
    /\ held w1 c k /\ held w2 c (w_book w2) /\ k <> w_book w2 /\ tidy W b3
    /\ verdict c k b3 = Done [(p, (130, 2))] /\ verdict c k b4 = Done [(p, (130, 2))] /\ verdict c k b5 = Reject
    /\ verdict (w_chain w1) (w_book w1) b5 = Done [(p, (40, 4))].
  Proof.
    split; [easy|]. split; [easy|].
    split; [apply (steps_lives (tidy W) g es1 (pstart g)); [constructor| |vm_compute; reflexivity]|].
    { intros e I. repeat (destruct I as [<-|I]; [cbn [event_ok]; try exact Logic.I; try (apply tidy_blocks; cbn; tauto)|]).
      all: try (intros b [<-|[]]; apply tidy_blocks; cbn; tauto). destruct I. }
    split; [apply (steps_lives (tidy W) g es2 (pstart g)); [constructor| |vm_compute; reflexivity]|].
    { intros e I. repeat (destruct I as [<-|I]; [cbn [event_ok]; apply tidy_blocks; cbn; tauto|]). destruct I. }
    split; [right; left; vm_compute; reflexivity|]. split; [now left|]. split; [vm_compute; discriminate|].
    split; [apply tidy_blocks; cbn; tauto|]. repeat (split; [vm_compute; reflexivity|]). vm_compute. reflexivity.
  Qed.
  Let c0 := match w_chain w2 with _ :: c => c | [] => [] end.
  Let d2 := match w_chain w2 with (_, d) :: _ => d | [] => [] end.
  (** Three prices in the window, two of them between 100 and 104. *)
  Example c22_majority_instance : held w2 (w_chain w2) (w_book w2) /\ w_chain w2 = [] ++ (b2, d2) :: c0 /\ c0 <> []
    /\ In (p, (104, 2)) d2 /\ last_prices ((b2, d2) :: c0) p (N.to_nat W) = [130; 100; 104].
  Proof.
    split; [now left|]. split; [vm_compute; reflexivity|]. split; [vm_compute; discriminate|]. split; [vm_compute; now left|].
    vm_compute. reflexivity.
  Qed.
  (** For C68: the last block feeds the pair, and its height is stored. *)
  Example c68_instance : held w2 (w_chain w2) (w_book w2) /\ In p (b_pairs b2) /\ feeds_of b2 p <> []
    /\ median (last_prices (w_chain w2) p (N.to_nat W)) = 104 /\ stored (w_chain w2) = [(p, (104, 2))]
    /\ fed (w_chain w2) p 2 = [(3, 130)].
  Proof.
    split; [now left|]. split; [now left|]. split; [vm_compute; discriminate|]. split; [vm_compute; reflexivity|].
    split; vm_compute; reflexivity.
  Qed.
End Nodes.

(** At a start the stored blocks are connected before the prices are loaded. With nothing to connect
    this is a plain restart. With a block to connect that the running node accepts, the node may
    reject it at the start: the prices before it are missing. *)
Theorem c22_start_refuted : (forall c, boot c [] = Done (c, restart c))
  /\ exists w g wd b d, 0 < w /\ first_block w g /\ plives (tidy w) g wd /\ tidy w b
     /\ verdict (w_chain wd) (w_book wd) b = Done d /\ boot (w_chain wd) [b] = Reject.
Proof.
  split; [reflexivity|].
  set (g := mkPblock [] [] 2 2).
  set (b1 := mkPblock [TFeed 1 [(5, 100)]; TFeed 2 [(5, 104)]; TMedian [(5, 102)]] [5] 2 2).
  set (b2 := mkPblock [TFeed 3 [(5, 130)]; TMedian [(5, 104)]] [5] 2 2).
  set (wd := match steps (pstart g) [EConnect b1] with Done x => x | _ => pstart g end).
  exists 2, g, wd, b2, [(5, (104, 2))].
  split; [easy|]. split; [easy|]. split; [|split; [|split]].
  - apply (steps_lives (tidy 2) g [EConnect b1] (pstart g)); [constructor| |vm_compute; reflexivity].
    intros e [<-|[]]. cbn [event_ok]. split; [|easy]. exists [TFeed 1 [(5, 100)]; TFeed 2 [(5, 104)]], [TMedian [(5, 102)]]. easy.
  - split; [|easy]. exists [TFeed 3 [(5, 130)]], [TMedian [(5, 104)]]. easy.
  - vm_compute. reflexivity.
  - vm_compute. reflexivity.
Qed.
Print Assumptions c22_start_refuted.

(** Nothing makes a block list its feeds first. A node that connects a block with a feed after the
    median knows the price; one that restarts does not load it, and rejects the next block. *)
Theorem c22_trailing_refuted : exists W (ok : pblock -> Prop) g w w' c k k' b, 0 < W /\ first_block W g
  /\ (forall b, ok b -> b_window_at b = W /\ b_window b = W)
  /\ plives ok g w /\ plives ok g w' /\ held w c k /\ held w' c k' /\ tidy W b
  /\ verdict c k b <> Reject /\ verdict c k' b = Reject.
Proof.
  set (W := 3). set (g := mkPblock [] [] W W). set (b1 := mkPblock [TMedian []; TFeed 1 [(5, 100)]] [5] W W).
  set (ok := fun b : pblock => b_window_at b = W /\ b_window b = W).
  set (w0 := pstart g).
  set (r := connect_tip [(g, [])] b1 []).
  assert (R : r = Done ([(b1, []); (g, [])], [(5, [(1, [(1, 100)])])])) by reflexivity.
  set (c := [(b1, []); (g, [])]) in *. set (k := [(5, [(1, [(1, 100)])])]) in *.
  assert (P1 : plives ok g (mkPw c k [])).
  { apply (pl_step ok g w0 (EConnect b1)); [constructor|intros b [= <-]; now split|easy|reflexivity]. }
  assert (P2 : plives ok g (mkPw c [] [])).
  { apply (pl_step ok g _ ERestart _ P1); [easy|easy|reflexivity]. }
  exists W, ok, g, (mkPw c k []), (mkPw c [] []), c, k, [], (mkPblock [TMedian [(5, 100)]] [5] W W).
  split; [easy|]. split; [easy|]. split; [easy|]. split; [easy|]. split; [easy|]. split; [now left|]. split; [now left|].
  split; [split; [now exists [], [TMedian [(5, 100)]]|easy]|]. split; [vm_compute; discriminate|reflexivity].
Qed.

(** The size of the window is changed by governance. A node that restarts after it grew loads more
    blocks than one that keeps running still has. *)
Theorem c22_resize_refuted : exists (ok : pblock -> Prop) g w w' c k k' b, first_block 1 g
  /\ (forall b, ok b -> tidy 1 b \/ tidy 1 (mkPblock (b_txs b) (b_pairs b) 1 1) /\ b_window_at b = 1 /\ b_window b = 4)
  /\ plives ok g w /\ plives ok g w' /\ held w c k /\ held w' c k' /\ window_of c = 4 /\ tidy 4 b
  /\ verdict c k b <> Reject /\ verdict c k' b = Reject.
Proof.
  set (g := mkPblock [] [] 1 1). set (b1 := mkPblock [TMedian []] [5] 1 1).
  set (b2 := mkPblock [TFeed 1 [(5, 90)]; TMedian [(5, 90)]] [5] 1 1).
  set (b3 := mkPblock [TFeed 1 [(5, 80)]; TMedian [(5, 80)]] [5] 1 1).
  set (b4 := mkPblock [TMedian [(5, 80)]; TOther] [5] 1 4).
  set (ok := fun b => In b [b1; b2; b3; b4]).
  assert (Ok : forall b, ok b -> tidy 1 b \/ tidy 1 (mkPblock (b_txs b) (b_pairs b) 1 1) /\ b_window_at b = 1 /\ b_window b = 4).
  { intros b [<-|[<-|[<-|[<-|[]]]]]; [left; split; [now exists [], [TMedian []]|easy]
      |left; split; [now exists [TFeed 1 [(5, 90)]], [TMedian [(5, 90)]]|easy]
      |left; split; [now exists [TFeed 1 [(5, 80)]], [TMedian [(5, 80)]]|easy]
      |right; split; [split; [now exists [], [TMedian [(5, 80)]; TOther]|easy]|easy]]. }
  set (es := map EConnect [b1; b2; b3; b4]).
  set (w4 := match steps (pstart g) es with Done w => w | _ => pstart g end).
  assert (P : plives ok g w4).
  { apply (steps_lives ok g es (pstart g)); [constructor| |vm_compute; reflexivity].
    intros e I. apply in_map_iff in I as (b & <- & I). exact I. }
  set (w5 := mkPw (w_chain w4) (restart (w_chain w4)) []).
  assert (P5 : plives ok g w5).
  { apply (steps_lives ok g [ERestart] w4); [exact P|intros e [<-|[]]; exact I|reflexivity]. }
  exists ok, g, w5, w4, (w_chain w4), (w_book w5), (w_book w4), (mkPblock [TFeed 1 [(5, 70)]; TMedian [(5, 80)]] [5] 4 4).
  split; [split; reflexivity|]. split; [exact Ok|]. split; [exact P5|]. split; [exact P|].
  split; [left; split; reflexivity|]. split; [left; split; reflexivity|]. split; [vm_compute; reflexivity|].
  split; [clear; split; [now exists [TFeed 1 [(5, 70)]], [TMedian [(5, 80)]]|easy]|]. split; [vm_compute; discriminate|vm_compute; reflexivity].
Qed.

(** ** C68: prices and feed heights that are stored *)

(** A stored price is not zero, and its feed height, if there is one, is that of a block on this
    chain that feeds the pair. *)
Theorem c68_fed W g w c k p x f : 0 < W -> first_block W g -> plives (tidy W) g w -> held w c k ->
  In (p, (x, f)) (stored c) -> x <> 0 /\ (f <> 0 -> fed c p f <> []).
Proof.
  intros Pw Fg P Hd. destruct (lives_good W Pw g w Fg P _ _ Hd) as [C _]. clear Hd.
  revert x f. induction C as [g' G|c b C IH T M O A]; intros x f I; [destruct I|].
  cbn [stored] in I. unfold dues in I. apply filter_In in I as [I Nz]. cbn [fst snd] in Nz. split; [lia|].
  apply in_map_iff in I as (q & [= -> Du] & _). intros Hf. rewrite fed_cons. unfold due in Du.
  assert (X : forall y z, (y, if negb (Nat.eqb (length (feeds_of b p)) 0) then N.of_nat (length c) else z) = (x, f) ->
    (z = f -> fed c p f <> [] /\ f <> N.of_nat (length c)) -> (if f =? N.of_nat (length c) then feeds_of b p else fed c p f) <> []).
  { intros y z [= _ E] Z. destruct (Nat.eqb_spec (length (feeds_of b p)) 0) as [F|F]; cbn [negb] in E.
    - destruct (Z E) as [Z1 Z2]. now destruct (N.eqb_spec f (N.of_nat (length c))).
    - subst f. rewrite N.eqb_refl. intros F'. rewrite F' in F. now apply F. }
  assert (Old : forall old, fget N.eqb (stored c) p = Some old -> snd old = f ->
    fed c p f <> [] /\ f <> N.of_nat (length c)).
  { intros (y, z) E Ez. cbn in Ez. subst z. apply (fget_in N.eqb N_eqb_ok) in E. apply IH in E as [_ E]. specialize (E Hf).
    split; [easy|]. intros ->. apply E. apply fed_beyond. lia. }
  destruct (fget N.eqb (stored c) p) as [old|] eqn:G.
  - destruct (_ =? 0).
    + destruct (Old old eq_refl) as [Z1 Z2]; [now subst old|]. now destruct (N.eqb_spec f (N.of_nat (length c))).
    + apply (X _ _ Du). now apply Old.
  - apply (X _ _ Du). intros E. congruence.
Qed.

(** A block that feeds a pair that may be fed stores its own height for it, unless the median is
    zero. *)
Theorem c68_fresh W g w c k b d c2 p : 0 < W -> first_block W g -> plives (tidy W) g w -> held w c k ->
  c = (b, d) :: c2 -> c2 <> [] -> In p (b_pairs b) -> feeds_of b p <> [] ->
  median (last_prices c p (N.to_nat W)) <> 0 ->
  In (p, (median (last_prices c p (N.to_nat W)), tip_height c)) (stored c).
Proof.
  intros Pw Fg P Hd -> Ne Ip Fp Nz. rewrite (c22_window W g w _ k [] b d c2 Pw Fg P Hd eq_refl Ne) in *. cbn [stored].
  set (d' := dues W c2 b) in *. unfold d' at 3. unfold dues.
  assert (L : last_prices ((b, d') :: c2) p (N.to_nat W) = last_prices ((b, []) :: c2) p (N.to_nat W)).
  { destruct (N.to_nat W); [easy|]. now destruct c2. }
  rewrite L in *. set (m := median _) in *.
  assert (D : due W c2 b p = (m, tip_height ((b, d') :: c2))).
  { unfold due. fold m. destruct (Nat.eqb_spec (length (feeds_of b p)) 0) as [Z|Z]; [now apply length_zero_iff_nil in Z|]. cbn [negb].
    assert (Th : tip_height ((b, d') :: c2) = N.of_nat (length c2)) by (unfold tip_height; cbn [length]; lia). rewrite Th.
    destruct (fget N.eqb (stored c2) p); [|easy]. destruct (N.eqb_spec m 0); [easy|easy]. }
  rewrite <- D. apply filter_In. split; [now apply (in_map (fun q => (q, due W c2 b q)))|]. rewrite D. cbn [fst snd]. lia.
Qed.

(** A price can stay without a feed height: a pair that may be fed again takes the prices still in
    the window, but no height. Its price then counts as never fed. *)
Theorem c68_height_refuted : exists W g w c k p x, 0 < W /\ first_block W g /\ plives (tidy W) g w /\ held w c k
  /\ In (p, (x, 0)) (stored c) /\ exists h, fed c p h <> [].
Proof.
  set (g := mkPblock [] [] 3 3). set (b1 := mkPblock [TFeed 1 [(5, 90)]; TMedian []] [] 3 3).
  set (b2 := mkPblock [TMedian [(5, 90)]] [5] 3 3).
  set (w2 := match steps (pstart g) [EConnect b1; EConnect b2] with Done w => w | _ => pstart g end).
  exists 3, g, w2, (w_chain w2), (w_book w2), 5, 90. split; [easy|]. split; [easy|]. split; [|split; [now left|split]].
  - apply (steps_lives _ g [EConnect b1; EConnect b2] (pstart g)); [constructor| |vm_compute; reflexivity].
    intros e [<-|[<-|[]]]; (split; [|easy]).
    + now exists [TFeed 1 [(5, 90)]], [TMedian []].
    + now exists [], [TMedian [(5, 90)]].
  - vm_compute. now left.
  - exists 1. vm_compute. discriminate.
Qed.

Print Assumptions c21_majority.
Print Assumptions c21_order.
Print Assumptions c21_half_refuted.
Print Assumptions c21_overflow_refuted.
Print Assumptions c22_window.
Print Assumptions c22_verdict.
Print Assumptions c22_same.
Print Assumptions c22_majority.
Print Assumptions c22_trailing_refuted.
Print Assumptions c22_resize_refuted.
Print Assumptions c68_fed.
Print Assumptions c68_fresh.
Print Assumptions c68_height_refuted.
