(** C74: a block that arrives never stops the node. C75: blocks that arrive before their
    predecessors are kept within a bound, and handed over when these arrive. *)
From Coq Require Import List Bool NArith ZArith Lia ZifyBool ZifyNat ZifyN.
From Verif Require Import Prelude DexModel SchedModel IntakeModel IntakeSpec IntakeProofs.
Import ListNotations.
Open Scope N_scope.

(** C74. As long as each block names a predecessor (or is at height 0), has a registration id as the
    sender of its reward and, at the release of the stable coin, the transactions made for it, the
    node goes on, whatever else the blocks hold, in whatever order they come, and whatever comes out
    of the choice of the chain. *)
Theorem c74_goes_on p rate forked best g es :
  length (p_mints p) = 3%nat -> bearable p g -> (forall e, In e es -> bearable p (e_block e)) ->
  goes_on (run p rate forked best (start g) es).
Proof.
  intros L G H.
  pose proof (run_spec p rate forked best True es (start g)
    (start_good p forked True g (fun _ => releases_fits p g L (proj2 (proj2 G))))) as S.
  specialize (S (fun _ e I => conj (releases_fits p _ L (proj2 (proj2 (H e I)))) (proj1 (H e I)))).
  destruct (run p rate forked best (start g) es) as [n| | |]; [|destruct S|destruct (S I)|destruct S].
  destruct S as (_ & _ & W & _). exists n. split; [reflexivity|].
  destruct W as [W _].
  - intros a o [].
  - intros e I. apply producer_given. exact (proj1 (proj2 (H e I))).
  - exact W.
Qed.
Print Assumptions c74_goes_on.

(** A block that is at height [h], claims its place by [hash], [prev] and [time], and is signed by
    nobody: a reward whose sender is not a registration id, and a list of median prices where one is
    asked for. *)
Definition rough (p : params) (hash prev h : N) (time : Z) (r : N) : blk :=
  mkBlk hash prev h time current_version r 0 500 true
    (mkItx 1 KReward false ::
     if (signed32 h <? r_ver2 (p_rules p))%Z then [] else [mkItx 2 KMedian true]).

Lemma rough_checked p clock hash prev h time r :
  (time <= clock + interval (p_rules p) (signed32 h) + 2)%Z ->
  check_block p clock (rough p hash prev h time r) = true.
Proof.
  intros T. unfold check_block, rough. cbn [k_hash k_prev k_height k_time k_version k_nonce k_size k_root k_txs].
  rewrite (proj2 (Z.leb_le _ _) T). cbn [Z.eqb]. rewrite !orb_true_r.
  destruct (signed32 h <? r_ver2 (p_rules p))%Z; cbn; rewrite ?orb_true_r; reflexivity.
Qed.

(** For every state of a node there is a block that makes it fail an assertion; a peer needs nothing
    to make it. *)
Theorem c74_null_refuted p rate forked best n clock final :
  known (n_chain n) 0 = false -> (-2 <= interval (p_rules p) (signed32 (final + 1)))%Z ->
  exists b, arrive p rate forked best n (mkEvent true clock final b) = Abort.
Proof.
  intros K0 T. destruct (new_hash n) as (h & Nz & Kh & Eh).
  exists (rough p h 0 (final + 1) clock 0). unfold arrive. cbn [e_peer e_block e_final e_clock].
  replace (k_height (rough p h 0 (final + 1) clock 0) <? final) with false
    by (symmetry; apply N.ltb_ge; cbn; lia).
  cbn [andb]. unfold process. cbn [k_hash rough] in *. rewrite Kh, Eh.
  rewrite rough_checked by lia. cbn [negb k_prev rough]. cbn [N.eqb negb andb].
  unfold accept. cbn [k_hash k_prev k_height rough]. rewrite Kh, K0.
  replace (final + 1 =? 0) with false by (symmetry; apply N.eqb_neq; lia). reflexivity.
Qed.
Print Assumptions c74_null_refuted.

(** For every state of a node whose tip is not ahead of its clock there is a block on top of the tip
    that shuts it down; nobody has to sign it. *)
Theorem c74_sender_refuted p rate forked best n a clock final :
  lookup (n_chain n) (c_tip (n_chain n)) = Some a -> c_tip (n_chain n) <> 0 ->
  upgraded p (n_chain n) (k_hash a) = false ->
  (0 < interval (p_rules p) (signed32 (k_height a + 1)))%Z -> (k_time a <= clock)%Z ->
  final <= k_height a + 1 ->
  exists b n', arrive p rate forked best n (mkEvent true clock final b) = Done n' /\
    c_stopping (n_chain n') = true.
Proof.
  intros L Nt U T C Fi. destruct (new_hash n) as (h & Nz & Kh & Eh).
  set (b := rough p h (c_tip (n_chain n)) (k_height a + 1)
              (k_time a + interval (p_rules p) (signed32 (k_height a + 1))) (rate (c_index (n_chain n)) (c_tip (n_chain n)))).
  destruct (lookup_some _ _ _ L) as [Ia Ea].
  assert (Kt : known (n_chain n) (c_tip (n_chain n)) = true) by (apply known_iff; eauto).
  exists b. eexists. unfold arrive. cbn [e_peer e_block e_final e_clock].
  replace (k_height b <? final) with false by (symmetry; apply N.ltb_ge; cbn; lia).
  cbn [andb]. unfold process.
  replace (known (n_chain n) (k_hash b)) with false by (symmetry; exact Kh).
  replace (existsb (fun e => fst e =? k_hash b) (q_by_hash (n_pool n))) with false by (symmetry; exact Eh).
  replace (check_block p clock b) with true by (symmetry; apply rough_checked; lia).
  cbn [negb]. replace (known (n_chain n) (k_prev b)) with true by (symmetry; exact Kt).
  cbn [negb]. rewrite andb_false_r.
  assert (E : accept p rate forked best (n_chain n) b =
    Done (mkChain (c_index (n_chain n) ++ [b]) (c_tip (n_chain n)) true, false)).
  { unfold accept.
    replace (known (n_chain n) (k_hash b)) with false by (symmetry; exact Kh).
    replace (known (n_chain n) (k_prev b)) with true by (symmetry; exact Kt).
    rewrite orb_true_r. cbn [negb].
    replace (k_rate b =? rate (c_index (n_chain n)) (k_prev b)) with true by (symmetry; apply N.eqb_refl).
    cbn [negb]. rewrite andb_false_r. unfold genuine.
    assert (Zh : (k_height b =? 0) = false) by (apply N.eqb_neq; cbn; lia).
    rewrite Zh. cbn [andb].
    replace (lookup (n_chain n) (k_prev b)) with (Some a) by (symmetry; exact L).
    replace (k_height b =? k_height a + 1) with true by (symmetry; apply N.eqb_refl). cbn [negb].
    replace ((k_time b <=? k_time a)%Z || (k_time b - k_time a <? interval (p_rules p) (signed32 (k_height b)))%Z)
      with false.
    2:{ symmetry. apply orb_false_iff. cbn [b rough k_time k_height]. split; [apply Z.leb_gt|apply Z.ltb_ge]; lia. }
    rewrite Ea in U. rewrite Ea, N.eqb_refl. cbn [bind negb]. rewrite U, andb_false_r.
    unfold add_to_index. replace (known (n_chain n) (k_hash b)) with false by (symmetry; exact Kh).
    unfold bp_given. rewrite Zh. reflexivity. }
  rewrite E. cbn [bind negb]. split; reflexivity.
Qed.
Print Assumptions c74_sender_refuted.

(** ** C75 *)

(** At most 751 blocks are kept, no two with the same hash, and none that is in the index; and the
    tables are never left with an address of memory given back, nor is the end of an empty table
    read. *)
Theorem c75_bounded p rate forked best g es :
  match run p rate forked best (start g) es with
  | Done n =>
      (length (kept n) <= N.to_nat 751)%nat /\ NoDup (map k_hash (kept n)) /\
      forall b, In b (kept n) -> ~ knows n (k_hash b)
  | Abort => True
  | _ => False
  end.
Proof.
  pose proof (run_spec p rate forked best False es (start g)
    (start_good p forked False g (fun f => match f with end)) (fun f => match f with end)) as S.
  destruct (run p rate forked best (start g) es) as [n| | |]; auto.
  destruct S as (G & _ & _). rewrite (kept_length p False n G), (kept_hashes p False n G).
  pose proof G as ((S & B & _ & Ap) & _). split; [exact (proj1 B)|]. split; [exact (so_hash_once _ _ S)|].
  intros b I K. apply (kept_iff p False n G) in I as (a & o & I & E). apply knows_iff in K.
  pose proof (Ap _ _ I) as X. destruct (so_shape _ _ S _ _ I) as (Y & _). rewrite Y, E in X. congruence.
Qed.
Print Assumptions c75_bounded.

(** Where a kept block goes: it stays; or, the store being full, it gives way to a block of lower
    height that arrives from a peer; or its predecessor is in the index, and the block is so too or
    has been refused by the node. *)
Theorem c75_handed p rate forked best g es n e n' :
  run p rate forked best (start g) es = Done n -> arrive p rate forked best n e = Done n' ->
  forall b, In b (kept n) ->
    In b (kept n') \/
    (e_peer e = true /\ ~ knows n (k_prev (e_block e)) /\ length (kept n) = N.to_nat 751 /\
     (signed32 (k_height (e_block e)) < signed32 (k_height b))%Z) \/
    (knows n' (k_prev b) /\
     (knows n' (k_hash b) \/
      exists c, incl (c_index c) (c_index (n_chain n')) /\
                accept p rate forked best c b = Done (c, false))).
Proof.
  intros R A b I.
  pose proof (run_spec p rate forked best False es (start g)
    (start_good p forked False g (fun f => match f with end)) (fun f => match f with end)) as S.
  rewrite R in S. destruct S as (G & _ & _).
  pose proof (arrive_spec p rate forked best False n e G (fun f => match f with end) (fun f => match f with end)) as S.
  rewrite A in S. destruct S as (G' & _ & M & _).
  apply (kept_iff p False n G) in I as (a & o & I & E).
  pose proof G as ((S & _) & _). destruct (so_shape _ _ S _ _ I) as (Y1 & Y2 & Y3).
  destruct (M a o I) as [J|[(J1 & J2 & _ & J3 & J4)|(J1 & J2)]].
  - left. apply (kept_iff p False n' G'). exists a, o. auto.
  - right. left. split; [exact J1|]. split; [rewrite knows_iff; congruence|].
    split; [rewrite (kept_length p False n G); exact J3|]. rewrite <- E, <- Y3. exact J4.
  - right. right. rewrite !knows_iff. rewrite <- E, <- Y1, <- Y2. split; [exact J1|exact J2].
Qed.
Print Assumptions c75_handed.

(** A block from a peer that passes the checks made of a block alone, and whose predecessor is not
    known, is kept; unless 751 are kept already, one of them at no greater height. *)
Theorem c75_kept p rate forked best g es n e :
  run p rate forked best (start g) es = Done n ->
  e_peer e = true -> e_final e <= k_height (e_block e) ->
  check_block p (e_clock e) (e_block e) = true ->
  ~ knows n (k_hash (e_block e)) -> k_prev (e_block e) <> 0 -> ~ knows n (k_prev (e_block e)) ->
  exists n', arrive p rate forked best n e = Done n' /\ n_chain n' = n_chain n /\
    ((exists b, In b (kept n') /\ k_hash b = k_hash (e_block e)) \/
     (n' = n /\ length (kept n) = N.to_nat 751 /\
      exists b, In b (kept n) /\ (signed32 (k_height b) <= signed32 (k_height (e_block e)))%Z)).
Proof.
  intros R Pe Fi Ck Kh Np Kp.
  pose proof (run_spec p rate forked best False es (start g)
    (start_good p forked False g (fun f => match f with end)) (fun f => match f with end)) as S.
  rewrite R in S. destruct S as (G & _ & _).
  unfold arrive. rewrite Pe. rewrite (proj2 (N.ltb_ge _ _) Fi). cbn [andb]. unfold process.
  rewrite knows_iff in Kh, Kp. apply not_true_is_false in Kh, Kp. rewrite Kh.
  destruct (existsb (fun x => fst x =? k_hash (e_block e)) (q_by_hash (n_pool n))) eqn:Eb.
  { cbn [bind]. exists n. split; [reflexivity|]. split; [reflexivity|]. left.
    apply existsb_exists in Eb as (x & I & E). apply N.eqb_eq in E.
    assert (J : In (k_hash (e_block e)) (map k_hash (kept n))).
    { rewrite (kept_hashes p False n G). rewrite <- E. now apply in_map. }
    apply in_map_iff in J as (b & E' & J). eauto. }
  rewrite Ck, Kp. rewrite (proj2 (N.eqb_neq _ _) Np). cbn [negb andb].
  pose proof G as (PG & A & Kt).
  destruct (prune_spec p rate forked best False _ _ (signed32 (k_height (e_block e))) PG) as (q1 & ok & E & PG1 & L1 & L2 & H1 & H2).
  rewrite E. cbn [bind]. destruct ok.
  - assert (Eb1 : existsb (fun x => fst x =? k_hash (e_block e)) (q_by_hash q1) = false).
    { destruct (existsb _ (q_by_hash q1)) eqn:X; [|reflexivity]. exfalso.
      apply existsb_exists in X as ([h a] & I & Eh). cbn in Eh. apply N.eqb_eq in Eh. subst h.
      destruct PG1 as (S1 & _). apply (so_hash _ _ S1) in I as (o & I & Eo). destruct PG as (S & _).
      assert (existsb (fun x => fst x =? k_hash (e_block e)) (q_by_hash (n_pool n)) = true).
      { apply existsb_exists. exists (k_hash (e_block e), a). split; [|apply N.eqb_refl].
        apply (so_hash _ _ S). exists o. split; [apply H1; exact I|exact Eo]. }
      congruence. }
    destruct (keep_spec p rate forked best False _ q1 (e_block e) PG1 (L1 eq_refl) Kh Eb1 (fun f => match f with end)) as (q2 & E2 & PG2 & H3).
    rewrite E2. cbn [bind]. eexists. split; [reflexivity|]. split; [reflexivity|]. left.
    exists (e_block e). split; [|reflexivity].
    apply (kept_iff p False (mkNode (n_chain n) q2) (conj PG2 (conj A Kt))).
    eexists _, _. split; [apply H3; right; split; reflexivity|reflexivity].
  - destruct (L2 eq_refl) as (-> & Le & x & o & I & Ho). cbn [bind]. eexists. split; [reflexivity|].
    split; [reflexivity|]. right. split; [now destruct n|]. split; [rewrite (kept_length p False n G); exact Le|].
    exists (o_block o). split; [apply (kept_iff p False n G); exists x, o; auto|].
    destruct PG as (S & _). destruct (so_shape _ _ S _ _ I) as (_ & _ & Y). rewrite <- Y. exact Ho.
Qed.
Print Assumptions c75_kept.

(** As long as the choice of the chain does not fail and rewards have registration ids as senders,
    the predecessor of a kept block is not known: no block is left waiting for one that has come. *)
Theorem c75_waiting p rate forked best g es n :
  (forall c, snd (best c) = true) -> (forall e, In e es -> names_producer (e_block e)) ->
  run p rate forked best (start g) es = Done n ->
  forall b, In b (kept n) -> ~ knows n (k_prev b).
Proof.
  intros B H R b I K.
  pose proof (run_spec p rate forked best False es (start g)
    (start_good p forked False g (fun f => match f with end)) (fun f => match f with end)) as S.
  rewrite R in S. destruct S as (G & _ & W & _).
  destruct W as [_ W].
  { intros a o []. }
  { intros e J. apply producer_given. exact (H e J). }
  apply (kept_iff p False n G) in I as (a & o & I & E). pose proof G as ((S & _) & _).
  destruct (so_shape _ _ S _ _ I) as (_ & Y & _).
  specialize (W B (fun a o (f : In (a, o) []) => match f with end) a o I).
  rewrite Y, E in W. apply knows_iff in K. congruence.
Qed.
Print Assumptions c75_waiting.

(** Every block of the index other than the first has its predecessor there, is one higher, and is
    later by the block interval at least; and the tip is in the index. *)
Theorem c75_index p rate forked best g es n :
  k_height g = 0 -> k_hash g = p_genesis p ->
  run p rate forked best (start g) es = Done n ->
  knows n (c_tip (n_chain n)) /\
  forall b, In b (c_index (n_chain n)) -> b = g \/
    exists a, In a (c_index (n_chain n)) /\ k_prev b = k_hash a /\ k_height b = k_height a + 1 /\
      (k_time a < k_time b)%Z /\ (interval (p_rules p) (signed32 (k_height b)) <= k_time b - k_time a)%Z.
Proof.
  intros Hg Eg R.
  pose proof (run_spec p rate forked best False es (start g)
    (start_good p forked False g (fun f => match f with end)) (fun f => match f with end)) as S.
  rewrite R in S. destruct S as ((_ & _ & T) & _ & _ & J). split; [now apply knows_iff|].
  apply (J (fun c => known c (k_hash g) = true /\ forall b, In b (c_index c) -> b = g \/
    exists a, In a (c_index c) /\ k_prev b = k_hash a /\ k_height b = k_height a + 1 /\
      (k_time a < k_time b)%Z /\ (interval (p_rules p) (signed32 (k_height b)) <= k_time b - k_time a)%Z)).
  - intros c b c' ok (K & H) A. pose proof (accepted_known p best c b c' ok (k_hash g) A K) as K'.
    split; [exact K'|]. destruct A as [[-> _]|(E & Kb & _ & _ & _ & _ & Q)]; [exact H|].
    intros x I. rewrite E in I |- *. apply in_app_or in I as [I|[<-|[]]].
    + destruct (H x I) as [->|(a & Ia & Q')]; [auto|]. right. exists a. split; [apply in_or_app; now left|exact Q'].
    + destruct Q as [Gn|(a & La & F1 & F2 & F3 & F4)].
      * exfalso. apply andb_true_iff in Gn as [_ Gn]. apply N.eqb_eq in Gn. rewrite Gn, <- Eg in Kb. congruence.
      * right. exists a. destruct (lookup_some _ _ _ La) as [Ia _]. split; [apply in_or_app; now left|auto].
  - split; [cbn; now rewrite N.eqb_refl|]. intros b [<-|[]]. now left.
Qed.
Print Assumptions c75_index.

(** Every block that is kept, and every block of the index other than the first, is well formed, and
    came at a time by the node's clock to which its own time was not ahead by more than an interval and
    two seconds. *)
Theorem c75_form p rate forked best g es n :
  run p rate forked best (start g) es = Done n ->
  forall b, In b (c_index (n_chain n)) \/ In b (kept n) -> b = g \/
    (well_formed p b /\ exists e, In e es /\ e_block e = b /\
       (k_time b <= e_clock e + interval (p_rules p) (signed32 (k_height b)) + 2)%Z).
Proof.
  intros R.
  pose proof (start_good p forked False g (fun f => match f with end)) as G0.
  pose proof (run_spec p rate forked best False es (start g) G0 (fun f => match f with end)) as S.
  pose proof (run_checked p rate forked best False
    (fun b => b = g \/ (well_formed p b /\ exists e, In e es /\ e_block e = b /\
       (k_time b <= e_clock e + interval (p_rules p) (signed32 (k_height b)) + 2)%Z)) es (start g) G0
    (fun f => match f with end)) as C.
  rewrite R in S, C. destruct S as (G & _). destruct C as (C1 & C2).
  - intros x [<-|[]]. now left.
  - intros a o [].
  - intros e I E. right. destruct (check_form p forked _ _ E) as (W & T). split; [exact W|]. exists e. auto.
  - intros b [I|I]; [auto|]. apply (kept_iff p False n G) in I as (a & o & I & <-). exact (C2 a o I).
Qed.
Print Assumptions c75_form.

(** The upgrade by version numbers never happens: blocks of another version than the first are refused,
    so the count of newer blocks stays at what the first block gives. *)
Theorem c75_no_upgrade p rate forked best g es n h :
  (k_version g < 2)%Z -> k_hash g = p_genesis p -> k_height g = 0 ->
  run p rate forked best (start g) es = Done n -> upgraded p (n_chain n) h = false.
Proof.
  intros V Eg Hg R.
  assert (A : forall b, In b (c_index (n_chain n)) -> (2 <=? k_version b)%Z = false).
  { intros b I. destruct (c75_form p rate forked best g es n R b (or_introl I)) as [->|(W & _)]; [lia|].
    destruct (N.eq_dec (k_hash b) (p_genesis p)) as [E|E].
    - pose proof (run_spec p rate forked best False es (start g)
        (start_good p forked False g (fun f => match f with end)) (fun f => match f with end)) as S.
      rewrite R in S. destruct S as (_ & _ & _ & J).
      assert (Q : known (n_chain n) (k_hash g) = true /\ forall b, In b (c_index (n_chain n)) -> b = g \/ k_hash b <> k_hash g).
      { apply (J (fun c => known c (k_hash g) = true /\ forall b, In b (c_index c) -> b = g \/ k_hash b <> k_hash g)).
        - intros c x c' ok (K & H) Ac. split; [exact (accepted_known p best c x c' ok _ Ac K)|].
          destruct Ac as [[-> _]|(E1 & Kx & _)]; [exact H|]. intros y Iy. rewrite E1 in Iy.
          apply in_app_or in Iy as [Iy|[<-|[]]]; [auto|]. right. congruence.
        - split; [cbn; now rewrite N.eqb_refl|]. intros y [<-|[]]. now left. }
      destruct (proj2 Q b I) as [->|X]; [lia|congruence].
    - destruct W as (_ & _ & _ & _ & _ & _ & W & _). rewrite (W E). reflexivity. }
  assert (Nw : forall k x, newer (n_chain n) k x = 0).
  { induction k as [|k IH]; intros x; [reflexivity|]. cbn [newer]. destruct (lookup (n_chain n) x) as [b|] eqn:L; [|reflexivity].
    rewrite (A b (proj1 (lookup_some _ _ _ L))), IH. reflexivity. }
  unfold upgraded. rewrite !Nw. destruct (p_test p); reflexivity.
Qed.
Print Assumptions c75_no_upgrade.

(** ** A small network *)
Section Instance.
  Definition p0 : params := mkParams (mkRules 1000 2000 10 3 1 11) 7 5 [91; 92; 93] true false.
  Definition rate0 : list blk -> N -> N := fun _ _ => 100.
  Definition forked0 : chain -> blk -> list N * bool := fun _ _ => ([], true).
  (** A block that extends the tip is connected and becomes the tip. *)
  Definition best0 (c : chain) : list N * N * bool :=
    match last (map Some (c_index c)) None with
    | Some b => if k_prev b =? c_tip c then ([k_hash b], k_hash b, true) else ([], c_tip c, true)
    | None => ([], c_tip c, true)
    end.
  Definition blk0 (hash prev h : N) (txs : list itx) : blk :=
    mkBlk hash prev h (100 + 10 * Z.of_N h)%Z 1 100 0 500 true txs.
  Definition reward0 (regid : bool) : itx := mkItx 1 KReward regid.
  Definition g0 : blk := blk0 7 0 0 [reward0 false].
  Definition b1 := blk0 11 7 1 [reward0 true].
  Definition b2 := blk0 12 11 2 [reward0 true; mkItx 40 KOther false].
  Definition b3 := blk0 13 12 3 [reward0 true].
  Definition b4 := blk0 14 13 4 [reward0 true].
  Definition b5 := blk0 15 14 5 [reward0 true; mkItx 91 KMint true; mkItx 92 KMint true; mkItx 93 KMint true].
  Definition from_peer (b : blk) : event := mkEvent true 1000 0 b.
  Definition run0 := run p0 rate0 forked0 best0 (start g0).

  (** Blocks that come in a bad order are all taken in, the one with the first stable coins too. *)
  Example c74_goes_on_case :
    (forall e, In e (map from_peer [b3; b2; b5; b1; b4]) -> bearable p0 (e_block e)) /\ bearable p0 g0 /\
    exists n, run0 (map from_peer [b3; b2; b5; b1; b4]) = Done n /\
      map k_hash (c_index (n_chain n)) = [7; 11; 12; 13; 14; 15] /\ c_tip (n_chain n) = 15 /\
      c_stopping (n_chain n) = false /\ kept n = [].
  Proof.
    assert (B : forall b, In b [g0; b3; b2; b5; b1; b4] -> bearable p0 b).
    { intros b I. cbn in I.
      repeat (destruct I as [<-|I];
        [split; [|split];
          [first [right; reflexivity | left; discriminate]
          |first [(intros X; exfalso; apply X; reflexivity)
                 |(intros _; eexists _, _; split; reflexivity)]
          |intros X; first [discriminate X | (eexists _, _, _, _; split; [reflexivity|]; split; [reflexivity|]; intros _; reflexivity)]]|]).
      destruct I. }
    split; [|split; [apply B; now left|]].
    - intros e I. apply in_map_iff in I as (b & <- & I). apply B. now right.
    - eexists. split; [vm_compute; reflexivity|]. split; [reflexivity|]. split; [reflexivity|].
      split; reflexivity.
  Qed.

  (** The hypotheses of the refutations are met in that state. *)
  Example c74_null_case : exists n, run0 (map from_peer [b1]) = Done n /\ known (n_chain n) 0 = false.
  Proof. eexists. split; vm_compute; reflexivity. Qed.
  Example c74_sender_case : exists n, run0 (map from_peer [b1]) = Done n /\
    lookup (n_chain n) (c_tip (n_chain n)) = Some b1 /\ upgraded p0 (n_chain n) (k_hash b1) = false /\
    interval (p_rules p0) (signed32 (k_height b1 + 1)) = 10%Z.
  Proof. eexists. split; [vm_compute; reflexivity|]. split; [|split]; vm_compute; reflexivity. Qed.

  (** At the height of the release a block without the transactions made for it makes the node fail an
      assertion, before anything is asked about its producer or its signature. *)
  Theorem c74_release_refuted :
    exists n b, run0 (map from_peer [b1; b2; b3; b4]) = Done n /\ names_predecessor b /\ names_producer b /\
      arrive p0 rate0 forked0 best0 n (from_peer b) = Abort.
  Proof.
    eexists _, (blk0 66 14 5 [reward0 true]). split; [vm_compute; reflexivity|].
    split; [left; discriminate|]. split; [intros _; eexists _, _; split; reflexivity|].
    vm_compute. reflexivity.
  Qed.
  Print Assumptions c74_release_refuted.

  (** Two kept blocks with the same predecessor, which has not arrived. *)
  Definition b2' := blk0 32 11 2 [reward0 true].
  Example c75_bounded_case : exists n, run0 (map from_peer [b3; b2; b2']) = Done n /\
    map k_hash (kept n) = [32; 12; 13] /\ q_set (n_pool n) = [1; 0].
  Proof. eexists. split; [vm_compute; reflexivity|]. split; vm_compute; reflexivity. Qed.

  (** One is refused for its fuel rate and the other taken in when their predecessor arrives. *)
  Definition b2'' := mkBlk 32 11 2 120%Z 1 99 0 500 true [reward0 true].
  Example c75_handed_case : exists n n', run0 (map from_peer [b3; b2; b2'']) = Done n /\
    arrive p0 rate0 forked0 best0 n (from_peer b1) = Done n' /\
    map k_hash (kept n) = [32; 12; 13] /\ kept n' = [] /\
    map k_hash (c_index (n_chain n')) = [7; 11; 12; 13].
  Proof.
    eexists _, _. split; [vm_compute; reflexivity|]. split; [vm_compute; reflexivity|].
    split; [|split]; vm_compute; reflexivity.
  Qed.

  (** The block is left waiting if the one before it shuts the node down on the way: its predecessor
      is in the index, and sending the block again changes nothing. *)
  Theorem c75_waiting_refuted :
    exists es n b, run0 es = Done n /\ In b (kept n) /\ knows n (k_prev b) /\
      forall peer clock final, arrive p0 rate0 forked0 best0 n (mkEvent peer clock final b) = Done n.
  Proof.
    exists (map from_peer [b2; blk0 11 7 1 [reward0 false]]). eexists. exists b2.
    split; [vm_compute; reflexivity|]. split; [vm_compute; now left|]. split.
    - eexists. split; [right; left; reflexivity|reflexivity].
    - intros peer clock final. unfold arrive. cbn [e_peer e_block e_final].
      destruct (peer && (k_height b2 <? final)); reflexivity.
  Qed.
  Print Assumptions c75_waiting_refuted.
  Example c75_waiting_case : exists n, run0 (map from_peer [b1; b4; b3]) = Done n /\
    (forall c, snd (best0 c) = true) /\ map k_hash (kept n) = [13; 14] /\
    map k_hash (c_index (n_chain n)) = [7; 11].
  Proof.
    eexists. split; [vm_compute; reflexivity|]. split.
    - intros c. unfold best0. destruct (last _ None) as [b|]; [|reflexivity].
      destruct (k_prev b =? c_tip c); reflexivity.
    - split; vm_compute; reflexivity.
  Qed.

  (** The store full of blocks that no one has the predecessors of, all but one at height 100. *)
  Definition junk (k h : N) : blk := mkBlk (1000 + k) (5000 + k) h 500%Z 1 100 0 500 true [reward0 true].
  Definition flood : list event :=
    map (fun k => from_peer (junk (N.of_nat k) 100)) (seq 0 (N.to_nat 750)) ++ [from_peer (junk 800 50)].
  Definition reached (es : list event) : node := match run0 es with Done n => n | _ => start g0 end.
  Lemma reached_ok es : match run0 es with Done _ => true | _ => false end = true -> run0 es = Done (reached es).
  Proof. unfold reached. destruct (run0 es); intros X; [reflexivity|discriminate X..]. Qed.

  Lemma case_from es1 es2 k : match run0 es1 with Done n => N.of_nat (length (kept n)) =? 751 | _ => false end = true ->
    match run0 es2 with
    | Done n => (N.of_nat (length (kept n)) =? 751) && existsb (fun b => k_hash b =? k) (kept n) | _ => false end = true ->
    run0 es1 = Done (reached es1) /\ length (kept (reached es1)) = N.to_nat 751 /\
    run0 es2 = Done (reached es2) /\ length (kept (reached es2)) = N.to_nat 751 /\
    existsb (fun b => k_hash b =? k) (kept (reached es2)) = true.
  Proof.
    unfold reached. destruct (run0 es1) as [n1| | |], (run0 es2) as [n2| | |]; try discriminate. intros A B.
    apply andb_true_iff in B as [B B']. apply N.eqb_eq in A, B. repeat split; [| |exact B']; lia.
  Qed.
  Example c75_kept_case : run0 flood = Done (reached flood) /\ length (kept (reached flood)) = N.to_nat 751 /\
    run0 (flood ++ [from_peer (junk 801 60)]) = Done (reached (flood ++ [from_peer (junk 801 60)])) /\
    length (kept (reached (flood ++ [from_peer (junk 801 60)]))) = N.to_nat 751 /\
    existsb (fun b => k_hash b =? 1801) (kept (reached (flood ++ [from_peer (junk 801 60)]))) = true.
  Proof. apply case_from; vm_compute; reflexivity. Qed.

  (** The ordered table has one block for each height only. So a block at height 70 is refused while
      blocks at height 100 are kept, which are never dropped for a lower one. *)
  Lemma refused_from es e : match run0 es with
    | Done n => e_peer e && (e_final e <=? k_height (e_block e)) && check_block p0 (e_clock e) (e_block e) &&
        negb (k_prev (e_block e) =? 0) && negb (known (n_chain n) (k_hash (e_block e))) &&
        negb (known (n_chain n) (k_prev (e_block e))) &&
        negb (existsb (fun b => k_hash b =? k_hash (e_block e)) (kept n)) &&
        negb (match arrive p0 rate0 forked0 best0 n e with
              | Done n => existsb (fun b => k_hash b =? k_hash (e_block e)) (kept n) | _ => false end) &&
        (N.of_nat (length (filter (fun b => (signed32 (k_height (e_block e)) <? signed32 (k_height b))%Z) (kept n))) =? 749)
    | _ => false end = true ->
    run0 es = Done (reached es) /\ arrive p0 rate0 forked0 best0 (reached es) e = Done (reached es) /\
    (forall b, In b (kept (reached es)) -> k_hash b <> k_hash (e_block e)) /\
    length (filter (fun b => (signed32 (k_height (e_block e)) <? signed32 (k_height b))%Z) (kept (reached es))) = N.to_nat 749.
  Proof.
    intros T. assert (R : run0 es = Done (reached es)) by (apply reached_ok; destruct (run0 es); auto).
    rewrite R in T. rewrite !andb_true_iff, !negb_true_iff in T.
    destruct T as ((((((((H2 & H3) & H4) & H5) & H6) & H7) & H8) & H9) & HA). split; [exact R|]. split; [|split].
    - destruct (c75_kept p0 rate0 forked0 best0 g0 es (reached es) e R H2) as (n' & E & _ & K).
      + now apply N.leb_le.
      + exact H4.
      + rewrite knows_iff. congruence.
      + now apply N.eqb_neq.
      + rewrite knows_iff. congruence.
      + rewrite E in H9 |- *. f_equal. destruct K as [(b & I & Eb)|(Q & _)]; [|exact Q]. exfalso.
        assert (Y : existsb (fun b => k_hash b =? k_hash (e_block e)) (kept n') = true).
        { apply existsb_exists. exists b. split; [exact I|]. now apply N.eqb_eq. }
        congruence.
    - intros b I Eb. assert (Y : existsb (fun b => k_hash b =? k_hash (e_block e)) (kept (reached es)) = true).
      { apply existsb_exists. exists b. split; [exact I|]. now apply N.eqb_eq. }
      congruence.
    - apply N.eqb_eq in HA. lia.
  Qed.
  Theorem c75_refused_refuted :
    exists es n e, run0 es = Done n /\ arrive p0 rate0 forked0 best0 n e = Done n /\
      (forall b, In b (kept n) -> k_hash b <> k_hash (e_block e)) /\
      check_block p0 (e_clock e) (e_block e) = true /\
      length (filter (fun b => (signed32 (k_height (e_block e)) <? signed32 (k_height b))%Z) (kept n)) = N.to_nat 749.
  Proof.
    exists (flood ++ [from_peer (junk 801 60)]), (reached (flood ++ [from_peer (junk 801 60)])), (from_peer (junk 802 70)).
    destruct (refused_from (flood ++ [from_peer (junk 801 60)]) (from_peer (junk 802 70))) as (Q1 & Q2 & Q3 & Q4);
      [vm_compute; reflexivity|].
    split; [exact Q1|]. split; [exact Q2|]. split; [exact Q3|]. split; [vm_compute; reflexivity|exact Q4].
  Qed.
  Print Assumptions c75_refused_refuted.

  (** The form of the blocks of the small network. *)
  Example c75_form_case : exists n, run0 (map from_peer [b3; b2; b1]) = Done n /\
    k_hash g0 = p_genesis p0 /\ k_height g0 = 0 /\ k_version g0 = 1%Z /\
    map (fun b => map x_id (k_txs b)) (c_index (n_chain n)) = [[1]; [1]; [1; 40]; [1]].
  Proof. eexists. split; [vm_compute; reflexivity|]. do 3 (split; [reflexivity|]). vm_compute. reflexivity. Qed.

  (** Refuted: a block gives way in the store to blocks of lower height. A height of 2^31 or more
      counts as negative there: 751 blocks at such a height, which nobody has to sign, fill the store, and
      no block at an honest height is kept any more. *)
  Definition far (i : N) : blk := mkBlk (1000 + i) (5000 + i) 2147483648 100 1 100 0 500 true [reward0 true].
  Definition squat : list event := map (fun i => from_peer (far (N.of_nat i))) (seq 0 (N.to_nat 751)).

  Lemma full_from es : match run0 es with
    | Done n =>
        let q := n_pool n in
        (N.of_nat (length (kept n)) =? 751) && negb (N.of_nat (length (q_by_prev q)) <=? max_orphans) &&
        match set_last (q_set q) with
        | Some a => match deref q a with Done o => (o_height o <? 0)%Z | _ => false end
        | None => false
        end
    | _ => false end = true ->
    run0 es = Done (reached es) /\ length (kept (reached es)) = N.to_nat 751 /\
    forall e, k_height (e_block e) < 2147483648 -> k_prev (e_block e) <> 0 ->
      ~ knows (reached es) (k_prev (e_block e)) -> arrive p0 rate0 forked0 best0 (reached es) e = Done (reached es).
  Proof.
    intros T. assert (R : run0 es = Done (reached es)) by (apply reached_ok; destruct (run0 es); auto).
    rewrite R in T. cbn zeta in T. set (q := n_pool (reached es)) in T.
    apply andb_true_iff in T as [T T3]. apply andb_true_iff in T as [T1 T2].
    split; [exact R|]. split. { apply N.eqb_eq in T1. lia. } clear R T1.
    intros e Hh Np Kp. set (n := reached es) in *. clearbody n. rewrite knows_iff in Kp. apply not_true_is_false in Kp.
    unfold arrive. destruct (e_peer e) eqn:Pe; cbn [andb].
    - destruct (k_height (e_block e) <? e_final e); [reflexivity|]. unfold process.
      destruct (known (n_chain n) (k_hash (e_block e))); [reflexivity|].
      destruct (existsb _ (q_by_hash (n_pool n))); [reflexivity|].
      destruct (check_block p0 (e_clock e) (e_block e)); cbn [negb]; [|reflexivity].
      rewrite Kp, (proj2 (N.eqb_neq _ _) Np). cbn [negb andb]. unfold prune. fold q.
      apply negb_true_iff in T2. rewrite T2. destruct (set_last (q_set q)) as [a|]; [|discriminate].
      destruct (deref q a) as [o| | |]; try discriminate. cbn [bind].
      assert (X : (o_height o <=? signed32 (k_height (e_block e)))%Z = true).
      { apply Z.ltb_lt in T3. apply Z.leb_le. unfold signed32. rewrite (proj2 (N.ltb_lt _ _) Hh). lia. }
      rewrite X. cbn [bind]. unfold q. now destruct n.
    - unfold process.
      destruct (known (n_chain n) (k_hash (e_block e))); [reflexivity|].
      destruct (existsb _ (q_by_hash (n_pool n))); [reflexivity|].
      destruct (check_block p0 (e_clock e) (e_block e)); cbn [negb]; [|reflexivity].
      rewrite Kp, (proj2 (N.eqb_neq _ _) Np). reflexivity.
  Qed.

  Theorem c75_full_refuted : exists es n, run0 es = Done n /\ length (kept n) = N.to_nat 751 /\
    forall e, k_height (e_block e) < 2147483648 -> k_prev (e_block e) <> 0 ->
      ~ knows n (k_prev (e_block e)) -> arrive p0 rate0 forked0 best0 n e = Done n.
  Proof.
    exists squat, (reached squat). apply full_from. vm_compute. reflexivity.
  Qed.
  Print Assumptions c75_full_refuted.

  Example c75_index_case : exists n, run0 (map from_peer [b3; b2; b1]) = Done n /\
    c_tip (n_chain n) = 13 /\ map k_height (c_index (n_chain n)) = [0; 1; 2; 3].
  Proof. eexists. split; [vm_compute; reflexivity|]. split; vm_compute; reflexivity. Qed.
End Instance.
