(** Proofs about the memory of recent transaction ids: what it answers after each event of a node. *)
From Coq Require Import List Bool NArith ZArith Lia Arith ZifyBool ZifyNat ZifyN.
From Verif Require Import Prelude PreludeFacts DexModel DexProofs ReplayModel ReplaySpec.
Import ListNotations.
Open Scope N_scope.

Definition memb (t : N) (l : list N) : bool := existsb (N.eqb t) l.
Lemma memb_spec t l : memb t l = true <-> In t l.
Proof.
  unfold memb. rewrite existsb_exists. split.
  - intros (x & I & E). apply N.eqb_eq in E. now subst.
  - intros I. exists t. split; [easy|apply N.eqb_refl].
Qed.
Lemma memb_false t l : memb t l = false <-> ~ In t l.
Proof. rewrite <- memb_spec. destruct (memb t l); split; congruence. Qed.

(** ** Layers *)
Lemma has_put m t x s u : has (fput N.eqb m t x :: s) u = if N.eqb u t then x else has (m :: s) u.
Proof.
  cbn. destruct (N.eqb_spec u t) as [-> |N].
  - now rewrite (fget_put_same N.eqb N_eqb_ok).
  - now rewrite (fget_put_other N.eqb N_eqb_ok).
Qed.
Lemma has_del m t u : has [fdel N.eqb m t] u = if N.eqb u t then false else has [m] u.
Proof.
  cbn. rewrite (fget_del N.eqb N_eqb_ok). now destruct (N.eqb u t).
Qed.
Lemma has_add b m s t : has (add_txs b m :: s) t = memb t b || has (m :: s) t.
Proof.
  revert m. induction b as [|x b IH]; intros m; [easy|]. cbn [add_txs]. rewrite IH, has_put.
  unfold memb at 2. cbn [existsb]. fold (memb t b). destruct (N.eqb t x); destruct (memb t b); reflexivity.
Qed.
Definition based (s : list (list (N * bool))) : bool := match s with [] => false | _ => true end.
Lemma has_remove b m s t : has (remove_txs (based s) b m :: s) t = negb (memb t b) && has (m :: s) t.
Proof.
  revert m. induction b as [|x b IH]; intros m; [easy|]. cbn [remove_txs]. rewrite IH.
  unfold memb at 2. cbn [existsb]. fold (memb t b).
  assert (E : has ((if based s then fput N.eqb m x false else fdel N.eqb m x) :: s) t = if N.eqb t x then false else has (m :: s) t).
  { destruct s as [|y s]; cbn [based]; [apply has_del|apply has_put]. }
  rewrite E. destruct (N.eqb t x); destruct (memb t b); reflexivity.
Qed.
Lemma has_write top m t : NoDup (keys top) -> has [write_txs top m] t = has [top; m] t.
Proof.
  revert m. induction top as [|(u, x) top IH]; intros m D; [easy|].
  inversion D as [|? ? N D']; subst. cbn [write_txs]. rewrite (IH _ D').
  cbn [has fget]. destruct (N.eqb_spec t u) as [-> |Q].
  - rewrite (proj2 (fget_none N.eqb N_eqb_ok top u) N). destruct x.
    + now rewrite (fget_put_same N.eqb N_eqb_ok).
    + rewrite (fget_del N.eqb N_eqb_ok), N.eqb_refl. reflexivity.
  - destruct (fget N.eqb top t); [easy|]. destruct x.
    + now rewrite (fget_put_other N.eqb N_eqb_ok).
    + rewrite (fget_del N.eqb N_eqb_ok). now destruct (N.eqb_spec t u).
Qed.
Lemma nodup_add b m : NoDup (keys m) -> NoDup (keys (add_txs b m)).
Proof. revert m. induction b as [|x b IH]; intros m D; [easy|]. cbn. apply IH. now apply (nodup_put N.eqb N_eqb_ok). Qed.
Lemma nodup_remove b m : NoDup (keys m) -> NoDup (keys (remove_txs true b m)).
Proof. revert m. induction b as [|x b IH]; intros m D; [easy|]. cbn. apply IH. now apply (nodup_put N.eqb N_eqb_ok). Qed.

Section Replay.
Variable kind : N -> rkind.
Variable vh : N -> Z.
Variable H : N.
Notation oth := (ordinary kind).

Lemma distinct_spec l : distinct l = true <-> NoDup l.
Proof.
  induction l as [|x l IH]; cbn; [split; [constructor|easy]|]. rewrite andb_true_iff, IH, negb_true_iff.
  change (existsb (N.eqb x) l) with (memb x l). rewrite memb_false. split.
  - intros []. now constructor.
  - intros D. now inversion D.
Qed.
Lemma check_spec b : check_block kind b = true <-> formed kind b.
Proof.
  destruct b as [|r l]; cbn [check_block].
  - split; [easy|]. intros (r & l & E & _). discriminate.
  - rewrite !andb_true_iff, distinct_spec, forallb_forall. split.
    + intros [[K F] D]. exists r, l. split; [easy|]. split; [unfold is_reward in K; now destruct (kind r)|].
      split; [|easy]. intros t I E. specialize (F t I). unfold is_reward in F. now rewrite E in F.
    + intros (r' & l' & E & K & F & D). injection E as <- <-. split; [split; [unfold is_reward; now rewrite K|]|easy].
      intros t I. specialize (F t I). unfold is_reward. now destruct (kind t).
Qed.
Lemma valid_spec cur t : valid_at kind vh H cur t = true <-> in_force kind vh H cur t.
Proof.
  unfold valid_at, in_force. destruct (kind t); [easy|easy|]. cbn zeta.
  set (h := Z.of_N (H / 2)). clearbody h. split; [intros E _; lia|intros E; specialize (E eq_refl); lia].
Qed.
Lemma oth_in_tail b t : formed kind b -> In t b -> oth t = true -> In t (tl b).
Proof.
  intros (r & l & -> & K & _) [<- |I] O; [|easy]. unfold ordinary in O. now rewrite K in O.
Qed.

(** ** What holds of a chain and the answers of its memory *)
Record inv (c : list (list N)) (v : N -> bool) : Prop := mkInv {
  i_some : c <> [];
  i_dup : forall j b, nth_error c j = Some b -> (S j < length c)%nat -> NoDup b;
  i_once : forall j j' b b' t, nth_error c j = Some b -> (S j < length c)%nat ->
    nth_error c j' = Some b' -> (S j' < length c)%nat -> In t b -> In t b' -> oth t = true -> j = j';
  i_valid : forall j b t, nth_error c j = Some b -> (S j < length c)%nat -> In t b -> oth t = true ->
    in_force kind vh H (N.of_nat (length c - 2 - j)) t;
  i_sound : forall t : N, v t = true -> In t (concat c);
  i_known : forall j b t, nth_error c j = Some b -> (S j < length c)%nat -> (j < N.to_nat H)%nat -> In t b -> oth t = true -> v t = true
}.
Lemma inv_ext c v v' : (forall t, v t = v' t) -> inv c v -> inv c v'.
Proof.
  intros E [A B C D F G]. constructor; try easy; intros.
  - apply F. now rewrite E.
  - rewrite <- E. eauto.
Qed.
Lemma in_concat_nth (t : N) c : In t (concat c) <-> exists j b, nth_error c j = Some b /\ In t b.
Proof.
  rewrite in_concat. split.
  - intros (b & I & J). apply In_nth_error in I as (j & E). eauto.
  - intros (j & b & E & J). apply nth_error_In in E. eauto.
Qed.

(** A transaction in force that is on the chain is remembered. *)
Lemma recall c v j b t : inv c v -> nth_error c j = Some b -> (S j < length c)%nat -> In t b -> oth t = true ->
  in_force kind vh H (rheight c) t -> v t = true.
Proof.
  intros I E L J O F. refine (i_known _ _ I j b t E L _ J O).
  pose proof (i_valid _ _ I j b t E L J O) as F'. unfold in_force in F, F'.
  assert (K : kind t = KOther) by (unfold ordinary in O; now destruct (kind t)).
  specialize (F K). specialize (F' K). unfold rheight in F.
  assert (Q : 2 * (H / 2) <= H) by (apply N.mul_div_le; easy).
  set (h := H / 2) in *. clearbody h. set (n := length c) in *. clearbody n. clear - F F' Q L. lia.
Qed.

Lemma connect_inv c b top base c' top' : inv c (has (top :: base)) -> r_connect kind vh H c b top base = Done (c', top') ->
  c' = b :: c /\ inv c' (has (top' :: base)).
Proof.
  intros I R. unfold r_connect in R. step R as u1 G1. step R as u2 G2.
  apply guard_done in G1. apply guard_done in G2.
  pose proof (proj1 (check_spec b) G1) as FB. rewrite forallb_forall in G2.
  assert (FO : forall t, In t b -> oth t = true -> has (top :: base) t = false /\ in_force kind vh H (rheight c) t).
  { intros t J O. specialize (G2 t (oth_in_tail b t FB J O)). unfold tx_ok in G2. apply andb_true_iff in G2 as [X Y].
    split; [now apply negb_true_iff|now apply valid_spec]. }
  assert (NEW : forall j b0 t, nth_error c j = Some b0 -> (S j < length c)%nat -> In t b -> In t b0 -> oth t = true -> False).
  { intros j b0 t E L J J0 O. destruct (FO t J O) as [X Y]. rewrite (recall _ _ _ _ _ I E L J0 O Y) in X. discriminate. }
  assert (P : exists old, c' = b :: c /\ (forall t, has (top' :: base) t = negb (memb t old) && (memb t b || has (top :: base) t))
     /\ (forall t, oth t = true -> In t old -> forall j b0, nth_error (b :: c) j = Some b0 -> (S j < length (b :: c))%nat -> (j < N.to_nat H)%nat -> In t b0 -> j = N.to_nat H)).
  { destruct (N.ltb_spec H (rheight (b :: c))) as [L|L].
    - step R as old Eo. apply need_done in Eo. injection R as <- <-. exists old. split; [easy|]. split.
      + intros t. change (match base with [] => false | _ => true end) with (based base). rewrite has_remove, has_add. reflexivity.
      + intros t O J j b0 E Lj Hj J0. unfold back_block in Eo. unfold rheight in L.
        assert (LH : (S (N.to_nat H) < length (b :: c))%nat) by lia.
        destruct j as [|j]; destruct (N.to_nat H) as [|k] eqn:EH; [easy| |lia|].
        * injection E as <-. cbn [nth_error] in Eo. exfalso. cbn [length] in LH. apply (NEW k old t Eo ltac:(lia) J0 J O).
        * f_equal. cbn [nth_error] in E, Eo. cbn [length] in Lj, LH. refine (i_once _ _ I j k b0 old t E _ Eo _ J0 J O); lia.
    - injection R as <- <-. exists []. split; [easy|]. split; [|easy]. intros t. rewrite has_add. reflexivity. }
  clear R. destruct P as (old & -> & V & W). split; [easy|].
  constructor.
  - easy.
  - intros [|j] b0 E L.
    + injection E as <-. destruct FB as (r & l & _ & _ & _ & D). exact D.
    + cbn in E, L. apply (i_dup _ _ I j b0 E). lia.
  - intros [|j] [|j'] b0 b0' t E L E' L' J J' O; [easy| | |].
    + injection E as <-. cbn in E', L'. exfalso. apply (NEW j' b0' t E' ltac:(lia) J J' O).
    + injection E' as <-. cbn in E, L. exfalso. apply (NEW j b0 t E ltac:(lia) J' J O).
    + cbn in E, E', L, L'. f_equal. refine (i_once _ _ I j j' b0 b0' t E _ E' _ J J' O); lia.
  - intros [|j] b0 t E L J O.
    + injection E as <-. destruct (FO t J O) as [_ F]. unfold rheight in F. cbn [length].
      replace (N.of_nat (S (length c) - 2 - 0)) with (N.of_nat (length c) - 1) by lia. exact F.
    + cbn in E, L. pose proof (i_valid _ _ I j b0 t E ltac:(lia) J O) as F. cbn [length].
      replace (S (length c) - 2 - S j)%nat with (length c - 2 - j)%nat by lia. exact F.
  - intros t X. rewrite V in X. apply andb_true_iff in X as [_ X]. apply orb_true_iff in X as [X|X]; cbn; apply in_or_app.
    + left. now apply memb_spec.
    + right. now apply (i_sound _ _ I).
  - intros j b0 t E L Hj J O. rewrite V.
    assert (X : negb (memb t old) = true).
    { apply negb_true_iff, memb_false. intros J'. pose proof (W t O J' j b0 E L Hj J). lia. }
    rewrite X. cbn [andb]. apply orb_true_iff. destruct j as [|j].
    + injection E as <-. left. now apply memb_spec.
    + right. cbn in E, L. refine (i_known _ _ I j b0 t E _ _ J O); lia.
Qed.

Hypothesis Hpos : 0 < H.
Lemma disconnect_inv c top base c' top' : inv c (has (top :: base)) -> r_disconnect H c top base = Done (c', top') ->
  (exists b, c = b :: c') /\ inv c' (has (top' :: base)).
Proof.
  intros I R. destruct c as [|b [|b' c]]; [discriminate|discriminate|].
  unfold r_disconnect in R. set (c0 := b' :: c) in *.
  assert (P : exists old, c' = c0 /\ (forall t, has (top' :: base) t = memb t old || (negb (memb t b) && has (top :: base) t))
     /\ (forall t, In t old -> In t (concat c0))
     /\ (forall j b0, S j = N.to_nat H -> nth_error c0 j = Some b0 -> (S j < length c0)%nat -> b0 = old)).
  { destruct (N.ltb_spec H (rheight (b :: c0))) as [L|L].
    - step R as old Eo. apply need_done in Eo. injection R as <- <-.
      unfold back_block in Eo. exists old. split; [easy|]. split.
      + intros t. rewrite has_add. change (match base with [] => false | _ => true end) with (based base). now rewrite has_remove.
      + destruct (N.to_nat H) as [|k] eqn:EH; [lia|]. cbn [nth_error] in Eo. split.
        * intros t J. apply in_concat_nth. eauto.
        * intros j b0 Ej E _. congruence.
    - injection R as <- <-. exists []. split; [easy|]. split; [|split; [easy|]].
      + intros t. change (match base with [] => false | _ => true end) with (based base). now rewrite has_remove.
      + intros j b0 Ej E L'. unfold rheight in L. cbn [length] in L. lia. }
  clear R. destruct P as (old & -> & V & W & X). split; [now exists b|].
  constructor.
  - easy.
  - intros j b0 E L. apply (i_dup _ _ I (S j) b0 E). cbn [length] in *. lia.
  - intros j j' b0 b0' t E L E' L' J J' O.
    assert (Q : S j = S j') by (refine (i_once _ _ I (S j) (S j') b0 b0' t E _ E' _ J J' O); cbn [length] in *; lia). lia.
  - intros j b0 t E L J O. pose proof (i_valid _ _ I (S j) b0 t E ltac:(cbn [length] in *; lia) J O) as F. cbn [length] in F, L |- *.
    replace (S (length c0) - 2 - S j)%nat with (length c0 - 2 - j)%nat in F by lia. exact F.
  - intros t Y. rewrite V in Y. apply orb_true_iff in Y as [Y|Y].
    + apply W. now apply memb_spec.
    + apply andb_true_iff in Y as [N Y]. apply negb_true_iff, memb_false in N. apply (i_sound _ _ I) in Y.
      cbn [concat] in Y. apply in_app_or in Y as [Y|Y]; [easy|exact Y].
  - intros j b0 t E L Hj J O0. rewrite V. apply orb_true_iff.
    destruct (Nat.eq_dec (S j) (N.to_nat H)) as [Q|Q].
    + left. rewrite <- (X j b0 Q E L). now apply memb_spec.
    + right. apply andb_true_iff. split.
      * apply negb_true_iff, memb_false. intros J'.
        assert (Z : O = S j) by (refine (i_once _ _ I O (S j) b b0 t eq_refl _ E _ J' J O0); cbn [length] in *; lia). discriminate.
      * refine (i_known _ _ I (S j) b0 t E _ _ J O0); cbn [length] in *; lia.
Qed.

(** ** Loading *)
Lemma has_load k c m t : has [load k c m] t = memb t (concat (firstn k c)) || has [m] t.
Proof.
  revert c m. induction k as [|k IH]; intros [|b c] m; try easy. cbn [load firstn concat]. rewrite IH, has_add.
  unfold memb. rewrite existsb_app. destruct (existsb (N.eqb t) b), (existsb (N.eqb t) (concat (firstn k c))); reflexivity.
Qed.
Lemma has_add_blocks l m t : has [add_blocks l m] t = memb t (concat l) || has [m] t.
Proof.
  revert m. induction l as [|b l IH]; intros m; [easy|]. cbn [add_blocks concat]. rewrite IH, has_add.
  unfold memb. rewrite existsb_app. destruct (existsb (N.eqb t) b), (existsb (N.eqb t) (concat l)); reflexivity.
Qed.
Lemma memb_eq t l l' : (forall x, In x l <-> In x l') -> memb t l = memb t l'.
Proof.
  intros E. destruct (memb t l) eqn:A, (memb t l') eqn:B; try easy.
  - apply memb_spec, E, memb_spec in A. congruence.
  - apply memb_spec, E, memb_spec in B. congruence.
Qed.
Lemma has_reload c t : has [reload_cache H c] t = memb t (concat (firstn (S (N.to_nat H)) c)).
Proof.
  unfold reload_cache. rewrite has_add_blocks. cbn [has fget]. rewrite orb_false_r. apply memb_eq. intros x.
  rewrite !in_concat. split; intros (l & A & B); exists l; (split; [|easy]); [now apply in_rev in A|now apply -> in_rev].
Qed.
Lemma nth_firstn {A} (k j : nat) (c : list A) : (j < k)%nat -> nth_error (firstn k c) j = nth_error c j.
Proof. revert j c. induction k as [|k IH]; intros [|j] [|x c] L; try easy; try lia. cbn. apply IH. lia. Qed.
Lemma load_inv c v k : inv c v -> (N.to_nat H <= k)%nat -> inv c (fun t => memb t (concat (firstn k c))).
Proof.
  intros I K. constructor.
  - apply (i_some _ _ I).
  - apply (i_dup _ _ I).
  - apply (i_once _ _ I).
  - apply (i_valid _ _ I).
  - intros t X. apply memb_spec, in_concat in X as (b & A & B). apply in_concat. exists b. split; [|easy].
    rewrite <- (firstn_skipn k c). apply in_or_app. now left.
  - intros j b t E L Hj J O. apply memb_spec, in_concat. exists b. split; [|easy].
    apply (nth_error_In _ j). rewrite nth_firstn; [easy|lia].
Qed.

(** ** The events of a node *)
Lemma connect_nodup c b top m0 c' top' : NoDup (keys top) -> r_connect kind vh H c b top [m0] = Done (c', top') -> NoDup (keys top').
Proof.
  intros D R. unfold r_connect in R. step R as u1 G1. step R as u2 G2. destruct (H <? rheight (b :: c)).
  - step R as old Eo. injection R as <- <-. now apply nodup_remove, nodup_add.
  - injection R as <- <-. now apply nodup_add.
Qed.
Lemma disconnect_nodup c top m0 c' top' : NoDup (keys top) -> r_disconnect H c top [m0] = Done (c', top') -> NoDup (keys top').
Proof.
  intros D R. destruct c as [|b [|b' c]]; [discriminate|discriminate|]. unfold r_disconnect in R.
  destruct (H <? rheight (b :: b' :: c)).
  - step R as old Eo. injection R as <- <-. now apply nodup_add, nodup_remove.
  - injection R as <- <-. now apply nodup_remove.
Qed.
Lemma nodup0 : NoDup (keys (@nil (N * bool))). Proof. constructor. Qed.
Definition good (c : list (list N)) (m : list (N * bool)) : Prop := inv c (has [m]).
Lemma empty_has s t : has ([] :: s) t = has s t. Proof. reflexivity. Qed.

Lemma connect_tip_good c b m c' m' : good c m -> r_connect_tip kind vh H c b m = Done (c', m') -> c' = b :: c /\ good c' m'.
Proof.
  intros G R. unfold r_connect_tip in R. step R as x E. destruct x as [c1 top]. cbn [fst snd] in R. injection R as <- <-.
  pose proof (connect_nodup _ _ _ _ _ _ nodup0 E) as D.
  apply connect_inv in E as [-> I]; [|exact G]. split; [easy|]. unfold good.
  refine (inv_ext _ _ _ _ I). intros t. now rewrite has_write.
Qed.
Lemma disconnect_tip_good c m c' m' : good c m -> r_disconnect_tip H c m = Done (c', m') -> (exists b, c = b :: c') /\ good c' m'.
Proof.
  intros G R. unfold r_disconnect_tip in R. step R as x E. destruct x as [c1 top]. cbn [fst snd] in R. injection R as <- <-.
  pose proof (disconnect_nodup _ _ _ _ _ nodup0 E) as D.
  apply disconnect_inv in E as [X I]; [|exact G]. split; [easy|]. unfold good.
  refine (inv_ext _ _ _ _ I). intros t. now rewrite has_write.
Qed.
Lemma back_good k c m c' m' : good c m -> r_back H k c m = Done (c', m') -> good c' m' /\ c' = skipn k c.
Proof.
  revert c m. induction k as [|k IH]; intros c m G R; cbn [r_back] in R.
  - injection R as <- <-. easy.
  - step R as x E. destruct x as [c1 m1]. cbn [fst snd] in R. apply disconnect_inv in E as [[b ->] I]; [|exact G].
    apply (IH c1 m1); easy.
Qed.
Lemma on_good bs c top m c' top' : inv c (has [top; m]) -> NoDup (keys top) -> r_on kind vh H c bs top m = Done (c', top') ->
  inv c' (has [top'; m]) /\ NoDup (keys top') /\ c' = rev bs ++ c.
Proof.
  revert c top. induction bs as [|b bs IH]; intros c top I D R; cbn [r_on] in R.
  - injection R as <- <-. easy.
  - step R as x E. destruct x as [c1 t1]. cbn [fst snd] in R. pose proof (connect_nodup _ _ _ _ _ _ D E) as D'.
    apply connect_inv in E as [-> I']; [|exact I]. destruct (IH _ _ I' D' R) as (A & B & ->). split; [easy|]. split; [easy|].
    cbn [rev]. now rewrite <- app_assoc.
Qed.
Lemma fork_good c bs m c' m' : good c m -> r_fork kind vh H c bs m = Done (c', m') -> good c' m' /\ c' = rev bs ++ c.
Proof.
  intros G R. unfold r_fork in R. step R as x E. destruct x as [c1 top]. cbn [fst snd] in R. injection R as <- <-.
  destruct (on_good bs c [] m c1 top G nodup0 E) as (I & D & ->). split; [|easy]. unfold good.
  refine (inv_ext _ _ _ _ I). intros t. now rewrite has_write.
Qed.
Lemma restart_good c m c' m' : good c m -> boot kind vh H c [] = Done (c', m') -> c' = c /\ good c m'.
Proof.
  intros G R. unfold boot in R. cbn [connect_all bind fst snd] in R. injection R as <- <-. split; [easy|].
  refine (inv_ext _ _ _ _ (load_inv _ _ (N.to_nat H) G _)); [|lia]. intros t. rewrite has_load. cbn [has fget]. now rewrite orb_false_r.
Qed.
Lemma reload_good c m : good c m -> good c (reload_cache H c).
Proof.
  intros G. refine (inv_ext _ _ _ _ (load_inv _ _ (S (N.to_nat H)) G _)); [|lia]. intros t. now rewrite has_reload.
Qed.
Lemma start_good g : good [g] [].
Proof.
  constructor; cbn [length]; try easy; intros.
  - lia.
  - lia.
  - lia.
  - lia.
Qed.
Lemma lives_good g w c m : rlives kind vh H g w -> rheld w c m -> good c m /\ last c [] = g.
Proof.
  intros L. revert c m. induction L as [|w e w' L IH S]; intros c m HH.
  - destruct HH as [[-> ->]|[]]. split; [apply start_good|easy].
  - destruct (IH _ _ (or_introl (conj eq_refl eq_refl))) as [GT LT].
    assert (LC : forall b c0, c0 <> [] -> last (b :: c0) [] = last c0 ([] : list N)) by (intros b [|y c0]; easy).
    assert (NE : forall c0 m0, good c0 m0 -> c0 <> []) by (intros c0 m0 G; exact (i_some _ _ G)).
    destruct e as [b| | | |k|i bs]; cbn [rstep] in S.
    + step S as x E. destruct x as [c1 m1]. injection S as <-. destruct HH as [[-> ->]|J]; cbn [r_chain r_cache r_forks fst snd] in *.
      * destruct (connect_tip_good _ _ _ _ _ GT E) as [-> G]. split; [easy|]. rewrite LC; [easy|eauto].
      * apply IH. now right.
    + step S as x E. destruct x as [c1 m1]. injection S as <-. destruct HH as [[-> ->]|J]; cbn [r_chain r_cache r_forks fst snd] in *.
      * destruct (disconnect_tip_good _ _ _ _ GT E) as [[b Q] G]. split; [easy|]. rewrite Q, LC in LT; [easy|eauto].
      * apply IH. now right.
    + step S as x E. destruct x as [c1 m1]. injection S as <-. destruct HH as [[-> ->]|[]]; cbn [r_chain r_cache r_forks fst snd] in *.
      destruct (restart_good _ _ _ _ GT E) as [-> G]. easy.
    + injection S as <-. destruct HH as [[-> ->]|J]; cbn [r_chain r_cache r_forks fst snd] in *.
      * split; [exact (reload_good _ _ GT)|easy].
      * apply IH. now right.
    + step S as x E. destruct x as [c1 m1]. injection S as <-. destruct HH as [[-> ->]|[J|J]]; cbn [r_chain r_cache r_forks fst snd] in *.
      * easy.
      * injection J as -> ->. destruct (back_good _ _ _ _ _ GT E) as [G Q]. split; [easy|].
        pose proof (NE _ _ G) as N. clear - Q N LT. subst c. revert N LT. generalize (r_chain w). intros l. revert l.
        induction k as [|k IHk]; intros [|y l] N LT; cbn [skipn] in *; try easy.
        apply IHk; [easy|]. destruct l; [destruct k; easy|exact LT].
      * apply IH. now right.
    + step S as f Ef. step S as x E. destruct x as [c1 m1]. injection S as <-. apply need_done in Ef.
      destruct HH as [[-> ->]|[J|J]]; cbn [r_chain r_cache r_forks fst snd] in *.
      * easy.
      * injection J as -> ->. destruct f as [cf mf]. destruct (IH cf mf) as [GF LF]; [right; now apply nth_error_In in Ef|].
        destruct (fork_good _ _ _ _ _ GF E) as [G Q]. split; [easy|]. subst c. cbn [fst].
        clear - LF GF NE. pose proof (NE _ _ GF) as N. generalize (rev bs). intros l. rewrite <- LF.
        destruct (exists_last N) as (l1 & z & ->). rewrite app_assoc, !last_last. reflexivity.
      * apply IH. now right.
Qed.
End Replay.
