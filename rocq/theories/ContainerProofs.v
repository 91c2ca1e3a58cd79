(** Proofs about the bounded containers and the Bloom filter. *)
From Coq Require Import List Bool NArith ZArith Lia Permutation Sorted.
From Coq Require Import ZifyBool ZifyNat ZifyN.
From Verif Require Import Prelude PreludeFacts AccountModel DexModel DexProofs.
From Verif Require Import ContainerModel ContainerSpec.
Import ListNotations.
Open Scope N_scope.

Lemma size_app {A} (a b : list A) : size (a ++ b) = size a + size b.
Proof. unfold size. rewrite app_length. lia. Qed.
Lemma size_cons {A} (x : A) l : size (x :: l) = size l + 1.
Proof. unfold size. cbn [length]. lia. Qed.

Lemma size_snoc {A} (x : A) l : size (l ++ [x]) = size l + 1.
Proof. unfold size. rewrite app_length. cbn [length]. lia. Qed.

Lemma skipn_nodup {A} n (l : list A) : NoDup l -> NoDup (skipn n l).
Proof.
  intros D. rewrite <- (firstn_skipn n l) in D. revert D.
  generalize (firstn n l) (skipn n l). intros a b. induction a as [|x a IH]; cbn; [easy|].
  intros D. inversion D; subst. now apply IH.
Qed.

(** * The set *)
Section Mru.
  Context {T : Type}.
  Variable eqb : T -> T -> bool.
  Hypothesis eqb_ok : forall a b, eqb a b = true <-> a = b.

  Lemma mem_in x l : mem eqb x l = true <-> In x l.
  Proof.
    unfold mem. rewrite existsb_exists. split.
    - intros (y & I & E). apply eqb_ok in E. now subst.
    - intros I. exists x. split; [easy|]. now apply eqb_ok.
  Qed.
  Lemma mem_out x l : mem eqb x l = false <-> ~ In x l.
  Proof. rewrite <- mem_in. destruct (mem eqb x l); split; congruence. Qed.

  Lemma drop_in x l y : In y (drop eqb x l) <-> y <> x /\ In y l.
  Proof.
    unfold drop. rewrite filter_In, negb_true_iff. split.
    - intros [I E]. split; [|easy]. intros ->.
      assert (eqb x x = true) by now apply eqb_ok. congruence.
    - intros [N I]. split; [easy|]. destruct (eqb x y) eqn:E; [|easy].
      apply eqb_ok in E. now subst.
  Qed.
  Lemma drop_nodup x l : NoDup l -> NoDup (drop eqb x l).
  Proof. apply NoDup_filter. Qed.

  (** One call. *)
  Definition scall_run (s : mru (T:=T)) (c : scall T) : outcome mru :=
    match c with
    | Put x => do r <- mru_insert eqb s x; Done (fst r)
    | Cap n => Done (mru_resize eqb s n)
    | Empty => Done (mru_clear s)
    end.
  Fixpoint scalls_run (s : mru (T:=T)) (cs : list (scall T)) : outcome mru :=
    match cs with [] => Done s | c :: cs => do s1 <- scall_run s c; scalls_run s1 cs end.

  Lemma scalls_app s a b : scalls_run s (a ++ b) = do s1 <- scalls_run s a; scalls_run s1 b.
  Proof.
    revert s. induction a as [|c a IH]; intros s; cbn [app scalls_run bind]; [easy|].
    destruct (scall_run s c); cbn [bind]; auto.
  Qed.

  Definition mru_inv (s : mru) (n : N) (l : list T) : Prop :=
    u_queue s = l /\ u_max s = n /\ NoDup l /\ NoDup (u_set s)
    /\ (forall x, In x (u_set s) <-> In x l) /\ (n <> 0 -> size l <= n).

  Lemma last_of_le {A} n (l : list A) : n <> 0 -> size (last_of n l) <= n.
  Proof.
    intros P. unfold last_of. destruct (N.eqb_spec n 0); [easy|].
    unfold size. rewrite skipn_length. lia.
  Qed.
  Lemma last_of_all {A} n (l : list A) : n <> 0 -> size l <= n -> last_of n l = l.
  Proof.
    intros P L. unfold last_of. destruct (N.eqb_spec n 0); [easy|]. unfold size in L.
    replace (length l - N.to_nat n)%nat with 0%nat by lia. reflexivity.
  Qed.
  Lemma last_of_drop {A} n (y : A) l : n <> 0 -> n < size (y :: l) -> last_of n (y :: l) = last_of n l.
  Proof.
    intros P L. unfold last_of. destruct (N.eqb_spec n 0); [easy|]. unfold size in L.
    cbn [length] in *. replace (Datatypes.S (length l) - N.to_nat n)%nat
      with (Datatypes.S (length l - N.to_nat n)) by lia. reflexivity.
  Qed.

  Lemma nodup_snoc (l : list T) x : NoDup l -> ~ In x l -> NoDup (l ++ [x]).
  Proof.
    intros D I. eapply Permutation_NoDup; [apply Permutation_cons_append|]. now constructor.
  Qed.

  Lemma put_inv s n l x : mru_inv s n l ->
    exists s', scall_run s (Put x) = Done s'
      /\ (In x l -> mru_inv s' n l) /\ (~ In x l -> mru_inv s' n (last_of n (l ++ [x]))).
  Proof.
    intros (Q & M & D & DS & I & L). cbn [scall_run]. unfold mru_insert. rewrite Q, M.
    destruct (mem eqb x (u_set s)) eqn:Hm.
    - apply mem_in in Hm. exists s. split; [reflexivity|]. split; [repeat split; auto; apply I|].
      intros C. now apply I in Hm.
    - apply mem_out in Hm. assert (Hl : ~ In x l) by (rewrite <- I; exact Hm).
      destruct (N.eqb_spec n 0) as [Z|Z]; cbn [negb andb].
      + eexists. split; [reflexivity|]. split; [easy|]. intros _. unfold last_of.
        rewrite (proj2 (N.eqb_eq n 0) Z). unfold mru_inv; cbn.
        split; [easy|]. split; [easy|]. split; [now apply nodup_snoc|].
        split; [now constructor|]. split; [|easy].
        intros y. rewrite in_app_iff, <- I. cbn. tauto.
      + destruct (N.eqb_spec (size l) n) as [F|F].
        * destruct l as [|y q]; [unfold size in F; cbn in F; lia|].
          eexists. split; [reflexivity|]. split; [easy|]. intros _.
          cbn [app]. rewrite last_of_drop;
            [|easy|rewrite size_cons, size_snoc; rewrite size_cons in F; lia].
          rewrite last_of_all; [|easy|rewrite size_snoc; rewrite size_cons in F; lia].
          inversion D as [|? ? Ny Dq]; subst. unfold mru_inv; cbn.
          split; [easy|]. split; [easy|].
          split; [apply nodup_snoc; [easy|intros C; apply Hl; now right]|].
          split; [apply (drop_nodup y (x :: u_set s)); now constructor|]. split.
          -- intros z. fold (drop eqb y (x :: u_set s)).
             transitivity (In z (drop eqb y (x :: u_set s))); [reflexivity|].
             rewrite drop_in, in_app_iff. cbn [In]. rewrite I. cbn [In].
             split.
             ++ intros [Nz [<-|[<-|Iz]]]; [now right; left|easy|now left].
             ++ intros [Iz|[<-|[]]].
                ** split; [|now right; right]. intros ->. easy.
                ** split; [|now left]. intros ->. apply Hl. now left.
          -- intros _. rewrite size_snoc. rewrite size_cons in F. lia.
        * eexists. split; [reflexivity|]. split; [easy|]. intros _.
          specialize (L Z).
          rewrite last_of_all; [|easy|rewrite size_snoc; lia].
          unfold mru_inv; cbn. split; [easy|]. split; [easy|].
          split; [now apply nodup_snoc|]. split; [now constructor|]. split.
          -- intros y. rewrite in_app_iff, <- I. cbn. tauto.
          -- intros _. rewrite size_snoc. lia.
  Qed.

  Lemma shrink_ok n q set : n <> 0 -> NoDup q -> NoDup set -> (forall x, In x set <-> In x q) ->
    exists set', mru_shrink eqb n set q = (set', last_of n q) /\ NoDup set'
      /\ (forall x, In x set' <-> In x (last_of n q)).
  Proof.
    intros P. revert set. induction q as [|y q IH]; intros set D DS I; cbn [mru_shrink].
    - exists set. unfold last_of. destruct (n =? 0); cbn; auto.
    - destruct (N.ltb_spec n (size (y :: q))) as [F|F].
      + inversion D as [|? ? Ny Dq]; subst. rewrite last_of_drop by easy.
        apply IH; [easy|now apply drop_nodup|]. intros z. rewrite drop_in, I. cbn [In].
        split; [intros [? [<-|?]]; easy|]. intros Iz. split; [|now right]. intros ->. easy.
      + exists set. rewrite last_of_all by easy. auto.
  Qed.

  Lemma cap_inv s n l m : mru_inv s n l -> mru_inv (mru_resize eqb s m) m (last_of m l).
  Proof.
    intros (Q & M & D & DS & I & L). unfold mru_resize. rewrite Q.
    destruct (N.eqb_spec m 0) as [Z|Z].
    - unfold last_of. rewrite (proj2 (N.eqb_eq m 0) Z). unfold mru_inv; cbn. easy.
    - destruct (shrink_ok m l (u_set s) Z D DS I) as (set' & E & D' & I'). rewrite E.
      unfold mru_inv; cbn. split; [easy|]. split; [easy|].
      split; [unfold last_of; destruct (m =? 0); [easy|now apply skipn_nodup]|].
      split; [easy|]. split; [easy|]. intros _. now apply last_of_le.
  Qed.

  Lemma mru_runs n0 cs : exists s n l,
    scalls_run (mru_new n0) cs = Done s /\ held n0 cs n l /\ mru_inv s n l.
  Proof.
    induction cs as [|c cs IH] using rev_ind.
    - exists (mru_new n0), n0, []. split; [reflexivity|]. split; [constructor|].
      unfold mru_inv, mru_new; cbn. repeat split; auto; try constructor; try easy.
      unfold size; cbn; lia.
    - destruct IH as (s & n & l & E & H & V). rewrite scalls_app, E. cbn [bind scalls_run].
      destruct c as [x|m|].
      + destruct (put_inv s n l x V) as (s' & E' & K & W). rewrite E'. cbn [bind].
        destruct (in_dec (fun a b => eqb_case eqb eqb_ok a b) x l) as [I|I].
        * exists s', n, l. split; [easy|]. split; [now constructor|auto].
        * exists s', n, (last_of n (l ++ [x])). split; [easy|]. split; [now constructor|auto].
      + exists (mru_resize eqb s m), m, (last_of m l). split; [easy|].
        split; [now econstructor; eauto|]. now apply cap_inv with n.
      + exists (mru_clear s), n, []. split; [easy|]. split; [now econstructor; eauto|].
        destruct V as (Q & M & D & DS & I & L). unfold mru_inv; cbn.
        split; [easy|]. split; [easy|]. split; [constructor|]. split; [constructor|].
        split; [easy|]. unfold size; cbn; lia.
  Qed.

  Lemma inv_size s n l : mru_inv s n l -> mru_size s = size l.
  Proof.
    intros (_ & _ & D & DS & I & _). unfold mru_size, size. f_equal.
    apply Permutation_length. apply NoDup_Permutation; auto.
  Qed.

  Lemma last_of_new n (l : list T) x : In x (last_of n (l ++ [x])).
  Proof.
    unfold last_of. destruct (N.eqb_spec n 0) as [Z|Z]; [apply in_or_app; right; now left|].
    rewrite app_length. cbn [length]. rewrite skipn_app. apply in_or_app. right.
    replace (length l + 1 - N.to_nat n - length l)%nat with 0%nat by lia. now left.
  Qed.
  Lemma held_put n0 cs n (l : list T) x : held n0 (cs ++ [Put x]) n l -> In x l.
  Proof.
    intros H. remember (cs ++ [Put x]) as cs' eqn:E. destruct H;
      try (apply app_inj_tail in E; destruct E as [_ E]; try discriminate E; injection E as ->).
    - now destruct (app_cons_not_nil _ _ _ E).
    - easy.
    - apply last_of_new.
  Qed.

  Lemma held_fun n0 cs n1 l1 n2 l2 :
    held n0 cs n1 l1 -> held n0 cs n2 l2 -> n1 = n2 /\ @eq (list T) l1 l2.
  Proof.
    intros H. revert n2 l2. induction H; intros n2 l2 H2; inversion H2; subst;
      try (match goal with E : _ ++ [_] = [] |- _ => now destruct (app_cons_not_nil _ _ _ (eq_sym E)) end);
      try (match goal with E : [] = _ ++ [_] |- _ => now destruct (app_cons_not_nil _ _ _ E) end);
      try easy;
      match goal with E : _ ++ [_] = _ ++ [_] |- _ =>
        apply app_inj_tail in E; destruct E as [<- E]; try discriminate E; try (injection E as <-) end;
      match goal with IH : forall _ _, held _ ?c _ _ -> _, B : held _ ?c _ _ |- _ =>
        destruct (IH _ _ B) as [-> ->] end; auto; try contradiction.
  Qed.
End Mru.

(** * The first-in-first-out map *)
Section Fifo.
  Context {K V : Type}.
  Variable eqb : K -> K -> bool.
  Hypothesis eqb_ok : forall a b, eqb a b = true <-> a = b.

  Definition mcall_run (s : fifo (K:=K) (V:=V)) (c : mcall K V) : outcome fifo :=
    match c with
    | MPut k v => fifo_insert eqb s k v
    | MSet k v => Done (fifo_update eqb s k v)
    | MCap n => fifo_resize eqb s n
    end.
  Fixpoint mcalls_run (s : fifo (K:=K) (V:=V)) (cs : list (mcall K V)) : outcome fifo :=
    match cs with [] => Done s | c :: cs => do s1 <- mcall_run s c; mcalls_run s1 cs end.

  Lemma mcalls_app s a b : mcalls_run s (a ++ b) = do s1 <- mcalls_run s a; mcalls_run s1 b.
  Proof.
    revert s. induction a as [|c a IH]; intros s; cbn [app mcalls_run bind]; [easy|].
    destruct (mcall_run s c); cbn [bind]; auto.
  Qed.

  (** All but the capacity. *)
  Definition fifo_rel (s : fifo (K:=K) (V:=V)) (l : list (K * V)) : Prop :=
    f_keys s = keys l /\ NoDup (keys l) /\ NoDup (keys (f_map s))
    /\ (forall k, fget eqb (f_map s) k = fget eqb l k).

  Lemma rel_keys s l k : fifo_rel s l -> In k (keys (f_map s)) <-> In k (keys l).
  Proof.
    intros (_ & _ & _ & E). specialize (E k).
    destruct (fget eqb l k) eqn:F.
    - split; intros _; eapply fget_some_key; eauto.
    - apply fget_none in E; [|easy]. apply fget_none in F; [|easy]. tauto.
  Qed.
  Lemma rel_size s l : fifo_rel s l -> size (f_map s) = size l.
  Proof.
    intros R. pose proof R as (Q & D & D' & E). unfold size.
    rewrite <- (map_length fst (f_map s)), <- (map_length fst l). f_equal.
    apply Permutation_length, NoDup_Permutation; auto. intros k. now apply rel_keys.
  Qed.

  Lemma put_absent {W} (m : list (K * W)) k v : fget eqb m k = None -> fput eqb m k v = m ++ [(k, v)].
  Proof.
    induction m as [|[a b] m IH]; cbn; [easy|]. destruct (eqb k a); [discriminate|].
    intros E. now rewrite IH.
  Qed.
  Lemma fget_app {W} (a b : list (K * W)) k :
    fget eqb (a ++ b) k = match fget eqb a k with Some v => Some v | None => fget eqb b k end.
  Proof.
    induction a as [|[x y] a IH]; cbn; [easy|]. now destruct (eqb k x).
  Qed.

  Lemma first_rel s k v l : fifo_rel s ((k, v) :: l) ->
    exists s', erase_first eqb s = Done s' /\ fifo_rel s' l /\ f_max s' = f_max s.
  Proof.
    intros (Q & D & D' & E). unfold erase_first. rewrite Q. cbn [keys map fst].
    eexists. split; [reflexivity|]. split; [|reflexivity].
    inversion D as [|? ? Nk Dl]; subst.
    split; [reflexivity|]. split; [easy|]. split; [now apply nodup_del|].
    intros x. cbn [f_map]. rewrite fget_del by easy. destruct (eqb x k) eqn:X.
    - apply eqb_ok in X. subst x. symmetry. now apply fget_none.
    - rewrite E. cbn [fget]. now rewrite X.
  Qed.

  Lemma newest_drop {A} n (y : A) l : n < size (y :: l) -> newest n (y :: l) = newest n l.
  Proof.
    intros L. unfold newest. unfold size in L. cbn [length] in *.
    replace (Datatypes.S (length l) - N.to_nat n)%nat
      with (Datatypes.S (length l - N.to_nat n)) by lia. reflexivity.
  Qed.
  Lemma newest_all {A} n (l : list A) : size l <= n -> newest n l = l.
  Proof.
    intros L. unfold newest, size in *.
    replace (length l - N.to_nat n)%nat with 0%nat by lia. reflexivity.
  Qed.
  Lemma newest_le {A} n (l : list A) : size (newest n l) <= n.
  Proof. unfold newest, size. rewrite skipn_length. lia. Qed.

  Definition fifo_inv s n l : Prop := fifo_rel s l /\ f_max s = Some n /\ size l <= n.

  Lemma mput_inv s n l k v : fifo_inv s n l ->
    exists s', fifo_insert eqb s k v = Done s'
      /\ (In k (keys l) -> fifo_inv s' n l)
      /\ (~ In k (keys l) -> fifo_inv s' n (newest n (l ++ [(k, v)]))).
  Proof.
    intros (R & M & L). pose proof R as (Q & D & D' & E). unfold fifo_insert. rewrite M.
    unfold fmem. rewrite E. destruct (fget eqb l k) as [w|] eqn:F.
    - rewrite (rel_size _ _ R). destruct (N.ltb_spec n (size l)); [lia|].
      exists s. split; [reflexivity|]. split; [now intros _|].
      intros C. exfalso. apply C. eapply fget_some_key; eauto.
    - assert (Nk : ~ In k (keys l)) by now apply (fget_none eqb eqb_ok).
      set (s1 := mkFifo _ _ _).
      assert (R1 : fifo_rel s1 (l ++ [(k, v)])).
      { unfold s1. split; [cbn; rewrite Q; unfold keys; rewrite map_app; reflexivity|].
        split. { unfold keys. rewrite map_app. cbn. eapply Permutation_NoDup;
                 [apply Permutation_cons_append|]. now constructor. }
        split; [cbn; now apply nodup_put|]. intros x. cbn [f_map].
        rewrite fget_put, fget_app, E by easy. cbn [fget].
        destruct (eqb x k) eqn:X.
        - apply eqb_ok in X. subst x. now rewrite F.
        - now destruct (fget eqb l x). }
      rewrite (rel_size _ _ R1).
      destruct (N.ltb_spec n (size (l ++ [(k, v)]))) as [G|G].
      + destruct l as [|[k0 v0] l].
        * destruct (first_rel s1 k v [] R1) as (s' & E' & R' & M').
          exists s'. split; [easy|]. split; [easy|]. intros _.
          cbn [app] in *. rewrite newest_drop by easy.
          split; [|split; [now rewrite M'|apply newest_le]].
          rewrite newest_all; [easy|]. unfold size; cbn; lia.
        * destruct (first_rel s1 k0 v0 (l ++ [(k, v)]) R1) as (s' & E' & R' & M').
          exists s'. split; [easy|]. split; [easy|]. intros _.
          cbn [app]. rewrite newest_drop by (cbn [app] in G; exact G).
          rewrite newest_all by (rewrite size_snoc; rewrite size_cons in L; lia).
          split; [easy|]. split; [now rewrite M'|]. rewrite size_snoc. rewrite size_cons in L. lia.
      + exists s1. split; [easy|]. split; [easy|]. intros _.
        rewrite newest_all by easy. split; [easy|]. split; easy.
  Qed.

  Lemma fshrink_ok n s l fuel : fifo_rel s l -> (length l <= fuel)%nat ->
    exists s', fifo_shrink eqb fuel n s = Done s' /\ fifo_rel s' (newest n l).
  Proof.
    revert s l. induction fuel as [|fuel IH]; intros s l R L; cbn [fifo_shrink];
      rewrite (rel_size _ _ R).
    - destruct l; [|cbn in L; lia].
      exists s. split; [|now rewrite newest_all by (unfold size; cbn; lia)].
      destruct (N.ltb_spec n (size (A:=K*V) [])) as [C|C]; [unfold size in C; cbn in C; lia|easy].
    - destruct (N.ltb_spec n (size l)) as [C|C].
      + destruct l as [|[k v] l]; [unfold size in C; cbn in C; lia|].
        destruct (first_rel s k v l R) as (s1 & E1 & R1 & _). rewrite E1. cbn [bind].
        rewrite newest_drop by easy. apply IH; [easy|cbn in L; lia].
      + exists s. split; [easy|]. now rewrite newest_all.
  Qed.

  Lemma mcap_inv s l n : 0 < n -> fifo_rel s l ->
    exists s', fifo_resize eqb s n = Done s' /\ fifo_inv s' n (newest n l).
  Proof.
    intros P R. unfold fifo_resize, asserted. destruct (N.ltb_spec 0 n); [|lia]. cbn [bind].
    destruct (fshrink_ok n s l (length (f_map s)) R) as (s1 & E & R1).
    { pose proof (rel_size _ _ R) as Z. unfold size in Z. lia. }
    rewrite E. cbn [bind]. eexists. split; [reflexivity|]. split; [exact R1|].
    split; [reflexivity|apply newest_le].
  Qed.

  Lemma mset_inv s n l1 l2 k v v' : fifo_inv s n (l1 ++ (k, v) :: l2) ->
    fifo_inv (fifo_update eqb s k v') n (l1 ++ (k, v') :: l2).
  Proof.
    intros (R & M & L). pose proof R as (Q & D & D' & E).
    assert (KE : keys (l1 ++ (k, v') :: l2) = keys (l1 ++ (k, v) :: l2))
      by (unfold keys; now rewrite !map_app).
    assert (Nk : ~ In k (keys l1)).
    { unfold keys in D. rewrite map_app in D. cbn in D. apply NoDup_remove_2 in D.
      intros C. apply D, in_or_app. now left. }
    unfold fifo_update, fmem. rewrite E, fget_app.
    rewrite (proj2 (fget_none eqb eqb_ok l1 k) Nk). cbn [fget].
    rewrite (eqb_same eqb eqb_ok). split; [|split].
    - split; [cbn; now rewrite KE|]. split; [now rewrite KE|]. split; [cbn; now apply nodup_put|].
      intros x. cbn [f_map]. rewrite fget_put, fget_app by easy. cbn [fget].
      destruct (eqb x k) eqn:X.
      + apply eqb_ok in X. subst x. now rewrite (proj2 (fget_none eqb eqb_ok l1 k) Nk).
      + rewrite E, fget_app. cbn [fget]. now rewrite X.
    - easy.
    - unfold size in *. rewrite app_length in *. cbn [length] in *. lia.
  Qed.

  Lemma split_key (l : list (K * V)) k : In k (keys l) -> exists l1 v l2, l = l1 ++ (k, v) :: l2.
  Proof.
    unfold keys. rewrite in_map_iff. intros ([k' v] & E & I). cbn in E. subst k'.
    destruct (in_split _ _ I) as (l1 & l2 & ->). eauto.
  Qed.

  Definition caps_positive (cs : list (mcall K V)) : Prop := forall n, In (MCap n) cs -> 0 < n.

  Lemma fifo_runs n0 cs : caps_positive cs -> exists s n l,
    mcalls_run (fifo_sized n0) cs = Done s /\ mheld n0 cs n l /\ fifo_inv s n l.
  Proof.
    induction cs as [|c cs IH] using rev_ind; intros P.
    - exists (fifo_sized n0), n0, []. split; [reflexivity|]. split; [constructor|].
      unfold fifo_inv, fifo_rel, fifo_sized; cbn. repeat split; auto; try constructor.
      unfold size; cbn; lia.
    - destruct IH as (s & n & l & E & H & W).
      { intros m I. apply P, in_or_app. now left. }
      rewrite mcalls_app, E. cbn [bind mcalls_run]. destruct c as [k v|k v|m].
      + destruct (mput_inv s n l k v W) as (s' & E' & A & B). cbn [mcall_run]. rewrite E'. cbn [bind].
        destruct (in_dec (fun a b => eqb_case eqb eqb_ok a b) k (keys l)) as [I|I].
        * exists s', n, l. split; [easy|]. split; [now constructor|auto].
        * exists s', n, (newest n (l ++ [(k, v)])). split; [easy|]. split; [now constructor|auto].
      + cbn [mcall_run bind].
        destruct (in_dec (fun a b => eqb_case eqb eqb_ok a b) k (keys l)) as [I|I].
        * destruct (split_key l k I) as (l1 & v0 & l2 & ->).
          exists (fifo_update eqb s k v), n, (l1 ++ (k, v) :: l2). split; [easy|].
          split; [now apply mheld_set with v0|now apply mset_inv with v0].
        * exists s, n, l. split.
          { unfold fifo_update, fmem. destruct W as ((_ & _ & _ & F) & _).
            rewrite F, (proj2 (fget_none eqb eqb_ok l k) I). reflexivity. }
          split; [now constructor|easy].
      + assert (0 < m) by (apply P, in_or_app; right; now left).
        destruct (mcap_inv s l m) as (s' & E' & A); [easy|apply W|].
        cbn [mcall_run]. rewrite E'. cbn [bind]. exists s', m, (newest m l).
        split; [easy|]. split; [now apply mheld_cap with n|easy].
  Qed.

  (** Reading an entry that is there through [operator[]] changes nothing. *)
  Lemma at_present (d : V) (s : fifo (K:=K) (V:=V)) k v : fifo_find eqb s k = Some v -> fifo_at eqb d s k = (s, v).
  Proof. unfold fifo_find, fifo_at. now intros ->. Qed.
End Fifo.

(** * The map that drops small values *)
Section Limited.
  Context {K : Type}.
  Variable eqb : K -> K -> bool.
  Hypothesis eqb_ok : forall a b, eqb a b = true <-> a = b.

  Definition vle (a b : Z * K) : Prop := (fst a <= fst b)%Z.
  Definition swap (p : K * Z) : Z * K := (snd p, fst p).

  Definition lim_rel (s : limited (K:=K)) : Prop :=
    NoDup (keys (l_map s)) /\ StronglySorted vle (l_rmap s)
    /\ Permutation (l_rmap s) (map swap (l_map s)).
  Definition lim_inv (s : limited (K:=K)) : Prop :=
    lim_rel s /\ 0 < l_max s /\ size (l_map s) <= l_max s.

  Lemma rput_perm (r : list (Z * K)) v k : Permutation (rput r v k) ((v, k) :: r).
  Proof.
    induction r as [|[v' k'] r IH]; cbn [rput]; [easy|]. destruct (v <? v')%Z; [easy|].
    rewrite IH. apply perm_swap.
  Qed.
  Lemma rput_sorted (r : list (Z * K)) v k : StronglySorted vle r -> StronglySorted vle (rput r v k).
  Proof.
    induction r as [|[v' k'] r IH]; intros H; cbn [rput]; [repeat constructor|].
    inversion H as [|? ? Hr Ha]; subst. destruct (Z.ltb_spec v v').
    - constructor; [easy|]. constructor; [unfold vle; cbn; lia|].
      eapply Forall_impl; [|exact Ha]. unfold vle; cbn. intros; lia.
    - constructor; [now apply IH|].
      eapply Permutation_Forall; [symmetry; apply rput_perm|]. constructor; [unfold vle; cbn; lia|easy].
  Qed.

  Lemma rdel_ok (r : list (Z * K)) v k : In (v, k) r -> exists q, rdel eqb r v k = Some q /\ Permutation r ((v, k) :: q)
    /\ (StronglySorted vle r -> StronglySorted vle q).
  Proof.
    induction r as [|[v' k'] r IH]; [easy|]. intros I. cbn [rdel].
    destruct ((v =? v')%Z && eqb k k') eqn:T.
    - apply andb_true_iff in T. destruct T as [A B]. apply Z.eqb_eq in A. apply eqb_ok in B. subst.
      exists r. split; [easy|]. split; [easy|]. intros H. now inversion H.
    - destruct I as [I|I].
      + injection I as -> ->. rewrite Z.eqb_refl, (eqb_same eqb eqb_ok) in T. easy.
      + destruct (IH I) as (q & E & P & S). rewrite E. exists ((v', k') :: q).
        split; [easy|]. split; [rewrite P; apply perm_swap|].
        intros H. inversion H as [|? ? Hr Ha]; subst. constructor; [now apply S|].
        rewrite P in Ha. now inversion Ha.
  Qed.

  Lemma del_perm (m : list (K * Z)) k v : NoDup (keys m) -> In (k, v) m ->
    Permutation m ((k, v) :: fdel eqb m k).
  Proof.
    induction m as [|[a b] m IH]; [easy|]. intros D I. cbn [fdel].
    inversion D as [|? ? Na Dm]; subst. destruct (eqb k a) eqn:E.
    - apply eqb_ok in E. subst a. rewrite del_absent by (try apply (fget_none eqb eqb_ok); easy).
      destruct I as [I|I]; [now injection I as ->|].
      exfalso. apply Na. apply (in_map fst) in I. exact I.
    - destruct I as [I|I].
      + injection I as -> ->. rewrite (eqb_same eqb eqb_ok) in E. easy.
      + rewrite (IH Dm I) at 1. apply perm_swap.
  Qed.

  Lemma swap_in (m : list (K * Z)) k v : In (v, k) (map swap m) <-> In (k, v) m.
  Proof.
    rewrite in_map_iff. split.
    - intros ([a b] & E & I). unfold swap in E. cbn in E. injection E as -> ->. easy.
    - intros I. exists (k, v). auto.
  Qed.

  (** The entry dropped when the map is full: present, and no larger than any other. *)
  Lemma least_rel s : lim_rel s -> l_map s <> [] ->
    exists s' k v, erase_least eqb s = Done s' /\ lim_rel s' /\ l_max s' = l_max s
      /\ fget eqb (l_map s) k = Some v
      /\ (forall k' v', fget eqb (l_map s) k' = Some v' -> (v <= v')%Z)
      /\ l_map s' = fdel eqb (l_map s) k.
  Proof.
    intros (D & S & P) NE. unfold erase_least.
    destruct (l_rmap s) as [|[v k] r] eqn:R.
    { apply Permutation_nil in P. destruct (l_map s); easy. }
    assert (I : In (k, v) (l_map s)).
    { apply swap_in. eapply Permutation_in; [exact P|]. now left. }
    eexists. exists k, v. split; [reflexivity|]. cbn [l_map l_max].
    split; [|split; [easy|split; [now apply in_fget|split; [|easy]]]].
    - split; [cbn; now apply nodup_del|]. cbn [l_map l_rmap]. inversion S; subst. split; [easy|].
      eapply Permutation_cons_inv with (a := (v, k)). rewrite P.
      change ((v, k) :: map swap (fdel eqb (l_map s) k)) with (map swap ((k, v) :: fdel eqb (l_map s) k)).
      apply Permutation_map. now apply del_perm.
    - intros k' v' G. apply fget_in in G; [|easy]. apply swap_in in G.
      eapply Permutation_in in G; [|symmetry; exact P]. destruct G as [G|G]; [injection G as -> ->; lia|].
      inversion S as [|? ? Hr Ha]; subst. rewrite Forall_forall in Ha. apply Ha in G. exact G.
  Qed.

  Lemma put_rel s k v : lim_rel s -> fget eqb (l_map s) k = None ->
    forall n, lim_rel (mkLim (fput eqb (l_map s) k v) (rput (l_rmap s) v k) n).
  Proof.
    intros (D & S & P) F n. split; [cbn; now apply nodup_put|]. cbn [l_map l_rmap].
    split; [now apply rput_sorted|]. rewrite rput_perm, (put_absent eqb) by easy.
    rewrite map_app. cbn [map swap fst snd]. rewrite P. apply Permutation_cons_append.
  Qed.

  Lemma del_put_absent (m : list (K * Z)) k v k0 : fget eqb m k = None -> k0 <> k ->
    fdel eqb (fput eqb m k v) k0 = fput eqb (fdel eqb m k0) k v.
  Proof.
    intros F Nk. rewrite !(put_absent eqb); [|now rewrite fget_del_other by (auto; easy)|easy].
    induction m as [|[a b] m IH].
    - cbn. now rewrite (eqb_diff eqb eqb_ok).
    - cbn [fget] in F. destruct (eqb k a) eqn:E; [discriminate|]. cbn [app fdel].
      rewrite IH by easy. now destruct (eqb k0 a).
  Qed.

  Lemma insert_ok s k v : lim_inv s -> exists s', lim_insert eqb s k v = Done s' /\ lim_inv s'
    /\ l_max s' = l_max s
    /\ ( (fget eqb (l_map s) k <> None -> s' = s)
      /\ (fget eqb (l_map s) k = None -> size (l_map s) < l_max s ->
            l_map s' = fput eqb (l_map s) k v)
      /\ (fget eqb (l_map s) k = None -> size (l_map s) = l_max s ->
            exists k0 v0, fget eqb (l_map s) k0 = Some v0
              /\ (forall k' v', fget eqb (l_map s) k' = Some v' -> (v0 <= v')%Z)
              /\ l_map s' = fput eqb (fdel eqb (l_map s) k0) k v)).
  Proof.
    intros (R & M & L). unfold lim_insert, fmem. destruct (fget eqb (l_map s) k) as [w|] eqn:F.
    - exists s. split; [easy|]. split; [easy|]. split; [easy|]. split; [easy|]. easy.
    - cbn [l_map]. rewrite (put_absent eqb) by easy.
      destruct (N.ltb_spec (l_max s) (size (l_map s ++ [(k, v)]))) as [G|G].
      + rewrite size_snoc in G. assert (Fu : size (l_map s) = l_max s) by lia.
        assert (NE : l_map s <> []) by (intros C; rewrite C in Fu; unfold size in Fu; cbn in Fu; lia).
        destruct (least_rel s R NE) as (s1 & k0 & v0 & E & R1 & M1 & F0 & Le & MM).
        assert (Nk : k0 <> k) by congruence.
        unfold erase_least in *. cbn [l_rmap l_map]. destruct (l_rmap s) as [|[v0' k0'] r]; [discriminate|].
        injection E as <-. cbn [l_map l_max l_rmap] in *. cbn [bind].
        assert (K0 : k0' = k0).
        { destruct (eqb_case eqb eqb_ok k0' k0) as [X|X]; [easy|exfalso].
          assert (Y : fget eqb (fdel eqb (l_map s) k0') k0 = Some v0)
            by (rewrite fget_del_other by (auto; easy); easy).
          rewrite MM, fget_del_same in Y by easy. discriminate. }
        subst k0'. eexists. split; [reflexivity|].
        assert (Fk : fget eqb (fdel eqb (l_map s) k0) k = None)
          by (rewrite fget_del_other by (auto; easy); easy).
        rewrite <- (put_absent eqb) by easy. rewrite del_put_absent by easy. cbn [l_map].
        split; [split; [|split; [easy|]]|].
        * apply (put_rel (mkLim (fdel eqb (l_map s) k0) r (l_max s))); easy.
        * cbn [l_map l_max]. rewrite (put_absent eqb), size_snoc by easy.
          destruct R as (D & _ & _).
          pose proof (Permutation_length (del_perm (l_map s) k0 v0 D (fget_in eqb eqb_ok _ _ _ F0))) as PL.
          cbn [length] in PL. unfold size in *. lia.
        * split; [easy|]. split; [easy|]. split; [intros _ C; lia|]. intros _ _.
          exists k0, v0. auto.
      + rewrite size_snoc in G. cbn [bind l_map l_rmap]. eexists. split; [reflexivity|].
        rewrite <- (put_absent eqb) by easy. cbn [l_map l_max].
        split; [split; [now apply put_rel|split; [easy|]]|].
        * cbn [l_map l_max]. rewrite (put_absent eqb), size_snoc by easy. lia.
        * split; [easy|]. split; [easy|]. split; [easy|]. intros _ C. lia.
  Qed.

  Lemma erase_ok s k : lim_inv s -> exists s', lim_erase eqb s k = Done s' /\ lim_inv s'
    /\ l_max s' = l_max s /\ l_map s' = fdel eqb (l_map s) k.
  Proof.
    intros ((D & S & P) & M & L). unfold lim_erase. destruct (fget eqb (l_map s) k) as [v|] eqn:F.
    - assert (I : In (k, v) (l_map s)) by (now apply (fget_in eqb eqb_ok)).
      destruct (rdel_ok (l_rmap s) v k) as (q & E & Pq & Sq).
      { eapply Permutation_in; [symmetry; exact P|]. now apply swap_in. }
      rewrite E. eexists. split; [reflexivity|].
      pose proof (del_perm _ _ _ D I) as DP.
      split; [|easy]. split; [split; [|split]|split; [easy|]].
      + cbn. now apply nodup_del.
      + cbn. auto.
      + cbn [l_map l_rmap]. eapply Permutation_cons_inv with (a := (v, k)). rewrite <- Pq, P.
        change ((v, k) :: map swap (fdel eqb (l_map s) k)) with (map swap ((k, v) :: fdel eqb (l_map s) k)).
        now apply Permutation_map.
      + cbn [l_map l_max]. apply Permutation_length in DP. cbn [length] in DP. unfold size in *. lia.
    - exists s. split; [easy|]. split; [easy|]. split; [easy|]. symmetry. now apply del_absent.
  Qed.

  Lemma put_size (m : list (K * Z)) k v : fget eqb m k <> None -> size (fput eqb m k v) = size m.
  Proof.
    induction m as [|[a b] m IH]; cbn; [easy|]. destruct (eqb k a); intros N.
    - unfold size; cbn [length]; lia.
    - specialize (IH N). unfold size in *. cbn [length]. lia.
  Qed.
  Lemma put_perm (m : list (K * Z)) k v : NoDup (keys m) ->
    Permutation (fput eqb m k v) ((k, v) :: fdel eqb m k).
  Proof.
    intros D. induction m as [|[a b] m IH]; cbn; [easy|]. inversion D as [|? ? Na Dm]; subst.
    destruct (eqb k a) eqn:E.
    - apply eqb_ok in E. subst a. rewrite del_absent by (try apply (fget_none eqb eqb_ok); easy). easy.
    - rewrite IH by easy. apply perm_swap.
  Qed.

  Lemma update_ok s k v : lim_inv s -> exists s', lim_update eqb s k v = Done s' /\ lim_inv s'
    /\ l_max s' = l_max s
    /\ l_map s' = match fget eqb (l_map s) k with Some _ => fput eqb (l_map s) k v | None => l_map s end.
  Proof.
    intros ((D & S & P) & M & L). unfold lim_update. destruct (fget eqb (l_map s) k) as [v0|] eqn:F.
    - assert (I : In (k, v0) (l_map s)) by (now apply (fget_in eqb eqb_ok)).
      destruct (rdel_ok (l_rmap s) v0 k) as (q & E & Pq & Sq).
      { eapply Permutation_in; [symmetry; exact P|]. now apply swap_in. }
      rewrite E. eexists. split; [reflexivity|]. pose proof (del_perm _ _ _ D I) as DP.
      split; [|easy]. split; [split; [|split]|split; [easy|]].
      + cbn. now apply nodup_put.
      + cbn. apply rput_sorted. auto.
      + cbn [l_map l_rmap]. rewrite rput_perm, put_perm by easy.
        cbn [map swap fst snd]. constructor.
        eapply Permutation_cons_inv with (a := (v0, k)). rewrite <- Pq, P.
        change ((v0, k) :: map swap (fdel eqb (l_map s) k)) with (map swap ((k, v0) :: fdel eqb (l_map s) k)).
        now apply Permutation_map.
      + cbn [l_map l_max]. rewrite put_size; [easy|congruence].
    - exists s. easy.
  Qed.

  Lemma lshrink_ok n s fuel : 0 < n -> lim_rel s -> (length (l_map s) <= fuel)%nat ->
    exists s', lim_shrink eqb fuel n s = Done s' /\ lim_rel s'
      /\ size (l_map s') = N.min n (size (l_map s))
      /\ (forall k v, fget eqb (l_map s') k = Some v -> fget eqb (l_map s) k = Some v)
      /\ (forall k v k' v', fget eqb (l_map s) k = Some v -> fget eqb (l_map s') k = None ->
            fget eqb (l_map s') k' = Some v' -> (v <= v')%Z).
  Proof.
    intros P. revert s. induction fuel as [|fuel IH]; intros s R L; cbn [lim_shrink].
    - exists s. assert (Z : size (l_map s) = 0) by (unfold size; lia).
      destruct (N.ltb_spec n (size (l_map s))); [lia|].
      split; [easy|]. split; [easy|]. split; [lia|]. split; [easy|]. congruence.
    - destruct (N.ltb_spec n (size (l_map s))) as [C|C].
      + assert (NE : l_map s <> []) by (intros Z; rewrite Z in C; unfold size in C; cbn in C; lia).
        destruct (least_rel s R NE) as (s1 & k0 & v0 & E & R1 & M1 & F0 & Le & MM).
        rewrite E. cbn [bind]. destruct R as (D & _ & _).
        pose proof (Permutation_length (del_perm (l_map s) k0 v0 D (fget_in eqb eqb_ok _ _ _ F0))) as PL.
        cbn [length] in PL.
        destruct (IH s1 R1) as (s' & E' & R' & Z' & Sub & Big); [rewrite MM; lia|].
        exists s'. split; [easy|]. split; [easy|].
        split; [rewrite Z', MM; unfold size in *; lia|].
        assert (Sub1 : forall k v, fget eqb (l_map s1) k = Some v -> fget eqb (l_map s) k = Some v).
        { intros k v. rewrite MM, fget_del by easy. now destruct (eqb k k0). }
        split; [auto|]. intros k v k' v' A B C'.
        destruct (eqb_case eqb eqb_ok k k0) as [X|X].
        * subst k0. assert (v = v0) by congruence. subst. eapply Le, Sub1, Sub, C'.
        * eapply Big; [|exact B|exact C']. rewrite MM, fget_del_other by (auto; easy). exact A.
      + exists s. split; [easy|]. split; [easy|]. split; [lia|]. split; [easy|]. congruence.
  Qed.

  Lemma resize_ok s n : lim_inv s -> 0 < n -> exists s', lim_resize eqb s n = Done s' /\ lim_inv s'
    /\ l_max s' = n
    /\ size (l_map s') = N.min n (size (l_map s))
    /\ (forall k v, fget eqb (l_map s') k = Some v -> fget eqb (l_map s) k = Some v)
    /\ (forall k v k' v', fget eqb (l_map s) k = Some v -> fget eqb (l_map s') k = None ->
          fget eqb (l_map s') k' = Some v' -> (v <= v')%Z).
  Proof.
    intros (R & M & L) P. unfold lim_resize, asserted. destruct (N.ltb_spec 0 n); [|lia]. cbn [bind].
    destruct (lshrink_ok n s (length (l_map s)) P R) as (s1 & E & R1 & Z & Sub & Big); [lia|].
    rewrite E. cbn [bind]. eexists. split; [reflexivity|]. cbn [l_map l_max].
    split; [|split; [easy|split; [exact Z|split; [exact Sub|exact Big]]]].
    split; [exact R1|]. split; [easy|]. cbn [l_map l_max]. rewrite Z. lia.
  Qed.
End Limited.

(** * The Bloom filter *)
Section Bloom.
  Variable murmur : N -> list N -> N.

  Definition bcall_run (f : bloom) (c : bcall) : outcome bloom :=
    match c with
    | BPut x => bloom_insert murmur f x
    | BUpdate => Done (bloom_update f)
    | BClear => Done (bloom_clear f)
    end.
  Fixpoint bcalls_run (f : bloom) (cs : list bcall) : outcome bloom :=
    match cs with [] => Done f | c :: cs => do f1 <- bcall_run f c; bcalls_run f1 cs end.

  Lemma bcalls_app f a b : bcalls_run f (a ++ b) = do f1 <- bcalls_run f a; bcalls_run f1 b.
  Proof.
    revert f. induction a as [|c a IH]; intros f; cbn [app bcalls_run bind]; [easy|].
    destruct (bcall_run f c); cbn [bind]; auto.
  Qed.

  Lemma upd_length l i g : length (upd l i g) = length l.
  Proof. revert i. induction l as [|x l IH]; intros [|i]; cbn; auto. Qed.
  Lemma upd_same l i g d : (i < length l)%nat -> nth i (upd l i g) d = g (nth i l d).
  Proof. revert i. induction l as [|x l IH]; intros [|i]; cbn; intros L; try lia; auto. apply IH. lia. Qed.
  Lemma upd_other l i j g d : i <> j -> nth j (upd l i g) d = nth j l d.
  Proof.
    revert i j. induction l as [|x l IH]; intros [|i] [|j] N; cbn; auto; try easy.
  Qed.

  Lemma land_lor_keep a b c : N.land a c <> 0 -> N.land (N.lor a b) c <> 0.
  Proof.
    intros H E. apply H. rewrite N.land_lor_distr_l in E. apply N.lor_eq_0_l in E. exact E.
  Qed.
  Lemma pow_pos i : 2 ^ i <> 0.
  Proof. apply N.pow_nonzero. discriminate. Qed.

  Lemma set_get l i : i < size l * 8 -> get_bit (set_bit l i) i = true.
  Proof.
    intros L. unfold get_bit, set_bit. rewrite upd_same.
    - rewrite negb_true_iff, N.eqb_neq, N.lor_comm. rewrite N.land_lor_distr_l, N.land_diag.
      intros E. apply N.lor_eq_0_l in E. now apply pow_pos in E.
    - unfold size in L. assert (i / 8 < N.of_nat (length l)) by (apply N.div_lt_upper_bound; lia). lia.
  Qed.
  Lemma set_keep l i j : get_bit l j = true -> get_bit (set_bit l i) j = true.
  Proof.
    unfold get_bit, set_bit. rewrite !negb_true_iff, !N.eqb_neq.
    destruct (Nat.eq_dec (N.to_nat (i / 8)) (N.to_nat (j / 8))) as [E|E].
    - destruct (Nat.lt_ge_cases (N.to_nat (j / 8)) (length l)) as [L|L].
      + rewrite E, upd_same by easy. apply land_lor_keep.
      + rewrite !nth_overflow by (try rewrite upd_length; lia). easy.
    - now rewrite upd_other.
  Qed.

  (** Every bit of [key] is set. *)
  Definition bits (data : list N) (funcs tweak : N) (key : list N) : Prop :=
    forall i, i < funcs -> data <> [] /\
      get_bit data (murmur ((i * 4221880213 + tweak) mod two32) key mod (size data * 8)) = true.

  Lemma hash_done (data : list N) tweak i key x : bloom_hash murmur (size data) tweak i key = Done x ->
    data <> [] /\ x = murmur ((i * 4221880213 + tweak) mod two32) key mod (size data * 8)
    /\ x < size data * 8.
  Proof.
    unfold bloom_hash. destruct (N.eqb_spec (size data) 0) as [Z|Z]; [discriminate|].
    intros H. injection H as <-. split; [intros ->; now apply Z|]. split; [easy|].
    apply N.mod_lt. lia.
  Qed.
  Lemma hash_ok (data : list N) tweak i key : data <> [] -> bloom_hash murmur (size data) tweak i key
    = Done (murmur ((i * 4221880213 + tweak) mod two32) key mod (size data * 8)).
  Proof.
    intros NE. unfold bloom_hash. destruct (N.eqb_spec (size data) 0) as [Z|Z]; [|easy].
    destruct data; [easy|]. unfold size in Z. cbn in Z. lia.
  Qed.
  Lemma set_size l i : size (set_bit l i) = size l.
  Proof. unfold size, set_bit. now rewrite upd_length. Qed.

  Lemma insert_loop_ok tweak key is data data' :
    insert_loop murmur tweak key is data = Done data' ->
    size data' = size data
    /\ (forall j, get_bit data j = true -> get_bit data' j = true)
    /\ (forall i, In i is -> data <> [] /\
          get_bit data' (murmur ((i * 4221880213 + tweak) mod two32) key mod (size data * 8)) = true).
  Proof.
    revert data. induction is as [|i is IH]; intros data H; cbn [insert_loop] in H.
    - injection H as <-. split; [easy|]. split; [easy|]. intros i [].
    - destruct (bloom_hash murmur (size data) tweak i key) as [x| | |] eqn:E; try discriminate.
      cbn [bind] in H. destruct (hash_done _ _ _ _ _ E) as (NE & X & L).
      destruct (IH _ H) as (Z & Kp & B). rewrite set_size in Z, B.
      split; [easy|]. split; [intros j G; now apply Kp, set_keep|].
      intros i' [<-|I].
      + split; [easy|]. rewrite <- X. apply Kp. now apply set_get.
      + split; [easy|]. now apply B.
  Qed.
  Lemma insert_loop_done tweak key is data : data <> [] ->
    exists data', insert_loop murmur tweak key is data = Done data'.
  Proof.
    revert data. induction is as [|i is IH]; intros data NE; cbn [insert_loop]; [eauto|].
    rewrite hash_ok by easy. cbn [bind]. apply IH. unfold set_bit.
    intros C. apply (f_equal (@length N)) in C. rewrite upd_length in C. now destruct data.
  Qed.

  Lemma contains_loop_ok tweak key is data :
    (forall i, In i is -> data <> [] /\
       get_bit data (murmur ((i * 4221880213 + tweak) mod two32) key mod (size data * 8)) = true) ->
    contains_loop murmur tweak key is data = Done true.
  Proof.
    induction is as [|i is IH]; intros H; cbn [contains_loop]; [easy|].
    destruct (H i) as [NE G]; [now left|]. rewrite hash_ok by easy. cbn [bind]. rewrite G.
    apply IH. intros j I. apply H. now right.
  Qed.

  Lemma below_in n i : In i (below n) <-> i < n.
  Proof.
    unfold below. rewrite in_map_iff. split.
    - intros (x & <- & I). apply in_seq in I. lia.
    - intros L. exists (N.to_nat i). split; [lia|]. apply in_seq. lia.
  Qed.

  Lemma full_bit data i : Forall (fun b => b = 255) data -> i < size data * 8 -> get_bit data i = true.
  Proof.
    intros F L. unfold get_bit. rewrite (proj1 (Forall_forall _ _) F (nth (N.to_nat (i / 8)) data 0)).
    - assert (M : i mod 8 < 8) by (apply N.mod_lt; lia).
      destruct (i mod 8) as [|[[[]|[]|]|[[]|[]|]|]]; try reflexivity; lia.
    - apply nth_In. unfold size in L.
      assert (i / 8 < N.of_nat (length data)) by (apply N.div_lt_upper_bound; lia). lia.
  Qed.
  Lemma zero_bit data i : Forall (fun b => b = 0) data -> get_bit data i = false.
  Proof.
    intros F. unfold get_bit. replace (nth (N.to_nat (i / 8)) data 0) with 0; [reflexivity|].
    destruct (Nat.lt_ge_cases (N.to_nat (i / 8)) (length data)).
    - symmetry. now apply (proj1 (Forall_forall _ _) F), nth_In.
    - now rewrite nth_overflow.
  Qed.
  Lemma forallb_all data c : forallb (fun b => b =? c) data = true <-> Forall (fun b => b = c) data.
  Proof.
    rewrite forallb_forall, Forall_forall. split; intros H x I; [now apply N.eqb_eq, H|].
    now apply N.eqb_eq, H.
  Qed.

  Definition bloom_inv (f : bloom) (ks : list (list N)) : Prop :=
    (b_full f = true -> Forall (fun b => b = 255) (b_data f))
    /\ (forall x, In x ks -> (b_data f = [] /\ b_full f = true) \/ bits (b_data f) (b_funcs f) (b_tweak f) x)
    /\ (b_full f = false -> b_empty f = true -> ks = []).

  Lemma step_inv f c f' ks : 0 < b_funcs f -> bloom_inv f ks -> bcall_run f c = Done f' ->
    bloom_inv f' (match c with BPut x => x :: ks | BUpdate => ks | BClear => [] end)
    /\ b_funcs f' = b_funcs f /\ b_tweak f' = b_tweak f.
  Proof.
    intros P (F & B & E) H. destruct c as [x| |]; cbn [bcall_run] in H.
    - unfold bloom_insert in H. destruct (b_full f) eqn:Fu.
      + injection H as <-. split; [|easy]. split; [auto|]. split; [|congruence].
        intros y [<-|I]; [|now apply B in I; rewrite Fu].
        destruct (b_data f) as [|d ds] eqn:Dt; [now left|right]. intros i L. split; [easy|].
        apply full_bit; [now apply F|]. apply N.mod_lt. unfold size. cbn. lia.
      + destruct (insert_loop murmur (b_tweak f) x (below (b_funcs f)) (b_data f)) as [data| | |] eqn:IL;
          try discriminate. cbn [bind] in H. injection H as <-. cbn [b_funcs b_tweak].
        split; [|easy]. destruct (insert_loop_ok _ _ _ _ _ IL) as (Z & Kp & Bs).
        assert (NE : b_data f <> [] -> data <> []).
        { intros N ->. unfold size in Z. cbn in Z. destruct (b_data f); [easy|cbn in Z; lia]. }
        split; [cbn; congruence|]. cbn [b_full b_data b_funcs b_tweak b_empty]. split; [|congruence].
        intros y [<-|I]; right; intros i L.
        * rewrite Z. destruct (Bs i) as [N G]; [now apply below_in|]. auto.
        * rewrite Z. destruct (B y I) as [[_ C]|Bt]; [congruence|].
          destruct (Bt i L) as [N G]. auto.
    - injection H as <-. cbn [b_funcs b_tweak bloom_update]. split; [|easy].
      split; [cbn; intros A; now apply forallb_all|]. cbn [b_full b_data b_funcs b_tweak b_empty bloom_update].
      split.
      + intros x I. destruct (B x I) as [[D _]|Bt]; [left|now right]. split; [easy|]. now rewrite D.
      + intros A Z. destruct ks as [|x ks]; [easy|exfalso].
        destruct (B x) as [[D _]|Bt]; [now left|rewrite D in A; discriminate|].
        destruct (Bt 0 P) as [_ G]. rewrite zero_bit in G; [discriminate|]. now apply forallb_all.
    - injection H as <-. cbn [b_funcs b_tweak bloom_clear]. split; [|easy].
      split; [cbn; congruence|]. split; [easy|]. easy.
  Qed.

  Lemma inserted_app cs c : inserted (cs ++ [c]) =
    match c with BPut x => inserted cs ++ [x] | BUpdate => inserted cs | BClear => [] end.
  Proof.
    induction cs as [|d cs IH]; cbn [app inserted]; [now destruct c|].
    destruct d as [y| |]; rewrite ?existsb_app; cbn [existsb]; rewrite IH.
    - destruct c as [x| |]; rewrite ?orb_false_r, ?orb_true_r; [|easy|easy].
      destruct (existsb _ cs); easy.
    - now destruct c.
    - now destruct c.
  Qed.

  Lemma bloom_runs f0 cs f : 0 < b_funcs f0 -> bloom_inv f0 [] -> bcalls_run f0 cs = Done f ->
    bloom_inv f (inserted cs) /\ b_funcs f = b_funcs f0 /\ b_tweak f = b_tweak f0.
  Proof.
    intros P I0. revert f. induction cs as [|c cs IH] using rev_ind; intros f H.
    - injection H as <-. easy.
    - rewrite bcalls_app in H. destruct (bcalls_run f0 cs) as [g| | |] eqn:E; try discriminate.
      cbn [bind bcalls_run] in H. destruct (bcall_run g c) as [h| | |] eqn:E2; try discriminate.
      cbn [bind] in H. injection H as ->. destruct (IH g eq_refl) as (I & Fu & Tw).
      destruct (step_inv g c f (inserted cs)) as (I' & Fu' & Tw'); [now rewrite Fu|easy|easy|].
      split; [|split; congruence]. rewrite inserted_app. destruct c as [x| |]; [|easy|easy].
      destruct I' as (A & B & C). split; [easy|]. split; [|intros X Y; specialize (C X Y); discriminate].
      intros y J. apply B. apply in_app_or in J. destruct J as [J|[<-|[]]]; [now right|now left].
  Qed.

  Lemma inv_contains f ks x : bloom_inv f ks -> In x ks -> bloom_contains murmur f x = Done true.
  Proof.
    intros (F & B & E) I. unfold bloom_contains. destruct (b_full f) eqn:Fu; [easy|].
    destruct (b_empty f) eqn:Em; [rewrite (E eq_refl eq_refl) in I; contradiction|].
    destruct (B x I) as [[_ C]|Bt]; [congruence|]. apply contains_loop_ok.
    intros i J. apply below_in in J. now apply Bt.
  Qed.

  Lemma bloom_defined f0 cs : b_data f0 <> [] -> exists f, bcalls_run f0 cs = Done f.
  Proof.
    revert f0. induction cs as [|c cs IH]; intros f0 NE; cbn [bcalls_run]; [eauto|].
    assert (Z : exists f1, bcall_run f0 c = Done f1 /\ b_data f1 <> []).
    { destruct c as [x| |]; cbn [bcall_run].
      - unfold bloom_insert. destruct (b_full f0); [eauto|].
        destruct (insert_loop_done (b_tweak f0) x (below (b_funcs f0)) (b_data f0) NE) as (d & E).
        rewrite E. cbn [bind]. eexists. split; [reflexivity|]. cbn [b_data].
        destruct (insert_loop_ok _ _ _ _ _ E) as (Sz & _). intros ->.
        unfold size in Sz. cbn in Sz. destruct (b_data f0); [easy|cbn in Sz; lia].
      - eexists. split; [reflexivity|]. easy.
      - eexists. split; [reflexivity|]. cbn [b_data bloom_clear]. destruct (b_data f0); [easy|cbn; discriminate]. }
    destruct Z as (f1 & -> & N1). cbn [bind]. now apply IH.
  Qed.
End Bloom.
