(** The theorems about bounded containers and the Bloom filter: C33, C43 and C60. *)
From Coq Require Import List Bool NArith ZArith Lia.
From Coq Require Import ZifyBool ZifyNat ZifyN.
From Verif Require Import Prelude PreludeFacts AccountModel DexModel.
From Verif Require Import ContainerModel ContainerSpec ContainerProofs.
Import ListNotations.
Open Scope N_scope.

(** * C33: bounded containers keep exactly the most recently added elements *)
Section C33.
  Context {T : Type}.
  Variable eqb : T -> T -> bool.
  Hypothesis eqb_ok : forall a b, eqb a b = true <-> a = b.

  (** Whatever was called on the set, it holds what [held] says, no more than its capacity. *)
  Theorem c33_set : forall n0 cs, exists s,
    scalls_run eqb (mru_new n0) cs = Done s
    /\ (exists n l, held n0 cs n l)
    /\ forall n l, held n0 cs n l ->
         (forall x, mru_count eqb s x = true <-> In x l)
         /\ mru_size s = size l /\ NoDup l /\ (n <> 0 -> size l <= n).
  Proof.
    intros n0 cs. destruct (mru_runs eqb eqb_ok n0 cs) as (s & n & l & E & H & V).
    exists s. split; [easy|]. split; [eauto|]. intros n' l' H'.
    destruct (held_fun n0 cs n l n' l' H H') as [<- <-].
    split; [|split; [eapply inv_size; eauto|]].
    - intros x. unfold mru_count. rewrite mem_in by easy. apply V.
    - destruct V as (_ & _ & D & _ & _ & L). auto.
  Qed.

  (** Inserting tells whether the element was new. *)
  Theorem c33_set_tells : forall n0 cs s x, scalls_run eqb (mru_new n0) cs = Done s ->
    exists s', mru_insert eqb s x = Done (s', negb (mru_count eqb s x))
      /\ mru_count eqb s' x = true.
  Proof.
    intros n0 cs s x E. destruct (c33_set n0 (cs ++ [Put x])) as (s2 & E2 & (n & l & H) & A).
    rewrite scalls_app, E in E2. cbn [bind scalls_run scall_run] in E2.
    destruct (mru_insert eqb s x) as [[s' b]| | |] eqn:I; try discriminate.
    cbn [bind fst] in E2. injection E2 as ->. exists s2. split.
    - f_equal. f_equal. unfold mru_insert in I. unfold mru_count.
      destruct (mem eqb x (u_set s)); [injection I as <- <-; reflexivity|].
      destruct (negb (u_max s =? 0) && (size (u_queue s) =? u_max s)).
      + destruct (u_queue s); [discriminate|]. now injection I as <- <-.
      + now injection I as <- <-.
    - destruct (A n l H) as (C & _). apply C. apply (held_put eqb) in H; easy.
  Qed.
End C33.

(** An element inserted a moment ago may be the next to go: inserting it again does not make it
    recent. *)
Theorem c33_set_recent_refuted : exists s : mru (T:=N),
  scalls_run N.eqb (mru_new 2) [Put 1; Put 2; Put 1; Put 3] = Done s /\ mru_count N.eqb s 1 = false.
Proof. eexists. split; [vm_compute; reflexivity|]. reflexivity. Qed.

Section C33Map.
  Context {K V : Type}.
  Variable eqb : K -> K -> bool.
  Hypothesis eqb_ok : forall a b, eqb a b = true <-> a = b.

  (** The same for the map, when it is changed by inserting, updating and resizing. *)
  Theorem c33_map : forall n0 (cs : list (mcall K V)), (forall n, In (MCap n) cs -> 0 < n) ->
    exists s n l, mcalls_run eqb (fifo_sized n0) cs = Done s
    /\ mheld n0 cs n l
    /\ (forall k, fifo_find eqb s k = fget eqb l k)
    /\ NoDup (map fst l) /\ size (f_map s) = size l /\ size l <= n.
  Proof.
    intros n0 cs P. destruct (fifo_runs eqb eqb_ok n0 cs P) as (s & n & l & E & H & (R & M & L)).
    exists s, n, l. split; [easy|]. split; [easy|]. pose proof R as (Q & D & D' & F).
    split; [exact F|]. split; [exact D|]. split; [now apply (rel_size eqb eqb_ok)|easy].
  Qed.

  (** A map made by the default constructor must be given a capacity first. *)
  Theorem c33_map_default : forall n k (v : V), 0 < n ->
    fifo_resize eqb (fifo_new (V:=V)) n = Done (fifo_sized n)
    /\ fifo_insert eqb fifo_new k v = Undefined.
  Proof.
    intros n k v P. split; [|reflexivity]. unfold fifo_resize, asserted.
    destruct (N.ltb_spec 0 n); [|lia]. cbn. now destruct n.
  Qed.

  (** [operator[]] on a key that is there reads it. *)
  Theorem c33_map_at : forall (d : V) s k v, fifo_find eqb s k = Some v -> fifo_at eqb d s k = (s, v).
  Proof. exact (at_present eqb). Qed.
End C33Map.

(** [operator[]] on another key adds an entry that is never dropped: the next inserted element is
    dropped instead, and lowering the capacity is undefined. *)
Theorem c33_map_at_refuted :
  let s := fst (fifo_at N.eqb 0 (fifo_sized (K:=N) 1) 7) in
  (exists s', fifo_insert N.eqb s 8 1 = Done s' /\ fifo_find N.eqb s' 8 = None)
  /\ (let s2 := fst (fifo_at N.eqb 0 s 9) in
      size (f_map s2) = 2 /\ f_max s2 = Some 1 /\ fifo_resize N.eqb s2 1 = Undefined).
Proof. split; [eexists; split; vm_compute; reflexivity|]. vm_compute. auto. Qed.

Section Instance.
  (** Capacity two: the third new element pushes out the first, a repeated one does not. *)
  Example c33_example : exists s : mru (T:=N),
    scalls_run N.eqb (mru_new 2) [Put 5; Put 6; Put 5; Put 7] = Done s
    /\ mru_count N.eqb s 6 = true /\ mru_count N.eqb s 7 = true /\ mru_count N.eqb s 5 = false
    /\ mru_size s = 2.
  Proof. eexists. split; [vm_compute; reflexivity|]. vm_compute. auto. Qed.

  Example c33_map_example : exists s : fifo (K:=N) (V:=N),
    mcalls_run N.eqb (fifo_sized 2) [MPut 5 50; MPut 6 60; MSet 5 51; MPut 7 70; MCap 1] = Done s
    /\ fifo_find N.eqb s 7 = Some 70 /\ fifo_find N.eqb s 6 = None /\ fifo_find N.eqb s 5 = None.
  Proof. eexists. split; [vm_compute; reflexivity|]. vm_compute. auto. Qed.
End Instance.

(** * C60: the map of request times drops the smallest of the old entries *)
Section C60.
  Context {K : Type}.
  Variable eqb : K -> K -> bool.
  Hypothesis eqb_ok : forall a b, eqb a b = true <-> a = b.

  Definition lcall_run (s : limited (K:=K)) (c : lcall K) : outcome limited :=
    match c with
    | LPut k v => lim_insert eqb s k v
    | LSet k v => lim_update eqb s k v
    | LDel k => lim_erase eqb s k
    | LCap n => lim_resize eqb s n
    end.
  Fixpoint lcalls_run (s : limited (K:=K)) (cs : list (lcall K)) : outcome limited :=
    match cs with [] => Done s | c :: cs => do s1 <- lcall_run s c; lcalls_run s1 cs end.

  (** A map made with a positive capacity and used through its functions. *)
  Definition in_use (s : limited) : Prop := exists n0 cs,
    0 < n0 /\ (forall n, In (LCap n) cs -> 0 < n) /\ lcalls_run (mkLim [] [] n0) cs = Done s.

  Lemma lcalls_inv cs : (forall n, In (LCap n) cs -> 0 < n) -> forall s, lim_inv s ->
    exists s', lcalls_run s cs = Done s' /\ lim_inv s'.
  Proof.
    induction cs as [|c cs IH]; intros P s I; cbn [lcalls_run]; [eauto|].
    assert (Z : exists s1, lcall_run s c = Done s1 /\ lim_inv s1).
    { destruct c as [k v|k v|k|n]; cbn [lcall_run].
      - destruct (insert_ok eqb eqb_ok s k v I) as (s1 & E & I1 & _). eauto.
      - destruct (update_ok eqb eqb_ok s k v I) as (s1 & E & I1 & _). eauto.
      - destruct (erase_ok eqb eqb_ok s k I) as (s1 & E & I1 & _). eauto.
      - destruct (resize_ok eqb eqb_ok s n I) as (s1 & E & I1 & _); [apply P; now left|]. eauto. }
    destruct Z as (s1 & -> & I1). cbn [bind]. apply IH; [|easy]. intros n J. apply P. now right.
  Qed.
  Lemma new_inv n0 : 0 < n0 -> lim_inv (K:=K) (mkLim [] [] n0).
  Proof.
    intros P. split; [|split; [easy|unfold size; cbn; lia]].
    split; [constructor|]. split; [constructor|]. constructor.
  Qed.
  Lemma in_use_inv s : in_use s -> lim_inv s.
  Proof.
    intros (n0 & cs & P & C & E). destruct (lcalls_inv cs C _ (new_inv n0 P)) as (s' & E' & I).
    congruence.
  Qed.

  (** No assertion fails, nothing undefined happens, and the capacity is kept. *)
  Theorem c60_bounded : forall n0 cs, 0 < n0 -> (forall n, In (LCap n) cs -> 0 < n) ->
    exists s, lcalls_run (mkLim [] [] n0) cs = Done s /\ size (l_map s) <= l_max s.
  Proof.
    intros n0 cs P C. destruct (lcalls_inv cs C _ (new_inv n0 P)) as (s & E & I).
    exists s. split; [easy|apply I].
  Qed.

  (** Inserting a new key: it is always there afterwards; while there is room nothing else
      changes, otherwise exactly one other entry goes, one with the smallest value. *)
  Theorem c60_insert : forall s k v, in_use s -> lim_find eqb s k = None ->
    exists s', lim_insert eqb s k v = Done s'
    /\ lim_find eqb s' k = Some v
    /\ (size (l_map s) < l_max s ->
          forall k', k' <> k -> lim_find eqb s' k' = lim_find eqb s k')
    /\ (size (l_map s) = l_max s ->
          exists k0 v0, lim_find eqb s k0 = Some v0 /\ lim_find eqb s' k0 = None
            /\ (forall k' v', lim_find eqb s k' = Some v' -> (v0 <= v')%Z)
            /\ forall k', k' <> k -> k' <> k0 -> lim_find eqb s' k' = lim_find eqb s k').
  Proof.
    unfold lim_find. intros s k v U F. apply in_use_inv in U.
    destruct (insert_ok eqb eqb_ok s k v U) as (s' & E & I' & M & _ & Room & Full).
    exists s'. split; [easy|].
    destruct (N.lt_ge_cases (size (l_map s)) (l_max s)) as [L|L].
    - rewrite (Room F L). split; [now apply fget_put_same|].
      split; [|lia]. intros _ k' N. now apply fget_put_other.
    - assert (Z : size (l_map s) = l_max s) by (destruct U as (_ & _ & U); lia).
      destruct (Full F Z) as (k0 & v0 & F0 & Le & EM). rewrite EM.
      assert (Nk : k0 <> k) by congruence.
      split; [now apply fget_put_same|]. split; [lia|]. intros _. exists k0, v0.
      split; [easy|]. split; [rewrite fget_put_other by (auto; easy); now apply fget_del_same|].
      split; [easy|]. intros k' N1 N2. rewrite fget_put_other, fget_del_other by (auto; easy). easy.
  Qed.

  (** Inserting a known key changes nothing; erasing and updating do just that. *)
  Theorem c60_other_calls : forall s k v, in_use s ->
    (lim_find eqb s k <> None -> lim_insert eqb s k v = Done s)
    /\ (exists s', lim_erase eqb s k = Done s' /\ lim_find eqb s' k = None
          /\ forall k', k' <> k -> lim_find eqb s' k' = lim_find eqb s k')
    /\ (exists s', lim_update eqb s k v = Done s'
          /\ lim_find eqb s' k = (if lim_find eqb s k then Some v else None)
          /\ forall k', k' <> k -> lim_find eqb s' k' = lim_find eqb s k').
  Proof.
    unfold lim_find. intros s k v U. apply in_use_inv in U. split; [|split].
    - intros N. destruct (insert_ok eqb eqb_ok s k v U) as (s' & E & _ & _ & Kn & _).
      now rewrite E, (Kn N).
    - destruct (erase_ok eqb eqb_ok s k U) as (s' & E & _ & _ & M). exists s'. rewrite M.
      split; [easy|]. split; [now apply fget_del_same|]. intros k' N. now apply fget_del_other.
    - destruct (update_ok eqb eqb_ok s k v U) as (s' & E & _ & _ & M). exists s'. rewrite M.
      split; [easy|]. destruct (fget eqb (l_map s) k) eqn:F.
      + split; [now apply fget_put_same|]. intros k' N. now apply fget_put_other.
      + split; [easy|]. easy.
  Qed.

  (** Lowering the capacity keeps the entries with the largest values. *)
  Theorem c60_resize : forall s n, in_use s -> 0 < n ->
    exists s', lim_resize eqb s n = Done s'
    /\ size (l_map s') = N.min n (size (l_map s))
    /\ (forall k v, lim_find eqb s' k = Some v -> lim_find eqb s k = Some v)
    /\ (forall k v k' v', lim_find eqb s k = Some v -> lim_find eqb s' k = None ->
          lim_find eqb s' k' = Some v' -> (v <= v')%Z).
  Proof.
    intros s n U P. apply in_use_inv in U.
    destruct (resize_ok eqb eqb_ok s n U P) as (s' & E & _ & _ & A). exists s'. auto.
  Qed.
End C60.

(** It does not keep "the N elements with the highest value", as its comment says: a new element
    with the smallest value of all pushes out a larger one. *)
Theorem c60_highest_refuted : exists s : limited (K:=N),
  lcalls_run N.eqb (mkLim [] [] 2) [LPut 1 10; LPut 2 20; LPut 3 5] = Done s
  /\ lim_find N.eqb s 1 = None /\ lim_find N.eqb s 3 = Some 5%Z.
Proof. eexists. split; [vm_compute; reflexivity|]. vm_compute. auto. Qed.

Section Instance.
  Example c60_example : in_use N.eqb (mkLim [(2, 20%Z); (3, 30%Z)] [(20%Z, 2); (30%Z, 3)] 2).
  Proof.
    exists 2, [LPut 1 10; LPut 2 20; LPut 3 30]. split; [reflexivity|]. split.
    - intros n I. cbn in I. intuition discriminate.
    - vm_compute. reflexivity.
  Qed.
End Instance.

(** * C43: a Bloom filter never misses an inserted element *)
Section C43.
  Variable murmur : N -> list N -> N.

  (** A filter that was created or received and checked with [UpdateEmptyFull], with at least one
      hash function: whatever is called, an element inserted since it was last cleared is
      reported. *)
  Theorem c43_no_miss : forall f0 f cs x,
    (exists bytes funcs tweak, f0 = bloom_new bytes funcs tweak)
    \/ (exists data funcs tweak junk, f0 = bloom_update (bloom_read data funcs tweak junk)) ->
    0 < b_funcs f0 ->
    bcalls_run murmur f0 cs = Done f -> In x (inserted cs) ->
    bloom_contains murmur f x = Done true.
  Proof.
    intros f0 f cs x S P R I. assert (I0 : bloom_inv murmur f0 []).
    { destruct S as [(b & k & t & ->)|(d & k & t & j & ->)].
      - split; [discriminate|]. easy.
      - split; [intros E; now apply forallb_all|]. easy. }
    destruct (bloom_runs murmur f0 cs f P I0 R) as (V & _). eapply inv_contains; eauto.
  Qed.

  (** With at least one byte nothing undefined happens. *)
  Theorem c43_defined : forall f0 cs, b_data f0 <> [] -> exists f, bcalls_run murmur f0 cs = Done f.
  Proof. exact (bloom_defined murmur). Qed.

  (** Without hash functions an inserted element is missed after [UpdateEmptyFull]. *)
  Theorem c43_no_funcs_refuted : forall x, exists f,
    bcalls_run murmur (bloom_new 1 0 0) [BPut x; BUpdate] = Done f
    /\ In x (inserted [BPut x; BUpdate]) /\ bloom_contains murmur f x = Done false.
  Proof. intros x. eexists. split; [reflexivity|]. cbn. auto. Qed.

  (** An element inserted into a received filter before [UpdateEmptyFull] is missed after it. *)
  Theorem c43_before_update_refuted : forall x junk, exists f,
    bcalls_run murmur (bloom_read [0] 1 0 junk) [BPut x; BUpdate] = Done f
    /\ bloom_contains murmur f x = Done false.
  Proof. intros x junk. eexists. split; reflexivity. Qed.

  (** Clearing a filter of no bytes makes the next insertion a remainder by zero. *)
  Theorem c43_no_bytes_undefined : forall x junk,
    bcalls_run murmur (bloom_read [] 1 0 junk) [BUpdate; BClear; BPut x] = Undefined.
  Proof. reflexivity. Qed.

  (** [IsRelevantAndUpdate] does not look at the transaction: one whose id was inserted is not
      relevant, unless the filter is full. *)
  Theorem c43_relevance_refuted : forall x, murmur 0 x = 0 -> exists f,
    bcalls_run murmur (bloom_new 1 1 0) [BPut x] = Done f
    /\ bloom_contains murmur f x = Done true /\ bloom_relevant f x = false.
  Proof.
    intros x H. exists (mkBloom [1] false false 1 0).
    split; [vm_compute; rewrite H; reflexivity|]. split; [vm_compute; rewrite H; reflexivity|reflexivity].
  Qed.
End C43.

Section Instance.
  (** A hash function and a filter that holds two elements and not a third. *)
  Definition toy (seed : N) (x : list N) : N := seed + nsum x.
  Example c43_example : exists f,
    bcalls_run toy (bloom_new 2 2 0) [BPut [1]; BUpdate; BPut [2]] = Done f
    /\ bloom_contains toy f [1] = Done true /\ bloom_contains toy f [2] = Done true
    /\ bloom_contains toy f [4] = Done false.
  Proof. eexists. split; [vm_compute; reflexivity|]. vm_compute. auto. Qed.
End Instance.

Print Assumptions c33_set.
Print Assumptions c33_set_tells.
Print Assumptions c33_set_recent_refuted.
Print Assumptions c33_map.
Print Assumptions c33_map_default.
Print Assumptions c33_map_at.
Print Assumptions c33_map_at_refuted.
Print Assumptions c60_bounded.
Print Assumptions c60_insert.
Print Assumptions c60_other_calls.
Print Assumptions c60_resize.
Print Assumptions c60_highest_refuted.
Print Assumptions c43_no_miss.
Print Assumptions c43_defined.
Print Assumptions c43_no_funcs_refuted.
Print Assumptions c43_before_update_refuted.
Print Assumptions c43_no_bytes_undefined.
Print Assumptions c43_relevance_refuted.
