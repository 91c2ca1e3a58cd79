(** C01-C04, C46: layered state caches, flushing, undo logs, block undo, key layout. *)
From Coq Require Import String List Bool NArith.
From Verif Require Import KvModel KvSpec KvProofs UndoModel UndoSpec UndoProofs
  DbKeyModel DbKeyProofs.
Import ListNotations.

(** C01. Whatever the stack of caches and the database hold, and whatever sequence of reads,
    writes, erases and flushes of any layer follows, every answer is the one a single plain
    map would give, and the final content is the final content of that map. *)
Theorem c01_layered_cache_is_a_map :
  forall (K V : Type) (Keqb : K -> K -> bool) (emptyK : K -> bool) (emptyV : V -> bool)
         (set_empty : V -> V) (empty_value : V),
  (forall a b, reflect (a = b) (Keqb a b)) ->
  (forall v, emptyV (set_empty v) = true) ->
  forall (os : list (op K V)) (s : stack K V) (lg : option (list (K * V))),
  wf s ->
  let r := run Keqb emptyK emptyV set_empty empty_value (s, lg) os in
  let m := plain_run Keqb emptyK emptyV (contents Keqb emptyV s) os in
  fst r = fst m /\ forall k, contents Keqb emptyV (fst (snd r)) k = snd m k.
Proof.
  intros K V Keqb emptyK emptyV set_empty empty_value He Hs os s lg W.
  exact (run_refines Keqb emptyK emptyV set_empty empty_value He Hs os lg
           (contents Keqb emptyV s) W (fun k => eq_refl)).
Qed.
Print Assumptions c01_layered_cache_is_a_map.

(** The same for the single-value caches. *)
Theorem c01_simple_cache_is_a_cell :
  forall (V : Type) (emptyV : V -> bool) (set_empty : V -> V) (empty_value : V),
  (forall v, emptyV (set_empty v) = true) ->
  forall (os : list (sop V)) (s : sstack V) (lg : option (list V)),
  swf s ->
  let r := srun emptyV set_empty empty_value (s, lg) os in
  let m := splain_run emptyV (scontents emptyV s) os in
  fst r = fst m /\ scontents emptyV (fst (snd r)) = snd m.
Proof.
  intros V emptyV set_empty empty_value Hs os s lg W.
  exact (srun_refines emptyV set_empty empty_value Hs os lg W).
Qed.
Print Assumptions c01_simple_cache_is_a_cell.

(** A concrete three-layer stack over a database, with numbers as keys and values and zero
    as the empty one. *)
Section Instance.
  Open Scope N_scope.
  Definition isz (x : N) : bool := x =? 0.
  Definition exs : stack N N := mkStack [[]; [(1, 0)]; [(2, 7)]] [(1, 5); (3, 9)].

  Lemma exs_wf : wf exs.
  Proof.
    split; [simpl; congruence|]. split.
    - repeat constructor; simpl; intuition congruence.
    - simpl. unfold nodup. simpl. repeat constructor; simpl; intuition congruence.
  Qed.

  Example c01_example :
    fst (run N.eqb isz isz (fun _ => 0) 0 (exs, None)
           [OGet 1; OGet 3; OErase 3; OFlush 0; OGet 3; OSet 1 4; OFlush 1; OHas 1; OFlush 2;
            OGet 2; OSet 0 1])
    = [AVal None; AVal (Some 9); ABool true; AUnit; AVal None; ABool true; AUnit; ABool true;
       AUnit; AVal (Some 7); ABool false].
  Proof. vm_compute. reflexivity. Qed.
End Instance.

(** C02. Flushing any layer changes no key's content, and after flushing the layers from the
    top down every cache layer is empty, so that the database alone holds the content; the
    database never stores an empty value. *)
Theorem c02_flush_transparent :
  forall (K V : Type) (Keqb : K -> K -> bool) (emptyV : V -> bool),
  (forall a b, reflect (a = b) (Keqb a b)) ->
  forall (i : nat) (s : stack K V) (k : K),
  wf s -> contents Keqb emptyV (flush Keqb emptyV i s) k = contents Keqb emptyV s k.
Proof.
  intros K V Keqb emptyV He i s k W.
  exact (flush_contents Keqb (fun _ => true) emptyV He i k W).
Qed.
Print Assumptions c02_flush_transparent.

Theorem c02_flush_all_reaches_database :
  forall (K V : Type) (Keqb : K -> K -> bool) (emptyV : V -> bool),
  (forall a b, reflect (a = b) (Keqb a b)) ->
  forall (s : stack K V), wf s ->
  let s' := flush_all_from Keqb emptyV 0 (length (layers s)) s in
  Forall (fun m => m = []) (layers s') /\
  forall k, contents Keqb emptyV (mkStack [[]] (db s')) k = contents Keqb emptyV s k.
Proof.
  intros K V Keqb emptyV He s W s'. subst s'.
  pose proof (flush_all_empty Keqb emptyV (layers s) (db s) eq_refl (Forall_nil _)) as F.
  assert (E : mkStack ([] ++ layers s) (db s) = s) by (destruct s; reflexivity).
  rewrite E in F. change (length (@nil (amap K V))) with O in F. split; [exact F|].
  intros k.
  destruct (flush_all_contents Keqb (fun _ => true) emptyV He (length (layers s)) 0 k W) as [C _].
  rewrite <- C. clear C E. unfold contents.
  assert (G : forall ls d, Forall (fun m : amap K V => m = []) ls ->
              first_entry Keqb (ls ++ [d]) k = first_entry Keqb [d] k).
  { induction ls as [|m ls IH]; intros d H; [reflexivity|]. inversion H; subst.
    simpl app. cbn [first_entry find]. apply IH. assumption. }
  rewrite (G _ _ F). reflexivity.
Qed.
Print Assumptions c02_flush_all_reaches_database.

Theorem c02_database_holds_no_empty_value :
  forall (K V : Type) (Keqb : K -> K -> bool) (emptyK : K -> bool) (emptyV : V -> bool)
         (set_empty : V -> V) (empty_value : V),
  (forall a b, reflect (a = b) (Keqb a b)) ->
  forall os (s : stack K V) lg, wf s -> db_no_empty Keqb emptyV s ->
  db_no_empty Keqb emptyV (fst (snd (run Keqb emptyK emptyV set_empty empty_value (s, lg) os))).
Proof.
  intros K V Keqb emptyK emptyV set_empty empty_value He os s lg W H.
  exact (run_db_no_empty emptyK set_empty empty_value He os lg W H).
Qed.
Print Assumptions c02_database_holds_no_empty_value.

Example c02_example :
  db (flush N.eqb isz 2 (flush N.eqb isz 1 (flush N.eqb isz 0 exs))) = [(3, 9); (2, 7)]%N.
Proof. vm_compute. reflexivity. Qed.

(** C03. The log recorded while any sequence of calls ran, replayed by the undo function on
    any stack that reads the same as the final one (for instance after a flush or a
    restart), restores for every key what was readable before. *)
Theorem c03_undo_restores :
  forall (K V : Type) (Keqb : K -> K -> bool) (emptyK : K -> bool) (emptyV : V -> bool)
         (set_empty : V -> V) (empty_value : V),
  (forall a b, reflect (a = b) (Keqb a b)) ->
  (forall v, emptyV (set_empty v) = true) ->
  emptyV empty_value = true ->
  forall (os : list (op K V)) (s s2 : stack K V) l,
  wf s -> wf s2 ->
  snd (snd (run Keqb emptyK emptyV set_empty empty_value (s, Some []) os)) = Some l ->
  (forall k, contents Keqb emptyV s2 k =
     contents Keqb emptyV (fst (snd (run Keqb emptyK emptyV set_empty empty_value (s, Some []) os))) k) ->
  forall k, contents Keqb emptyV (undo_data_list Keqb s2 l) k = contents Keqb emptyV s k.
Proof.
  intros K V Keqb emptyK emptyV set_empty empty_value He Hs Hv os s s2 l W W2 HL HC.
  exact (run_undo Keqb emptyK emptyV set_empty empty_value He Hs Hv os W W2 HL HC).
Qed.
Print Assumptions c03_undo_restores.

Theorem c03_simple_undo_restores :
  forall (V : Type) (emptyV : V -> bool) (set_empty : V -> V) (empty_value : V),
  (forall v, emptyV (set_empty v) = true) ->
  emptyV empty_value = true ->
  forall (os : list (sop V)) (s s2 : sstack V) l,
  swf s -> swf s2 ->
  snd (snd (srun emptyV set_empty empty_value (s, Some []) os)) = Some l ->
  scontents emptyV s2 = scontents emptyV (fst (snd (srun emptyV set_empty empty_value (s, Some []) os))) ->
  scontents emptyV (s_undo_list s2 l) = scontents emptyV s.
Proof.
  intros V emptyV set_empty empty_value Hs Hv os s s2 l W W2 HL HC.
  exact (srun_undo emptyV set_empty empty_value Hs Hv os W W2 HL HC).
Qed.
Print Assumptions c03_simple_undo_restores.

(** A log always exists when one is attached, so the hypothesis of C03 is met by every run. *)
Example c03_example :
  snd (snd (run N.eqb isz isz (fun _ => 0%N) 0%N (exs, Some [])
     [OSet 1 4; OErase 3; OSet 3 1; OErase 8; OSet 8 2]%N)) = Some [(1, 0); (3, 9); (3, 0); (8, 0)]%N.
Proof. vm_compute. reflexivity. Qed.

(** C04. A block: any number of transactions, each any sequence of calls on any of the
    stores. Executing the block's undo data on any state that reads the same succeeds and
    restores what every key of every store read before the block, provided the stores the
    block touched are registered for undo; the stores of the cache wrapper all are. *)
Theorem c04_block_undo_restores :
  forall (K V : Type) (Keqb : K -> K -> bool) (emptyK : N -> K -> bool) (emptyV : N -> V -> bool)
         (set_empty : N -> V -> V) (empty_value : N -> V),
  (forall a b, reflect (a = b) (Keqb a b)) ->
  (forall p v, emptyV p (set_empty p v) = true) ->
  (forall p, emptyV p (empty_value p) = true) ->
  forall (txs : list (list (N * op K V))) (w w2 : N -> store K V),
  w_wf w -> w_wf w2 ->
  (forall p, In p (map fst (concat txs)) -> exists q, p = N.of_nat q /\ In q wrapper_prefixes) ->
  w_eq Keqb emptyV w2 (fst (exec_block Keqb emptyK emptyV set_empty empty_value w txs)) ->
  let r := undo_block Keqb undo_registered w2
             (snd (exec_block Keqb emptyK emptyV set_empty empty_value w txs)) in
  fst r = true /\ w_eq Keqb emptyV (snd r) w.
Proof.
  intros K V Keqb emptyK emptyV set_empty empty_value He Hs Hv txs w w2 W W2 R E.
  pose proof (@undo_block_ok K V Keqb emptyK emptyV set_empty empty_value He Hs Hv undo_registered
                txs w w2 W W2) as H.
  assert (R' : forall p, In p (map fst (concat txs)) -> undo_registered p = true).
  { intros p Hp. destruct (R p Hp) as (q & -> & Hq). exact (wrapper_registered q Hq). }
  specialize (H R' E). simpl.
  destruct (undo_block Keqb undo_registered w2
              (snd (exec_block Keqb emptyK emptyV set_empty empty_value w txs))) as [ok w3].
  destruct H as (A & _ & B). exact (conj A B).
Qed.
Print Assumptions c04_block_undo_restores.

(** Two stores (accounts, prefix 24; median prices, a single value, prefix 54), two
    transactions. *)
Definition exw : N -> store N N :=
  fun p => if N.eqb p 54 then Simp (mkSStack [None; Some 8%N] None) else Comp exs.
Definition exblock : list (list (N * op N N)) :=
  [[(24, OSet 1 4); (54, OErase 0); (24, OErase 3)]; [(54, OSet 0 3); (24, OSet 1 6)]]%N.
Example c04_example :
  let r := exec_block N.eqb (fun _ => isz) (fun _ => isz) (fun _ _ => 0%N) (fun _ => 0%N) exw exblock in
  map (st_contents N.eqb (fun _ => isz) 24 (fst r 24%N)) [1; 2; 3]%N = [Some 6%N; Some 7%N; None] /\
  map (st_contents N.eqb (fun _ => isz) 24
         (snd (undo_block N.eqb undo_registered (fst r) (snd r)) 24%N)) [1; 2; 3]%N
    = [None; Some 7%N; Some 9%N] /\
  (forall p, In p (map fst (concat exblock)) -> exists q, p = N.of_nat q /\ In q wrapper_prefixes).
Proof.
  split; [vm_compute; reflexivity|]. split; [vm_compute; reflexivity|].
  simpl. intros p H.
  assert (p = 24%N \/ p = 54%N) as [->| ->] by intuition.
  - exists 24%nat. split; [reflexivity|]. unfold wrapper_prefixes. repeat (try (left; reflexivity); right).
  - exists 54%nat. split; [reflexivity|]. unfold wrapper_prefixes. repeat (try (left; reflexivity); right).
Qed.

(** C46. Records of different tables never share a database key, records of one table share
    one only when their serialised keys are equal, a key parses back to its element under
    its own table and is refused by every other table of the same database, and the name
    stored in undo data identifies its table. *)
Theorem c46_keys_never_collide :
  forall p q e f,
  valid_prefix p = true -> valid_prefix q = true -> prefix_db p = prefix_db q ->
  gen_db_key p e = gen_db_key q f -> p = q /\ e = f.
Proof. exact gen_db_key_inj. Qed.
Print Assumptions c46_keys_never_collide.

Theorem c46_key_parse :
  forall p e, valid_prefix p = true ->
  parse_db_key p (gen_db_key p e) = Some e /\
  (forall q, valid_prefix q = true -> prefix_db p = prefix_db q -> p <> q ->
     parse_db_key q (gen_db_key p e) = None) /\
  parse_key_prefix_type (key_prefix p) = p.
Proof.
  exact (fun p e V => conj (parse_gen p e V)
           (conj (fun q Vq D N => parse_other p q e V Vq D N) (parse_type p V))).
Qed.
Print Assumptions c46_key_parse.

Example c46_example :
  valid_prefix 34 = true /\ gen_db_key 34 "xyz" = "cidxyz"%string /\
  valid_prefix 37 = true /\ prefix_db 34 = prefix_db 37.
Proof. vm_compute. auto. Qed.
