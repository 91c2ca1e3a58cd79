(** C103: what is stored is what is found; undo data are read as they were written. *)
From Coq Require Import String List Bool NArith ZArith Lia Sorting.Sorted.
From Coq Require Import ZifyBool ZifyNat ZifyN.
From Verif Require Import Prelude CodecModel CodecSpec CodecProofs WireModel WireSpec WireForm
  WireProofs DbKeyModel DbKeyProofs StoreModel StoreSpec StoreProofs StoreDbProofs.
Import ListNotations.
Open Scope string_scope.
Open Scope list_scope.
Open Scope N_scope.

Ltac find_in := solve [repeat first [left; reflexivity | right]].
Ltac value := cbn; repeat split; try lia; try (repeat constructor; lia).
Ltac members := intros n t H; cbn in H;
  repeat (destruct H as [H|H]; [inversion H; subst; clear H; try solve [value]|]); try contradiction.

(** ** One record *)

(** On any disk: a record of any table, under any key that is not blank, is found again with the
    same values of all its variables, whatever the variable that it is read into held, unless it is
    blank, which is as good as deleted. *)
Theorem c103_store : forall p key g d, key_ok p key -> record_ok p g ->
  exists d', store p key g d = Some d' /\
    (~ blank_key p key -> ~ blank_record p g -> forall fresh, exists g',
       fetch p key fresh d' = Found g' /\ same_record p g' g) /\
    (~ blank_key p key -> blank_record p g -> forall fresh, fetch p key fresh d' = NotFound) /\
    (blank_key p key -> d' = d /\ forall fresh, fetch p key fresh d' = NotFound).
Proof.
  intros p key g d K R. destruct (key_table p key K) as (t & T & _).
  destruct (key_round p key t K T) as (k & B & _).
  pose proof (key_empty_iff p key t K T) as Ek. pose proof (record_empty p g t R T) as Eg.
  destruct (record_round p g t R T) as (s & W & Rd).
  unfold store, fetch. rewrite T. destruct (key_empty t key).
  - exists d. split; [reflexivity|]. split; [intros N; exfalso; tauto|].
    split; [intros N; exfalso; tauto|]. now split.
  - rewrite B. cbn [bind_opt]. destruct (t_empty t g) eqn:E.
    + eexists. split; [reflexivity|]. split; [intros _ N; exfalso; tauto|]. split.
      * intros _ _ fresh. now rewrite set_same.
      * intros Q. apply Ek in Q. discriminate.
    + rewrite W. cbn [bind_opt]. eexists. split; [reflexivity|]. split; [|split].
      * intros _ _ fresh. rewrite set_same. destruct (Rd [] fresh) as (g' & Q & S).
        rewrite app_nil_r in Q. rewrite Q, (same_empty p g' g t T S), E. now exists g'.
      * intros _ Q. apply Eg in Q. discriminate.
      * intros Q. apply Ek in Q. discriminate.
Qed.
Print Assumptions c103_store.

Lemma account_ok : record_ok 24 some_account.
Proof.
  eexists _, _. split; [reflexivity|]. members.
  - value. right. split; [eexists; left; reflexivity|reflexivity].
  - split; [cbn; lia|]. split.
    + repeat constructor.
    + intros e [<-|[<-|[]]]; eexists _, _; (split; [reflexivity|]); value.
Qed.
Lemma keyid_ok : key_ok 24 (VBytes some_keyid).
Proof. eexists _, _. split; [reflexivity|]. value. Qed.
(** An account with two tokens. *)
Example c103_store_example : key_ok 24 (VBytes some_keyid) /\ ~ blank_key 24 (VBytes some_keyid) /\
  record_ok 24 some_account /\ ~ blank_record 24 some_account /\
  match store 24 (VBytes some_keyid) some_account no_data with
  | Some d => match fetch 24 (VBytes some_keyid) (holding []) d with
              | Found g => map g (map fst m_account) = map some_account (map fst m_account)
              | _ => False
              end
  | None => False
  end.
Proof.
  split; [exact keyid_ok|]. split; [|split; [exact account_ok|split]].
  - intros (t & ms & C & B). inversion C; subst. inversion B. discriminate.
  - intros (t & ms & C & B). inversion C; subst. specialize (B "keyid" y_keyid (or_introl eq_refl)).
    cbn in B. specialize (B (or_introl eq_refl)). inversion B. discriminate.
  - vm_compute. reflexivity.
Qed.

(** Storing a record leaves what is found under all other keys, in the same table and in others. *)
Theorem c103_frame : forall p key g d d', key_ok p key -> store p key g d = Some d' ->
  forall q other fresh, key_ok q other -> (q, other) <> (p, key) ->
  fetch q other fresh d' = fetch q other fresh d.
Proof.
  intros p key g d d' K S q other fresh K' N.
  destruct (key_table p key K) as (t & T & _), (key_table q other K') as (t' & T' & _).
  destruct (key_round p key t K T) as (k & B & _), (key_round q other t' K' T') as (k' & B' & _).
  unfold store in S. rewrite T in S. destruct (key_empty t key); [now inversion S|].
  rewrite B in S. cbn [bind_opt] in S.
  assert (S' : exists x, d' = set_at d (prefix_db p) (gen_db_key p (str k)) x).
  { destruct (t_empty t g); [inversion S; now eexists|].
    destruct (write_fields (t_fields t) g); [|discriminate]. inversion S. now eexists. }
  destruct S' as (x & ->). unfold fetch. rewrite T'. destruct (key_empty t' other); [reflexivity|].
  rewrite B'. rewrite set_other; [reflexivity|]. intros (D & G).
  destruct (place_inj q p other key t' t k' k K' K T' T B' B D G) as (-> & ->). now apply N.
Qed.
Print Assumptions c103_frame.

Lemma coin_key_ok : key_ok 39 coin_key.
Proof. eexists _, _. split; [reflexivity|]. value. Qed.
Lemma totals_ok a b : a < 2 ^ 64 -> b < 2 ^ 64 -> record_ok 39 (totals a b).
Proof.
  intros Ha Hb. eexists _, _. split; [reflexivity|]. members; cbn [of_type holds keys_valid nonneg]; tauto.
Qed.
(** The totals of one pair of coins do not change the account. *)
Example c103_frame_example : key_ok 39 coin_key /\
  exists d d', store 24 (VBytes some_keyid) some_account no_data = Some d /\
    store 39 coin_key (totals 500 20) d = Some d' /\
    fetch 24 (VBytes some_keyid) (holding []) d' = fetch 24 (VBytes some_keyid) (holding []) d.
Proof.
  split; [exact coin_key_ok|].
  destruct (c103_store 24 (VBytes some_keyid) some_account no_data keyid_ok account_ok) as (d & E & _).
  destruct (c103_store 39 coin_key (totals 500 20) d coin_key_ok) as (d' & E' & _).
  { apply totals_ok; lia. }
  exists d, d'. split; [exact E|]. split; [exact E'|].
  apply (c103_frame 39 coin_key (totals 500 20) d d' coin_key_ok E' 24%nat); [exact keyid_ok|discriminate].
Qed.

(** ** The databases *)

(** After any records were stored, in any order, in any tables, what is found under a key is the
    record that was stored there last, and nothing if that record is blank or if there was none. *)
Theorem c103_database : forall h d, stored h d -> history_ok h ->
  forall p key, key_ok p key -> ~ blank_key p key -> forall fresh,
  (forall g, latest h p key g -> ~ blank_record p g ->
     exists g', fetch p key fresh d = Found g' /\ same_record p g' g) /\
  (forall g, latest h p key g -> blank_record p g -> fetch p key fresh d = NotFound) /\
  ((forall g, ~ latest h p key g) -> fetch p key fresh d = NotFound).
Proof.
  intros h d S H p key K N fresh. destruct (key_table p key K) as (t & T & _).
  destruct (key_round p key t K T) as (k & B & _).
  assert (E : key_empty t key = false).
  { destruct (key_empty t key) eqn:E; [|reflexivity]. apply (key_empty_iff p key t K T) in E. tauto. }
  apply (fetch_kept p key t k d h fresh K T B E). now apply stored_kept.
Qed.
Print Assumptions c103_database.

(** Three records: totals of a pair of coins, an account, and other totals of the pair. *)
Example c103_database_example : exists d,
  stored [(39%nat, coin_key, totals 600 25); (24%nat, VBytes some_keyid, some_account);
          (39%nat, coin_key, totals 500 20)] d /\
  history_ok [(39%nat, coin_key, totals 600 25); (24%nat, VBytes some_keyid, some_account);
          (39%nat, coin_key, totals 500 20)] /\
  (exists g, fetch 39 coin_key (holding []) d = Found g /\ g "total_staked_assets" = VNum 600 /\
     g "total_owed_scoins" = VNum 25) /\
  fetch 39 (VPair (VBytes wusd) (VBytes wicc)) (holding []) d = NotFound.
Proof.
  assert (H : history_ok [(39%nat, coin_key, totals 600 25); (24%nat, VBytes some_keyid, some_account);
          (39%nat, coin_key, totals 500 20)]).
  { intros p key g [E|[E|[E|[]]]]; inversion E; subst; split;
      try exact coin_key_ok; try exact keyid_ok; try exact account_ok; apply totals_ok; lia. }
  destruct (c103_store 39 coin_key (totals 500 20) no_data coin_key_ok) as (d1 & E1 & _);
    [apply totals_ok; lia|].
  destruct (c103_store 24 (VBytes some_keyid) some_account d1 keyid_ok account_ok) as (d2 & E2 & _).
  destruct (c103_store 39 coin_key (totals 600 25) d2 coin_key_ok) as (d3 & E3 & _);
    [apply totals_ok; lia|].
  assert (S : stored [(39%nat, coin_key, totals 600 25); (24%nat, VBytes some_keyid, some_account);
          (39%nat, coin_key, totals 500 20)] d3).
  { eapply stored_more; [|exact E3]. eapply stored_more; [|exact E2].
    eapply stored_more; [|exact E1]. constructor. }
  exists d3. split; [exact S|]. split; [exact H|]. split.
  - assert (N : ~ blank_key 39 coin_key).
    { intros (t & ms & C & B). inversion C; subst. destruct B as (B & _). discriminate. }
    destruct (c103_database _ _ S H 39%nat coin_key coin_key_ok N (holding [])) as (F & _).
    destruct (F (totals 600 25)) as (g & Q & k & ms & C & Sm); [constructor| |].
    { intros (t & ms & C & B). inversion C; subst.
      specialize (B "total_owed_scoins" y_u64). cbn in B. discriminate B. right. now left. }
    inversion C; subst. exists g. split; [exact Q|].
    split; [apply (Sm "total_staked_assets" y_u64)|apply (Sm "total_owed_scoins" y_u64)]; cbn; tauto.
  - apply (c103_database _ _ S H).
    + eexists _, _. split; [reflexivity|]. value.
    + intros (t & ms & C & B). inversion C; subst. destruct B as (B & _). discriminate.
    + intros g L. repeat match goal with L : latest _ _ _ _ |- _ => inversion L; subst; clear L end.
Qed.

(** ** Undo data *)

(** The entry that is logged for a record that was replaced gives back its key and the record. *)
Theorem c103_entry : forall p key g, key_ok p key -> record_ok p g ->
  exists e, log_entry p key g = Some e /\ forall fresh, exists g',
    read_entry p e fresh = Got (key, g') [] /\ same_record p g' g.
Proof.
  intros p key g K R. destruct (key_table p key K) as (t & T & _).
  destruct (key_round p key t K T) as (k & B & _ & D).
  destruct (record_round p g t R T) as (s & W & Rd).
  exists (k, s). unfold log_entry, read_entry. rewrite T, B, W. split; [reflexivity|]. intros fresh.
  destruct (Rd [] fresh) as (g' & Q & S). rewrite app_nil_r in Q. exists g'. split; [|exact S].
  cbn [fst snd]. destruct (t_key t) as [f|].
  - rewrite D. cbn [got_bind]. rewrite Q. reflexivity.
  - destruct D as (-> & ->). cbn [got_bind]. rewrite Q. reflexivity.
Qed.
Print Assumptions c103_entry.

Example c103_entry_example : key_ok 24 (VBytes some_keyid) /\ record_ok 24 some_account /\
  match log_entry 24 (VBytes some_keyid) some_account with
  | Some e => fst e = some_keyid /\ length (snd e) = 94%nat /\
      match read_entry 24 e (holding []) with
      | Got (k, g) [] => k = VBytes some_keyid /\
          map g (map fst m_account) = map some_account (map fst m_account)
      | _ => False
      end
  | None => False
  end.
Proof. split; [exact keyid_ok|]. split; [exact account_ok|]. vm_compute. repeat split. Qed.

(** The undo data of a block are read from the file as they were written, whatever follows them,
    for the same preceding block, and for no other, but for collisions of the hash function. *)
Theorem c103_undo : forall hash owner u, (forall x, length (hash x) = 32%nat) -> of_type y_undo u ->
  exists s, undo_bytes hash owner u = Some s /\ forall after,
    read_undo hash owner (s ++ after) = Got u after /\
    forall other, (forall x, hash (owner ++ x) <> hash (other ++ x)) ->
      read_undo hash other (s ++ after) = Throws.
Proof.
  intros hash owner u L H. destruct (undo_round u H) as (s & E & D).
  unfold undo_bytes, read_undo. rewrite E. cbn [bind_opt]. eexists. split; [reflexivity|].
  intros after. rewrite <- app_assoc, D. cbn [got_bind].
  assert (T : take_bytes 32 (hash (owner ++ s) ++ after) = Some (hash (owner ++ s), after))
    by (rewrite <- (L (owner ++ s)); apply take_bytes_app).
  rewrite T. cbn [of_option got_bind]. rewrite E. split.
  - now rewrite (proj2 (same_bytes_iff _ _) eq_refl).
  - intros other N. destruct (same_bytes (hash (owner ++ s)) (hash (other ++ s))) eqn:Q; [|reflexivity].
    apply same_bytes_iff in Q. now apply N in Q.
Qed.
Print Assumptions c103_undo.

Example c103_undo_example : exists e, log_entry 39 coin_key (totals 500 20) = Some e /\
  of_type y_undo (one_undo some_hash [103] e) /\
  exists s, undo_bytes (fun x => firstn 32 (x ++ List.repeat 0 32)) some_hash (one_undo some_hash [103] e) = Some s /\
    length s = 84%nat /\
    read_undo (fun x => firstn 32 (x ++ List.repeat 0 32)) some_hash s = Got (one_undo some_hash [103] e) [] /\
    read_undo (fun x => firstn 32 (x ++ List.repeat 0 32)) (List.repeat 8 32) s = Throws.
Proof.
  eexists. split; [vm_compute; reflexivity|]. split.
  - cbn [of_type y_undo one_undo y_text y_hash]. split; [cbn; lia|]. intros x [<-|[]].
    cbn [of_type fst snd]. split; [value|]. split; [cbn; lia|]. split; [repeat constructor|].
    intros e [<-|[]]. eexists _, _. split; [reflexivity|]. split; [value|].
    split; [cbn; lia|]. intros x [<-|[]]. cbn [of_type]. split; value.
  - eexists. split; [vm_compute; reflexivity|]. split; [reflexivity|]. split; vm_compute; reflexivity.
Qed.

(** ** What is not kept *)

(** A position whose height is negative is found with another height: [of_type] excludes it. *)
Theorem c103_negative_refuted : exists d g, store 34 (VBytes some_hash) (cdp_at (-1)) no_data = Some d /\
  fetch 34 (VBytes some_hash) (holding []) d = Found g /\ g "block_height" <> VInt (-1).
Proof.
  eexists _, _. split; [vm_compute; reflexivity|]. split; [vm_compute; reflexivity|].
  vm_compute. discriminate.
Qed.
Print Assumptions c103_negative_refuted.

(** An exchange operator that is activated, with an open mode and a list of operators, and with
    none of the other values, is lost. *)
Theorem c103_lost_refuted : exists d, record_ok 45 open_operator /\
  store 45 (VTag 1 (VNum 9)) open_operator no_data = Some d /\
  (forall fresh, fetch 45 (VTag 1 (VNum 9)) fresh d = NotFound) /\
  open_operator "activated" = VNum 1.
Proof.
  eexists. split; [|split; [vm_compute; reflexivity|split; [|reflexivity]]].
  - eexists _, _. split; [reflexivity|]. members.
    cbn [of_type]. split; [cbn; lia|]. split; [repeat constructor; lia|].
    intros x [<-|[<-|[]]]; value.
  - intros fresh. vm_compute. reflexivity.
Qed.
Print Assumptions c103_lost_refuted.

(** A string of more than 4,000,000 bytes is written, and is not found. *)
Theorem c103_long_refuted : exists b d, N.of_nat (length b) = 4000001 /\ bytes b /\
  store 28 (VBytes some_hash) (text_record b) no_data = Some d /\
  (exists x, d (prefix_db 28) (gen_db_key 28 (str some_hash)) = Some x) /\
  forall fresh, fetch 28 (VBytes some_hash) fresh d = NotFound.
Proof.
  destruct (some_text 4000001) as (b & L & Hb). exists b.
  assert (H : 4000000 < N.of_nat (length b) < 18446744073709551616) by lia.
  assert (E : empty_val s_text (VBytes b) = false) by (destruct b; [cbn in H; lia|reflexivity]).
  unfold store, fetch. cbn [tables plain t_key t_fields t_empty key_empty key_bytes].
  change (text_record b "value") with (VBytes b). rewrite E.
  change (empty_val s_hash (VBytes some_hash)) with false. cbn iota.
  cbn [senc s_hash s_text enc bind_opt write_fields].
  change (text_record b "value") with (VBytes b). cbn [enc bind_opt].
  eexists. split; [exact L|]. split; [exact Hb|]. split; [reflexivity|].
  split; [eexists; apply set_same|]. intros fresh. rewrite set_same.
  destruct (bad_text b H) as (s & W & D). inversion W; subst s. cbn [read_fields]. now rewrite D.
Qed.
Print Assumptions c103_long_refuted.

(** A record that is stored and found can be too long for undo data: a block that replaced it
    cannot be undone. *)
Theorem c103_undo_long_refuted : exists g e d, record_ok 28 g /\
  store 28 (VBytes some_hash) g no_data = Some d /\
  (forall fresh, exists g', fetch 28 (VBytes some_hash) fresh d = Found g' /\ same_record 28 g' g) /\
  log_entry 28 (VBytes some_hash) g = Some e /\
  forall hash owner, exists x, undo_bytes hash owner (one_undo some_hash [115] e) = Some x /\
    forall after, read_undo hash owner (x ++ after) = Throws.
Proof.
  destruct (some_text 4000000) as (b & L & Hb).
  assert (K : key_ok 28 (VBytes some_hash)) by (eexists _, _; split; [reflexivity|]; value).
  assert (R : record_ok 28 (text_record b)).
  { eexists _, _. split; [reflexivity|]. intros n t [H|[]]. inversion H; subst.
    change (text_record b "value") with (VBytes b). split; [|split; exact I]. split; [lia|exact Hb]. }
  destruct (c103_store 28 (VBytes some_hash) (text_record b) no_data K R) as (d & S & F & _).
  exists (text_record b), (some_hash, write_string b), d. split; [exact R|]. split; [exact S|]. split.
  - apply F.
    + intros (t & ms & C & B). inversion C; subst. inversion B. discriminate.
    + intros (t & ms & C & B). inversion C; subst. specialize (B "value" y_text (or_introl eq_refl)).
      change (text_record b "value") with (VBytes b) in B. cbn in B. subst b. cbn in L. discriminate L.
  - split.
    + unfold log_entry. cbn [tables plain t_key t_fields key_bytes senc s_hash s_text enc bind_opt write_fields].
      change (text_record b "value") with (VBytes b). cbn [enc bind_opt]. now rewrite app_nil_r.
    + intros hash owner. destruct (bad_undo some_hash [115] some_hash (write_string b)) as (s & E & D).
      * reflexivity.
      * cbn. lia.
      * cbn. lia.
      * unfold write_string. rewrite app_length, L. unfold write_compact. cbn [N.ltb N.leb N.compare].
        cbn -[N.of_nat length]. rewrite Nat2N.inj_add, L. cbn [length]. lia.
      * unfold undo_bytes, read_undo. rewrite E. cbn [bind_opt]. eexists. split; [reflexivity|].
        intros after. rewrite <- app_assoc, D. reflexivity.
Qed.
Print Assumptions c103_undo_long_refuted.
