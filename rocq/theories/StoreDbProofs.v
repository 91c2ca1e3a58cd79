(** Proofs about records in databases and about undo data. *)
From Coq Require Import String List Bool NArith ZArith Lia.
From Coq Require Import ZifyBool ZifyNat ZifyN.
From Verif Require Import Prelude CodecModel CodecSpec CodecProofs WireModel WireSpec WireForm
  WireProofs DbKeyModel DbKeyProofs StoreModel StoreSpec StoreProofs.
Import ListNotations.
Open Scope string_scope.
Open Scope list_scope.
Open Scope N_scope.

(** ** Keys *)

Lemma key_round p key t : key_ok p key -> tables p = Some t ->
  exists k, key_bytes t key = Some k /\ bytes k /\
    match t_key t with Some f => sdec f k = Got key [] | None => key = VUnit /\ k = [] end.
Proof.
  intros (kt & ms & C & K) T. destruct (table_matches p kt ms C) as (t' & T' & M & _).
  rewrite T in T'. inversion T'; subst t'. unfold key_bytes, key_matches in *.
  destruct (t_key t) as [f|], kt as [y|]; try contradiction.
  - destruct M as (R & Ht & Hk). destruct (R key K) as (F & _).
    destruct (sround_end f Ht key F) as (s & E & D). exists s.
    split; [exact E|]. split; [|exact D]. now apply (key_is_bytes f Hk key s).
  - exists []. repeat split; [constructor|exact K].
Qed.
Lemma key_empty_iff p key t : key_ok p key -> tables p = Some t ->
  (key_empty t key = true <-> blank_key p key).
Proof.
  intros (kt & ms & C & K) T. destruct (table_matches p kt ms C) as (t' & T' & M & _).
  rewrite T in T'. inversion T'; subst t'. unfold key_empty, key_matches in *.
  destruct (t_key t) as [f|], kt as [y|]; try contradiction.
  - destruct M as (R & _). destruct (R key K) as (_ & ->). split.
    + intros B. now exists y, ms.
    + intros (y' & ms' & C' & B). rewrite C in C'. inversion C'; subst. exact B.
  - split; [discriminate|]. intros (y' & ms' & C' & _). rewrite C in C'. discriminate.
Qed.
Lemma key_table p key : key_ok p key -> exists t, tables p = Some t /\ valid_prefix p = true.
Proof.
  intros (kt & ms & C & _). destruct (table_matches p kt ms C) as (t & T & _). exists t.
  split; [exact T|]. now apply table_place in C.
Qed.
Lemma place_inj p q key key' t t' k k' : key_ok p key -> key_ok q key' ->
  tables p = Some t -> tables q = Some t' -> key_bytes t key = Some k -> key_bytes t' key' = Some k' ->
  prefix_db p = prefix_db q -> gen_db_key p (str k) = gen_db_key q (str k') ->
  p = q /\ key = key'.
Proof.
  intros K K' T T' B B' D E.
  destruct (key_table p key K) as (? & _ & V), (key_table q key' K') as (? & _ & V').
  destruct (gen_db_key_inj p q _ _ V V' D E) as (-> & S). split; [reflexivity|].
  rewrite T in T'. inversion T'; subst t'.
  destruct (key_round q key t K T) as (a & A & Ba & Ra), (key_round q key' t K' T) as (b & A' & Bb & Rb).
  rewrite B in A. rewrite B' in A'. inversion A; inversion A'; subst a b.
  apply str_inj in S; [|assumption..]. subst k'.
  destruct (t_key t) as [f|].
  - rewrite Ra in Rb. now inversion Rb.
  - destruct Ra as (-> & _), Rb as (-> & _). reflexivity.
Qed.

(** ** Records *)

Lemma record_round p g t : record_ok p g -> tables p = Some t ->
  exists s, write_fields (t_fields t) g = Some s /\ forall rest fresh, exists g',
    read_fields (t_fields t) (s ++ rest) fresh = Got g' rest /\ same_record p g' g.
Proof.
  intros (kt & ms & C & O) T. destruct (table_matches p kt ms C) as (t' & T' & _ & Cov & Cov').
  rewrite T in T'. inversion T'; subst t'.
  destruct (fields_round (t_fields t) g) as (s & W & R).
  { intros n f H. destruct (Cov' n f H) as (Ht & u & Hu & Ru). split; [exact Ht|].
    now apply Ru, O. }
  exists s. split; [exact W|]. intros rest fresh. destruct (R rest fresh) as (g' & Rd & S & _).
  exists g'. split; [exact Rd|]. exists kt, ms. split; [exact C|]. intros n u H.
  destruct (Cov n u H) as (f & Hf). now apply (S n f).
Qed.
Lemma same_empty p g g' t : tables p = Some t -> same_record p g g' -> t_empty t g = t_empty t g'.
Proof.
  intros T (k & ms & C & S). apply (table_names p t ms k C T). intros n H.
  apply in_map_iff in H. destruct H as ((m, u) & <- & H). now apply (S m u).
Qed.
Lemma record_empty p g t : record_ok p g -> tables p = Some t ->
  (t_empty t g = true <-> blank_record p g).
Proof. intros (k & ms & C & O) T. now apply (empty_blank p k ms). Qed.

(** ** Storing *)

Lemma store_some p key g d : key_ok p key -> record_ok p g -> exists d', store p key g d = Some d'.
Proof.
  intros K R. destruct (key_table p key K) as (t & T & _). unfold store. rewrite T.
  destruct (key_empty t key); [now eexists|]. destruct (key_round p key t K T) as (k & B & _).
  rewrite B. cbn [bind_opt]. destruct (t_empty t g); [now eexists|].
  destruct (record_round p g t R T) as (s & W & _). rewrite W. now eexists.
Qed.

Lemma set_same d n k x : set_at d n k x n k = x.
Proof. unfold set_at. now rewrite dbname_eqb_refl, String.eqb_refl. Qed.
Lemma set_other d n k x m j : ~ (m = n /\ j = k) -> set_at d n k x m j = d m j.
Proof.
  intros H. unfold set_at. destruct (dbname_eqb m n && (j =? k)%string) eqn:E; [|reflexivity].
  apply andb_prop in E. destruct E as (E1 & E2). apply String.eqb_eq in E2.
  exfalso. apply H. split; [|exact E2]. destruct m, n; cbn in E1; congruence.
Qed.

Definition kept (h : history) (d : disk) (p : nat) (key : val) (t : table) (k : list N) : Prop :=
  let x := d (prefix_db p) (gen_db_key p (str k)) in
  (exists g s, latest h p key g /\ record_ok p g /\ t_empty t g = false /\
     write_fields (t_fields t) g = Some s /\ x = Some s) \/
  (exists g, latest h p key g /\ record_ok p g /\ t_empty t g = true /\ x = None) \/
  ((forall g, ~ latest h p key g) /\ x = None).

Lemma kept_step h d p key t k q key' g' d' : kept h d p key t k ->
  (p, key) <> (q, key') ->
  d' (prefix_db p) (gen_db_key p (str k)) = d (prefix_db p) (gen_db_key p (str k)) ->
  kept ((q, key', g') :: h) d' p key t k.
Proof.
  intros [(g & s & L & H)|[(g & L & H)|(L & H)]] N E; unfold kept; rewrite E.
  - left. exists g, s. split; [now constructor|exact H].
  - right. left. exists g. split; [now constructor|exact H].
  - right. right. split; [|exact H]. intros g Q. inversion Q; subst; [congruence|]. eapply L; eassumption.
Qed.

Lemma stored_kept h d : stored h d -> history_ok h -> forall p key t k,
  key_ok p key -> tables p = Some t -> key_bytes t key = Some k -> key_empty t key = false ->
  kept h d p key t k.
Proof.
  induction 1 as [|h d q key' g' d' _ IH S]; intros Hh p key t k K T B E.
  - right. right. split; [|reflexivity]. intros g Q. inversion Q.
  - destruct (Hh q key' g' (or_introl eq_refl)) as (K' & R').
    assert (Hk : kept h d p key t k).
    { apply IH; try assumption. intros a b c Hi. apply Hh. now right. }
    destruct (key_table q key' K') as (t' & T' & _). unfold store in S. rewrite T' in S.
    destruct (key_empty t' key') eqn:E'.
    + inversion S; subst d'. apply kept_step with (d := d); [exact Hk| |reflexivity].
      intros [= -> ->]. rewrite T in T'. inversion T'; subst. congruence.
    + destruct (key_round q key' t' K' T') as (k' & B' & _). rewrite B' in S. cbn [bind_opt] in S.
      destruct (record_round q g' t' R' T') as (s' & W' & _).
      assert (S' : exists x, d' = set_at d (prefix_db q) (gen_db_key q (str k')) x /\
        ((t_empty t' g' = true /\ x = None) \/ (t_empty t' g' = false /\ x = Some s'))).
      { destruct (t_empty t' g'); [inversion S; eexists; split; [reflexivity|now left]|].
        rewrite W' in S. inversion S. eexists. split; [reflexivity|now right]. }
      destruct S' as (x & -> & Hx).
      destruct (string_dec (gen_db_key p (str k)) (gen_db_key q (str k'))) as [G|G].
      * destruct (dbname_eqb (prefix_db p) (prefix_db q)) eqn:D.
        -- assert (Dd : prefix_db p = prefix_db q)
             by (destruct (prefix_db p), (prefix_db q); cbn in D; congruence).
           destruct (place_inj p q key key' t t' k k' K K' T T' B B' Dd G) as (-> & ->).
           rewrite T in T'. inversion T'; subst t'. rewrite B in B'. inversion B'; subst k'.
           unfold kept. rewrite set_same. destruct Hx as [(Em & ->)|(Em & ->)].
           ++ right. left. exists g'. repeat split; try assumption; constructor.
           ++ left. exists g', s'. repeat split; try assumption; constructor.
        -- apply kept_step with (d := d); [exact Hk| |].
           ++ intros [= -> ->]. rewrite dbname_eqb_refl in D. discriminate.
           ++ apply set_other. intros (Q & _). rewrite Q, dbname_eqb_refl in D. discriminate.
      * apply kept_step with (d := d); [exact Hk| |].
        -- intros [= -> ->]. rewrite T in T'. inversion T'; subst t'. rewrite B in B'.
           inversion B'; subst. now apply G.
        -- apply set_other. intros (_ & Q). now apply G.
Qed.

Lemma latest_one h p key g : latest h p key g -> forall g', latest h p key g' -> g = g'.
Proof.
  induction 1 as [h p key g|h p key g q k r N L IH]; intros g' Q; inversion Q; subst; try congruence.
  now apply IH.
Qed.

Lemma fetch_kept p key t k d h fresh : key_ok p key -> tables p = Some t ->
  key_bytes t key = Some k -> key_empty t key = false -> kept h d p key t k ->
  (forall g, latest h p key g -> ~ blank_record p g ->
     exists g', fetch p key fresh d = Found g' /\ same_record p g' g) /\
  (forall g, latest h p key g -> blank_record p g -> fetch p key fresh d = NotFound) /\
  ((forall g, ~ latest h p key g) -> fetch p key fresh d = NotFound).
Proof.
  intros K T B E H. unfold fetch. rewrite T, E, B.
  destruct H as [(g & s & L & R & Em & W & X)|[(g & L & R & Em & X)|(L & X)]]; rewrite X.
  - destruct (record_round p g t R T) as (s' & W' & Rd). rewrite W in W'. inversion W'; subst s'.
    destruct (Rd [] fresh) as (g' & Q & S). rewrite app_nil_r in Q. rewrite Q.
    rewrite (same_empty p g' g t T S), Em. split; [|split].
    + intros g1 L1 _. rewrite <- (latest_one _ _ _ _ L _ L1). now exists g'.
    + intros g1 L1 Bl. rewrite <- (latest_one _ _ _ _ L _ L1) in Bl.
      apply (record_empty p g t R T) in Bl. congruence.
    + intros N. now apply N in L.
  - split; [|split; intros; reflexivity]. intros g1 L1 Bl. rewrite <- (latest_one _ _ _ _ L _ L1) in Bl.
    exfalso. apply Bl. now apply (record_empty p g t R T).
  - split; [|split; intros; reflexivity]. intros g1 L1. now apply L in L1.
Qed.

(** ** Undo data *)

Lemma rep_undo : rep s_undo y_undo.
Proof.
  unfold s_undo, y_undo. apply rep_vec, rep_pair; [apply rep_blob|].
  apply rep_map; [exact rep_text|]. apply rep_vec, rep_pair; exact rep_text.
Qed.
Lemma undo_round u : of_type y_undo u ->
  exists s, senc s_undo u = Some s /\ forall rest, sdec s_undo (s ++ rest) = Got u rest.
Proof. intros H. apply sround; [reflexivity|]. now apply rep_undo. Qed.
Lemma same_bytes_iff a : forall b, same_bytes a b = true <-> a = b.
Proof.
  induction a as [|x a IH]; intros b; destruct b as [|y b]; cbn; try (split; congruence).
  rewrite andb_true_iff, N.eqb_eq, IH. split; [intros (-> & ->); reflexivity|now intros [= -> ->]].
Qed.

(** Values that are written and that cannot be read. *)
Definition good (f : sfmt) (v : val) : Prop :=
  exists s, senc f v = Some s /\ forall rest, sdec f (s ++ rest) = Got v rest.
Definition bad (f : sfmt) (v : val) : Prop :=
  exists s, senc f v = Some s /\ forall rest, sdec f (s ++ rest) = Throws.
Lemma good_text b : N.of_nat (length b) <= 4000000 -> good s_text (VBytes b).
Proof.
  intros H. eexists. split; [reflexivity|]. intros rest. cbn [sdec s_text dec].
  now rewrite string_round_trip.
Qed.
Lemma bad_text b : 4000000 < N.of_nat (length b) < 18446744073709551616 -> bad s_text (VBytes b).
Proof.
  intros H. eexists. split; [reflexivity|]. intros rest. cbn [sdec s_text dec].
  now rewrite string_too_long.
Qed.
Lemma bad_pair a b x y : good a x -> bad b y -> bad (SPair a b) (VPair x y).
Proof.
  intros (s & E & D) (t & E' & D'). exists (s ++ t). cbn [senc sdec]. rewrite E, E'.
  split; [reflexivity|]. intros rest. rewrite <- app_assoc, D. cbn [got_bind]. now rewrite D'.
Qed.
Lemma bad_vec a x : bad a x -> bad (SVec a) (VList [x]).
Proof.
  intros (s & E & D). exists (write_compact 1 ++ s). cbn [senc sdec write_all]. rewrite E.
  cbn [bind_opt]. rewrite app_nil_r. split; [reflexivity|]. intros rest.
  rewrite <- app_assoc, compact_small by lia. cbn [of_option got_bind].
  change (N.to_nat 1) with 1%nat. cbn [read_many]. now rewrite D.
Qed.
Lemma bad_map k a x y : good k x -> bad a y -> bad (SMap k a) (VList [VPair x y]).
Proof.
  intros (s & E & D) (t & E' & D'). exists (write_compact 1 ++ s ++ t). cbn [senc sdec write_all].
  rewrite E, E'. cbn [bind_opt]. rewrite app_nil_r. split; [reflexivity|]. intros rest.
  rewrite <- app_assoc, compact_small by lia. cbn [of_option got_bind].
  change (N.to_nat 1) with 1%nat. cbn [read_many]. rewrite <- app_assoc, D. cbn [got_bind].
  now rewrite D'.
Qed.
Lemma bad_undo txid name k s : length txid = 32%nat -> N.of_nat (length name) <= 4000000 ->
  N.of_nat (length k) <= 4000000 -> 4000000 < N.of_nat (length s) < 18446744073709551616 ->
  bad s_undo (one_undo txid name (k, s)).
Proof.
  intros Ht Hn Hk Hs. apply bad_vec, bad_pair.
  - exists txid. split; [reflexivity|]. intros rest. cbn [sdec s_hash dec].
    assert (T : take_bytes 32 (txid ++ rest) = Some (txid, rest)) by (rewrite <- Ht; apply take_bytes_app).
    now rewrite T.
  - apply bad_map; [now apply good_text|]. apply bad_vec, bad_pair; [now apply good_text|now apply bad_text].
Qed.
Lemma some_text n : exists b, N.of_nat (length b) = n /\ bytes b.
Proof.
  exists (repeat 1 (N.to_nat n)). rewrite repeat_length, N2Nat.id. split; [reflexivity|].
  apply Forall_forall. intros x Hx. apply repeat_spec in Hx. lia.
Qed.
