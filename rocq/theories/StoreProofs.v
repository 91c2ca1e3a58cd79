(** Proofs about the bytes of records, keys and undo data. *)
From Coq Require Import String List Bool NArith ZArith Lia Sorting.Sorted Ascii.
From Coq Require Import ZifyBool ZifyNat ZifyN.
From Verif Require Import Prelude CodecModel CodecSpec CodecProofs WireModel WireSpec WireForm
  WireProofs WireTxProofs WireBridge DbKeyModel DbKeyProofs StoreModel StoreSpec.
Import ListNotations.
Open Scope string_scope.
Open Scope list_scope.
Open Scope N_scope.

(** ** Values that fit a format *)

Fixpoint sfits (f : sfmt) (v : val) : Prop :=
  match f, v with
  | SF g, _ => fits g v /\ keys_valid v /\ nonneg v
  | SInt, VInt z => (-2147483648 <= z < 2147483648)%Z
  | SPub, VBytes b => b = [] \/ ((exists r, b = 2 :: r \/ b = 3 :: r) /\ length b = 33%nat)
  | SFixed w, VNum n => 7 <= w /\ n < 2 ^ w
  | SRegKey, VReg r => regid_ok r
  | STail, VBytes b => N.of_nat (length b) <= 512 /\ bytes b
  | SPair a b, VPair x y => sfits a x /\ sfits b y
  | SVec a, VList l => N.of_nat (length l) <= 33554432 /\ Forall (sfits a) l
  | SSet a, VList l => N.of_nat (length l) <= 33554432 /\ Forall (sfits a) l /\
      StronglySorted (fun x y => val_cmp x y = Lt) l
  | SMap k a, VList l => N.of_nat (length l) <= 33554432 /\
      Forall (fun e => exists x y, e = VPair x y /\ sfits k x /\ sfits a y) l /\
      StronglySorted (fun x y => val_cmp (first x) (first y) = Lt) l
  | SOpt a, VTag t x => (t = 0 /\ x = VUnit) \/ (t = 1 /\ sfits a x)
  | _, _ => False
  end.

Fixpoint no_tail (f : sfmt) : bool :=
  match f with
  | STail => false
  | SPair a b | SMap a b => no_tail a && no_tail b
  | SVec a | SSet a | SOpt a => no_tail a
  | _ => true
  end.
Fixpoint tail_ok (f : sfmt) : bool :=
  match f with
  | STail => true
  | SPair a b => no_tail a && tail_ok b
  | _ => no_tail f
  end.

(** ** Orders *)

Lemma val_swap x : forall y, val_cmp y x = CompOpp (val_cmp x y).
Proof.
  induction x; intros y; destruct y; try reflexivity; cbn [val_cmp].
  - apply N.compare_antisym.
  - apply Z.compare_antisym.
  - apply text_swap.
  - rewrite (N.compare_antisym (fst r) (fst r0)), (N.compare_antisym (snd r) (snd r0)).
    destruct (fst r ?= fst r0); reflexivity.
  - rewrite IHx1, IHx2. destruct (val_cmp x1 y1); reflexivity.
Qed.
Lemma lex_byte_order a : forall b, lex N.compare a b = byte_order a b.
Proof.
  induction a as [|x a IH]; intros b; destruct b as [|y b]; try reflexivity. cbn.
  rewrite IH. reflexivity.
Qed.
Lemma val_refl_pair x : val_cmp x x = Eq.
Proof.
  pose proof (val_swap x x) as H. destruct (val_cmp x x); cbn in H; congruence.
Qed.
Lemma below_cmp x y : below x y -> val_cmp x y = Lt.
Proof.
  induction 1; cbn [val_cmp].
  - now apply N.compare_lt_iff.
  - now apply Z.compare_lt_iff.
  - now rewrite lex_byte_order.
  - cbn [fst snd]. apply N.compare_lt_iff in H. now rewrite H.
  - cbn [fst snd]. rewrite N.compare_refl. now apply N.compare_lt_iff.
  - now rewrite IHbelow.
  - now rewrite val_refl_pair.
Qed.

Lemma insert_after key e m : Forall (fun x => val_cmp (key x) (key e) = Lt) m ->
  insert_by key e m = m ++ [e].
Proof.
  induction 1 as [|x m Hx _ IH]; [reflexivity|]. cbn. rewrite val_swap, Hx. cbn. now rewrite IH.
Qed.
Lemma fill_from key l : forall m, StronglySorted (fun x y => val_cmp (key x) (key y) = Lt) (m ++ l) ->
  fold_left (fun m e => insert_by key e m) l m = m ++ l.
Proof.
  induction l as [|e l IH]; intros m H; cbn; [now rewrite app_nil_r|].
  assert (Q : Forall (fun x => val_cmp (key x) (key e) = Lt) m).
  { clear IH. induction m as [|x m IHm]; [constructor|]. cbn in H. inversion H as [|? ? Hs Hf]; subst.
    constructor; [|now apply IHm]. rewrite Forall_forall in Hf. apply Hf, in_or_app. right. now left. }
  rewrite insert_after by exact Q. rewrite IH; rewrite <- app_assoc; [reflexivity|exact H].
Qed.
Lemma fill_same key l : StronglySorted (fun x y => val_cmp (key x) (key y) = Lt) l ->
  fill_by key l = l.
Proof. intros H. unfold fill_by. now rewrite fill_from. Qed.

(** ** Round trips *)

Lemma int4_round z rest : (-2147483648 <= z < 2147483648)%Z ->
  (get n, r <- of_option (read_le 4 (int4 z ++ rest)); Got (VInt (to_int n)) r) = Got (VInt z) rest.
Proof.
  intros H. unfold int4.
  assert (Hm : (0 <= z mod 4294967296 < 4294967296)%Z) by (apply Z.mod_pos_bound; lia).
  rewrite read_le_bytes by (change (256 ^ N.of_nat 4) with 4294967296; lia).
  cbn [of_option got_bind]. do 2 f_equal. unfold to_int.
  rewrite Z2N.id by lia.
  destruct (N.ltb_spec (Z.to_N (z mod 4294967296)) 2147483648) as [L|L].
  - assert (0 <= z)%Z.
    { destruct (Z.le_gt_cases 0 z) as [|Hz]; [assumption|exfalso].
      assert (E : (z mod 4294967296 = z + 4294967296)%Z)
        by (symmetry; apply Z.mod_unique with (q := (-1)%Z); lia). lia. }
    apply Z.mod_small. lia.
  - assert (z < 0)%Z.
    { destruct (Z.lt_ge_cases z 0) as [|Hz]; [assumption|exfalso].
      rewrite Z.mod_small in L by lia. lia. }
    assert (E : (z mod 4294967296 = z + 4294967296)%Z)
      by (symmetry; apply Z.mod_unique with (q := (-1)%Z); lia). lia.
Qed.

Lemma many_round {A} (wr : A -> option (list N)) (rd : list N -> reading A) l :
  N.of_nat (length l) <= 33554432 ->
  Forall (fun a => exists s, wr a = Some s /\ forall rest, rd (s ++ rest) = Got a rest) l ->
  exists s, write_all wr l = Some s /\ forall rest,
    (get n, r <- of_option (read_compact ((write_compact (N.of_nat (length l)) ++ s) ++ rest));
     read_many rd (N.to_nat n) r) = Got l rest.
Proof.
  intros Hn H. destruct (read_many_written wr rd l H) as (s & W & R). exists s. split; [exact W|].
  intros rest. rewrite <- app_assoc, compact_small by exact Hn. cbn [of_option got_bind].
  rewrite Nat2N.id. apply R.
Qed.
Lemma got_assoc {A B C} (x : reading A) (f : A -> list N -> reading B) (h : B -> list N -> reading C) :
  got_bind (got_bind x f) h = got_bind x (fun a r => got_bind (f a r) h).
Proof. destruct x; reflexivity. Qed.

Lemma pub_set b : (exists r, b = 2 :: r \/ b = 3 :: r) -> length b = 33%nat -> pubkey_set b = PubBytes b.
Proof.
  intros (r & [-> | ->]) Hl; unfold pubkey_set; cbn [pubkey_len]; rewrite Hl; reflexivity.
Qed.

Lemma sround f : no_tail f = true -> forall v, sfits f v ->
  exists s, senc f v = Some s /\ forall rest, sdec f (s ++ rest) = Got v rest.
Proof.
  induction f as [g| | |w| | |a IHa b IHb|a IHa|a IHa|k IHk a IHa|a IHa]; intros Ht v Hv; cbn [senc sdec].
  - destruct Hv as (H1 & H2 & H3). now apply enc_dec.
  - destruct v; try contradiction. eexists. split; [reflexivity|]. intros rest. now apply int4_round.
  - destruct v as [| | |b| | | | |]; try contradiction. eexists. split; [reflexivity|]. intros rest.
    rewrite <- app_assoc. cbn [sfits] in Hv. destruct Hv as [-> | (Hh & Hl)].
    + cbn. reflexivity.
    + rewrite compact_small by (rewrite Hl; cbn; lia). cbn [of_option got_bind]. rewrite Hl.
      change (N.of_nat 33 =? 33) with true. cbn iota.
      assert (T : take_bytes 33 (b ++ rest) = Some (b, rest)) by (rewrite <- Hl; apply take_bytes_app).
      rewrite T. cbn [of_option got_bind]. rewrite pub_set by assumption. reflexivity.
  - destruct v; try contradiction. destruct Hv as (Hw & Hn). eexists. split; [reflexivity|].
    intros rest. rewrite fixed_round_trip by assumption. reflexivity.
  - destruct v; try contradiction. eexists. split; [reflexivity|]. intros rest.
    rewrite regid_key_round_trip by assumption. reflexivity.
  - discriminate.
  - cbn in Ht. apply andb_prop in Ht. destruct Ht as (Ta & Tb).
    destruct v as [| | | | | |x y| |]; try contradiction. destruct Hv as (Hx & Hy).
    destruct (IHa Ta x Hx) as (s & Es & Rs). destruct (IHb Tb y Hy) as (t & Et & Rt).
    rewrite Es, Et. cbn [bind_opt]. exists (s ++ t). split; [reflexivity|]. intros rest.
    rewrite <- app_assoc, Rs. cbn [got_bind]. rewrite Rt. reflexivity.
  - destruct v as [| | | | | | |l|]; try contradiction. destruct Hv as (Hn & Hl).
    destruct (many_round (senc a) (sdec a) l Hn) as (s & W & R).
    { eapply Forall_impl; [|exact Hl]. intros x Hx. now apply IHa. }
    rewrite W. cbn [bind_opt]. eexists. split; [reflexivity|]. intros rest. rewrite <- got_assoc, R. reflexivity.
  - destruct v as [| | | | | | |l|]; try contradiction. destruct Hv as (Hn & Hl & Ho).
    destruct (many_round (senc a) (sdec a) l Hn) as (s & W & R).
    { eapply Forall_impl; [|exact Hl]. intros x Hx. now apply IHa. }
    rewrite W. cbn [bind_opt]. eexists. split; [reflexivity|]. intros rest. rewrite <- got_assoc, R. cbn [got_bind].
    rewrite (fill_same itself) by exact Ho. reflexivity.
  - cbn in Ht. apply andb_prop in Ht. destruct Ht as (Tk & Ta).
    destruct v as [| | | | | | |l|]; try contradiction. destruct Hv as (Hn & Hl & Ho).
    set (wr := fun e => match e with
      | VPair x y => put s <- senc k x; put t <- senc a y; Some (s ++ t) | _ => None end).
    set (rd := fun s0 => get x, s1 <- sdec k s0; get y, s2 <- sdec a s1; Got (VPair x y) s2).
    destruct (many_round wr rd l Hn) as (s & W & R).
    { eapply Forall_impl; [|exact Hl]. intros e (x & y & -> & Hx & Hy).
      destruct (IHk Tk x Hx) as (s & Es & Rs). destruct (IHa Ta y Hy) as (t & Et & Rt).
      exists (s ++ t). unfold wr, rd. rewrite Es, Et. split; [reflexivity|]. intros rest.
      rewrite <- app_assoc, Rs. cbn [got_bind]. rewrite Rt. reflexivity. }
    fold wr. rewrite W. cbn [bind_opt]. eexists. split; [reflexivity|]. intros rest.
    rewrite <- got_assoc. fold rd. rewrite R. cbn [got_bind]. rewrite (fill_same first) by exact Ho. reflexivity.
  - destruct v as [| | | | | | | |t x]; try contradiction. cbn [sfits] in Hv. destruct Hv as [(-> & ->)|(-> & Hx)].
    + exists [0]. split; reflexivity.
    + destruct (IHa Ht x Hx) as (s & Es & Rs). cbn [N.eqb]. rewrite Es. cbn [bind_opt]. eexists.
      split; [reflexivity|]. intros rest. cbn. rewrite Rs. reflexivity.
Qed.

Lemma sround_end f : tail_ok f = true -> forall v, sfits f v ->
  exists s, senc f v = Some s /\ sdec f s = Got v [].
Proof.
  assert (N : forall f, no_tail f = true -> forall v, sfits f v ->
    exists s, senc f v = Some s /\ sdec f s = Got v []).
  { intros g Hg v Hv. destruct (sround g Hg v Hv) as (s & E & R). exists s. split; [exact E|].
    specialize (R []). rewrite app_nil_r in R. exact R. }
  induction f as [g| | |w| | |a IHa b IHb|a IHa|a IHa|k IHk a IHa|a IHa]; intros Ht v Hv; try (apply N; assumption).
  - destruct v as [| | |b| | | | |]; try contradiction. exists b. split; [reflexivity|]. cbn.
    destruct Hv as (Hl & _). apply N.leb_le in Hl. now rewrite Hl.
  - cbn in Ht. apply andb_prop in Ht. destruct Ht as (Ta & Tb).
    destruct v as [| | | | | |x y| |]; try contradiction. destruct Hv as (Hx & Hy).
    destruct (sround a Ta x Hx) as (s & Es & Rs). destruct (IHb Tb y Hy) as (t & Et & Rt).
    cbn [senc sdec]. rewrite Es, Et. cbn [bind_opt]. eexists. split; [reflexivity|].
    rewrite Rs. cbn [got_bind]. rewrite Rt. reflexivity.
Qed.

Lemma fields_round l g : (forall n f, In (n, f) l -> no_tail f = true /\ sfits f (g n)) ->
  exists s, write_fields l g = Some s /\ forall rest g0, exists g',
    read_fields l (s ++ rest) g0 = Got g' rest /\
    (forall n f, In (n, f) l -> g' n = g n) /\
    (forall n, ~ In n (map fst l) -> g' n = g0 n).
Proof.
  induction l as [|(n, f) l IH]; intros H; cbn [write_fields read_fields].
  - exists []. split; [reflexivity|]. intros rest g0. exists g0. split; [reflexivity|].
    split; [intros n f []|reflexivity].
  - destruct (H n f (or_introl eq_refl)) as (Ht & Hf). destruct (sround f Ht _ Hf) as (s & Es & Rs).
    destruct IH as (t & Et & Rt); [intros m e Hm; apply H; now right|].
    rewrite Es, Et. cbn [bind_opt]. exists (s ++ t). split; [reflexivity|]. intros rest g0.
    rewrite <- app_assoc, Rs. cbn [got_bind].
    destruct (Rt rest (update g0 n (g n))) as (g' & E & A & B). exists g'. split; [exact E|].
    assert (Q : g' n = g n).
    { destruct (in_dec string_dec n (map fst l)) as [I|I].
      - apply in_map_iff in I. destruct I as ((m, e) & Em & Im). cbn in Em. subst m. now apply (A n e).
      - rewrite B by exact I. unfold update. now rewrite String.eqb_refl. }
    split.
    + intros m e [Hm|Hm]; [|now apply (A m e)]. inversion Hm; subst. exact Q.
    + intros m Hm. cbn in Hm. rewrite B by tauto. unfold update.
      destruct (String.eqb_spec m n); [subst; tauto|reflexivity].
Qed.

(** ** Keys are byte strings *)

Fixpoint keyish (f : sfmt) : bool :=
  match f with
  | SF (FNum _) | SF (FRaw _) | SF (FBlob _) | SF FBytes | SF FText => true
  | SFixed _ | SRegKey | STail => true
  | SPair a b => keyish a && keyish b
  | SOpt a => keyish a
  | _ => false
  end.
Lemma bytes_app a b : bytes a -> bytes b -> bytes (a ++ b).
Proof. intros Ha Hb. apply Forall_app. now split. Qed.
Lemma fixed_bytes w v : bytes (write_fixed w v).
Proof.
  unfold write_fixed. eapply Forall_impl; [|apply fixed_fill_bytes]. cbn. intros a Ha. lia.
Qed.
Lemma write_varint_bytes w n s : 7 <= w -> n < 2 ^ w -> write_varint w n = Some s -> bytes s.
Proof.
  intros Hw Hn E. destruct (write_varint_shape w n s E) as (c & l & -> & Hc & Hl & _).
  apply bytes_app; [|constructor; [lia|constructor]]. eapply Forall_impl; [|exact Hc]. cbn. lia.
Qed.
Lemma key_is_bytes f : keyish f = true -> forall v s, sfits f v -> senc f v = Some s -> bytes s.
Proof.
  induction f as [g| | |w| | |a IHa b IHb|a IHa|a IHa|k IHk a IHa|a IHa]; intros Hk v s Hv E;
    try discriminate; cbn [senc] in E.
  - destruct Hv as (Hf & _). destruct g; try discriminate; inversion Hf; subst; cbn [enc] in E.
    + now apply write_varint_bytes in E.
    + inversion E. apply le_bytes_bytes.
    + now inversion E; subst.
    + inversion E. apply bytes_app; [apply write_compact_bytes|assumption].
    + inversion E. apply bytes_app; [apply write_compact_bytes|assumption].
  - destruct v; try contradiction. inversion E. apply fixed_bytes.
  - destruct v; try contradiction. inversion E. apply bytes_app; apply fixed_bytes.
  - destruct v; try contradiction. inversion E. subst. apply Hv.
  - cbn in Hk. apply andb_prop in Hk. destruct Hk as (Ka & Kb).
    destruct v as [| | | | | |x y| |]; try contradiction. destruct Hv as (Hx & Hy).
    destruct (senc a x) as [sa|] eqn:Ea; [|discriminate].
    destruct (senc b y) as [sb|] eqn:Eb; [|discriminate]. inversion E.
    apply bytes_app; [now apply (IHa Ka x)|now apply (IHb Kb y)].
  - destruct v as [| | | | | | | |t x]; try contradiction.
    cbn [sfits] in Hv. destruct Hv as [(-> & ->)|(-> & Hx)].
    + inversion E. repeat constructor.
    + cbn [N.eqb] in E. destruct (senc a x) as [sa|] eqn:Ea; [|discriminate]. inversion E.
      constructor; [lia|now apply (IHa Hk x)].
Qed.
Lemma str_inj a : forall b, bytes a -> bytes b -> str a = str b -> a = b.
Proof.
  induction a as [|x a IH]; intros b Ha Hb E; destruct b as [|y b]; try discriminate; [reflexivity|].
  cbn in E. inversion E as [[E1 E2]]. inversion Ha; inversion Hb; subst. f_equal; [|now apply IH].
  rewrite <- (N_ascii_embedding x), <- (N_ascii_embedding y) by assumption. now rewrite E1.
Qed.

(** ** Formats and types *)

Definition rep (f : sfmt) (t : stype) : Prop :=
  forall v, of_type t v -> sfits f v /\ (empty_val f v = true <-> blank t v).

Lemma all_zero b : forallb (N.eqb 0) b = true <-> Forall (fun x => x = 0) b.
Proof.
  rewrite forallb_forall, Forall_forall. split; intros H x Hx; specialize (H x Hx); lia.
Qed.
Lemma rep_kind g k : for_kind g k ->
  (forall v, holds k v -> (empty_val (SF g) v = true <-> blank (TKind k) v)) -> rep (SF g) (TKind k).
Proof. intros H E v (Hv & K & P). split; [repeat split; [now apply H|assumption..]|now apply E]. Qed.
Ltac simple_rep lem := apply rep_kind; [apply lem; try lia|
  intros v Hv; destruct v; cbn in Hv; try contradiction; cbn; try lia].
Lemma rep_num w : 7 <= w -> rep (SF (FNum w)) (TKind (KNum w)).
Proof. intros H. simple_rep for_num. Qed.
Lemma rep_u8 : rep (SF (FRaw 1)) y_u8.
Proof. simple_rep for_u8. Qed.
Lemma rep_u16 : rep (SF (FRaw 2)) y_u16.
Proof. simple_rep for_raw2. Qed.
Lemma rep_u64 : rep (SF (FRaw 8)) y_u64.
Proof. simple_rep for_raw8. Qed.
Lemma rep_height : rep (SF FInt) y_height.
Proof. simple_rep for_int. Qed.
Lemma rep_bool : rep (SF FBool) y_bool.
Proof. simple_rep for_bool. Qed.
Lemma rep_blob k : rep (SF (FBlob k)) (TKind (KFixed k)).
Proof. simple_rep for_blob. apply all_zero. Qed.
Lemma empty_list {A} (b : list A) : (match b with [] => true | _ => false end) = true <-> b = [].
Proof. destruct b; split; congruence. Qed.
Lemma rep_text : rep (SF FText) y_text.
Proof. simple_rep for_text. apply empty_list. Qed.
Lemma rep_bytes : rep (SF FBytes) (TKind KBytes).
Proof. simple_rep for_bytes. apply empty_list. Qed.
Lemma rep_uid : rep (SF FUid) y_uid.
Proof. simple_rep for_uid. Qed.
Lemma reg_zero (r : regid) : (fst r =? 0) && (snd r =? 0) = true <-> r = (0, 0).
Proof.
  destruct r as (a, b). cbn. rewrite andb_true_iff, !N.eqb_eq. split; [intros (-> & ->); reflexivity|].
  intros [= -> ->]. now split.
Qed.
Lemma rep_reg : rep (SF FReg) y_reg.
Proof. simple_rep for_reg. apply reg_zero. Qed.
Lemma rep_proposal : rep (SF f_proposal) (TKind k_proposal).
Proof.
  apply rep_kind; [exact for_proposal|]. intros v Hv. destruct v; try contradiction.
  cbn [blank k_proposal empty_val f_proposal]. apply N.eqb_eq.
Qed.
Lemma rep_signed : rep SInt TSigned.
Proof. intros v Hv. destruct v; try contradiction. split; [exact Hv|]. cbn. lia. Qed.
Lemma rep_pub : rep SPub TPub.
Proof. intros v Hv. destruct v; try contradiction. split; [exact Hv|]. cbn. apply empty_list. Qed.
Lemma rep_tail : rep STail TTail.
Proof. intros v Hv. destruct v; try contradiction. split; [exact Hv|]. cbn. apply empty_list. Qed.
Lemma rep_fixed w : 7 <= w -> rep (SFixed w) (TKind (KNum w)).
Proof.
  intros Hw v (Hv & _). destruct v; cbn in Hv; try contradiction. split; [now split|]. cbn. lia.
Qed.
Lemma rep_regkey : rep SRegKey y_reg.
Proof.
  intros v (Hv & _). destruct v; cbn in Hv; try contradiction. split; [exact Hv|]. apply reg_zero.
Qed.
Lemma rep_pair a b ta tb : rep a ta -> rep b tb -> rep (SPair a b) (TPair ta tb).
Proof.
  intros Ha Hb v Hv. destruct v as [| | | | | |x y| |]; try contradiction. destruct Hv as (Hx & Hy).
  destruct (Ha x Hx) as (A & A'), (Hb y Hy) as (B & B'). split; [now split|].
  cbn. rewrite andb_true_iff. tauto.
Qed.
Lemma sorted_impl {A} (P Q : A -> A -> Prop) l : (forall x y, P x y -> Q x y) ->
  StronglySorted P l -> StronglySorted Q l.
Proof.
  intros H. induction 1; constructor; [assumption|]. eapply Forall_impl; [|eassumption]. auto.
Qed.
Lemma rep_vec a ta : rep a ta -> rep (SVec a) (TVec ta).
Proof.
  intros Ha v Hv. destruct v as [| | | | | | |l|]; try contradiction. destruct Hv as (Hn & Hl). split.
  - split; [exact Hn|]. apply Forall_forall. intros x Hx. now apply Ha, Hl.
  - cbn. apply empty_list.
Qed.
Lemma rep_set a ta : rep a ta -> rep (SSet a) (TSet ta).
Proof.
  intros Ha v Hv. destruct v as [| | | | | | |l|]; try contradiction.
  destruct Hv as (Hn & Hs & Hl). split.
  - split; [exact Hn|]. split; [apply Forall_forall; intros x Hx; now apply Ha, Hl|].
    eapply sorted_impl; [|exact Hs]. exact below_cmp.
  - cbn. apply empty_list.
Qed.
Lemma rep_map k a tk ta : rep k tk -> rep a ta -> rep (SMap k a) (TMap tk ta).
Proof.
  intros Hk Ha v Hv. destruct v as [| | | | | | |l|]; try contradiction.
  destruct Hv as (Hn & Hs & Hl). split.
  - split; [exact Hn|]. split.
    + apply Forall_forall. intros e He. destruct (Hl e He) as (x & y & -> & Hx & Hy).
      exists x, y. split; [reflexivity|]. split; [now apply Hk|now apply Ha].
    + eapply sorted_impl; [|exact Hs]. intros x y. apply below_cmp.
  - cbn. apply empty_list.
Qed.
Lemma rep_opt a ta : rep a ta -> rep (SOpt a) (TOpt ta).
Proof.
  intros Ha v Hv. destruct v as [| | | | | | | |t x]; try contradiction. split.
  - cbn in Hv. destruct Hv as [Hv|(-> & Hx)]; [now left|right]. split; [reflexivity|now apply Ha].
  - cbn. apply N.eqb_eq.
Qed.

Ltac reps := repeat first
  [ apply rep_pair | apply rep_vec | apply rep_set | apply rep_map | apply rep_opt
  | exact rep_text | exact rep_u8 | exact rep_u16 | exact rep_u64 | exact rep_height
  | exact rep_bool | exact rep_bytes | exact rep_uid | exact rep_reg | exact rep_proposal
  | exact rep_signed | exact rep_pub | exact rep_tail | exact rep_regkey | exact (rep_blob _)
  | apply rep_num; lia | apply rep_fixed; lia ].

(** ** The tables *)

Definition key_matches (k : option sfmt) (tk : option stype) : Prop :=
  match k, tk with
  | Some f, Some t => rep f t /\ tail_ok f = true /\ keyish f = true
  | None, None => True
  | _, _ => False
  end.
Definition covers (ms : list (string * stype)) (l : list (string * sfmt)) : Prop :=
  (forall n t, In (n, t) ms -> exists f, In (n, f) l) /\
  (forall n f, In (n, f) l -> no_tail f = true /\ exists t, In (n, t) ms /\ rep f t).

Lemma covers_all ms l :
  Forall (fun m => exists f, In (fst m, f) l) ms ->
  Forall (fun e => no_tail (snd e) = true /\ exists t, In (fst e, t) ms /\ rep (snd e) t) l ->
  covers ms l.
Proof.
  intros A B. rewrite Forall_forall in A, B. split.
  - intros n t H. apply (A _ H).
  - intros n f H. apply (B _ H).
Qed.
Ltac find_in := solve [repeat first [left; reflexivity | right]].
Ltac table_done :=
  eexists; split; [reflexivity|]; split;
    [cbn; first [exact I | (split; [reps|split; reflexivity])]|];
  apply covers_all; repeat first [apply Forall_nil | apply Forall_cons];
    cbn [fst snd];
    first [ eexists; find_in
          | split; [reflexivity|]; eexists; split; [find_in|reps] ].

Lemma table_matches p k ms : contents p = Some (k, ms) ->
  exists t, tables p = Some t /\ key_matches (t_key t) k /\ covers ms (t_fields t).
Proof.
  intros H. do 58 (destruct p as [|p]; [try discriminate H; inversion H; subst; clear H; table_done|]).
  discriminate H.
Qed.
Lemma table_place p k ms : contents p = Some (k, ms) -> valid_prefix p = true.
Proof.
  intros H. do 58 (destruct p as [|p]; [first [discriminate H|reflexivity]|]). discriminate H.
Qed.
Lemma table_names p t ms k : contents p = Some (k, ms) -> tables p = Some t ->
  forall g g', (forall n, In n (map fst ms) -> g n = g' n) -> t_empty t g = t_empty t g'.
Proof.
  intros H E g g' S.
  do 58 (destruct p as [|p];
    [try discriminate H; inversion H; subst; inversion E; subst; clear H E;
     unfold m_asset, m_axc, m_txpos, m_reward, m_account, m_contract, m_app_account, m_pending, m_cdp,
       m_bcoin, m_global, m_order, m_operator, one in S; cbn [map fst] in S;
     cbn [t_empty plain axc_table cdp_table order_table forallb];
     repeat match goal with |- context [g ?n] => rewrite (S n) by find_in end; reflexivity|]).
  discriminate H.
Qed.

(** ** Empty records *)

Fixpoint needs (names : list string) (ms : list (string * stype)) (g : rec) : Prop :=
  match ms with
  | [] => True
  | (n, t) :: ms' =>
      if existsb (String.eqb n) names then blank t (g n) /\ needs names ms' g else needs names ms' g
  end.
Lemma needs_iff names ms g :
  needs names ms g <-> (forall n t, In n names -> In (n, t) ms -> blank t (g n)).
Proof.
  induction ms as [|(n, t) ms IH]; cbn [needs]; [split; [intros _ n t _ []|trivial]|].
  assert (E : existsb (String.eqb n) names = true <-> In n names).
  { rewrite existsb_exists. split.
    - intros (x & Hx & Q). apply String.eqb_eq in Q. now subst.
    - intros Hn. exists n. split; [exact Hn|apply String.eqb_refl]. }
  destruct (existsb (String.eqb n) names); rewrite IH.
  - split.
    + intros (A & B) m u Hm [Hi|Hi]; [inversion Hi; subst; exact A|now apply B].
    + intros H. split; [apply H; [now apply E|now left]|]. intros m u Hm Hi. apply H; [exact Hm|now right].
  - split.
    + intros B m u Hm [Hi|Hi]; [|now apply B]. inversion Hi; subst. apply E in Hm. discriminate.
    + intros H m u Hm Hi. apply H; [exact Hm|now right].
Qed.
Lemma all_blank_iff p g names k ms : contents p = Some (k, ms) ->
  (all_blank p g names <-> needs names ms g).
Proof.
  intros H. rewrite needs_iff. split.
  - intros (k' & ms' & E & Q). rewrite H in E. inversion E; subst. exact Q.
  - intros Q. now exists k, ms.
Qed.
Lemma every_blank_iff p g k ms : contents p = Some (k, ms) ->
  ((exists k ms, contents p = Some (k, ms) /\ forall n t, In (n, t) ms -> blank t (g n)) <->
   needs (map fst ms) ms g).
Proof.
  intros H. rewrite needs_iff. split.
  - intros (k' & ms' & E & Q). rewrite H in E. inversion E; subst. intros n t _. apply Q.
  - intros Q. exists k, ms. split; [exact H|]. intros n t Hi. apply Q; [|exact Hi].
    now apply (in_map fst) in Hi.
Qed.
Lemma num0_iff w v : of_type (TKind (KNum w)) v -> (num0 v = true <-> blank (TKind (KNum w)) v).
Proof. intros (Hv & _). destruct v; cbn in Hv; try contradiction; cbn; lia. Qed.
Lemma text0_iff v : of_type y_text v -> (text0 v = true <-> blank y_text v).
Proof. intros (Hv & _). destruct v as [| | |b| | | | |]; cbn in Hv; try contradiction. cbn. apply empty_list. Qed.
Lemma bytes0_iff w v : of_type (TKind (KFixed w)) v -> (bytes0 v = true <-> blank (TKind (KFixed w)) v).
Proof. intros (Hv & _). destruct v; cbn in Hv; try contradiction. cbn. apply all_zero. Qed.
Lemma reg0_iff v : of_type y_reg v -> (reg0 v = true <-> blank y_reg v).
Proof. intros (Hv & _). destruct v; cbn in Hv; try contradiction. apply reg_zero. Qed.
Lemma list0_iff t v : of_type (TVec t) v -> (list0 v = true <-> blank (TVec t) v).
Proof. intros Hv. destruct v as [| | | | | | |l|]; try contradiction. cbn. apply empty_list. Qed.

Lemma plain_blank p k T f g : contents p = Some (k, one T) -> of_type T (g "value") -> rep f T ->
  (empty_val f (g "value") = true <->
   exists k ms, contents p = Some (k, ms) /\ forall n t, In (n, t) ms -> blank t (g n)).
Proof.
  intros H O R. rewrite (every_blank_iff p g k (one T) H). unfold one. cbn [map fst needs existsb].
  rewrite String.eqb_refl. cbn [orb]. destruct (R _ O) as (_ & ->). tauto.
Qed.
Lemma file_blank v : of_type TSigned v ->
  (match v with VInt z => (z =? -1)%Z | _ => false end = true <-> v = VInt (-1)).
Proof.
  intros H. destruct v; try contradiction. rewrite Z.eqb_eq. split; [now intros ->|now intros [= ->]].
Qed.
Lemma empty_blank p k ms t g : contents p = Some (k, ms) -> tables p = Some t ->
  (forall n u, In (n, u) ms -> of_type u (g n)) -> (t_empty t g = true <-> blank_record p g).
Proof.
  intros H E O.
  do 58 (destruct p as [|p];
    [try discriminate H; pose proof H as H0; inversion H; subst; inversion E; subst; clear H E;
     cbn [blank_record];
     first
     [ cbn [t_empty plain];
       eapply plain_blank; [exact H0|apply (O "value"); find_in|reps]
     | rewrite ?(all_blank_iff _ _ _ _ _ H0), ?(every_blank_iff _ _ _ _ H0);
       unfold m_asset, m_axc, m_txpos, m_reward, m_account, m_contract, m_app_account, m_pending,
         m_cdp, m_bcoin, m_global, m_order, m_operator in *; clear H0;
       cbn [t_empty axc_table cdp_table order_table forallb map fst];
       cbv [needs existsb String.eqb Ascii.eqb Bool.eqb orb];
       rewrite ?andb_true_iff;
       repeat match goal with
       | |- context [num0 (g ?n) = true] => erewrite (num0_iff _ (g n)) by (apply (O n); find_in)
       | |- context [text0 (g ?n) = true] => rewrite (text0_iff (g n)) by (apply (O n); find_in)
       | |- context [bytes0 (g ?n) = true] => erewrite (bytes0_iff _ (g n)) by (apply (O n); find_in)
       | |- context [reg0 (g ?n) = true] => rewrite (reg0_iff (g n)) by (apply (O n); find_in)
       | |- context [list0 (g ?n) = true] => erewrite (list0_iff _ (g n)) by (apply (O n); find_in)
       end; tauto
     | apply file_blank; apply (O "nFile"); find_in ]|]).
  discriminate H.
Qed.
