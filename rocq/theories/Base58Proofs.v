(** Proofs about Base58 text. *)
From Coq Require Import NArith ZArith Bool List Lia Arith.
From Coq Require Import ZifyBool ZifyNat ZifyN.
From Verif Require Import Prelude PreludeFacts Base58Model CodecSpec Base58Spec.
Import ListNotations.
Open Scope N_scope.

Ltac Zify.zify_post_hook ::= Z.div_mod_to_equations.

(** ** Numerals *)

(** The value of a buffer, last byte first. *)
Fixpoint leval (base : N) (l : list N) : N :=
  match l with
  | [] => 0
  | d :: l' => d + base * leval base l'
  end.

Lemma numeral_snoc base l d : numeral base (l ++ [d]) = base * numeral base l + d.
Proof. unfold numeral. now rewrite fold_left_app. Qed.

Lemma numeral_rev base l : numeral base (rev l) = leval base l.
Proof.
  induction l as [|d l IH]; [reflexivity|]. cbn [rev leval]. rewrite numeral_snoc, IH. lia.
Qed.

Lemma numeral_from base l : forall v,
  fold_left (fun v d => base * v + d) l v = v * base ^ N.of_nat (length l) + numeral base l.
Proof.
  unfold numeral. induction l as [|d l IH]; intros v; cbn [fold_left length].
  - change (base ^ N.of_nat 0) with 1. lia.
  - rewrite IH, (IH (base * 0 + d)), Nat2N.inj_succ, N.pow_succ_r'. lia.
Qed.

Lemma numeral_cons base d l :
  numeral base (d :: l) = d * base ^ N.of_nat (length l) + numeral base l.
Proof.
  unfold numeral at 1. cbn [fold_left]. rewrite numeral_from. f_equal. f_equal. lia.
Qed.

Lemma numeral_lt base l : 0 < base -> Forall (fun d => d < base) l ->
  numeral base l < base ^ N.of_nat (length l).
Proof.
  intros Hb. induction 1 as [|d l Hd Hl IH]; [cbn; lia|].
  rewrite numeral_cons. cbn [length]. rewrite Nat2N.inj_succ, N.pow_succ_r'. nia.
Qed.

Lemma proper_zero base l : 0 < base -> proper l -> numeral base l = 0 -> l = [].
Proof.
  intros Hb. destruct l as [|d l]; [auto|]. cbn [proper]. rewrite numeral_cons. intros Hd H.
  assert (0 < base ^ N.of_nat (length l)) by (apply N.neq_0_lt_0, N.pow_nonzero; lia). nia.
Qed.

Lemma proper_snoc l d : proper (l ++ [d]) -> proper l.
Proof. destruct l; cbn; auto. Qed.

Lemma numeral_inj base l1 : 2 <= base -> forall l2, Forall (fun d => d < base) l1 ->
  Forall (fun d => d < base) l2 -> proper l1 -> proper l2 ->
  numeral base l1 = numeral base l2 -> l1 = l2.
Proof.
  intros Hb. induction l1 as [|d1 l1 IH] using rev_ind; intros l2 F1 F2 P1 P2 E.
  - symmetry. eapply proper_zero; [|exact P2|]; [|symmetry; exact E]. lia.
  - destruct l2 as [|d2 l2 _] using rev_ind.
    { eapply proper_zero; [|exact P1|exact E]. lia. }
    rewrite !numeral_snoc in E. apply Forall_app in F1 as (F1 & Hd1).
    apply Forall_app in F2 as (F2 & Hd2).
    inversion Hd1 as [|? ? Hd1' _]. inversion Hd2 as [|? ? Hd2' _]. subst.
    assert (numeral base l1 = numeral base l2) by nia.
    assert (d1 = d2) by nia. subst d2. f_equal.
    apply IH; eauto using proper_snoc.
Qed.

(** ** Buffers *)

Lemma mul_add_ok bi bo buf : 0 < bo -> forall c buf' out,
  mul_add bi bo c buf = (buf', out) ->
  leval bo buf' + out * bo ^ N.of_nat (length buf) = c + bi * leval bo buf /\
  length buf' = length buf /\ Forall (fun d => d < bo) buf'.
Proof.
  intros Hbo. induction buf as [|d buf IH]; intros c buf' out; cbn [mul_add].
  - intros [= <- <-]. cbn [leval length]. change (bo ^ N.of_nat 0) with 1.
    repeat split; [lia|constructor].
  - destruct (mul_add bi bo ((c + bi * d) / bo) buf) as [rest o] eqn:E.
    intros [= <- <-]. destruct (IH _ _ _ E) as (V & L & F).
    cbn [leval length]. rewrite Nat2N.inj_succ, N.pow_succ_r', L.
    pose proof (N.mod_lt (c + bi * d) bo ltac:(lia)).
    pose proof (N.div_mod (c + bi * d) bo ltac:(lia)).
    split; [nia|]. split; [reflexivity|]. constructor; assumption.
Qed.

Lemma absorb_ok bi bo ds : 0 < bi -> 0 < bo -> Forall (fun d => d < bi) ds ->
  forall buf, Forall (fun d => d < bo) buf ->
  (leval bo buf + 1) * bi ^ N.of_nat (length ds) <= bo ^ N.of_nat (length buf) ->
  exists buf', absorb bi bo ds buf = Some buf' /\ Forall (fun d => d < bo) buf' /\
    leval bo buf' = fold_left (fun v d => bi * v + d) ds (leval bo buf).
Proof.
  intros Hbi Hbo. induction 1 as [|d ds Hd Hds IH]; intros buf Fb Hroom.
  - exists buf. auto.
  - cbn [absorb length] in *. destruct (mul_add bi bo d buf) as [buf1 out] eqn:E.
    destruct (mul_add_ok bi bo buf Hbo _ _ _ E) as (V & L & F).
    rewrite Nat2N.inj_succ, N.pow_succ_r' in Hroom.
    assert (Hp : 0 < bi ^ N.of_nat (length ds)) by (apply N.neq_0_lt_0, N.pow_nonzero; lia).
    set (P := bi ^ N.of_nat (length ds)) in *. set (Q := bo ^ N.of_nat (length buf)) in *.
    assert (Hlt : d + bi * leval bo buf < Q).
    { assert (bi * (leval bo buf + 1) <= Q) by nia. nia. }
    assert (out = 0) by nia. subst out. change (0 =? 0) with true. cbv iota.
    assert (V1 : leval bo buf1 = bi * leval bo buf + d) by lia.
    destruct (IH buf1 F) as (buf2 & A & F2 & V2).
    { rewrite L, V1. fold Q. nia. }
    exists buf2. split; [exact A|]. split; [exact F2|]. cbn [fold_left]. rewrite V2, V1.
    reflexivity.
Qed.

Lemma leval_zeroes bo k : leval bo (repeat 0 k) = 0.
Proof. induction k as [|k IH]; cbn [repeat leval]; [reflexivity|rewrite IH; lia]. Qed.

Lemma zeroes_lt bo k : 0 < bo -> Forall (fun d => d < bo) (repeat 0 k).
Proof. intros H. induction k; constructor; auto. Qed.

Lemma absorb_zero bi bo ds k : 0 < bi -> 0 < bo -> Forall (fun d => d < bi) ds ->
  bi ^ N.of_nat (length ds) <= bo ^ N.of_nat k ->
  exists buf, absorb bi bo ds (repeat 0 k) = Some buf /\ Forall (fun d => d < bo) buf /\
    leval bo buf = numeral bi ds.
Proof.
  intros Hbi Hbo Hds Hk.
  destruct (absorb_ok bi bo ds Hbi Hbo Hds (repeat 0 k) (zeroes_lt bo k Hbo)) as (buf & A & F & V).
  { rewrite leval_zeroes, repeat_length. lia. }
  exists buf. split; [exact A|]. split; [exact F|]. rewrite V, leval_zeroes. reflexivity.
Qed.

Lemma pow_root a b k : 0 < k -> a ^ k <= b ^ k -> a <= b.
Proof.
  intros Hk H. destruct (N.le_gt_cases a b) as [|G]; [assumption|].
  pose proof (N.pow_lt_mono_l b a k ltac:(lia) G). lia.
Qed.

Lemma room_encode k : 256 ^ k <= 58 ^ (k * 138 / 100 + 1).
Proof.
  apply (pow_root _ _ 100); [lia|]. rewrite <- !N.pow_mul_r.
  assert (H : 256 ^ 100 <= 58 ^ 138) by (vm_compute; discriminate).
  apply (N.pow_le_mono_l _ _ k) in H. rewrite <- !N.pow_mul_r in H.
  replace (k * 100) with (100 * k) by lia. etransitivity; [exact H|].
  apply N.pow_le_mono_r; lia.
Qed.

Lemma room_decode k : 58 ^ k <= 256 ^ (k * 733 / 1000 + 1).
Proof.
  apply (pow_root _ _ 1000); [lia|]. rewrite <- !N.pow_mul_r.
  assert (H : 58 ^ 1000 <= 256 ^ 733) by (vm_compute; discriminate).
  apply (N.pow_le_mono_l _ _ k) in H. rewrite <- !N.pow_mul_r in H.
  replace (k * 1000) with (1000 * k) by lia. etransitivity; [exact H|].
  apply N.pow_le_mono_r; lia.
Qed.

(** ** Skipping *)

Definition not_first (z : N) (l : list N) : Prop := match l with [] => True | d :: _ => d <> z end.

Lemma skip_ok z l k r : skip z l = (k, r) -> l = repeat z k ++ r /\ not_first z r.
Proof.
  revert k r. induction l as [|x l IH]; intros k r; cbn [skip].
  - intros [= <- <-]. split; [reflexivity|exact I].
  - destruct (N.eqb_spec x z) as [->|Hx].
    + destruct (skip z l) as [k' r'] eqn:E. intros [= <- <-].
      destruct (IH _ _ eq_refl) as (-> & H). split; [reflexivity|exact H].
    + intros [= <- <-]. split; [reflexivity|exact Hx].
Qed.

Lemma skip_app z k r : not_first z r -> skip z (repeat z k ++ r) = (k, r).
Proof.
  intros H. induction k as [|k IH]; cbn [repeat app].
  - destruct r as [|x r]; [reflexivity|]. cbn [skip]. cbn in H.
    now rewrite (proj2 (N.eqb_neq _ _) H).
  - cbn [skip]. rewrite N.eqb_refl, IH. reflexivity.
Qed.

Lemma numeral_pad base k l : numeral base (repeat 0 k ++ l) = numeral base l.
Proof.
  induction k as [|k IH]; [reflexivity|]. cbn [repeat app]. rewrite numeral_cons, IH. lia.
Qed.

(** The digits read off a buffer. *)
Lemma digits_of_buffer base buf : Forall (fun d => d < base) buf ->
  let ds := snd (skip 0 (rev buf)) in
  proper ds /\ Forall (fun d => d < base) ds /\ numeral base ds = leval base buf.
Proof.
  intros F. destruct (skip 0 (rev buf)) as [k r] eqn:E. cbn [snd].
  destruct (skip_ok _ _ _ _ E) as (Er & P). apply Forall_rev in F. rewrite Er in F.
  apply Forall_app in F as (_ & F). split; [exact P|]. split; [exact F|].
  rewrite <- numeral_rev, Er, numeral_pad. reflexivity.
Qed.

(** ** The alphabet *)

Lemma position_some l c : forall i d, position l c i = Some d ->
  i <= d < i + N.of_nat (length l) /\ nth (N.to_nat (d - i)) l 0 = c.
Proof.
  induction l as [|x l IH]; intros i d; cbn [position]; [discriminate|].
  destruct (N.eqb_spec x c) as [->|Hx].
  - intros [= <-]. cbn [length]. split; [lia|]. now replace (i - i) with 0 by lia.
  - intros H. apply IH in H as (Hr & Hn). cbn [length]. split; [lia|].
    replace (N.to_nat (d - i)) with (S (N.to_nat (d - (i + 1)))) by lia. exact Hn.
Qed.

Definition alphabet_check : bool :=
  forallb (fun n => match position alphabet (nth n alphabet 0) 0 with
                    | Some d => d =? N.of_nat n
                    | None => false
                    end) (seq 0 58) &&
  forallb (fun c => negb (is_space c) && negb (c =? 0)) alphabet.

Lemma alphabet_ok : alphabet_check = true.
Proof. vm_compute. reflexivity. Qed.

Lemma alphabet_length : length alphabet = 58%nat.
Proof. reflexivity. Qed.

Lemma position_char d : d < 58 -> position alphabet (char58 d) 0 = Some d.
Proof.
  intros Hd. pose proof alphabet_ok as H. apply andb_prop in H as (H & _).
  rewrite forallb_forall in H. specialize (H (N.to_nat d)).
  unfold char58. destruct (position alphabet (nth (N.to_nat d) alphabet 0) 0) as [e|].
  - f_equal. enough (e =? N.of_nat (N.to_nat d) = true) by lia. apply H. apply in_seq. lia.
  - enough (false = true) by discriminate. apply H. apply in_seq. lia.
Qed.

Definition chars_check : bool :=
  forallb (fun n => allowed58 (nth n alphabet 0)) (seq 0 58) &&
  forallb (fun n => nth n alphabet 0 <? nth (S n) alphabet 0) (seq 0 57) &&
  forallb (fun n => negb (allowed58 (N.of_nat n)) || existsb (N.eqb (N.of_nat n)) alphabet) (seq 0 128).

Lemma chars_ok : chars_check = true.
Proof. vm_compute. reflexivity. Qed.

(** The digits are the allowed characters in ascending order. *)
Lemma char58_spec :
  (forall d, d < 58 -> allowed58 (char58 d) = true) /\
  (forall d e, d < e -> e < 58 -> char58 d < char58 e) /\
  (forall c, allowed58 c = true -> exists d, d < 58 /\ char58 d = c).
Proof.
  pose proof chars_ok as H. apply andb_prop in H as (H & H3). apply andb_prop in H as (H1 & H2).
  rewrite forallb_forall in H1, H2, H3. split; [|split].
  - intros d Hd. apply H1. apply in_seq. lia.
  - intros d e Hde He.
    assert (G : forall k, (N.to_nat d + S k < 58)%nat ->
              nth (N.to_nat d) alphabet 0 < nth (N.to_nat d + S k) alphabet 0).
    { induction k as [|k IH]; intros Hk.
      - replace (N.to_nat d + 1)%nat with (S (N.to_nat d)) by lia.
        apply N.ltb_lt, H2, in_seq. lia.
      - eapply N.lt_trans; [apply IH; lia|].
        replace (N.to_nat d + S (S k))%nat with (S (N.to_nat d + S k)) by lia.
        apply N.ltb_lt, H2, in_seq. lia. }
    unfold char58. replace (N.to_nat e) with (N.to_nat d + S (N.to_nat e - N.to_nat d - 1))%nat by lia.
    apply G. lia.
  - intros c Hc.
    assert (Hl : c < 128) by (unfold allowed58 in Hc; lia).
    specialize (H3 (N.to_nat c)). rewrite N2Nat.id, Hc in H3.
    assert (Hi : existsb (N.eqb c) alphabet = true) by (apply H3, in_seq; lia).
    apply existsb_exists in Hi as (x & Hx & E). apply N.eqb_eq in E. subst x.
    apply (In_nth _ _ 0) in Hx as (n & Hn & E). rewrite alphabet_length in Hn.
    exists (N.of_nat n). split; [lia|]. unfold char58. now rewrite Nat2N.id.
Qed.

Lemma char_position c d : position alphabet c 0 = Some d -> d < 58 /\ char58 d = c.
Proof.
  intros H. apply position_some in H as (Hd & Hn). rewrite alphabet_length in Hd.
  unfold char58. replace (d - 0) with d in Hn by lia. split; [lia|exact Hn].
Qed.

Lemma char_plain d : d < 58 -> is_space (char58 d) = false /\ char58 d <> 0.
Proof.
  intros Hd. pose proof alphabet_ok as H. apply andb_prop in H as (_ & H).
  rewrite forallb_forall in H. specialize (H (char58 d)).
  assert (In (char58 d) alphabet).
  { apply nth_In. rewrite alphabet_length. lia. }
  specialize (H H0). apply andb_prop in H as (H1 & H2). split.
  - now apply negb_true_iff.
  - apply negb_true_iff in H2. lia.
Qed.

Lemma char_one d : d < 58 -> char58 d = 49 -> d = 0.
Proof.
  intros Hd E. pose proof (position_char d Hd) as H. rewrite E in H.
  change (position alphabet 49 0) with (Some 0) in H. congruence.
Qed.

(** ** Scanning *)

Lemma scan_chars ds : Forall (fun d => d < 58) ds -> scan (map char58 ds) = Some (ds, []).
Proof.
  induction 1 as [|d ds Hd Hds IH]; [reflexivity|]. cbn [map scan].
  rewrite (proj1 (char_plain d Hd)), (position_char d Hd), IH. reflexivity.
Qed.

Lemma scan_some t : forall ds r, scan t = Some (ds, r) ->
  t = map char58 ds ++ r /\ Forall (fun d => d < 58) ds.
Proof.
  induction t as [|c t IH]; intros ds r; cbn [scan].
  - intros [= <- <-]. split; [reflexivity|constructor].
  - destruct (is_space c); [intros [= <- <-]; split; [reflexivity|constructor]|].
    destruct (position alphabet c 0) as [d|] eqn:P; [|discriminate].
    apply char_position in P as (Hd & Hc).
    destruct (scan t) as [[ds' r']|]; [|discriminate]. intros [= <- <-].
    destruct (IH _ _ eq_refl) as (-> & F). cbn [map app]. rewrite Hc.
    split; [reflexivity|]. constructor; assumption.
Qed.

Lemma skip_spaces_ok t : exists before, t = before ++ skip_spaces t /\ spaces before.
Proof.
  induction t as [|c t (before & E & H)]; [exists []; split; [reflexivity|constructor]|].
  cbn [skip_spaces]. destruct (is_space c) eqn:S.
  - exists (c :: before). cbn [app]. split; [congruence|constructor; assumption].
  - exists []. split; [reflexivity|constructor].
Qed.

Lemma skip_spaces_none t : match t with [] => True | c :: _ => is_space c = false end ->
  skip_spaces t = t.
Proof. destruct t as [|c t]; [auto|]. intros H. cbn [skip_spaces]. now rewrite H. Qed.

Lemma c_str_plain t : Forall (fun c => c <> 0) t -> c_str t = t.
Proof.
  induction 1 as [|c t Hc Ht IH]; [reflexivity|]. cbn [c_str].
  rewrite (proj2 (N.eqb_neq _ _) Hc), IH. reflexivity.
Qed.

Lemma c_str_ok t : exists cut, t = c_str t ++ cut /\ Forall (fun c => c <> 0) (c_str t) /\
  (cut = [] \/ exists rest, cut = 0 :: rest).
Proof.
  induction t as [|c t (cut & E & H & Hc)]; [exists []; cbn; auto|]. cbn [c_str].
  destruct (N.eqb_spec c 0) as [->|Hne].
  - exists (0 :: t). cbn [app]. eauto.
  - exists cut. cbn [app]. split; [congruence|]. split; [constructor; assumption|exact Hc].
Qed.

(** ** Encoding and decoding *)

Lemma bytes_app a b : bytes (a ++ b) <-> bytes a /\ bytes b.
Proof. apply Forall_app. Qed.

Lemma encode58_ok b : bytes b -> exists t, encode58 b = Ok t /\ base58_text b t.
Proof.
  intros Hb. unfold encode58. destruct (skip 0 b) as [z p] eqn:E.
  destruct (skip_ok _ _ _ _ E) as (-> & P). apply bytes_app in Hb as (_ & Hp).
  destruct (absorb_zero 256 58 p (N.to_nat (N.of_nat (length p) * 138 / 100 + 1)))
    as (buf & -> & F & V); [lia|lia|exact Hp| |].
  { rewrite N2Nat.id. apply room_encode. }
  destruct (digits_of_buffer 58 buf F) as (Pd & Fd & Vd).
  eexists. split; [reflexivity|].
  exists z, p, (snd (skip 0 (rev buf))). repeat split; auto. rewrite Vd. exact V.
Qed.

Lemma base58_text_unique b t1 t2 : base58_text b t1 -> base58_text b t2 -> t1 = t2.
Proof.
  intros (z1 & p1 & d1 & E1 & P1 & -> & D1 & F1 & V1) (z2 & p2 & d2 & E2 & P2 & -> & D2 & F2 & V2).
  assert (E : skip 0 b = (z1, p1)) by (rewrite E1; apply skip_app; exact P1).
  rewrite E2, skip_app in E by exact P2. injection E as -> ->.
  f_equal. f_equal. apply (numeral_inj 58); auto; [lia|congruence].
Qed.

Lemma encode58_iff b t : bytes b -> encode58 b = Ok t <-> base58_text b t.
Proof.
  intros Hb. destruct (encode58_ok b Hb) as (t' & E & H). split.
  - rewrite E. intros [= <-]. exact H.
  - intros H'. rewrite E. f_equal. eapply base58_text_unique; eauto.
Qed.

Lemma ones_plain z : Forall (fun c => c <> 0) (repeat 49 z) /\
                     Forall (fun c => is_space c = false) (repeat 49 z).
Proof. induction z as [|z (A & B)]; split; constructor; auto; discriminate. Qed.

Lemma text_plain b t : base58_text b t ->
  Forall (fun c => c <> 0) t /\ Forall (fun c => is_space c = false) t.
Proof.
  intros (z & p & ds & _ & _ & -> & _ & F & _). destruct (ones_plain z) as (A & B).
  split; apply Forall_app; split; auto; apply Forall_map;
    (eapply Forall_impl; [|exact F]); intros d Hd; apply (char_plain d Hd).
Qed.

Lemma chars_not_one ds : Forall (fun d => d < 58) ds -> proper ds ->
  not_first 49 (map char58 ds).
Proof.
  intros F P. destruct ds as [|d ds]; [exact I|]. cbn. inversion F as [|? ? Hd _]. subst.
  intros E. apply char_one in E; [|exact Hd]. contradiction.
Qed.

Lemma not_one_proper ds : not_first 49 (map char58 ds) -> proper ds.
Proof.
  destruct ds as [|d ds]; [auto|]. cbn. intros H E. subst. apply H. reflexivity.
Qed.

Lemma base58_bytes_unique b1 b2 t : bytes b1 -> bytes b2 ->
  base58_text b1 t -> base58_text b2 t -> b1 = b2.
Proof.
  intros B1 B2 (z1 & p1 & d1 & -> & P1 & E1 & D1 & F1 & V1)
    (z2 & p2 & d2 & -> & P2 & E2 & D2 & F2 & V2).
  assert (E : skip 49 t = (z1, map char58 d1))
    by (rewrite E1; apply skip_app, chars_not_one; assumption).
  rewrite E2, skip_app in E by (apply chars_not_one; assumption). injection E as -> Ed.
  assert (d2 = d1).
  { pose proof (scan_chars d1 F1) as S1. pose proof (scan_chars d2 F2) as S2.
    rewrite Ed, S1 in S2. congruence. }
  subst d2. apply bytes_app in B1 as (_ & B1). apply bytes_app in B2 as (_ & B2).
  f_equal. apply (numeral_inj 256); auto; [lia|congruence].
Qed.

(** What the decoder does with the part of the text it looks at. *)
Lemma decode58_core before z ds after :
  spaces before -> spaces after -> Forall (fun d => d < 58) ds -> proper ds ->
  exists payload,
    decode58_chars (before ++ (repeat 49 z ++ map char58 ds) ++ after) =
      Ok (repeat 0 z ++ payload) /\
    bytes payload /\ proper payload /\ numeral 256 payload = numeral 58 ds.
Proof.
  intros Hb Ha F P. unfold decode58_chars.
  assert (N1 : not_first 49 (map char58 ds ++ after)).
  { destruct ds as [|d ds].
    - destruct Ha as [|c after Hc Ha]; [exact I|]. cbn. intros ->. discriminate.
    - exact (chars_not_one (d :: ds) F P). }
  assert (S1 : skip_spaces (before ++ (repeat 49 z ++ map char58 ds) ++ after) =
               skip_spaces ((repeat 49 z ++ map char58 ds) ++ after)).
  { induction Hb as [|c before Hc Hb IH]; [reflexivity|].
    cbn [app skip_spaces]. rewrite Hc. exact IH. }
  rewrite S1. clear S1 Hb before.
  assert (S2 : skip 49 (skip_spaces ((repeat 49 z ++ map char58 ds) ++ after)) =
               (z, map char58 ds ++ after) \/
               (z = O /\ ds = [] /\ skip_spaces ((repeat 49 z ++ map char58 ds) ++ after) = [])).
  { destruct z as [|z].
    - destruct ds as [|d ds].
      + right. repeat split. cbn [repeat map app]. clear -Ha.
        induction Ha as [|c after Hc Ha IH]; [reflexivity|]. cbn [skip_spaces].
        rewrite Hc. exact IH.
      + left. rewrite skip_spaces_none.
        * cbn [repeat app]. apply (skip_app 49 0). exact N1.
        * cbn. inversion F. now apply char_plain.
    - left. rewrite skip_spaces_none by reflexivity. rewrite <- app_assoc.
      apply skip_app. exact N1. }
  destruct S2 as [S2 | (-> & -> & S2)].
  - rewrite S2.
    assert (Sc : scan (map char58 ds ++ after) = Some (ds, after)).
    { clear -F Ha. induction F as [|d ds Hd F IH]; cbn [map app].
      - destruct Ha as [|c after Hc Ha]; [reflexivity|]. cbn [scan]. now rewrite Hc.
      - cbn [scan]. rewrite (proj1 (char_plain d Hd)), (position_char d Hd), IH. reflexivity. }
    rewrite Sc.
    assert (Ea : skip_spaces after = []).
    { clear -Ha. induction Ha as [|c after Hc Ha IH]; [reflexivity|]. cbn [skip_spaces].
      rewrite Hc. exact IH. }
    rewrite Ea.
    destruct (absorb_zero 58 256 ds
                (N.to_nat (N.of_nat (length (map char58 ds ++ after)) * 733 / 1000 + 1)))
      as (buf & -> & Fb & V); [lia|lia|exact F| |].
    { rewrite N2Nat.id. etransitivity; [apply room_decode|]. apply N.pow_le_mono_r; [lia|].
      rewrite app_length, map_length. lia. }
    destruct (digits_of_buffer 256 buf Fb) as (Pd & Fd & Vd).
    eexists. split; [reflexivity|]. split; [exact Fd|]. split; [exact Pd|]. congruence.
  - rewrite S2. cbn. exists []. repeat split. constructor.
Qed.

Lemma decode58_text b t : bytes b -> base58_text b t -> decode58 t = Ok b.
Proof.
  intros Hb H. unfold decode58. rewrite c_str_plain by apply (text_plain b t H).
  destruct H as (z & p & ds & -> & Pp & -> & Pd & F & V).
  destruct (decode58_core [] z ds []) as (p' & E & B & P' & V'); auto; try constructor.
  rewrite app_nil_r in E. cbn [app] in E. rewrite E. f_equal. f_equal.
  apply bytes_app in Hb as (_ & Hb). apply (numeral_inj 256); auto; [lia|congruence].
Qed.

Lemma decode58_total t : decode58 t <> Abort.
Proof.
  unfold decode58, decode58_chars. generalize (c_str t) as u. intros u.
  destruct (skip 49 (skip_spaces u)) as [z t'].
  destruct (scan t') as [[ds r]|] eqn:S; [|discriminate].
  destruct (scan_some _ _ _ S) as (Et & F).
  destruct (absorb_zero 58 256 ds (N.to_nat (N.of_nat (length t') * 733 / 1000 + 1)))
    as (buf & -> & _); [lia|lia|exact F| |].
  { rewrite N2Nat.id. etransitivity; [apply room_decode|]. apply N.pow_le_mono_r; [lia|].
    rewrite Et, app_length, map_length. lia. }
  destruct (skip_spaces r); discriminate.
Qed.

Lemma decode58_accepted t b : decode58 t = Ok b ->
  bytes b /\ exists core, core_of t core /\ encode58 b = Ok core.
Proof.
  unfold decode58. destruct (c_str_ok t) as (cut & Et & Nz & Hcut).
  set (u := c_str t) in *. clearbody u.
  destruct (skip_spaces_ok u) as (before & Eb & Hb).
  unfold decode58_chars. destruct (skip 49 (skip_spaces u)) as [z t'] eqn:Sk.
  destruct (skip_ok _ _ _ _ Sk) as (Es & Hn).
  destruct (scan t') as [[ds r]|] eqn:S; [|discriminate].
  destruct (scan_some _ _ _ S) as (Et' & F).
  destruct (absorb_zero 58 256 ds (N.to_nat (N.of_nat (length t') * 733 / 1000 + 1)))
    as (buf & -> & Fb & V); [lia|lia|exact F| |].
  { rewrite N2Nat.id. etransitivity; [apply room_decode|]. apply N.pow_le_mono_r; [lia|].
    rewrite Et', app_length, map_length. lia. }
  destruct (skip_spaces_ok r) as (after & Er & Hr).
  destruct (skip_spaces r) as [|x xs]; [|discriminate]. intros [= <-].
  rewrite app_nil_r in Er. subst after.
  destruct (digits_of_buffer 256 buf Fb) as (Pd & Fd & Vd).
  assert (Pds : proper ds).
  { apply not_one_proper. rewrite Et' in Hn. destruct ds; [exact I|exact Hn]. }
  assert (B : bytes (repeat 0 z ++ snd (skip 0 (rev buf)))).
  { apply bytes_app. split; [apply zeroes_lt; lia|exact Fd]. }
  split; [exact B|].
  set (payload := snd (skip 0 (rev buf))) in *.
  assert (T : base58_text (repeat 0 z ++ payload) (repeat 49 z ++ map char58 ds)).
  { exists z, payload, ds. repeat split; auto. congruence. }
  exists (repeat 49 z ++ map char58 ds). split.
  - exists before, r, cut. destruct (text_plain _ _ T) as (A1 & A2).
    split; [|repeat split; auto].
    rewrite Et. rewrite Eb at 1. rewrite Es, Et'. rewrite !app_assoc. reflexivity.
  - apply encode58_iff; assumption.
Qed.

(** Every text with an encoding at its core is accepted. *)
Lemma spaces_not_nul l : spaces l -> Forall (fun c => c <> 0) l.
Proof.
  intros H. eapply Forall_impl; [|exact H]. cbn. intros c Hc ->. discriminate.
Qed.

Lemma c_str_cut u cut : Forall (fun c => c <> 0) u ->
  cut = [] \/ (exists rest, cut = 0 :: rest) -> c_str (u ++ cut) = u.
Proof.
  intros Hu Hc. induction Hu as [|c u Hne Hu IH]; cbn [app].
  - destruct Hc as [->|(rest & ->)]; reflexivity.
  - cbn [c_str]. rewrite (proj2 (N.eqb_neq _ _) Hne), IH. reflexivity.
Qed.

Lemma decode58_complete t b core : bytes b -> core_of t core -> encode58 b = Ok core ->
  decode58 t = Ok b.
Proof.
  intros Hb (before & after & cut & -> & Sb & Sa & Nz & _ & Hc) E.
  apply encode58_iff in E; [|exact Hb]. unfold decode58.
  replace (before ++ core ++ after ++ cut) with ((before ++ core ++ after) ++ cut)
    by (rewrite <- !app_assoc; reflexivity).
  rewrite c_str_cut; [|repeat (apply Forall_app; split)|exact Hc];
    auto using spaces_not_nul.
  destruct E as (z & p & ds & -> & Pp & -> & Pd & F & V).
  destruct (decode58_core before z ds after) as (p' & Ed & B & P' & V'); auto.
  rewrite Ed. f_equal. f_equal.
  apply bytes_app in Hb as (_ & Hb). apply (numeral_inj 256); auto; [lia|congruence].
Qed.

(** ** Checked text *)

Section Checked.
  Variable hash : list N -> list N.
  Hypothesis hash_bytes : forall b, bytes (hash b).
  Hypothesis hash_long : forall b, (4 <= length (hash b))%nat.

  Lemma checksum_length b : length (firstn 4 (hash b)) = 4%nat.
  Proof. rewrite firstn_length. pose proof (hash_long b). lia. Qed.

  Lemma checked_bytes b : bytes b -> bytes (b ++ firstn 4 (hash b)).
  Proof.
    intros H. apply bytes_app. split; [exact H|]. apply Forall_forall. intros x Hx.
    pose proof (hash_bytes b) as Hh. unfold bytes in Hh. rewrite Forall_forall in Hh.
    apply Hh. rewrite <- (firstn_skipn 4 (hash b)). apply in_or_app. auto.
  Qed.

  Lemma decode58_check_iff t b :
    decode58_check hash t = Ok b <-> decode58 t = Ok (b ++ firstn 4 (hash b)).
  Proof.
    unfold decode58_check. split.
    - destruct (decode58 t) as [v| |]; try discriminate.
      destruct (N.ltb_spec (N.of_nat (length v)) 4) as [L|L]; [discriminate|].
      destruct (list_eq_dec N.eq_dec (firstn 4 (hash (firstn (length v - 4) v)))
                  (skipn (length v - 4) v)) as [E|]; [|discriminate].
      intros [= <-]. rewrite E, firstn_skipn. reflexivity.
    - intros ->. pose proof (checksum_length b) as L.
      rewrite app_length, L. replace (N.of_nat (length b + 4) <? 4) with false by lia.
      replace (length b + 4 - 4)%nat with (length b + 0)%nat by lia.
      rewrite firstn_app_2, Nat.add_0_r, firstn_O, app_nil_r.
      rewrite skipn_app, skipn_all, Nat.sub_diag, skipn_O. cbn [app].
      destruct (list_eq_dec N.eq_dec (firstn 4 (hash b)) (firstn 4 (hash b))); congruence.
  Qed.

  Lemma check_round_trip b : bytes b ->
    exists t, encode58_check hash b = Ok t /\ decode58_check hash t = Ok b.
  Proof.
    intros Hb. destruct (encode58_ok _ (checked_bytes b Hb)) as (t & E & H).
    exists t. split; [exact E|]. apply decode58_check_iff.
    apply decode58_text; [apply checked_bytes, Hb|exact H].
  Qed.

  Lemma check_accepted t b : decode58_check hash t = Ok b ->
    bytes b /\ exists core, core_of t core /\ encode58_check hash b = Ok core.
  Proof.
    intros H. apply decode58_check_iff in H. apply decode58_accepted in H as (B & core & C & E).
    apply bytes_app in B as (B & _). eauto.
  Qed.

  Lemma check_total t : decode58_check hash t <> Abort.
  Proof.
    unfold decode58_check. pose proof (decode58_total t).
    destruct (decode58 t); try congruence.
    destruct (_ <? _); [discriminate|]. destruct (list_eq_dec _ _ _); discriminate.
  Qed.

  Lemma address_round_trip v key : bytes (v :: key) -> length key = 20%nat ->
    exists t, address_text hash [v] key = Ok t /\ address_key hash [v] t = Ok key.
  Proof.
    intros Hb Hl. destruct (check_round_trip _ Hb) as (t & E & D).
    exists t. split; [exact E|]. unfold address_key. rewrite D.
    destruct (list_eq_dec N.eq_dec [v] [v]); [|congruence]. rewrite Hl. reflexivity.
  Qed.

  Lemma address_accepted v key t : address_key hash [v] t = Ok key ->
    bytes key /\ length key = 20%nat /\
    exists core, core_of t core /\ address_text hash [v] key = Ok core.
  Proof.
    unfold address_key. destruct (decode58_check hash t) as [d| |] eqn:D; try discriminate.
    destruct d as [|x d]; [discriminate|].
    destruct (list_eq_dec N.eq_dec [x] [v]) as [Ev|]; [|discriminate]. injection Ev as ->.
    destruct (N.eqb_spec (N.of_nat (length d)) 20) as [L|]; [|discriminate]. intros [= <-].
    apply check_accepted in D as (B & core & C & E).
    inversion B. split; [assumption|]. split; [lia|]. eauto.
  Qed.
End Checked.
