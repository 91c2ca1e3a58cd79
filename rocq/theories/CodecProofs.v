(** Proofs about the encodings. *)
From Coq Require Import List Bool NArith ZArith Lia Arith.
From Coq Require Import ZifyBool ZifyNat ZifyN.
From Verif Require Import Prelude PreludeFacts CodecModel CodecSpec.
Import ListNotations.
Open Scope N_scope.

Ltac Zify.zify_post_hook ::= Z.div_mod_to_equations.

Ltac conj := repeat match goal with |- _ /\ _ => split end;
  try match goal with |- ?x = ?x => reflexivity end.

(** ** Bits *)

Lemma land127 n : N.land n 127 = n mod 128.
Proof. exact (N.land_ones n 7). Qed.

Lemma shiftr7 n : N.shiftr n 7 = n / 128.
Proof. exact (N.shiftr_div_pow2 n 7). Qed.

Lemma shiftl7 n : N.shiftl n 7 = n * 128.
Proof. exact (N.shiftl_mul_pow2 n 7). Qed.

(** Numbers with no bit in common add like they are or-ed. *)
Lemma lor_add k a b : b < 2 ^ k -> N.lor (a * 2 ^ k) b = a * 2 ^ k + b.
Proof.
  intros Hb. rewrite <- N.lxor_lor.
  - rewrite <- N.add_nocarry_lxor; [reflexivity|].
    apply N.bits_inj. intros i. rewrite N.land_spec, N.bits_0.
    destruct (N.ltb_spec i k) as [Hi|Hi].
    + rewrite N.mul_pow2_bits_low; auto.
    + replace (N.testbit b i) with false; [apply andb_false_r|].
      destruct (N.eq_dec b 0) as [->|Hne]; [now rewrite N.bits_0|].
      symmetry. apply N.bits_above_log2.
      apply N.log2_lt_pow2 in Hb; lia.
  - apply N.bits_inj. intros i. rewrite N.land_spec, N.bits_0.
    destruct (N.ltb_spec i k) as [Hi|Hi].
    + rewrite N.mul_pow2_bits_low; auto.
    + replace (N.testbit b i) with false; [apply andb_false_r|].
      destruct (N.eq_dec b 0) as [->|Hne]; [now rewrite N.bits_0|].
      symmetry. apply N.bits_above_log2.
      apply N.log2_lt_pow2 in Hb; lia.
Qed.

Lemma lor128 d : d < 128 -> N.lor d 128 = 128 + d.
Proof. intros H. rewrite N.lor_comm. exact (lor_add 7 1 d H). Qed.

Lemma lor_seven m d : d < 128 -> N.lor (m * 128) d = m * 128 + d.
Proof. exact (lor_add 7 m d). Qed.

Lemma testbit7 b : b < 256 -> N.testbit b 7 = (128 <=? b).
Proof.
  intros H. rewrite N.testbit_eqb. change (2 ^ 7) with 128.
  destruct (N.leb_spec 128 b) as [h|h].
  - apply N.eqb_eq. replace (b / 128) with 1 by lia. reflexivity.
  - apply N.eqb_neq. replace (b / 128) with 0 by lia. discriminate.
Qed.

Lemma two_w w : 7 <= w -> 2 ^ w = 128 * 2 ^ (w - 7).
Proof. intros H. change 128 with (2 ^ 7). rewrite <- N.pow_add_r. f_equal. lia. Qed.

Lemma pow2_pos w : 0 < 2 ^ w.
Proof. apply N.neq_0_lt_0, N.pow_nonzero. discriminate. Qed.

(** The step of the readers. *)
Lemma join_step w n d : 7 <= w -> d < 128 ->
  N.lor (N.shiftl n 7 mod 2 ^ w) d = (n * 128 + d) mod 2 ^ w.
Proof.
  intros Hw Hd. rewrite shiftl7, (two_w w Hw).
  rewrite (N.mul_comm n 128), N.mul_mod_distr_l; try discriminate;
    [|pose proof (pow2_pos (w - 7)); lia].
  rewrite (N.mul_comm 128 (n mod _)), lor_seven by assumption.
  pose proof (pow2_pos (w - 7)) as Hp. set (m := 2 ^ (w - 7)) in *.
  apply N.mod_unique with (q := n / m); [pose proof (N.mod_lt n m); nia|].
  pose proof (N.div_mod n m). nia.
Qed.

Lemma join_mod w n d : 7 <= w -> d < 128 ->
  N.lor (N.shiftl (n mod 2 ^ w) 7 mod 2 ^ w) d = (n * 128 + d) mod 2 ^ w.
Proof.
  intros Hw Hd. rewrite join_step by assumption. pose proof (pow2_pos w).
  rewrite N.add_mod, N.mul_mod, N.mod_mod, <- N.mul_mod, <- N.add_mod by lia. reflexivity.
Qed.

Lemma high_bit n : (128 + n mod 128) mod 128 = n mod 128.
Proof.
  symmetry. apply N.mod_unique with (q := 1); [apply N.mod_lt; discriminate|lia].
Qed.

(** ** Variable-length integers *)

Definition cont (a b : N) : N := a * 128 + b mod 128 + 1.

Lemma write_digits_cont room : forall n ds, write_digits room false n = Some ds ->
  fold_left cont (rev ds) 0 = n + 1 /\ Forall (fun b => 128 <= b < 256) ds /\
  N.of_nat (length ds) <= N.of_nat room.
Proof.
  induction room as [|room IH]; intros n ds; cbn [write_digits]; [discriminate|].
  assert (Hd : N.lor (N.land n 127) 128 = 128 + n mod 128)
    by (rewrite land127; apply lor128; lia).
  rewrite Hd. pose proof (high_bit n) as Hm. assert (Hr : 128 <= 128 + n mod 128 < 256) by lia.
  clear Hd. revert Hm Hr. generalize (128 + n mod 128) as d. intros d Hm Hr.
  destruct (N.leb_spec n 127) as [Hn|Hn].
  - intros [= <-]. cbn [rev app fold_left length]. unfold cont. rewrite Hm. conj; try lia.
    constructor; [lia|constructor].
  - destruct (write_digits room false (N.shiftr n 7 - 1)) as [ds'|] eqn:E; [|discriminate].
    intros [= <-]. destruct (IH _ _ E) as (Hv & Hb & Hl). rewrite shiftr7 in *.
    cbn [rev]. rewrite fold_left_app, Hv. cbn [fold_left length]. unfold cont.
    rewrite Hm. conj; [lia| |lia]. constructor; [lia|assumption].
Qed.

Lemma write_digits_enough room : forall first n, n < 128 ^ N.of_nat room -> 0 < N.of_nat room ->
  exists ds, write_digits room first n = Some ds.
Proof.
  induction room as [|room IH]; intros first n Hn Hr; [lia|]. cbn [write_digits].
  destruct (N.leb_spec n 127) as [h|h]; [eauto|].
  assert (0 < N.of_nat room).
  { destruct room; [|lia]. change (128 ^ N.of_nat 1) with 128 in Hn. lia. }
  destruct (IH false (N.shiftr n 7 - 1)) as (ds & ->); [|assumption|eauto].
  rewrite shiftr7. rewrite Nat2N.inj_succ, N.pow_succ_r' in Hn.
  assert (n / 128 < 128 ^ N.of_nat room) by (apply N.div_lt_upper_bound; lia). lia.
Qed.

Lemma buffer_pow w : 2 ^ w <= 128 ^ N.of_nat (buffer_size w).
Proof.
  unfold buffer_size. rewrite N2Nat.id. change 128 with (2 ^ 7).
  rewrite <- N.pow_mul_r. apply N.pow_le_mono_r; lia.
Qed.

Lemma write_varint_total w n : 0 < w -> n < 2 ^ w -> exists s, write_varint w n = Some s.
Proof.
  intros Hw Hn. unfold write_varint.
  destruct (write_digits_enough (buffer_size w) true n) as (ds & ->); [| |eauto].
  - pose proof (buffer_pow w). lia.
  - unfold buffer_size. lia.
Qed.

(** The shape of the output: continuation bytes and a last byte. *)
Lemma write_varint_shape w n s : write_varint w n = Some s ->
  exists c l, s = c ++ [l] /\ Forall (fun b => 128 <= b < 256) c /\ l < 128 /\
              fold_left cont c 0 * 128 + l = n.
Proof.
  unfold write_varint. destruct (buffer_size w) as [|room]; [discriminate|].
  cbn [write_digits]. rewrite land127, N.lor_0_r.
  destruct (N.leb_spec n 127) as [Hn|Hn].
  - intros [= <-]. exists [], (n mod 128). cbn [rev app fold_left]. conj; try lia.
    constructor.
  - destruct (write_digits room false (N.shiftr n 7 - 1)) as [ds|] eqn:E; [|discriminate].
    intros [= <-]. destruct (write_digits_cont _ _ _ E) as (Hv & Hb & _).
    rewrite shiftr7 in Hv. exists (rev ds), (n mod 128). cbn [rev].
    conj; [apply Forall_rev; assumption|lia|rewrite Hv; lia].
Qed.

Lemma cont_shift c : forall a,
  fold_left cont c a = a * 128 ^ N.of_nat (length c) + fold_left cont c 0.
Proof.
  induction c as [|b c IH]; intros a; cbn [fold_left length].
  - change (128 ^ N.of_nat 0) with 1. lia.
  - rewrite IH, (IH (cont 0 b)), Nat2N.inj_succ, N.pow_succ_r'. unfold cont. lia.
Qed.

Lemma is_varint_shape s : is_varint s <->
  exists c l, s = c ++ [l] /\ Forall (fun b => 128 <= b < 256) c /\ l < 128.
Proof.
  split.
  - induction s as [|b s IH]; [intros []|]. destruct s as [|b' s].
    + intros H. exists [], b. conj; auto.
    + intros (Hb & H). destruct (IH H) as (c & l & E & Hc & Hl).
      exists (b :: c), l. rewrite E. conj; auto.
  - intros (c & l & -> & Hc & Hl). induction Hc as [|b c Hb Hc IH]; [exact Hl|].
    cbn [app is_varint]. destruct (c ++ [l]) eqn:E; [now destruct c|]. auto.
Qed.

Lemma varint_value_shape c l : Forall (fun b => 128 <= b < 256) c ->
  varint_value (c ++ [l]) = fold_left cont c 0 * 128 + l.
Proof.
  induction 1 as [|b c Hb Hc IH]; [cbn; lia|].
  cbn [app]. replace (varint_value (b :: c ++ [l]))
    with ((b - 128 + 1) * 128 ^ N.of_nat (length (c ++ [l])) + varint_value (c ++ [l]))
    by (destruct c; reflexivity).
  rewrite IH. cbn [fold_left]. rewrite (cont_shift c (cont 0 b)).
  rewrite app_length, Nat2N.inj_add, N.pow_add_r. change (128 ^ N.of_nat (length [l])) with 128.
  unfold cont. replace (b mod 128) with (b - 128) by lia. lia.
Qed.

Lemma read_varint_cont w : 7 <= w -> forall c, Forall (fun b => 128 <= b < 256) c ->
  forall a rest, read_varint_from w (a mod 2 ^ w) (c ++ rest) =
                 read_varint_from w (fold_left cont c a mod 2 ^ w) rest.
Proof.
  intros Hw c Hc. induction Hc as [|b c Hb Hc IH]; intros a rest; [reflexivity|].
  cbn [app read_varint_from fold_left].
  rewrite testbit7 by lia. replace (128 <=? b) with true by lia.
  rewrite land127, join_mod by lia.
  pose proof (pow2_pos w). rewrite N.add_mod_idemp_l by lia. rewrite IH.
  unfold cont at 3. reflexivity.
Qed.

Lemma read_varint_shape w c l rest : 7 <= w ->
  Forall (fun b => 128 <= b < 256) c -> l < 128 ->
  read_varint w (c ++ l :: rest) = Some ((fold_left cont c 0 * 128 + l) mod 2 ^ w, rest).
Proof.
  intros Hw Hc Hl. unfold read_varint.
  replace 0 with (0 mod 2 ^ w) at 1 by (apply N.mod_0_l; pose proof (pow2_pos w); lia).
  rewrite read_varint_cont by assumption. cbn [read_varint_from].
  rewrite testbit7 by lia. replace (128 <=? l) with false by lia.
  rewrite land127, join_mod by lia. replace (l mod 128) with l by lia. reflexivity.
Qed.

Lemma read_varint_some w s n r : 7 <= w -> bytes s -> read_varint w s = Some (n, r) ->
  exists c l, s = c ++ l :: r /\ Forall (fun b => 128 <= b < 256) c /\ l < 128.
Proof.
  intros Hw Hs. unfold read_varint. generalize 0 as a. induction Hs as [|b s Hb Hs IH];
    intros a; cbn [read_varint_from]; [discriminate|].
  rewrite testbit7 by assumption. destruct (N.leb_spec 128 b) as [h|h].
  - intros H. destruct (IH _ H) as (c & l & -> & Hc & Hl).
    exists (b :: c), l. conj; auto.
  - intros [= _ <-]. exists [], b. conj; auto.
Qed.

Lemma size_rounds_digits fuel : forall n room ds first, n < 2 ^ N.of_nat fuel ->
  (0 < fuel)%nat ->
  write_digits room first n = Some ds -> size_rounds fuel n = N.of_nat (length ds).
Proof.
  induction fuel as [|fuel IH]; intros n room ds first Hn Hf Hw; [lia|].
  destruct room as [|room]; [discriminate|]. cbn [write_digits size_rounds] in *.
  destruct (N.leb_spec n 127) as [h|h]; [injection Hw as <-; reflexivity|].
  destruct (write_digits room false (N.shiftr n 7 - 1)) as [ds'|] eqn:E; [|discriminate].
  injection Hw as <-. rewrite Nat2N.inj_succ, N.pow_succ_r' in Hn.
  rewrite (IH _ room ds' false); [cbn [length]; lia| | |assumption].
  - rewrite shiftr7. lia.
  - destruct fuel; [|lia]. change (2 ^ N.of_nat 0) with 1 in Hn. lia.
Qed.

Lemma size_of_varint_ok w n s : write_varint w n = Some s ->
  size_of_varint n = N.of_nat (length s).
Proof.
  unfold write_varint, size_of_varint.
  destruct (write_digits (buffer_size w) true n) as [ds|] eqn:E; [|discriminate].
  intros [= <-]. rewrite rev_length. eapply size_rounds_digits; [|lia|exact E].
  rewrite Nat2N.inj_succ, N2Nat.id.
  destruct (N.eq_dec n 0) as [->|Hn]; [cbn; lia|].
  apply N.log2_spec. lia.
Qed.

Lemma varint_bytes s : is_varint s -> bytes s.
Proof.
  intros H. apply is_varint_shape in H as (c & l & -> & Hc & Hl).
  apply Forall_app. split; [eapply Forall_impl; [|exact Hc]; cbn; lia|].
  constructor; [lia|constructor].
Qed.

(** Everything about writing and reading one number. *)
Lemma varint_round_trip w n : 7 <= w -> n < 2 ^ w ->
  exists s, write_varint w n = Some s /\ is_varint s /\ varint_value s = n /\
            N.of_nat (length s) = size_of_varint n /\
            N.of_nat (length s) <= (w + 6) / 7 /\
            (forall rest, read_varint w (s ++ rest) = Some (n, rest)).
Proof.
  intros Hw Hn. destruct (write_varint_total w n) as (s & Hs); [lia|assumption|].
  exists s. destruct (write_varint_shape w n s Hs) as (c & l & E & Hc & Hl & Hv).
  conj.
  - exact Hs.
  - apply is_varint_shape. eauto.
  - rewrite E, varint_value_shape; assumption.
  - symmetry. eapply size_of_varint_ok, Hs.
  - unfold write_varint in Hs.
    destruct (write_digits (buffer_size w) true n) as [ds|] eqn:Ed; [|discriminate].
    injection Hs as <-. rewrite rev_length.
    assert (Hlen : forall room first n ds, write_digits room first n = Some ds ->
                   (length ds <= room)%nat).
    { clear. induction room as [|room IH]; intros first n ds; cbn [write_digits]; [discriminate|].
      destruct (n <=? 127); [intros [= <-]; cbn; lia|].
      destruct (write_digits room false _) as [ds'|] eqn:E; [|discriminate].
      intros [= <-]. apply IH in E. cbn [length]. lia. }
    apply Hlen in Ed. unfold buffer_size in Ed. lia.
  - intros rest. rewrite E, <- app_assoc. cbn [app].
    rewrite read_varint_shape, Hv by assumption. rewrite N.mod_small by assumption. reflexivity.
Qed.

Lemma varint_prefix_free w1 w2 n1 n2 s1 s2 r1 r2 :
  write_varint w1 n1 = Some s1 -> write_varint w2 n2 = Some s2 ->
  s1 ++ r1 = s2 ++ r2 -> n1 = n2 /\ s1 = s2 /\ r1 = r2.
Proof.
  intros H1 H2.
  destruct (write_varint_shape _ _ _ H1) as (c1 & l1 & -> & Hc1 & Hl1 & <-).
  destruct (write_varint_shape _ _ _ H2) as (c2 & l2 & -> & Hc2 & Hl2 & <-).
  rewrite <- !app_assoc. cbn [app]. clear H1 H2.
  assert (G : c1 ++ l1 :: r1 = c2 ++ l2 :: r2 -> c1 = c2 /\ l1 = l2 /\ r1 = r2).
  { revert c2 Hc2. induction Hc1 as [|b c1 Hb Hc1 IH]; intros c2 Hc2.
    - destruct Hc2 as [|b2 c2 Hb2 Hc2]; cbn [app]; intros E; injection E as E1 E2; [auto|].
      subst. lia.
    - destruct Hc2 as [|b2 c2 Hb2 Hc2]; cbn [app]; intros E; injection E as E1 E2.
      + subst. lia.
      + destruct (IH c2 Hc2 E2) as (-> & -> & ->). subst. auto. }
  intros E. destruct (G E) as (-> & -> & ->). auto.
Qed.

Lemma varint_accepted w s n r : 7 <= w -> bytes s -> read_varint w s = Some (n, r) ->
  exists e, s = e ++ r /\ is_varint e /\ n = varint_value e mod 2 ^ w.
Proof.
  intros Hw Hs H. destruct (read_varint_some w s n r Hw Hs H) as (c & l & -> & Hc & Hl).
  exists (c ++ [l]). rewrite <- app_assoc. cbn [app]. conj.
  - apply is_varint_shape. eauto.
  - rewrite read_varint_shape in H by assumption. injection H as <-.
    rewrite varint_value_shape by assumption. reflexivity.
Qed.

(** Two variable-length integers of the same value are the same bytes. *)
Lemma cont_inj c1 : forall c2, Forall (fun b => 128 <= b < 256) c1 ->
  Forall (fun b => 128 <= b < 256) c2 -> fold_left cont c1 0 = fold_left cont c2 0 -> c1 = c2.
Proof.
  induction c1 as [|b c1 IH] using rev_ind; intros c2 H1 H2.
  - destruct c2 as [|b c2 _] using rev_ind; [auto|].
    rewrite fold_left_app. cbn. unfold cont. lia.
  - destruct c2 as [|b' c2 _] using rev_ind.
    + rewrite fold_left_app. cbn. unfold cont. lia.
    + apply Forall_app in H1 as (H1 & Hb). apply Forall_app in H2 as (H2 & Hb').
      inversion Hb as [|? ? Hb1 _]. inversion Hb' as [|? ? Hb2 _]. subst.
      rewrite !fold_left_app. cbn [fold_left]. unfold cont at 1 3. intros E.
      assert (b = b') by lia. assert (fold_left cont c1 0 = fold_left cont c2 0) by lia.
      f_equal; [apply IH; assumption|congruence].
Qed.

Lemma varint_value_inj s1 s2 : is_varint s1 -> is_varint s2 ->
  varint_value s1 = varint_value s2 -> s1 = s2.
Proof.
  intros H1 H2. apply is_varint_shape in H1 as (c1 & l1 & -> & Hc1 & Hl1).
  apply is_varint_shape in H2 as (c2 & l2 & -> & Hc2 & Hl2).
  rewrite !varint_value_shape by assumption. intros E.
  assert (l1 = l2) by lia. f_equal; [apply cont_inj; try assumption; lia|congruence].
Qed.

Lemma varint_canonical w s n r : 7 <= w -> bytes s -> read_varint w s = Some (n, r) ->
  (exists e, s = e ++ r /\ write_varint w n = Some e) \/
  (exists e, s = e ++ r /\ is_varint e /\ 2 ^ w <= varint_value e).
Proof.
  intros Hw Hs H. destruct (varint_accepted w s n r Hw Hs H) as (e & -> & He & ->).
  destruct (N.lt_ge_cases (varint_value e) (2 ^ w)) as [h|h]; [left|right]; exists e; auto.
  split; [reflexivity|]. rewrite N.mod_small by assumption.
  destruct (varint_round_trip w (varint_value e) Hw h) as (s & Hs' & Hv & Hval & _).
  rewrite Hs'. f_equal. apply varint_value_inj; assumption.
Qed.

(** ** Compact sizes *)

Lemma read_le_bytes k : forall n rest, n < 256 ^ N.of_nat k ->
  read_le k (le_bytes k n ++ rest) = Some (n, rest).
Proof.
  induction k as [|k IH]; intros n rest Hn.
  - change (256 ^ N.of_nat 0) with 1 in Hn. cbn. repeat f_equal. lia.
  - rewrite Nat2N.inj_succ, N.pow_succ_r' in Hn. cbn [le_bytes app read_le].
    rewrite IH by (apply N.div_lt_upper_bound; lia). repeat f_equal. lia.
Qed.

Lemma read_le_some k : forall s n r, bytes s -> read_le k s = Some (n, r) ->
  n < 256 ^ N.of_nat k /\ s = le_bytes k n ++ r.
Proof.
  induction k as [|k IH]; intros s n r Hs; cbn [read_le].
  - intros [= <- <-]. split; [cbn; lia|reflexivity].
  - destruct Hs as [|b s Hb Hs]; [discriminate|].
    destruct (read_le k s) as [[m r']|] eqn:E; [|discriminate]. intros H.
    assert (Hn : n = b + 256 * m) by congruence. assert (Hr : r = r') by congruence. subst n r.
    destruct (IH _ _ _ Hs E) as (Hm & ->). rewrite Nat2N.inj_succ, N.pow_succ_r'.
    cbv beta in Hb. split; [nia|]. cbn [le_bytes app].
    replace ((b + 256 * m) mod 256) with b by lia.
    replace ((b + 256 * m) / 256) with m by lia. reflexivity.
Qed.

Lemma le_bytes_bytes k : forall n, bytes (le_bytes k n).
Proof. induction k as [|k IH]; intros n; constructor; [lia|apply IH]. Qed.

Lemma le_bytes_length k : forall n, length (le_bytes k n) = k.
Proof. induction k as [|k IH]; intros n; cbn; [|rewrite IH]; reflexivity. Qed.

Lemma write_compact_size n : N.of_nat (length (write_compact n)) = size_of_compact n.
Proof.
  unfold write_compact, size_of_compact.
  destruct (n <? 253), (n <=? 65535), (n <=? 4294967295); reflexivity.
Qed.

Lemma write_compact_bytes n : bytes (write_compact n).
Proof.
  unfold write_compact. destruct (N.ltb_spec n 253).
  - constructor; [lia|constructor].
  - destruct (n <=? 65535), (n <=? 4294967295); constructor;
      try apply le_bytes_bytes; lia.
Qed.

Lemma pow256 : 256 ^ N.of_nat 2 = 65536 /\ 256 ^ N.of_nat 4 = 4294967296 /\
               256 ^ N.of_nat 8 = 18446744073709551616.
Proof. conj; reflexivity. Qed.

Lemma compact_round_trip n rest : n < 18446744073709551616 ->
  read_compact (write_compact n ++ rest) =
  if n <=? 33554432 then Some (n, rest) else None.
Proof.
  intros Hn. destruct pow256 as (P2 & P4 & P8). unfold write_compact, read_compact.
  destruct (N.ltb_spec n 253) as [h1|h1].
  { cbn [app]. replace (n <? 253) with true by lia. unfold max_size.
    replace (33554432 <? n) with false by lia. replace (n <=? 33554432) with true by lia.
    reflexivity. }
  destruct (N.leb_spec n 65535) as [h2|h2].
  { cbn [app]. change (253 <? 253) with false. change (253 =? 253) with true. cbv iota.
    rewrite read_le_bytes by lia. replace (n <? 253) with false by lia. unfold max_size.
    replace (33554432 <? n) with false by lia. replace (n <=? 33554432) with true by lia.
    reflexivity. }
  destruct (N.leb_spec n 4294967295) as [h3|h3].
  { cbn [app]. change (254 <? 253) with false. change (254 =? 253) with false.
    change (254 =? 254) with true. cbv iota.
    rewrite read_le_bytes by lia. replace (n <? 65536) with false by lia. unfold max_size.
    rewrite N.ltb_antisym. now destruct (n <=? 33554432). }
  cbn [app]. change (255 <? 253) with false. change (255 =? 253) with false.
  change (255 =? 254) with false. cbv iota.
  rewrite read_le_bytes by lia. replace (n <? 4294967296) with false by lia. unfold max_size.
  rewrite N.ltb_antisym. now destruct (n <=? 33554432).
Qed.

Lemma compact_accepted s n r : bytes s -> read_compact s = Some (n, r) ->
  n <= 33554432 /\ s = write_compact n ++ r.
Proof.
  intros Hs. destruct pow256 as (P2 & P4 & P8).
  destruct Hs as [|c s Hc Hs]; [discriminate|]. unfold read_compact, max_size.
  destruct (N.ltb_spec c 253) as [h|h].
  { destruct (N.ltb_spec 33554432 c); [discriminate|]. intros [= <- <-].
    split; [assumption|]. unfold write_compact. replace (c <? 253) with true by lia.
    reflexivity. }
  destruct (N.eqb_spec c 253) as [->|h1].
  { destruct (read_le 2 s) as [[m r']|] eqn:E; [|discriminate].
    destruct (N.ltb_spec m 253); [discriminate|].
    destruct (N.ltb_spec 33554432 m); [discriminate|]. intros [= <- <-].
    destruct (read_le_some _ _ _ _ Hs E) as (Hm & ->). split; [assumption|].
    unfold write_compact. replace (m <? 253) with false by lia.
    replace (m <=? 65535) with true by lia. reflexivity. }
  destruct (N.eqb_spec c 254) as [->|h2].
  { destruct (read_le 4 s) as [[m r']|] eqn:E; [|discriminate].
    destruct (N.ltb_spec m 65536); [discriminate|].
    destruct (N.ltb_spec 33554432 m); [discriminate|]. intros [= <- <-].
    destruct (read_le_some _ _ _ _ Hs E) as (Hm & ->). split; [assumption|].
    unfold write_compact. replace (m <? 253) with false by lia.
    replace (m <=? 65535) with false by lia.
    replace (m <=? 4294967295) with true by lia. reflexivity. }
  destruct (read_le 8 s) as [[m r']|] eqn:E; [|discriminate].
  destruct (N.ltb_spec m 4294967296); [discriminate|].
  destruct (N.ltb_spec 33554432 m); [discriminate|lia].
Qed.

Lemma take_bytes_app s : forall rest, take_bytes (length s) (s ++ rest) = Some (s, rest).
Proof. induction s as [|b s IH]; intros rest; cbn; [|rewrite IH]; reflexivity. Qed.

Lemma take_bytes_some k : forall s b r, take_bytes k s = Some (b, r) ->
  s = b ++ r /\ length b = k.
Proof.
  induction k as [|k IH]; intros s b r; cbn [take_bytes].
  - intros [= <- <-]. auto.
  - destruct s as [|c s]; [discriminate|].
    destruct (take_bytes k s) as [[b' r']|] eqn:E; [|discriminate]. intros [= <- <-].
    destruct (IH _ _ _ E) as (-> & <-). auto.
Qed.

Lemma compact_small n rest : n <= 33554432 ->
  read_compact (write_compact n ++ rest) = Some (n, rest).
Proof.
  intros H. rewrite compact_round_trip by lia. now replace (n <=? 33554432) with true by lia.
Qed.

Lemma string_round_trip s rest : N.of_nat (length s) <= 4000000 ->
  read_string (write_string s ++ rest) = Some (s, rest).
Proof.
  intros H. unfold read_string, write_string. rewrite <- app_assoc, compact_small by lia.
  unfold max_serialize_size. replace (4000000 <? N.of_nat (length s)) with false by lia.
  rewrite Nat2N.id. apply take_bytes_app.
Qed.

Lemma string_too_long s rest : 4000000 < N.of_nat (length s) < 18446744073709551616 ->
  read_string (write_string s ++ rest) = None.
Proof.
  intros H. unfold read_string, write_string. rewrite <- app_assoc, compact_round_trip by lia.
  destruct (N.of_nat (length s) <=? 33554432); [|reflexivity].
  unfold max_serialize_size. now replace (4000000 <? N.of_nat (length s)) with true by lia.
Qed.

Lemma bytes_round_trip s rest : N.of_nat (length s) <= 33554432 ->
  read_bytes (write_string s ++ rest) = Some (s, rest).
Proof.
  intros H. unfold read_bytes, write_string. rewrite <- app_assoc, compact_small by lia.
  rewrite Nat2N.id. apply take_bytes_app.
Qed.

Lemma string_accepted s b r : bytes s -> read_string s = Some (b, r) ->
  s = write_string b ++ r.
Proof.
  intros Hs. unfold read_string. destruct (read_compact s) as [[n s1]|] eqn:E; [|discriminate].
  destruct (max_serialize_size <? n); [discriminate|]. intros T.
  destruct (compact_accepted _ _ _ Hs E) as (_ & ->).
  destruct (take_bytes_some _ _ _ _ T) as (-> & Hl). unfold write_string.
  rewrite <- app_assoc. f_equal. rewrite Hl, N2Nat.id. reflexivity.
Qed.

Section Vectors.
  Context {A : Type}.
  Variable put : A -> list N.
  Variable get : list N -> option (A * list N).

  Lemma elements_round_trip l rest :
    (forall a r, In a l -> get (put a ++ r) = Some (a, r)) ->
    read_elements get (length l) (concat (map put l) ++ rest) = Some (l, rest).
  Proof.
    intros H. induction l as [|a l IH]; [reflexivity|].
    cbn [map concat length read_elements]. rewrite <- app_assoc, H by (left; reflexivity).
    rewrite IH; [reflexivity|]. intros; apply H; right; assumption.
  Qed.

  Lemma vector_round_trip l rest : N.of_nat (length l) <= 33554432 ->
    (forall a r, In a l -> get (put a ++ r) = Some (a, r)) ->
    read_vector get (write_vector put l ++ rest) = Some (l, rest).
  Proof.
    intros Hl H. unfold read_vector, write_vector.
    rewrite <- app_assoc, compact_small by assumption. rewrite Nat2N.id.
    apply elements_round_trip, H.
  Qed.
End Vectors.

(** ** Fixed-width keys *)

Lemma fixed_fill_app k : forall v tail, fixed_fill k v tail = fixed_fill k v [] ++ tail.
Proof.
  induction k as [|k IH]; intros v tail; cbn [fixed_fill]; [reflexivity|].
  rewrite IH, (IH _ [_]), <- app_assoc. reflexivity.
Qed.

Lemma fixed_fill_S k v : fixed_fill (S k) v [] = fixed_fill k (v / 128) [] ++ [v mod 128].
Proof. cbn [fixed_fill]. rewrite fixed_fill_app, land127, shiftr7. reflexivity. Qed.

Lemma fixed_fill_length k : forall v, length (fixed_fill k v []) = k.
Proof.
  induction k as [|k IH]; intros v; [reflexivity|].
  rewrite fixed_fill_S, app_length, IH. cbn. lia.
Qed.

Lemma fixed_fill_bytes k : forall v, Forall (fun b => b < 128) (fixed_fill k v []).
Proof.
  induction k as [|k IH]; intros v; [constructor|].
  rewrite fixed_fill_S. apply Forall_app. split; [apply IH|].
  constructor; [lia|constructor].
Qed.

Lemma fixed_join_app w bs : forall v b, fixed_join w v (bs ++ [b]) =
  N.lor (N.shiftl (fixed_join w v bs) 7 mod 2 ^ w) b.
Proof. induction bs as [|c bs IH]; intros v b; cbn [app fixed_join]; [reflexivity|apply IH]. Qed.

Lemma fixed_join_fill w : 7 <= w -> forall k v, v < 128 ^ N.of_nat k ->
  fixed_join w 0 (fixed_fill k v []) = v mod 2 ^ w.
Proof.
  intros Hw. induction k as [|k IH]; intros v Hv.
  - change (128 ^ N.of_nat 0) with 1 in Hv. replace v with 0 by lia.
    cbn [fixed_fill fixed_join]. rewrite N.mod_0_l; [reflexivity|].
    pose proof (pow2_pos w). lia.
  - rewrite Nat2N.inj_succ, N.pow_succ_r' in Hv.
    rewrite fixed_fill_S, fixed_join_app, IH by (apply N.div_lt_upper_bound; [discriminate|lia]).
    rewrite join_mod by lia. f_equal. lia.
Qed.

Lemma fixed_round_trip w v rest : 7 <= w -> v < 2 ^ w ->
  read_fixed w (write_fixed w v ++ rest) = Some (v, rest).
Proof.
  intros Hw Hv. unfold read_fixed, write_fixed.
  rewrite <- (fixed_fill_length (buffer_size w) v) at 1. rewrite take_bytes_app.
  rewrite fixed_join_fill; [|assumption|pose proof (buffer_pow w); lia].
  rewrite N.mod_small by assumption. reflexivity.
Qed.

Lemma byte_order_app x y : length x = length y -> forall x' y',
  byte_order (x ++ x') (y ++ y') = then_by (byte_order x y) (byte_order x' y').
Proof.
  revert y. induction x as [|a x IH]; intros [|b y]; cbn [length]; intros H; try discriminate;
    intros x' y'; [reflexivity|].
  cbn [app byte_order]. destruct (a ?= b); try reflexivity. apply IH. lia.
Qed.

Lemma fixed_order k : forall u v, u < 128 ^ N.of_nat k -> v < 128 ^ N.of_nat k ->
  byte_order (fixed_fill k u []) (fixed_fill k v []) = (u ?= v).
Proof.
  induction k as [|k IH]; intros u v Hu Hv.
  - change (128 ^ N.of_nat 0) with 1 in *. replace u with 0 by lia. replace v with 0 by lia.
    reflexivity.
  - rewrite Nat2N.inj_succ, N.pow_succ_r' in *.
    rewrite !fixed_fill_S, byte_order_app by now rewrite !fixed_fill_length.
    rewrite IH by (apply N.div_lt_upper_bound; lia). cbn [byte_order].
    destruct (N.compare_spec (u / 128) (v / 128)) as [E|L|G]; cbn [then_by].
    + destruct (N.compare_spec (u mod 128) (v mod 128)) as [E'|L'|G'];
        destruct (N.compare_spec u v); reflexivity || lia.
    + destruct (N.compare_spec u v); reflexivity || lia.
    + destruct (N.compare_spec u v); reflexivity || lia.
Qed.

Lemma write_fixed_length w v : N.of_nat (length (write_fixed w v)) = (w + 6) / 7.
Proof. unfold write_fixed. rewrite fixed_fill_length. unfold buffer_size. lia. Qed.

Lemma fixed_key_order w u v x y : u < 2 ^ w -> v < 2 ^ w ->
  byte_order (write_fixed w u ++ x) (write_fixed w v ++ y) =
  then_by (u ?= v) (byte_order x y).
Proof.
  intros Hu Hv. unfold write_fixed. rewrite byte_order_app by now rewrite !fixed_fill_length.
  rewrite fixed_order; [reflexivity| |]; pose proof (buffer_pow w); lia.
Qed.

(** ** Registration ids *)

Lemma regid_int_round_trip r : regid_ok r -> regid_of_int (regid_int r) = r.
Proof.
  destruct r as [h i]. intros (Hh & Hi). cbn [fst snd] in *.
  unfold regid_of_int, regid_int. cbn [fst snd].
  rewrite N.shiftl_mul_pow2, N.shiftr_div_pow2.
  change 1048575 with (N.ones 20). rewrite N.land_ones. change (2 ^ 20) with 1048576.
  unfold two32, two16. f_equal; lia.
Qed.

Lemma regid_int_order a b : regid_ok a -> regid_ok b ->
  (regid_int a ?= regid_int b) = then_by (fst a ?= fst b) (snd a ?= snd b).
Proof.
  intros (Ha & Ha') (Hb & Hb'). unfold regid_int. rewrite !N.shiftl_mul_pow2.
  change (2 ^ 20) with 1048576.
  destruct (N.compare_spec (fst a) (fst b)) as [E|L|G]; cbn [then_by];
    [destruct (N.compare_spec (snd a) (snd b))| |];
    match goal with |- (?x ?= ?y) = _ => destruct (N.compare_spec x y) end; reflexivity || lia.
Qed.

Lemma regid_raw_round_trip r : regid_ok r -> regid_of_raw (regid_raw r) = Some r.
Proof.
  destruct r as [h i]. intros (Hh & Hi). cbn [fst snd] in *. unfold regid_of_raw, regid_raw.
  rewrite app_length, !le_bytes_length. cbn [fst snd Nat.add N.of_nat Pos.of_succ_nat].
  change (N.of_nat 6 =? 6) with true. cbv iota.
  destruct pow256 as (P2 & P4 & _). rewrite read_le_bytes by lia.
  rewrite <- (app_nil_r (le_bytes 2 i)), read_le_bytes by lia. reflexivity.
Qed.

Lemma regid_raw_accepted s r : bytes s -> regid_of_raw s = Some r ->
  regid_ok r /\ s = regid_raw r.
Proof.
  intros Hs. unfold regid_of_raw. destruct (N.eqb_spec (N.of_nat (length s)) 6) as [L|L];
    [|discriminate].
  destruct (read_le 4 s) as [[h s1]|] eqn:E1; [|discriminate].
  destruct (read_le_some _ _ _ _ Hs E1) as (Hh & ->).
  assert (Hs1 : bytes s1) by (apply Forall_app in Hs; tauto).
  destruct (read_le 2 s1) as [[i s2]|] eqn:E2; [|discriminate].
  destruct (read_le_some _ _ _ _ Hs1 E2) as (Hi & ->). intros [= <-].
  rewrite !app_length, !le_bytes_length in L.
  destruct s2; [|cbn in L; lia]. destruct pow256 as (P2 & P4 & _).
  unfold regid_ok, regid_raw. cbn [fst snd]. rewrite app_nil_r.
  conj; lia.
Qed.

Lemma digits_value_app s c : digits_value (s ++ [c]) = 10 * digits_value s + (c - 48).
Proof. unfold digits_value. now rewrite fold_left_app. Qed.

Lemma decimal_spec fuel : forall n tail, n < 10 ^ N.of_nat fuel -> (0 < fuel)%nat ->
  exists ds, decimal_from fuel n tail = ds ++ tail /\ forallb is_digit ds = true /\
             ds <> [] /\ digits_value ds = n /\
             (forall k, n < 10 ^ N.of_nat k -> (0 < k)%nat -> (length ds <= k)%nat).
Proof.
  induction fuel as [|fuel IH]; intros n tail Hn Hf; [lia|].
  cbn [decimal_from]. destruct (N.ltb_spec n 10) as [h|h].
  - exists [48 + n mod 10]. conj.
    + reflexivity.
    + cbn [forallb]. unfold is_digit. lia.
    + discriminate.
    + unfold digits_value. cbn [fold_left]. lia.
    + intros k _ Hk. cbn. lia.
  - rewrite Nat2N.inj_succ, N.pow_succ_r' in Hn.
    assert (Hdiv : n / 10 < 10 ^ N.of_nat fuel) by (apply N.div_lt_upper_bound; lia).
    assert (Hfuel : (0 < fuel)%nat).
    { destruct fuel; [|lia]. change (10 ^ N.of_nat 0) with 1 in Hn. lia. }
    destruct (IH (n / 10) ((48 + n mod 10) :: tail) Hdiv Hfuel)
      as (ds & E & Hd & Hne & Hv & Hl).
    exists (ds ++ [48 + n mod 10]). conj.
    + rewrite E, <- app_assoc. reflexivity.
    + rewrite forallb_app, Hd. cbn [forallb]. unfold is_digit. lia.
    + destruct ds; discriminate.
    + rewrite digits_value_app, Hv. lia.
    + intros k Hk Hk0. rewrite app_length. cbn [length].
      destruct k as [|k]; [lia|]. rewrite Nat2N.inj_succ, N.pow_succ_r' in Hk.
      assert ((0 < k)%nat). { destruct k; [|lia]. change (10 ^ N.of_nat 0) with 1 in Hk. lia. }
      assert (length ds <= k)%nat by (apply Hl; [apply N.div_lt_upper_bound; lia|assumption]).
      lia.
Qed.

Lemma decimal_ok n : n < 4294967296 ->
  is_digital (decimal n) = true /\ digits_value (decimal n) = n /\
  (1 <= length (decimal n))%nat /\ Forall (fun c => c <> 45) (decimal n).
Proof.
  intros Hn. unfold decimal.
  destruct (decimal_spec 20 n []) as (ds & E & Hd & Hne & Hv & Hl); [|lia|].
  { change (10 ^ N.of_nat 20) with 100000000000000000000. lia. }
  rewrite E, app_nil_r. assert (Hlen : (length ds <= 10)%nat).
  { apply Hl; [|lia]. change (10 ^ N.of_nat 10) with 10000000000. lia. }
  assert (Hlen1 : (1 <= length ds)%nat) by (destruct ds; [congruence|cbn; lia]).
  conj; auto.
  - unfold is_digital. rewrite Hd. lia.
  - apply Forall_forall. intros c Hc. rewrite forallb_forall in Hd.
    specialize (Hd c Hc). unfold is_digit in Hd. lia.
Qed.

Lemma split_hyphen_app a b : Forall (fun c => c <> 45) a ->
  split_hyphen (a ++ 45 :: b) = Some (a, b).
Proof.
  induction 1 as [|c a Hc Ha IH]; [reflexivity|]. cbn [app split_hyphen].
  replace (c =? 45) with false by lia. rewrite IH. reflexivity.
Qed.

Lemma regid_text_halves r : regid_ok r ->
  halves (regid_text r) = (decimal (fst r), decimal (snd r)) /\
  is_simple_regid (regid_text r) = true.
Proof.
  intros (Hh & Hi). destruct (decimal_ok (fst r)) as (D1 & _ & L1 & N1); [lia|].
  destruct (decimal_ok (snd r)) as (D2 & _ & L2 & _); [lia|].
  assert (E : halves (regid_text r) = (decimal (fst r), decimal (snd r))).
  { unfold halves, regid_text. now rewrite split_hyphen_app. }
  split; [exact E|]. unfold is_simple_regid. rewrite E. cbn [fst snd]. rewrite D1, D2.
  unfold regid_text. rewrite app_length. cbn [length]. lia.
Qed.

Lemma regid_text_round_trip r : regid_ok r ->
  regid_of_text (regid_text r) =
  if fst r <=? 2147483647 then Parsed r else Undefined.
Proof.
  intros H. destruct (regid_text_halves r H) as (E & S). destruct H as (Hh & Hi).
  unfold regid_of_text. rewrite S, E. cbn [fst snd]. unfold atoi.
  destruct (decimal_ok (fst r)) as (_ & -> & _); [lia|].
  destruct (decimal_ok (snd r)) as (_ & -> & _); [lia|].
  replace (snd r <=? 2147483647) with true by lia.
  destruct (fst r <=? 2147483647); [|reflexivity]. destruct r as [h i]. cbn [fst snd] in *.
  unfold two32, two16. now rewrite !N.mod_small by lia.
Qed.

Lemma regid_text_inj a b : regid_ok a -> regid_ok b -> regid_text a = regid_text b -> a = b.
Proof.
  intros Ha Hb E. destruct (regid_text_halves a Ha) as (Ea & _).
  destruct (regid_text_halves b Hb) as (Eb & _). rewrite E, Eb in Ea.
  injection Ea as E1 E2. destruct Ha, Hb.
  destruct (decimal_ok (fst a)) as (_ & V1 & _); [lia|].
  destruct (decimal_ok (fst b)) as (_ & V2 & _); [lia|].
  destruct (decimal_ok (snd a)) as (_ & V3 & _); [lia|].
  destruct (decimal_ok (snd b)) as (_ & V4 & _); [lia|].
  destruct a, b. cbn [fst snd] in *. congruence.
Qed.

(** What a text must look like to be accepted with a hyphen: two runs of digits. *)
Lemma regid_text_accepted s r : regid_of_text s = Parsed r ->
  regid_ok r /\
  ((exists a b, s = a ++ 45 :: b /\ is_digital a = true /\ is_digital b = true /\
                fst r = digits_value a /\ snd r = digits_value b mod 65536) \/
   (is_digital s = true /\ fst r = digits_value s /\ snd r = digits_value s mod 65536)).
Proof.
  unfold regid_of_text. destruct (is_simple_regid s) eqn:S; [|discriminate].
  unfold is_simple_regid in S. apply andb_prop in S as (S & D2).
  apply andb_prop in S as (_ & D1). unfold atoi.
  destruct (N.leb_spec (digits_value (fst (halves s))) 2147483647) as [h1|]; [|discriminate].
  destruct (N.leb_spec (digits_value (snd (halves s))) 2147483647) as [h2|]; [|discriminate].
  intros [= <-]. cbn [fst snd]. unfold two32, two16. split; [split; cbn [fst snd]; lia|].
  rewrite N.mod_small by lia.
  unfold halves in *. destruct (split_hyphen s) as [[a b]|] eqn:E; cbn [fst snd] in *.
  - left. exists a, b. conj; auto. clear -E.
    revert a b E. induction s as [|c s IH]; intros a b; cbn [split_hyphen]; [discriminate|].
    destruct (N.eqb_spec c 45) as [->|]; [intros [= <- <-]; reflexivity|].
    destruct (split_hyphen s) as [[a' b']|]; [|discriminate]. intros [= <- <-].
    cbn [app]. f_equal. apply IH. reflexivity.
  - right. auto.
Qed.

Lemma regid_serial_round_trip r : regid_ok r ->
  exists s, write_regid r = Some s /\ bytes s /\ N.of_nat (length s) = regid_size r /\
            2 <= regid_size r <= 8 /\
            forall rest, read_regid (s ++ rest) = Some (r, rest).
Proof.
  intros (Hh & Hi).
  destruct (varint_round_trip 32 (fst r)) as (a & Wa & Va & _ & La & Sa & Ra); [lia|exact Hh|].
  destruct (varint_round_trip 16 (snd r)) as (b & Wb & Vb & _ & Lb & Sb & Rb); [lia|exact Hi|].
  exists (a ++ b). unfold write_regid. rewrite Wa, Wb.
  change ((32 + 6) / 7) with 5 in Sa. change ((16 + 6) / 7) with 3 in Sb.
  assert (1 <= N.of_nat (length a)) by (destruct a; [destruct Va|cbn [length]; lia]).
  assert (1 <= N.of_nat (length b)) by (destruct b; [destruct Vb|cbn [length]; lia]).
  unfold regid_size. rewrite <- La, <- Lb, app_length. conj; try lia.
  - apply Forall_app. split; apply varint_bytes; assumption.
  - intros rest. unfold read_regid. rewrite <- app_assoc, Ra, Rb. destruct r; reflexivity.
Qed.

Lemma regid_key_round_trip r rest : regid_ok r ->
  read_regid_key (write_regid_key r ++ rest) = Some (r, rest).
Proof.
  intros (Hh & Hi). unfold read_regid_key, write_regid_key.
  rewrite <- app_assoc, fixed_round_trip by (exact Hh || lia).
  rewrite fixed_round_trip by (exact Hi || lia). destruct r; reflexivity.
Qed.

Lemma regid_key_order a b x y : regid_ok a -> regid_ok b ->
  byte_order (write_regid_key a ++ x) (write_regid_key b ++ y) =
  then_by (fst a ?= fst b) (then_by (snd a ?= snd b) (byte_order x y)).
Proof.
  intros (Ha & Ha') (Hb & Hb'). unfold write_regid_key. rewrite <- !app_assoc.
  rewrite fixed_key_order by assumption. rewrite fixed_key_order by assumption. reflexivity.
Qed.

(** ** User ids *)

Lemma userid_round_trip u : userid_ok u ->
  exists s, write_userid u = Bytes s /\
            forall rest, read_userid (s ++ rest) = Some (u, rest).
Proof.
  assert (C : forall n rest, n < 253 -> read_compact (n :: rest) = Some (n, rest)).
  { intros n rest Hn. pose proof (compact_small n rest ltac:(lia)) as H.
    unfold write_compact in H. replace (n <? 253) with true in H by lia. exact H. }
  destruct u as [|r|k|p]; cbn [userid_ok write_userid].
  - intros _. exists [0]. split; [reflexivity|]. intros rest. unfold read_userid. cbn [app].
    rewrite C by lia. reflexivity.
  - intros Hr. destruct (regid_serial_round_trip r Hr) as (s & W & _ & _ & Sz & Rd).
    rewrite W. replace ((2 <=? regid_size r) && (regid_size r <=? 10)) with true by lia.
    eexists. split; [reflexivity|]. intros rest. unfold read_userid. cbn [app].
    rewrite C by lia. replace ((2 <=? regid_size r) && (regid_size r <=? 10)) with true by lia.
    rewrite Rd. reflexivity.
  - intros Hk. rewrite Hk. change (N.of_nat 20 =? 20) with true. cbv iota.
    eexists. split; [reflexivity|]. intros rest. unfold read_userid. cbn [app].
    rewrite C by lia. change ((2 <=? 20) && (20 <=? 10)) with false.
    change (20 =? 20) with true. cbv iota. rewrite <- Hk, take_bytes_app. reflexivity.
  - destruct p as [[|h t]|]; cbn [pubkey_ok]; try tauto. intros (Hh & Hl).
    cbn [pubkey_size].
    assert (L33 : pubkey_len h = 33) by (destruct Hh as [->| ->]; reflexivity).
    rewrite L33. change (33 + 1 =? 34) with true. cbv iota.
    eexists. split; [reflexivity|]. intros rest. unfold read_userid.
    rewrite <- app_assoc, compact_small by lia.
    change ((2 <=? 33) && (33 <=? 10)) with false. change (33 =? 20) with false.
    change (33 =? 33) with true. cbv iota.
    assert (Hlen : 33%nat = length (h :: t)) by (cbn; lia).
    rewrite Hlen, take_bytes_app. unfold pubkey_set. rewrite L33, <- Hlen. reflexivity.
Qed.

Lemma read_varint_lt w s n r : 7 <= w -> bytes s -> read_varint w s = Some (n, r) ->
  n < 2 ^ w /\ bytes r.
Proof.
  intros Hw Hs H. destruct (varint_accepted w s n r Hw Hs H) as (e & -> & _ & ->).
  split; [apply N.mod_lt; pose proof (pow2_pos w); lia|].
  apply Forall_app in Hs. tauto.
Qed.

Lemma userid_accepted s u r : bytes s -> read_userid s = Some (u, r) ->
  userid_ok u \/ u = IdPub PubInvalid.
Proof.
  intros Hs. unfold read_userid. destruct (read_compact s) as [[len s1]|] eqn:E; [|discriminate].
  destruct (compact_accepted _ _ _ Hs E) as (_ & Es).
  assert (Hs1 : bytes s1) by (rewrite Es in Hs; apply Forall_app in Hs; tauto).
  destruct ((2 <=? len) && (len <=? 10)).
  { unfold read_regid. destruct (read_varint 32 s1) as [[h s2]|] eqn:E1; [|discriminate].
    destruct (read_varint_lt 32 s1 h s2 ltac:(lia) Hs1 E1) as (Hh & Hs2).
    destruct (read_varint 16 s2) as [[i s3]|] eqn:E2; [|discriminate].
    destruct (read_varint_lt 16 s2 i s3 ltac:(lia) Hs2 E2) as (Hi & _).
    intros [= <- <-]. left. split; assumption. }
  destruct (len =? 20).
  { destruct (take_bytes 20 s1) as [[k s2]|] eqn:E1; [|discriminate]. intros [= <- <-].
    left. apply (take_bytes_some _ _ _ _ E1). }
  destruct (len =? 33).
  { destruct (take_bytes 33 s1) as [[b s2]|] eqn:E1; [|discriminate]. intros [= <- <-].
    destruct (take_bytes_some _ _ _ _ E1) as (_ & L). destruct b as [|h t]; [discriminate|].
    unfold pubkey_set, pubkey_len. rewrite L.
    destruct (N.eqb_spec h 2); [left; cbn; split; [auto|cbn in L; lia]|].
    destruct (N.eqb_spec h 3); [left; cbn; split; [auto|cbn in L; lia]|].
    right. reflexivity. }
  destruct (len =? 0); [|discriminate]. intros [= <- <-]. left. exact I.
Qed.

Lemma made_userid_ok r k b : regid_ok r -> length k = 20%nat ->
  userid_ok (make_reg r) /\ userid_ok (make_key k) /\ userid_ok (make_pub (pubkey_set b)).
Proof.
  intros Hr Hk. conj.
  - unfold make_reg. destruct (_ && _); [exact I|exact Hr].
  - unfold make_key. destruct (forallb _ _); [exact I|exact Hk].
  - destruct b as [|h t]; [exact I|]. unfold pubkey_set.
    destruct (negb (pubkey_len h =? 0) && (pubkey_len h =? N.of_nat (length (h :: t)))) eqn:E;
      [|exact I].
    unfold make_pub. cbn [pubkey_size]. destruct (pubkey_len h =? 0) eqn:E0; [exact I|].
    unfold pubkey_len in *. cbn [userid_ok pubkey_ok length] in *.
    destruct (N.eqb_spec h 2), (N.eqb_spec h 3); cbn [orb] in *; try discriminate;
      (split; [auto|lia]).
Qed.
