(** Proofs about the bytes of transactions. *)
From Coq Require Import String List Bool NArith ZArith Lia Sorting.Sorted.
From Coq Require Import ZifyBool ZifyNat ZifyN.
From Verif Require Import Prelude CodecModel CodecSpec CodecProofs WireModel WireSpec WireForm.
Import ListNotations.
Open Scope string_scope.
Open Scope list_scope.
Open Scope N_scope.
Ltac Zify.zify_post_hook ::= Z.div_mod_to_equations.

(** ** The order of keys *)

Section Lex.
  Context {A : Type}.
  Variable cmp : A -> A -> comparison.
  Hypothesis cmp_refl : forall a, cmp a a = Eq.
  Hypothesis cmp_eq : forall a b, cmp a b = Eq -> a = b.
  Hypothesis cmp_swap : forall a b, cmp b a = CompOpp (cmp a b).
  Hypothesis cmp_trans : forall a b c, cmp a b = Lt -> cmp b c = Lt -> cmp a c = Lt.

  Lemma lex_refl x : lex cmp x x = Eq.
  Proof. induction x as [|a x IH]; cbn; [reflexivity|]. now rewrite cmp_refl. Qed.
  Lemma lex_eq x : forall y, lex cmp x y = Eq -> x = y.
  Proof.
    induction x as [|a x IH]; intros [|b y]; cbn; try congruence.
    destruct (cmp a b) eqn:E; try discriminate. intros H. f_equal; auto.
  Qed.
  Lemma lex_swap x : forall y, lex cmp y x = CompOpp (lex cmp x y).
  Proof.
    induction x as [|a x IH]; intros [|b y]; cbn; try reflexivity.
    rewrite (cmp_swap a b). destruct (cmp a b); cbn; auto.
  Qed.
  Lemma lex_trans x : forall y z, lex cmp x y = Lt -> lex cmp y z = Lt -> lex cmp x z = Lt.
  Proof.
    induction x as [|a x IH]; intros [|b y] [|c z]; cbn; try congruence.
    destruct (cmp a b) eqn:E1; try discriminate.
    - apply cmp_eq in E1. subst b. destruct (cmp a c); try discriminate; eauto.
    - intros _. destruct (cmp b c) eqn:E2; try discriminate.
      + apply cmp_eq in E2. subst c. now rewrite E1.
      + now rewrite (cmp_trans _ _ _ E1 E2).
  Qed.
End Lex.

Lemma text_refl a : lex N.compare a a = Eq.
Proof. apply lex_refl, N.compare_refl. Qed.
Lemma text_eq a b : lex N.compare a b = Eq -> a = b.
Proof. apply lex_eq. intros x y. apply N.compare_eq. Qed.
Lemma text_swap a b : lex N.compare b a = CompOpp (lex N.compare a b).
Proof. apply lex_swap. intros x y. apply N.compare_antisym. Qed.
Lemma text_trans a b c :
  lex N.compare a b = Lt -> lex N.compare b c = Lt -> lex N.compare a c = Lt.
Proof.
  apply lex_trans; [intros x y; apply N.compare_eq|].
  intros x y z. rewrite !N.compare_lt_iff. apply N.lt_trans.
Qed.

Lemma key_swap a b : key_cmp b a = CompOpp (key_cmp a b).
Proof. apply lex_swap, text_swap. Qed.
Lemma key_trans a b c : key_cmp a b = Lt -> key_cmp b c = Lt -> key_cmp a c = Lt.
Proof. apply lex_trans; [exact text_eq|exact text_trans]. Qed.

(** ** Filling maps *)

Lemma insert_last e m : Forall (fun x => key_cmp x e = Lt) m ->
  map_insert e m = (m ++ [e], true).
Proof.
  induction 1 as [|x m Hx _ IH]; [reflexivity|]. cbn [map_insert app].
  rewrite (key_swap x e), Hx. cbn. now rewrite IH.
Qed.

Lemma fill_sorted strict l : forall m, in_key_order (m ++ l) -> fill_map strict m l = Some (m ++ l).
Proof.
  induction l as [|e l IH]; intros m H; cbn [fill_map].
  - now rewrite app_nil_r.
  - rewrite insert_last.
    + cbn [negb]. rewrite andb_false_r. replace (m ++ e :: l) with ((m ++ [e]) ++ l) in *
        by (rewrite <- app_assoc; reflexivity). now apply IH.
    + clear IH. induction m as [|x m IHm]; [constructor|]. cbn [app] in H.
      inversion H as [|? ? H1 H2]; subst. constructor; [|now apply IHm].
      rewrite Forall_forall in H2. apply H2, in_or_app. right. now left.
Qed.

Lemma insert_in e m x : In x (fst (map_insert e m)) -> x = e \/ In x m.
Proof.
  induction m as [|y m IH]; cbn [map_insert].
  - cbn. intuition congruence.
  - destruct (key_cmp e y).
    + cbn. tauto.
    + cbn. intuition congruence.
    + destruct (map_insert e m) as [m1 b]. cbn in *. intuition congruence.
Qed.

Lemma insert_length e m : (length (fst (map_insert e m)) <= S (length m))%nat.
Proof.
  induction m as [|y m IH]; cbn [map_insert]; [cbn; lia|].
  destruct (key_cmp e y); [cbn; lia|cbn; lia|].
  destruct (map_insert e m) as [m1 b]. cbn in *. lia.
Qed.

Lemma insert_sorted e m : in_key_order m -> in_key_order (fst (map_insert e m)).
Proof.
  induction 1 as [|x m Hm IH Hx]; cbn [map_insert].
  - constructor; constructor.
  - destruct (key_cmp e x) eqn:E.
    + cbn. constructor; assumption.
    + cbn. constructor; [constructor; assumption|]. constructor; [exact E|].
      eapply Forall_impl; [|exact Hx]. intros a Ha. eapply key_trans; eassumption.
    + pose proof (insert_in e m) as HI. destruct (map_insert e m) as [m1 b]. cbn in *.
      constructor; [exact IH|]. rewrite Forall_forall in *. intros y Hy.
      destruct (HI y Hy) as [->|Hy']; [|now apply Hx]. rewrite key_swap, E. reflexivity.
Qed.

Lemma fill_ok strict (P : val -> Prop) es : forall m r,
  fill_map strict m es = Some r -> Forall P m -> Forall P es -> in_key_order m ->
  Forall P r /\ in_key_order r /\ (length r <= length m + length es)%nat.
Proof.
  induction es as [|e es IH]; intros m r; cbn [fill_map].
  - intros [= <-] H1 _ H2. split; [exact H1|]. split; [exact H2|]. cbn; lia.
  - pose proof (insert_in e m) as HI. pose proof (insert_length e m) as HL.
    pose proof (insert_sorted e m) as HS. destruct (map_insert e m) as [m1 b]. cbn [fst] in *.
    destruct (strict && negb b); [discriminate|]. intros H H1 H2 H3.
    inversion H2 as [|? ? Pe Pes]; subst.
    destruct (IH m1 r H) as (Q1 & Q2 & Q3).
    + rewrite Forall_forall in *. intros x Hx. destruct (HI x Hx) as [->|?]; auto.
    + exact Pes.
    + auto.
    + split; [exact Q1|]. split; [exact Q2|]. cbn [length]. lia.
Qed.

(** ** Signed numbers *)

Lemma to_int_range n : n < 4294967296 -> (-2147483648 <= to_int n < 2147483648)%Z.
Proof. intros H. unfold to_int. destruct (N.ltb_spec n 2147483648); lia. Qed.

Lemma join_small a b : a < 33554432 ->
  N.lor (N.shiftl a 7) (N.land b 127) = a * 128 + b mod 128 /\ a * 128 + b mod 128 < 4294967296.
Proof.
  intros H. rewrite shiftl7, land127. split; [apply lor_seven|]; lia.
Qed.

Lemma fold_cont_ge c : forall a, a <= fold_left cont c a.
Proof.
  induction c as [|b c IH]; intros a; cbn [fold_left]; [lia|].
  specialize (IH (cont a b)). unfold cont in *. lia.
Qed.

Lemma read_int_cont c : forall a l rest, Forall (fun b => 128 <= b < 256) c -> l < 128 ->
  fold_left cont c a * 128 + l < 4294967296 ->
  read_int_from (Z.of_N a) (c ++ l :: rest) = Got (to_int (fold_left cont c a * 128 + l)) rest.
Proof.
  induction c as [|b c IH]; intros a l rest Hc Hl Hn; cbn [app fold_left] in *.
  - cbn [read_int_from]. assert (Ha : a < 33554432) by lia.
    replace (Z.of_N a <? 0)%Z with false by lia.
    replace (33554432 <=? Z.of_N a)%Z with false by lia.
    rewrite N2Z.id. destruct (join_small a l Ha) as (-> & _).
    rewrite testbit7 by lia. replace (128 <=? l) with false by lia.
    rewrite N.mod_small by lia. reflexivity.
  - inversion Hc as [|? ? Hb Hc']; subst. pose proof (fold_cont_ge c (cont a b)) as G.
    assert (Hcont : cont a b < 33554432) by lia.
    assert (Ha : a < 262144) by (unfold cont in Hcont; lia).
    cbn [read_int_from]. replace (Z.of_N a <? 0)%Z with false by lia.
    replace (33554432 <=? Z.of_N a)%Z with false by lia.
    rewrite N2Z.id. destruct (join_small a b ltac:(lia)) as (-> & _).
    rewrite testbit7 by lia. replace (128 <=? b) with true by lia.
    unfold to_int at 1 2. replace (a * 128 + b mod 128 <? 2147483648) with true by lia.
    replace (Z.of_N (a * 128 + b mod 128) =? 2147483647)%Z with false by lia.
    replace (Z.of_N (a * 128 + b mod 128) + 1)%Z with (Z.of_N (cont a b)) by (unfold cont; lia).
    apply IH; assumption.
Qed.

Lemma int_round_trip n : n < 4294967296 ->
  exists s, write_varint 32 n = Some s /\ forall rest, read_int (s ++ rest) = Got (to_int n) rest.
Proof.
  intros Hn. destruct (varint_round_trip 32 n ltac:(lia) Hn) as (s & Hs & _).
  exists s. split; [exact Hs|]. intros rest.
  destruct (write_varint_shape 32 n s Hs) as (c & l & -> & Hc & Hl & Hv).
  rewrite <- app_assoc. cbn [app]. unfold read_int. change 0%Z with (Z.of_N 0).
  rewrite read_int_cont by (assumption || (rewrite Hv; assumption)). now rewrite Hv.
Qed.

Lemma read_int_some s : forall n z r, bytes s -> read_int_from n s = Got z r ->
  (-2147483648 <= z < 2147483648)%Z /\ bytes r.
Proof.
  induction s as [|b s IH]; intros n z r Hs; cbn [read_int_from]; [discriminate|].
  destruct (Z.ltb_spec n 0); [discriminate|].
  destruct (Z.leb_spec 33554432 n); [discriminate|].
  destruct (join_small (Z.to_N n) b ltac:(lia)) as (-> & Hlt).
  inversion Hs as [|? ? Hb Hs']; subst.
  destruct (N.testbit b 7).
  - destruct (Z.eqb _ _); [discriminate|]. now apply IH.
  - intros H'. injection H' as <- <-. split; [now apply to_int_range|exact Hs'].
Qed.

(** ** Values *)

Lemma keys_valid_list l : keys_valid (VList l) <-> Forall keys_valid l.
Proof.
  cbn [keys_valid]. induction l as [|x l IH]; cbn [fold_right].
  - split; constructor.
  - rewrite IH. split; [intros (? & ?); now constructor|intros H; inversion H; auto].
Qed.
Lemma nonneg_list l : nonneg (VList l) <-> Forall nonneg l.
Proof.
  cbn [nonneg]. induction l as [|x l IH]; cbn [fold_right].
  - split; constructor.
  - rewrite IH. split; [intros (? & ?); now constructor|intros H; inversion H; auto].
Qed.

Lemma write_all_total {A} (one : A -> option (list N)) l :
  Forall (fun a => exists s, one a = Some s) l -> exists s, write_all one l = Some s.
Proof.
  induction 1 as [|a l (s & Hs) _ (t & Ht)]; cbn [write_all]; [eauto|].
  rewrite Hs, Ht. cbn. eauto.
Qed.

Lemma read_many_written {A} (one : A -> option (list N)) (rd : list N -> reading A) l :
  Forall (fun a => exists s, one a = Some s /\ forall rest, rd (s ++ rest) = Got a rest) l ->
  exists s, write_all one l = Some s /\
            forall rest, read_many rd (length l) (s ++ rest) = Got l rest.
Proof.
  induction 1 as [|a l (s & Hs & Rs) _ (t & Ht & Rt)]; cbn [write_all].
  - exists []. split; reflexivity.
  - rewrite Hs, Ht. cbn [bind_opt]. exists (s ++ t). split; [reflexivity|]. intros rest.
    cbn [length read_many]. rewrite <- app_assoc, Rs. cbn [got_bind]. rewrite Rt. reflexivity.
Qed.

Lemma uid_value_keys u : uid_value u -> keys_valid (VUid u) -> userid_ok u.
Proof. destruct u as [| | |[b|]]; cbn; tauto. Qed.

Lemma write_regid_total r : regid_ok r -> exists s, write_regid r = Some s.
Proof. intros H. destruct (regid_serial_round_trip r H) as (s & W & _). eauto. Qed.

(** Everything that has no invalid key can be written. *)
Lemma enc_total f : forall v, fits f v -> keys_valid v -> exists s, enc f v = Some s.
Proof.
  induction f as [|w| | |k| |b|k| | | | | |a IHa b IHb|a IHa|st tw a IHa|body IHb|];
    intros v Hf Hk; inversion Hf; subst; cbn [enc]; try (eexists; reflexivity).
  - eapply write_varint_total; [lia|assumption].
  - unfold write_int. destruct (Z.ltb_spec z 0); [eauto|].
    apply (write_varint_total 32); [lia|]. change (2 ^ 32) with 4294967296. lia.
  - apply (write_varint_total 32); [lia|assumption].
  - destruct (userid_round_trip u) as (s & -> & _); [now apply uid_value_keys|eauto].
  - now apply write_regid_total.
  - destruct Hk as (Hx & Hy). destruct (IHa x) as (s & ->); [assumption..|].
    destruct (IHb y) as (t & ->); [assumption..|]. cbn. eauto.
  - apply keys_valid_list in Hk. destruct (write_all_total (enc a) l) as (s & ->);
      [|cbn; eauto].
    rewrite Forall_forall in *. intros x Hx. apply IHa; auto.
  - apply keys_valid_list in Hk.
    match goal with |- context [write_all ?o _] => destruct (write_all_total o l) as (s & ->) end;
      [|cbn; eauto].
    rewrite Forall_forall in *. intros x Hx. specialize (H4 x Hx). specialize (Hk x Hx).
    destruct tw; inversion H4; subst.
    + match goal with Q : fits (FPair FText FText) _ |- _ => inversion Q; subst end.
      repeat match goal with Q : fits FText _ |- _ => inversion Q; subst; clear Q end.
      destruct Hk as (_ & Hk). destruct (IHa y) as (t & ->); [assumption|assumption|].
      cbn. eauto.
    + match goal with Q : fits FText _ |- _ => inversion Q; subst end.
      destruct Hk as (_ & Hk). destruct (IHa y) as (t & ->); [assumption|assumption|].
      cbn. eauto.
  - cbn [keys_valid] in Hk. destruct (IHb t v0) as (s & ->); [assumption..|]. cbn. eauto.
Qed.

Lemma lua_small c m : N.of_nat (length c) <= 4000000 -> N.of_nat (length m) <= 4000000 ->
  lua_size c m <= 33554432.
Proof.
  intros H1 H2. unfold lua_size, sized, size_of_compact, two32.
  repeat match goal with |- context [if ?x then _ else _] => destruct x end; lia.
Qed.

(** Reading what was written gives the value, and leaves what followed it. *)
Lemma enc_dec f : forall v, fits f v -> keys_valid v -> nonneg v ->
  exists s, enc f v = Some s /\ forall rest, dec f (s ++ rest) = Got v rest.
Proof.
  induction f as [|w| | |k| |b|k| | | | | |a IHa b IHb|a IHa|st tw a IHa|body IHb|];
    intros v Hf Hk Hn; inversion Hf; subst; cbn [enc dec].
  - exists []. split; reflexivity.
  - destruct (varint_round_trip w n) as (s & W & _ & _ & _ & _ & R); [assumption|assumption|].
    exists s. split; [exact W|]. intros rest. now rewrite R.
  - cbn [nonneg] in Hn. unfold write_int. replace (z <? 0)%Z with false by lia.
    destruct (int_round_trip (Z.to_N z)) as (s & W & R); [lia|].
    exists s. split; [exact W|]. intros rest. rewrite R. cbn. unfold to_int.
    replace (Z.to_N z <? 2147483648) with true by lia. repeat f_equal. lia.
  - destruct (int_round_trip n) as (s & W & R); [assumption|].
    exists s. split; [exact W|]. intros rest. rewrite R. cbn. unfold to_int.
    destruct (N.ltb_spec n 2147483648); repeat f_equal; lia.
  - eexists. split; [reflexivity|]. intros rest. rewrite read_le_bytes by assumption. reflexivity.
  - eexists. split; [reflexivity|]. intros rest. cbn.
    assert (n = 0 \/ n = 1) as [-> | ->] by lia; reflexivity.
  - eexists. split; [reflexivity|]. intros rest. reflexivity.
  - eexists. split; [reflexivity|]. intros rest. rewrite take_bytes_app. reflexivity.
  - eexists. split; [reflexivity|]. intros rest. rewrite bytes_round_trip by assumption. reflexivity.
  - eexists. split; [reflexivity|]. intros rest. rewrite string_round_trip by assumption. reflexivity.
  - destruct (userid_round_trip u) as (s & -> & R); [now apply uid_value_keys|].
    exists s. split; [reflexivity|]. intros rest. now rewrite R.
  - destruct (regid_serial_round_trip r) as (s & W & _ & _ & _ & R); [assumption|].
    exists s. split; [exact W|]. intros rest. now rewrite R.
  - repeat match goal with Q : fits FText _ |- _ => inversion Q; subst; clear Q end.
    eexists. split; [reflexivity|]. intros rest. rewrite <- !app_assoc.
    rewrite compact_small by (apply lua_small; assumption). cbn [of_option got_bind].
    rewrite string_round_trip by assumption. cbn [of_option got_bind].
    rewrite string_round_trip by assumption. cbn [of_option got_bind].
    rewrite N.eqb_refl. reflexivity.
  - destruct Hk as (Hk1 & Hk2), Hn as (Hn1 & Hn2).
    destruct (IHa x) as (s & -> & R1); [assumption..|].
    destruct (IHb y) as (t & -> & R2); [assumption..|]. cbn [bind_opt].
    eexists. split; [reflexivity|]. intros rest. rewrite <- app_assoc, R1. cbn [got_bind].
    now rewrite R2.
  - apply keys_valid_list in Hk. apply nonneg_list in Hn.
    destruct (read_many_written (enc a) (dec a) l) as (s & -> & R).
    { rewrite Forall_forall in *. intros x Hx. apply IHa; auto. }
    cbn [bind_opt]. eexists. split; [reflexivity|]. intros rest. rewrite <- app_assoc.
    rewrite compact_small by assumption. cbn [of_option got_bind]. rewrite Nat2N.id, R.
    reflexivity.
  - apply keys_valid_list in Hk. apply nonneg_list in Hn.
    match goal with |- exists s, bind_opt (write_all ?o _) _ = _ /\
                      forall rest, got_bind _ (fun n r => got_bind (read_many ?d _ _) _) = _ =>
      destruct (read_many_written o d l) as (s & -> & R) end.
    { rewrite Forall_forall in *. intros x Hx. specialize (H4 x Hx). specialize (Hk x Hx).
      specialize (Hn x Hx). destruct tw; inversion H4; subst.
      - match goal with Q : fits (FPair FText FText) _ |- _ => inversion Q; subst end.
        repeat match goal with Q : fits FText _ |- _ => inversion Q; subst; clear Q end.
        destruct Hk as (_ & Hk), Hn as (_ & Hn). destruct (IHa y) as (t & -> & R); [assumption..|].
        cbn [bind_opt]. eexists. split; [reflexivity|]. intros rest. rewrite <- !app_assoc.
        rewrite string_round_trip by assumption. cbn [of_option got_bind].
        rewrite string_round_trip by assumption. cbn [of_option got_bind]. now rewrite R.
      - match goal with Q : fits FText _ |- _ => inversion Q; subst end.
        destruct Hk as (_ & Hk), Hn as (_ & Hn). destruct (IHa y) as (t & -> & R); [assumption..|].
        cbn [bind_opt]. eexists. split; [reflexivity|]. intros rest. rewrite <- !app_assoc.
        rewrite string_round_trip by assumption. cbn [of_option got_bind]. now rewrite R. }
    cbn [bind_opt]. eexists. split; [reflexivity|]. intros rest. rewrite <- app_assoc.
    rewrite compact_small by assumption. cbn [of_option got_bind]. rewrite Nat2N.id, R.
    cbn [got_bind]. rewrite (fill_sorted st l []) by assumption. reflexivity.
  - cbn [keys_valid nonneg] in *. destruct (IHb t v0) as (s & -> & R); [assumption..|].
    cbn [bind_opt]. eexists. split; [reflexivity|]. intros rest. cbn [app read_le].
    cbn. now rewrite N.add_0_r, R.
Qed.

(** ** Received values *)

(** Formats whose numbers have at least seven bits. *)
Fixpoint wf (f : fmt) : Prop :=
  match f with
  | FNum w => 7 <= w
  | FSkip b => b < 256
  | FPair a b => wf a /\ wf b
  | FList a => wf a
  | FMap _ _ a => wf a
  | FTag body => forall t, wf (body t)
  | _ => True
  end.

Lemma bytes_app_r a b : bytes (a ++ b) -> bytes b.
Proof. intros H. apply Forall_app in H. tauto. Qed.
Lemma bytes_app_l a b : bytes (a ++ b) -> bytes a.
Proof. intros H. apply Forall_app in H. tauto. Qed.

Lemma take_bytes_fits k s b r : bytes s -> take_bytes k s = Some (b, r) ->
  length b = k /\ bytes b /\ bytes r.
Proof.
  intros Hs H. destruct (take_bytes_some _ _ _ _ H) as (-> & Hl). split; [exact Hl|].
  split; [eapply bytes_app_l; eassumption|eapply bytes_app_r; eassumption].
Qed.

Lemma read_compact_fits s n r : bytes s -> read_compact s = Some (n, r) ->
  n <= 33554432 /\ bytes r.
Proof.
  intros Hs H. destruct (compact_accepted _ _ _ Hs H) as (Hn & ->). split; [exact Hn|].
  eapply bytes_app_r; eassumption.
Qed.

Lemma read_string_fits s b r : bytes s -> read_string s = Some (b, r) ->
  N.of_nat (length b) <= 4000000 /\ bytes b /\ bytes r.
Proof.
  intros Hs. unfold read_string. destruct (read_compact s) as [[n s1]|] eqn:E; [|discriminate].
  destruct (read_compact_fits _ _ _ Hs E) as (_ & H1). unfold max_serialize_size.
  destruct (N.ltb_spec 4000000 n); [discriminate|]. intros H2.
  destruct (take_bytes_fits _ _ _ _ H1 H2) as (L & B1 & B2). split; [lia|auto].
Qed.

Lemma read_bytes_fits s b r : bytes s -> read_bytes s = Some (b, r) ->
  N.of_nat (length b) <= 33554432 /\ bytes b /\ bytes r.
Proof.
  intros Hs. unfold read_bytes. destruct (read_compact s) as [[n s1]|] eqn:E; [|discriminate].
  destruct (read_compact_fits _ _ _ Hs E) as (? & H1). intros H2.
  destruct (take_bytes_fits _ _ _ _ H1 H2) as (L & B1 & B2). split; [lia|auto].
Qed.

Lemma read_regid_fits s u r : bytes s -> read_regid s = Some (u, r) -> regid_ok u /\ bytes r.
Proof.
  intros Hs. unfold read_regid. destruct (read_varint 32 s) as [[h s1]|] eqn:E1; [|discriminate].
  destruct (read_varint_lt 32 s h s1 ltac:(lia) Hs E1) as (Hh & Hs1).
  destruct (read_varint 16 s1) as [[i s2]|] eqn:E2; [|discriminate].
  destruct (read_varint_lt 16 s1 i s2 ltac:(lia) Hs1 E2) as (Hi & Hs2).
  intros [= <- <-]. split; [split; assumption|assumption].
Qed.

Lemma read_userid_rest s u r : bytes s -> read_userid s = Some (u, r) -> bytes r.
Proof.
  intros Hs. unfold read_userid. destruct (read_compact s) as [[len s1]|] eqn:E; [|discriminate].
  destruct (read_compact_fits _ _ _ Hs E) as (_ & H1).
  destruct (_ && _).
  { destruct (read_regid s1) as [[x s2]|] eqn:E1; [|discriminate]. intros [= _ <-].
    now apply (read_regid_fits s1 x s2). }
  destruct (len =? 20).
  { destruct (take_bytes 20 s1) as [[x s2]|] eqn:E1; [|discriminate]. intros [= _ <-].
    now apply (take_bytes_fits 20 s1 x s2). }
  destruct (len =? 33).
  { destruct (take_bytes 33 s1) as [[x s2]|] eqn:E1; [|discriminate]. intros [= _ <-].
    now apply (take_bytes_fits 33 s1 x s2). }
  destruct (len =? 0); [|discriminate]. intros [= _ <-]. exact H1.
Qed.

Lemma read_many_fits {A} (rd : list N -> reading A) (P : A -> Prop) :
  (forall s a r, bytes s -> rd s = Got a r -> P a /\ bytes r) ->
  forall k s l r, bytes s -> read_many rd k s = Got l r ->
    Forall P l /\ length l = k /\ bytes r.
Proof.
  intros Hrd. induction k as [|k IH]; intros s l r Hs; cbn [read_many].
  - intros [= <- <-]. split; [constructor|auto].
  - destruct (rd s) as [a s1| |] eqn:E1; cbn [got_bind]; try discriminate.
    destruct (Hrd _ _ _ Hs E1) as (Pa & B1).
    destruct (read_many rd k s1) as [l' s2| |] eqn:E2; cbn [got_bind]; try discriminate.
    intros [= <- <-]. destruct (IH _ _ _ B1 E2) as (F & L & B2).
    split; [now constructor|]. cbn [length]. auto.
Qed.

Ltac got_step E :=
  match goal with
  | |- got_bind ?x _ = Got _ _ -> _ =>
      destruct x as [? ?| |] eqn:E; cbn [got_bind]; try discriminate
  end.
Ltac opt_step E :=
  match goal with
  | |- got_bind (of_option ?x) _ = Got _ _ -> _ =>
      destruct x as [[? ?]|] eqn:E; cbn [got_bind of_option]; try discriminate
  end.

Lemma dec_fits f : wf f -> forall s v r, bytes s -> dec f s = Got v r -> fits f v /\ bytes r.
Proof.
  induction f as [|w| | |k| |b|k| | | | | |a IHa b IHb|a IHa|st tw a IHa|body IHb|];
    intros Hw s v r Hs; cbn [dec wf] in *.
  - intros [= <- <-]. split; [constructor|exact Hs].
  - opt_step E. intros [= <- <-]. destruct (read_varint_lt _ _ _ _ Hw Hs E).
    split; [now constructor|assumption].
  - got_step E. intros [= <- <-]. destruct (read_int_some _ _ _ _ Hs E).
    split; [now constructor|assumption].
  - got_step E. intros [= <- <-]. destruct (read_int_some _ _ _ _ Hs E).
    split; [|assumption]. constructor. lia.
  - opt_step E. intros [= <- <-]. destruct (read_le_some _ _ _ _ Hs E) as (Hn & ->).
    split; [now constructor|]. eapply bytes_app_r; eassumption.
  - opt_step E. intros [= <- <-]. destruct (read_le_some _ _ _ _ Hs E) as (Hn & ->).
    split; [|eapply bytes_app_r; eassumption]. destruct (_ =? 0); constructor; lia.
  - opt_step E. intros [= <- <-]. destruct (read_le_some _ _ _ _ Hs E) as (Hn & ->).
    split; [|eapply bytes_app_r; eassumption]. now constructor.
  - opt_step E. intros [= <- <-]. destruct (take_bytes_fits _ _ _ _ Hs E) as (? & ? & ?).
    split; [now constructor|assumption].
  - opt_step E. intros [= <- <-]. destruct (read_bytes_fits _ _ _ Hs E) as (? & ? & ?).
    split; [now constructor|assumption].
  - opt_step E. intros [= <- <-]. destruct (read_string_fits _ _ _ Hs E) as (? & ? & ?).
    split; [now constructor|assumption].
  - opt_step E. intros [= <- <-]. split; [|eapply read_userid_rest; eassumption].
    constructor. destruct (userid_accepted _ _ _ Hs E) as [H| ->]; [|exact I].
    destruct u as [| | |[?|]]; try exact H; exact I.
  - opt_step E. intros [= <- <-]. destruct (read_regid_fits _ _ _ Hs E).
    split; [now constructor|assumption].
  - opt_step E1. destruct (read_compact_fits _ _ _ Hs E1) as (_ & B1).
    opt_step E2. destruct (read_string_fits _ _ _ B1 E2) as (? & ? & B2).
    opt_step E3. destruct (read_string_fits _ _ _ B2 E3) as (? & ? & B3).
    destruct (_ =? _); [|discriminate]. intros [= <- <-]. split; [|exact B3].
    constructor; constructor; assumption.
  - destruct Hw as (Hw1 & Hw2). got_step E1. destruct (IHa Hw1 _ _ _ Hs E1) as (? & B1).
    got_step E2. destruct (IHb Hw2 _ _ _ B1 E2) as (? & B2). intros [= <- <-].
    split; [now constructor|exact B2].
  - opt_step E1. destruct (read_compact_fits _ _ _ Hs E1) as (? & B1).
    got_step E2. destruct (read_many_fits _ (fits a) (IHa Hw) _ _ _ _ B1 E2) as (? & ? & ?).
    intros [= <- <-]. split; [|assumption]. constructor; [lia|assumption].
  - opt_step E1. destruct (read_compact_fits _ _ _ Hs E1) as (? & B1). got_step E2.
    match type of E2 with read_many ?d _ _ = _ =>
      destruct (read_many_fits d (fits (FPair (if tw then FPair FText FText else FText) a)))
        with (k := N.to_nat n) (s := l) (l := a0) (r := rest) as (F & L & B2);
        [|exact B1|exact E2|]
    end.
    { clear - IHa Hw. intros s v r Hs. destruct tw.
      - opt_step E1. destruct (read_string_fits _ _ _ Hs E1) as (? & ? & B1).
        opt_step E2. destruct (read_string_fits _ _ _ B1 E2) as (? & ? & B2).
        got_step E3. destruct (IHa Hw _ _ _ B2 E3) as (? & B3). intros [= <- <-].
        split; [|exact B3]. repeat constructor; assumption.
      - opt_step E1. destruct (read_string_fits _ _ _ Hs E1) as (? & ? & B1).
        got_step E2. destruct (IHa Hw _ _ _ B1 E2) as (? & B2). intros [= <- <-].
        split; [|exact B2]. repeat constructor; assumption. }
    destruct (fill_map st [] _) as [m|] eqn:Em; [|discriminate]. intros [= <- <-].
    destruct (fill_ok _ _ _ _ _ Em (Forall_nil _) F (SSorted_nil _)) as (F' & S' & L').
    split; [|exact B2]. constructor; [cbn in L'; lia|exact F'|exact S'].
  - opt_step E1. destruct (read_le_some _ _ _ _ Hs E1) as (Hn & Es).
    got_step E2. edestruct (IHb n (Hw n)) as (? & B2); [|exact E2|].
    { rewrite Es in Hs. eapply bytes_app_r; eassumption. }
    intros [= <- <-]. split; [|exact B2]. constructor; [|assumption].
    change (256 ^ N.of_nat 1) with 256 in Hn. exact Hn.
  - discriminate.
Qed.

(** ** Layouts *)

(** A layout that can be read from the front: formats depend on fields that are known, and every
    field occurs once. *)
Fixpoint readable (known : list string) (l : list item) : Prop :=
  match l with
  | [] => True
  | i :: l' =>
      In (i_on i) known /\ ~ In (i_name i) known /\ i_view i = Whole /\
      (forall v, wf (i_fmt i v)) /\ readable (i_name i :: known) l'
  end.
(** The same for the layouts that are hashed. *)
Fixpoint distinct (known : list string) (l : list item) : Prop :=
  match l with
  | [] => True
  | i :: l' =>
      In (i_on i) known /\
      distinct (match i_view i with Whole => i_name i :: known | Firsts => known end) l'
  end.

Definition entry_ok (g : string -> val) (i : item) : Prop :=
  fits (i_fmt i (g (i_on i))) (seen (i_view i) (g (i_name i))).
Definition entry_keys (g : string -> val) (i : item) : Prop := keys_valid (g (i_name i)).
Definition entry_nonneg (g : string -> val) (i : item) : Prop := nonneg (g (i_name i)).

Lemma keys_valid_seen w v : keys_valid v -> keys_valid (seen w v).
Proof.
  destruct w; [exact (fun H => H)|]. destruct v; try exact (fun H => H). cbn [seen].
  rewrite !keys_valid_list, Forall_map. apply Forall_impl. intros []; cbn; tauto.
Qed.
Lemma nonneg_seen w v : nonneg v -> nonneg (seen w v).
Proof.
  destruct w; [exact (fun H => H)|]. destruct v; try exact (fun H => H). cbn [seen].
  rewrite !nonneg_list, Forall_map. apply Forall_impl. intros []; cbn; tauto.
Qed.

Lemma items_total g l : Forall (entry_ok g) l -> Forall (entry_keys g) l ->
  exists s, write_items g l = Some s.
Proof.
  induction l as [|i l IH]; intros H1 H2; cbn [write_items]; [eauto|].
  inversion H1 as [|? ? A1 B1]; inversion H2 as [|? ? A2 B2]; subst.
  destruct (enc_total _ _ A1) as (s & ->); [apply keys_valid_seen, A2|].
  destruct (IH B1 B2) as (t & ->). cbn. eauto.
Qed.

Lemma items_round_trip g l : Forall (entry_ok g) l -> Forall (entry_keys g) l ->
  Forall (entry_nonneg g) l -> forall known g0, readable known l ->
  (forall n, In n known -> g0 n = g n) ->
  exists s, write_items g l = Some s /\ forall rest, exists g1,
    read_items g0 l (s ++ rest) = Got g1 rest /\
    forall n, In n known \/ In n (map i_name l) -> g1 n = g n.
Proof.
  induction l as [|i l IH]; intros H1 H2 H3 known g0 Hr Hg; cbn [write_items read_items].
  - exists []. split; [reflexivity|]. intros rest. exists g0. split; [reflexivity|].
    intros n [Hn|[]]. auto.
  - inversion H1 as [|? ? A1 B1]; inversion H2 as [|? ? A2 B2]; inversion H3 as [|? ? A3 B3]; subst.
    cbn [readable] in Hr. destruct Hr as (R1 & _ & R2 & _ & R3). unfold entry_ok in A1.
    rewrite R2 in *. cbn [seen] in *.
    destruct (enc_dec _ _ A1 A2 A3) as (s & -> & Rs). cbn [bind_opt].
    destruct (IH B1 B2 B3 (i_name i :: known) (set g0 (i_name i) (g (i_name i))) R3)
      as (t & -> & Rt).
    { intros n Hn. unfold set. destruct (String.eqb_spec n (i_name i)) as [->|Hne]; [reflexivity|].
      destruct Hn as [E|Hn]; [congruence|auto]. }
    cbn [bind_opt]. eexists. split; [reflexivity|]. intros rest.
    destruct (Rt rest) as (g1 & E1 & E2). exists g1.
    rewrite <- app_assoc, (Hg _ R1), Rs. cbn [got_bind]. split; [exact E1|].
    intros n Hn. apply E2. cbn [map In] in *. tauto.
Qed.

Lemma items_inj g1 g2 l : Forall (entry_ok g1) l -> Forall (entry_ok g2) l ->
  Forall (entry_keys g1) l -> Forall (entry_keys g2) l ->
  Forall (entry_nonneg g1) l -> Forall (entry_nonneg g2) l ->
  forall known, distinct known l -> (forall n, In n known -> g1 n = g2 n) ->
  forall s1 s2 r1 r2, write_items g1 l = Some s1 -> write_items g2 l = Some s2 ->
  s1 ++ r1 = s2 ++ r2 ->
  r1 = r2 /\ forall i, In i l -> seen (i_view i) (g1 (i_name i)) = seen (i_view i) (g2 (i_name i)).
Proof.
  induction l as [|i l IH]; intros H1 H1' H2 H2' H3 H3' known Hd Hg s1 s2 r1 r2;
    cbn [write_items].
  - intros [= <-] [= <-] E. split; [exact E|]. intros i [].
  - inversion H1 as [|? ? A1 B1]; inversion H2 as [|? ? A2 B2]; inversion H3 as [|? ? A3 B3];
      inversion H1' as [|? ? A1' B1']; inversion H2' as [|? ? A2' B2'];
      inversion H3' as [|? ? A3' B3']; subst.
    cbn [distinct] in Hd. destruct Hd as (D1 & D2).
    unfold entry_ok in A1, A1'. rewrite (Hg _ D1) in *.
    destruct (enc_dec _ _ A1) as (a1 & -> & R1);
      [apply keys_valid_seen, A2|apply nonneg_seen, A3|].
    destruct (enc_dec _ _ A1') as (a2 & -> & R2);
      [apply keys_valid_seen, A2'|apply nonneg_seen, A3'|].
    cbn [bind_opt].
    destruct (write_items g1 l) as [b1|] eqn:W1; [|discriminate].
    destruct (write_items g2 l) as [b2|] eqn:W2; [|discriminate].
    cbn [bind_opt]. intros [= <-] [= <-] E. rewrite <- !app_assoc in E.
    specialize (R1 (b1 ++ r1)). rewrite E, R2 in R1. injection R1 as Ev Er.
    destruct (IH B1 B1' B2 B2' B3 B3' _ D2) with (s1 := b1) (s2 := b2) (r1 := r1) (r2 := r2)
      as (Q1 & Q2); [|reflexivity|reflexivity|congruence|].
    { intros n Hn. destruct (i_view i) eqn:Vi; [|auto]. cbn [seen] in Ev.
      destruct Hn as [<-|Hn]; [congruence|auto]. }
    split; [exact Q1|]. intros j [<-|Hj]; [congruence|auto].
Qed.

Lemma items_same g1 g2 l : forall known, distinct known l -> (forall n, In n known -> g1 n = g2 n) ->
  (forall i, In i l -> seen (i_view i) (g1 (i_name i)) = seen (i_view i) (g2 (i_name i))) ->
  write_items g1 l = write_items g2 l.
Proof.
  induction l as [|i l IH]; intros known Hd Hg H; [reflexivity|]. cbn [write_items].
  cbn [distinct] in Hd. destruct Hd as (D1 & D2). pose proof (H i (or_introl eq_refl)) as Ei.
  rewrite (Hg _ D1), Ei. erewrite IH; [reflexivity|exact D2| |].
  - intros n Hn. destruct (i_view i) eqn:Vi; [|auto]. cbn [seen] in Ei.
    destruct Hn as [<-|Hn]; auto.
  - intros j Hj. apply H. now right.
Qed.

Lemma items_fits l : forall known g0 s g r, readable known l -> bytes s ->
  read_items g0 l s = Got g r ->
  (forall n, In n known -> g n = g0 n) /\ Forall (entry_ok g) l /\ bytes r.
Proof.
  induction l as [|i l IH]; intros known g0 s g r Hr Hs; cbn [read_items].
  - intros [= <- <-]. split; [reflexivity|]. split; [constructor|exact Hs].
  - cbn [readable] in Hr. destruct Hr as (R1 & R2 & R3 & R4 & R5).
    destruct (dec (i_fmt i (g0 (i_on i))) s) as [v s1| |] eqn:E; cbn [got_bind]; try discriminate.
    destruct (dec_fits _ (R4 _) _ _ _ Hs E) as (Fv & B1). intros H.
    destruct (IH _ _ _ _ _ R5 B1 H) as (Q1 & Q2 & Q3).
    assert (K : forall n, In n known -> g n = g0 n).
    { intros n Hn. rewrite (Q1 n (or_intror Hn)). unfold set.
      destruct (String.eqb_spec n (i_name i)) as [->|]; [contradiction|reflexivity]. }
    split; [exact K|]. split; [|exact Q3]. constructor; [|exact Q2].
    unfold entry_ok. rewrite R3, (K _ R1). cbn [seen].
    rewrite (Q1 (i_name i)) by now left. unfold set. rewrite String.eqb_refl. exact Fv.
Qed.

(** ** The layouts of the types *)

Section Types.
  Variable r3 : Z -> bool.

  Definition types : list N :=
    [1; 2; 3; 4; 5; 6; 8; 9; 10; 11; 12; 13; 14; 15; 16; 17; 18; 19; 21; 22; 23; 24; 50; 70; 71;
     84; 85; 86; 87; 88; 89; 90; 91; 92; 93; 100].

  Lemma wire_types t l : wire r3 t = Some l -> In t types.
  Proof.
    intros H. destruct t as [|p]; [discriminate|].
    do 7 (try destruct p as [p|p|]; try discriminate H; try (clear H; cbn; tauto)).
  Qed.
  Lemma hashed_types t l : hashed r3 t = Some l -> In t types.
  Proof.
    intros H. destruct t as [|p]; [discriminate|].
    do 7 (try destruct p as [p|p|]; try discriminate H; try (clear H; cbn; tauto)).
  Qed.

  Lemma f_prices_wf v : wf (f_prices r3 v).
  Proof. destruct v; cbn; try exact I. destruct (r3 z); cbn; [lia|exact I]. Qed.

  Definition memb (n : string) (l : list string) : bool := existsb (String.eqb n) l.
  Lemma memb_in n l : memb n l = true <-> In n l.
  Proof.
    unfold memb. rewrite existsb_exists. split.
    - intros (x & Hx & E). apply String.eqb_eq in E. now subst.
    - intros H. exists n. split; [exact H|apply String.eqb_refl].
  Qed.

  (** The part of [readable] that is about names, as a computation. *)
  Fixpoint names_ok (known : list string) (l : list item) : bool :=
    match l with
    | [] => true
    | i :: l' =>
        memb (i_on i) known && negb (memb (i_name i) known) &&
        match i_view i with Whole => true | Firsts => false end &&
        names_ok (i_name i :: known) l'
    end.
  Lemma names_readable l : forall known, names_ok known l = true ->
    Forall (fun i => forall v, wf (i_fmt i v)) l -> readable known l.
  Proof.
    induction l as [|i l IH]; intros known H HF; cbn [names_ok readable] in *; [exact I|].
    inversion HF as [|? ? W1 W2]; subst. rewrite !andb_true_iff, negb_true_iff in H.
    destruct H as (((H1 & H2) & H3) & H4). rewrite memb_in in H1.
    split; [exact H1|]. split; [intros Q; apply memb_in in Q; congruence|].
    split; [destruct (i_view i); [reflexivity|discriminate]|]. split; [assumption|auto].
  Qed.

  Lemma wire_readable t l : wire r3 t = Some l -> readable ["nVersion"] l.
  Proof.
    intros H. apply names_readable.
    - pose proof (wire_types t l H) as H'. cbn [types In] in H'.
      repeat (destruct H' as [<-|H']; [cbn [wire] in H; injection H as <-; vm_compute; reflexivity|]);
        destruct H'.
    - pose proof (wire_types t l H) as H'. cbn [types In] in H'.
      repeat (destruct H' as [<-|H']; [cbn [wire] in H; injection H as <-|]); try destruct H'.
      all: cbn [app base order_data operator_data]; repeat (apply Forall_cons); try apply Forall_nil.
      all: cbn [i_fmt fld height uid fee_symbol fees sign prices];
        try exact f_prices_wf; intros _.
      all: cbn; repeat match goal with
         | |- _ /\ _ => split
         | |- True => exact I
         | |- forall t : N, _ => intro
         | |- context [if ?b then _ else _] => destruct b; cbn
         | |- _ <= _ => lia
         | |- _ < _ => lia
         end.
  Qed.
  (** What is hashed is what is carried, with three exceptions. *)
  Definition short_index : item := fld "utxo_vout_index" (FRaw 2).
  Definition signer_accounts : item :=
    {| i_name := "signatures"; i_view := Firsts; i_on := "nVersion"; i_fmt := fun _ => FList u64v |}.

  Lemma hashed_sent t l : wire r3 t = Some l -> exists h, hashed r3 t = Some h /\
    forall i, In i h -> In i l \/
      (t = 19 /\ i = short_index /\ In (fld "utxo_vout_index" (FNum 16)) l) \/
      (t = 100 /\ i = signer_accounts /\ In (fld "signatures" (FList f_signer)) l).
  Proof.
    intros H. pose proof (wire_types t l H) as H'. cbn [types In] in H'.
    repeat (destruct H' as [<-|H']; [cbn [wire] in H; injection H as <-;
      eexists; (split; [reflexivity|]); intros i Hi;
      cbn [app base order_data operator_data In] in Hi |- *;
      repeat (destruct Hi as [<-|Hi]; [tauto|]); destruct Hi|]).
    destruct H'.
  Qed.

  Definition whole (i : item) : bool := match i_view i with Whole => true | Firsts => false end.
  Lemma whole_spec i : whole i = true <-> i_view i = Whole.
  Proof. unfold whole. destruct (i_view i); split; congruence. Qed.

  Fixpoint distinct_ok (known : list string) (l : list item) : bool :=
    match l with
    | [] => true
    | i :: l' =>
        memb (i_on i) known &&
        distinct_ok (match i_view i with Whole => i_name i :: known | Firsts => known end) l'
    end.
  Lemma distinct_spec l : forall known, distinct_ok known l = true -> distinct known l.
  Proof.
    induction l as [|i l IH]; intros known; cbn [distinct_ok distinct]; [exact (fun _ => I)|].
    rewrite andb_true_iff, memb_in. intros (H1 & H2). split; [exact H1|auto].
  Qed.

  Ltac by_types H Hin :=
    pose proof Hin as H'; cbn [types In] in H';
    repeat (destruct H' as [<-|H']; [vm_compute in H; injection H as <-; vm_compute; reflexivity|]);
    destruct H'.

  Lemma hashed_distinct t h : hashed r3 t = Some h -> distinct ["nVersion"] h.
  Proof. intros H. apply distinct_spec. by_types H (hashed_types t h H). Qed.

  (** Every field that is carried is hashed, but for the signatures, and the fees of one type. *)
  Definition signature_fieldb (t : N) (n : string) : bool :=
    (n =? "signature")%string || ((t =? 91) && (n =? "operator_signature")%string) ||
    ((t =? 100) && (n =? "signatures")%string).
  Definition left_outb (t : N) (n : string) : bool := (t =? 24) && (n =? "llFees")%string.
  Lemma signature_field_spec t n : signature_fieldb t n = true <-> signature_field t n.
  Proof.
    unfold signature_fieldb, signature_field.
    rewrite !orb_true_iff, !andb_true_iff, !String.eqb_eq, !N.eqb_eq. tauto.
  Qed.
  Lemma left_out_spec t n : left_outb t n = true <-> settle_fees t n.
  Proof. unfold left_outb, settle_fees. rewrite andb_true_iff, String.eqb_eq, N.eqb_eq. tauto. Qed.

  Definition sent_hashed_ok (t : N) : bool :=
    match wire r3 t, hashed r3 t with
    | Some l, Some h =>
        forallb (fun i => signature_fieldb t (i_name i) || left_outb t (i_name i) ||
          existsb (fun j => (i_name j =? i_name i)%string && whole j) h) l
    | _, _ => false
    end.
  Definition hashed_whole_ok (t : N) : bool :=
    match hashed r3 t with
    | Some h =>
        forallb (fun i => if whole i
          then negb (signature_fieldb t (i_name i)) && negb (left_outb t (i_name i))
          else (t =? 100) && (i_name i =? "signatures")%string) h
    | None => false
    end.

  Lemma types_ok : forallb (fun t => sent_hashed_ok t && hashed_whole_ok t) types = true.
  Proof. vm_compute. reflexivity. Qed.

  Lemma sent_hashed t l h : wire r3 t = Some l -> hashed r3 t = Some h ->
    forall i, In i l -> signature_field t (i_name i) \/ settle_fees t (i_name i) \/
      exists j, In j h /\ i_name j = i_name i /\ i_view j = Whole.
  Proof.
    intros H G i Hi. pose proof types_ok as T. rewrite forallb_forall in T.
    specialize (T t (wire_types t l H)). apply andb_true_iff in T as (T & _).
    unfold sent_hashed_ok in T. rewrite H, G, forallb_forall in T. specialize (T i Hi).
    rewrite !orb_true_iff, existsb_exists, signature_field_spec, left_out_spec in T.
    destruct T as [[T|T]|(j & T1 & T2)]; [tauto|tauto|].
    rewrite andb_true_iff, String.eqb_eq, whole_spec in T2. right. right. exists j. tauto.
  Qed.

  Lemma hashed_whole t h : hashed r3 t = Some h -> forall i, In i h ->
    (i_view i = Whole /\ ~ signature_field t (i_name i) /\ ~ settle_fees t (i_name i)) \/
    (t = 100 /\ i_name i = "signatures" /\ i_view i = Firsts).
  Proof.
    intros H i Hi. pose proof types_ok as T. rewrite forallb_forall in T.
    specialize (T t (hashed_types t h H)). apply andb_true_iff in T as (_ & T).
    unfold hashed_whole_ok in T. rewrite H, forallb_forall in T. specialize (T i Hi).
    destruct (whole i) eqn:W.
    - left. split; [now apply whole_spec|].
      rewrite <- signature_field_spec, <- left_out_spec.
      rewrite andb_true_iff, !negb_true_iff in T. destruct T as (-> & ->).
      split; discriminate.
    - right. rewrite andb_true_iff, N.eqb_eq, String.eqb_eq in T. destruct T as (-> & ->).
      repeat split. unfold whole in W. destruct (i_view i); [discriminate|reflexivity].
  Qed.

  Lemma signers_hashed l : hashed r3 100 = Some l ->
    exists i, In i l /\ i_name i = "signatures" /\ i_view i = Firsts.
  Proof.
    intros H. vm_compute in H. injection H as <-. eexists. cbn [In].
    split; [do 5 right; left; reflexivity|]. split; reflexivity.
  Qed.
End Types.
