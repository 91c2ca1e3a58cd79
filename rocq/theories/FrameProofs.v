From Coq Require Import List Bool NArith ZArith Lia Wf_nat.
From Verif Require Import FrameModel FrameSpec.
Import ListNotations.
From Coq Require Import ZifyBool ZifyNat ZifyN.
Ltac Zify.zify_post_hook ::= Z.div_mod_to_equations.

Ltac sp := repeat match goal with |- _ /\ _ => split end.

(** ** Lists *)

Lemma firstn_exact {A} (a b : list A) n : length a = n -> firstn n (a ++ b) = a.
Proof. intros <-. rewrite firstn_app, Nat.sub_diag, firstn_all. cbn. apply app_nil_r. Qed.

Lemma skipn_exact {A} (a b : list A) n : length a = n -> skipn n (a ++ b) = b.
Proof. intros <-. rewrite skipn_app, Nat.sub_diag, skipn_all. reflexivity. Qed.

Lemma app_split {A} (a b c d : list A) : length a = length c -> a ++ b = c ++ d -> a = c /\ b = d.
Proof.
  revert c. induction a as [|x a IH]; intros [|y c] L E; cbn in *; try discriminate; auto.
  injection E as -> E. injection L as L. destruct (IH c L E). subst. auto.
Qed.

(** ** Numbers of four bytes *)

Lemma le32_length n : length (le32 n) = 4%nat.
Proof. reflexivity. Qed.

Lemma of_le32_le32 n : (n < 2 ^ 32)%N -> of_le32 (le32 n) = n.
Proof. intros H. unfold of_le32, le32. cbn [nth]. change (2 ^ 32)%N with 4294967296%N in H. lia. Qed.

Lemma little_4 b : length b = 4%nat -> of_le32 b = little b.
Proof.
  destruct b as [|a [|b [|c [|d [|]]]]]; try discriminate. intros _. unfold of_le32. cbn [nth little]. lia.
Qed.

Lemma max_size_largest : max_size = largest.
Proof. reflexivity. Qed.

(** ** The fields of a header *)

Section Header.
Variables st f s4 c4 : bytes.
Hypothesis L1 : length st = 4%nat.
Hypothesis L2 : length f = 12%nat.
Hypothesis L3 : length s4 = 4%nat.
Hypothesis L4 : length c4 = 4%nat.

Lemma hdr_length : length (st ++ f ++ s4 ++ c4) = 24%nat.
Proof. rewrite !app_length, L1, L2, L3, L4. reflexivity. Qed.

Lemma h_start_of : h_start (st ++ f ++ s4 ++ c4) = st.
Proof. unfold h_start. apply firstn_exact. auto. Qed.

Lemma h_command_of : h_command (st ++ f ++ s4 ++ c4) = f.
Proof. unfold h_command. rewrite (skipn_exact st) by auto. apply firstn_exact. auto. Qed.

Lemma h_size_of : h_size (st ++ f ++ s4 ++ c4) = little s4.
Proof.
  unfold h_size. rewrite (app_assoc st f). rewrite (skipn_exact (st ++ f)) by (rewrite app_length, L1, L2; auto).
  rewrite firstn_exact by auto. apply little_4. auto.
Qed.

Lemma h_checksum_of : h_checksum (st ++ f ++ s4 ++ c4) = little c4.
Proof.
  unfold h_checksum. rewrite (app_assoc f), (app_assoc st).
  rewrite (skipn_exact (st ++ f ++ s4)) by (rewrite !app_length, L1, L2, L3; auto).
  rewrite <- (app_nil_r c4) at 1. rewrite firstn_exact by auto. apply little_4. auto.
Qed.
End Header.

(** The parts of 24 bytes. *)
Lemma split_header (h : bytes) : length h = 24%nat ->
  exists st f s4 c4, length st = 4%nat /\ length f = 12%nat /\ length s4 = 4%nat /\ length c4 = 4%nat /\
    h = st ++ f ++ s4 ++ c4.
Proof.
  intros H. do 24 (destruct h as [|? h]; [discriminate|]). destruct h; [|discriminate].
  exists [n; n0; n1; n2], [n3; n4; n5; n6; n7; n8; n9; n10; n11; n12; n13; n14], [n15; n16; n17; n18], [n19; n20; n21; n22].
  repeat split.
Qed.

(** ** The queue of received messages *)

Definition partial (m : msg) : Prop :=
  if m_in_data m
  then length (m_hdrbuf m) = 24%nat /\ m_size m = h_size (m_hdrbuf m) /\ (m_size m <= max_size)%N /\
       (N.of_nat (length (m_data m)) <= m_size m)%N
  else (length (m_hdrbuf m) < 24)%nat /\ m_size m = 0%N /\ m_data m = [].

Definition ok_msg (m : msg) : Prop := partial m /\ m_hdrbuf m <> [].
Definition done (m : msg) : Prop := complete m = true.

Definition flat1 (m : msg) : bytes := m_hdrbuf m ++ m_data m.
Definition flat (q : list msg) : bytes := concat (map flat1 q).

Definition well (q : list msg) : Prop := Forall ok_msg q /\ Forall done (removelast q).

Lemma flat_app a b : flat (a ++ b) = flat a ++ flat b.
Proof. unfold flat. rewrite map_app, concat_app. reflexivity. Qed.

Lemma flat_one m : flat [m] = flat1 m.
Proof. unfold flat. cbn. apply app_nil_r. Qed.

Lemma removelast_snoc {A} (l : list A) x : removelast (l ++ [x]) = l.
Proof. rewrite removelast_app by discriminate. apply app_nil_r. Qed.

Lemma well_snoc q m : Forall ok_msg q -> Forall done q -> ok_msg m -> well (q ++ [m]).
Proof.
  intros H1 H2 H3. split.
  - apply Forall_app. auto.
  - rewrite removelast_snoc. auto.
Qed.

Lemma well_cons m q : well (m :: q) -> ok_msg m /\ well q /\ (q <> [] -> done m).
Proof.
  intros [H1 H2]. inversion H1. subst. split; auto. destruct q as [|m' q]; cbn [removelast] in H2.
  - sp; auto; [split; auto; constructor | congruence].
  - inversion H2. subst. sp; auto. split; auto.
Qed.

Lemma well_tail m q : well (m :: q) -> well q.
Proof. intros H. apply well_cons in H. apply H. Qed.

Lemma well_done m q : ok_msg m -> done m -> well q -> well (m :: q).
Proof.
  intros H1 H2 [H3 H4]. split; [constructor; auto|]. destruct q; cbn [removelast]; [constructor|].
  constructor; auto.
Qed.

Lemma done_facts m : ok_msg m -> done m -> m_in_data m = true /\ length (m_hdrbuf m) = 24%nat /\
  m_size m = h_size (m_hdrbuf m) /\ (m_size m <= max_size)%N /\ m_size m = N.of_nat (length (m_data m)).
Proof.
  intros [H _] D. unfold done, complete in D. apply andb_prop in D. destruct D as [D1 D2]. unfold partial in H.
  rewrite D1 in H. sp; try tauto. lia.
Qed.

Lemma not_done_facts m : ok_msg m -> complete m = false ->
  (m_in_data m = false /\ (length (m_hdrbuf m) < 24)%nat /\ m_size m = 0%N /\ m_data m = []) \/
  (m_in_data m = true /\ length (m_hdrbuf m) = 24%nat /\ m_size m = h_size (m_hdrbuf m) /\ (m_size m <= max_size)%N /\
   (N.of_nat (length (m_data m)) < m_size m)%N).
Proof.
  intros [H _] D. unfold complete in D. unfold partial in H. destruct (m_in_data m); [right|left; tauto].
  cbn in D. sp; try tauto. lia.
Qed.

(** Bytes in which a header announces too much. *)
Definition large (b : bytes) : Prop :=
  exists q h r, Forall ok_msg q /\ Forall done q /\ b = flat q ++ h ++ r /\ length h = 24%nat /\ (max_size < h_size h)%N.

Lemma large_app b r : large b -> large (b ++ r).
Proof.
  intros (q & h & r' & H1 & H2 & -> & H3). exists q, h, (r' ++ r). sp; auto; try tauto.
  rewrite <- !app_assoc. reflexivity.
Qed.

Lemma receive_spec fuel q b : well q -> (length b <= fuel)%nat ->
  match receive_msg_bytes fuel q b with
  | Endless => False
  | Read q' => well q' /\ flat q' = flat q ++ b
  | Refused => large (flat q ++ b)
  end.
Proof.
  revert q b. induction fuel as [|fuel IH]; intros q b W L.
  { destruct b; [|cbn in L; lia]. cbn. rewrite app_nil_r. auto. }
  destruct b as [|x b]; [cbn; rewrite app_nil_r; auto|]. cbn [receive_msg_bytes].
  set (bb := x :: b) in *. assert (1 <= length bb)%nat as Lb by (cbn; lia). clearbody bb. clear x b.
  set (q1 := match rev q with [] => q ++ [new_msg] | m :: _ => if complete m then q ++ [new_msg] else q end).
  assert (exists q0 m, q1 = q0 ++ [m] /\ Forall ok_msg q0 /\ Forall done q0 /\ partial m /\
            complete m = false /\ flat q0 ++ flat1 m = flat q) as (q0 & m & -> & O & D & Pm & Cm & Fq).
  { assert (partial new_msg) as Pn by (unfold partial; cbn; sp; auto; lia).
    unfold q1. destruct (rev q) as [|m r] eqn:Er.
    - assert (q = []) as -> by (apply (f_equal (@rev _)) in Er; rewrite rev_involutive in Er; auto).
      exists [], new_msg. sp; auto.
    - assert (q = rev r ++ [m]) as -> by (apply (f_equal (@rev _)) in Er; rewrite rev_involutive in Er; auto).
      destruct W as [W1 W2]. rewrite removelast_snoc in W2. apply Forall_app in W1. destruct W1 as [W1 W3].
      inversion W3 as [|? ? W4 _]. subst. destruct (complete m) eqn:Cm.
      + exists (rev r ++ [m]), new_msg. sp; auto.
        * apply Forall_app. auto.
        * apply Forall_app. auto.
        * unfold flat1. cbn. apply app_nil_r.
      + exists (rev r), m. sp; auto.
        * destruct W4. auto.
        * rewrite flat_app, flat_one. auto. }
  rewrite last_last, removelast_snoc.
  destruct (m_in_data m) eqn:Im.
  - unfold read_data. set (n := Nat.min _ _).
    unfold partial in Pm. rewrite Im in Pm. destruct Pm as (P1 & P2 & P3 & P4).
    unfold complete in Cm. rewrite Im in Cm. cbn in Cm.
    assert (1 <= n)%nat as Hn by (unfold n; lia).
    set (m' := Build_msg _ _ _ _).
    assert (well (q0 ++ [m'])) as W'.
    { apply well_snoc; auto. split.
      - unfold partial, m'. cbn. sp; auto. rewrite app_length, firstn_length. lia.
      - unfold m'. cbn. intros E. rewrite E in P1. discriminate. }
    assert (flat (q0 ++ [m']) ++ skipn n bb = flat q ++ bb) as E.
    { rewrite flat_app, flat_one, <- Fq. unfold m', flat1. cbn. rewrite <- !app_assoc, firstn_skipn. reflexivity. }
    specialize (IH (q0 ++ [m']) (skipn n bb) W'). rewrite skipn_length in IH. rewrite <- E.
    assert (length bb - n <= fuel)%nat as Lf by lia. specialize (IH Lf).
    destruct (receive_msg_bytes fuel (q0 ++ [m']) (skipn n bb)); auto.
  - unfold read_header. set (n := Nat.min _ _).
    unfold partial in Pm. rewrite Im in Pm. destruct Pm as (P1 & P2 & P3).
    assert (1 <= n)%nat as Hn by (unfold n; lia). assert (n <= length bb)%nat as Hnb by (unfold n; lia). set (h := m_hdrbuf m ++ firstn n bb).
    assert (length h = length (m_hdrbuf m) + n)%nat as Lh by (unfold h; rewrite app_length, firstn_length; lia).
    assert (flat q ++ bb = flat q0 ++ h ++ skipn n bb) as E.
    { rewrite <- Fq. unfold flat1, h. rewrite P3, app_nil_r, <- !app_assoc, firstn_skipn. reflexivity. }
    assert (h <> []) as Hh by (intros E'; apply (f_equal (@length N)) in E'; cbn [length] in E'; lia).
    destruct (Nat.ltb_spec (length h) 24) as [H24|H24]; [|destruct (N.ltb_spec max_size (h_size h)) as [Hs|Hs]].
    + set (m' := Build_msg _ _ _ _).
      assert (well (q0 ++ [m'])) as W'.
      { apply well_snoc; auto. split; auto. unfold partial, m'. cbn. auto. }
      specialize (IH (q0 ++ [m']) (skipn n bb) W'). rewrite skipn_length in IH.
      assert (length bb - n <= fuel)%nat as Lf by lia. specialize (IH Lf).
      rewrite E. rewrite flat_app, flat_one in IH. unfold flat1 in IH. cbn [m' m_hdrbuf m_data] in IH.
      rewrite app_nil_r, <- app_assoc in IH.
      destruct (receive_msg_bytes fuel (q0 ++ [m']) (skipn n bb)); auto.
    + rewrite E. exists q0, h, (skipn n bb). sp; auto. lia.
    + set (m' := Build_msg _ _ _ _).
      assert (well (q0 ++ [m'])) as W'.
      { apply well_snoc; auto. split; auto. unfold partial, m'. cbn. sp; auto; lia. }
      specialize (IH (q0 ++ [m']) (skipn n bb) W'). rewrite skipn_length in IH.
      assert (length bb - n <= fuel)%nat as Lf by lia. specialize (IH Lf).
      rewrite E. rewrite flat_app, flat_one in IH. unfold flat1 in IH. cbn [m' m_hdrbuf m_data] in IH.
      rewrite app_nil_r, <- app_assoc in IH.
      destruct (receive_msg_bytes fuel (q0 ++ [m']) (skipn n bb)); auto.
Qed.

(** ** The bytes determine the queue *)

Lemma msg_eq a b : m_in_data a = m_in_data b -> m_hdrbuf a = m_hdrbuf b -> m_size a = m_size b -> m_data a = m_data b -> a = b.
Proof. destruct a, b. cbn. congruence. Qed.

Lemma flat_nonempty m q r : ok_msg m -> flat (m :: q) ++ r <> [].
Proof.
  intros [_ H] E. unfold flat in E. cbn in E. unfold flat1 in E. destruct (m_hdrbuf m); [congruence|discriminate].
Qed.

Lemma flat_cons m q : flat (m :: q) = m_hdrbuf m ++ m_data m ++ flat q.
Proof. unfold flat. cbn. unfold flat1. rewrite <- app_assoc. reflexivity. Qed.

(** Two complete messages at the front of the same bytes. *)
Lemma align m1 m2 x y : ok_msg m1 -> done m1 -> ok_msg m2 -> done m2 ->
  m_hdrbuf m1 ++ m_data m1 ++ x = m_hdrbuf m2 ++ m_data m2 ++ y -> m1 = m2 /\ x = y.
Proof.
  intros O1 D1 O2 D2 E.
  destruct (done_facts m1 O1 D1) as (A1 & A2 & A3 & A4 & A5).
  destruct (done_facts m2 O2 D2) as (B1 & B2 & B3 & B4 & B5).
  apply app_split in E; [|congruence]. destruct E as [E1 E2].
  assert (m_size m1 = m_size m2) as E3 by congruence.
  apply app_split in E2; [|lia]. destruct E2 as [E2 E4]. split; auto. apply msg_eq; congruence.
Qed.

(** A message at the front of bytes that start with a complete one is that one, unless it ends them. *)
Lemma align_done m1 m2 x q : ok_msg m1 -> done m1 -> well (m2 :: q) ->
  m_hdrbuf m1 ++ m_data m1 ++ x = flat (m2 :: q) -> m1 = m2 /\ x = flat q.
Proof.
  intros O1 D1 W E. rewrite flat_cons in E. destruct (well_cons _ _ W) as (O2 & W2 & C2).
  destruct (complete m2) eqn:D2; [apply align; auto|]. exfalso.
  assert (q = []) as -> by (destruct q; auto; exfalso; assert (done m2) as D by (apply C2; discriminate); unfold done in D; congruence).
  destruct (done_facts m1 O1 D1) as (A1 & A2 & A3 & A4 & A5).
  pose proof (f_equal (@length _) E) as L. cbn in L. rewrite !app_length in L. cbn in L.
  destruct (not_done_facts m2 O2 D2) as [(B1 & B2 & B3 & B4) | (B1 & B2 & B3 & B4 & B5)].
  - rewrite B4 in L. cbn in L. lia.
  - apply app_split in E; [|congruence]. destruct E as [E _]. rewrite E in A3. lia.
Qed.

Lemma well_unique q1 q2 : well q1 -> well q2 -> flat q1 = flat q2 -> q1 = q2.
Proof.
  revert q2. induction q1 as [|m1 q1 IH]; intros [|m2 q2] W1 W2 E; auto.
  - exfalso. destruct (well_cons _ _ W2) as (O & _). apply (flat_nonempty m2 q2 [] O). rewrite app_nil_r. auto.
  - exfalso. destruct (well_cons _ _ W1) as (O & _). apply (flat_nonempty m1 q1 [] O). rewrite app_nil_r. auto.
  - destruct (well_cons _ _ W1) as (O1 & V1 & C1). destruct (well_cons _ _ W2) as (O2 & V2 & C2).
    destruct (complete m1) eqn:D1; [|destruct (complete m2) eqn:D2].
    + pose proof E as E'. rewrite flat_cons in E'. apply align_done in E'; auto. destruct E' as [-> E'].
      f_equal. apply IH; auto.
    + symmetry in E. pose proof E as E'. rewrite flat_cons in E'. apply align_done in E'; auto. destruct E' as [-> E'].
      f_equal. apply IH; auto.
    + assert (q1 = []) as -> by (destruct q1; auto; exfalso; assert (done m1) as D by (apply C1; discriminate); unfold done in D; congruence).
      assert (q2 = []) as -> by (destruct q2; auto; exfalso; assert (done m2) as D by (apply C2; discriminate); unfold done in D; congruence).
      f_equal. rewrite !flat_cons in E. cbn in E. rewrite !app_nil_r in E.
      pose proof (f_equal (@length _) E) as L. rewrite !app_length in L.
      destruct (not_done_facts m1 O1 D1) as [(A1 & A2 & A3 & A4) | (A1 & A2 & A3 & A4 & A5)];
      destruct (not_done_facts m2 O2 D2) as [(B1 & B2 & B3 & B4) | (B1 & B2 & B3 & B4 & B5)].
      * rewrite A4, B4, !app_nil_r in E. apply msg_eq; congruence.
      * rewrite A4 in L. cbn in L. lia.
      * rewrite B4 in L. cbn in L. lia.
      * apply app_split in E; [|congruence]. destruct E. apply msg_eq; congruence.
Qed.

Lemma not_large q : well q -> ~ large (flat q).
Proof.
  intros W (q0 & h & r & O & D & E & L & S). revert q W E. induction q0 as [|m0 q0 IH]; intros q W E.
  - cbn in E. destruct q as [|m q].
    { apply (f_equal (@length _)) in E. cbn in E. rewrite app_length in E. lia. }
    destruct (well_cons _ _ W) as (O1 & _ & C1). rewrite flat_cons in E.
    destruct (m_in_data m) eqn:I.
    + destruct O1 as [P _]. unfold partial in P. rewrite I in P. destruct P as (P1 & P2 & P3 & P4).
      apply app_split in E; [|congruence]. destruct E as [<- _]. lia.
    + assert (complete m = false) as Cm by (unfold complete; rewrite I; auto).
      assert (q = []) as -> by (destruct q; auto; exfalso; assert (done m) as D1 by (apply C1; discriminate); unfold done in D1; congruence).
      destruct O1 as [P _]. unfold partial in P. rewrite I in P. destruct P as (P1 & P2 & P3).
      apply (f_equal (@length _)) in E. rewrite P3 in E. rewrite !app_length in E. cbn in E. lia.
  - inversion O; inversion D; subst. destruct q as [|m q].
    { exfalso. symmetry in E. change (flat []) with (@nil N) in E. eapply (flat_nonempty m0 q0); [|exact E]. auto. }
    symmetry in E. rewrite flat_cons, <- !app_assoc in E. apply align_done in E; auto. destruct E as [_ E].
    apply (IH H2 H6 q); [apply well_tail in W; auto|auto].
Qed.

Lemma well_nil : well [].
Proof. split; constructor. Qed.

Lemma receive_all_spec q pieces : well q ->
  match receive_all q pieces with
  | Endless => False
  | Read q' => well q' /\ flat q' = flat q ++ concat pieces
  | Refused => large (flat q ++ concat pieces)
  end.
Proof.
  revert q. induction pieces as [|b r IH]; intros q W; cbn [receive_all concat].
  - rewrite app_nil_r. auto.
  - pose proof (receive_spec (length b) q b W (le_n _)) as R.
    destruct (receive_msg_bytes (length b) q b) as [| |q']; auto.
    + rewrite app_assoc. apply large_app. auto.
    + destruct R as [W' E]. specialize (IH q' W'). rewrite E, <- app_assoc in IH. auto.
Qed.

Lemma pieces_lemma p1 p2 : concat p1 = concat p2 -> receive_all [] p1 = receive_all [] p2.
Proof.
  intros E. pose proof (receive_all_spec [] p1 well_nil) as R1. pose proof (receive_all_spec [] p2 well_nil) as R2.
  rewrite E in R1. destruct (receive_all [] p1) as [| |q1], (receive_all [] p2) as [| |q2]; try tauto.
  - destruct R2 as [W F]. exfalso. rewrite <- F in R1. eapply not_large; eauto.
  - destruct R1 as [W F]. exfalso. rewrite <- F in R2. eapply not_large; eauto.
  - destruct R1 as [W1 F1], R2 as [W2 F2]. f_equal. apply well_unique; congruence.
Qed.

(** ** Messages as they are sent *)

Lemma patch_mid a x c b n : length a = n -> length x = length b -> patch n b (a ++ x ++ c) = a ++ b ++ c.
Proof.
  intros L1 L2. unfold patch. rewrite firstn_exact by auto. do 2 f_equal.
  rewrite app_assoc. apply skipn_exact. rewrite app_length. congruence.
Qed.

Definition field (cmd : bytes) : bytes := firstn 12 cmd ++ repeat 0%N (12 - length cmd).

Lemma field_length cmd : length (field cmd) = 12%nat.
Proof. unfold field. rewrite app_length, firstn_length, repeat_length. lia. Qed.

Lemma field_short cmd : (length cmd <= 12)%nat -> field cmd = cmd ++ repeat 0%N (12 - length cmd).
Proof. intros H. unfold field. rewrite firstn_all2 by lia. reflexivity. Qed.

Section Net.
Variable magic : bytes.
Variable checksum : bytes -> N.
Hypothesis magic4 : length magic = 4%nat.
Hypothesis checksum32 : forall d, (checksum d < 2 ^ 32)%N.

Notation make := (make_message magic checksum).

Definition head (cmd data : bytes) : bytes :=
  magic ++ field cmd ++ le32 (N.of_nat (length data)) ++ le32 (checksum data).

Lemma head_length cmd data : length (head cmd data) = 24%nat.
Proof. unfold head. rewrite hdr_length; auto using field_length. Qed.

Lemma make_shape cmd data : make cmd data = head cmd data ++ data.
Proof.
  unfold make_message, new_header, head. fold (field cmd). pose proof (field_length cmd) as Lf.
  set (s0 := (magic ++ field cmd ++ le32 0 ++ le32 0) ++ data).
  assert (length s0 = 24 + length data)%nat as L0.
  { unfold s0. rewrite app_length, hdr_length; auto. }
  assert (s0 = (magic ++ field cmd) ++ le32 0 ++ (le32 0 ++ data)) as E0 by (unfold s0; rewrite <- !app_assoc; auto).
  rewrite L0. replace (24 + length data - 24)%nat with (length data) by lia.
  rewrite E0. rewrite patch_mid; [|rewrite app_length, magic4, Lf; auto|reflexivity].
  set (n4 := le32 (N.of_nat (length data))).
  assert (skipn 24 ((magic ++ field cmd) ++ n4 ++ le32 0 ++ data) = data) as ->.
  { rewrite !app_assoc. apply skipn_exact. rewrite !app_length, magic4, Lf. reflexivity. }
  replace ((magic ++ field cmd) ++ n4 ++ le32 0 ++ data) with (((magic ++ field cmd) ++ n4) ++ le32 0 ++ data)
    by (rewrite <- !app_assoc; auto).
  rewrite patch_mid; [|rewrite !app_length, magic4, Lf; reflexivity|reflexivity].
  rewrite <- !app_assoc. reflexivity.
Qed.

Lemma make_length cmd data : length (make cmd data) = (24 + length data)%nat.
Proof. rewrite make_shape, app_length, head_length. reflexivity. Qed.

Lemma head_size cmd data : (N.of_nat (length data) <= largest)%N -> h_size (head cmd data) = N.of_nat (length data).
Proof.
  intros H. unfold head. rewrite h_size_of; auto using field_length.
  rewrite <- little_4 by auto. apply of_le32_le32. change largest with 33554432%N in H.
  change (2 ^ 32)%N with 4294967296%N. lia.
Qed.

Lemma head_checksum cmd data : h_checksum (head cmd data) = checksum data.
Proof.
  unfold head. rewrite h_checksum_of; auto using field_length. rewrite <- little_4 by auto. apply of_le32_le32. auto.
Qed.

Lemma bytes_eqb_spec a b : bytes_eqb a b = true <-> a = b.
Proof.
  revert b. induction a as [|x a IH]; intros [|y b]; cbn; try (split; congruence).
  rewrite andb_true_iff, N.eqb_eq, IH. split; [intros [-> ->]; auto | intros E; injection E; auto].
Qed.

Lemma zeros_forall k : forallb (N.eqb 0) (repeat 0%N k) = true.
Proof. induction k; cbn; auto. Qed.

Lemma all_zeros l : forallb (N.eqb 0) l = true -> l = repeat 0%N (length l).
Proof.
  induction l as [|x l IH]; cbn [forallb length repeat]; auto. intros H. apply andb_prop in H. destruct H as [H1 H2].
  apply N.eqb_eq in H1. subst x. f_equal. auto.
Qed.

Lemma valid_padded cmd k : Forall printable cmd -> valid_command (cmd ++ repeat 0%N k) = true.
Proof.
  induction 1 as [|x cmd Hx _ IH]; cbn [app valid_command].
  - destruct k; cbn; auto. apply zeros_forall.
  - unfold printable in Hx. destruct (N.eqb_spec x 0); [lia|]. rewrite IH. lia.
Qed.

Lemma valid_names f : length f = 12%nat -> valid_command f = true -> exists c, names f c.
Proof.
  intros L H. assert (exists c k, f = c ++ repeat 0%N k /\ Forall printable c) as (c & k & E & P).
  { clear L. induction f as [|x f IH]; cbn [valid_command] in H.
    - exists [], 0%nat. split; auto.
    - destruct (N.eqb_spec x 0) as [->|Hx].
      + exists [], (S (length f)). split; auto. cbn. f_equal. apply all_zeros. auto.
      + apply andb_prop in H. destruct H as [H1 H2]. destruct (IH H2) as (c & k & -> & P).
        exists (x :: c), k. split; auto. constructor; auto. unfold printable. lia. }
  exists c. split; auto. split; auto. exists k. auto.
Qed.

Lemma names_valid f c : names f c -> valid_command f = true.
Proof. intros (_ & P & k & ->). apply valid_padded. auto. Qed.

Lemma until_zero_padded c k : Forall printable c -> until_zero (c ++ repeat 0%N k) = c.
Proof.
  induction 1 as [|x c Hx _ IH]; cbn [app until_zero].
  - destruct k; reflexivity.
  - unfold printable in Hx. destruct (N.eqb_spec x 0); [lia|]. congruence.
Qed.

Lemma names_command h c : names (h_command h) c -> get_command h = c.
Proof.
  intros (L & P & k & E). unfold get_command. destruct (N.eqb_spec (nth 11 (h_command h) 0%N) 0%N) as [Z|Z].
  - rewrite E. apply until_zero_padded. auto.
  - rewrite E in *. destruct k; [apply app_nil_r|]. exfalso. apply Z.
    rewrite app_length, repeat_length in L. rewrite app_nth2 by lia.
    assert (forall i n, nth i (repeat 0%N n) 0%N = 0%N) as R.
    { intros i n. revert i. induction n; intros [|i]; cbn; auto. }
    apply R.
Qed.

Lemma names_fun f c1 c2 : names f c1 -> names f c2 -> c1 = c2.
Proof.
  intros (_ & P1 & k1 & E1) (_ & P2 & k2 & E2). rewrite <- (until_zero_padded c1 k1 P1), <- E1, E2.
  apply until_zero_padded. auto.
Qed.

Lemma names_field cmd : (length cmd <= 12)%nat -> Forall printable cmd -> names (field cmd) cmd.
Proof.
  intros H P. split; [apply field_length|]. split; auto. exists (12 - length cmd)%nat. apply field_short. auto.
Qed.

(** A message that was sent passes all tests. *)
Lemma head_valid cmd data : sendable (cmd, data) ->
  bytes_eqb (h_start (head cmd data)) magic = true /\ is_valid magic (head cmd data) = true /\
  get_command (head cmd data) = cmd.
Proof.
  intros (S1 & S2 & S3). cbn [fst snd] in *. pose proof (field_length cmd) as Lf.
  assert (bytes_eqb (h_start (head cmd data)) magic = true) as E.
  { unfold head. rewrite h_start_of by auto. apply bytes_eqb_spec. auto. }
  assert (h_command (head cmd data) = field cmd) as E2 by (unfold head; rewrite h_command_of; auto).
  sp; auto.
  - unfold is_valid. rewrite E, E2, head_size by auto. rewrite (names_valid _ cmd) by (apply names_field; auto).
    rewrite max_size_largest. lia.
  - apply names_command. rewrite E2. apply names_field; auto.
Qed.

(** ** The sender *)

Definition total (q : list bytes) : bytes := concat q.

Definition good_sender (s : sender) : Prop :=
  s_size s = length (total (s_queue s)) /\
  match s_queue s with [] => s_offset s = 0%nat | d :: _ => (s_offset s < length d)%nat end /\
  Forall (fun d => d <> []) (s_queue s).

(** What is still to be sent. *)
Definition unsent (s : sender) : bytes := skipn (s_offset s) (total (s_queue s)).

Lemma firstn_plus {A} n k (l : list A) : skipn n l = firstn k (skipn n l) ++ skipn (n + k) l.
Proof.
  rewrite <- (firstn_skipn k (skipn n l)) at 1. f_equal.
  revert l. induction n as [|n IH]; intros l; [reflexivity|]. destruct l; [destruct k; reflexivity|]. cbn [skipn plus]. apply IH.
Qed.

Lemma skipn_app_l {A} n (a b : list A) : (n <= length a)%nat -> skipn n (a ++ b) = skipn n a ++ b.
Proof. intros H. rewrite skipn_app. replace (n - length a)%nat with 0%nat by lia. reflexivity. Qed.

Lemma send_spec answers q offset size open :
  good_sender (Build_sender q offset size open) ->
  exists s out, socket_send_data answers q offset size open = Sent s out /\ good_sender s /\
    out ++ unsent s = unsent (Build_sender q offset size open).
Proof.
  revert answers offset size. induction q as [|d q IH]; intros answers offset size G.
  - pose proof G as (G1 & G2 & _). cbn in G1, G2. subst. cbn. eexists _, _. split; [reflexivity|]. split; auto.
  - pose proof G as (G1 & G2 & G3). cbn in G1, G2, G3.
    assert (forall open', good_sender (Build_sender (d :: q) offset size open')) as G' by (intros; exact G).
    cbn [socket_send_data]. destruct (Nat.ltb_spec offset (length d)) as [_|]; [|lia]. cbn [negb].
    destruct open; cbn [negb]; [|eexists _, _; split; [reflexivity|]; split; auto].
    destruct answers as [|[n| |] r]; try (eexists _, _; split; [reflexivity|]; split; [apply G'|reflexivity]).
    set (k := Nat.min n (length d - offset)). assert (k <= length d - offset)%nat as Hk by (unfold k; lia). clearbody k.
    destruct (Nat.eqb_spec k 0) as [->|K0]; [eexists _, _; split; [reflexivity|]; split; [apply G'|reflexivity]|].
    assert (unsent (Build_sender (d :: q) offset size true) =
            firstn k (skipn offset d) ++ skipn (offset + k) d ++ concat q) as U.
    { unfold unsent. cbn [s_offset s_queue]. unfold total. cbn [concat]. rewrite skipn_app_l by lia.
      rewrite app_assoc. f_equal. apply firstn_plus. }
    rewrite U.
    pose proof (Forall_inv_tail G3) as H2. unfold total in G1. cbn [concat] in G1. rewrite app_length in G1.
    destruct (Nat.eqb_spec (offset + k) (length d)) as [E|E].
    + destruct (IH r 0%nat (size - length d)%nat) as (s & out & E1 & E2 & E3).
      { split; [cbn [s_size s_queue]; unfold total; lia|]. split; [|auto]. cbn. destruct q as [|d' q]; auto.
        inversion H2; subst. destruct d'; [congruence|cbn; lia]. }
      rewrite E1. cbn [add_out]. eexists _, _. split; [reflexivity|]. split; auto.
      rewrite <- app_assoc, E3. unfold unsent. cbn [s_offset s_queue]. unfold total. cbn [skipn].
      rewrite E, skipn_all. reflexivity.
    + eexists _, _. split; [reflexivity|]. split.
      * split; [cbn [s_size s_queue]; unfold total; cbn [concat]; rewrite app_length; auto|]. split; [cbn; lia|auto].
      * unfold unsent. cbn [s_offset s_queue]. unfold total. cbn [concat]. rewrite skipn_app_l by lia. reflexivity.
Qed.

Lemma push_spec s cmd data answers : good_sender s ->
  exists s' out, push_message magic checksum s cmd data answers = Sent s' out /\ good_sender s' /\
    out ++ unsent s' = unsent s ++ make cmd data.
Proof.
  intros G. pose proof G as (G1 & G2 & G3). unfold push_message.
  assert (make cmd data <> []) as Hm.
  { intros E. pose proof (make_length cmd data) as L. rewrite E in L. discriminate. }
  assert (good_sender (Build_sender (s_queue s ++ [make cmd data]) (s_offset s) (s_size s + length (make cmd data)) (s_open s))) as G'.
  { split; [|split]; cbn [s_queue s_offset s_size].
    - unfold total. rewrite concat_app, app_length. cbn [concat]. rewrite app_nil_r. unfold total in G1. lia.
    - destruct (s_queue s); cbn [app]; auto. rewrite G2. destruct (make cmd data); [congruence|cbn; lia].
    - apply Forall_app. auto. }
  assert (unsent (Build_sender (s_queue s ++ [make cmd data]) (s_offset s) (s_size s + length (make cmd data)) (s_open s)) =
          unsent s ++ make cmd data) as U.
  { unfold unsent. cbn [s_queue s_offset]. unfold total. rewrite concat_app. cbn [concat]. rewrite app_nil_r.
    apply skipn_app_l. destruct (s_queue s) as [|d q]; cbn [concat]; [lia|]. rewrite app_length. lia. }
  destruct (s_queue s) as [|d q] eqn:Q.
  - cbn [s_queue s_offset s_size s_open]. destruct (send_spec answers _ _ _ _ G') as (s' & out & E1 & E2 & E3).
    exists s', out. split; auto. split; auto. rewrite E3. exact U.
  - eexists _, _. split; [reflexivity|]. split; [exact G'|exact U].
Qed.

(** ** What was sent and what is handed over *)

Definition wire_of (ms : list (bytes * bytes)) : bytes := concat (map (fun m => make (fst m) (snd m)) ms).

Lemma wire_app a b : wire_of (a ++ b) = wire_of a ++ wire_of b.
Proof. unfold wire_of. rewrite map_app, concat_app. reflexivity. Qed.

Lemma wire_cons m ms : wire_of (m :: ms) = head (fst m) (snd m) ++ snd m ++ wire_of ms.
Proof. unfold wire_of. cbn [map concat]. rewrite make_shape, <- app_assoc. reflexivity. Qed.

Lemma wire_nonempty m ms : wire_of (m :: ms) <> [].
Proof.
  rewrite wire_cons. intros E. apply (f_equal (@length N)) in E. rewrite app_length, head_length in E. discriminate.
Qed.

(** A complete message at the front of what was sent. *)
Lemma sent_front m x ms : ok_msg m -> done m -> Forall sendable ms -> m_hdrbuf m ++ m_data m ++ x = wire_of ms ->
  exists p ms', ms = p :: ms' /\ m_hdrbuf m = head (fst p) (snd p) /\ m_data m = snd p /\ x = wire_of ms'.
Proof.
  intros O D S E. destruct (done_facts m O D) as (A1 & A2 & A3 & A4 & A5). destruct ms as [|p ms].
  { exfalso. apply (f_equal (@length N)) in E. cbn in E. rewrite app_length in E. lia. }
  exists p, ms. rewrite wire_cons in E. inversion S as [|? ? S1 S2]. subst. destruct S1 as (S3 & S4 & S5).
  apply app_split in E; [|rewrite head_length; auto]. destruct E as [E1 E2].
  rewrite E1, head_size in A3 by auto.
  apply app_split in E2; [|lia]. destruct E2. auto.
Qed.

(** Nothing that was sent is too large. *)
Lemma sent_not_large b r ms : Forall sendable ms -> b ++ r = wire_of ms -> ~ large b.
Proof.
  intros S E (q & h & x & O & D & -> & L & Z). revert ms S E. induction q as [|m q IH]; intros ms S E.
  - cbn in E. rewrite <- app_assoc in E. destruct ms as [|p ms].
    { apply (f_equal (@length N)) in E. rewrite app_length, L in E. discriminate. }
    rewrite wire_cons in E. inversion S as [|? ? S1 S2]. subst. destruct S1 as (S3 & S4 & S5).
    apply app_split in E; [|rewrite head_length; auto]. destruct E as [-> _].
    rewrite head_size in Z by auto. rewrite max_size_largest in Z. apply N.lt_nge in Z. auto.
  - inversion O; inversion D; subst. rewrite flat_cons, <- !app_assoc in E.
    apply sent_front in E; auto. destruct E as (p & ms' & -> & _ & _ & E). inversion S; subst.
    apply (IH H2 H6 ms'); auto. rewrite <- !app_assoc. auto.
Qed.

Lemma process_sent q h w ms : well q -> Forall sendable ms -> flat q ++ w = wire_of ms ->
  match process_messages magic checksum q h with
  | WrongStart => False
  | Idle q' => q' = q /\ (match q with [] => True | m :: _ => complete m = false end)
  | Handed c d q' => exists ms', ms = (c, d) :: ms' /\ well q' /\ flat q' ++ w = wire_of ms' /\ 
                       (throws h = Nothing /\ closes h = false \/ throws h <> Nothing /\ closes h || reject_closes h = false)
  | HandedClosed c d => exists ms', ms = (c, d) :: ms'
  | Dangling c d => throws h = EndOfData /\ closes h || reject_closes h = true /\ exists ms', ms = (c, d) :: ms'
  end.
Proof.
  intros W S E. destruct q as [|m q]; cbn [process_messages]; auto.
  destruct (complete m) eqn:Cm; cbn [negb]; auto.
  destruct (well_cons _ _ W) as (O & V & _). rewrite flat_cons, <- !app_assoc in E.
  destruct (sent_front _ _ _ O Cm S E) as ((c & d) & ms' & -> & E1 & E2 & E3). cbn [fst snd] in *.
  inversion S; subst. destruct (head_valid c (m_data m) H1) as (H3 & H4 & H5).
  rewrite E1, H3, H4, head_checksum, H5, N.eqb_refl. cbn [negb].
  destruct (throws h); [destruct (closes h) eqn:Eh; eauto| |];
    try (destruct (closes h || reject_closes h) eqn:Eh; eauto); exists ms'; sp; auto; right; split; auto; discriminate.
Qed.

(** The state of a connection, given what was sent. *)
Definition good_link (l : link) (pushed : list (bytes * bytes)) : Prop :=
  good_sender (l_sender l) /\
  exists rest, pushed = l_handed l ++ rest /\
    (l_open l = true -> well (l_queue l) /\ flat (l_queue l) ++ l_wire l ++ unsent (l_sender l) = wire_of rest).

Ltac lk := cbn [l_sender l_wire l_queue l_handed l_open close].

Lemma step_good flood l e pushed : good_link l pushed -> Forall sendable (pushed ++ pushes [e]) ->
  match step magic checksum flood l e with
  | Failed => False
  | Freed => freed_event e = true
  | Ok l' => good_link l' (pushed ++ pushes [e])
  end.
Proof.
  intros (G & rest & -> & I) S. destruct e as [c d a|a|n x|h|]; cbn [step pushes flat_map] in *; rewrite ?app_nil_r in *.
  - cbn [app] in *. destruct (push_spec (l_sender l) c d a G) as (s & out & -> & G' & U). split; auto. lk.
    exists (rest ++ [(c, d)]). split; [rewrite app_assoc; auto|]. intros Ho. destruct (I Ho) as [W E]. split; auto.
    rewrite wire_app, <- E. unfold wire_of. cbn [map concat fst snd]. rewrite app_nil_r, <- !app_assoc, U. auto.
  - destruct (l_sender l) as [q o z p] eqn:Es. cbn [s_queue s_offset s_size s_open].
    destruct (send_spec a q o z p G) as (s & out & -> & G' & U). split; auto. lk.
    exists rest. split; auto. intros Ho. destruct (I Ho) as [W E]. split; auto.
    rewrite <- app_assoc, U. auto.
  - destruct (l_open l && (waits flood (l_queue l) || x)) eqn:Ho.
    + apply andb_prop in Ho. destruct Ho as [Ho _]. destruct (I Ho) as [W E].
      set (n' := Nat.min n _). pose proof (receive_spec _ (l_queue l) (firstn n' (l_wire l)) W (le_n _)) as R.
      destruct (receive_msg_bytes _ _ _) as [| |q]; auto.
      * exfalso. eapply (sent_not_large _ (skipn n' (l_wire l) ++ unsent (l_sender l)) rest); [| |exact R].
        { apply Forall_app in S. tauto. }
        { rewrite <- E, <- app_assoc, (app_assoc (firstn n' _)), firstn_skipn. auto. }
      * destruct R as [W' E']. split; auto. lk. exists rest. split; auto. intros _. split; auto.
        rewrite E', <- app_assoc, (app_assoc (firstn n' _)), firstn_skipn. auto.
    + split; auto. exists rest. auto.
  - destruct (l_open l) eqn:Ho; cbn [negb].
    + destruct (I eq_refl) as [W E]. apply Forall_app in S. destruct S as [_ S].
      pose proof (process_sent (l_queue l) h _ _ W S E) as R.
      destruct (process_messages magic checksum (l_queue l) h) as [|q|c d q|c d|c d]; [tauto| | | |].
      * destruct R as [-> _]. split; auto. lk. exists rest. auto.
      * destruct R as (ms' & -> & W' & E' & _). split; auto. lk. exists ms'. split; [rewrite <- app_assoc; auto|].
        auto.
      * destruct R as (ms' & ->). split; auto. lk. exists ms'. split; [rewrite <- app_assoc; auto|]. discriminate.
      * destruct R as (R1 & R2 & _). cbn. rewrite R1. auto.
    + split; auto. exists rest. split; auto. rewrite Ho. discriminate.
  - split; auto. lk. exists rest. split; auto. discriminate.
Qed.

Lemma pushes_cons e es : pushes (e :: es) = pushes [e] ++ pushes es.
Proof. unfold pushes. cbn. rewrite app_nil_r. reflexivity. Qed.

Lemma run_good flood l es pushed : good_link l pushed -> Forall sendable (pushed ++ pushes es) ->
  match run magic checksum flood l es with
  | Failed => False
  | Freed => existsb freed_event es = true
  | Ok l' => good_link l' (pushed ++ pushes es)
  end.
Proof.
  revert l pushed. induction es as [|e es IH]; intros l pushed G S; cbn [run].
  - cbn. rewrite app_nil_r. auto.
  - rewrite pushes_cons, app_assoc in S.
    assert (Forall sendable (pushed ++ pushes [e])) as S1 by (apply Forall_app in S; tauto).
    pose proof (step_good flood l e pushed G S1) as R.
    destruct (step magic checksum flood l e) as [| |l']; cbn [existsb]; try tauto.
    + rewrite R. auto.
    + specialize (IH l' _ R S). destruct (run magic checksum flood l' es); auto.
      * rewrite IH. apply orb_true_r.
      * rewrite pushes_cons, app_assoc. auto.
Qed.

Lemma new_good : good_link new_link [].
Proof.
  split.
  - split; [reflexivity|]. split; [reflexivity|constructor].
  - exists []. split; auto. intros _. split; [apply well_nil|reflexivity].
Qed.

Lemma delivered_lemma flood es l : Forall sendable (pushes es) -> run magic checksum flood new_link es = Ok l ->
  (exists rest, pushes es = l_handed l ++ rest) /\
  (l_open l = true -> s_queue (l_sender l) = [] -> l_wire l = [] -> l_queue l = [] -> l_handed l = pushes es).
Proof.
  intros S E. pose proof (run_good flood new_link es [] new_good S) as R. rewrite E in R.
  destruct R as (G & rest & E1 & I). cbn [app] in E1. split; [eauto|].
  intros Ho Q W V. destruct (I Ho) as [_ E2]. rewrite V, W in E2. unfold unsent, total in E2. rewrite Q in E2.
  cbn in E2. rewrite skipn_nil in E2. destruct rest as [|m rest].
  - rewrite app_nil_r in E1. auto.
  - exfalso. symmetry in E2. eapply wire_nonempty; eauto.
Qed.

Lemma no_failure_lemma flood es : Forall sendable (pushes es) ->
  run magic checksum flood new_link es <> Failed /\
  (run magic checksum flood new_link es = Freed -> existsb freed_event es = true).
Proof.
  intros S. pose proof (run_good flood new_link es [] new_good S) as R.
  destruct (run magic checksum flood new_link es); split; try discriminate; auto; tauto.
Qed.

(** As long as something is missing, something can be done. *)
Lemma progress_lemma flood es l : Forall sendable (pushes es) -> run magic checksum flood new_link es = Ok l ->
  l_open l = true -> l_handed l <> pushes es ->
  s_queue (l_sender l) <> [] \/ (l_wire l <> [] /\ waits flood (l_queue l) = true) \/
  exists c d rest l', pushes es = l_handed l ++ (c, d) :: rest /\
    step magic checksum flood l (Process (Build_handling false Nothing false)) = Ok l' /\ l_handed l' = l_handed l ++ [(c, d)].
Proof.
  intros S E Ho Hh. pose proof (run_good flood new_link es [] new_good S) as R. rewrite E in R.
  destruct R as (G & rest & E1 & I). cbn [app] in E1. destruct (I Ho) as [W E2].
  destruct (s_queue (l_sender l)) as [|d0 q0] eqn:Q; [right|left; discriminate].
  unfold unsent, total in E2. rewrite Q in E2. cbn [concat] in E2. rewrite skipn_nil, app_nil_r in E2.
  assert (Forall sendable rest) as Sr by (rewrite E1 in S; apply Forall_app in S; tauto).
  destruct rest as [|m rest]; [exfalso; apply Hh; rewrite E1, app_nil_r; auto|].
  set (h := Build_handling false Nothing false).
  pose proof (process_sent (l_queue l) h _ _ W Sr E2) as P.
  assert (match l_queue l with [] => True | m :: _ => complete m = false end ->
          l_wire l <> [] /\ waits flood (l_queue l) = true) as Hw.
  { intros Hq. split.
    - intros Ew. rewrite Ew, app_nil_r in E2. destruct (l_queue l) as [|m0 q0].
      + symmetry in E2. eapply wire_nonempty; eauto.
      + assert (q0 = []) as ->.
        { destruct (well_cons _ _ W) as (_ & _ & C). destruct q0; auto. exfalso.
          assert (done m0) as D by (apply C; discriminate). unfold done in D. congruence. }
        destruct (well_cons _ _ W) as (O & _ & _). inversion Sr as [|? ? Sm Sr']. subst.
        rewrite flat_cons, wire_cons in E2. cbn in E2. rewrite app_nil_r in E2.
        pose proof (f_equal (@length N) E2) as L. rewrite !app_length, head_length in L.
        destruct Sm as (S3 & S4 & S5).
        destruct (not_done_facts m0 O Hq) as [(A1 & A2 & A3 & A4) | (A1 & A2 & A3 & A4 & A5)].
        * rewrite A4 in L. cbn in L. lia.
        * apply app_split in E2; [|rewrite head_length; auto]. destruct E2 as [E2 _].
          rewrite E2, head_size in A3 by auto. lia.
    - destruct (l_queue l); cbn; auto. rewrite Hq. auto. }
  unfold step. rewrite Ho. cbn [negb].
  destruct (process_messages magic checksum (l_queue l) h) as [|q|c d q|c d|c d]; [tauto| | | |].
  - left. apply Hw. destruct P as [_ P]. exact P.
  - right. destruct P as (ms' & E3 & _). injection E3 as -> ->. eexists c, d, ms', _. split; auto.
  - right. destruct P as (ms' & E3). injection E3 as -> ->.
    eexists c, d, ms', _. split; auto.
  - destruct P as (P & _). discriminate.
Qed.

(** ** Any bytes at all *)

Lemma header_fun b st f n k r st' f' n' k' r' : header b st f n k r -> header b st' f' n' k' r' ->
  st = st' /\ f = f' /\ n = n' /\ k = k' /\ r = r'.
Proof.
  intros (s4 & c4 & L1 & L2 & L3 & L4 & -> & -> & ->) (s4' & c4' & M1 & M2 & M3 & M4 & -> & -> & E).
  apply app_split in E; [|congruence]. destruct E as [<- E].
  apply app_split in E; [|congruence]. destruct E as [<- E].
  apply app_split in E; [|congruence]. destruct E as [<- E].
  apply app_split in E; [|congruence]. destruct E as [<- <-]. auto.
Qed.

Lemma header_length b st f n k r : header b st f n k r -> length b = (24 + length r)%nat.
Proof. intros (s4 & c4 & L1 & L2 & L3 & L4 & _ & _ & ->). rewrite !app_length, L1, L2, L3, L4. lia. Qed.

Lemma header_of b : (24 <= length b)%nat -> exists st f n k r, header b st f n k r.
Proof.
  intros H. assert (length (firstn 24 b) = 24%nat) as L by (rewrite firstn_length; lia).
  destruct (split_header _ L) as (st & f & s4 & c4 & L1 & L2 & L3 & L4 & E).
  exists st, f, (little s4), (little c4), (skipn 24 b), s4, c4. sp; auto.
  rewrite <- (firstn_skipn 24 b) at 1. rewrite E, <- !app_assoc. reflexivity.
Qed.

Lemma header_hdr h r : length h = 24%nat -> header (h ++ r) (h_start h) (h_command h) (h_size h) (h_checksum h) r.
Proof.
  intros L. destruct (split_header _ L) as (st & f & s4 & c4 & L1 & L2 & L3 & L4 & ->).
  rewrite h_start_of, h_command_of, h_size_of, h_checksum_of by auto.
  exists s4, c4. sp; auto. rewrite <- !app_assoc. reflexivity.
Qed.

Lemma names_dec f : length f = 12%nat -> (exists c, names f c) \/ (forall c, ~ names f c).
Proof.
  intros L. destruct (valid_command f) eqn:V; [left; apply valid_names; auto|].
  right. intros c H. apply names_valid in H. congruence.
Qed.

Lemma contents_total b : exists ms, contents magic checksum b ms.
Proof.
  induction b as [b IH] using (induction_ltof1 _ (@length N)). unfold ltof in IH.
  destruct (Nat.le_gt_cases 24 (length b)) as [H|H]; [|exists []; apply c_no_header; auto].
  destruct (header_of b H) as (st & f & n & k & r & Hd).
  destruct (N.le_gt_cases n largest) as [Hn|Hn]; [|exists []; eapply c_large; eauto].
  destruct (N.le_gt_cases n (N.of_nat (length r))) as [Hr|Hr]; [|exists []; eapply c_incomplete; eauto].
  assert (exists d x, r = d ++ x /\ n = N.of_nat (length d)) as (d & x & -> & ->).
  { exists (firstn (N.to_nat n) r), (skipn (N.to_nat n) r). rewrite firstn_skipn, firstn_length. split; auto. lia. }
  destruct (list_eq_dec N.eq_dec st magic) as [Es|Es]; [|exists []; eapply c_start; eauto].
  assert (length x < length b)%nat as Lx by (rewrite (header_length _ _ _ _ _ _ Hd), app_length; lia).
  destruct (IH x Lx) as (ms & Hm).
  assert (length f = 12%nat) as Lf by (destruct Hd as (? & ? & ? & ? & _); auto).
  destruct (names_dec f Lf) as [(c & Hc)|Hc].
  - destruct (N.eq_dec k (checksum d)).
    + exists ((c, d) :: ms). eapply c_message; eauto.
    + exists ms. eapply c_damaged; eauto.
  - exists ms. eapply c_damaged; eauto.
Qed.

Lemma contents_fun b ms1 ms2 : contents magic checksum b ms1 -> contents magic checksum b ms2 -> ms1 = ms2.
Proof.
  intros H1. revert ms2. induction H1; intros ms2 Hx; inversion Hx; subst; auto;
    repeat match goal with
    | A : header ?b _ _ _ _ _, L : (length ?b < 24)%nat |- _ => apply header_length in A; lia
    | A : header ?b _ _ _ _ _, B : header ?b _ _ _ _ _ |- _ =>
        let E1 := fresh in let E2 := fresh in let E3 := fresh in let E4 := fresh in let E5 := fresh in
        destruct (header_fun _ _ _ _ _ _ _ _ _ _ _ A B) as (E1 & E2 & E3 & E4 & E5); clear B; subst
    end;
    try (rewrite app_length in *; lia); try lia; try congruence;
    match goal with
    | E : ?d ++ ?r = ?d' ++ ?r', L : N.of_nat (length ?d) = N.of_nat (length ?d') |- _ =>
        apply app_split in E; [|lia]; destruct E; subst
    end; auto.
  - match goal with O : _ \/ _ |- _ => destruct O as [O|O] end; exfalso; [|congruence].
    match goal with O : forall c, ~ names _ c, N : names _ _ |- _ => exact (O _ N) end.
  - match goal with O : _ \/ _ |- _ => destruct O as [O|O] end; exfalso; [|congruence].
    match goal with O : forall c, ~ names _ c, N : names _ _ |- _ => exact (O _ N) end.
  - f_equal; auto. f_equal. eapply names_fun; eauto.
Qed.

Lemma done_header m x : ok_msg m -> done m ->
  header (m_hdrbuf m ++ m_data m ++ x) (h_start (m_hdrbuf m)) (h_command (m_hdrbuf m)) (N.of_nat (length (m_data m)))
    (h_checksum (m_hdrbuf m)) (m_data m ++ x) /\ (N.of_nat (length (m_data m)) <= largest)%N.
Proof.
  intros O D. destruct (done_facts m O D) as (A1 & A2 & A3 & A4 & A5).
  rewrite <- A5, A3 at 1. split; [apply header_hdr; auto|]. rewrite <- A5. rewrite <- max_size_largest. auto.
Qed.

Lemma process_contents q h w : well q ->
  match process_messages magic checksum q h with
  | WrongStart => True
  | Idle q' => well q' /\ (recv_size q' <= recv_size q)%N /\
      forall ms, contents magic checksum (flat q' ++ w) ms -> contents magic checksum (flat q ++ w) ms
  | Handed c d q' => well q' /\ (recv_size q' <= recv_size q)%N /\
      forall ms, contents magic checksum (flat q' ++ w) ms -> contents magic checksum (flat q ++ w) ((c, d) :: ms)
  | HandedClosed c d | Dangling c d => exists ms, contents magic checksum (flat q ++ w) ((c, d) :: ms)
  end.
Proof.
  induction q as [|m q IH]; intros W; cbn [process_messages].
  { sp; auto. lia. }
  destruct (complete m) eqn:Cm; cbn [negb]; [|sp; auto; lia].
  destruct (well_cons _ _ W) as (O & V & _). specialize (IH V).
  destruct (done_header m (flat q ++ w) O Cm) as [Hd Hl].
  destruct (bytes_eqb (h_start (m_hdrbuf m)) magic) eqn:Es; cbn [negb]; auto.
  pose proof (proj1 (bytes_eqb_spec _ _) Es) as Est.
  assert (recv_size q <= recv_size (m :: q))%N as Hr by (cbn [recv_size fold_right]; unfold recv_size; lia).
  rewrite flat_cons, <- !app_assoc.
  assert (forall P : Prop, ((forall c, ~ names (h_command (m_hdrbuf m)) c) \/ h_checksum (m_hdrbuf m) <> checksum (m_data m)) ->
    match process_messages magic checksum q h with
    | WrongStart => True
    | Idle q' => well q' /\ (recv_size q' <= recv_size (m :: q))%N /\
        forall ms, contents magic checksum (flat q' ++ w) ms -> contents magic checksum (m_hdrbuf m ++ m_data m ++ flat q ++ w) ms
    | Handed c d q' => well q' /\ (recv_size q' <= recv_size (m :: q))%N /\
        forall ms, contents magic checksum (flat q' ++ w) ms -> contents magic checksum (m_hdrbuf m ++ m_data m ++ flat q ++ w) ((c, d) :: ms)
    | HandedClosed c d | Dangling c d => exists ms, contents magic checksum (m_hdrbuf m ++ m_data m ++ flat q ++ w) ((c, d) :: ms)
    end) as Skip.
  { intros _ Hbad. destruct (process_messages magic checksum q h) as [|q'|c d q'|c d|c d]; auto.
    - destruct IH as (I1 & I2 & I3). sp; auto; [lia|]. intros ms Hm. eapply c_damaged; eauto.
    - destruct IH as (I1 & I2 & I3). sp; auto; [lia|]. intros ms Hm. eapply c_damaged; eauto.
    - destruct IH as (ms & Hm). exists ms. eapply c_damaged; eauto.
    - destruct IH as (ms & Hm). exists ms. eapply c_damaged; eauto. }
  assert (is_valid magic (m_hdrbuf m) = valid_command (h_command (m_hdrbuf m))) as Ev.
  { unfold is_valid. rewrite Es. destruct (done_facts m O Cm) as (A1 & A2 & A3 & A4 & A5). rewrite <- A3.
    rewrite (proj2 (N.leb_le _ _) A4). cbn [andb]. apply andb_true_r. }
  rewrite Ev. destruct (valid_command (h_command (m_hdrbuf m))) eqn:Vc; cbn [negb].
  2: { apply (Skip True). left. intros c Hc. apply names_valid in Hc. congruence. }
  destruct (N.eqb_spec (checksum (m_data m)) (h_checksum (m_hdrbuf m))) as [Ek|Ek]; cbn [negb].
  2: { apply (Skip True). right. auto. }
  assert (length (h_command (m_hdrbuf m)) = 12%nat) as L12 by (destruct Hd as (? & ? & ? & ? & _); auto).
  destruct (valid_names _ L12 Vc) as (c & Hc). pose proof (names_command _ _ Hc) as Ec. rewrite Ec.
  assert (forall ms, contents magic checksum (flat q ++ w) ms ->
            contents magic checksum (m_hdrbuf m ++ m_data m ++ flat q ++ w) ((c, m_data m) :: ms)) as Good.
  { intros ms Hm. eapply c_message; eauto. }
  destruct (contents_total (flat q ++ w)) as (ms0 & Hm0).
  destruct (throws h); [destruct (closes h)| |]; try (destruct (closes h || reject_closes h));
    try (exists ms0; auto; fail); sp; auto.
Qed.

Definition peer_inv (b : bytes) (l : link) : Prop :=
  s_queue (l_sender l) = [] /\ s_offset (l_sender l) = 0%nat /\ s_size (l_sender l) = 0%nat /\
  if l_open l then well (l_queue l) /\
       forall ms, contents magic checksum (flat (l_queue l) ++ l_wire l) ms -> contents magic checksum b (l_handed l ++ ms)
  else exists ms, contents magic checksum b (l_handed l ++ ms).

Lemma peer_closed b l : peer_inv b l -> exists ms, contents magic checksum b (l_handed l ++ ms).
Proof.
  intros (_ & _ & _ & I). destruct (l_open l); auto. destruct I as [_ I].
  destruct (contents_total (flat (l_queue l) ++ l_wire l)) as (ms & Hm). eauto.
Qed.

Lemma peer_step flood b l e : peer_inv b l -> no_push e ->
  match step magic checksum flood l e with
  | Failed => False
  | Freed => freed_event e = true
  | Ok l' => peer_inv b l'
  end.
Proof.
  intros I N. pose proof (peer_closed b l I) as C. pose proof I as (I1 & I2 & I3 & I4).
  destruct e as [c d a|a|n x|h|]; cbn [step]; [destruct N| | | |].
  - rewrite I1, I2, I3. cbn. rewrite app_nil_r. split; auto.
  - destruct (l_open l && (waits flood (l_queue l) || x)) eqn:Ho; auto.
    apply andb_prop in Ho. destruct Ho as [Ho _]. rewrite Ho in I4. destruct I4 as [W I4].
    set (n' := Nat.min n _). pose proof (receive_spec _ (l_queue l) (firstn n' (l_wire l)) W (le_n _)) as R.
    destruct (receive_msg_bytes _ _ _) as [| |q]; auto.
    + unfold peer_inv. lk. sp; auto.
    + destruct R as [W' E']. unfold peer_inv. lk. rewrite Ho. sp; auto.
      rewrite E', <- app_assoc, firstn_skipn. auto.
  - destruct (l_open l) eqn:Ho; cbn [negb]; auto.
    destruct I4 as [W I4]. pose proof (process_contents (l_queue l) h (l_wire l) W) as R.
    destruct (process_messages magic checksum (l_queue l) h) as [|q|c d q|c d|c d] eqn:Ep.
    + unfold peer_inv. lk. sp; auto.
    + destruct R as (W' & _ & R). unfold peer_inv. lk. sp; auto.
    + destruct R as (W' & _ & R). unfold peer_inv. lk. sp; auto. intros ms Hm. rewrite <- app_assoc. apply I4. apply R. auto.
    + destruct R as (ms & R). unfold peer_inv. lk. sp; auto. exists ms. rewrite <- app_assoc. apply I4. auto.
    + cbn [freed_event]. clear - Ep. revert Ep. induction (l_queue l) as [|m q IH]; cbn [process_messages]; [discriminate|].
      destruct (negb (complete m)); [discriminate|]. destruct (negb (bytes_eqb _ _)); [discriminate|].
      destruct (negb (is_valid _ _)); auto. destruct (negb (_ =? _)%N); auto.
      destruct (throws h); [destruct (closes h); discriminate| |]; destruct (closes h || reject_closes h); auto; discriminate.
  - unfold peer_inv. lk. sp; auto.
Qed.

Lemma peer_run flood b l es : peer_inv b l -> Forall no_push es ->
  match run magic checksum flood l es with
  | Failed => False
  | Freed => existsb freed_event es = true
  | Ok l' => peer_inv b l'
  end.
Proof.
  revert l. induction es as [|e es IH]; intros l I N; cbn [run]; auto.
  inversion N; subst. pose proof (peer_step flood b l e I H1) as R.
  destruct (step magic checksum flood l e) as [| |l']; cbn [existsb]; try tauto.
  - rewrite R. auto.
  - specialize (IH l' R H2). destruct (run magic checksum flood l' es); auto. rewrite IH. apply orb_true_r.
Qed.

Lemma peer_new b : peer_inv b (from_peer b).
Proof. unfold peer_inv, from_peer. lk. sp; auto. apply well_nil. Qed.

Lemma peer_lemma flood b es l ms : Forall no_push es -> run magic checksum flood (from_peer b) es = Ok l ->
  contents magic checksum b ms ->
  (exists rest, ms = l_handed l ++ rest) /\
  (l_open l = true -> l_wire l = [] -> l_queue l = [] -> l_handed l = ms).
Proof.
  intros N E H. pose proof (peer_run flood b _ es (peer_new b) N) as R. rewrite E in R. split.
  - apply peer_closed in R. destruct R as (ms' & R). exists ms'. eapply contents_fun; eauto.
  - intros Ho Hw Hq. destruct R as (_ & _ & _ & R). rewrite Ho in R. destruct R as [_ R].
    rewrite Hw, Hq in R. specialize (R [] (c_no_header _ _ [] (Nat.lt_0_succ 23))). rewrite app_nil_r in R.
    eapply contents_fun; eauto.
Qed.

Lemma peer_alive flood b es : Forall no_push es -> 
  run magic checksum flood (from_peer b) es <> Failed /\
  (run magic checksum flood (from_peer b) es = Freed -> existsb freed_event es = true).
Proof.
  intros N. pose proof (peer_run flood b _ es (peer_new b) N) as R.
  destruct (run magic checksum flood (from_peer b) es); split; try discriminate; auto; tauto.
Qed.

(** ** Memory *)

Lemma recv_size_cons m q : recv_size (m :: q) = (m_size m + 24 + recv_size q)%N.
Proof. reflexivity. Qed.

Lemma flat_length_le q : Forall ok_msg q -> (N.of_nat (length (flat q)) <= recv_size q)%N.
Proof.
  induction 1 as [|m q O _ IH]; [cbn; lia|]. rewrite recv_size_cons, flat_cons, !app_length.
  destruct (complete m) eqn:Cm.
  - destruct (done_facts m O Cm) as (A1 & A2 & A3 & A4 & A5). lia.
  - destruct (not_done_facts m O Cm) as [(A1 & A2 & A3 & A4) | (A1 & A2 & A3 & A4 & A5)]; [rewrite A4; cbn [length]|]; lia.
Qed.

Lemma recv_size_le q : well q -> (recv_size q <= N.of_nat (length (flat q)) + 24 + max_size)%N.
Proof.
  induction q as [|m q IH]; intros W; [cbn; lia|]. rewrite recv_size_cons, flat_cons, !app_length.
  destruct (well_cons _ _ W) as (O & V & C). destruct (complete m) eqn:Cm.
  - destruct (done_facts m O Cm) as (A1 & A2 & A3 & A4 & A5). specialize (IH V). lia.
  - assert (q = []) as -> by (destruct q; auto; exfalso; assert (done m) as D by (apply C; discriminate); unfold done in D; congruence).
    change (recv_size []) with 0%N.
    destruct (not_done_facts m O Cm) as [(A1 & A2 & A3 & A4) | (A1 & A2 & A3 & A4 & A5)]; lia.
Qed.

Definition limit (flood : N) : N := (N.max flood (max_size + 24) + 65536 + (max_size + 24))%N.

Definition bounded (flood : N) (l : link) : Prop := well (l_queue l) /\ (recv_size (l_queue l) <= limit flood)%N.

Lemma bounded_step flood l e l' : (limit flood < 2 ^ 32)%N -> bounded flood l -> unexceptional e ->
  step magic checksum flood l e = Ok l' -> bounded flood l'.
Proof.
  intros F [W B] U. assert (bounded flood (close l)) as Bc.
  { split; [apply well_nil|]. cbn. unfold limit. lia. }
  destruct e as [c d a|a|n x|h|]; cbn [step].
  - destruct (push_message magic checksum (l_sender l) c d a); [discriminate|]. intros E. injection E as <-. split; auto.
  - destruct (socket_send_data _ _ _ _ _); [discriminate|]. intros E. injection E as <-. split; auto.
  - cbn in U. subst x. rewrite orb_false_r.
    destruct (l_open l && waits flood (l_queue l)) eqn:Ho; [|intros E; injection E as <-; split; auto].
    apply andb_prop in Ho. destruct Ho as [_ Hw].
    set (n' := Nat.min n _). assert (N.of_nat n' <= 65536)%N as Hn by (unfold n'; lia).
    pose proof (receive_spec _ (l_queue l) (firstn n' (l_wire l)) W (le_n _)) as R.
    destruct (receive_msg_bytes _ _ _) as [| |q]; [discriminate| |]; intros E; injection E as <-; [exact Bc|].
    destruct R as [W' E']. split; auto. lk.
    pose proof (recv_size_le q W') as Hq. rewrite E', app_length, firstn_length in Hq.
    assert (N.of_nat (length (flat (l_queue l))) <= N.max flood (max_size + 24))%N as Hf.
    { destruct (l_queue l) as [|m q0] eqn:Eq; [cbn; lia|]. cbn [waits] in Hw. apply orb_prop in Hw.
      destruct (well_cons _ _ W) as (O & _ & C). pose proof (flat_length_le (m :: q0) (proj1 W)) as Hl.
      destruct Hw as [Hw|Hw].
      - assert (complete m = false) as Cm by (destruct (complete m); auto; discriminate).
        assert (q0 = []) as -> by (destruct q0; auto; exfalso; assert (done m) as D by (apply C; discriminate); unfold done in D; congruence).
        rewrite recv_size_cons in Hl. change (recv_size []) with 0%N in Hl.
        destruct (not_done_facts m O Cm) as [(A1 & A2 & A3 & A4) | (A1 & A2 & A3 & A4 & A5)]; lia.
      - rewrite N.mod_small in Hw by (change 4294967296%N with (2 ^ 32)%N; lia). lia. }
    unfold limit. lia.
  - destruct (negb (l_open l)); [intros E; injection E as <-; split; auto|].
    pose proof (process_contents (l_queue l) h [] W) as R.
    destruct (process_messages magic checksum (l_queue l) h) as [|q|c d q|c d|c d]; try discriminate;
      intros E; injection E as <-; auto.
    + destruct R as (R1 & R2 & _). split; auto. lk. lia.
    + destruct R as (R1 & R2 & _). split; auto. lk. lia.
  - intros E. injection E as <-. auto.
Qed.

Lemma bounded_run flood l es l' : (limit flood < 2 ^ 32)%N -> bounded flood l -> Forall unexceptional es ->
  run magic checksum flood l es = Ok l' -> bounded flood l'.
Proof.
  intros F. revert l. induction es as [|e es IH]; intros l B U; cbn [run].
  - intros E. injection E as <-. auto.
  - inversion U; subst. destruct (step magic checksum flood l e) as [| |l1] eqn:Es; try discriminate.
    apply IH; auto. eapply bounded_step; eauto.
Qed.

Lemma bound_lemma flood b es l : (limit flood < 2 ^ 32)%N -> Forall unexceptional es ->
  run magic checksum flood (from_peer b) es = Ok l -> (recv_size (l_queue l) <= limit flood)%N.
Proof.
  intros F U E. apply (bounded_run flood (from_peer b) es l F); auto.
  split; [apply well_nil|]. cbn. unfold limit. lia.
Qed.

(** With exceptional conditions there is no bound. *)
Definition empty_msg : msg := Build_msg true (repeat 0%N 24) 0 [].

Lemma empty_ok : ok_msg empty_msg /\ done empty_msg.
Proof. split; [split; [unfold partial; cbn; sp; auto; lia|discriminate]|reflexivity]. Qed.

Lemma many_empty flood k l : l_open l = true -> Forall ok_msg (l_queue l) -> Forall done (l_queue l) ->
  l_wire l = repeat 0%N (24 * k) ->
  exists l', run magic checksum flood l (repeat (Arrive 24 true) k) = Ok l' /\
    recv_size (l_queue l') = (recv_size (l_queue l) + 24 * N.of_nat k)%N.
Proof.
  revert l. induction k as [|k IH]; intros l Ho O D E.
  - exists l. split; auto. lia.
  - cbn [repeat run step]. rewrite Ho, orb_true_r. cbn [andb].
    assert (l_wire l = repeat 0%N 24 ++ repeat 0%N (24 * k)) as Ew.
    { rewrite E, <- repeat_app. f_equal. lia. }
    assert (Nat.min 24 (Nat.min (N.to_nat 65536) (length (l_wire l))) = 24%nat) as ->.
    { rewrite E, repeat_length. lia. }
    assert (firstn 24 (l_wire l) = repeat 0%N 24) as -> by (rewrite Ew; apply firstn_exact; reflexivity).
    destruct empty_ok as [Ok1 Ok2].
    assert (well (l_queue l)) as W.
    { split; auto. apply Forall_forall. intros m Hm. rewrite Forall_forall in D. apply D.
      clear - Hm. induction (l_queue l) as [|a q IHq]; [destruct Hm|]. cbn in Hm. destruct q; [destruct Hm|].
      destruct Hm as [<-|Hm]; [left|right]; auto. }
    assert (well (l_queue l ++ [empty_msg])) as W2 by (apply well_snoc; auto).
    assert (flat (l_queue l ++ [empty_msg]) = flat (l_queue l) ++ repeat 0%N 24) as Ef.
    { rewrite flat_app, flat_one. reflexivity. }
    pose proof (receive_spec (length (repeat 0%N 24)) (l_queue l) (repeat 0%N 24) W (le_n _)) as R.
    destruct (receive_msg_bytes _ _ _) as [| |q]; [tauto| |].
    + exfalso. rewrite <- Ef in R. eapply not_large; eauto.
    + destruct R as [W' E']. assert (q = l_queue l ++ [empty_msg]) as -> by (apply well_unique; auto; congruence).
      destruct (IH (Build_link (l_sender l) (skipn 24 (l_wire l)) true (l_queue l ++ [empty_msg]) (l_handed l)))
        as (l' & R1 & R2); lk; auto.
      * apply Forall_app. auto.
      * apply Forall_app. auto.
      * rewrite Ew. apply skipn_exact. reflexivity.
      * exists l'. split; auto. rewrite R2. lk.
        assert (forall a b, recv_size (a ++ b) = recv_size a + recv_size b)%N as Ra.
        { intros a b. induction a; [reflexivity|]. cbn [app]. rewrite !recv_size_cons, IHa. lia. }
        rewrite Ra. change (recv_size [empty_msg]) with 24%N. lia.
Qed.

(** A message that is too large closes the connection. *)
Lemma too_large_lemma flood cmd data : (largest < N.of_nat (length data) < 2 ^ 32)%N ->
  step magic checksum flood (from_peer (make cmd data)) (Arrive 24 false) =
  Ok (close (Build_link (Build_sender [] 0 0 true) data true [] [])).
Proof.
  intros H. cbn [step from_peer l_open l_queue waits andb orb l_wire l_sender l_handed].
  assert (Nat.min 24 (Nat.min (N.to_nat 65536) (length (make cmd data))) = 24%nat) as ->.
  { rewrite make_length. lia. }
  rewrite make_shape. rewrite firstn_exact, skipn_exact by apply head_length.
  pose proof (receive_spec (length (head cmd data)) [] (head cmd data) well_nil (le_n _)) as R.
  destruct (receive_msg_bytes _ _ _) as [| |q]; [tauto|reflexivity|]. exfalso. destruct R as [W E].
  apply (not_large q W). rewrite E. exists [], (head cmd data), []. sp; auto.
  - rewrite app_nil_r. reflexivity.
  - apply head_length.
  - unfold head. rewrite h_size_of; auto using field_length. rewrite <- little_4 by auto. rewrite of_le32_le32 by tauto.
    rewrite max_size_largest. tauto.
Qed.

Lemma unbounded_lemma flood bound : exists b es l, Forall no_push es /\
  run magic checksum flood (from_peer b) es = Ok l /\ (bound < recv_size (l_queue l))%N.
Proof.
  destruct (many_empty flood (N.to_nat bound + 1) (from_peer (repeat 0%N (24 * (N.to_nat bound + 1)))))
    as (l & E & R); try reflexivity; try constructor.
  exists (repeat 0%N (24 * (N.to_nat bound + 1))), (repeat (Arrive 24 true) (N.to_nat bound + 1)), l. sp; auto.
  - apply Forall_forall. intros e He. apply repeat_spec in He. subst e. exact I.
  - rewrite R. cbn [from_peer l_queue recv_size fold_right]. lia.
Qed.

Lemma send_whole d : (0 < length d)%nat ->
  socket_send_data [Took (length d)] [d] 0 (length d) true = Sent (Build_sender [] 0 0 true) d.
Proof.
  intros H. cbn [socket_send_data skipn Nat.add]. rewrite Nat.sub_0_r, Nat.min_id, Nat.sub_diag.
  rewrite (proj2 (Nat.ltb_lt _ _) H), (proj2 (Nat.eqb_neq (length d) 0)) by lia. rewrite Nat.eqb_refl.
  cbn [negb Nat.eqb andb add_out]. rewrite firstn_all, app_nil_r. reflexivity.
Qed.

Lemma push_large_lemma flood cmd data : (largest < N.of_nat (length data) < 2 ^ 32)%N ->
  run magic checksum flood new_link [Push cmd data [Took (24 + length data)]; Arrive 24 false] =
  Ok (Build_link (Build_sender [] 0 0 true) data false [] []).
Proof.
  intros H. pose proof (too_large_lemma flood cmd data H) as L.
  assert (step magic checksum flood new_link (Push cmd data [Took (24 + length data)]) = Ok (from_peer (make cmd data))) as E.
  { cbn [step new_link l_sender l_wire l_open l_queue l_handed app].
    unfold push_message. fold (make cmd data). cbn [s_queue s_offset s_size s_open app Nat.add].
    change (S (S (S (S (S (S (S (S (S (S (S (S (S (S (S (S (S (S (S (S (S (S (S (S (length data))))))))))))))))))))))))) with (24 + length data)%nat.
    rewrite <- (make_length cmd data), send_whole; [reflexivity|rewrite make_length; lia]. }
  unfold run. rewrite E, L. reflexivity.
Qed.

End Net.
