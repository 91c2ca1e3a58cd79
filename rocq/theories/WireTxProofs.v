(** Proofs about the bytes of whole transactions and of the other things that are signed. *)
From Coq Require Import String List Bool NArith ZArith Lia Sorting.Sorted.
From Coq Require Import ZifyBool ZifyNat ZifyN.
From Verif Require Import Prelude CodecModel CodecSpec CodecProofs WireModel WireSpec WireForm WireProofs.
Import ListNotations.
Open Scope string_scope.
Open Scope list_scope.
Open Scope N_scope.

Section Txs.
  Variable r3 : Z -> bool.

  Lemma value_items t l : tx_fits r3 t -> wire r3 (tx_type t) = Some l ->
    Forall (entry_ok (tx_get t)) l.
  Proof.
    intros (_ & (l' & W & H)) W'. rewrite W in W'. injection W' as ->.
    pose proof (wire_readable r3 _ _ W) as R. clear W. revert R H. generalize ["nVersion"].
    induction l as [|i l IH]; intros known R H; [constructor|]. cbn [readable] in R.
    destruct R as (_ & _ & R1 & _ & R2). constructor.
    - unfold entry_ok. rewrite R1. apply H. now left.
    - eapply IH; [exact R2|]. intros j Hj. apply H. now right.
  Qed.

  Lemma items_value t l : wire r3 (tx_type t) = Some l -> fits FInt (tx_get t "nVersion") ->
    Forall (entry_ok (tx_get t)) l -> tx_fits r3 t.
  Proof.
    intros W Hv H. split; [exact Hv|]. exists l. split; [exact W|].
    pose proof (wire_readable r3 _ _ W) as R. clear W. revert R H. generalize ["nVersion"].
    induction l as [|i l IH]; intros known R H j Hj; [destruct Hj|]. cbn [readable] in R.
    destruct R as (_ & _ & R1 & _ & R2). inversion H as [|? ? A B]; subst.
    destruct Hj as [<-|Hj]; [|now apply (IH _ R2 B)].
    unfold entry_ok in A. now rewrite R1 in A.
  Qed.

  Lemma keys_items t l : carried_keys r3 t -> wire r3 (tx_type t) = Some l ->
    Forall (entry_keys (tx_get t)) l.
  Proof.
    intros H W. apply Forall_forall. intros i Hi. apply H. right. exists l, i. auto.
  Qed.
  Lemma nonneg_items t l : carried_nonneg r3 t -> wire r3 (tx_type t) = Some l ->
    Forall (entry_nonneg (tx_get t)) l.
  Proof.
    intros H W. apply Forall_forall. intros i Hi. apply H. right. exists l, i. auto.
  Qed.

  (** The entries that are hashed are in order when those that are carried are. *)
  Lemma hashed_items t l : wire r3 (tx_type t) = Some l -> Forall (entry_ok (tx_get t)) l ->
    Forall (entry_keys (tx_get t)) l ->
    exists h, hashed r3 (tx_type t) = Some h /\ Forall (entry_ok (tx_get t)) h /\
      Forall (entry_keys (tx_get t)) h /\
      (Forall (entry_nonneg (tx_get t)) l -> Forall (entry_nonneg (tx_get t)) h).
  Proof.
    intros W H1 H2. destruct (hashed_sent r3 _ _ W) as (h & Hh & HI). exists h.
    split; [exact Hh|]. rewrite Forall_forall in H1, H2.
    assert (N1 : forall i, In i h -> exists j, In j l /\ i_name j = i_name i).
    { intros i Hi. destruct (HI i Hi) as [Q|[(_ & -> & Q)|(_ & -> & Q)]].
      - eauto.
      - eexists; split; [exact Q|reflexivity].
      - eexists; split; [exact Q|reflexivity]. }
    split; [|split]; [apply Forall_forall|apply Forall_forall|].
    - intros i Hi. destruct (HI i Hi) as [Q|[(_ & -> & Q)|(_ & -> & Q)]]; [auto| |].
      + specialize (H1 _ Q). unfold entry_ok in *. cbn [i_fmt i_on i_view i_name fld short_index seen] in *.
        revert H1. generalize (tx_get t "utxo_vout_index") as v. intros v H1.
        inversion H1; subst. constructor. assumption.
      + specialize (H1 _ Q). unfold entry_ok in *.
        cbn [i_fmt i_on i_view i_name fld signer_accounts seen] in *.
        revert H1. generalize (tx_get t "signatures") as v. intros v H1.
        inversion H1 as [| | | | | | | | | | | | | |a l0 Hl Hf| |]; subst.
        constructor; [rewrite map_length; exact Hl|]. rewrite Forall_map.
        eapply Forall_impl; [|exact Hf]. intros x Hx. unfold f_signer in Hx. cbn [struct] in Hx.
        inversion Hx; subst. cbn [first_of]. assumption.
    - intros i Hi. destruct (N1 i Hi) as (j & Hj & E). unfold entry_keys. rewrite <- E.
      exact (H2 j Hj).
    - intros H3. rewrite Forall_forall in *. intros i Hi.
      destruct (N1 i Hi) as (j & Hj & E). unfold entry_nonneg. rewrite <- E. exact (H3 j Hj).
  Qed.

  Lemma version_ok t : tx_fits r3 t -> fits FInt (tx_get t "nVersion").
  Proof. intros H. apply H. Qed.
  Lemma sent_version t : carried r3 t "nVersion".
  Proof. now left. Qed.

  (** Transactions without invalid keys can be written and hashed. *)
  Lemma write_total t : tx_fits r3 t -> carried_keys r3 t ->
    (exists s, write_tx r3 t = Some s) /\ (exists s, preimage r3 t = Some s).
  Proof.
    intros Hv Hk. destruct (tv_fields r3 t Hv) as (l & W & _).
    pose proof (value_items t l Hv W) as H1. pose proof (keys_items t l Hk W) as H2.
    destruct (hashed_items t l W H1 H2) as (h & Hh & H3 & H4 & _).
    destruct (enc_total _ _ (version_ok t Hv)) as (a & Ea); [apply Hk, sent_version|].
    destruct (items_total _ _ H1 H2) as (b & Eb). destruct (items_total _ _ H3 H4) as (c & Ec).
    unfold write_tx, preimage. rewrite W, Hh. cbn [bind_opt]. rewrite Ea. cbn [bind_opt].
    rewrite Eb, Ec. cbn. eauto.
  Qed.

  Lemma signatures_list t : tx_fits r3 t -> tx_type t = 100 ->
    exists l, tx_get t "signatures" = VList l.
  Proof.
    intros (_ & (l & W & H)) E. rewrite E in W. injection W as <-.
    specialize (H (fld "signatures" (FList f_signer))). cbn [i_fmt i_name i_on fld] in H.
    assert (Q : fits (FList f_signer) (tx_get t "signatures")) by (apply H; cbn; tauto).
    revert Q. generalize (tx_get t "signatures") as v. intros v Q. inversion Q; subst. eauto.
  Qed.

  Lemma seen_signers l1 l2 : seen Firsts (VList l1) = seen Firsts (VList l2) <->
    signers (VList l1) = signers (VList l2).
  Proof.
    cbn [seen signers]. split; [intros E; injection E; auto|intros E; f_equal; exact E].
  Qed.

  (** The hash depends on what the transaction says only. *)
  Lemma preimage_same t u : tx_fits r3 t -> tx_fits r3 u ->
    carried_content r3 settle_fees t u -> preimage r3 t = preimage r3 u.
  Proof.
    intros Ht Hu (E1 & E2 & E3). destruct (tv_fields r3 t Ht) as (l & W & _).
    unfold preimage. rewrite <- E1.
    destruct (hashed r3 (tx_type t)) as [h|] eqn:Hh; [|reflexivity]. cbn [bind_opt].
    assert (Ev : tx_get t "nVersion" = tx_get u "nVersion").
    { apply E2; [apply sent_version| |].
      - intros [Q|[(_ & Q)|(_ & Q)]]; discriminate Q.
      - intros (_ & Q). discriminate Q. }
    rewrite Ev. rewrite (items_same (tx_get t) (tx_get u) h ["nVersion"]); [reflexivity| | |].
    - eapply hashed_distinct; eassumption.
    - intros n [<-|[]]. exact Ev.
    - intros i Hi. destruct (hashed_whole r3 _ _ Hh i Hi) as [(V & S & L)|(T & Nm & V)].
      + rewrite V. cbn [seen]. apply E2; [|exact S|exact L].
        destruct (hashed_sent r3 _ _ W) as (h' & Hh' & HI). rewrite Hh in Hh'.
        injection Hh' as <-. right. exists l.
        destruct (HI i Hi) as [Q|[(_ & -> & Q)|(_ & -> & Q)]]; eexists;
          (split; [exact W|]; split; [exact Q|reflexivity]).
      + rewrite V, Nm. specialize (E3 T).
        destruct (signatures_list t Ht T) as (l1 & Q1). rewrite E1 in T.
        destruct (signatures_list u Hu T) as (l2 & Q2). rewrite Q1, Q2 in *.
        now apply seen_signers.
  Qed.

  Lemma preimage_parts t : tx_fits r3 t -> carried_keys r3 t -> carried_nonneg r3 t ->
    exists h a b, hashed r3 (tx_type t) = Some h /\ write_items (tx_get t) h = Some b /\
      preimage r3 t = Some (a ++ tx_type t :: b) /\
      Forall (entry_ok (tx_get t)) h /\ Forall (entry_keys (tx_get t)) h /\
      Forall (entry_nonneg (tx_get t)) h /\
      forall rest, dec FInt (a ++ rest) = Got (tx_get t "nVersion") rest.
  Proof.
    intros Hv Hk Hn. destruct (tv_fields r3 t Hv) as (l & W & _).
    pose proof (value_items t l Hv W) as H1. pose proof (keys_items t l Hk W) as H2.
    pose proof (nonneg_items t l Hn W) as H3.
    destruct (hashed_items t l W H1 H2) as (h & Hh & G1 & G2 & G3). specialize (G3 H3).
    destruct (enc_dec _ _ (version_ok t Hv)) as (a & Ea & Ra);
      [apply Hk, sent_version|apply Hn, sent_version|].
    destruct (items_total _ _ G1 G2) as (b & Eb). exists h, a, b.
    split; [exact Hh|]. split; [exact Eb|]. split; [|auto].
    unfold preimage. rewrite Hh. cbn [bind_opt]. rewrite Ea. cbn [bind_opt]. rewrite Eb. reflexivity.
  Qed.

  (** Equal hashes stand for the same content. *)
  Lemma preimage_inj t u : tx_fits r3 t -> carried_keys r3 t -> carried_nonneg r3 t ->
    tx_fits r3 u -> carried_keys r3 u -> carried_nonneg r3 u ->
    preimage r3 t = preimage r3 u -> carried_content r3 settle_fees t u.
  Proof.
    intros Ht1 Ht2 Ht3 Hu1 Hu2 Hu3 E.
    destruct (preimage_parts t Ht1 Ht2 Ht3) as (h & a & b & Hh & Eb & P & K1 & K2 & K3 & R).
    destruct (preimage_parts u Hu1 Hu2 Hu3) as (h' & a' & b' & Hh' & Eb' & P' & K1' & K2' & K3' & R').
    rewrite P, P' in E. injection E as E. specialize (R (tx_type t :: b)).
    rewrite E, R' in R. injection R as Ev Et Er. symmetry in Et.
    rewrite <- Et, Hh in Hh'. injection Hh' as <-.
    assert (E0 : b ++ [] = b' ++ []) by congruence.
    destruct (items_inj (tx_get t) (tx_get u) h) with (known := ["nVersion"]) (s1 := b) (s2 := b')
      (r1 := @nil N) (r2 := @nil N) as (_ & Q); try assumption.
    - eapply hashed_distinct; eassumption.
    - intros n [<-|[]]. congruence.
    - destruct (tv_fields r3 t Ht1) as (l & W & _).
      split; [exact Et|]. split.
      + intros n Hs S L. destruct Hs as [->|(l' & i & W' & Hi & <-)]; [congruence|].
        rewrite W in W'. injection W' as <-.
        destruct (sent_hashed r3 _ _ _ W Hh i Hi) as [Z|[Z|(j & Hj & <- & V)]]; [tauto|tauto|].
        specialize (Q j Hj). rewrite V in Q. exact Q.
      + intros T. rewrite T in Hh. destruct (signers_hashed r3 h Hh) as (i & Hi & Nm & V).
        specialize (Q i Hi). rewrite V, Nm in Q.
        destruct (signatures_list t Ht1 T) as (l1 & Q1). rewrite Et in T.
        destruct (signatures_list u Hu1 T) as (l2 & Q2). rewrite Q1, Q2 in *.
        now apply seen_signers.
  Qed.

  Lemma same_tx_content t u : carried_same r3 t u -> carried_content r3 settle_fees t u.
  Proof.
    intros (E & H). split; [exact E|]. split; [intros n Hs _ _; auto|].
    intros T. rewrite H; [reflexivity|]. rewrite T. right.
    eexists. exists (fld "signatures" (FList f_signer)). split; [reflexivity|].
    split; [cbn; tauto|reflexivity].
  Qed.

  Lemma type_byte t l : wire r3 t = Some l -> t < 256.
  Proof.
    intros H. apply wire_types in H. cbn in H.
    repeat (destruct H as [<-|H]; [reflexivity|]). destruct H.
  Qed.

  Lemma same_tx_value t u : carried_same r3 t u -> tx_fits r3 t -> tx_fits r3 u.
  Proof.
    intros (E & H) Hv. destruct (tv_fields r3 t Hv) as (l & W & Hl). split.
    - rewrite <- H by apply sent_version. apply Hv.
    - exists l. rewrite <- E. split; [exact W|]. intros i Hi.
      assert (K : forall l known, readable known l -> forall i, In i l ->
                  In (i_on i) known \/ exists j, In j l /\ i_name j = i_on i).
      { clear. induction l as [|x l IH]; intros known R i Hi; [destruct Hi|]. cbn [readable] in R.
        destruct R as (R1 & _ & _ & _ & R2). destruct Hi as [<-|Hi]; [auto|].
        destruct (IH _ R2 i Hi) as [[Q|Q]|(j & Hj & Q)].
        - right. exists x. split; [now left|exact Q].
        - auto.
        - right. exists j. split; [now right|exact Q]. }
      rewrite <- (H (i_name i)) by (right; exists l, i; auto).
      rewrite <- (H (i_on i)).
      + now apply Hl.
      + destruct (K l _ (wire_readable r3 _ _ W) i Hi) as [[Q|[]]|(j & Hj & Q)].
        * rewrite <- Q. apply sent_version.
        * right. exists l, j. auto.
  Qed.

  (** Writing a transaction and reading it. *)
  Lemma tx_round_trip t : tx_fits r3 t -> carried_keys r3 t -> carried_nonneg r3 t ->
    exists s, write_tx r3 t = Some s /\ forall rest, exists u,
      read_tx r3 (s ++ rest) = Got u rest /\ carried_same r3 t u.
  Proof.
    intros Hv Hk Hn. destruct (tv_fields r3 t Hv) as (l & W & _).
    pose proof (value_items t l Hv W) as H1. pose proof (keys_items t l Hk W) as H2.
    pose proof (nonneg_items t l Hn W) as H3.
    destruct (enc_dec _ _ (version_ok t Hv)) as (a & Ea & Ra);
      [apply Hk, sent_version|apply Hn, sent_version|].
    destruct (items_round_trip _ l H1 H2 H3 ["nVersion"]
                (set (fun _ => VUnit) "nVersion" (tx_get t "nVersion"))) as (b & Eb & Rb).
    { eapply wire_readable; eassumption. }
    { intros n [<-|[]]. reflexivity. }
    exists (tx_type t :: a ++ b). unfold write_tx. rewrite W. cbn [bind_opt]. rewrite Ea.
    cbn [bind_opt]. rewrite Eb. split; [reflexivity|]. intros rest.
    destruct (Rb rest) as (g & Eg & Hg). exists {| tx_type := tx_type t; tx_get := g |}.
    unfold read_tx. cbn [app read_le of_option got_bind].
    replace (tx_type t + 256 * 0) with (tx_type t) by lia. rewrite W.
    rewrite <- app_assoc, Ra. cbn [got_bind]. rewrite Eg. cbn [got_bind].
    split; [reflexivity|]. split; [reflexivity|]. cbn [tx_get tx_type].
    intros n Hs. symmetry. apply Hg. destruct Hs as [->|(l' & i & W' & Hi & <-)].
    - left. now left.
    - right. rewrite W in W'. injection W' as <-. now apply in_map.
  Qed.

  (** What is read is a transaction. *)
  Lemma tx_received s t r : bytes s -> read_tx r3 s = Got t r -> tx_fits r3 t /\ bytes r.
  Proof.
    intros Hs. unfold read_tx. destruct (read_le 1 s) as [[n s1]|] eqn:E1; [|discriminate].
    cbn [of_option got_bind]. destruct (read_le_some _ _ _ _ Hs E1) as (_ & Es).
    assert (B1 : bytes s1) by (rewrite Es in Hs; apply Forall_app in Hs; tauto).
    destruct (wire r3 n) as [l|] eqn:W; [|discriminate].
    destruct (dec FInt s1) as [v s2| |] eqn:E2; cbn [got_bind]; try discriminate.
    destruct (dec_fits FInt I _ _ _ B1 E2) as (Fv & B2).
    destruct (read_items _ l s2) as [g s3| |] eqn:E3; cbn [got_bind]; try discriminate.
    intros [= <- <-].
    destruct (items_fits l ["nVersion"] _ _ _ _ (wire_readable r3 _ _ W) B2 E3) as (Q1 & Q2 & Q3).
    split; [|exact Q3]. eapply items_value; cbn [tx_type tx_get]; [exact W| |exact Q2].
    rewrite Q1 by now left. exact Fv.
  Qed.

  (** ** The other things that are signed *)

  Lemma app_len {A} (a b : list A) x y : length a = length b -> a ++ x = b ++ y -> a = b /\ x = y.
  Proof.
    revert b. induction a as [|h a IH]; intros [|k b] L E; try discriminate; [auto|].
    cbn in *. injection E as -> E. injection L as L. destruct (IH b L E) as (-> & ->). auto.
  Qed.

  Lemma le_inj k m n x y : m < 256 ^ N.of_nat k -> n < 256 ^ N.of_nat k ->
    le_bytes k m ++ x = le_bytes k n ++ y -> m = n /\ x = y.
  Proof.
    intros Hm Hn E. pose proof (read_le_bytes k m x Hm) as R. rewrite E, read_le_bytes in R by exact Hn.
    injection R as -> ->. auto.
  Qed.

  Lemma string_inj a b x y : N.of_nat (length a) <= 4000000 -> N.of_nat (length b) <= 4000000 ->
    write_string a ++ x = write_string b ++ y -> a = b /\ x = y.
  Proof.
    intros Ha Hb E. pose proof (string_round_trip a x Ha) as R.
    rewrite E, string_round_trip in R by exact Hb. injection R as -> ->. auto.
  Qed.

  Lemma hex_digit_range d : d < 16 -> 48 <= hex_digit d <= 57 \/ 97 <= hex_digit d <= 102.
  Proof. unfold hex_digit. destruct (N.ltb_spec d 10); lia. Qed.
  Lemma hex_digit_inj c d : c < 16 -> d < 16 -> hex_digit c = hex_digit d -> c = d.
  Proof. unfold hex_digit. destruct (N.ltb_spec c 10), (N.ltb_spec d 10); lia. Qed.

  Lemma hex_length b : length (hex_of b) = (2 * length b)%nat.
  Proof. induction b as [|x b IH]; [reflexivity|]. cbn [hex_of flat_map app length] in *.
    unfold hex_of in IH. rewrite IH. lia. Qed.

  Lemma hex_inj a : forall b, bytes a -> bytes b -> hex_of a = hex_of b -> a = b.
  Proof.
    induction a as [|x a IH]; intros [|y b] Ha Hb E; try discriminate; [reflexivity|].
    inversion Ha as [|? ? X A]; inversion Hb as [|? ? Y B]; subst.
    cbn [hex_of flat_map app] in E. injection E as E1 E2 E3.
    apply hex_digit_inj in E1; [|apply N.div_lt_upper_bound; lia..].
    apply hex_digit_inj in E2; [|apply N.mod_lt; lia..].
    f_equal; [|now apply IH]. rewrite (N.div_mod x 16), (N.div_mod y 16) by lia. congruence.
  Qed.

  Lemma hex_digits b : bytes b -> Forall (fun c => 48 <= c <= 57 \/ 97 <= c <= 102) (hex_of b).
  Proof.
    induction 1 as [|x b X _ IH]; [constructor|]. cbn [hex_of flat_map app].
    constructor; [apply hex_digit_range, N.div_lt_upper_bound; lia|].
    constructor; [apply hex_digit_range, N.mod_lt; lia|exact IH].
  Qed.

  Lemma hex_text_length b : length (hex_text b) = (2 * length b)%nat.
  Proof. unfold hex_text. rewrite hex_length, rev_length. reflexivity. Qed.

  (** The first bytes of a transaction's hash input: a small version and then the type. *)
  Lemma preimage_front t v c x : tx_fits r3 t -> carried_keys r3 t -> carried_nonneg r3 t ->
    v < 128 -> preimage r3 t = Some (v :: c :: x) -> c = tx_type t /\ In c types /\
      exists h, hashed r3 c = Some h /\ write_items (tx_get t) h = Some x.
  Proof.
    intros H1 H2 H3 Hv E.
    destruct (preimage_parts t H1 H2 H3) as (h & a & b & Hh & Eb & P & _ & _ & _ & R).
    rewrite P in E. injection E as E. specialize (R (tx_type t :: b)). rewrite E in R.
    assert (Z : dec FInt (v :: c :: x) = Got (VInt (Z.of_N v)) (c :: x)).
    { cbn [dec]. unfold read_int. change (v :: c :: x) with ([] ++ v :: c :: x).
      change 0%Z with (Z.of_N 0). rewrite read_int_cont; [|constructor|exact Hv|cbn; lia].
      cbn [fold_left got_bind]. unfold to_int. replace (0 * 128 + v <? 2147483648) with true by lia.
      repeat f_equal. }
    rewrite Z in R. injection R as _ -> ->. split; [reflexivity|].
    split; [eapply hashed_types; eassumption|eauto].
  Qed.

  Lemma userid_front u s : userid_ok u -> write_userid u = Bytes s ->
    exists b x, s = b :: x /\ b < 48.
  Proof.
    destruct u as [|r|k|p]; cbn [userid_ok write_userid].
    - intros _ [= <-]. exists 0, []. split; [reflexivity|lia].
    - intros Hr. destruct (_ && _) eqn:Q; [|discriminate].
      destruct (write_regid r) as [b|]; [|discriminate]. intros [= <-].
      exists (regid_size r), b. split; [reflexivity|lia].
    - intros _. destruct (_ =? _); [|discriminate]. intros [= <-]. exists 20, k. split; [reflexivity|lia].
    - intros _. destruct (_ =? _); [|discriminate]. destruct p as [b|]; [|discriminate].
      intros [= <-]. exists 33, b. split; [reflexivity|lia].
  Qed.

  (** No transaction's hash input is 64, a hexadecimal digit, and three more of them. *)
  Lemma not_hex t c d e x : tx_fits r3 t -> carried_keys r3 t -> carried_nonneg r3 t ->
    (48 <= c <= 57 \/ 97 <= c <= 102) -> (48 <= d <= 57 \/ 97 <= d <= 102) ->
    (48 <= e <= 57 \/ 97 <= e <= 102) ->
    preimage r3 t <> Some (64 :: c :: d :: e :: x).
  Proof.
    intros H1 H2 H3 Hc Hd He E.
    destruct (preimage_front t 64 c (d :: e :: x) H1 H2 H3 ltac:(lia) E) as (Ec & Hin & h & Hh & Wh).
    assert (C : c = 50 \/ c = 100).
    { cbn [types In] in Hin. clear - Hin Hc. lia. }
    assert (G : exists h', h = height :: uid :: h').
    { destruct C as [->| ->]; cbn [hashed] in Hh; injection Hh as <-; eexists; reflexivity. }
    destruct G as (h' & ->). destruct (tv_fields r3 t H1) as (l & W & F).
    assert (I1 : In height l /\ In uid l).
    { clear - C W Ec. rewrite <- Ec in W.
      destruct C as [->| ->]; cbn [wire] in W; injection W as <-; cbn; tauto. }
    destruct I1 as (I1 & I2). pose proof (F _ I1) as F1. pose proof (F _ I2) as F2.
    cbn [i_fmt i_on i_name height uid fld] in F1, F2.
    assert (K1 : keys_valid (tx_get t "valid_height"))
      by (apply H2; right; exists l, height; auto).
    assert (K2 : keys_valid (tx_get t "txUid")) by (apply H2; right; exists l, uid; auto).
    assert (N1 : nonneg (tx_get t "valid_height")) by (apply H3; right; exists l, height; auto).
    destruct (enc_dec _ _ F1 K1 N1) as (a & Ea & Ra).
    cbn [write_items i_fmt i_on i_view i_name height uid fld seen] in Wh.
    rewrite Ea in Wh. cbn [bind_opt] in Wh.
    destruct (enc_total _ _ F2 K2) as (b & Eb). rewrite Eb in Wh. cbn [bind_opt] in Wh.
    destruct (write_items (tx_get t) h') as [y|]; [|discriminate]. cbn [bind_opt] in Wh.
    injection Wh as Wh. specialize (Ra (b ++ y)). rewrite Wh in Ra.
    assert (Z : dec FInt (d :: e :: x) = Got (VInt (Z.of_N d)) (e :: x)).
    { cbn [dec]. unfold read_int. change (d :: e :: x) with ([] ++ d :: e :: x).
      change 0%Z with (Z.of_N 0). rewrite read_int_cont; [|constructor|lia|cbn; lia].
      cbn [fold_left got_bind]. unfold to_int. replace (0 * 128 + d <? 2147483648) with true by lia.
      repeat f_equal. }
    rewrite Z in Ra. injection Ra as _ Ra.
    revert Eb F2 K2. generalize (tx_get t "txUid") as v. intros v Eb F2 K2.
    inversion F2 as [| | | | | | | | | |u Hu| | | | | |]; subst. cbn [enc] in Eb.
    destruct (write_userid u) as [b'|] eqn:Wu; [|discriminate]. injection Eb as <-.
    destruct (userid_front u b' (uid_value_keys u Hu K2) Wu) as (f & z & -> & Hf).
    cbn [app] in Ra. injection Ra as Q1 _. subst f. lia.
  Qed.

  Lemma some_inj {A} (a b : A) : Some a = Some b -> a = b.
  Proof. congruence. Qed.

  Lemma signed_apart x y : proper_form r3 x -> proper_form r3 y -> hash_input r3 x = hash_input r3 y ->
    match x, y with
    | STx _, STx _ | SBlock _ _ _ _ _ _ _ _, SBlock _ _ _ _ _ _ _ _
    | SVote _ _ _ _ _, SVote _ _ _ _ _ | SText _, SText _ | SShared _ _ _ _, SShared _ _ _ _ => True
    | _, _ => False
    end.
  Proof.
    assert (Z0 : ~ In 0 types) by (cbn; intuition discriminate).
    assert (Z67 : ~ In 67 types) by (cbn; intuition discriminate).
    assert (TB : forall t v p m a b c d e, proper_form r3 (STx t) -> v = 1 ->
              hash_input r3 (STx t) = hash_input r3 (SBlock v p m a b c d e) -> False).
    { intros t v p m a b c d e (H1 & H2 & H3) -> E. cbn [hash_input] in E.
      apply Z0. eapply (preimage_front t 1 0); [exact H1|exact H2|exact H3|lia|exact E]. }
    assert (TV : forall t k b h m p, proper_form r3 (STx t) -> proper_form r3 (SVote k b h m p) ->
              hash_input r3 (STx t) = hash_input r3 (SVote k b h m p) -> False).
    { intros t k b h m p (H1 & H2 & H3) (Hk & _ & _ & Hm & _) E. cbn [hash_input] in E.
      destruct (write_regid_total m Hm) as (s & Es). rewrite Es in E. cbn [bind_opt] in E.
      apply Z0. destruct Hk as [->| ->];
        (eapply (preimage_front t _ 0); [exact H1|exact H2|exact H3| |exact E]; lia). }
    assert (TS : forall t s, proper_form r3 (STx t) ->
              hash_input r3 (STx t) = hash_input r3 (SText s) -> False).
    { intros t s (H1 & H2 & H3) E. cbn [hash_input] in E. apply Z67.
      eapply (preimage_front t 21 67); [exact H1|exact H2|exact H3|lia|exact E]. }
    assert (SH : forall p i k s, proper_form r3 (SShared p i k s) -> exists c d e z,
              hash_input r3 (SShared p i k s) = Some (64 :: c :: d :: e :: z) /\
              (48 <= c <= 57 \/ 97 <= c <= 102) /\ (48 <= d <= 57 \/ 97 <= d <= 102) /\
              (48 <= e <= 57 \/ 97 <= e <= 102)).
    { intros p i k s (L & B & _). cbn [hash_input]. unfold write_string at 1.
      rewrite hex_text_length, L. pose proof (hex_text_length p) as L2. rewrite L in L2.
      assert (B2 : Forall (fun c => 48 <= c <= 57 \/ 97 <= c <= 102) (hex_text p))
        by (apply hex_digits, Forall_rev, B).
      destruct (hex_text p) as [|c [|d [|e z]]]; try discriminate.
      inversion B2 as [|? ? Q1 B3]; inversion B3 as [|? ? Q2 B4]; inversion B4 as [|? ? Q3 B5]; subst.
      exists c, d, e. eexists. split; [reflexivity|auto]. }
    assert (TH : forall t p i k s, proper_form r3 (STx t) -> proper_form r3 (SShared p i k s) ->
              hash_input r3 (STx t) = hash_input r3 (SShared p i k s) -> False).
    { intros t p i k s (H1 & H2 & H3) P E. destruct (SH p i k s P) as (c & d & e & z & Q & ? & ? & ?).
      rewrite Q in E. cbn [hash_input] in E. revert E. now apply not_hex. }
    assert (BV : forall v q m a b c d e k bl h mi p, proper_form r3 (SBlock v q m a b c d e) ->
              proper_form r3 (SVote k bl h mi p) ->
              hash_input r3 (SBlock v q m a b c d e) = hash_input r3 (SVote k bl h mi p) -> False).
    { intros v q m a b c d e k bl h mi p (_ & L1 & L2 & _) (_ & L3 & _ & Hm & L4) E.
      cbn [hash_input] in E.
      destruct (regid_serial_round_trip mi Hm) as (s & Es & _ & Ls & Rs & _).
      rewrite Es in E. cbn [bind_opt] in E. apply some_inj in E.
      apply (f_equal (@length N)) in E. rewrite !app_length, !le_bytes_length in E. lia. }
    assert (front1 : forall v q m a b c d e, proper_form r3 (SBlock v q m a b c d e) ->
              exists z, hash_input r3 (SBlock v q m a b c d e) = Some (1 :: z)).
    { intros v q m a b c d e (-> & _). eexists. reflexivity. }
    assert (front2 : forall k bl h mi p, proper_form r3 (SVote k bl h mi p) ->
              exists f z, hash_input r3 (SVote k bl h mi p) = Some (f :: z) /\ (f = 1 \/ f = 2)).
    { intros k bl h mi p (Hk & _ & _ & Hm & _). cbn [hash_input].
      destruct (write_regid_total mi Hm) as (s & Es). rewrite Es. cbn [bind_opt].
      destruct Hk as [->| ->]; do 2 eexists; split; try reflexivity; auto. }
    assert (front3 : forall s, exists z, hash_input r3 (SText s) = Some (21 :: z)).
    { intros s. eexists. reflexivity. }
    intros Px Py E.
    destruct x as [t|v q m a b c d e|k bl h mi p|s|p i k s];
      destruct y as [t'|v' q' m' a' b' c' d' e'|k' bl' h' mi' p'|s'|p' i' k' s']; try exact I.
    - eapply TB; [exact Px| |exact E]. apply Py.
    - eapply TV; eassumption.
    - eapply TS; eassumption.
    - eapply TH; eassumption.
    - eapply TB; [exact Py| |symmetry; exact E]. apply Px.
    - eapply BV; eassumption.
    - destruct (front1 _ _ _ _ _ _ _ _ Px) as (z & Q). destruct (front3 s') as (z' & Q').
      rewrite Q, Q' in E. discriminate E.
    - destruct (front1 _ _ _ _ _ _ _ _ Px) as (z & Q).
      destruct (SH _ _ _ _ Py) as (? & ? & ? & z' & Q' & _). rewrite Q, Q' in E. discriminate E.
    - eapply TV; [exact Py|exact Px|symmetry; exact E].
    - eapply BV; [exact Py|exact Px|symmetry; exact E].
    - destruct (front2 _ _ _ _ _ Px) as (f & z & Q & [->| ->]); destruct (front3 s') as (z' & Q');
        rewrite Q, Q' in E; discriminate E.
    - destruct (SH _ _ _ _ Py) as (? & ? & ? & z' & Q' & _).
      destruct (front2 _ _ _ _ _ Px) as (f & z & Q & [->| ->]); rewrite Q, Q' in E; discriminate E.
    - eapply TS; [exact Py|symmetry; exact E].
    - destruct (front1 _ _ _ _ _ _ _ _ Py) as (z & Q). destruct (front3 s) as (z' & Q').
      rewrite Q, Q' in E. discriminate E.
    - destruct (front2 _ _ _ _ _ Py) as (f & z & Q & [->| ->]); destruct (front3 s) as (z' & Q');
        rewrite Q, Q' in E; discriminate E.
    - destruct (front3 s) as (z & Q). destruct (SH _ _ _ _ Py) as (? & ? & ? & z' & Q' & _).
      rewrite Q, Q' in E. discriminate E.
    - eapply TH; [exact Py|exact Px|symmetry; exact E].
    - destruct (front1 _ _ _ _ _ _ _ _ Py) as (z & Q).
      destruct (SH _ _ _ _ Px) as (? & ? & ? & z' & Q' & _). rewrite Q, Q' in E. discriminate E.
    - destruct (SH _ _ _ _ Px) as (? & ? & ? & z' & Q' & _).
      destruct (front2 _ _ _ _ _ Py) as (f & z & Q & [->| ->]); rewrite Q, Q' in E; discriminate E.
    - destruct (front3 s') as (z & Q). destruct (SH _ _ _ _ Px) as (? & ? & ? & z' & Q' & _).
      rewrite Q, Q' in E. discriminate E.
  Qed.

  Lemma signed_same x y : proper_form r3 x -> proper_form r3 y -> hash_input r3 x = hash_input r3 y ->
    same_form r3 x y.
  Proof.
    intros Px Py E. pose proof (signed_apart x y Px Py E) as S. destruct pow256 as (P2 & P4 & P8).
    destruct x as [t|v q m a b c d e|k bl h mi p|s|p i k s];
      destruct y as [t'|v' q' m' a' b' c' d' e'|k' bl' h' mi' p'|s'|p' i' k' s'];
      try contradiction S; clear S; cbn [proper_form hash_input same_form] in *.
    - destruct Px as (X1 & X2 & X3), Py as (Y1 & Y2 & Y3). now apply preimage_inj.
    - destruct Px as (-> & X1 & X2 & X3 & X4 & X5 & X6 & X7).
      destruct Py as (-> & Y1 & Y2 & Y3 & Y4 & Y5 & Y6 & Y7). apply some_inj in E.
      apply app_inv_head in E.
      apply app_len in E as (-> & E); [|congruence].
      apply app_len in E as (-> & E); [|congruence].
      apply le_inj in E as (-> & E); [|rewrite P4; assumption..].
      apply le_inj in E as (-> & E); [|rewrite P4; assumption..].
      apply le_inj in E as (-> & E); [|rewrite P4; assumption..].
      apply le_inj in E as (-> & E); [|rewrite P8; assumption..].
      rewrite <- (app_nil_r (le_bytes 4 e)), <- (app_nil_r (le_bytes 4 e')) in E.
      apply le_inj in E as (-> & _); [|rewrite P4; assumption..]. reflexivity.
    - destruct Px as (X1 & X2 & X3 & X4 & X5), Py as (Y1 & Y2 & Y3 & Y4 & Y5).
      destruct (regid_serial_round_trip mi X4) as (s & Es & _ & _ & _ & R).
      destruct (regid_serial_round_trip mi' Y4) as (s' & Es' & _ & _ & _ & R').
      rewrite Es, Es' in E. cbn [bind_opt] in E. apply some_inj in E.
      apply le_inj in E as (-> & E); [|rewrite P4; lia..].
      apply app_len in E as (-> & E); [|congruence].
      apply le_inj in E as (-> & E); [|rewrite P4; assumption..].
      specialize (R p). rewrite E, R' in R. injection R as -> ->. reflexivity.
    - apply some_inj, app_inv_head in E.
      rewrite <- (app_nil_r (write_string s)), <- (app_nil_r (write_string s')) in E.
      apply string_inj in E as (-> & _); [|assumption..]. reflexivity.
    - destruct Px as (X1 & X2 & X3 & X4 & X5 & X6), Py as (Y1 & Y2 & Y3 & Y4 & Y5 & Y6).
      apply some_inj in E.
      apply string_inj in E as (E1 & E); [|rewrite hex_text_length, X1; cbn; lia|
                                           rewrite hex_text_length, Y1; cbn; lia].
      apply hex_inj in E1; [|now apply Forall_rev..].
      apply (f_equal (@rev N)) in E1. rewrite !rev_involutive in E1. subst p'.
      apply le_inj in E as (-> & E); [|rewrite P2; assumption..].
      apply string_inj in E as (E1 & E); [|rewrite hex_length, X4; cbn; lia|
                                           rewrite hex_length, Y4; cbn; lia].
      apply hex_inj in E1; [|assumption..]. subst k'.
      rewrite <- (app_nil_r (write_string s)), <- (app_nil_r (write_string s')) in E.
      apply string_inj in E as (-> & _); [|assumption..]. reflexivity.
  Qed.
End Txs.

(** ** Checking that values fit, by computation *)

Definition bytesb (b : list N) : bool := forallb (fun x => x <? 256) b.
Definition textb (b : list N) : bool := (N.of_nat (length b) <=? 4000000) && bytesb b.
Definition uidb (u : userid) : bool :=
  match u with
  | IdNull => true
  | IdReg r => (fst r <? 4294967296) && (snd r <? 65536)
  | IdKey k => Nat.eqb (length k) 20
  | IdPub (PubBytes (h :: t)) => ((h =? 2) || (h =? 3)) && Nat.eqb (length t) 32
  | IdPub (PubBytes []) => false
  | IdPub PubInvalid => true
  end.
Fixpoint sortedb (l : list val) : bool :=
  match l with
  | a :: (b :: _) as l' => match key_cmp a b with Lt => sortedb l' | _ => false end
  | _ => true
  end.
Fixpoint fitsb (f : fmt) (v : val) : bool :=
  match f, v with
  | FUnit, VUnit => true
  | FNum w, VNum n => (7 <=? w) && (n <? 2 ^ w)
  | FInt, VInt z => (-2147483648 <=? z)%Z && (z <? 2147483648)%Z
  | FDex, VNum n => n <? 4294967296
  | FRaw k, VNum n => n <? 256 ^ N.of_nat k
  | FBool, VNum n => n <? 2
  | FSkip b, VUnit => b <? 256
  | FBlob k, VBytes b => Nat.eqb (length b) k && bytesb b
  | FBytes, VBytes b => (N.of_nat (length b) <=? 33554432) && bytesb b
  | FText, VBytes b => textb b
  | FUid, VUid u => uidb u
  | FReg, VReg r => (fst r <? 4294967296) && (snd r <? 65536)
  | FLua, VPair (VBytes c) (VBytes m) => textb c && textb m
  | FPair a b, VPair x y => fitsb a x && fitsb b y
  | FList a, VList l => (N.of_nat (length l) <=? 33554432) && forallb (fitsb a) l
  | FMap _ two a, VList l =>
      (N.of_nat (length l) <=? 33554432) &&
      forallb (fun e =>
        match e, two with
        | VPair (VBytes k) x, false => textb k && fitsb a x
        | VPair (VPair (VBytes k1) (VBytes k2)) x, true => textb k1 && textb k2 && fitsb a x
        | _, _ => false
        end) l && sortedb l
  | FTag body, VTag t x => (t <? 256) && fitsb (body t) x
  | _, _ => false
  end.

Lemma bytesb_spec b : bytesb b = true -> bytes b.
Proof. unfold bytesb. rewrite forallb_forall. intros H. apply Forall_forall. intros x Hx.
  specialize (H x Hx). lia. Qed.
Lemma textb_spec b : textb b = true -> fits FText (VBytes b).
Proof. unfold textb. rewrite andb_true_iff. intros (H1 & H2). constructor; [lia|now apply bytesb_spec]. Qed.
Lemma uidb_spec u : uidb u = true -> uid_value u.
Proof.
  destruct u as [|r|k|[[|h t]|]]; cbn; try discriminate; auto.
  - unfold regid_ok. lia.
  - intros H. now apply Nat.eqb_eq.
  - intros H. rewrite andb_true_iff, orb_true_iff, Nat.eqb_eq, !N.eqb_eq in H. exact H.
Qed.
Lemma sortedb_spec l : sortedb l = true -> in_key_order l.
Proof.
  intros H. apply Sorted_StronglySorted; [intros a b c; apply key_trans|].
  induction l as [|a l IH]; [constructor|]. cbn [sortedb] in H. destruct l as [|b l].
  - repeat constructor.
  - destruct (key_cmp a b) eqn:E; try discriminate. constructor; [now apply IH|now constructor].
Qed.

Lemma fitsb_spec f : forall v, fitsb f v = true -> fits f v.
Proof.
  induction f as [|w| | |k| |b|k| | | | | |a IHa b IHb|a IHa|st tw a IHa|body IHb|];
    intros v H; destruct v; cbn [fitsb] in H; try discriminate H;
    rewrite ?andb_true_iff in H; try (constructor; lia); try (now constructor).
  - destruct H as (H1 & H2). constructor; [now apply Nat.eqb_eq|now apply bytesb_spec].
  - destruct H as (H1 & H2). constructor; [lia|now apply bytesb_spec].
  - now apply textb_spec.
  - constructor. now apply uidb_spec.
  - constructor. unfold regid_ok. lia.
  - destruct v1; try discriminate H. destruct v2; try discriminate H.
    rewrite andb_true_iff in H. destruct H as (H1 & H2). constructor; now apply textb_spec.
  - destruct H as (H1 & H2). constructor; auto.
  - destruct H as (H1 & H2). constructor; [lia|]. rewrite forallb_forall in H2.
    apply Forall_forall. auto.
  - destruct H as ((H1 & H2) & H3). constructor; [lia| |now apply sortedb_spec].
    rewrite forallb_forall in H2. apply Forall_forall. intros x Hx. specialize (H2 x Hx).
    destruct x as [| | | | | |k x| |]; try discriminate. destruct tw.
    + destruct k as [| | | | | |k1 k2| |]; try discriminate.
      destruct k1; try discriminate. destruct k2; try discriminate.
      rewrite !andb_true_iff in H2. destruct H2 as ((Q1 & Q2) & Q3).
      apply fits_pair; [apply fits_pair; now apply textb_spec|now apply IHa].
    + destruct k as [| | |k| | |k1 k2| |]; try discriminate;
        [|destruct k1; try discriminate; destruct k2; discriminate].
      rewrite andb_true_iff in H2. destruct H2 as (Q1 & Q2).
      apply fits_pair; [now apply textb_spec|now apply IHa].
  - destruct H as (H1 & H2). constructor; [lia|now apply IHb].
Qed.

Fixpoint keysb (v : val) : bool :=
  match v with
  | VUid (IdPub PubInvalid) => false
  | VPair a b => keysb a && keysb b
  | VList l => forallb keysb l
  | VTag _ x => keysb x
  | _ => true
  end.
Fixpoint nonnegb (v : val) : bool :=
  match v with
  | VInt z => (0 <=? z)%Z
  | VPair a b => nonnegb a && nonnegb b
  | VList l => forallb nonnegb l
  | VTag _ x => nonnegb x
  | _ => true
  end.
Fixpoint val_size (v : val) : nat :=
  match v with
  | VPair a b => S (val_size a + val_size b)
  | VList l => S (fold_right (fun x n => S (val_size x + n)) O l)
  | VTag _ x => S (val_size x)
  | _ => 1
  end.

Lemma keysb_spec v : keysb v = true -> keys_valid v.
Proof.
  assert (G : forall n v, (val_size v < n)%nat -> keysb v = true -> keys_valid v);
    [|apply (G (S (val_size v))); lia].
  clear v. induction n as [|n IH]; intros v Hn H; [lia|].
  destruct v as [| | | |u| |a b|l|t x]; cbn [keysb keys_valid val_size] in *; auto.
  - destruct u as [| | |[?|]]; auto. discriminate.
  - rewrite andb_true_iff in H. split; apply IH; (lia || tauto).
  - induction l as [|x l IHl]; cbn in *; [exact I|]. rewrite andb_true_iff in H.
    split; [apply IH; (lia || tauto)|apply IHl; (lia || tauto)].
  - apply IH; [lia|exact H].
Qed.
Lemma nonnegb_spec v : nonnegb v = true -> nonneg v.
Proof.
  assert (G : forall n v, (val_size v < n)%nat -> nonnegb v = true -> nonneg v);
    [|apply (G (S (val_size v))); lia].
  clear v. induction n as [|n IH]; intros v Hn H; [lia|].
  destruct v as [| |z| |u| |a b|l|t x]; cbn [nonnegb nonneg val_size] in *; auto.
  - lia.
  - rewrite andb_true_iff in H. split; apply IH; (lia || tauto).
  - induction l as [|x l IHl]; cbn in *; [exact I|]. rewrite andb_true_iff in H.
    split; [apply IH; (lia || tauto)|apply IHl; (lia || tauto)].
  - apply IH; [lia|exact H].
Qed.

(** The whole of [proper_form] for transactions. *)
Definition tx_valueb (r3 : Z -> bool) (t : tx) : bool :=
  match wire r3 (tx_type t) with
  | Some l => fitsb FInt (tx_get t "nVersion") &&
      forallb (fun i => fitsb (i_fmt i (tx_get t (i_on i))) (tx_get t (i_name i))) l
  | None => false
  end.
Definition tx_allb (p : val -> bool) (r3 : Z -> bool) (t : tx) : bool :=
  match wire r3 (tx_type t) with
  | Some l => p (tx_get t "nVersion") && forallb (fun i => p (tx_get t (i_name i))) l
  | None => false
  end.
Lemma tx_valueb_spec r3 t : tx_valueb r3 t = true -> tx_fits r3 t.
Proof.
  unfold tx_valueb. destruct (wire r3 (tx_type t)) as [l|] eqn:W; [|discriminate].
  rewrite andb_true_iff, forallb_forall. intros (H1 & H2). split; [now apply fitsb_spec|].
  exists l. split; [exact W|]. intros i Hi. apply fitsb_spec. auto.
Qed.
Lemma tx_allb_spec p (P : val -> Prop) r3 t : (forall v, p v = true -> P v) ->
  tx_allb p r3 t = true -> forall n, carried r3 (tx_type t) n -> P (tx_get t n).
Proof.
  intros Hp. unfold tx_allb. destruct (wire r3 (tx_type t)) as [l|] eqn:W; [|discriminate].
  rewrite andb_true_iff, forallb_forall. intros (H1 & H2) n [->|(l' & i & W' & Hi & <-)]; [auto|].
  rewrite W in W'. injection W' as <-. auto.
Qed.
Definition properb (r3 : Z -> bool) (t : tx) : bool :=
  tx_valueb r3 t && tx_allb keysb r3 t && tx_allb nonnegb r3 t.
Lemma properb_spec r3 t : properb r3 t = true ->
  tx_fits r3 t /\ carried_keys r3 t /\ carried_nonneg r3 t.
Proof.
  unfold properb. rewrite !andb_true_iff. intros ((H1 & H2) & H3).
  split; [now apply tx_valueb_spec|].
  split; [exact (tx_allb_spec keysb keys_valid r3 t keysb_spec H2)|
          exact (tx_allb_spec nonnegb nonneg r3 t nonnegb_spec H3)].
Qed.
