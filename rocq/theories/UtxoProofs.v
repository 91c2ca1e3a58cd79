(** Proofs about UTXO transfers. *)
From Coq Require Import String List Bool Arith NArith ZArith Lia.
From Coq Require Import ZifyBool ZifyNat ZifyN.
From Verif Require Import Prelude PreludeFacts AccountModel AccountSpec AccountProofs
  TxModel TxSpec TxProofs UtxoModel UtxoSpec.
Import ListNotations.
Open Scope N_scope.

Ltac Zify.zify_post_hook ::= Z.div_mod_to_equations.

Lemma ukey_eqb_ok : forall a b : N * N, ukey_eqb a b = true <-> a = b.
Proof. apply pair_eqb_ok; apply N_eqb_ok. Qed.

Lemma pkey_eqb_ok : forall a b : N * N * (N * N), pkey_eqb a b = true <-> a = b.
Proof. apply pair_eqb_ok; [apply ukey_eqb_ok | apply regid_eqb_ok]. Qed.

Lemma mem_key (l : list (N * N)) k : existsb (ukey_eqb k) l = true <-> In k l.
Proof.
  rewrite existsb_exists. split.
  - intros (x & Hx & E). apply ukey_eqb_ok in E. now subst.
  - intros H. exists k. split; [assumption | now apply ukey_eqb_ok].
Qed.

Lemma mem_key_false (l : list (N * N)) k : existsb (ukey_eqb k) l = false <-> ~ In k l.
Proof. rewrite <- mem_key. destruct (existsb (ukey_eqb k) l); split; congruence. Qed.

Lemma nodup_app_l {A} (a b : list A) : NoDup (a ++ b) -> NoDup a.
Proof.
  induction a as [|x a IH]; intros H; [constructor|]. inversion H; subst. constructor; auto.
  intros G. apply H2. rewrite in_app_iff. now left.
Qed.

Lemma lt0_16 : 0 < two16.
Proof. reflexivity. Qed.

(** ** Sums over the keys of a map *)

Definition ksum {V} (f : N * N -> N) (m : list ((N * N) * V)) : N := nsum (map (fun kv => f (fst kv)) m).

Lemma ksum_put {V} f (m : list ((N * N) * V)) k v :
  ksum f (fput ukey_eqb m k v) = ksum f m + (if fmem ukey_eqb m k then 0 else f k).
Proof.
  unfold ksum, fmem. induction m as [|[k' v'] m IH]; cbn [fput fget map nsum fst].
  - lia.
  - destruct (ukey_eqb k k') eqn:E; cbn [map nsum fst]; [lia|]. rewrite IH. lia.
Qed.

Lemma ksum_del {V} f (m : list ((N * N) * V)) k :
  NoDup (keys m) ->
  ksum f (fdel ukey_eqb m k) + (if fmem ukey_eqb m k then f k else 0) = ksum f m.
Proof.
  unfold ksum, fmem. induction m as [|[k' v'] m IH]; cbn [fdel fget map nsum fst]; intros Hn.
  - lia.
  - inversion Hn; subst. destruct (ukey_eqb k k') eqn:E; cbn [map nsum fst].
    + apply ukey_eqb_ok in E. subst k'. rewrite del_absent; [lia|].
      apply (fget_none ukey_eqb ukey_eqb_ok). assumption.
    + specialize (IH H2). destruct (fget ukey_eqb m k); lia.
Qed.

Lemma ksum_ext {V} f g (m : list ((N * N) * V)) :
  (forall k, fmem ukey_eqb m k = true -> f k = g k) -> NoDup (keys m) -> ksum f m = ksum g m.
Proof.
  intros H Hn. unfold ksum. f_equal. apply map_ext_in. intros [k v] Hi. cbn [fst]. apply H.
  unfold fmem. now rewrite (in_fget ukey_eqb ukey_eqb_ok _ _ _ Hn Hi).
Qed.

Lemma ksum_ge {V} f (m : list ((N * N) * V)) k :
  NoDup (keys m) -> fmem ukey_eqb m k = true -> f k <= ksum f m.
Proof. intros Hn Hm. pose proof (ksum_del f m k Hn) as H. rewrite Hm in H. lia. Qed.

(** ** The input loop *)

Definition ikey (i : uin) : N * N := (in_txid i, in_index i).

Definition amount_at (index : list (N * utx)) (i : uin) : N :=
  match fget N.eqb index (in_txid i) with
  | Some p => match nth_error (ux_vouts p) (N.to_nat (in_index i)) with
              | Some o => out_amount o | None => 0 end
  | None => 0
  end.

Lemma exec_ins_ok index rg is : forall set proofs total set' proofs' total',
  exec_ins index rg is set proofs total = Some (set', proofs', total') ->
  NoDup (map ikey is) /\
  (forall i, In i is -> fmem ukey_eqb set (ikey i) = true) /\
  (forall i, In i is -> exists p o, fget N.eqb index (in_txid i) = Some p /\
     nth_error (ux_vouts p) (N.to_nat (in_index i)) = Some o) /\
  (forall k, fmem ukey_eqb set' k = fmem ukey_eqb set k && negb (existsb (ukey_eqb k) (map ikey is))) /\
  (NoDup (keys set) -> NoDup (keys set')) /\
  (total < two64 -> total' = (total + nsum (map (amount_at index) is)) mod two64) /\
  (forall k v, fget pkey_eqb proofs' k = Some v -> fget pkey_eqb proofs k = Some v).
Proof.
  induction is as [|i is IH]; cbn [exec_ins]; intros set proofs total set' proofs' total' H.
  - injection H as <- <- <-. cbn [map nsum existsb].
    split; [constructor|]. split; [intros i []|]. split; [intros i []|].
    split; [intros k; now rewrite andb_true_r|]. split; [auto|]. split; [|auto].
    intros Ht. rewrite N.add_0_r, N.mod_small; auto.
  - fold (ikey i) in H. destruct (fmem ukey_eqb set (ikey i)) eqn:M; cbn [negb] in H; [|discriminate].
    destruct (fget N.eqb index (in_txid i)) as [p|] eqn:F; [|discriminate].
    destruct (nth_error (ux_vouts p) (N.to_nat (in_index i))) as [o|] eqn:O; [|discriminate].
    apply IH in H as (A & B & C & D & E & T & P).
    assert (Dm : forall k, fmem ukey_eqb (fdel ukey_eqb set (ikey i)) k =
                 fmem ukey_eqb set k && negb (ukey_eqb k (ikey i))).
    { intros k. unfold fmem. rewrite (fget_del ukey_eqb ukey_eqb_ok).
      destruct (ukey_eqb k (ikey i)); cbn [negb]; [now rewrite andb_false_r | now rewrite andb_true_r]. }
    cbn [map]. split; [|split; [|split; [|split; [|split; [|split]]]]].
    + constructor; [|assumption]. intros Hi. apply in_map_iff in Hi as (j & Ej & Hj).
      specialize (B j Hj). rewrite Dm, Ej in B.
      rewrite (proj2 (ukey_eqb_ok _ _) eq_refl), andb_false_r in B. discriminate.
    + intros j [<-|Hj]; [assumption|]. specialize (B j Hj). rewrite Dm in B.
      now apply andb_prop in B.
    + intros j [<-|Hj]; [eauto|]. apply C, Hj.
    + intros k. rewrite D, Dm. cbn [existsb]. rewrite negb_orb, andb_assoc. reflexivity.
    + intros Hn. apply E. now apply nodup_del; [apply ukey_eqb_ok|].
    + intros Ht. rewrite T by apply add64_lt. cbn [nsum].
      assert (Ha : amount_at index i = out_amount o) by (unfold amount_at; now rewrite F, O).
      rewrite Ha. unfold add64. rewrite N.add_mod_idemp_l by (unfold two64; lia).
      f_equal. lia.
    + intros k v Hk. apply P in Hk. rewrite (fget_del pkey_eqb pkey_eqb_ok) in Hk.
      destruct (pkey_eqb k (ikey i, rg)); [discriminate | assumption].
Qed.

Lemma exec_ins_sum index rg is (f : N * N -> N) : forall set proofs total set' proofs' total',
  exec_ins index rg is set proofs total = Some (set', proofs', total') ->
  NoDup (keys set) ->
  ksum f set' + nsum (map (fun i => f (ikey i)) is) = ksum f set.
Proof.
  induction is as [|i is IH]; cbn [exec_ins]; intros set proofs total set' proofs' total' H Hn.
  - injection H as <- <- <-. cbn [map nsum]. lia.
  - fold (ikey i) in H. destruct (fmem ukey_eqb set (ikey i)) eqn:M; cbn [negb] in H; [|discriminate].
    destruct (fget N.eqb index (in_txid i)) as [p|] eqn:F; [|discriminate].
    destruct (nth_error (ux_vouts p) (N.to_nat (in_index i))) as [o|] eqn:O; [|discriminate].
    apply IH in H; [|now apply nodup_del; [apply ukey_eqb_ok|]].
    pose proof (ksum_del f set (ikey i) Hn) as K. rewrite M in K. cbn [map nsum]. lia.
Qed.

(** ** The output loop *)

Definition okeys (id i : N) (n : nat) : list (N * N) :=
  map (fun j => (id, (i + N.of_nat j) mod two16)) (seq 0 n).

Lemma okeys_cons id i n : i < two16 ->
  okeys id i (S n) = (id, i) :: okeys id ((i + 1) mod two16) n.
Proof.
  intros Hi. unfold okeys. cbn [seq map]. f_equal.
  - rewrite N.add_0_r, N.mod_small; auto.
  - rewrite <- seq_shift, map_map. apply map_ext. intros j. f_equal.
    rewrite N.add_mod_idemp_l by (unfold two16; lia). f_equal. lia.
Qed.

Lemma exec_outs_ok id os : forall i set total set' total',
  i < two16 -> exec_outs id i os set total = (set', total') ->
  (forall k, fmem ukey_eqb set' k =
     fmem ukey_eqb set k || existsb (ukey_eqb k) (okeys id i (List.length os))) /\
  (NoDup (keys set) -> NoDup (keys set')) /\
  (total < two64 -> total' = (total + nsum (map out_amount os)) mod two64).
Proof.
  induction os as [|o os IH]; cbn [exec_outs]; intros i set total set' total' Hi H.
  - injection H as <- <-. cbn [List.length map nsum]. unfold okeys. cbn [seq map existsb].
    split; [intros k; now rewrite orb_false_r|]. split; [auto|].
    intros Ht. rewrite N.add_0_r, N.mod_small; auto.
  - apply IH in H as (A & B & C); [|apply N.mod_lt; unfold two16; lia].
    split; [|split].
    + intros k. rewrite A. cbn [List.length]. rewrite okeys_cons by assumption. cbn [existsb].
      rewrite orb_assoc. f_equal. unfold fmem. rewrite (fget_put ukey_eqb ukey_eqb_ok).
      destruct (ukey_eqb k (id, i)); [now rewrite orb_true_r | now rewrite orb_false_r].
    + intros Hn. apply B. now apply nodup_put; [apply ukey_eqb_ok|].
    + intros Ht. rewrite C by apply add64_lt. cbn [map nsum]. unfold add64.
      rewrite N.add_mod_idemp_l by (unfold two64; lia). f_equal. lia.
Qed.

Lemma exec_outs_sum id (f : N * N -> N) os : forall i set total set' total',
  i + N.of_nat (List.length os) < two16 -> exec_outs id i os set total = (set', total') ->
  (forall j, i <= j -> fmem ukey_eqb set (id, j) = false) ->
  ksum f set' = ksum f set + nsum (map (fun j => f (id, i + N.of_nat j)) (seq 0 (List.length os))).
Proof.
  induction os as [|o os IH]; cbn [exec_outs]; intros i set total set' total' Hi H Hf.
  - injection H as <- <-. cbn [List.length seq map nsum]. lia.
  - cbn [List.length] in Hi |- *.
    assert (Ei : (i + 1) mod two16 = i + 1) by (apply N.mod_small; lia).
    rewrite Ei in H. apply IH in H; [|lia|].
    + rewrite H, ksum_put, (Hf i) by lia. cbn [seq map nsum]. rewrite <- seq_shift, map_map.
      rewrite N.add_0_r.
      rewrite (map_ext (fun x => f (id, i + N.of_nat (S x))) (fun j => f (id, i + 1 + N.of_nat j))).
      * lia.
      * intros j. f_equal. f_equal. lia.
    + intros j Hj. unfold fmem. rewrite (fget_put ukey_eqb ukey_eqb_ok).
      destruct (ukey_eqb (id, j) (id, i)) eqn:E.
      * apply ukey_eqb_ok in E. injection E as E. lia.
      * apply (Hf j). lia.
Qed.

Lemma created_okeys tx : created_keys tx = okeys (ux_id tx) 0 (List.length (ux_vouts tx)).
Proof. reflexivity. Qed.

Lemma sum_nth_amount f os (id : N) :
  (forall j o, nth_error os j = Some o -> f (id, N.of_nat j) = out_amount o) ->
  nsum (map (fun j => f (id, 0 + N.of_nat j)) (seq 0 (List.length os))) = nsum (map out_amount os).
Proof.
  intros H.
  assert (G : forall os' (k : nat), (forall j o, nth_error os' j = Some o -> f (id, N.of_nat (k + j)) = out_amount o) ->
     nsum (map (fun j => f (id, 0 + N.of_nat j)) (seq k (List.length os'))) = nsum (map out_amount os')).
  { clear H. induction os' as [|o os' IH]; intros k H; [reflexivity|].
    cbn [List.length seq map nsum]. f_equal.
    - specialize (H 0%nat o eq_refl). replace (k + 0)%nat with k in H by lia. exact H.
    - apply IH. intros j o' Hj. specialize (H (S j) o' Hj).
      replace (k + S j)%nat with (S k + j)%nat in H by lia. exact H. }
  apply (G os 0%nat). exact H.
Qed.

Section Signatures.
  Variable pk_keyid : N -> N.
  Variable verify : N -> N -> N -> bool.

  (** ** C18 *)

  Notation good := (good_sig pk_keyid verify).
  Notation sig_ok := (sig_passes pk_keyid verify).
  Notation count := (count_passes pk_keyid verify).

  Lemma sig_passes_true st h sig us :
    sig_ok st h sig us = Some true -> good st us h sig.
  Proof.
    induction us as [|u us IH]; cbn [sig_passes]; [discriminate|].
    destruct (account_of pk_keyid st u) as [a|] eqn:A; [|discriminate].
    destruct (a_pubkey a) as [p|] eqn:P; [|discriminate].
    destruct (verify h sig p) eqn:V.
    - intros _. exists p. split; [|assumption]. exists u, a. cbn [In]. auto.
    - intros H. destruct (IH H) as (q & (u' & a' & H1 & H2 & H3) & Hq).
      exists q. split; [|assumption]. exists u', a'. cbn [In]. auto.
  Qed.

  Lemma sig_passes_total st h sig us :
    parties_ok pk_keyid st us ->
    exists b, sig_ok st h sig us = Some b /\ (b = true <-> good st us h sig).
  Proof.
    induction us as [|u us IH]; intros Hp; cbn [sig_passes].
    - exists false. split; [reflexivity|]. split; [discriminate|].
      intros (p & (u & a & [] & _) & _).
    - destruct (Hp u) as (a & p & A & P); [now left|]. rewrite A, P.
      destruct (verify h sig p) eqn:V.
      + exists true. split; [reflexivity|]. split; [|reflexivity]. intros _. exists p.
        split; [|assumption]. exists u, a. cbn [In]. auto.
      + destruct IH as (b & E & Hb); [intros u' Hu'; apply Hp; now right|].
        exists b. split; [assumption|]. rewrite Hb. split.
        * intros (q & (u' & a' & H1 & H2 & H3) & Hq). exists q. split; [|assumption].
          exists u', a'. cbn [In]. auto.
        * intros (q & (u' & a' & [<-|H1] & H2 & H3) & Hq); [congruence|].
          exists q. split; [|assumption]. exists u', a'. auto.
  Qed.

  Lemma count_positions st h us sigs : forall n,
    count st h us sigs = Some n ->
    exists pos, NoDup pos /\ N.of_nat (List.length pos) = n /\
      forall i, In i pos -> exists sig, nth_error sigs i = Some sig /\ good st us h sig.
  Proof.
    induction sigs as [|sig sigs IH]; cbn [count_passes]; intros n H.
    - injection H as <-. exists []. split; [constructor|]. split; [reflexivity|]. intros i [].
    - destruct (sig_ok st h sig us) as [b|] eqn:E; [|discriminate].
      destruct (count st h us sigs) as [m|] eqn:F; [|discriminate].
      assert (Hn : n = (if b then 1 else 0) + m) by congruence. subst n. clear H.
      destruct (IH m eq_refl) as (pos & A & B & C).
      assert (Ns : NoDup (map S pos)) by (apply FinFun.Injective_map_NoDup; [intros x y; lia | assumption]).
      assert (Cs : forall i, In i (map S pos) -> exists s0, nth_error (sig :: sigs) i = Some s0 /\ good st us h s0).
      { intros i Hi. apply in_map_iff in Hi as (j & <- & Hj). cbn [nth_error]. now apply C. }
      destruct b.
      + exists (0%nat :: map S pos). split; [|split].
        * constructor; [|assumption]. intros Hi. apply in_map_iff in Hi as (j & Hj & _). discriminate.
        * cbn [List.length]. rewrite map_length. lia.
        * intros i [<-|Hi]; [|now apply Cs]. exists sig. split; [reflexivity|]. now apply sig_passes_true.
      + exists (map S pos). rewrite map_length. split; [assumption|]. split; [lia | assumption].
  Qed.

  Lemma count_at_least st h us sigs :
    parties_ok pk_keyid st us ->
    exists n, count st h us sigs = Some n /\
      forall pos, NoDup pos ->
        (forall i, In i pos -> exists sig, nth_error sigs i = Some sig /\ good st us h sig) ->
        N.of_nat (List.length pos) <= n.
  Proof.
    intros Hp. induction sigs as [|sig sigs (n & F & IH)]; cbn [count_passes].
    - exists 0. split; [reflexivity|]. intros [|i pos] _ H; [cbn; lia|].
      destruct (H i (or_introl eq_refl)) as (sig & G & _). destruct i; discriminate.
    - destruct (sig_passes_total st h sig us Hp) as (b & E & Hb). rewrite E, F.
      eexists. split; [reflexivity|]. intros pos Hn H.
      set (rest := map Nat.pred (filter (fun i => negb (Nat.eqb i 0)) pos)).
      assert (R : N.of_nat (List.length rest) <= n).
      { apply IH.
        - subst rest. assert (Hf : NoDup (filter (fun i => negb (Nat.eqb i 0)) pos)) by now apply NoDup_filter.
          assert (Hz : forall i, In i (filter (fun i => negb (Nat.eqb i 0)) pos) -> i <> 0%nat).
          { intros i Hi. apply filter_In in Hi as (_ & Hi). destruct i; [discriminate | lia]. }
          revert Hf Hz. generalize (filter (fun i => negb (Nat.eqb i 0)) pos). clear.
          induction l as [|x l IHl]; intros Hf Hz; [constructor|]. inversion Hf; subst. cbn [map].
          constructor.
          + intros G. apply in_map_iff in G as (y & Ey & Hy).
            assert (x <> 0%nat) by (apply Hz; now left). assert (y <> 0%nat) by (apply Hz; now right).
            assert (x = y) by lia. subst. auto.
          + apply IHl; [assumption|]. intros i Hi. apply Hz. now right.
        - intros i Hi. subst rest. apply in_map_iff in Hi as (j & <- & Hj).
          apply filter_In in Hj as (Hj & Hz). destruct j as [|j]; [discriminate|].
          destruct (H _ Hj) as (s0 & G1 & G2). exists s0. auto. }
      assert (Hlen : (List.length pos <= (if b then 1 else 0) + List.length rest)%nat).
      { subst rest. rewrite map_length.
        destruct (in_dec Nat.eq_dec 0%nat pos) as [Hi|Hi].
        - destruct (H _ Hi) as (s0 & G1 & G2). cbn in G1. injection G1 as ->.
          rewrite (proj2 Hb G2). clear - Hn Hi.
          induction pos as [|x pos IHp]; [destruct Hi|]. inversion Hn; subst.
          destruct Hi as [->|Hi].
          + cbn [filter Nat.eqb negb List.length].
            assert (forall i, In i pos -> negb (Nat.eqb i 0) = true).
            { intros i Hi. destruct i; [contradiction | reflexivity]. }
            assert (List.length (filter (fun i => negb (Nat.eqb i 0)) pos) = List.length pos).
            { clear IHp Hn H1 H2. induction pos as [|y pos IHp]; [reflexivity|]. cbn [filter].
              rewrite (H y) by now left. cbn [List.length]. f_equal. apply IHp. intros i Hi. apply H. now right. }
            lia.
          + specialize (IHp H2 Hi). cbn [filter]. destruct (negb (Nat.eqb x 0)) eqn:Z.
            * cbn [List.length] in *. lia.
            * destruct x; [contradiction | discriminate].
        - assert (forall i, In i pos -> negb (Nat.eqb i 0) = true).
          { intros i G. destruct i; [contradiction | reflexivity]. }
          assert (List.length (filter (fun i => negb (Nat.eqb i 0)) pos) = List.length pos).
          { clear - H0. induction pos as [|y pos IHp]; [reflexivity|]. cbn [filter].
            rewrite (H0 y) by now left. cbn [List.length]. f_equal. apply IHp. intros i Hi. apply H0. now right. }
          lia. }
      destruct b; lia.
  Qed.

  Lemma party_keys_ok st us ks :
    party_keys pk_keyid st us = Some ks <->
    Forall2 (fun u k => exists a, account_of pk_keyid st u = Some a /\ a_keyid a = k) us ks.
  Proof.
    revert ks. induction us as [|u us IH]; intros ks; cbn [party_keys]; split; intros H.
    - injection H as <-. constructor.
    - inversion H. reflexivity.
    - destruct (account_of pk_keyid st u) as [a|] eqn:A; [|discriminate].
      destruct (party_keys pk_keyid st us) as [l|] eqn:P; [|discriminate]. injection H as <-.
      constructor; [eauto|]. now apply IH.
    - inversion H as [|x y l l' (a & A & E) F]; subst. rewrite A.
      apply IH in F. now rewrite F.
  Qed.

  Lemma verify_multisig_sound st h m us sigs :
    verify_multisig pk_keyid verify st h m us sigs = true ->
    enough_signatures pk_keyid verify st us h m sigs.
  Proof.
    unfold verify_multisig. destruct (N.of_nat (List.length sigs) <? m); [discriminate|].
    destruct (party_keys pk_keyid st us) as [ks|]; [|discriminate].
    destruct (count st h us sigs) as [n|] eqn:F; [|discriminate]. intros H. apply N.leb_le in H.
    apply count_positions in F as (pos & A & B & C). exists pos. subst n. auto.
  Qed.

  Lemma verify_multisig_complete st h m us sigs :
    parties_ok pk_keyid st us -> enough_signatures pk_keyid verify st us h m sigs ->
    verify_multisig pk_keyid verify st h m us sigs = true.
  Proof.
    intros Hp (pos & A & B & C). unfold verify_multisig.
    assert (L : (List.length pos <= List.length sigs)%nat).
    { rewrite <- (seq_length (List.length sigs) 0). apply NoDup_incl_length; [assumption|].
      intros i Hi. apply in_seq. destruct (C i Hi) as (sig & G & _).
      assert (i < List.length sigs)%nat by (apply nth_error_Some; congruence). lia. }
    assert (E : (N.of_nat (List.length sigs) <? m) = false) by lia. rewrite E.
    assert (P : exists ks, party_keys pk_keyid st us = Some ks).
    { clear - Hp. induction us as [|u us IH]; cbn [party_keys]; [eauto|].
      destruct (Hp u) as (a & p & -> & _); [now left|].
      destruct IH as (ks & ->); [intros u' Hu'; apply Hp; now right|]. eauto. }
    destruct P as (ks & ->).
    destruct (count_at_least st h us sigs Hp) as (n & -> & Hn). specialize (Hn pos A C). lia.
  Qed.

  Lemma distinct_parties st us h m sigs :
    one_each pk_keyid verify st us h sigs -> enough_signatures pk_keyid verify st us h m sigs ->
    enough_parties pk_keyid verify st us h m sigs.
  Proof.
    intros Ho (pos & A & B & C).
    assert (G : forall pos', NoDup pos' ->
      (forall i, In i pos' -> exists sig, nth_error sigs i = Some sig /\ good st us h sig) ->
      exists ps, NoDup ps /\ List.length ps = List.length pos' /\
        forall p, In p ps -> party_key pk_keyid st us p /\
          exists i sig, In i pos' /\ nth_error sigs i = Some sig /\ verify h sig p = true).
    { induction pos' as [|i pos' IH]; intros Hn Hc.
      - exists []. split; [constructor|]. split; [reflexivity|]. intros p [].
      - inversion Hn; subst. destruct IH as (ps & P1 & P2 & P3);
          [assumption | intros j Hj; apply Hc; now right|].
        destruct (Hc i (or_introl eq_refl)) as (sig & S1 & p & Sp & Sv).
        exists (p :: ps). split; [|split].
        + constructor; [|assumption]. intros Hi. destruct (P3 p Hi) as (_ & j & sj & J1 & J2 & J3).
          assert (i = j) by (eapply Ho; eauto). subst. auto.
        + cbn [List.length]. now rewrite P2.
        + intros q [<-|Hq].
          * split; [assumption|]. exists i, sig. cbn [In]. auto.
          * destruct (P3 q Hq) as (Q1 & j & sj & J1 & J2 & J3). split; [assumption|].
            exists j, sj. cbn [In]. auto. }
    destruct (G pos A C) as (ps & P1 & P2 & P3). exists ps. split; [assumption|].
    split; [now rewrite P2|]. intros p Hp. destruct (P3 p Hp) as (Q & i & sig & _ & Q2 & Q3).
    split; [assumption|]. exists sig. split; [eapply nth_error_In; eauto | assumption].
  Qed.
End Signatures.

Section Proofs.
  Variable pk_keyid : N -> N.
  Variable ms_keyid : N -> N -> list N -> N.
  Variable ms_hash : N -> N -> N -> (N * N * list N) -> N.
  Variable verify : N -> N -> N -> bool.
  Variable pw_hash : N -> N -> N.
  Variable proof_hash : N -> N -> N -> N -> N -> N.

  Notation step := (ustep pk_keyid ms_keyid ms_hash verify pw_hash proof_hash).
  Notation run := (urun pk_keyid ms_keyid ms_hash verify pw_hash proof_hash).
  Notation check := (check_transfer pk_keyid ms_keyid ms_hash verify pw_hash proof_hash).

  (** The shape of a successful execution. *)
  Lemma exec_transfer_parts e st tx st' :
    exec_transfer pk_keyid e st tx = Some st' ->
    exists k reg L0 L1 acct set1 proofs1 tin set2 tout L2 b,
      find pk_keyid (u_reg st) (u_ledger st) (ux_uid tx) = Some k /\
      entered pk_keyid (v_height e) (v_index e) (ux_uid tx) (u_reg st) (u_ledger st) = (reg, L0) /\
      (if 0 <? ux_fee tx then l_operate L0 k (ux_fee_symbol tx) SubFree (ux_fee tx) None
       else (true, L0)) = (true, L1) /\
      l_get L1 k = Some acct /\
      exec_ins (u_index st) (a_regid acct) (ux_vins tx) (u_set st) (u_proofs st) 0
        = Some (set1, proofs1, tin) /\
      exec_outs (ux_id tx) 0 (ux_vouts tx) set1 0 = (set2, tout) /\
      free_balance acct (ux_symbol tx) = Some b /\
      (add64 b tin <? tout) = false /\
      (if tin <? tout then l_operate L1 k (ux_symbol tx) SubFree (tout - tin) None
       else if tout <? tin then l_operate L1 k (ux_symbol tx) AddFree (tin - tout) None
       else (true, L1)) = (true, L2) /\
      st' = mkU L2 reg set2 proofs1 (u_index st) (u_block st ++ [(ux_id tx, tx)]).
  Proof.
    unfold exec_transfer. intros H.
    destruct (find pk_keyid (u_reg st) (u_ledger st) (ux_uid tx)) as [k|] eqn:F; [|discriminate].
    destruct (entered pk_keyid (v_height e) (v_index e) (ux_uid tx) (u_reg st) (u_ledger st)) as [reg L0] eqn:En.
    destruct (if 0 <? ux_fee tx then _ else _) as [[|] L1] eqn:Ch; [|discriminate].
    destruct (l_get L1 k) as [acct|] eqn:G; [|discriminate].
    destruct (exec_ins _ _ _ _ _ _) as [[[set1 proofs1] tin]|] eqn:EI; [|discriminate].
    destruct (exec_outs _ _ _ _ _) as [set2 tout] eqn:EO.
    destruct (free_balance acct (ux_symbol tx)) as [b|] eqn:Fb; [|discriminate].
    destruct (add64 b tin <? tout) eqn:Lt; [discriminate|].
    destruct (if tin <? tout then _ else _) as [[|] L2] eqn:Mv; [|discriminate].
    injection H as <-.
    exists k, reg, L0, L1, acct, set1, proofs1, tin, set2, tout, L2, b. auto 12.
  Qed.

  (** ** C16 *)

  (** What ties a state to the trace that led to it. *)
  Definition linked (st : ustate) (tr : list uevent) : Prop :=
    (forall k, fmem ukey_eqb (u_set st) k = true <-> In (EvCreated k) tr /\ ~ In (EvSpent k) tr) /\
    (forall k, In (EvSpent k) tr -> In (EvCreated k) tr) /\
    (forall k, In (EvCreated k) tr -> In (EvTx (fst k)) tr) /\
    (forall id p, fget N.eqb (u_index st) id = Some p ->
       exists a b, tr = a ++ EvBlockEnd :: b /\ In (EvTx id) a /\
         forall k, fst k = id -> In (EvCreated k) tr -> In (EvCreated k) a) /\
    (forall id p, In (id, p) (u_block st) -> In (EvTx id) tr).

  Lemma in_tx_ids id tr : In id (tx_ids tr) <-> In (EvTx id) tr.
  Proof.
    induction tr as [|x tr IH]; cbn [tx_ids]; [intuition|].
    destruct x; cbn [In]; rewrite ?IH; intuition congruence.
  Qed.

  Lemma tx_ids_app a b : tx_ids (a ++ b) = tx_ids a ++ tx_ids b.
  Proof. induction a as [|x a IH]; [reflexivity|]. cbn [app tx_ids]. destruct x; rewrite IH; reflexivity. Qed.

  Lemma ev_spent_in k tx :
    In (EvSpent k) (EvTx (ux_id tx) :: map EvSpent (spent_keys tx) ++ map EvCreated (created_keys tx)) <->
    In k (spent_keys tx).
  Proof.
    cbn [In]. rewrite in_app_iff, !in_map_iff. split.
    - intros [H|[(x & E & H)|(x & E & H)]]; congruence.
    - intros H. right. left. eauto.
  Qed.

  Lemma ev_created_in k tx :
    In (EvCreated k) (EvTx (ux_id tx) :: map EvSpent (spent_keys tx) ++ map EvCreated (created_keys tx)) <->
    In k (created_keys tx).
  Proof.
    cbn [In]. rewrite in_app_iff, !in_map_iff. split.
    - intros [H|[(x & E & H)|(x & E & H)]]; congruence.
    - intros H. right. right. eauto.
  Qed.

  Lemma created_fst k tx : In k (created_keys tx) -> fst k = ux_id tx.
  Proof. unfold created_keys. rewrite in_map_iff. intros (j & <- & _). reflexivity. Qed.

  Lemma spent_ikey tx : spent_keys tx = map ikey (ux_vins tx).
  Proof. reflexivity. Qed.

  Lemma proof_parts st u txid index proof st' :
    exec_proof pk_keyid st u txid index proof = Some st' ->
    exists a, account_of pk_keyid st u = Some a /\
      st' = mkU (u_ledger st) (u_reg st) (u_set st)
              (fput pkey_eqb (u_proofs st) (txid, index, a_regid a) proof) (u_index st) (u_block st).
  Proof.
    unfold exec_proof. destruct ((txid =? 0) || (proof =? 0)); [discriminate|].
    destruct (account_of pk_keyid st u) as [a|]; [|discriminate]. intros H. injection H as <-. eauto.
  Qed.

  Lemma transfer_parts e st tx st' :
    step st (ATransfer e tx) = Some st' ->
    check e st tx = Pass /\ exec_transfer pk_keyid e st tx = Some st'.
  Proof. cbn [ustep]. destruct (check e st tx); [auto | discriminate | discriminate]. Qed.

  (** A transfer consumes what was unspent, each output once, and adds its own outputs. *)
  Lemma transfer_set e st tx st' :
    exec_transfer pk_keyid e st tx = Some st' ->
    NoDup (spent_keys tx) /\
    (forall k, In k (spent_keys tx) -> fmem ukey_eqb (u_set st) k = true /\
       exists p, fget N.eqb (u_index st) (fst k) = Some p) /\
    (forall k, fmem ukey_eqb (u_set st') k = true <->
       (fmem ukey_eqb (u_set st) k = true /\ ~ In k (spent_keys tx)) \/ In k (created_keys tx)) /\
    u_index st' = u_index st /\ u_block st' = u_block st ++ [(ux_id tx, tx)].
  Proof.
    intros H. apply exec_transfer_parts in H as
      (k & reg & L0 & L1 & acct & set1 & proofs1 & tin & set2 & tout & L2 & b &
       _ & _ & _ & _ & EI & EO & _ & _ & _ & ->).
    apply exec_ins_ok in EI as (A & B & C & D & _ & _ & _).
    apply exec_outs_ok in EO as (E & _ & _); [|reflexivity].
    rewrite spent_ikey. cbn [u_set u_index u_block]. split; [assumption|].
    split; [|split; [|split; reflexivity]].
    - intros q Hq. apply in_map_iff in Hq as (i & <- & Hi). split; [now apply B|].
      destruct (C i Hi) as (p & o & Hp & _). exists p. exact Hp.
    - intros q. rewrite E, D, <- created_okeys, orb_true_iff, andb_true_iff, negb_true_iff.
      rewrite mem_key, mem_key_false. reflexivity.
  Qed.

  Lemma linked_start L reg : linked (ustart L reg) [].
  Proof.
    unfold linked, ustart. cbn [u_set u_index u_block].
    split; [intros k; split; [discriminate | intros [[] _]]|].
    split; [intros k []|]. split; [intros k []|]. split; [discriminate|]. intros id p [].
  Qed.

  Lemma in_ev_end (x : uevent) tr : x <> EvBlockEnd -> In x (tr ++ [EvBlockEnd]) <-> In x tr.
  Proof.
    intros H. rewrite in_app_iff. cbn [In]. split; [intros [G|[G|[]]]; congruence | auto].
  Qed.

  Lemma fget_app_some (m1 m2 : list (N * utx)) id p :
    fget N.eqb (m1 ++ m2) id = Some p -> fget N.eqb m1 id = Some p \/ In (id, p) m2.
  Proof.
    induction m1 as [|[k v] m1 IH]; cbn [app fget].
    - intros H. right. now apply (fget_in N.eqb N_eqb_ok).
    - destruct (id =? k); [auto | apply IH].
  Qed.

  Definition is_spent (ev : uevent) : bool := match ev with EvSpent _ => true | _ => false end.

  Lemma filter_created l : filter is_spent (map EvCreated l) = [].
  Proof. induction l as [|q l IHl]; [reflexivity | exact IHl]. Qed.

  Lemma filter_spent l : filter is_spent (map EvSpent l) = map EvSpent l.
  Proof. induction l as [|q l IHl]; [reflexivity | cbn; now f_equal]. Qed.

  Lemma linked_step st tr a st' :
    linked st tr -> step st a = Some st' ->
    NoDup (tx_ids (tr ++ events pk_keyid st a)) ->
    linked st' (tr ++ events pk_keyid st a) /\
    (forall t1 k t2, events pk_keyid st a = t1 ++ EvSpent k :: t2 ->
       In (EvCreated k) tr /\ ~ In (EvSpent k) (tr ++ t1) /\ ~ In (EvSpent k) t2 /\
       exists x y, tr = x ++ EvBlockEnd :: y /\ In (EvCreated k) x).
  Proof.
    intros (K1 & K2 & K3 & K4 & K5) Hs Hn.
    destruct a as [e tx|u txid index proof| |L reg].
    - apply transfer_parts in Hs as (_ & Hx).
      destruct (transfer_set e st tx st' Hx) as (A & B & C & D & E).
      cbn [events] in *. set (evs := EvTx (ux_id tx) :: _) in *.
      assert (Hfresh : ~ In (EvTx (ux_id tx)) tr).
      { rewrite tx_ids_app in Hn. subst evs. cbn [tx_ids] in Hn.
        apply NoDup_remove_2 in Hn. intros G. apply Hn. rewrite in_app_iff. left. now apply in_tx_ids. }
      assert (Sp : forall k, In k (spent_keys tx) -> In (EvCreated k) tr /\ ~ In (EvSpent k) tr).
      { intros k Hk. apply K1. now apply B. }
      assert (Nc : forall k, In k (created_keys tx) -> ~ In (EvCreated k) tr).
      { intros k Hk Hc. apply Hfresh. rewrite <- (created_fst k tx Hk). now apply K3. }
      split.
      + unfold linked. split; [|split; [|split; [|split]]].
        * intros k. rewrite C, K1, !in_app_iff. subst evs. rewrite ev_spent_in, ev_created_in.
          split.
          -- intros [[[H1 H2] H3]|H].
             ++ intuition.
             ++ split; [auto|]. intros [G|G].
                ** apply (Nc k H). now apply K2.
                ** apply (Nc k H). now apply Sp.
          -- intros [[H|H] H2]; [left | right; assumption]. intuition.
        * intros k. rewrite !in_app_iff. subst evs. rewrite ev_spent_in, ev_created_in.
          intros [H|H]; left; [now apply K2 | now apply Sp].
        * intros k. rewrite !in_app_iff. subst evs. rewrite ev_created_in.
          intros [H|H]; [left; now apply K3|]. right. rewrite (created_fst _ _ H). now left.
        * intros id p. rewrite D. intros Hp. destruct (K4 id p Hp) as (x & y & -> & Hx1 & Hx2).
          exists x, (y ++ evs). rewrite <- app_assoc. cbn [app]. split; [reflexivity|].
          split; [assumption|]. intros k Hk. rewrite app_comm_cons, app_assoc, in_app_iff.
          intros [H|H]; [now apply Hx2|]. subst evs. apply ev_created_in in H.
          exfalso. apply Hfresh. rewrite <- (created_fst _ _ H), Hk, in_app_iff. now left.
        * intros id p. rewrite E, !in_app_iff. cbn [In]. intros [H|[H|[]]].
          -- left. eapply K5; eauto.
          -- injection H as <- <-. right. subst evs. now left.
      + intros t1 k t2 Ht.
        assert (Hk : In k (spent_keys tx)).
        { apply ev_spent_in. fold evs. rewrite Ht, in_app_iff. right. now left. }
        destruct (Sp k Hk) as (S1 & S2). split; [assumption|].
        assert (Hcount : NoDup (filter is_spent evs)).
        { subst evs. cbn [filter is_spent]. rewrite filter_app.
          rewrite filter_created, filter_spent.
          rewrite app_nil_r. apply FinFun.Injective_map_NoDup; [|assumption].
          intros x y Hxy. congruence. }
        rewrite Ht, filter_app in Hcount. cbn [filter is_spent] in Hcount. apply NoDup_remove_2 in Hcount.
        rewrite in_app_iff in Hcount. rewrite !filter_In in Hcount.
        split; [|split].
        * rewrite in_app_iff. intros [G|G]; [auto|]. apply Hcount. auto.
        * intros G. apply Hcount. auto.
        * destruct (B k Hk) as (_ & p & Hp). destruct (K4 _ _ Hp) as (x & y & -> & _ & Hx2).
          exists x, y. split; [reflexivity|]. now apply Hx2.
    - cbn [ustep] in Hs. apply proof_parts in Hs as (ac & Ha & ->).
      cbn [events] in *. rewrite Ha in *.
      set (ev := EvProof txid index (a_regid ac) proof) in *.
      assert (Q : forall x, x <> ev -> In x (tr ++ [ev]) <-> In x tr).
      { intros x Hx. rewrite in_app_iff. cbn [In]. split; [intros [G|[G|[]]]; congruence | auto]. }
      split.
      + unfold linked. cbn [u_set u_index u_block]. split; [|split; [|split; [|split]]].
        * intros k. rewrite K1, !Q by discriminate. reflexivity.
        * intros k. rewrite !Q by discriminate. apply K2.
        * intros k. rewrite !Q by discriminate. apply K3.
        * intros id p Hp. destruct (K4 id p Hp) as (x & y & -> & Hx1 & Hx2).
          exists x, (y ++ [ev]). rewrite <- app_assoc. cbn [app]. split; [reflexivity|].
          split; [assumption|]. intros k Hk Hc. apply Hx2; [assumption|].
          rewrite app_comm_cons, app_assoc, in_app_iff in Hc.
          destruct Hc as [G|[G|[]]]; [assumption | discriminate].
        * intros id p Hp. rewrite Q by discriminate. eapply K5; eauto.
      + intros t1 k t2 Ht. exfalso.
        assert (G : In (EvSpent k) [ev]) by (rewrite Ht, in_app_iff; right; now left).
        destruct G as [G|[]]. discriminate.
    - cbn [ustep] in Hs. injection Hs as <-. cbn [events] in *. split.
      + unfold linked. cbn [u_set u_index u_block]. split; [|split; [|split; [|split]]].
        * intros k. rewrite K1, !in_ev_end by discriminate. reflexivity.
        * intros k. rewrite !in_ev_end by discriminate. apply K2.
        * intros k. rewrite !in_ev_end by discriminate. apply K3.
        * intros id p Hp. exists tr, []. split; [reflexivity|]. split.
          -- apply fget_app_some in Hp as [Hp|Hp]; [|eapply K5; eauto].
             destruct (K4 id p Hp) as (x & y & -> & Hx1 & _). rewrite in_app_iff. now left.
          -- intros k _. rewrite in_ev_end by discriminate. auto.
        * intros id p [].
      + intros t1 k t2 Ht. exfalso.
        assert (G : In (EvSpent k) [EvBlockEnd]) by (rewrite Ht, in_app_iff; right; now left).
        destruct G as [G|[]]. discriminate.
    - cbn [ustep] in Hs. injection Hs as <-. cbn [events] in *. rewrite app_nil_r. split.
      + unfold linked. cbn [u_set u_index u_block]. auto 10.
      + intros t1 k t2 Ht. destruct t1; discriminate.
  Qed.

  (** A split of an appended list at an element. *)
  Lemma split_app {A} (l1 l2 t1 t2 : list A) x :
    l1 ++ l2 = t1 ++ x :: t2 ->
    (exists r, l1 = t1 ++ x :: r /\ t2 = r ++ l2) \/
    (exists r, t1 = l1 ++ r /\ l2 = r ++ x :: t2).
  Proof.
    revert t1. induction l1 as [|y l1 IH]; intros t1 H.
    - right. exists t1. auto.
    - destruct t1 as [|z t1]; cbn [app] in H.
      + injection H as -> H. left. exists l1. auto.
      + injection H as -> H. apply IH in H as [(r & -> & ->)|(r & -> & ->)].
        * left. exists r. auto.
        * right. exists r. auto.
  Qed.

  Lemma run_linked acts : forall st tr0 st' tr,
    linked st tr0 -> run st acts = (st', tr) -> NoDup (tx_ids (tr0 ++ tr)) ->
    linked st' (tr0 ++ tr) /\
    (forall t1 k t2, tr = t1 ++ EvSpent k :: t2 ->
       In (EvCreated k) (tr0 ++ t1) /\ ~ In (EvSpent k) (tr0 ++ t1) /\ ~ In (EvSpent k) t2 /\
       exists x y, tr0 ++ t1 = x ++ EvBlockEnd :: y /\ In (EvCreated k) x).
  Proof.
    induction acts as [|a acts IH]; cbn [urun]; intros st tr0 st' tr Hl H Hn.
    - injection H as <- <-. rewrite app_nil_r. split; [assumption|].
      intros t1 k t2 Ht. destruct t1; discriminate.
    - destruct (step st a) as [st1|] eqn:E; [|eapply IH; eauto].
      destruct (run st1 acts) as [st2 tr2] eqn:R. injection H as <- <-.
      rewrite app_assoc in Hn.
      assert (Hn1 : NoDup (tx_ids (tr0 ++ events pk_keyid st a))).
      { rewrite tx_ids_app in Hn. now apply nodup_app_l in Hn. }
      destruct (linked_step st tr0 a st1 Hl E Hn1) as (L1 & S1).
      destruct (IH st1 _ st2 tr2 L1 R Hn) as (L2 & S2).
      rewrite app_assoc. split; [assumption|].
      intros t1 k t2 Ht. apply split_app in Ht as [(r & Hr & ->)|(r & -> & Hr)].
      + destruct (S1 t1 k r Hr) as (A1 & A2 & A3 & x & y & A4 & A5).
        split; [rewrite in_app_iff; auto|]. split; [assumption|]. split.
        * rewrite in_app_iff. intros [G|G]; [auto|].
          apply in_split in G as (g1 & g2 & ->).
          destruct (S2 g1 k g2 eq_refl) as (_ & B2 & _). apply B2.
          rewrite Hr, !in_app_iff. left. right. right. now left.
        * exists x, (y ++ t1). rewrite A4, <- app_assoc. auto.
      + destruct (S2 r k t2 Hr) as (A1 & A2 & A3 & x & y & A4 & A5).
        rewrite app_assoc. split; [assumption|]. split; [assumption|]. split; [assumption|].
        exists x, y. auto.
  Qed.

  Lemma spent_once acts L reg st tr :
    run (ustart L reg) acts = (st, tr) -> NoDup (tx_ids tr) ->
    forall t1 k t2, tr = t1 ++ EvSpent k :: t2 ->
      ~ In (EvSpent k) t1 /\ ~ In (EvSpent k) t2 /\
      exists x y, t1 = x ++ EvBlockEnd :: y /\ In (EvCreated k) x.
  Proof.
    intros H Hn t1 k t2 Ht.
    destruct (run_linked acts _ [] st tr (linked_start L reg) H Hn) as (_ & S).
    destruct (S t1 k t2 Ht) as (_ & A & B & C). auto.
  Qed.

  Lemma unspent_exactly acts L reg st tr :
    run (ustart L reg) acts = (st, tr) -> NoDup (tx_ids tr) ->
    forall k, fmem ukey_eqb (u_set st) k = true <-> In (EvCreated k) tr /\ ~ In (EvSpent k) tr.
  Proof.
    intros H Hn. destruct (run_linked acts _ [] st tr (linked_start L reg) H Hn) as ((K & _) & _).
    exact K.
  Qed.

  Lemma same_input_twice e st tx i j a b c :
    ux_vins tx = a ++ i :: b ++ j :: c -> in_txid i = in_txid j -> in_index i = in_index j ->
    step st (ATransfer e tx) = None.
  Proof.
    intros Hv H1 H2. destruct (step st (ATransfer e tx)) as [st'|] eqn:E; [|reflexivity].
    apply transfer_parts in E as (_ & E). apply transfer_set in E as (A & _).
    exfalso. rewrite spent_ikey, Hv, map_app in A. cbn [map] in A.
    apply NoDup_remove_2 in A. apply A. rewrite !in_app_iff, map_app, in_app_iff. cbn [map In].
    right. right. left. unfold ikey. congruence.
  Qed.

  (** ** C17 *)

  Definition uwf (st : ustate) : Prop :=
    ledger_wf (u_ledger st) /\ NoDup (keys (u_set st)) /\
    (forall k, fmem ukey_eqb (u_set st) k = true -> exists p, fget N.eqb (known st) (fst k) = Some p).

  Lemma entered_supply h i u reg L reg' L' :
    ledger_wf L -> entered pk_keyid h i u reg L = (reg', L') ->
    ledger_wf L' /\ forall s, supply L' s = supply L s.
  Proof.
    intros W H. unfold entered in H. destruct u as [r|k|p|]; try (injection H as <- <-; auto).
    destruct (l_get L (pk_keyid p)) as [a|] eqn:G; [|injection H as <- <-; auto].
    destruct (regid_empty (a_regid a)); [|injection H as <- <-; auto].
    injection H as <- <-. split.
    - apply lput_wf; [assumption|]. cbn [a_keyid]. now apply (proj2 W).
    - intros s. pose proof (supply_put L (pk_keyid p) a
        (mkAccount (a_keyid a) (h, i) (Some p) (a_tokens a) (a_received_votes a)
           (a_last_vote_height a) (a_last_vote_epoch a) (a_perms a)) s W G) as E.
      unfold holding, bal, get_token in E. cbn [a_tokens] in E. lia.
  Qed.

  Lemma fget_known_app (m1 m2 : list (N * utx)) id :
    fget N.eqb (m1 ++ m2) id = match fget N.eqb m1 id with Some p => Some p | None => fget N.eqb m2 id end.
  Proof. induction m1 as [|[k v] m1 IH]; cbn [app fget]; [reflexivity|]. destruct (id =? k); auto. Qed.

  Lemma nsum_le_map {A} (f g : A -> N) l : (forall x, In x l -> f x <= g x) -> nsum (map f l) <= nsum (map g l).
  Proof.
    induction l as [|x l IH]; cbn [map nsum]; intros H; [lia|].
    assert (f x <= g x) by (apply H; now left).
    assert (nsum (map f l) <= nsum (map g l)) by (apply IH; intros; apply H; now right). lia.
  Qed.

  Lemma nsum_zero {A} (l : list A) : nsum (map (fun _ => 0) l) = 0.
  Proof. induction l as [|x l IH]; cbn [map nsum]; lia. Qed.

  Definition pick (b : bool) (x : N) : N := if b then x else 0.

  Lemma unspent_step st tx set1 proofs1 tin set2 tout rg L2 reg :
    uwf st -> fget N.eqb (known st) (ux_id tx) = None ->
    one_token st tx -> N.of_nat (List.length (ux_vouts tx)) < two16 ->
    exec_ins (u_index st) rg (ux_vins tx) (u_set st) (u_proofs st) 0 = Some (set1, proofs1, tin) ->
    exec_outs (ux_id tx) 0 (ux_vouts tx) set1 0 = (set2, tout) ->
    let st' := mkU L2 reg set2 proofs1 (u_index st) (u_block st ++ [(ux_id tx, tx)]) in
    (forall s, unspent st' s + pick (String.eqb (ux_symbol tx) s) (nsum (map (amount_at (u_index st)) (ux_vins tx)))
     = unspent st s + pick (String.eqb (ux_symbol tx) s) (out_total tx)) /\
    (forall k, fmem ukey_eqb set2 k = true -> exists p, fget N.eqb (known st') (fst k) = Some p) /\
    NoDup (keys set2).
  Proof.
    intros (W & Hn & Hk) Hf Ho Hl EI EO st'.
    pose proof (exec_ins_ok _ _ _ _ _ _ _ _ _ EI) as (A & B & C & D & E & _ & _).
    assert (Kn : known st' = known st ++ [(ux_id tx, tx)]).
    { unfold known, st'. cbn [u_index u_block]. now rewrite app_assoc. }
    assert (Kold : forall id p, fget N.eqb (known st) id = Some p -> fget N.eqb (known st') id = Some p).
    { intros id p Hp. rewrite Kn, fget_known_app, Hp. reflexivity. }
    assert (Knew : fget N.eqb (known st') (ux_id tx) = Some tx).
    { rewrite Kn, fget_known_app, Hf. cbn [fget]. now rewrite N.eqb_refl. }
    assert (Hnew1 : forall j, fmem ukey_eqb set1 (ux_id tx, j) = false).
    { intros j. rewrite D. destruct (fmem ukey_eqb (u_set st) (ux_id tx, j)) eqn:M; [|reflexivity].
      apply Hk in M as (p & Hp). cbn [fst] in Hp. congruence. }
    split; [|split].
    - intros s. set (f := value_in (known st') s).
      assert (U' : unspent st' s = ksum f set2) by reflexivity.
      assert (U : unspent st s = ksum f (u_set st)).
      { unfold unspent. fold (ksum (value_in (known st) s) (u_set st)).
        apply ksum_ext; [|assumption]. intros k Mk. destruct (Hk k Mk) as (p & Hp).
        unfold f, value_in. now rewrite (Kold _ _ Hp), Hp. }
      pose proof (exec_ins_sum _ _ _ f _ _ _ _ _ _ EI Hn) as S1.
      pose proof (exec_outs_sum (ux_id tx) f (ux_vouts tx) 0 set1 0 set2 tout ltac:(lia) EO
        ltac:(intros j _; apply Hnew1)) as S2.
      assert (V : nsum (map (fun i => f (ikey i)) (ux_vins tx))
                  = pick (String.eqb (ux_symbol tx) s) (nsum (map (amount_at (u_index st)) (ux_vins tx)))).
      { assert (Hi : forall i, In i (ux_vins tx) ->
                  f (ikey i) = pick (String.eqb (ux_symbol tx) s) (amount_at (u_index st) i)).
        { intros i Hi. destruct (C i Hi) as (p & o & Hp & Hno).
          unfold f, value_in, amount_at, ikey. cbn [fst snd].
          assert (Hkp : fget N.eqb (known st) (in_txid i) = Some p)
            by (unfold known; rewrite fget_known_app, Hp; reflexivity).
          rewrite (Kold _ _ Hkp), Hp, Hno, (Ho i p Hi Hp). reflexivity. }
        rewrite (map_ext_in _ _ _ Hi). destruct (String.eqb (ux_symbol tx) s); unfold pick.
        - reflexivity.
        - apply nsum_zero. }
      assert (O : nsum (map (fun j => f (ux_id tx, 0 + N.of_nat j)) (seq 0 (List.length (ux_vouts tx))))
                  = pick (String.eqb (ux_symbol tx) s) (out_total tx)).
      { unfold f, value_in. cbn [fst snd]. rewrite Knew.
        destruct (String.eqb (ux_symbol tx) s); unfold pick.
        - apply (sum_nth_amount (fun k => match nth_error (ux_vouts tx) (N.to_nat (snd k)) with
                                          | Some o => out_amount o | None => 0 end) (ux_vouts tx) (ux_id tx)).
          intros j o Hj. cbn [snd]. now rewrite Nat2N.id, Hj.
        - apply nsum_zero. }
      rewrite U', U. lia.
    - intros k Mk. pose proof (exec_outs_ok _ _ _ _ _ _ _ lt0_16 EO) as (F & _ & _).
      rewrite F, D in Mk. apply orb_prop in Mk as [Mk|Mk].
      + apply andb_prop in Mk as (Mk & _). destruct (Hk k Mk) as (p & Hp). eauto.
      + apply mem_key in Mk. rewrite <- created_okeys in Mk. rewrite (created_fst _ _ Mk). eauto.
    - pose proof (exec_outs_ok _ _ _ _ _ _ _ lt0_16 EO) as (_ & F & _). auto.
  Qed.

  Lemma transfer_conserves e st tx st' :
    uwf st -> (forall s, wealth st s < two64) -> fget N.eqb (known st) (ux_id tx) = None ->
    coherent st tx -> exec_transfer pk_keyid e st tx = Some st' ->
    uwf st' /\ forall s, wealth st' s + fee_in (ux_fee_symbol tx) (ux_fee tx) s = wealth st s.
  Proof.
    intros Hw Hb Hf (Ho & Ht & Hl) H. apply exec_transfer_parts in H as
      (k & reg & L0 & L1 & acct & set1 & proofs1 & tin & set2 & tout & L2 & b &
       Hfind & En & Ch & Hg & EI & EO & _ & _ & Mv & ->).
    pose proof (unspent_step st tx set1 proofs1 tin set2 tout (a_regid acct) L2 reg
                  Hw Hf Ho Hl EI EO) as (U & Kn & Nd). cbv zeta in U, Kn.
    destruct Hw as (W & Hn & Hk).
    destruct (entered_supply _ _ _ _ _ _ _ W En) as (W0 & S0).
    set (ain := nsum (map (amount_at (u_index st)) (ux_vins tx))) in *.
    assert (Hain : ain <= unspent st (ux_symbol tx)).
    { pose proof (exec_ins_ok _ _ _ _ _ _ _ _ _ EI) as (_ & _ & C & _).
      pose proof (exec_ins_sum _ _ _ (value_in (known st) (ux_symbol tx)) _ _ _ _ _ _ EI Hn) as S1.
      unfold unspent. fold (ksum (value_in (known st) (ux_symbol tx)) (u_set st)).
      assert (ain <= nsum (map (fun i => value_in (known st) (ux_symbol tx) (ikey i)) (ux_vins tx))).
      { apply nsum_le_map. intros i Hi. destruct (C i Hi) as (p & o & Hp & Hno).
        unfold value_in, amount_at, ikey, known. cbn [fst snd]. rewrite fget_known_app, Hp, Hno.
        rewrite (Ho i p Hi Hp), String.eqb_refl. lia. }
      lia. }
    assert (Htin : tin = ain).
    { pose proof (exec_ins_ok _ _ _ _ _ _ _ _ _ EI) as (_ & _ & _ & _ & _ & T & _).
      rewrite T by reflexivity. rewrite N.add_0_l. apply N.mod_small.
      specialize (Hb (ux_symbol tx)). unfold wealth in Hb. fold ain. lia. }
    assert (Htout : tout = out_total tx).
    { pose proof (exec_outs_ok _ _ _ _ _ _ _ lt0_16 EO) as (_ & _ & T).
      rewrite T by reflexivity. rewrite N.add_0_l. now apply N.mod_small. }
    assert (F1 : ledger_wf L1 /\ forall s, supply L1 s + fee_in (ux_fee_symbol tx) (ux_fee tx) s = supply L0 s).
    { destruct (0 <? ux_fee tx) eqn:Z.
      - split; [eapply l_operate_wf; eauto|]. intros s.
        pose proof (l_operate_supply L0 (mkReq k (ux_fee_symbol tx) SubFree (ux_fee tx) None) L1 s W0 Ch) as Q.
        unfold mint_of, burn_of in Q. cbn [q_op q_other q_symbol q_amount] in Q.
        unfold fee_in. rewrite Q; [lia|]. intros s0 ->. rewrite S0.
        specialize (Hb (ux_fee_symbol tx)). unfold wealth in Hb. lia.
      - injection Ch as <-. split; [assumption|]. intros s. unfold fee_in.
        assert (ux_fee tx = 0) by lia. destruct (String.eqb (ux_fee_symbol tx) s); lia. }
    destruct F1 as (W1 & S1).
    assert (F2 : ledger_wf L2 /\ forall s,
              supply L2 s + pick (String.eqb (ux_symbol tx) s) (out_total tx)
              = supply L1 s + pick (String.eqb (ux_symbol tx) s) ain).
    { subst tin tout. destruct (ain <? out_total tx) eqn:Z1; [|destruct (out_total tx <? ain) eqn:Z2].
      - split; [eapply l_operate_wf; eauto|]. intros s.
        pose proof (l_operate_supply L1 (mkReq k (ux_symbol tx) SubFree (out_total tx - ain) None) L2 s W1 Mv) as Q.
        unfold mint_of, burn_of in Q. cbn [q_op q_other q_symbol q_amount] in Q.
        assert (Q' := Q ltac:(intros s0 ->; specialize (Hb (ux_symbol tx)); unfold wealth in Hb;
          specialize (S0 (ux_symbol tx)); specialize (S1 (ux_symbol tx)); lia)).
        destruct (String.eqb (ux_symbol tx) s); unfold pick; lia.
      - split; [eapply l_operate_wf; eauto|]. intros s.
        pose proof (l_operate_supply L1 (mkReq k (ux_symbol tx) AddFree (ain - out_total tx) None) L2 s W1 Mv) as Q.
        unfold mint_of, burn_of in Q. cbn [q_op q_other q_symbol q_amount] in Q.
        assert (Q' := Q ltac:(intros s0 ->; rewrite String.eqb_refl; specialize (Hb (ux_symbol tx)); unfold wealth in Hb;
          specialize (S0 (ux_symbol tx)); specialize (S1 (ux_symbol tx)); lia)).
        destruct (String.eqb (ux_symbol tx) s); unfold pick; lia.
      - injection Mv as <-. split; [assumption|]. intros s.
        destruct (String.eqb (ux_symbol tx) s); unfold pick; lia. }
    destruct F2 as (W2 & S2). split.
    - unfold uwf. cbn [u_ledger u_set]. auto.
    - intros s. specialize (U s). specialize (S0 s). specialize (S1 s). specialize (S2 s).
      unfold wealth. cbn [u_ledger]. lia.
  Qed.

  Lemma uwf_start L reg : ledger_wf L -> uwf (ustart L reg).
  Proof.
    intros W. unfold uwf, ustart. cbn [u_ledger u_set]. split; [assumption|]. split; [constructor|].
    discriminate.
  Qed.

  Lemma known_linked st tr id : linked st tr -> ~ In (EvTx id) tr -> fget N.eqb (known st) id = None.
  Proof.
    intros (_ & _ & _ & K4 & K5) H. unfold known. rewrite fget_known_app.
    destruct (fget N.eqb (u_index st) id) as [p|] eqn:E.
    - destruct (K4 _ _ E) as (a & b & -> & Ha & _). exfalso. apply H. rewrite in_app_iff. now left.
    - destruct (fget N.eqb (u_block st) id) as [p|] eqn:F; [|reflexivity].
      apply (fget_in N.eqb N_eqb_ok) in F. exfalso. apply H. eapply K5; eauto.
  Qed.

  Lemma history_conserves acts : forall st tr0 st' tr,
    linked st tr0 -> uwf st -> (forall s, wealth st s < two64) ->
    run st acts = (st', tr) -> NoDup (tx_ids (tr0 ++ tr)) ->
    history_ok pk_keyid ms_keyid ms_hash verify pw_hash proof_hash st acts ->
    uwf st' /\ forall s, wealth st' s
      + fees_paid pk_keyid ms_keyid ms_hash verify pw_hash proof_hash st acts s = wealth st s.
  Proof.
    induction acts as [|a acts IH]; cbn [urun history_ok fees_paid]; intros st tr0 st' tr Hl Hw Hb H Hn Hok.
    - injection H as <- <-. split; [assumption|]. intros s. lia.
    - destruct (step st a) as [st1|] eqn:E; [|eapply IH; eauto].
      destruct (run st1 acts) as [st2 tr2] eqn:R. injection H as <- <-.
      rewrite app_assoc in Hn.
      assert (Hn1 : NoDup (tx_ids (tr0 ++ events pk_keyid st a))).
      { rewrite tx_ids_app in Hn. now apply nodup_app_l in Hn. }
      destruct (linked_step st tr0 a st1 Hl E Hn1) as (L1 & _).
      destruct Hok as (Hc & Hok).
      assert (S : uwf st1 /\ forall s, wealth st1 s
        + (match a with ATransfer _ tx => fee_in (ux_fee_symbol tx) (ux_fee tx) s | _ => 0 end) = wealth st s).
      { destruct a as [e tx|u txid index proof| |L reg].
        - apply transfer_parts in E as (_ & E). eapply transfer_conserves; eauto.
          apply (known_linked st tr0); [assumption|].
          rewrite tx_ids_app in Hn1. cbn [events tx_ids] in Hn1. apply NoDup_remove_2 in Hn1.
          intros G. apply Hn1. rewrite in_app_iff. left. now apply in_tx_ids.
        - cbn [ustep] in E. apply proof_parts in E as (ac & _ & ->).
          split; [exact Hw|]. intros s. unfold wealth, unspent, known. cbn [u_ledger u_set u_index u_block]. lia.
        - cbn [ustep] in E. injection E as <-. destruct Hw as (W & N1 & K1).
          split.
          + unfold uwf, known. cbn [u_ledger u_set u_index u_block]. rewrite app_nil_r. auto.
          + intros s. unfold wealth, unspent, known. cbn [u_ledger u_set u_index u_block].
            rewrite app_nil_r. lia.
        - cbn [ustep] in E. injection E as <-. destruct Hc as (WL & SL). destruct Hw as (W & N1 & K1).
          split; [unfold uwf, known; cbn [u_ledger u_set u_index u_block]; auto|].
          intros s. unfold wealth, unspent, known. cbn [u_ledger u_set u_index u_block]. rewrite SL. lia. }
      destruct S as (Hw1 & S1).
      assert (Hb1 : forall s, wealth st1 s < two64) by (intros s; specialize (S1 s); specialize (Hb s); lia).
      destruct (IH st1 _ st2 tr2 L1 Hw1 Hb1 R Hn Hok) as (Hw2 & S2).
      split; [assumption|]. intros s. specialize (S1 s). specialize (S2 s).
      destruct a; lia.
  Qed.

  (** ** C51 *)

  Notation cond_ok := (check_cond pk_keyid ms_keyid ms_hash verify pw_hash proof_hash).
  Notation conds_ok := (check_conds pk_keyid ms_keyid ms_hash verify pw_hash proof_hash).
  Notation is_met := (met pk_keyid ms_keyid ms_hash verify pw_hash proof_hash).

  Lemma when_pass b : when b = Pass <-> b = true.
  Proof. destruct b; cbn; split; congruence. Qed.

  Lemma both_pass a b : both a b = Pass <-> a = Pass /\ b = Pass.
  Proof. destruct a; cbn; intuition congruence. Qed.

  Lemma first_cond_some t cs p :
    first_cond t cs = Some (Some p) -> In (Cond p) cs /\ tag p = t.
  Proof.
    induction cs as [|[|q] cs IH]; cbn [first_cond]; [discriminate | discriminate|].
    destruct (tag q =? t) eqn:E.
    - intros H. injection H as <-. split; [now left | lia].
    - intros H. apply IH in H as (H & H'). split; [now right | assumption].
  Qed.

  Lemma first_cond_tidy i p :
    tidy i -> In (Cond p) (in_conds i) -> first_cond (tag p) (in_conds i) = Some (Some p).
  Proof.
    unfold tidy. induction (in_conds i) as [|c cs IH]; intros (A & B) H; [destruct H|].
    cbn [map] in B. inversion B; subst. cbn [first_cond].
    destruct c as [|q]; [exfalso; apply A; now left|].
    destruct H as [H|H].
    - injection H as ->. now rewrite N.eqb_refl.
    - destruct (tag q =? tag p) eqn:E.
      + exfalso. apply H2. apply N.eqb_eq in E. cbn [kind]. rewrite E.
        change (tag p) with (kind (Cond p)). now apply in_map.
      + apply IH; [|assumption]. split; [|assumption]. intros G. apply A. now right.
  Qed.

  Lemma account_of_denotes st u a :
    ledger_wf (u_ledger st) -> account_of pk_keyid st u = Some a ->
    denotes pk_keyid (u_reg st) u = Some (a_keyid a).
  Proof.
    intros W. unfold account_of, find. destruct (denotes pk_keyid (u_reg st) u) as [k|]; [|discriminate].
    destruct (l_get (u_ledger st) k) as [b|] eqn:G; [|discriminate]. rewrite G.
    intros H. injection H as ->. now rewrite (proj2 W k a G).
  Qed.

  Lemma cond_sound e st acct creator inp c :
    ledger_wf (u_ledger st) -> cond_ok e st acct (Some creator) inp c = Pass ->
    is_met e st acct creator inp c.
  Proof.
    intros W H. destruct c as [|[ |m n us sigs|len pw|u|dest|req h|h|h]]; cbn [check_cond met] in *;
      try discriminate.
    - destruct (account_of pk_keyid st u) as [a|]; [|discriminate].
      apply when_pass in H. exists a. split; [reflexivity | lia].
    - destruct (first_cond IP2MA (in_conds inp)) as [[q|]|] eqn:F; try discriminate.
      destruct q as [ |m n us sigs|len pw|u|d|req h|h|h]; try discriminate.
      destruct (n <? m) eqn:E1; [discriminate|].
      destruct ((20 <? m) || (20 <? n)) eqn:E2; [discriminate|].
      destruct (N.of_nat (List.length us) =? n) eqn:E3; cbn [negb] in H; [|discriminate].
      destruct (party_keys pk_keyid st us) as [ks|] eqn:P; [|discriminate].
      destruct (dest =? ms_keyid m n ks) eqn:E4; cbn [negb] in H; [|discriminate].
      apply when_pass in H. apply verify_multisig_sound in H. apply first_cond_some in F as (F & _).
      exists m, n, us, sigs, ks. split; [assumption|]. split; [lia|]. split; [lia|]. split; [lia|].
      split; [now apply party_keys_ok|]. split; [lia | assumption].
    - destruct (first_cond IP2PH (in_conds inp)) as [[q|]|] eqn:F; try discriminate.
      destruct q as [ |m n us sigs|len pw|u|d|req' h'|h'|h']; try discriminate.
      destruct (256 <? len) eqn:E1; [discriminate|].
      destruct (account_of pk_keyid st creator) as [a|] eqn:A; [|discriminate].
      apply when_pass in H. apply andb_prop in H as (H1 & H2). apply first_cond_some in F as (F & _).
      exists len, pw, a. split; [assumption|]. split; [lia|]. split; [reflexivity|]. split; [lia|].
      intros ->. destruct (fget pkey_eqb (u_proofs st) (in_txid inp, in_index inp, a_regid acct)) as [q|];
        [|discriminate]. f_equal. lia.
    - apply when_pass in H. lia.
    - assert (K : exists k, denotes pk_keyid (u_reg st) creator = Some k /\
                (if k =? a_keyid acct then when (negb ((h =? 0) || (v_height e <=? h))) else Pass) = Pass).
      { destruct creator as [r|k|p|].
        - destruct (account_of pk_keyid st (UReg r)) as [a|] eqn:A; [|discriminate].
          exists (a_keyid a). split; [now apply account_of_denotes | assumption].
        - exists k. split; [reflexivity | assumption].
        - destruct (account_of pk_keyid st (UPub p)) as [a|] eqn:A; [|discriminate].
          exists (a_keyid a). split; [now apply account_of_denotes | assumption].
        - destruct (account_of pk_keyid st UNull) as [a|] eqn:A; [|discriminate].
          exists (a_keyid a). split; [now apply account_of_denotes | assumption]. }
      destruct K as (k & K1 & K2). exists k. split; [assumption|]. intros ->.
      rewrite N.eqb_refl in K2. apply when_pass in K2. lia.
  Qed.

  Lemma cond_complete e st acct creator inp c :
    ledger_wf (u_ledger st) -> tidy inp ->
    (forall m n us sigs, In (Cond (InMulti m n us sigs)) (in_conds inp) -> parties_ok pk_keyid st us) ->
    account_of pk_keyid st creator <> None ->
    is_met e st acct creator inp c -> cond_ok e st acct (Some creator) inp c = Pass.
  Proof.
    intros W T Hp Hc H. destruct c as [|[ |m n us sigs|len pw|u|dest|req h|h|h]]; cbn [check_cond met] in *;
      try contradiction.
    - destruct H as (a & -> & E). apply when_pass. lia.
    - destruct H as (m & n & us & sigs & ks & H1 & H2 & H3 & H4 & H5 & H6 & H7).
      pose proof (first_cond_tidy inp _ T H1) as F. cbn [tag] in F. rewrite F.
      assert (E1 : (n <? m) = false) by lia. rewrite E1.
      assert (E2 : (20 <? m) || (20 <? n) = false) by lia. rewrite E2.
      assert (E3 : (N.of_nat (List.length us) =? n) = true) by lia. rewrite E3. cbn [negb].
      apply party_keys_ok in H5. rewrite H5.
      assert (E4 : (dest =? ms_keyid m n ks) = true) by lia. rewrite E4. cbn [negb].
      apply when_pass, verify_multisig_complete; [eapply Hp; eauto | assumption].
    - destruct H as (len & pw & a & H1 & H2 & H3 & H4 & H5).
      pose proof (first_cond_tidy inp _ T H1) as F. cbn [tag] in F. rewrite F.
      assert (E1 : (256 <? len) = false) by lia. rewrite E1, H3. apply when_pass.
      apply andb_true_intro. split; [|lia]. destruct req; [|reflexivity].
      rewrite H5 by reflexivity. apply N.eqb_refl.
    - apply when_pass. lia.
    - destruct H as (k & K1 & K2).
      assert (G : match creator with
                  | UKey k0 => Some k0
                  | _ => match account_of pk_keyid st creator with Some a => Some (a_keyid a) | None => None end
                  end = Some k).
      { destruct creator as [r|q|p|]; [ | exact K1 | |];
        match goal with |- match ?x with _ => _ end = _ => destruct x as [a|] eqn:A end;
          try congruence; apply (account_of_denotes _ _ _ W) in A; congruence. }
      rewrite G. destruct (k =? a_keyid acct) eqn:E; [|reflexivity].
      apply N.eqb_eq in E. specialize (K2 E). apply when_pass. lia.
  Qed.

  Lemma conds_sound e st acct prev inp cs : forall seen,
    conds_ok e st acct prev inp seen cs = Pass ->
    (forall c, In c cs -> cond_ok e st acct prev inp c = Pass) /\
    NoDup (map kind cs) /\ (forall t, In t seen -> ~ In t (map kind cs)).
  Proof.
    induction cs as [|c cs IH]; cbn [check_conds]; intros seen H.
    - split; [intros c []|]. split; [constructor | intros t _ []].
    - apply both_pass in H as (H1 & H2). destruct c as [|p]; [discriminate|].
      destruct (existsb (N.eqb (tag p)) seen) eqn:E; [discriminate|].
      apply IH in H2 as (A & B & C).
      assert (Ns : ~ In (tag p) seen).
      { intros G. rewrite (proj2 (existsb_exists _ _)) in E; [discriminate|].
        exists (tag p). split; [assumption | apply N.eqb_refl]. }
      split; [|split].
      + intros c [<-|Hc]; [assumption | now apply A].
      + cbn [map kind]. constructor; [|assumption]. apply C. now left.
      + intros t Ht. cbn [map kind]. intros [<-|G]; [auto|]. apply (C t); [now right | assumption].
  Qed.

  Lemma ins_sound e st acct is : forall total t',
    check_ins pk_keyid ms_keyid ms_hash verify pw_hash proof_hash e st acct is total = (Pass, t') ->
    forall i, In i is -> exists p o, prev_out st i = Some (p, o) /\
      (forall c, In c (out_conds o) -> cond_ok e st acct (Some (ux_uid p)) i c = Pass).
  Proof.
    induction is as [|i is IH]; cbn [check_ins]; intros total t' H j Hj; [destruct Hj|].
    destruct (prev_out st i) as [[p o]|] eqn:P; [|discriminate].
    match type of H with match ?x with _ => _ end = _ => destruct x eqn:B; try discriminate end.
    apply both_pass in B as (B & _). destruct Hj as [<-|Hj].
    - exists p, o. split; [assumption|]. now apply conds_sound in B.
    - eapply IH; eauto.
  Qed.

  Lemma prev_out_some st i p o :
    prev_out st i = Some (p, o) ->
    fget N.eqb (u_index st) (in_txid i) = Some p /\
    in_index i < N.of_nat (List.length (ux_vouts p)) mod two16 /\
    nth_error (ux_vouts p) (N.to_nat (in_index i)) = Some o.
  Proof.
    unfold prev_out. destruct (fget N.eqb (u_index st) (in_txid i)) as [q|]; [|discriminate].
    destruct (_ <? _) eqn:R; [discriminate|]. apply N.ltb_ge in R.
    destruct (nth_error (ux_vouts q) (N.to_nat (in_index i))) as [o'|] eqn:E; [|discriminate].
    intros H. injection H as -> ->. split; [reflexivity|]. split; [lia | assumption].
  Qed.

  Lemma check_parts e st tx :
    check e st tx = Pass ->
    exists acct tin tout b, account_of pk_keyid st (ux_uid tx) = Some acct /\
      check_ins pk_keyid ms_keyid ms_hash verify pw_hash proof_hash e st acct (ux_vins tx) 0 = (Pass, tin) /\
      check_outs pk_keyid ms_keyid ms_hash verify pw_hash proof_hash e st acct (ux_vouts tx) 0 = (Pass, tout) /\
      free_balance acct (ux_symbol tx) = Some b /\ (add64 b tin <? add64 tout (ux_fee tx)) = false.
  Proof.
    unfold check_transfer. intros H.
    destruct (account_of pk_keyid st (ux_uid tx)) as [acct|]; [|discriminate].
    repeat match type of H with (if ?c then Refuse else _) = _ => destruct c; [discriminate|] end.
    destruct (check_ins _ _ _ _ _ _ _ _ _ _ _) as [vi tin] eqn:CI.
    destruct (check_outs _ _ _ _ _ _ _ _ _ _ _) as [vo tout] eqn:CO.
    apply both_pass in H as (-> & H). apply both_pass in H as (-> & H).
    destruct (free_balance acct (ux_symbol tx)) as [b|] eqn:FB; [|discriminate].
    apply when_pass in H. exists acct, tin, tout, b. repeat (split; [reflexivity || assumption|]).
    now apply negb_true_iff.
  Qed.

  Lemma transfer_meets e st tx st' :
    ledger_wf (u_ledger st) -> step st (ATransfer e tx) = Some st' ->
    exists acct, account_of pk_keyid st (ux_uid tx) = Some acct /\
      forall i, In i (ux_vins tx) -> exists p o,
        fget N.eqb (u_index st) (in_txid i) = Some p /\
        in_index i < N.of_nat (List.length (ux_vouts p)) mod two16 /\
        nth_error (ux_vouts p) (N.to_nat (in_index i)) = Some o /\
        Forall (is_met e st acct (ux_uid p) i) (out_conds o).
  Proof.
    intros W H. apply transfer_parts in H as (H & _).
    apply check_parts in H as (acct & tin & tout & b & A & CI & _).
    exists acct. split; [assumption|]. intros i Hi.
    destruct (ins_sound _ _ _ _ _ _ CI i Hi) as (p & o & P & Hc).
    apply prev_out_some in P as (P1 & P0 & P2). exists p, o.
    split; [assumption|]. split; [assumption|]. split; [assumption|].
    apply Forall_forall. intros c Hin. apply cond_sound; auto.
  Qed.

  Lemma cond_new e st acct inp c :
    cond_ok e st acct None inp c = Pass <-> well_formed c.
  Proof.
    destruct c as [|[ |m n us sigs|len pw|u|dest|req h|h|h]]; cbn [check_cond well_formed];
      try (split; [discriminate | contradiction]); rewrite when_pass.
    - destruct u; cbn; split; congruence.
    - rewrite negb_true_iff, N.eqb_neq. reflexivity.
    - rewrite negb_true_iff, N.eqb_neq. reflexivity.
    - rewrite negb_true_iff, N.eqb_neq. reflexivity.
    - rewrite negb_true_iff, N.eqb_neq. reflexivity.
  Qed.

  Lemma has_tag_kind t cs : t <> 0 -> has_tag t cs = true <-> In t (map kind cs).
  Proof.
    intros Ht. unfold has_tag. rewrite existsb_exists, in_map_iff. split.
    - intros (c & Hc & E). exists c. split; [|assumption]. destruct c; [discriminate|]. cbn [kind]. lia.
    - intros (c & E & Hc). exists c. split; [assumption|]. destruct c; cbn [kind] in E; [congruence | lia].
  Qed.

  Lemma outs_sound e st acct os : forall total t',
    check_outs pk_keyid ms_keyid ms_hash verify pw_hash proof_hash e st acct os total = (Pass, t') ->
    forall o, In o os -> out_amount o <> 0 /\ Forall well_formed (out_conds o) /\
      NoDup (map kind (out_conds o)) /\ ~ (In OP2SA (map kind (out_conds o)) /\ In OP2MA (map kind (out_conds o))).
  Proof.
    induction os as [|o os IH]; cbn [check_outs]; intros total t' H o' Ho; [destruct Ho|].
    destruct (out_amount o =? 0) eqn:Z; [discriminate|].
    match type of H with match ?x with _ => _ end = _ => destruct x eqn:B; try discriminate end.
    destruct Ho as [<-|Ho]; [|eapply IH; eauto].
    apply both_pass in B as (B & B'). apply conds_sound in B as (C & D & _).
    split; [lia|]. split; [|split; [assumption|]].
    - apply Forall_forall. intros c Hc. eapply cond_new. now apply C.
    - apply when_pass in B'. rewrite <- !has_tag_kind by discriminate.
      intros (G1 & G2). rewrite G1, G2 in B'. discriminate.
  Qed.

  Lemma transfer_outputs e st tx st' :
    step st (ATransfer e tx) = Some st' ->
    forall o, In o (ux_vouts tx) -> out_amount o <> 0 /\ Forall well_formed (out_conds o) /\
      NoDup (map kind (out_conds o)) /\ ~ (In OP2SA (map kind (out_conds o)) /\ In OP2MA (map kind (out_conds o))).
  Proof.
    intros H. apply transfer_parts in H as (H & _).
    apply check_parts in H as (acct & tin & tout & b & _ & _ & CO & _).
    eapply outs_sound; eauto.
  Qed.

  Lemma run_proofs acts : forall st tr0 st' tr,
    (forall t i rg v, fget pkey_eqb (u_proofs st) (t, i, rg) = Some v -> In (EvProof t i rg v) tr0) ->
    run st acts = (st', tr) ->
    forall t i rg v, fget pkey_eqb (u_proofs st') (t, i, rg) = Some v -> In (EvProof t i rg v) (tr0 ++ tr).
  Proof.
    induction acts as [|a acts IH]; cbn [urun]; intros st tr0 st' tr K H.
    - injection H as <- <-. rewrite app_nil_r. exact K.
    - destruct (step st a) as [st1|] eqn:E; [|eapply IH; eauto].
      destruct (run st1 acts) as [st2 tr2] eqn:R. injection H as <- <-. rewrite app_assoc.
      refine (IH st1 _ st2 tr2 _ R). intros t i rg v Hv. rewrite in_app_iff.
      destruct a as [e tx|u txid index proof| |L reg].
      + left. apply K. apply transfer_parts in E as (_ & E). apply exec_transfer_parts in E as
          (k & reg & L0 & L1 & acct & set1 & proofs1 & tin & set2 & tout & L2 & b &
           _ & _ & _ & _ & EI & _ & _ & _ & _ & ->).
        cbn [u_proofs] in Hv. apply exec_ins_ok in EI as (_ & _ & _ & _ & _ & _ & P). now apply P.
      + cbn [ustep] in E. apply proof_parts in E as (ac & Ha & ->). cbn [events]. rewrite Ha.
        cbn [u_proofs] in Hv. rewrite (fget_put pkey_eqb pkey_eqb_ok) in Hv.
        destruct (pkey_eqb (t, i, rg) (txid, index, a_regid ac)) eqn:Q.
        * apply pkey_eqb_ok in Q. injection Q as -> -> ->. injection Hv as ->. right. now left.
        * left. now apply K.
      + cbn [ustep] in E. injection E as <-. left. now apply K.
      + cbn [ustep] in E. injection E as <-. left. now apply K.
  Qed.

  (** ** C52 *)

  Lemma first_cond_null t cs : ~ In CNull cs -> first_cond t cs <> None.
  Proof.
    induction cs as [|[|p] cs IH]; cbn [first_cond In]; intros H; [discriminate | tauto|].
    destruct (tag p =? t); [discriminate|]. apply IH. tauto.
  Qed.

  Lemma when_fault b : when b <> Fault.
  Proof. destruct b; discriminate. Qed.

  Lemma cond_no_fault e st acct prev inp c :
    ~ In CNull (in_conds inp) -> c <> CNull -> cond_ok e st acct prev inp c <> Fault.
  Proof.
    intros Hi Hc. pose proof (first_cond_null IP2MA _ Hi). pose proof (first_cond_null IP2PH _ Hi).
    destruct c as [|[ |m n us sigs|len pw|u|dest|req h|h|h]]; cbn [check_cond]; try congruence;
      repeat match goal with
      | |- when _ <> Fault => apply when_fault
      | |- Refuse <> Fault => discriminate
      | |- Pass <> Fault => discriminate
      | |- match ?x with _ => _ end <> Fault => destruct x; try congruence
      end.
  Qed.

  Lemma both_no_fault a b : a <> Fault -> b <> Fault -> both a b <> Fault.
  Proof. destruct a; cbn; congruence. Qed.

  Lemma conds_no_fault e st acct prev inp cs : forall seen,
    ~ In CNull (in_conds inp) -> ~ In CNull cs -> conds_ok e st acct prev inp seen cs <> Fault.
  Proof.
    induction cs as [|c cs IH]; cbn [check_conds]; intros seen Hi Hc; [discriminate|].
    apply both_no_fault.
    - apply cond_no_fault; [assumption|]. intros ->. apply Hc. now left.
    - destruct c as [|p]; [exfalso; apply Hc; now left|].
      destruct (existsb _ seen); [discriminate|]. apply IH; [assumption|]. intros G. apply Hc. now right.
  Qed.

  Lemma check_no_fault e st tx : no_null st tx -> check e st tx <> Fault.
  Proof.
    intros (N1 & N2 & N3). unfold check_transfer.
    destruct (account_of pk_keyid st (ux_uid tx)) as [acct|]; [|discriminate].
    repeat match goal with |- (if ?c then Refuse else _) <> _ => destruct c; [discriminate|] end.
    assert (I : forall is total, (forall i, In i is -> ~ In CNull (in_conds i)) ->
      fst (check_ins pk_keyid ms_keyid ms_hash verify pw_hash proof_hash e st acct is total) <> Fault).
    { induction is as [|i is IH]; cbn [check_ins]; intros total Hi; [discriminate|].
      destruct (prev_out st i) as [[p o]|] eqn:P; [|discriminate].
      assert (B : both (conds_ok e st acct (Some (ux_uid p)) i [] (out_conds o))
        (when (negb (has_tag IP2SA (out_conds o) && has_tag IP2MA (out_conds o)))) <> Fault).
      { apply both_no_fault; [|apply when_fault]. apply conds_no_fault; [apply Hi; now left|].
        apply prev_out_some in P as (P1 & _ & P2). apply nth_error_In in P2. eapply N3; eauto. }
      destruct (both _ _); [|discriminate|congruence]. apply IH. intros j Hj. apply Hi. now right. }
    assert (O : forall os total, (forall o, In o os -> ~ In CNull (out_conds o)) ->
      fst (check_outs pk_keyid ms_keyid ms_hash verify pw_hash proof_hash e st acct os total) <> Fault).
    { induction os as [|o os IH]; cbn [check_outs]; intros total Ho; [discriminate|].
      destruct (out_amount o =? 0); [discriminate|].
      assert (B : both (conds_ok e st acct None no_input [] (out_conds o))
        (when (negb (has_tag OP2SA (out_conds o) && has_tag OP2MA (out_conds o)))) <> Fault).
      { apply both_no_fault; [|apply when_fault]. apply conds_no_fault; [intros []|]. apply Ho. now left. }
      destruct (both _ _); [|discriminate|congruence]. apply IH. intros j Hj. apply Ho. now right. }
    specialize (I (ux_vins tx) 0 N2). specialize (O (ux_vouts tx) 0 N1).
    destruct (check_ins _ _ _ _ _ _ _ _ _ _ _) as [vi tin].
    destruct (check_outs _ _ _ _ _ _ _ _ _ _ _) as [vo tout]. cbn [fst] in I, O.
    apply both_no_fault; [assumption|]. apply both_no_fault; [assumption|].
    destruct (free_balance acct (ux_symbol tx)); [apply when_fault | discriminate].
  Qed.
End Proofs.
