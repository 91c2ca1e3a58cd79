(** Proofs about voting (C09, C10, C54, C55). *)
From Coq Require Import String List Bool NArith ZArith Lia Sorting.Sorted Permutation.
From Coq Require Import ZifyBool ZifyNat ZifyN.
From Verif Require Import Prelude PreludeFacts AccountModel AccountSpec AccountProofs TxModel TxProofs
  CodecModel CodecSpec CodecProofs VoteModel VoteSpec.
Import ListNotations.
Open Scope N_scope.

Lemma rank_eqb_ok : forall a b, rank_eqb a b = true <-> a = b.
Proof. apply pair_eqb_ok; [apply N_eqb_ok | apply regid_eqb_ok]. Qed.

Lemma in_range_iff v : in_range v = true <-> v <= MAX_BCOINS.
Proof. unfold in_range, MAX_BCOINS. lia. Qed.

Lemma vote_key_inj m n : m <= MAX_BCOINS -> n <= MAX_BCOINS -> vote_key m = vote_key n -> m = n.
Proof. unfold vote_key, two64, MAX_BCOINS. lia. Qed.

Section Proofs.
  Variable pk_keyid : N -> N.
  Variable fcoin_interest bcoin_interest : N -> N -> N -> N.
  Variable arrange : list (uid * N) -> list (uid * N).
  Hypothesis inj : forall p q, pk_keyid p = pk_keyid q -> p = q.
  Hypothesis arr : sorts arrange.

  Notation target := (target pk_keyid).
  Notation names_ok := (names_ok pk_keyid).
  Notation known := (known pk_keyid).
  Notation votes_for := (votes_for pk_keyid).
  Notation all_votes_for := (all_votes_for pk_keyid).
  Notation is_for := (is_for pk_keyid).
  Notation list_ok := (list_ok pk_keyid).
  Notation votes_ok := (votes_ok pk_keyid).
  Notation account_of := (account_of pk_keyid).
  Notation matches := (matches pk_keyid).
  Notation find_entry := (find_entry pk_keyid).
  Notation apply_vote := (apply_vote pk_keyid).
  Notation apply_votes := (apply_votes pk_keyid).
  Notation process := (process pk_keyid fcoin_interest bcoin_interest arrange).
  Notation count_vote := (count_vote pk_keyid).
  Notation count_votes := (count_votes pk_keyid).
  Notation cast := (cast pk_keyid fcoin_interest bcoin_interest arrange).

  (** *** Names *)

  Lemma reg_of st r k : names_ok st -> fget regid_eqb (v_reg st) r = Some k ->
    regid_empty r = false /\ exists a, l_get (v_ledger st) k = Some a /\ a_regid a = r.
  Proof. intros (_ & H & _). apply H. Qed.

  Lemma reg_intro st k a : names_ok st -> l_get (v_ledger st) k = Some a ->
    regid_empty (a_regid a) = false -> fget regid_eqb (v_reg st) (a_regid a) = Some k.
  Proof. intros (_ & H & _) Ha He. apply H. eauto. Qed.

  Lemma same_regid st k1 k2 a1 a2 : names_ok st -> l_get (v_ledger st) k1 = Some a1 ->
    l_get (v_ledger st) k2 = Some a2 -> regid_empty (a_regid a1) = false ->
    a_regid a1 = a_regid a2 -> k1 = k2.
  Proof.
    intros Hn H1 H2 He Hr. pose proof (reg_intro _ _ _ Hn H1 He) as R1.
    rewrite Hr in He. pose proof (reg_intro _ _ _ Hn H2 He) as R2. congruence.
  Qed.

  Lemma key_eq st k a : names_ok st -> l_get (v_ledger st) k = Some a -> a_keyid a = k.
  Proof. intros ((_ & H) & _). apply H. Qed.

  Lemma account_target st u a : names_ok st -> account_of st u = Some a ->
    target st u = Some (a_keyid a) /\ l_get (v_ledger st) (a_keyid a) = Some a.
  Proof.
    intros Hn. destruct u as [r|k|p|]; cbn [VoteModel.account_of VoteSpec.target].
    - destruct (regid_empty r); [discriminate|]. destruct (fget regid_eqb (v_reg st) r) as [k|] eqn:E;
        [|discriminate]. intros H. rewrite (key_eq _ _ _ Hn H). auto.
    - intros H. rewrite (key_eq _ _ _ Hn H). auto.
    - intros H. rewrite (key_eq _ _ _ Hn H). auto.
    - discriminate.
  Qed.

  Lemma target_account st u c a : names_ok st -> target st u = Some c ->
    l_get (v_ledger st) c = Some a -> account_of st u = Some a.
  Proof.
    intros Hn Ht Ha. destruct u as [r|k|p|]; cbn [VoteModel.account_of VoteSpec.target] in *.
    - destruct (reg_of _ _ _ Hn Ht) as (-> & _). now rewrite Ht.
    - injection Ht as ->. exact Ha.
    - injection Ht as ->. exact Ha.
    - discriminate.
  Qed.

  Lemma known_account st u : names_ok st -> known st u ->
    exists a, account_of st u = Some a /\ target st u = Some (a_keyid a) /\
              l_get (v_ledger st) (a_keyid a) = Some a.
  Proof.
    intros Hn (_ & c & Ht & Hc). destruct (l_get (v_ledger st) c) as [a|] eqn:E; [|congruence].
    pose proof (target_account _ _ _ _ Hn Ht E) as A. exists a. split; [exact A|].
    apply account_target; assumption.
  Qed.

  Lemma pubkey_of_iff st r p : names_ok st -> known st (UReg r) ->
    is_pubkey_of pk_keyid st (UPub p) (UReg r) = true <-> target st (UReg r) = Some (pk_keyid p).
  Proof.
    intros Hn Hk. destruct (known_account _ _ Hn Hk) as (a & Ha & Ht & Hl).
    unfold is_pubkey_of. rewrite Ha, Ht. destruct (reg_of _ _ _ Hn Ht) as (He & a' & Ha' & Hr).
    rewrite Hl in Ha'. injection Ha' as <-.
    destruct Hn as (_ & _ & H3 & H4). split.
    - destruct (a_pubkey a) as [q|] eqn:E; [|discriminate]. intros X. apply N.eqb_eq in X. subst q.
      f_equal. symmetry. eapply H4; eauto.
    - intros X. assert (Y : pk_keyid p = a_keyid a) by congruence.
      rewrite (H3 _ _ p Hl); [apply N.eqb_refl | rewrite Hr; exact He | exact Y].
  Qed.

  Lemma matches_iff st u w : names_ok st -> known st u -> known st w ->
    (matches st u w = true <-> target st u = target st w).
  Proof.
    intros Hn Hu Hw. destruct Hu as (Hu0 & Hu1), Hw as (Hw0 & Hw1).
    assert (Ku : known st u) by (split; assumption). assert (Kw : known st w) by (split; assumption).
    destruct u as [r|?|p|]; try contradiction; destruct w as [s|?|q|]; try contradiction;
      unfold VoteModel.matches; cbn [same_kind uid_eqb].
    - destruct (known_account _ _ Hn Ku) as (a & _ & Ta & La).
      destruct (known_account _ _ Hn Kw) as (b & _ & Tb & Lb).
      rewrite regid_eqb_ok. split; [intros ->; reflexivity|].
      intros E. rewrite Ta, Tb in E.
      destruct (reg_of _ _ _ Hn Ta) as (_ & a' & A1 & A2).
      destruct (reg_of _ _ _ Hn Tb) as (_ & b' & B1 & B2). congruence.
    - rewrite pubkey_of_iff by assumption. reflexivity.
    - rewrite pubkey_of_iff by assumption. split; auto.
    - cbn [VoteSpec.target]. rewrite N.eqb_eq. split; [intros ->; reflexivity|].
      intros [= E]. symmetry. apply inj. exact E.
  Qed.

  (** Names depend on the registration ids and on who the accounts are. *)
  Definition same_who (a b : account) : Prop :=
    a_keyid b = a_keyid a /\ a_regid b = a_regid a /\ a_pubkey b = a_pubkey a.
  Definition keeps (L L' : list (N * account)) : Prop :=
    (forall k a, l_get L k = Some a -> exists a', l_get L' k = Some a' /\ same_who a a') /\
    (forall k, l_get L k = None -> l_get L' k = None).

  Lemma keeps_refl L : keeps L L.
  Proof. split; [intros k a H; exists a; repeat split; assumption | auto]. Qed.
  Lemma keeps_trans L1 L2 L3 : keeps L1 L2 -> keeps L2 L3 -> keeps L1 L3.
  Proof.
    intros (A & B) (C & D). split; [|auto]. intros k a H. destruct (A _ _ H) as (b & Hb & W).
    destruct (C _ _ Hb) as (c & Hc & W2). exists c. split; [exact Hc|].
    unfold same_who in *. intuition congruence.
  Qed.
  Lemma keeps_back L L' k a' : keeps L L' -> l_get L' k = Some a' ->
    exists a, l_get L k = Some a /\ same_who a a'.
  Proof.
    intros (A & B) H. destruct (l_get L k) as [a|] eqn:E.
    - destruct (A _ _ E) as (b & Hb & W). exists a. split; [reflexivity|]. congruence.
    - rewrite (B _ E) in H. discriminate.
  Qed.
  Lemma keeps_put L k a a' : l_get L k = Some a -> same_who a a' -> keeps L (l_put L k a').
  Proof.
    intros Ha W. split; intros k' b.
    - intros Hb. rewrite lget_put. destruct (k' =? k) eqn:E.
      + apply N.eqb_eq in E. subst k'. exists a'. split; [reflexivity|]. congruence.
      + exists b. split; [exact Hb|]. repeat split.
    - rewrite lget_put. destruct (k' =? k) eqn:E; [|auto].
      apply N.eqb_eq in E. subst k'. congruence.
  Qed.

  Lemma names_kept st L' lists rank r2 : names_ok st -> keeps (v_ledger st) L' -> ledger_wf L' ->
    names_ok (mkV L' (v_reg st) lists rank r2).
  Proof.
    intros (Hw & H2 & H3 & H4) K W. pose proof K as (KA & KB).
    split; [exact W|]. cbn [v_ledger v_reg].
    split; [|split].
    - intros r k. rewrite H2. split; intros (He & a & Ha & Hr); split; auto.
      + destruct (KA _ _ Ha) as (a' & Ha' & X). exists a'. split; [exact Ha'|]. unfold same_who in X. intuition congruence.
      + destruct (keeps_back _ _ _ _ K Ha) as (a0 & Ha0 & X). exists a0. split; [exact Ha0|]. unfold same_who in X. intuition congruence.
    - intros k a' p Ha He Hp. destruct (keeps_back _ _ _ _ K Ha) as (a0 & Ha0 & (X1 & X2 & X3)).
      rewrite X3. apply (H3 k); [exact Ha0 | rewrite <- X2; exact He | exact Hp].
    - intros k a' p Ha Hp. destruct (keeps_back _ _ _ _ K Ha) as (a0 & Ha0 & (X1 & X2 & X3)).
      apply (H4 k a0); [exact Ha0 | congruence].
  Qed.

  Lemma wf_kept st L' : names_ok st -> keeps (v_ledger st) L' -> NoDup (map fst L') -> ledger_wf L'.
  Proof.
    intros (Hw & _) K N. split; [exact N|]. intros k a' Ha.
    destruct (keeps_back _ _ _ _ K Ha) as (a0 & Ha0 & (X1 & _)). rewrite X1. apply Hw. exact Ha0.
  Qed.

  (** *** Vote lists *)

  Lemma find_some st u : forall l x w n z, find_entry st u l = Some (x, (w, n), z) ->
    l = x ++ (w, n) :: z /\ matches st u w = true.
  Proof.
    induction l as [|[w0 n0] l IH]; cbn [VoteModel.find_entry]; intros x w n z; [discriminate|].
    destruct (matches st u w0) eqn:E.
    - intros [= <- <- <- <-]. auto.
    - destruct (find_entry st u l) as [((x', y'), z')|] eqn:F; [|discriminate].
      intros [= <- -> <-]. destruct (IH _ _ _ _ eq_refl) as (-> & M). auto.
  Qed.
  Lemma find_none st u : forall l, find_entry st u l = None ->
    Forall (fun x => matches st u (fst x) = false) l.
  Proof.
    induction l as [|[w0 n0] l IH]; cbn [VoteModel.find_entry]; [constructor|].
    destruct (matches st u w0) eqn:E; [discriminate|].
    destruct (find_entry st u l) as [((x', y'), z')|] eqn:F; [discriminate|].
    constructor; auto.
  Qed.

  Definition listed (st : vstate) (l : list (uid * N)) : Prop :=
    (List.length l <= 22)%nat /\
    Forall (fun x => 0 < snd x <= 21000000000000000) l /\
    NoDup (map (fun x => target st (fst x)) l) /\ Forall (fun x => known st (fst x)) l.

  Definition vote_good (st : vstate) (v : vote) : Prop :=
    known st (w_uid v) /\ 0 < w_votes v <= 21000000000000000.

  Definition dvote (st : vstate) (c : N) (v : vote) : Z :=
    if is_for st c (w_uid v) then
      if w_type v =? 1 then Z.of_N (w_votes v) else (- Z.of_N (w_votes v))%Z
    else 0%Z.
  Fixpoint dvotes (st : vstate) (c : N) (vs : list vote) : Z :=
    match vs with [] => 0%Z | v :: vs' => (dvote st c v + dvotes st c vs')%Z end.

  Lemma votes_for_app st c l1 l2 : votes_for st c (l1 ++ l2) = votes_for st c l1 + votes_for st c l2.
  Proof. unfold VoteSpec.votes_for. now rewrite map_app, nsum_app. Qed.
  Lemma votes_for_cons st c u n l :
    votes_for st c ((u, n) :: l) = (if is_for st c u then n else 0) + votes_for st c l.
  Proof. reflexivity. Qed.

  Lemma is_for_target st c u w : target st u = target st w -> is_for st c u = is_for st c w.
  Proof. unfold VoteSpec.is_for. intros ->. reflexivity. Qed.

  Lemma apply_vote_ok st l v l' : names_ok st -> listed st l -> vote_good st v ->
    apply_vote st l v = Some l' ->
    listed st l' /\ forall c, Z.of_N (votes_for st c l') = (Z.of_N (votes_for st c l) + dvote st c v)%Z.
  Proof.
    intros Hn (Ls & La & Ld & Lk) (Gk & Gv). unfold VoteModel.apply_vote.
    destruct (w_type v =? 1) eqn:T1.
    - destruct (find_entry st (w_uid v) l) as [((x, (w, n)), z)|] eqn:F.
      + destruct (find_some _ _ _ _ _ _ _ F) as (-> & M).
        destruct (in_range (w_votes v) && in_range (add64 n (w_votes v))) eqn:R; [|discriminate].
        intros E. assert (E' : l' = x ++ (w, add64 n (w_votes v)) :: z) by congruence. subst l'. clear E.
        apply andb_true_iff in R. destruct R as (_ & R). apply in_range_iff in R. unfold MAX_BCOINS in R.
        rewrite Forall_app in La, Lk. destruct La as (La1 & La2), Lk as (Lk1 & Lk2).
        apply Forall_cons_iff in La2. apply Forall_cons_iff in Lk2. cbn [fst snd] in La2, Lk2.
        destruct La2 as (Ln & La2), Lk2 as (Lw & Lk2).
        assert (A : add64 n (w_votes v) = n + w_votes v).
        { apply add64_small. unfold two64. clear - Ln Gv. lia. }
        rewrite A in *.
        split.
        * repeat split.
          -- rewrite app_length in *. cbn [List.length] in *. exact Ls.
          -- apply Forall_app. split; [exact La1|]. constructor; [|exact La2]. cbn [snd]. clear - R Ln. lia.
          -- rewrite map_app in *. exact Ld.
          -- apply Forall_app. split; [exact Lk1|]. constructor; assumption.
        * intros c. rewrite !votes_for_app, !votes_for_cons. unfold dvote. rewrite T1.
          apply matches_iff in M; [|assumption..]. rewrite (is_for_target st c _ _ M).
          destruct (is_for st c w); clear; lia.
      + destruct (_ =? _)%nat eqn:Sz; [discriminate|]. intros E.
        assert (E' : l' = l ++ [(w_uid v, w_votes v)]) by congruence. subst l'. clear E.
        apply find_none in F. apply PeanoNat.Nat.eqb_neq in Sz. unfold MAX_CANDIDATES in Sz.
        split.
        * repeat split.
          -- rewrite app_length. cbn [List.length]. clear - Ls Sz. lia.
          -- apply Forall_app. split; [exact La|]. constructor; [exact Gv | constructor].
          -- rewrite map_app. cbn [map]. apply (Permutation_NoDup (Permutation_cons_append _ _)).
             constructor; [|exact Ld]. rewrite in_map_iff. intros (y & Y1 & Y2).
             rewrite Forall_forall in F, Lk. specialize (F _ Y2). specialize (Lk _ Y2).
             cbn [fst] in Y1. symmetry in Y1. apply matches_iff in Y1; [congruence | assumption..].
          -- apply Forall_app. split; [exact Lk|]. constructor; [exact Gk | constructor].
        * intros c. rewrite votes_for_app, votes_for_cons. unfold dvote. rewrite T1.
          cbn [VoteSpec.votes_for map nsum]. destruct (is_for st c (w_uid v)); clear; cbn; lia.
    - destruct (w_type v =? 2) eqn:T2; [|discriminate].
      destruct (find_entry st (w_uid v) l) as [((x, (w, n)), z)|] eqn:F; [|discriminate].
      destruct (find_some _ _ _ _ _ _ _ F) as (-> & M).
      destruct (in_range (w_votes v) && (w_votes v <=? n)) eqn:R; [|discriminate].
      intros E. apply andb_true_iff in R. destruct R as (_ & R). apply N.leb_le in R.
      rewrite Forall_app in La, Lk. destruct La as (La1 & La2), Lk as (Lk1 & Lk2).
      apply Forall_cons_iff in La2. apply Forall_cons_iff in Lk2. cbn [fst snd] in La2, Lk2.
      destruct La2 as (Ln & La2), Lk2 as (Lw & Lk2).
      apply matches_iff in M; [|assumption..].
      rewrite map_app in Ld. cbn [map] in Ld.
      destruct (n - w_votes v =? 0) eqn:Z0.
      + assert (E' : l' = x ++ z) by congruence. subst l'. clear E.
        split.
        * repeat split.
          -- rewrite app_length in *. cbn [List.length] in *. clear - Ls. lia.
          -- apply Forall_app. split; assumption.
          -- rewrite map_app. apply NoDup_remove_1 in Ld. exact Ld.
          -- apply Forall_app. split; assumption.
        * intros c. rewrite !votes_for_app, !votes_for_cons. unfold dvote. rewrite T1.
          rewrite (is_for_target st c _ _ M). apply N.eqb_eq in Z0.
          destruct (is_for st c w); clear - R Z0; lia.
      + assert (E' : l' = x ++ (w, n - w_votes v) :: z) by congruence. subst l'. clear E.
        apply N.eqb_neq in Z0.
        split.
        * repeat split.
          -- rewrite app_length in *. exact Ls.
          -- apply Forall_app. split; [exact La1|]. constructor; [|exact La2]. cbn [snd]. clear - R Ln Z0. lia.
          -- rewrite map_app. exact Ld.
          -- apply Forall_app. split; [exact Lk1|]. constructor; assumption.
        * intros c. rewrite !votes_for_app, !votes_for_cons. unfold dvote. rewrite T1.
          rewrite (is_for_target st c _ _ M).
          destruct (is_for st c w); clear - R; lia.
  Qed.

  Lemma apply_votes_ok st : names_ok st -> forall vs l l', listed st l -> Forall (vote_good st) vs ->
    apply_votes st l vs = Some l' ->
    listed st l' /\ forall c, Z.of_N (votes_for st c l') = (Z.of_N (votes_for st c l) + dvotes st c vs)%Z.
  Proof.
    intros Hn. induction vs as [|v vs IH]; cbn [VoteModel.apply_votes dvotes]; intros l l' Hl Hg.
    - intros [= <-]. split; [exact Hl|]. intros c. lia.
    - apply Forall_cons_iff in Hg. destruct Hg as (G1 & G2).
      destruct (apply_vote st l v) as [l1|] eqn:E; [|discriminate]. intros H.
      destruct (apply_vote_ok _ _ _ _ Hn Hl G1 E) as (H1 & D1).
      destruct (IH _ _ H1 G2 H) as (H2 & D2). split; [exact H2|].
      intros c. rewrite D2, D1. lia.
  Qed.

  Lemma listed_perm st l l' : Permutation l l' -> listed st l -> listed st l'.
  Proof.
    intros P (A & B & C & D). repeat split.
    - rewrite <- (Permutation_length P). exact A.
    - eapply Permutation_Forall; eauto.
    - eapply Permutation_NoDup; [|exact C]. now apply Permutation_map.
    - eapply Permutation_Forall; eauto.
  Qed.
  Lemma votes_for_perm st c l l' : Permutation l l' -> votes_for st c l' = votes_for st c l.
  Proof. intros P. apply nsum_perm. apply Permutation_map. now apply Permutation_sym. Qed.

  Lemma list_ok_iff st l : list_ok st l <-> StronglySorted (fun x y => snd y <= snd x) l /\ listed st l.
  Proof. split; [intros [? ? ? ? ?]; repeat split; assumption | intros (? & ? & ? & ? & ?); constructor; assumption]. Qed.

  (** *** Coins *)

  Lemma sum_bound m : forall (l : list (uid * N)), Forall (fun x => 0 < snd x <= m) l ->
    nsum (map snd l) <= m * N.of_nat (List.length l).
  Proof.
    induction 1 as [|x l H _ IH]; cbn [map nsum List.length]; [lia|].
    rewrite Nnat.Nat2N.inj_succ, N.mul_succ_r. lia.
  Qed.

  Lemma fold_add64 : forall (l : list (uid * N)) s, s + nsum (map snd l) < two64 ->
    fold_left (fun s x => add64 s (snd x)) l s = s + nsum (map snd l).
  Proof.
    induction l as [|x l IH]; cbn [fold_left map nsum]; intros s H; [lia|].
    rewrite add64_small by lia. rewrite IH by lia. lia.
  Qed.

  Lemma max_head : forall (l : list (uid * N)) x, StronglySorted (fun x y => snd y <= snd x) (x :: l) ->
    fold_right N.max 0 (map snd (x :: l)) = snd x.
  Proof.
    intros l x S. inversion S as [|? ? _ F]; subst. cbn [map fold_right].
    assert (fold_right N.max 0 (map snd l) <= snd x).
    { clear S. induction F as [|y l Hy _ IH]; cbn [map fold_right]; lia. }
    lia.
  Qed.

  Lemma needed_locked st r2 l : list_ok st l -> needed r2 l = locked r2 l.
  Proof.
    intros H. apply list_ok_iff in H. destruct H as (S & Ls & La & _).
    unfold needed, locked. destruct r2.
    - pose proof (sum_bound _ _ La) as B. rewrite fold_add64; [lia|]. unfold two64.
      assert (N.of_nat (List.length l) <= 22) by lia. clear - B H. nia.
    - destruct l as [|x l]; [reflexivity|]. symmetry. apply max_head. exact S.
  Qed.

  Lemma locked_bound st r2 l : list_ok st l -> locked r2 l <= 462000000000000000.
  Proof.
    intros H. apply list_ok_iff in H. destruct H as (S & Ls & La & _).
    pose proof (sum_bound _ _ La) as B. unfold locked.
    assert (X : N.of_nat (List.length l) <= 22) by lia.
    destruct r2; [clear - B X; nia|].
    assert (fold_right N.max 0 (map snd l) <= nsum (map snd l)).
    { clear. induction l as [|x l IH]; cbn [map fold_right nsum]; lia. }
    clear - B X H. nia.
  Qed.

  Lemma on_account_who a s o v a' : on_account a s o v = Some a' -> same_identity a a'.
  Proof.
    unfold on_account. pose proof (operate_identity a s o v NoPeer) as H.
    destruct (ok (operate_balance a s o v NoPeer)); [|discriminate]. intros E. injection E as <-. exact H.
  Qed.
  Lemma on_vote a v a' : on_account a "WICC" Vote v = Some a' ->
    v <= free (get_token a "WICC") /\
    a' = set_token (set_token a "WICC" (get_token a "WICC")) "WICC" (vote_move (get_token a "WICC") v).
  Proof.
    unfold on_account, operate_balance, with_peer, internal_move. cbv beta iota zeta.
    destruct (free (get_token a "WICC") <? v) eqn:E; cbn [ok self']; [discriminate|].
    intros H. injection H as <-. split; [lia|reflexivity].
  Qed.
  Lemma on_unvote a v a' : on_account a "WICC" Unvote v = Some a' ->
    v <= voted (get_token a "WICC") /\
    a' = set_token (set_token a "WICC" (get_token a "WICC")) "WICC" (unvote_move (get_token a "WICC") v).
  Proof.
    unfold on_account, operate_balance, with_peer, internal_move. cbv beta iota zeta.
    destruct (voted (get_token a "WICC") <? v) eqn:E; cbn [ok self']; [discriminate|].
    intros H. injection H as <-. split; [lia|reflexivity].
  Qed.
  Lemma on_add a s v : on_account a s AddFree v =
    Some (set_token (set_token a s (get_token a s)) s (add_free (get_token a s) v)).
  Proof. reflexivity. Qed.

  Lemma change_votes_ok a now a' : now < two64 -> change_votes a now = Some a' ->
    same_identity a a' /\ bal a' "WICC" BVoted = now.
  Proof.
    intros Hb. unfold change_votes. set (last := voted (get_token a "WICC")).
    destruct (last <? now) eqn:E1.
    - intros H. split; [exact (on_account_who _ _ _ _ _ H)|].
      apply on_vote in H. destruct H as (_ & ->). unfold bal. rewrite get_set_same.
      cbn [in_bucket voted vote_move]. fold last. rewrite add64_small; lia.
    - destruct (now <? last) eqn:E2.
      + intros H. split; [exact (on_account_who _ _ _ _ _ H)|].
        apply on_unvote in H. destruct H as (_ & ->). unfold bal. rewrite get_set_same.
        cbn [in_bucket voted unvote_move]. fold last. lia.
      + intros [= <-]. split; [apply same_identity_refl|]. unfold bal. cbn [in_bucket]. fold last. lia.
  Qed.

  Lemma add_voted a s v a' : on_account a s AddFree v = Some a' ->
    bal a' "WICC" BVoted = bal a "WICC" BVoted.
  Proof.
    rewrite on_add. intros H. injection H as <-. unfold bal. rewrite !get_set_token.
    destruct (String.eqb "WICC" s) eqn:E; [|reflexivity].
    apply String.eqb_eq in E. subst s. reflexivity.
  Qed.

  Lemma pay_ok e r2 last a a' : pay_interest fcoin_interest bcoin_interest e r2 last a = Some a' ->
    same_identity a a' /\ bal a' "WICC" BVoted = bal a "WICC" BVoted.
  Proof.
    unfold pay_interest. destruct r2.
    - destruct (0 <? _); [|intros [= <-]; split; [apply same_identity_refl|reflexivity]].
      intros H. split; [exact (on_account_who _ _ _ _ _ H) | exact (add_voted _ _ _ _ H)].
    - destruct (in_range _); [|discriminate].
      intros H. split; [exact (on_account_who _ _ _ _ _ H) | exact (add_voted _ _ _ _ H)].
  Qed.

  (** *** What a voter's side of a vote does *)

  Lemma process_ok e st a l vs a' l' : names_ok st -> list_ok st l -> Forall (vote_good st) vs ->
    process e st a l vs = Some (a', l') ->
    list_ok st l' /\ (forall c, Z.of_N (votes_for st c l') = (Z.of_N (votes_for st c l) + dvotes st c vs)%Z) /\
    same_who a a' /\ a_received_votes a' = a_received_votes a /\
    bal a' "WICC" BVoted = locked (v_r2 st) l'.
  Proof.
    intros Hn Hl Hg. unfold VoteModel.process.
    destruct (x_height e <? a_last_vote_height a); [discriminate|].
    destruct (apply_votes st l vs) as [l1|] eqn:E; [|discriminate].
    apply list_ok_iff in Hl. destruct Hl as (_ & Hl).
    destruct (apply_votes_ok _ Hn _ _ _ Hl Hg E) as (H1 & D).
    destruct (arr l1) as (P & S).
    assert (L2 : list_ok st (arrange l1)).
    { apply list_ok_iff. split; [exact S|]. eapply listed_perm; eauto. }
    rewrite (needed_locked _ _ _ L2).
    destruct (change_votes a _) as [a1|] eqn:C; [|discriminate].
    destruct (pay_interest _ _ _ _ _ _) as [a2|] eqn:Q; [|discriminate].
    intros H. assert (a' = stamp e a2 /\ l' = arrange l1) as (-> & ->) by (split; congruence).
    apply change_votes_ok in C; [|pose proof (locked_bound _ (v_r2 st) _ L2); unfold two64; lia].
    apply pay_ok in Q. destruct C as (C1 & C2), Q as (Q1 & Q2).
    pose proof (same_identity_trans _ _ _ C1 Q1) as (I1 & I2 & I3 & I4 & _).
    split; [exact L2|]. split.
    { intros c. rewrite (votes_for_perm _ _ _ _ P). apply D. }
    split; [repeat split; cbn [stamp a_keyid a_regid a_pubkey]; congruence|].
    split; [cbn [stamp a_received_votes]; congruence|].
    transitivity (bal a2 "WICC" BVoted); [reflexivity | congruence].
  Qed.

  (** *** What the candidates' side does *)

  Definition counted (st : vstate) (vs : list vote) (st' : vstate) : Prop :=
    v_reg st' = v_reg st /\ v_lists st' = v_lists st /\ v_r2 st' = v_r2 st /\
    names_ok st' /\ keeps (v_ledger st) (v_ledger st') /\
    forall k a a', l_get (v_ledger st) k = Some a -> l_get (v_ledger st') k = Some a' ->
      a_tokens a' = a_tokens a /\ a_received_votes a' <= MAX_BCOINS /\
      Z.of_N (a_received_votes a') = (Z.of_N (a_received_votes a) + dvotes st k vs)%Z.

  Definition bounded (st : vstate) : Prop :=
    forall k a, l_get (v_ledger st) k = Some a -> a_received_votes a <= MAX_BCOINS.

  Lemma stake_ok c v c' : a_received_votes c <= MAX_BCOINS -> 0 < w_votes v <= MAX_BCOINS ->
    stake_votes c v = Some c' ->
    same_who c c' /\ a_tokens c' = a_tokens c /\ a_received_votes c' <= MAX_BCOINS /\
    a_received_votes c' <> a_received_votes c /\
    Z.of_N (a_received_votes c') = (Z.of_N (a_received_votes c) +
      if (w_type v =? 1)%N then Z.of_N (w_votes v) else - Z.of_N (w_votes v))%Z.
  Proof.
    intros Hc Hv. unfold stake_votes. destruct (w_type v =? 1).
    - rewrite add64_small by (unfold two64; unfold MAX_BCOINS in *; lia).
      destruct (in_range _) eqn:R; [|discriminate]. apply in_range_iff in R.
      intros E. injection E as <-. unfold same_who. cbn [set_received a_keyid a_regid a_pubkey a_tokens a_received_votes].
      repeat split; lia.
    - destruct (w_type v =? 2); [|discriminate].
      destruct (a_received_votes c <? w_votes v) eqn:R; [discriminate|].
      intros E. injection E as <-. unfold same_who. cbn [set_received a_keyid a_regid a_pubkey a_tokens a_received_votes].
      repeat split; lia.
  Qed.

  Lemma set_rank_ledger st r n : v_ledger (set_delegate_votes st r n) = v_ledger st /\
    v_reg (set_delegate_votes st r n) = v_reg st /\ v_lists (set_delegate_votes st r n) = v_lists st /\
    v_r2 (set_delegate_votes st r n) = v_r2 st.
  Proof. unfold set_delegate_votes. destruct (regid_empty r); repeat split. Qed.
  Lemma erase_rank_ledger st r n : v_ledger (erase_delegate_votes st r n) = v_ledger st /\
    v_reg (erase_delegate_votes st r n) = v_reg st /\ v_lists (erase_delegate_votes st r n) = v_lists st /\
    v_r2 (erase_delegate_votes st r n) = v_r2 st.
  Proof. unfold erase_delegate_votes. destruct (regid_empty r); repeat split. Qed.

  (** One vote counted: the candidate [c] becomes [c']. *)
  Lemma count_vote_inv rules st v st' : names_ok st -> bounded st -> vote_good st v ->
    count_vote rules st v = Some st' ->
    exists c c', target st (w_uid v) = Some (a_keyid c) /\ l_get (v_ledger st) (a_keyid c) = Some c /\
      stake_votes c v = Some c' /\ v_ledger st' = l_put (v_ledger st) (a_keyid c) c' /\
      v_reg st' = v_reg st /\ v_lists st' = v_lists st /\ v_r2 st' = v_r2 st /\
      v_rank st' = if regid_empty (a_regid c) then v_rank st
                   else fdel rank_eqb (fput rank_eqb (v_rank st) (vote_key (a_received_votes c'), a_regid c) tt)
                          (vote_key (a_received_votes c), a_regid c).
  Proof.
    intros Hn Hb (Gk & Gv) H. unfold VoteModel.count_vote in H.
    destruct (account_of st (w_uid v)) as [c|] eqn:A; [|discriminate].
    destruct (account_target _ _ _ Hn A) as (T & L).
    destruct (stake_votes c v) as [c'|] eqn:Sv; [|discriminate].
    destruct (stake_ok _ _ _ (Hb _ _ L) Gv Sv) as (_ & _ & _ & Dif & _).
    replace (a_received_votes c' =? a_received_votes c) with false in H by lia.
    rewrite andb_false_r in H. exists c, c'.
    assert (E : st' = erase_delegate_votes (set_delegate_votes (set_vledger st (l_put (v_ledger st) (a_keyid c) c'))
                        (a_regid c) (a_received_votes c')) (a_regid c) (a_received_votes c)) by congruence.
    clear H. subst st'.
    destruct (erase_rank_ledger (set_delegate_votes (set_vledger st (l_put (v_ledger st) (a_keyid c) c'))
                        (a_regid c) (a_received_votes c')) (a_regid c) (a_received_votes c)) as (E1 & E2 & E3 & E4).
    destruct (set_rank_ledger (set_vledger st (l_put (v_ledger st) (a_keyid c) c')) (a_regid c) (a_received_votes c'))
      as (F1 & F2 & F3 & F4).
    rewrite E1, E2, E3, E4, F1, F2, F3, F4.
    repeat split; try assumption.
    unfold erase_delegate_votes, set_delegate_votes. destruct (regid_empty (a_regid c)); reflexivity.
  Qed.

  Lemma count_vote_ok rules st v st' : names_ok st -> bounded st -> vote_good st v ->
    count_vote rules st v = Some st' -> counted st [v] st'.
  Proof.
    intros Hn Hb G H. destruct (count_vote_inv _ _ _ _ Hn Hb G H) as
      (c & c' & T & L & Sv & EL & ER & ELs & E2 & _).
    destruct G as (Gk & Gv).
    destruct (stake_ok _ _ _ (Hb _ _ L) Gv Sv) as (W & Tk & Bd & _ & D).
    assert (K : keeps (v_ledger st) (v_ledger st')) by (rewrite EL; eapply keeps_put; eauto).
    split; [exact ER|]. split; [exact ELs|]. split; [exact E2|].
    assert (Wf : ledger_wf (v_ledger st')).
    { eapply wf_kept; [exact Hn | exact K|]. rewrite EL. apply nodup_put; [apply N_eqb_ok|]. apply Hn. }
    assert (Nm : names_ok st').
    { pose proof (names_kept st (v_ledger st') (v_lists st') (v_rank st') (v_r2 st') Hn K Wf) as Q.
      rewrite <- ER in Q. destruct st'. exact Q. }
    split; [exact Nm|]. split; [exact K|].
    intros k a a' Ha Ha'. rewrite EL, lget_put in Ha'. cbn [dvotes]. unfold dvote, VoteSpec.is_for. rewrite T.
    destruct (k =? a_keyid c) eqn:E.
    - apply N.eqb_eq in E. subst k. assert (a = c) by congruence. assert (a' = c') by congruence. subst a a'.
      split; [exact Tk|]. split; [exact Bd|]. rewrite D. lia.
    - assert (a' = a) by congruence. subst a'. split; [reflexivity|]. split; [eapply Hb; eauto | lia].
  Qed.

  Lemma counted_bounded st vs st' : bounded st -> counted st vs st' -> bounded st'.
  Proof.
    intros Hb (_ & _ & _ & _ & K & H) k a' Ha'.
    destruct (keeps_back _ _ _ _ K Ha') as (a & Ha & _). eapply H; eauto.
  Qed.

  Lemma target_reg st st' u : v_reg st' = v_reg st -> target st' u = target st u.
  Proof. intros H. destruct u; cbn [VoteSpec.target]; rewrite ?H; reflexivity. Qed.
  Lemma is_for_reg st st' c u : v_reg st' = v_reg st -> is_for st' c u = is_for st c u.
  Proof. intros H. unfold VoteSpec.is_for. now rewrite (target_reg _ _ _ H). Qed.
  Lemma dvotes_reg st st' c vs : v_reg st' = v_reg st -> dvotes st' c vs = dvotes st c vs.
  Proof.
    intros H. induction vs as [|v vs IH]; cbn [dvotes]; [reflexivity|]. rewrite IH.
    unfold dvote. now rewrite (is_for_reg _ _ _ _ H).
  Qed.
  Lemma known_kept st st' u : v_reg st' = v_reg st -> keeps (v_ledger st) (v_ledger st') ->
    known st u -> known st' u.
  Proof.
    intros H (K & _) (X & c & T & L). split; [exact X|]. exists c. split.
    - now rewrite (target_reg _ _ _ H).
    - destruct (l_get (v_ledger st) c) as [a|] eqn:E; [|congruence]. destruct (K _ _ E) as (a' & -> & _). discriminate.
  Qed.
  Lemma good_kept st st' v : v_reg st' = v_reg st -> keeps (v_ledger st) (v_ledger st') ->
    vote_good st v -> vote_good st' v.
  Proof. intros H K (A & B). split; [eapply known_kept; eauto | exact B]. Qed.

  Lemma count_votes_ok rules : forall vs st st', names_ok st -> bounded st -> Forall (vote_good st) vs ->
    count_votes rules st vs = Some st' -> counted st vs st'.
  Proof.
    induction vs as [|v vs IH]; cbn [VoteModel.count_votes]; intros st st' Hn Hb Hg.
    - intros [= <-]. do 3 (split; [reflexivity|]). split; [exact Hn|]. split; [apply keeps_refl|].
      intros k a a' Ha Ha'. assert (a' = a) by congruence. subst a'. cbn [dvotes].
      split; [reflexivity|]. split; [eapply Hb; eauto | lia].
    - apply Forall_cons_iff in Hg. destruct Hg as (G1 & G2).
      destruct (count_vote rules st v) as [st1|] eqn:E; [|discriminate]. intros H.
      pose proof (count_vote_ok _ _ _ _ Hn Hb G1 E) as C1.
      pose proof C1 as (R1 & L1 & V1 & N1 & K1 & X1).
      assert (C2 : counted st1 vs st').
      { apply IH; [exact N1 | eapply counted_bounded; eauto | | exact H].
        eapply Forall_impl; [|exact G2]. intros w. apply good_kept; assumption. }
      destruct C2 as (R2 & L2 & V2 & N2 & K2 & X2).
      split; [congruence|]. split; [congruence|]. split; [congruence|]. split; [exact N2|].
      split; [eapply keeps_trans; eauto|].
      intros k a a' Ha Ha'. destruct K1 as (K1 & _). destruct (K1 _ _ Ha) as (a1 & Ha1 & _).
      destruct (X1 _ _ _ Ha Ha1) as (T1 & B1 & D1). destruct (X2 _ _ _ Ha1 Ha') as (T2 & B2 & D2).
      split; [congruence|]. split; [exact B2|]. rewrite D2, D1, (dvotes_reg _ _ _ _ R1). cbn [dvotes]. lia.
  Qed.

  (** *** Both sides *)

  Lemma list_of_set st r l r' : list_of (set_list st r l) r' = if regid_eqb r' r then l else list_of st r'.
  Proof.
    unfold list_of, set_list. cbn [v_lists]. destruct l as [|x l].
    - rewrite (fget_del _ regid_eqb_ok). destruct (regid_eqb r' r); reflexivity.
    - rewrite (fget_put _ regid_eqb_ok). destruct (regid_eqb r' r); reflexivity.
  Qed.

  Lemma all_set st L r l c : NoDup (keys (v_lists st)) ->
    (Z.of_N (all_votes_for (set_list (set_vledger st L) r l) c) + Z.of_N (votes_for st c (list_of st r)) =
     Z.of_N (all_votes_for st c) + Z.of_N (votes_for st c l))%Z.
  Proof.
    intros Hd. unfold VoteSpec.all_votes_for.
    assert (E : votes_for (set_list (set_vledger st L) r l) c = votes_for st c) by reflexivity.
    rewrite E. clear E. unfold set_list, set_vledger. cbn [v_lists].
    assert (F : votes_for st c (list_of st r) = fval regid_eqb (votes_for st c) (v_lists st) r).
    { unfold fval, list_of. destruct (fget regid_eqb (v_lists st) r); reflexivity. }
    rewrite F. destruct l as [|x l].
    - pose proof (msum_del regid_eqb regid_eqb_ok (votes_for st c) (v_lists st) r Hd).
      change (votes_for st c []) with 0. lia.
    - pose proof (msum_put regid_eqb regid_eqb_ok (votes_for st c) (v_lists st) r (x :: l) Hd). lia.
  Qed.

  Lemma list_ok_kept st st' l : v_reg st' = v_reg st -> keeps (v_ledger st) (v_ledger st') ->
    list_ok st l -> list_ok st' l.
  Proof.
    intros H K [A B C D E]. constructor; auto.
    - erewrite map_ext; [exact D|]. intros x. apply target_reg. exact H.
    - eapply Forall_impl; [|exact E]. intros x. apply known_kept; assumption.
  Qed.

  Lemma cast_ok rules e st k a vs st' : votes_ok st -> l_get (v_ledger st) k = Some a ->
    regid_empty (a_regid a) = false -> Forall (vote_good st) vs -> cast rules e st k vs = Some st' ->
    votes_ok st' /\ v_r2 st' = v_r2 st /\ v_reg st' = v_reg st /\ keeps (v_ledger st) (v_ledger st') /\
    exists a' l', process e st a (list_of st (a_regid a)) vs = Some (a', l') /\
      (forall r, list_of st' r = if regid_eqb r (a_regid a) then l' else list_of st r) /\
      count_votes rules (set_list (set_vledger st (l_put (v_ledger st) k a')) (a_regid a) l') vs = Some st'.
  Proof.
    intros [Hn Hv Ho (Hd & Hl) Hr] Ha He Hg H. unfold VoteModel.cast in H. rewrite Ha in H.
    destruct (process e st a (list_of st (a_regid a)) vs) as [(a1, l1)|] eqn:P; [|discriminate].
    destruct (Hv _ _ Ha He) as (Lk & Lv).
    destruct (process_ok _ _ _ _ _ _ _ Hn Lk Hg P) as (L1 & D1 & W1 & R1 & V1).
    set (L := l_put (v_ledger st) k a1) in *.
    set (st1 := set_list (set_vledger st L) (a_regid a) l1) in *.
    assert (K1 : keeps (v_ledger st) (v_ledger st1)) by (apply (keeps_put _ _ a); assumption).
    assert (Wf1 : ledger_wf (v_ledger st1)).
    { eapply wf_kept; [exact Hn | exact K1|]. apply nodup_put; [apply N_eqb_ok|]. apply Hn. }
    assert (N1 : names_ok st1).
    { exact (names_kept st L (v_lists st1) (v_rank st1) (v_r2 st1) Hn K1 Wf1). }
    assert (Got : forall k' b1, l_get (v_ledger st1) k' = Some b1 ->
              exists b, l_get (v_ledger st) k' = Some b /\ same_who b b1 /\
                        a_received_votes b1 = a_received_votes b /\
                        (b1 = b /\ k' <> k \/ k' = k /\ b = a /\ b1 = a1)).
    { intros k' b1 Hb. unfold st1, set_list, set_vledger in Hb. cbn [v_ledger] in Hb. unfold L in Hb.
      rewrite lget_put in Hb. destruct (k' =? k) eqn:E.
      - apply N.eqb_eq in E. subst k'. injection Hb as <-. exists a. split; [exact Ha|]. split; [exact W1|].
        split; [exact R1|]. right. auto.
      - exists b1. split; [exact Hb|]. split; [repeat split|]. split; [reflexivity|]. left.
        split; [reflexivity|]. lia. }
    assert (B1 : bounded st1).
    { intros k' b1 Hb. destruct (Got _ _ Hb) as (b & Hb0 & _ & X & _). rewrite X. apply (Hr _ _ Hb0). }
    assert (G1 : Forall (vote_good st1) vs).
    { eapply Forall_impl; [|exact Hg]. intros v. apply good_kept; [reflexivity | exact K1]. }
    pose proof (count_votes_ok _ _ _ _ N1 B1 G1 H) as (R2 & Ls2 & V2 & N2 & K2 & X2).
    assert (K : keeps (v_ledger st) (v_ledger st')) by (eapply keeps_trans; eauto).
    assert (Reg : v_reg st' = v_reg st) by (rewrite R2; reflexivity).
    assert (LOf : forall r, list_of st' r = if regid_eqb r (a_regid a) then l1 else list_of st r).
    { intros r. unfold list_of at 1. rewrite Ls2.
      change (match fget regid_eqb (v_lists st1) r with Some l => l | None => [] end) with (list_of st1 r).
      unfold st1. rewrite list_of_set. reflexivity. }
    assert (R2' : v_r2 st' = v_r2 st) by (rewrite V2; reflexivity).
    split; [|split; [exact R2'|split; [exact Reg|split; [exact K|exists a1, l1; split; [reflexivity|split; [exact LOf|exact H]]]]]].
    assert (Inv : forall k' c, l_get (v_ledger st') k' = Some c -> exists b1 b,
              l_get (v_ledger st1) k' = Some b1 /\ l_get (v_ledger st) k' = Some b /\ same_who b1 c /\ same_who b c /\
              a_tokens c = a_tokens b1 /\ a_received_votes b1 = a_received_votes b /\
              a_received_votes c <= MAX_BCOINS /\
              Z.of_N (a_received_votes c) = (Z.of_N (a_received_votes b) + dvotes st k' vs)%Z /\
              (b1 = b /\ k' <> k \/ k' = k /\ b = a /\ b1 = a1)).
    { intros k' c Hc. destruct (keeps_back _ _ _ _ K2 Hc) as (b1 & Hb1 & S1).
      destruct (Got _ _ Hb1) as (b & Hb & S0 & Rb & Cs).
      destruct (X2 _ _ _ Hb1 Hc) as (T & Bd & D). exists b1, b.
      rewrite (dvotes_reg st st1) in D by reflexivity. rewrite Rb in D.
      repeat split; try assumption; unfold same_who in *; intuition congruence. }
    constructor.
    - exact N2.
    - intros k' c Hc Hce. destruct (Inv _ _ Hc) as (b1 & b & Hb1 & Hb & Sb1 & Sb & T & _ & _ & _ & Cs).
      assert (Rg : a_regid c = a_regid b) by apply Sb.
      assert (Vt : bal c "WICC" BVoted = bal b1 "WICC" BVoted) by (unfold bal, get_token; rewrite T; reflexivity).
      rewrite Rg, LOf, Vt, R2'. rewrite Rg in Hce. destruct (regid_eqb (a_regid b) (a_regid a)) eqn:E.
      + apply regid_eqb_ok in E. assert (k' = k) by (eapply (same_regid st k' k b a); eauto).
        destruct Cs as [(_ & Cs)|(_ & -> & ->)]; [congruence|].
        split; [eapply list_ok_kept; eauto | exact V1].
      + destruct Cs as [(-> & _)|(_ & -> & _)].
        * destruct (Hv _ _ Hb Hce) as (Y1 & Y2). split; [eapply list_ok_kept; eauto | exact Y2].
        * rewrite (proj2 (regid_eqb_ok _ _) eq_refl) in E. discriminate.
    - intros k' c Hc Hce. destruct (Inv _ _ Hc) as (b1 & b & Hb1 & Hb & Sb1 & Sb & T & _ & _ & _ & Cs).
      assert (Rg : a_regid c = a_regid b) by apply Sb. rewrite Rg in Hce.
      assert (Vt : bal c "WICC" BVoted = bal b1 "WICC" BVoted) by (unfold bal, get_token; rewrite T; reflexivity).
      rewrite Vt. destruct Cs as [(-> & _)|(_ & -> & _)]; [eapply Ho; eauto | congruence].
    - rewrite Ls2. split.
      + unfold st1, set_list, set_vledger. cbn [v_lists]. destruct l1; [apply nodup_del | apply nodup_put]; auto using regid_eqb_ok.
      + intros r l. unfold st1, set_list, set_vledger. cbn [v_lists]. rewrite Reg. destruct l1 as [|x l1].
        * rewrite (fget_del _ regid_eqb_ok). destruct (regid_eqb r (a_regid a)); [discriminate|]. apply Hl.
        * rewrite (fget_put _ regid_eqb_ok). destruct (regid_eqb r (a_regid a)) eqn:E.
          -- apply regid_eqb_ok in E. subst r. intros [= <-]. split; [discriminate|].
             rewrite (reg_intro _ _ _ Hn Ha He). discriminate.
          -- apply Hl.
    - intros k' c Hc. destruct (Inv _ _ Hc) as (b1 & b & Hb1 & Hb & _ & _ & _ & _ & Bd & D & _).
      split; [|exact Bd]. destruct (Hr _ _ Hb) as (E & _).
      assert (A : all_votes_for st' k' = all_votes_for st1 k').
      { unfold VoteSpec.all_votes_for. rewrite Ls2. apply msum_eq. intros r l _. unfold VoteSpec.votes_for.
        f_equal. apply map_ext. intros x. rewrite (is_for_reg st1 st'); [reflexivity | exact R2]. }
      rewrite A. pose proof (all_set st L (a_regid a) l1 k' Hd) as Q. specialize (D1 k').
      fold st1 in Q. lia.
  Qed.

  (** *** Everything else *)

  Lemma else_target st st' u : names_ok st -> velsewhere pk_keyid st st' -> known st u ->
    target st' u = target st u /\ known st' u.
  Proof.
    intros Hn (Hn' & _ & _ & _ & Ha & _) K. destruct (known_account _ _ Hn K) as (a & Aa & Ta & La).
    destruct (Ha _ _ La) as (a' & La' & _ & _ & Rg).
    assert (T' : target st' u = target st u).
    { destruct u as [r|k|p|]; cbn [VoteSpec.target] in *; try reflexivity.
      destruct (reg_of _ _ _ Hn Ta) as (He & a0 & La0 & R0). assert (a0 = a) by congruence. subst a0.
      rewrite Ta. rewrite <- R0. rewrite <- R0 in He. rewrite <- (Rg He). apply (reg_intro _ _ _ Hn' La').
      rewrite (Rg He). exact He. }
    split; [exact T'|]. destruct K as (X & _). split; [exact X|]. exists (a_keyid a). split; [congruence|].
    rewrite La'. discriminate.
  Qed.

  Lemma lists_known st r l : votes_ok st -> In (r, l) (v_lists st) -> list_ok st l.
  Proof.
    intros [Hn Hv _ (Hd & Hl) _] Hin. apply (in_fget _ regid_eqb_ok) in Hin; [|exact Hd].
    destruct (Hl _ _ Hin) as (_ & Hk). destruct (fget regid_eqb (v_reg st) r) as [k|] eqn:E; [|congruence].
    destruct (reg_of _ _ _ Hn E) as (He & a & Ha & Hr).
    rewrite <- Hr in He. destruct (Hv _ _ Ha He) as (X & _). rewrite Hr in X. unfold list_of in X.
    rewrite Hin in X. exact X.
  Qed.

  Lemma else_all st st' c : votes_ok st -> velsewhere pk_keyid st st' ->
    all_votes_for st' c = all_votes_for st c.
  Proof.
    intros Hv He. pose proof He as (_ & Hl & _). unfold VoteSpec.all_votes_for. rewrite Hl.
    apply msum_eq. intros r l Hin. unfold VoteSpec.votes_for. f_equal. apply map_ext_in. intros x Hx.
    pose proof (lists_known _ _ _ Hv Hin) as [_ _ _ _ Kn]. rewrite Forall_forall in Kn.
    destruct (else_target st st' (fst x)) as (T & _); [apply Hv | exact He | apply Kn; exact Hx |].
    unfold VoteSpec.is_for. now rewrite T.
  Qed.

  Lemma all_unknown st c : votes_ok st -> l_get (v_ledger st) c = None -> all_votes_for st c = 0.
  Proof.
    intros Hv Hc. unfold VoteSpec.all_votes_for.
    assert (E : forall m : list (regid * list (uid * N)), msum (fun _ => 0) m = 0)
      by (induction m as [|(? & ?) m IH]; cbn [msum]; [reflexivity | rewrite IH; reflexivity]).
    rewrite <- (E (v_lists st)). apply msum_eq. intros r l Hin.
    pose proof (lists_known _ _ _ Hv Hin) as [_ _ _ _ Kn]. unfold VoteSpec.votes_for. clear - Kn Hc.
    induction Kn as [|x l (_ & k & T & K) _ IH]; cbn [map nsum]; [reflexivity|]. rewrite IH.
    unfold VoteSpec.is_for. rewrite T. replace (c =? k) with false; [reflexivity|].
    symmetry. apply N.eqb_neq. intros ->. contradiction.
  Qed.

  Lemma else_list_ok st st' l : names_ok st -> velsewhere pk_keyid st st' -> list_ok st l -> list_ok st' l.
  Proof.
    intros Hn He [A B C D E]. constructor; auto.
    - erewrite map_ext_in; [exact D|]. intros x Hx. rewrite Forall_forall in E.
      apply (else_target st st' (fst x) Hn He (E _ Hx)).
    - rewrite Forall_forall in *. intros x Hx. apply (else_target st st' (fst x) Hn He (E _ Hx)).
  Qed.

  Lemma no_list st r : votes_ok st -> fget regid_eqb (v_reg st) r = None -> list_of st r = [].
  Proof.
    intros [_ _ _ (_ & Hl) _] H. unfold list_of. destruct (fget regid_eqb (v_lists st) r) as [l|] eqn:E; [|reflexivity].
    destruct (Hl _ _ E). contradiction.
  Qed.

  Lemma nil_ok st : list_ok st [].
  Proof. constructor; cbn; auto with arith; constructor. Qed.

  Lemma else_ok st st' : votes_ok st -> velsewhere pk_keyid st st' -> votes_ok st'.
  Proof.
    intros Hv He. pose proof Hv as [Hn Hvo Hot (Hd & Hl) Hr]. pose proof He as (Hn' & El & Er & E2 & Ha & Hnew).
    assert (LO : forall r, list_of st' r = list_of st r) by (intros r; unfold list_of; now rewrite El).
    assert (Unreg : forall k a', l_get (v_ledger st') k = Some a' -> regid_empty (a_regid a') = false ->
              (forall a, l_get (v_ledger st) k = Some a -> regid_empty (a_regid a) = true) ->
              fget regid_eqb (v_reg st) (a_regid a') = None).
    { intros k a' La' Re U. destruct (fget regid_eqb (v_reg st) (a_regid a')) as [k0|] eqn:E; [|reflexivity].
      destruct (reg_of _ _ _ Hn E) as (_ & b & Lb & Rb).
      destruct (Ha _ _ Lb) as (b' & Lb' & _ & _ & Q). rewrite <- Rb in Re.
      pose proof (Q Re) as Q'.
      assert (k = k0) by (eapply (same_regid st' k k0 a' b'); eauto; congruence). subst k0.
      rewrite (U _ Lb) in Re. discriminate. }
    constructor.
    - exact Hn'.
    - intros k a' La' Re. rewrite LO, E2. destruct (l_get (v_ledger st) k) as [a|] eqn:La.
      + destruct (Ha _ _ La) as (a'' & La'' & _ & Vt & Rg). assert (a'' = a') by congruence. subst a''.
        destruct (regid_empty (a_regid a)) eqn:Ea.
        * rewrite (no_list _ _ Hv); [|apply (Unreg k); auto; congruence].
          split; [apply nil_ok|]. rewrite Vt, (Hot _ _ La Ea). unfold locked. destruct (v_r2 st); reflexivity.
        * rewrite (Rg eq_refl). destruct (Hvo _ _ La Ea) as (X & Y).
          split; [apply (else_list_ok st st'); assumption | congruence].
      + destruct (Hnew _ _ La La') as (_ & V0). rewrite (no_list _ _ Hv); [|apply (Unreg k); auto; congruence].
        split; [apply nil_ok|]. rewrite V0. unfold locked. destruct (v_r2 st); reflexivity.
    - intros k a' La' Re. destruct (l_get (v_ledger st) k) as [a|] eqn:La.
      + destruct (Ha _ _ La) as (a'' & La'' & _ & Vt & Rg). assert (a'' = a') by congruence. subst a''.
        rewrite Vt. destruct (regid_empty (a_regid a)) eqn:Ea; [eapply Hot; eauto|].
        rewrite (Rg eq_refl) in Re. congruence.
      + apply (Hnew _ _ La La').
    - rewrite El. split; [exact Hd|]. intros r l Hg. destruct (Hl _ _ Hg) as (X & Y). split; [exact X|].
      destruct (fget regid_eqb (v_reg st) r) as [k|] eqn:E; [|congruence].
      destruct (reg_of _ _ _ Hn E) as (Re & a & La & Rr). destruct (Ha _ _ La) as (a' & La' & _ & _ & Rg).
      rewrite <- Rr in Re. rewrite <- Rr, <- (Rg Re). rewrite (reg_intro _ _ _ Hn' La'); [discriminate|].
      rewrite (Rg Re). exact Re.
    - intros k a' La'. rewrite (else_all _ _ _ Hv He). destruct (l_get (v_ledger st) k) as [a|] eqn:La.
      + destruct (Ha _ _ La) as (a'' & La'' & Rc & _). assert (a'' = a') by congruence. subst a''.
        rewrite Rc. apply Hr. exact La.
      + destruct (Hnew _ _ La La') as (R0 & _). rewrite R0, (all_unknown _ _ Hv La). split; [reflexivity | lia].
  Qed.

  (** *** The ranking *)

  Lemma rank_kept st st' : rank_current st -> v_rank st' = v_rank st ->
    (forall k a, l_get (v_ledger st) k = Some a -> regid_empty (a_regid a) = false ->
       exists a', l_get (v_ledger st') k = Some a' /\ a_regid a' = a_regid a /\
                  a_received_votes a' = a_received_votes a) ->
    rank_current st'.
  Proof.
    intros (Nd & H) E K. unfold rank_current. rewrite E. split; [exact Nd|].
    intros n r Hin. destruct (H _ _ Hin) as (He & k & a & La & Ra & ->). split; [exact He|].
    destruct (K k a La) as (a' & La' & Ra' & Rc); [congruence|].
    exists k, a'. split; [exact La'|]. split; [congruence|]. now rewrite Rc.
  Qed.

  Lemma complete_kept st st' : rank_complete st -> v_rank st' = v_rank st ->
    (forall k a', l_get (v_ledger st') k = Some a' -> regid_empty (a_regid a') = false ->
       0 < a_received_votes a' ->
       exists a, l_get (v_ledger st) k = Some a /\ a_regid a' = a_regid a /\
                  a_received_votes a' = a_received_votes a) ->
    rank_complete st'.
  Proof.
    intros H E K k a' La' Re Rp. rewrite E. destruct (K _ _ La' Re Rp) as (a & La & Ra & Rc).
    rewrite Rc, Ra. apply (H k a La); congruence.
  Qed.

  Lemma rank_count rules st v st' : names_ok st -> bounded st -> vote_good st v ->
    count_vote rules st v = Some st' -> rank_current st -> rank_current st'.
  Proof.
    intros Hn Hb G H Hr. destruct (count_vote_inv _ _ _ _ Hn Hb G H) as
      (c & c' & T & L & Sv & EL & _ & _ & _ & ER). destruct G as (_ & Gv).
    destruct (stake_ok _ _ _ (Hb _ _ L) Gv Sv) as (W & _ & Bd & Df & _).
    pose proof Hr as (Nd & Hr'). unfold rank_current. rewrite ER, EL. destruct (regid_empty (a_regid c)) eqn:Ec.
    - split; [exact Nd|]. intros n r Hin. destruct (Hr' _ _ Hin) as (He & k & a & La & Ra & En).
      split; [exact He|]. exists k, a. rewrite lget_put. destruct (k =? a_keyid c) eqn:Ek; [|auto].
      apply N.eqb_eq in Ek. subst k. assert (a = c) by congruence. subst a. congruence.
    - split.
      { apply nodup_del; [apply rank_eqb_ok|]. apply nodup_put; [apply rank_eqb_ok | exact Nd]. }
      intros n r Hin. apply (keys_del_in _ rank_eqb_ok) in Hin. destruct Hin as (Ne & Hin).
      apply (keys_put_in _ rank_eqb_ok) in Hin. destruct Hin as [E|Hin].
      + injection E as -> ->. split; [exact Ec|]. exists (a_keyid c), c'. rewrite lget_put, N.eqb_refl.
        split; [reflexivity|]. split; [apply W | reflexivity].
      + destruct (Hr' _ _ Hin) as (He & k & a & La & Ra & En). split; [exact He|].
        exists k, a. rewrite lget_put. destruct (k =? a_keyid c) eqn:Ek; [|auto].
        apply N.eqb_eq in Ek. subst k. assert (a = c) by congruence. subst a.
        exfalso. apply Ne. rewrite En, <- Ra. reflexivity.
  Qed.

  Lemma complete_count rules st v st' : names_ok st -> bounded st -> vote_good st v ->
    count_vote rules st v = Some st' -> rank_complete st -> rank_complete st'.
  Proof.
    intros Hn Hb G H Hr. destruct (count_vote_inv _ _ _ _ Hn Hb G H) as
      (c & c' & T & L & Sv & EL & _ & _ & _ & ER). destruct G as (_ & Gv).
    destruct (stake_ok _ _ _ (Hb _ _ L) Gv Sv) as (W & _ & Bd & Df & _).
    pose proof (Hb _ _ L) as Bc. destruct W as (_ & Wr & _).
    intros k a'. rewrite EL, ER, lget_put. destruct (k =? a_keyid c) eqn:Ek.
    - intros E Re Rp. injection E as <-. rewrite Wr in *. rewrite Re.
      apply (keys_del_in _ rank_eqb_ok). split.
      + intros E. apply Df. apply (f_equal fst) in E. cbn [fst] in E. apply vote_key_inj; assumption.
      + apply (keys_put_in _ rank_eqb_ok). left. reflexivity.
    - intros La' Re Rp. pose proof (Hr _ _ La' Re Rp) as Hin. destruct (regid_empty (a_regid c)) eqn:Ec; [exact Hin|].
      apply (keys_del_in _ rank_eqb_ok). split.
      + intros E. injection E as _ E. apply N.eqb_neq in Ek. apply Ek.
        eapply (same_regid st k (a_keyid c) a' c); eauto.
      + apply (keys_put_in _ rank_eqb_ok). right. exact Hin.
  Qed.

  Lemma ranks_counts rules : forall vs st st', names_ok st -> bounded st -> Forall (vote_good st) vs ->
    count_votes rules st vs = Some st' ->
    (rank_current st -> rank_current st') /\ (rank_complete st -> rank_complete st').
  Proof.
    induction vs as [|v vs IH]; cbn [VoteModel.count_votes]; intros st st' Hn Hb Hg.
    - intros [= <-]. auto.
    - apply Forall_cons_iff in Hg. destruct Hg as (G1 & G2).
      destruct (count_vote rules st v) as [st1|] eqn:E; [|discriminate]. intros H.
      pose proof (count_vote_ok _ _ _ _ Hn Hb G1 E) as C1.
      pose proof C1 as (R1 & _ & _ & N1 & K1 & _).
      destruct (IH st1 st' N1 (counted_bounded _ _ _ Hb C1)) as (A & B); [|exact H|].
      { eapply Forall_impl; [|exact G2]. intros w. apply good_kept; assumption. }
      split; intros X.
      + apply A. apply (rank_count rules st v st1); assumption.
      + apply B. apply (complete_count rules st v st1); assumption.
  Qed.

  Lemma cast_ranks rules e st k a vs st' : votes_ok st -> l_get (v_ledger st) k = Some a ->
    regid_empty (a_regid a) = false -> Forall (vote_good st) vs -> cast rules e st k vs = Some st' ->
    (rank_current st -> rank_current st') /\ (rank_complete st -> rank_complete st').
  Proof.
    intros Hv Ha He Hg H. destruct (cast_ok _ _ _ _ _ _ _ Hv Ha He Hg H) as
      (_ & _ & _ & _ & a1 & l1 & P & _ & C).
    pose proof Hv as [Hn Hvo _ _ Hr]. destruct (Hvo _ _ Ha He) as (Lk & _).
    destruct (process_ok _ _ _ _ _ _ _ Hn Lk Hg P) as (_ & _ & W1 & R1 & _).
    set (st1 := set_list (set_vledger st (l_put (v_ledger st) k a1)) (a_regid a) l1) in *.
    assert (K1 : keeps (v_ledger st) (v_ledger st1)) by (apply (keeps_put _ _ a); assumption).
    assert (Wf1 : ledger_wf (v_ledger st1)).
    { eapply wf_kept; [exact Hn | exact K1|]. apply nodup_put; [apply N_eqb_ok|]. apply Hn. }
    assert (N1 : names_ok st1).
    { exact (names_kept st _ (v_lists st1) (v_rank st1) (v_r2 st1) Hn K1 Wf1). }
    assert (B1 : bounded st1).
    { intros k' b. cbn [st1 set_list set_vledger v_ledger]. rewrite lget_put. destruct (k' =? k).
      - intros E. injection E as <-. rewrite R1. apply (Hr _ _ Ha).
      - intros E. apply (Hr _ _ E). }
    assert (G1 : Forall (vote_good st1) vs).
    { eapply Forall_impl; [|exact Hg]. intros v. apply good_kept; [reflexivity | exact K1]. }
    destruct (ranks_counts _ _ _ _ N1 B1 G1 C) as (A & B). split; intros X.
    - apply A. apply (rank_kept st); [exact X | reflexivity|]. intros k' b Hb _.
      cbn [st1 set_list set_vledger v_ledger]. rewrite lget_put. destruct (k' =? k) eqn:E; [|eauto].
      apply N.eqb_eq in E. subst k'. assert (b = a) by congruence. subst b.
      exists a1. split; [reflexivity|]. split; [apply W1 | exact R1].
    - apply B. apply (complete_kept st); [exact X | reflexivity|]. intros k' b'.
      cbn [st1 set_list set_vledger v_ledger]. rewrite lget_put. destruct (k' =? k) eqn:E; [|eauto].
      apply N.eqb_eq in E. subst k'. intros E _ _. injection E as <-.
      exists a. split; [exact Ha|]. split; [apply W1 | exact R1].
  Qed.

  (** *** Vote transactions *)

  Lemma vote_ok_good e st v : names_ok st -> vote_ok pk_keyid e st v = true -> vote_good st v /\
    exists c, account_of st (w_uid v) = Some c /\ (v_r2 st = true -> a_pubkey c <> None).
  Proof.
    intros Hn. unfold vote_ok. rewrite !andb_true_iff. intros (((A & B) & C) & D).
    destruct (account_of st (w_uid v)) as [c|] eqn:E; [|discriminate].
    destruct (account_target _ _ _ Hn E) as (T & L). apply andb_true_iff in D. destruct D as (_ & D).
    split.
    - split; [|apply N.leb_le in C; unfold MAX_BCOINS in C; lia]. split.
      + destruct (w_uid v); try discriminate; exact I.
      + exists (a_keyid c). split; [exact T | congruence].
    - exists c. split; [reflexivity|]. intros R. rewrite R in D. cbn in D. destruct (a_pubkey c); congruence.
  Qed.

  Notation vote_tx := (vote_tx pk_keyid fcoin_interest bcoin_interest arrange).

  Lemma vote_tx_inv e st k vs st' : names_ok st -> vote_tx e st k vs = Some st' ->
    exists a, l_get (v_ledger st) k = Some a /\ regid_empty (a_regid a) = false /\
      Forall (vote_good st) vs /\ cast false e st k vs = Some st' /\
      Forall (fun v => exists c, account_of st (w_uid v) = Some c /\ (v_r2 st = true -> a_pubkey c <> None)) vs.
  Proof.
    intros Hn. unfold VoteModel.vote_tx. destruct (l_get (v_ledger st) k) as [a|]; [|discriminate].
    destruct (negb (regid_empty (a_regid a)) && check_votes pk_keyid e st vs) eqn:C; [|discriminate].
    apply andb_true_iff in C. destruct C as (C1 & C2). unfold check_votes in C2. apply andb_true_iff in C2.
    destruct C2 as (_ & C2). rewrite forallb_forall in C2. intros H. exists a. split; [reflexivity|].
    split; [destruct (regid_empty (a_regid a)); [discriminate | reflexivity]|].
    split; [|split; [exact H|]]; apply Forall_forall; intros v Hv; apply (vote_ok_good e); auto.
  Qed.

  (** *** The change of rules *)

  Lemma take_rest st x : names_ok st -> forall t, NoDup (map (fun y => target st (fst y)) (x :: t)) ->
    Forall (fun y => known st (fst y)) (x :: t) -> Forall (fun y => 0 < snd y <= 21000000000000000) t ->
    apply_votes st (x :: t) (map (fun y => mkVote 2 (fst y) (snd y)) t) = Some [x].
  Proof.
    intros Hn. destruct x as (w, n). induction t as [|(u, m) t IH]; cbn [map VoteModel.apply_votes fst snd];
      intros Nd Kn Am; [reflexivity|].
    assert (Kw : known st w) by (rewrite Forall_forall in Kn; apply (Kn (w, n)); left; reflexivity).
    assert (Ku : known st u) by (rewrite Forall_forall in Kn; apply (Kn (u, m)); right; left; reflexivity).
    assert (M1 : matches st u w = false).
    { destruct (matches st u w) eqn:E; [|reflexivity]. apply matches_iff in E; [|assumption..].
      inversion Nd as [|? ? X _]; subst. exfalso. apply X. left. exact E. }
    assert (M2 : matches st u u = true) by (apply matches_iff; [assumption.. | reflexivity]).
    apply Forall_cons_iff in Am. destruct Am as (Am1 & Am2). cbn [snd] in Am1.
    unfold VoteModel.apply_vote at 1. cbn [w_type w_uid w_votes VoteModel.find_entry].
    change (2 =? 1) with false. change (2 =? 2) with true. cbv iota.
    rewrite M1, M2.
    replace (in_range m && (m <=? m)) with true by (unfold in_range, MAX_BCOINS; lia).
    replace (m - m =? 0) with true by lia. cbn [app].
    apply IH; [| |exact Am2].
    - cbn [map] in Nd. inversion Nd as [|? ? X Y]; subst. inversion Y; subst. constructor; [|assumption].
      intros Z. apply X. right. exact Z.
    - rewrite Forall_forall in *. intros y [<-|Hy]; apply Kn; [left; reflexivity | right; right; exact Hy].
  Qed.

  Lemma arrange_one x : arrange [x] = [x].
  Proof. destruct (arr [x]) as (P & _). apply Permutation_length_1_inv. exact P. Qed.

  Notation revoke_all := (revoke_all pk_keyid fcoin_interest bcoin_interest arrange).

  Lemma good_of_list st l : list_ok st l -> Forall (vote_good st) (map (fun y => mkVote 2 (fst y) (snd y)) l).
  Proof.
    intros [_ _ A _ K]. rewrite Forall_forall in *. intros v Hv. apply in_map_iff in Hv.
    destruct Hv as (y & <- & Hy). split; cbn [w_uid w_votes]; [apply K | apply A]; exact Hy.
  Qed.

  Lemma revoke_ok e : forall ls st st', votes_ok st -> NoDup (keys ls) ->
    (forall r l, In (r, l) ls -> list_of st r = l /\ fget regid_eqb (v_reg st) r <> None) ->
    revoke_all e st ls = Some st' ->
    votes_ok st' /\ v_r2 st' = v_r2 st /\ keeps (v_ledger st) (v_ledger st') /\
    (forall r, ~ In r (keys ls) -> list_of st' r = list_of st r) /\
    (forall r, In r (keys ls) -> (List.length (list_of st' r) <= 1)%nat) /\
    (rank_current st -> rank_current st') /\ (rank_complete st -> rank_complete st').
  Proof.
    induction ls as [|(r, l) ls IH]; cbn [VoteModel.revoke_all]; intros st st' Hv Nd Hls.
    - intros [= <-]. split; [exact Hv|]. split; [reflexivity|]. split; [apply keeps_refl|].
      split; [reflexivity|]. split; [intros r []|]. split; trivial.
    - destruct (revoke_one _ _ _ _ e st r l) as [st1|] eqn:E; [|discriminate]. intros H.
      destruct (Hls r l (or_introl eq_refl)) as (El & Er). pose proof Hv as [Hn Hvo _ _ _].
      unfold revoke_one in E. destruct (account_of st (UReg r)) as [a|] eqn:Aa; [|discriminate].
      destruct (account_target _ _ _ Hn Aa) as (Ta & La). destruct (reg_of _ _ _ Hn Ta) as (Re & a0 & La0 & Ra).
      assert (a0 = a) by congruence. subst a0. rewrite <- Ra in Re.
      destruct (Hvo _ _ La Re) as (Lo & _). rewrite Ra, El in Lo.
      assert (G : Forall (vote_good st) (map (fun y => mkVote 2 (fst y) (snd y)) (tl l))).
      { pose proof (good_of_list _ _ Lo) as G. destruct l; [constructor|]. cbn [tl]. cbn [map] in G.
        apply Forall_cons_iff in G. apply G. }
      destruct (cast_ok _ _ _ _ _ _ _ Hv La Re G E) as (Hv1 & R2 & Rg & K1 & a1 & l1 & P & LO & _).
      destruct (cast_ranks _ _ _ _ _ _ _ Hv La Re G E) as (Rc & Rm).
      assert (Short : (List.length l1 <= 1)%nat).
      { unfold VoteModel.process in P. destruct (x_height e <? a_last_vote_height a); [discriminate|].
        rewrite Ra, El in P. destruct l as [|x t].
        - cbn [tl map VoteModel.apply_votes] in P. destruct (arr []) as (Pm & _).
          apply Permutation_nil in Pm. rewrite Pm in P.
          destruct (change_votes _ _); [|discriminate]. destruct (pay_interest _ _ _ _ _ _); [|discriminate].
          assert (l1 = []) by congruence. subst l1. cbn. auto.
        - cbn [tl] in P. rewrite (take_rest st x Hn t) in P.
          + rewrite arrange_one in P.
            destruct (change_votes _ _); [|discriminate]. destruct (pay_interest _ _ _ _ _ _); [|discriminate].
            assert (l1 = [x]) by congruence. subst l1. cbn. auto.
          + apply Lo.
          + apply Lo.
          + pose proof (lk_amounts _ _ _ Lo) as X. apply Forall_cons_iff in X. apply X. }
      cbn [keys map] in Nd. inversion Nd as [|? ? Nr Nd']; subst.
      destruct (IH st1 st' Hv1 Nd') as (Hv2 & R22 & K2 & Lk & Ls & Rc2 & Rm2); [|exact H|].
      { intros s m Hin. destruct (Hls s m (or_intror Hin)) as (X & Y). rewrite LO, Rg. split; [|exact Y].
        destruct (regid_eqb s (a_regid a)) eqn:Es; [|exact X].
        apply regid_eqb_ok in Es. subst s. exfalso. apply Nr. apply (in_map fst) in Hin. exact Hin. }
      split; [exact Hv2|]. split; [congruence|]. split; [eapply keeps_trans; eauto|].
      split; [|split; [|split; auto]].
      + intros s Hs. cbn [keys map fst] in Hs. rewrite Lk by (intros X; apply Hs; right; exact X). rewrite LO.
        destruct (regid_eqb s (a_regid a)) eqn:Es; [|reflexivity].
        apply regid_eqb_ok in Es. exfalso. apply Hs. left. congruence.
      + intros s [Hs|Hs].
        * cbn [fst] in Hs. subst s. rewrite Lk by exact Nr. rewrite LO.
          rewrite (proj2 (regid_eqb_ok _ _) eq_refl). exact Short.
        * apply Ls. exact Hs.
  Qed.

  Lemma locked_short l : (List.length l <= 1)%nat -> locked true l = locked false l.
  Proof.
    destruct l as [|x [|y l]]; cbn [List.length]; intros H; [reflexivity | | lia].
    unfold locked. cbn [map nsum fold_right]. lia.
  Qed.

  Lemma rules_ok e st st' : votes_ok st ->
    new_rules pk_keyid fcoin_interest bcoin_interest arrange e st = Some st' ->
    votes_ok st' /\ v_r2 st = false /\ v_r2 st' = true /\
    (forall r, (List.length (list_of st' r) <= 1)%nat) /\
    (rank_current st -> rank_current st') /\ (rank_complete st -> rank_complete st').
  Proof.
    intros Hv. unfold new_rules. destruct (v_r2 st) eqn:R2; [discriminate|].
    destruct (revoke_all e st (v_lists st)) as [st1|] eqn:E; [|discriminate]. intros H.
    assert (E' : st' = mkV (v_ledger st1) (v_reg st1) (v_lists st1) (v_rank st1) true) by congruence.
    subst st'. clear H.
    pose proof Hv as [Hn Hvo _ (Hd & Hl) _].
    destruct (revoke_ok e (v_lists st) st st1 Hv Hd) as (Hv1 & R21 & K1 & Lk & Ls & Rc & Rm); [|exact E|].
    { intros r l Hin. apply (in_fget _ regid_eqb_ok) in Hin; [|exact Hd]. unfold list_of. rewrite Hin.
      split; [reflexivity|]. apply (Hl _ _ Hin). }
    assert (Short : forall r, (List.length (list_of st1 r) <= 1)%nat).
    { intros r. destruct (fget regid_eqb (v_lists st) r) as [l|] eqn:F.
      - apply Ls. eapply fget_some_key; [apply regid_eqb_ok | exact F].
      - rewrite Lk by (apply (fget_none _ regid_eqb_ok); exact F). unfold list_of. rewrite F. cbn. auto. }
    split; [|split; [reflexivity|split; [reflexivity|split; [exact Short|split; [exact Rc | exact Rm]]]]].
    destruct Hv1 as [N1 V1 O1 L1 C1]. constructor.
    - exact N1.
    - intros k a La Re. destruct (V1 k a La Re) as (X & Y).
      split; [apply (list_ok_kept st1); [reflexivity | apply keeps_refl | exact X]|].
      cbn [v_r2]. rewrite Y, R21, R2. symmetry. apply locked_short. apply Short.
    - exact O1.
    - exact L1.
    - exact C1.
  Qed.

  (** *** All histories *)

  Notation vreaches := (vreaches pk_keyid fcoin_interest bcoin_interest arrange).
  Notation vstep := (vstep pk_keyid fcoin_interest bcoin_interest arrange).

  Lemma step_votes st a st' : votes_ok st -> (forall s, a = VElse s -> velsewhere pk_keyid st s) ->
    vstep st a = Some st' -> votes_ok st'.
  Proof.
    intros Hv He H. destruct a as [e k vs|e|s]; cbn [VoteModel.vstep] in H.
    - destruct (vote_tx_inv _ _ _ _ _ (vk_names _ _ Hv) H) as (a & La & Re & G & C & _).
      apply (cast_ok false e st k a vs st'); assumption.
    - apply (rules_ok e st st'); assumption.
    - injection H as <-. apply (else_ok st s); auto.
  Qed.

  Lemma reaches_votes allowed st st' : votes_ok st -> vreaches allowed st st' -> votes_ok st'.
  Proof.
    intros Hv. induction 1 as [|st1 a st2 R IH He Al St]; [exact Hv|]. apply (step_votes st1 a st2); assumption.
  Qed.

  Lemma else_rank st st' : rank_current st -> velsewhere pk_keyid st st' -> rank_current st'.
  Proof.
    intros Hr (_ & _ & Er & _ & Ha & _). apply (rank_kept st); [exact Hr | exact Er|].
    intros k a La Re. destruct (Ha _ _ La) as (a' & La' & Rc & _ & Rg). eauto.
  Qed.

  Lemma step_rank st a st' : votes_ok st -> (forall s, a = VElse s -> velsewhere pk_keyid st s) ->
    vstep st a = Some st' -> rank_current st -> rank_current st'.
  Proof.
    intros Hv He H Hr. destruct a as [e k vs|e|s]; cbn [VoteModel.vstep] in H.
    - destruct (vote_tx_inv _ _ _ _ _ (vk_names _ _ Hv) H) as (a & La & Re & G & C & _).
      apply (cast_ranks false e st k a vs st'); assumption.
    - apply (rules_ok e st st'); assumption.
    - injection H as <-. apply (else_rank st s); auto.
  Qed.

  Lemma reaches_rank allowed st st' : votes_ok st -> rank_current st -> vreaches allowed st st' ->
    rank_current st'.
  Proof.
    intros Hv Hr. induction 1 as [|st1 a st2 R IH He Al St]; [exact Hr|].
    apply (step_rank st1 a); auto. exact (reaches_votes _ _ _ Hv R).
  Qed.

  Lemma step_complete st a st' : votes_ok st -> (forall s, a = VElse s -> velsewhere pk_keyid st s) ->
    registered_before_voted st a ->
    vstep st a = Some st' -> rank_complete st -> rank_complete st'.
  Proof.
    intros Hv He Hb H Hr. destruct a as [e k vs|e|s]; cbn [VoteModel.vstep] in H.
    - destruct (vote_tx_inv _ _ _ _ _ (vk_names _ _ Hv) H) as (a & La & Re & G & C & _).
      apply (cast_ranks false e st k a vs st'); assumption.
    - apply (rules_ok e st st'); assumption.
    - injection H as <-. destruct (He _ eq_refl) as (_ & _ & Er & _ & Ha & Hnew).
      apply (complete_kept st); [exact Hr | exact Er|]. intros k a' La' Re Rp.
      destruct (l_get (v_ledger st) k) as [a|] eqn:La.
      + destruct (Ha _ _ La) as (a'' & La'' & Rc & _ & Rg). assert (a'' = a') by congruence. subst a''.
        exists a. split; [reflexivity|]. split; [|exact Rc].
        destruct (regid_empty (a_regid a)) eqn:Ea; [|exact (Rg eq_refl)].
        pose proof (Hb _ eq_refl _ _ _ La Ea La' Re). lia.
      + destruct (Hnew _ _ La La') as (X & _). lia.
  Qed.

  Lemma reaches_complete st st' : votes_ok st -> rank_complete st ->
    vreaches registered_before_voted st st' -> rank_complete st'.
  Proof.
    intros Hv Hr. induction 1 as [|st1 a st2 R IH He Al St]; [exact Hr|].
    apply (step_complete st1 a); auto. exact (reaches_votes _ _ _ Hv R).
  Qed.

  (** Under the rules of the second release only accounts with a public key get votes. *)
  Definition only_registered (st : vstate) : Prop :=
    forall k a, l_get (v_ledger st) k = Some a ->
      (a_pubkey a <> None \/ 0 < a_received_votes a) -> regid_empty (a_regid a) = false.

  Lemma count_only rules : forall vs st st', names_ok st -> bounded st -> Forall (vote_good st) vs ->
    Forall (fun v => exists c, account_of st (w_uid v) = Some c /\ a_pubkey c <> None) vs ->
    count_votes rules st vs = Some st' -> only_registered st -> only_registered st'.
  Proof.
    induction vs as [|v vs IH]; cbn [VoteModel.count_votes]; intros st st' Hn Hb Hg Hp.
    - intros [= <-]. auto.
    - apply Forall_cons_iff in Hg. destruct Hg as (G1 & G2).
      apply Forall_cons_iff in Hp. destruct Hp as ((c0 & Ac & Pc) & P2).
      destruct (count_vote rules st v) as [st1|] eqn:E; [|discriminate]. intros H Ho.
      pose proof (count_vote_ok _ _ _ _ Hn Hb G1 E) as C1.
      pose proof C1 as (R1 & _ & _ & N1 & K1 & _).
      destruct (count_vote_inv _ _ _ _ Hn Hb G1 E) as (c & c' & T & L & Sv & EL & _).
      destruct (account_target _ _ _ Hn Ac) as (T0 & L0). assert (c0 = c) by congruence. subst c0.
      destruct (stake_ok _ _ _ (Hb _ _ L) (proj2 G1) Sv) as (W & _).
      apply (IH st1 st' N1 (counted_bounded _ _ _ Hb C1)); [| |exact H|].
      + eapply Forall_impl; [|exact G2]. intros w. apply good_kept; assumption.
      + eapply Forall_impl; [|exact P2]. cbv beta. intros w (d & Ad & Pd).
        destruct (account_target _ _ _ Hn Ad) as (Td & Ld).
        destruct (proj1 K1 _ _ Ld) as (d' & Ld' & (_ & _ & Wd)). exists d'. split; [|congruence].
        apply (target_account _ _ (a_keyid d)); [exact N1 | | exact Ld'].
        rewrite (target_reg _ _ _ R1). exact Td.
      + intros k a. rewrite EL, lget_put. destruct (k =? a_keyid c).
        * intros X _. injection X as <-. destruct W as (_ & -> & _). apply (Ho _ _ L). left. exact Pc.
        * apply Ho.
  Qed.

  Lemma step_second st a st' : votes_ok st -> (forall s, a = VElse s -> velsewhere pk_keyid st s) ->
    second_release st a -> vstep st a = Some st' -> only_registered st ->
    only_registered st' /\ (rank_complete st -> rank_complete st').
  Proof.
    intros Hv He (Hr2 & Hs) H Ho. split.
    - destruct a as [e k vs|e|s]; cbn [VoteModel.vstep] in H.
      + pose proof Hv as [Hn Hvo _ _ Hr].
        destruct (vote_tx_inv _ _ _ _ _ Hn H) as (a & La & Re & G & C & P).
        destruct (cast_ok _ _ _ _ _ _ _ Hv La Re G C) as (_ & _ & _ & _ & a1 & l1 & Pr & _ & Ct).
        destruct (Hvo _ _ La Re) as (Lk & _).
        destruct (process_ok _ _ _ _ _ _ _ Hn Lk G Pr) as (_ & _ & W1 & R1 & _).
        set (st1 := set_list (set_vledger st (l_put (v_ledger st) k a1)) (a_regid a) l1) in *.
        assert (K1 : keeps (v_ledger st) (v_ledger st1)) by (apply (keeps_put _ _ a); assumption).
        assert (Wf1 : ledger_wf (v_ledger st1)).
        { eapply wf_kept; [exact Hn | exact K1|]. apply nodup_put; [apply N_eqb_ok|]. apply Hn. }
        assert (N1 : names_ok st1).
        { exact (names_kept st _ (v_lists st1) (v_rank st1) (v_r2 st1) Hn K1 Wf1). }
        assert (B1 : bounded st1).
        { intros k' b. cbn [st1 set_list set_vledger v_ledger]. rewrite lget_put. destruct (k' =? k).
          - intros E. injection E as <-. rewrite R1. apply (Hr _ _ La).
          - intros E. apply (Hr _ _ E). }
        apply (count_only false vs st1 st'); auto.
        * eapply Forall_impl; [|exact G]. intros v. apply good_kept; [reflexivity | exact K1].
        * eapply Forall_impl; [|exact P]. cbv beta. intros v (c & Ac & Pc).
          destruct (account_target _ _ _ Hn Ac) as (Tc & Lc).
          destruct (proj1 K1 _ _ Lc) as (d & Ld & (_ & _ & Wd)). exists d. split; [|rewrite Wd; auto].
          apply (target_account _ _ (a_keyid c)); [exact N1 | exact Tc | exact Ld].
        * intros k' b. cbn [st1 set_list set_vledger v_ledger]. rewrite lget_put. destruct (k' =? k).
          -- intros E _. injection E as <-. destruct W1 as (_ & -> & _). exact Re.
          -- apply Ho.
      + unfold new_rules in H. rewrite Hr2 in H. discriminate.
      + injection H as <-. destruct (He _ eq_refl) as (_ & _ & _ & _ & Ha & Hnew).
        intros k a' La' [Hp|Hp]; [eapply Hs; eauto|].
        destruct (l_get (v_ledger st) k) as [a|] eqn:La.
        * destruct (Ha _ _ La) as (a'' & La'' & Rc & _ & Rg). assert (a'' = a') by congruence. subst a''.
          assert (Ra : regid_empty (a_regid a) = false) by (apply (Ho _ _ La); right; lia).
          rewrite (Rg Ra). exact Ra.
        * destruct (Hnew _ _ La La'). lia.
    - apply (step_complete st a st' Hv He); [|exact H].
      intros s E k x x' Lx Rx _ _. destruct (N.eq_0_gt_0_cases (a_received_votes x)) as [|Hp]; [assumption|].
      rewrite (Ho _ _ Lx (or_intror Hp)) in Rx. discriminate.
  Qed.

  Lemma reaches_second st st' : votes_ok st -> only_registered st -> rank_complete st ->
    vreaches second_release st st' -> only_registered st' /\ rank_complete st'.
  Proof.
    intros Hv Ho Hr. induction 1 as [|st1 a st2 R IH He Al St]; [auto|].
    destruct IH as (Ho1 & Hr1).
    assert (Hv1 : votes_ok st1) by exact (reaches_votes _ _ _ Hv R).
    destruct (step_second st1 a st2 Hv1 He Al St Ho1) as (A & B). auto.
  Qed.

  (** *** Taking votes back *)

  Definition minus_only (vs : list vote) : Prop := Forall (fun v => w_type v = 2) vs.

  Lemma max_app (l1 l2 : list N) : fold_right N.max 0 (l1 ++ l2) = N.max (fold_right N.max 0 l1) (fold_right N.max 0 l2).
  Proof. induction l1 as [|x l1 IH]; cbn [app fold_right]; [lia | rewrite IH; lia]. Qed.

  Lemma minus_locked st l v l' : w_type v = 2 -> apply_vote st l v = Some l' ->
    nsum (map snd l') + w_votes v = nsum (map snd l) /\ forall r2, locked r2 l' <= locked r2 l.
  Proof.
    intros T. unfold VoteModel.apply_vote. rewrite T. change (2 =? 1) with false. change (2 =? 2) with true.
    cbv iota. destruct (find_entry st (w_uid v) l) as [((x, (w, n)), z)|] eqn:F; [|discriminate].
    destruct (find_some _ _ _ _ _ _ _ F) as (-> & _).
    destruct (in_range (w_votes v) && (w_votes v <=? n)) eqn:R; [|discriminate].
    apply andb_true_iff in R. destruct R as (_ & R). apply N.leb_le in R.
    intros E. apply (f_equal (fun o => match o with Some y => y | None => [] end)) in E. cbv beta iota in E.
    subst l'. unfold locked. destruct (n - w_votes v =? 0) eqn:Z0.
    - apply N.eqb_eq in Z0. rewrite !map_app, !nsum_app, !max_app. cbn [map nsum fold_right snd].
      split; [lia|]. intros [|]; lia.
    - rewrite !map_app, !nsum_app, !max_app. cbn [map nsum fold_right snd].
      split; [lia|]. intros [|]; lia.
  Qed.

  Definition amount (vs : list vote) : N := nsum (map w_votes vs).

  Lemma minuses_locked st : forall vs l l', minus_only vs -> apply_votes st l vs = Some l' ->
    nsum (map snd l') + amount vs = nsum (map snd l) /\ forall r2, locked r2 l' <= locked r2 l.
  Proof.
    induction vs as [|v vs IH]; cbn [VoteModel.apply_votes]; intros l l' M.
    - intros [= <-]. split; [unfold amount; cbn; lia | intros; lia].
    - apply Forall_cons_iff in M. destruct M as (M1 & M2).
      destruct (apply_vote st l v) as [l1|] eqn:E; [|discriminate]. intros H.
      destruct (minus_locked _ _ _ _ M1 E) as (A & B). destruct (IH _ _ M2 H) as (C & D).
      split; [unfold amount in *; cbn [map nsum]; lia|]. intros r2. specialize (B r2). specialize (D r2). lia.
  Qed.

  Lemma count_minus rules : forall vs st, names_ok st -> bounded st -> Forall (vote_good st) vs ->
    minus_only vs ->
    (forall k a, l_get (v_ledger st) k = Some a -> (0 <= Z.of_N (a_received_votes a) + dvotes st k vs)%Z) ->
    exists st', count_votes rules st vs = Some st'.
  Proof.
    induction vs as [|v vs IH]; cbn [VoteModel.count_votes]; intros st Hn Hb Hg M Hr; [eauto|].
    apply Forall_cons_iff in Hg. destruct Hg as (G1 & G2).
    apply Forall_cons_iff in M. destruct M as (M1 & M2).
    assert (Neg : forall k ws, minus_only ws -> (dvotes st k ws <= 0)%Z).
    { intros k ws Mw. clear - Mw. induction Mw as [|w ws Hw _ IHw]; cbn [dvotes]; [lia|].
      unfold dvote. rewrite Hw. change (2 =? 1) with false. destruct (is_for st k (w_uid w)); lia. }
    destruct (known_account _ _ Hn (proj1 G1)) as (c & Ac & Tc & Lc).
    assert (S : exists st1, count_vote rules st v = Some st1).
    { unfold VoteModel.count_vote. rewrite Ac. unfold stake_votes. rewrite M1.
      change (2 =? 1) with false. change (2 =? 2) with true. cbv iota.
      specialize (Hr _ _ Lc). cbn [dvotes] in Hr. specialize (Neg (a_keyid c) vs M2).
      unfold dvote, VoteSpec.is_for in Hr. rewrite Tc, N.eqb_refl, M1 in Hr. change (2 =? 1) with false in Hr.
      cbv iota in Hr. replace (a_received_votes c <? w_votes v) with false by lia.
      destruct (rules && _); eauto. }
    destruct S as (st1 & E). rewrite E. pose proof (count_vote_ok _ _ _ _ Hn Hb G1 E) as C1.
    pose proof C1 as (R1 & _ & _ & N1 & K1 & X1).
    apply IH; [exact N1 | exact (counted_bounded _ _ _ Hb C1) | | exact M2 |].
    - eapply Forall_impl; [|exact G2]. intros w. apply good_kept; assumption.
    - intros k a' La'. destruct (keeps_back _ _ _ _ K1 La') as (a & La & _).
      destruct (X1 _ _ _ La La') as (_ & _ & D). rewrite D, (dvotes_reg _ _ _ _ R1). cbn [dvotes].
      specialize (Hr _ _ La). cbn [dvotes] in Hr. lia.
  Qed.

  (** The interest is within range (it has to be under the old rules). *)
  Definition interest_ok (e : venv) (st : vstate) (a : account) : Prop :=
    v_r2 st = true \/
    bcoin_interest (voted (get_token a "WICC")) (a_last_vote_height a) (x_height e) <= MAX_BCOINS.

  Lemma lower_votes a now : now <= voted (get_token a "WICC") -> voted (get_token a "WICC") < two64 ->
    bal a "WICC" BFree + voted (get_token a "WICC") < two64 ->
    exists a', change_votes a now = Some a' /\
      bal a' "WICC" BFree = bal a "WICC" BFree + (voted (get_token a "WICC") - now).
  Proof.
    intros H1 H2 H3. unfold change_votes. replace (voted (get_token a "WICC") <? now) with false by lia.
    destruct (now <? voted (get_token a "WICC")) eqn:E.
    - unfold on_account, operate_balance, with_peer, internal_move. cbv beta iota zeta.
      replace (voted (get_token a "WICC") <? voted (get_token a "WICC") - now) with false by lia.
      cbn [ok self']. eexists. split; [reflexivity|].
      unfold bal in *. rewrite get_set_same. cbn [in_bucket free unvote_move] in *. rewrite add64_small; lia.
    - exists a. split; [reflexivity|]. lia.
  Qed.

  Lemma pay_succeeds e r2 last a : r2 = true \/ bcoin_interest last (a_last_vote_height a) (x_height e) <= MAX_BCOINS ->
    exists a', pay_interest fcoin_interest bcoin_interest e r2 last a = Some a' /\
      (r2 = true -> bal a' "WICC" BFree = bal a "WICC" BFree).
  Proof.
    intros H. unfold pay_interest. destruct r2.
    - destruct (0 <? _); [|exists a; auto]. rewrite on_add. eexists. split; [reflexivity|].
      intros _. unfold bal. rewrite !get_set_token. reflexivity.
    - destruct H as [H|H]; [discriminate|]. rewrite (proj2 (in_range_iff _) H). rewrite on_add.
      eexists. split; [reflexivity|]. discriminate.
  Qed.

  Lemma cast_back rules e st k a vs l1 : votes_ok st -> l_get (v_ledger st) k = Some a ->
    regid_empty (a_regid a) = false -> Forall (vote_good st) vs -> minus_only vs ->
    apply_votes st (list_of st (a_regid a)) vs = Some l1 ->
    a_last_vote_height a <= x_height e -> interest_ok e st a ->
    bal a "WICC" BFree + bal a "WICC" BVoted < two64 ->
    exists st' a', cast rules e st k vs = Some st' /\ l_get (v_ledger st') k = Some a' /\
      list_of st' (a_regid a) = arrange l1 /\
      (v_r2 st = true -> bal a "WICC" BVoted = bal a' "WICC" BVoted + amount vs /\
                         bal a' "WICC" BFree = bal a "WICC" BFree + amount vs) /\
      forall c b b', l_get (v_ledger st) c = Some b -> l_get (v_ledger st') c = Some b' ->
        Z.of_N (a_received_votes b') = (Z.of_N (a_received_votes b) + dvotes st c vs)%Z.
  Proof.
    intros Hv La Re Hg M Ap Hh Hi Hf. pose proof Hv as [Hn Hvo _ (Hd & _) Hr].
    destruct (Hvo _ _ La Re) as (Lk & Lv). pose proof Lk as Lk0. apply list_ok_iff in Lk0. destruct Lk0 as (_ & Li).
    destruct (apply_votes_ok _ Hn _ _ _ Li Hg Ap) as (L1 & D).
    destruct (arr l1) as (P & S).
    assert (L2 : list_ok st (arrange l1)).
    { apply list_ok_iff. split; [exact S|]. eapply listed_perm; eauto. }
    destruct (minuses_locked _ _ _ _ M Ap) as (Sum & Low).
    assert (Same : forall r2, locked r2 (arrange l1) = locked r2 l1).
    { intros r2. unfold locked. destruct r2.
      - apply nsum_perm. apply Permutation_map. apply Permutation_sym. exact P.
      - clear - P. induction P; cbn [map fold_right]; lia. }
    assert (Vt : voted (get_token a "WICC") = locked (v_r2 st) (list_of st (a_regid a))) by exact Lv.
    assert (Bd : voted (get_token a "WICC") < two64).
    { rewrite Vt. pose proof (locked_bound _ (v_r2 st) _ Lk). unfold two64. lia. }
    destruct (lower_votes a (locked (v_r2 st) (arrange l1))) as (a1 & C1 & F1);
      [rewrite Vt, Same; apply Low | exact Bd | exact Hf |].
    assert (I1 : same_identity a a1 /\ bal a1 "WICC" BVoted = locked (v_r2 st) (arrange l1)).
    { apply (change_votes_ok _ _ _ ) in C1; [exact C1|]. pose proof (Low (v_r2 st)). rewrite Same. lia. }
    destruct I1 as (I1 & V1).
    destruct (pay_succeeds e (v_r2 st) (voted (get_token a "WICC")) a1) as (a2 & C2 & F2).
    { destruct Hi as [X|X]; [left; exact X | right]. destruct I1 as (_ & _ & _ & _ & <- & _). exact X. }
    destruct (pay_ok _ _ _ _ _ C2) as (I2 & V2).
    assert (Pr : process e st a (list_of st (a_regid a)) vs = Some (stamp e a2, arrange l1)).
    { unfold VoteModel.process. replace (x_height e <? a_last_vote_height a) with false by lia.
      rewrite Ap. rewrite (needed_locked _ _ _ L2), C1, C2. reflexivity. }
    destruct (process_ok _ _ _ _ _ _ _ Hn Lk Hg Pr) as (_ & _ & W1 & R1 & _).
    set (st1 := set_list (set_vledger st (l_put (v_ledger st) k (stamp e a2))) (a_regid a) (arrange l1)).
    assert (K1 : keeps (v_ledger st) (v_ledger st1)) by (apply (keeps_put _ _ a); assumption).
    assert (Wf1 : ledger_wf (v_ledger st1)).
    { eapply wf_kept; [exact Hn | exact K1|]. apply nodup_put; [apply N_eqb_ok|]. apply Hn. }
    assert (N1 : names_ok st1).
    { exact (names_kept st _ (v_lists st1) (v_rank st1) (v_r2 st1) Hn K1 Wf1). }
    assert (Rec : forall c b b1, l_get (v_ledger st) c = Some b -> l_get (v_ledger st1) c = Some b1 ->
                  a_received_votes b1 = a_received_votes b).
    { intros c b b1 Lb. cbn [st1 set_list set_vledger v_ledger]. rewrite lget_put. destruct (c =? k) eqn:E.
      - apply N.eqb_eq in E. subst c. intros X. injection X as <-. assert (b = a) by congruence. subst b. exact R1.
      - congruence. }
    assert (B1 : bounded st1).
    { intros c b1 Lb1. destruct (keeps_back _ _ _ _ K1 Lb1) as (b & Lb & _). rewrite (Rec _ _ _ Lb Lb1). apply (Hr _ _ Lb). }
    assert (G1 : Forall (vote_good st1) vs).
    { eapply Forall_impl; [|exact Hg]. intros v. apply good_kept; [reflexivity | exact K1]. }
    destruct (count_minus rules vs st1 N1 B1 G1 M) as (st' & C).
    { intros c b1 Lb1. destruct (keeps_back _ _ _ _ K1 Lb1) as (b & Lb & _). rewrite (Rec _ _ _ Lb Lb1).
      rewrite (dvotes_reg st st1) by reflexivity. destruct (Hr _ _ Lb) as (E & _). specialize (D c).
      assert (Fv : votes_for st c (list_of st (a_regid a)) <= all_votes_for st c).
      { pose proof (fval_le_msum regid_eqb regid_eqb_ok (votes_for st c) (v_lists st) (a_regid a) Hd) as Q.
        unfold fval in Q. unfold list_of, VoteSpec.all_votes_for.
        destruct (fget regid_eqb (v_lists st) (a_regid a)); [exact Q | cbn; lia]. }
      lia. }
    pose proof (count_votes_ok _ _ _ _ N1 B1 G1 C) as (Rg & Ls & _ & _ & K2 & X2).
    assert (La1 : l_get (v_ledger st1) k = Some (stamp e a2)).
    { cbn [st1 set_list set_vledger v_ledger]. rewrite lget_put, N.eqb_refl. reflexivity. }
    destruct (proj1 K2 _ _ La1) as (a' & La' & _). destruct (X2 _ _ _ La1 La') as (Tk & _ & _).
    exists st', a'. split.
    { unfold VoteModel.cast. rewrite La, Pr. exact C. }
    split; [exact La'|]. split; [|split].
    - unfold list_of at 1. rewrite Ls.
      change (match fget regid_eqb (v_lists st1) (a_regid a) with Some l => l | None => [] end) with (list_of st1 (a_regid a)).
      unfold st1. rewrite list_of_set, (proj2 (regid_eqb_ok _ _) eq_refl). reflexivity.
    - intros R2. rewrite R2 in *.
      assert (T1 : bal a' "WICC" BVoted = bal a2 "WICC" BVoted) by (unfold bal, get_token; rewrite Tk; reflexivity).
      assert (T2 : bal a' "WICC" BFree = bal a2 "WICC" BFree) by (unfold bal, get_token; rewrite Tk; reflexivity).
      rewrite T1, T2, V2, V1, (F2 eq_refl), F1, !Same, Lv, Vt. unfold locked. lia.
    - intros c b b' Lb Lb'. destruct (proj1 K1 _ _ Lb) as (b1 & Lb1 & _).
      destruct (X2 _ _ _ Lb1 Lb') as (_ & _ & Q). rewrite Q, (Rec _ _ _ Lb Lb1), (dvotes_reg st st1) by reflexivity.
      reflexivity.
  Qed.

  (** What the checks ask of votes to be taken back: under the rules of the second release the
      candidate has to have a public key on record. *)
  Definition has_key (st : vstate) (u : uid) : Prop :=
    v_r2 st = true -> exists c, account_of st u = Some c /\ a_pubkey c <> None.

  Lemma minus_checked e st v : names_ok st -> vote_good st v -> w_type v = 2 -> has_key st (w_uid v) ->
    vote_ok pk_keyid e st v = true.
  Proof.
    intros Hn (Gk & Gv) T Hk. unfold vote_ok, MAX_BCOINS. destruct (known_account _ _ Hn Gk) as (c & Ac & _).
    rewrite Ac, T. change (2 =? 1) with false. cbn [andb negb].
    replace (w_votes v =? 0) with false by lia. replace (w_votes v <=? 21000000000000000) with true by lia.
    destruct Gk as (X & _).
    replace (match w_uid v with UReg _ | UPub _ => true | _ => false end) with true by (destruct (w_uid v); auto; contradiction).
    unfold has_key in Hk. destruct (v_r2 st); [|reflexivity].
    destruct (Hk eq_refl) as (c' & Ac' & Pc). assert (c' = c) by congruence. subst c'.
    destruct (a_pubkey c); [reflexivity | congruence].
  Qed.

  Lemma tx_back e st k a vs l1 : votes_ok st -> l_get (v_ledger st) k = Some a ->
    regid_empty (a_regid a) = false -> Forall (vote_good st) vs -> minus_only vs ->
    vs <> [] -> (List.length vs <= 22)%nat -> Forall (fun v => has_key st (w_uid v)) vs ->
    apply_votes st (list_of st (a_regid a)) vs = Some l1 ->
    a_last_vote_height a <= x_height e -> interest_ok e st a ->
    bal a "WICC" BFree + bal a "WICC" BVoted < two64 ->
    exists st' a', vote_tx e st k vs = Some st' /\ l_get (v_ledger st') k = Some a' /\
      list_of st' (a_regid a) = arrange l1 /\
      (v_r2 st = true -> bal a "WICC" BVoted = bal a' "WICC" BVoted + amount vs /\
                         bal a' "WICC" BFree = bal a "WICC" BFree + amount vs) /\
      forall c b b', l_get (v_ledger st) c = Some b -> l_get (v_ledger st') c = Some b' ->
        Z.of_N (a_received_votes b') = (Z.of_N (a_received_votes b) + dvotes st c vs)%Z.
  Proof.
    intros Hv La Re Hg M Ne Sz Hk Ap Hh Hi Hf.
    destruct (cast_back false e st k a vs l1 Hv La Re Hg M Ap Hh Hi Hf) as (st' & a' & C & Rest).
    exists st', a'. split; [|exact Rest]. unfold VoteModel.vote_tx. rewrite La, Re.
    assert (X : check_votes pk_keyid e st vs = true).
    { unfold check_votes, MAX_CANDIDATES. rewrite (proj2 (PeanoNat.Nat.leb_le _ _) Sz).
      destruct vs as [|v vs]; [congruence|]. cbn [negb andb]. apply forallb_forall. intros w Hw.
      rewrite Forall_forall in Hg, Hk. apply minus_checked; [apply Hv | apply Hg; exact Hw | | apply Hk; exact Hw].
      unfold minus_only in M. rewrite Forall_forall in M. apply M. exact Hw. }
    rewrite X. cbn [negb andb]. exact C.
  Qed.

  Lemma take_all st : names_ok st -> forall l, NoDup (map (fun y => target st (fst y)) l) ->
    Forall (fun y => known st (fst y)) l -> Forall (fun y => 0 < snd y <= 21000000000000000) l ->
    apply_votes st l (map (fun y => mkVote 2 (fst y) (snd y)) l) = Some [].
  Proof.
    intros Hn. induction l as [|(u, m) l IH]; cbn [map VoteModel.apply_votes fst snd]; intros Nd Kn Am; [reflexivity|].
    apply Forall_cons_iff in Am. destruct Am as (Am1 & Am2). cbn [snd] in Am1.
    apply Forall_cons_iff in Kn. destruct Kn as (Ku & Kn). cbn [fst] in Ku.
    assert (M2 : matches st u u = true) by (apply matches_iff; [assumption.. | reflexivity]).
    unfold VoteModel.apply_vote at 1. cbn [w_type w_uid w_votes VoteModel.find_entry].
    change (2 =? 1) with false. change (2 =? 2) with true. cbv iota. rewrite M2.
    replace (in_range m && (m <=? m)) with true by (unfold in_range, MAX_BCOINS; lia).
    replace (m - m =? 0) with true by lia. cbn [app].
    inversion Nd; subst. apply IH; assumption.
  Qed.

  Lemma take_one st l u n w : names_ok st -> listed st l -> In (u, n) l -> 0 < w <= n ->
    exists l', apply_votes st l [mkVote 2 u w] = Some l'.
  Proof.
    intros Hn (_ & La & Ld & Lk) Hin Hw. cbn [VoteModel.apply_votes]. unfold VoteModel.apply_vote.
    cbn [w_type w_uid w_votes]. change (2 =? 1) with false. change (2 =? 2) with true. cbv iota.
    rewrite Forall_forall in La, Lk. pose proof (La _ Hin) as An. pose proof (Lk _ Hin) as Ku. cbn [fst snd] in An, Ku.
    destruct (find_entry st u l) as [((x, (w0, m)), z)|] eqn:F.
    - destruct (find_some _ _ _ _ _ _ _ F) as (-> & M).
      assert (Hm : In (w0, m) (x ++ (w0, m) :: z)) by (apply in_or_app; right; left; reflexivity).
      apply matches_iff in M; [|exact Hn | exact Ku | apply (Lk _ Hm)].
      assert (Eq : (u, n) = (w0, m)).
      { assert (Inj : forall (ll : list (uid * N)) y1 y2, NoDup (map (fun y => target st (fst y)) ll) ->
                        In y1 ll -> In y2 ll -> target st (fst y1) = target st (fst y2) -> y1 = y2).
        { clear. induction ll as [|y ll IH]; intros y1 y2 Nd H1 H2 E; [contradiction|].
          cbn [map] in Nd. inversion Nd as [|? ? Hno Nd']; subst. destruct H1 as [<-|H1], H2 as [<-|H2].
          - reflexivity.
          - exfalso. apply Hno. rewrite E. apply (in_map (fun y => target st (fst y))). exact H2.
          - exfalso. apply Hno. rewrite <- E. apply (in_map (fun y => target st (fst y))). exact H1.
          - apply IH; assumption. }
        apply (Inj _ _ _ Ld Hin Hm). exact M. }
      injection Eq as <- <-. replace (in_range w && (w <=? n)) with true; [eauto|].
      unfold in_range, MAX_BCOINS. lia.
    - apply find_none in F. rewrite Forall_forall in F. specialize (F _ Hin). cbn [fst] in F.
      rewrite (proj2 (matches_iff st u u Hn Ku Ku) eq_refl) in F. discriminate.
  Qed.
End Proofs.

(** *** The list of the top *)

Lemma insert_perm x l : Permutation (x :: l) (insert_rank x l).
Proof.
  induction l as [|y l IH]; cbn [insert_rank]; [reflexivity|].
  destruct (rank_leb x y); [reflexivity|].
  eapply perm_trans; [apply perm_swap|]. apply perm_skip. exact IH.
Qed.

Lemma ranking_perm st : Permutation (keys (v_rank st)) (ranking st).
Proof.
  unfold ranking, keys. induction (map fst (v_rank st)) as [|x l IH]; cbn [fold_right]; [reflexivity|].
  eapply perm_trans; [apply perm_skip; exact IH | apply insert_perm].
Qed.

Lemma bytes_ltb_irrefl x : bytes_ltb x x = false.
Proof. induction x as [|a x IH]; cbn [bytes_ltb]; [reflexivity|]. rewrite N.eqb_refl. exact IH. Qed.
Lemma bytes_ltb_trans : forall x y z, bytes_ltb x y = true -> bytes_ltb y z = true -> bytes_ltb x z = true.
Proof.
  induction x as [|a x IH]; intros [|b y] [|c z]; cbn [bytes_ltb]; try discriminate; auto.
  destruct (a =? b) eqn:E1, (b =? c) eqn:E2, (a =? c) eqn:E3; try lia. apply IH.
Qed.
Lemma bytes_ltb_total : forall x y, bytes_ltb x y = false -> bytes_ltb y x = false -> x = y.
Proof.
  induction x as [|a x IH]; intros [|b y]; cbn [bytes_ltb]; try discriminate; auto.
  destruct (a =? b) eqn:E1.
  - apply N.eqb_eq in E1. subst b. rewrite N.eqb_refl. intros. f_equal. apply IH; assumption.
  - rewrite (N.eqb_sym b a), E1. lia.
Qed.
Lemma bytes_leb_trans x y z : bytes_ltb y x = false -> bytes_ltb z y = false -> bytes_ltb z x = false.
Proof.
  intros H1 H2. destruct (bytes_ltb z x) eqn:E; [|reflexivity].
  destruct (bytes_ltb x y) eqn:F.
  - rewrite (bytes_ltb_trans _ _ _ E F) in H2. discriminate.
  - rewrite (bytes_ltb_total _ _ F H1) in E. congruence.
Qed.

Definition rle (x y : N * regid) : Prop := rank_leb x y = true.
Lemma rle_total x y : rank_leb x y = false -> rle y x.
Proof.
  unfold rle, rank_leb. rewrite (N.eqb_sym (fst y) (fst x)). destruct (fst x =? fst y) eqn:E; [|lia].
  destruct (bytes_ltb (regid_raw (snd y)) (regid_raw (snd x))) eqn:F; [|discriminate]. intros _.
  destruct (bytes_ltb (regid_raw (snd x)) (regid_raw (snd y))) eqn:G; [|reflexivity].
  pose proof (bytes_ltb_trans _ _ _ F G) as X. rewrite bytes_ltb_irrefl in X. discriminate.
Qed.
Lemma rle_trans x y z : rle x y -> rle y z -> rle x z.
Proof.
  unfold rle, rank_leb. destruct (fst x =? fst y) eqn:E1, (fst y =? fst z) eqn:E2, (fst x =? fst z) eqn:E3; try lia.
  rewrite !negb_true_iff. apply bytes_leb_trans.
Qed.
Lemma rle_fst x y : rle x y -> fst x <= fst y.
Proof. unfold rle, rank_leb. destruct (fst x =? fst y) eqn:E; lia. Qed.

Lemma insert_sorted x l : StronglySorted rle l -> StronglySorted rle (insert_rank x l).
Proof.
  induction 1 as [|y l S IH F]; cbn [insert_rank]; [repeat constructor|].
  destruct (rank_leb x y) eqn:E.
  - constructor; [constructor; assumption|]. constructor; [exact E|].
    eapply Forall_impl; [|exact F]. intros z. apply rle_trans. exact E.
  - constructor; [exact IH|]. apply (Permutation_Forall (insert_perm x l)). constructor; [|exact F].
    apply rle_total. exact E.
Qed.
Lemma ranking_sorted st : StronglySorted rle (ranking st).
Proof.
  unfold ranking. induction (map fst (v_rank st)) as [|x l IH]; cbn [fold_right]; [constructor|].
  apply insert_sorted. exact IH.
Qed.

Lemma sorted_unique {A} (R : A -> A -> Prop) : forall l1 l2,
  (forall x y, In x l1 -> In y l1 -> R x y -> R y x -> x = y) ->
  StronglySorted R l1 -> StronglySorted R l2 -> Permutation l1 l2 -> l1 = l2.
Proof.
  induction l1 as [|x l1 IH]; intros l2 An S1 S2 P.
  - apply Permutation_nil in P. congruence.
  - destruct l2 as [|y l2]; [apply Permutation_sym, Permutation_nil in P; discriminate|].
    inversion S1 as [|? ? S1' F1]; subst. inversion S2 as [|? ? S2' F2]; subst.
    assert (E : x = y).
    { assert (Hy : In y (x :: l1)) by (eapply Permutation_in; [apply Permutation_sym; exact P | left; reflexivity]).
      assert (Hx : In x (y :: l2)) by (eapply Permutation_in; [exact P | left; reflexivity]).
      destruct Hy as [Hy|Hy]; [exact Hy|]. destruct Hx as [Hx|Hx]; [congruence|].
      rewrite Forall_forall in F1, F2. apply An; [left; reflexivity | right; exact Hy | apply F1; exact Hy | apply F2; exact Hx]. }
    subst y. f_equal. apply IH; try assumption.
    + intros a b Ha Hb. apply An; right; assumption.
    + apply Permutation_cons_inv in P. exact P.
Qed.

Definition shown (x : N * regid) : regid * N := (snd x, two64 - 1 - fst x).

Lemma take_top_spec min : forall l n, StronglySorted rle l -> exists p q,
  l = p ++ q /\ take_top n min l = map shown p /\ (List.length p <= n)%nat /\
  Forall (fun x => match min with Some m => m <= snd (shown x) | None => True end) p /\
  (List.length p = n \/ Forall (fun x => match min with Some m => snd (shown x) < m | None => False end) q).
Proof.
  induction l as [|(key, r) l IH]; intros [|n] S; cbn [take_top].
  - exists [], []. repeat split; auto.
  - exists [], []. repeat split; auto with arith.
  - exists [], ((key, r) :: l). repeat split; auto.
  - inversion S as [|? ? S' F]; subst. destruct (IH n S') as (p & q & -> & -> & Sz & Fp & D).
    destruct (match min with Some m => two64 - 1 - key <? m | None => false end) eqn:E.
    + exists [], ((key, r) :: p ++ q). repeat split; auto with arith.
      right. destruct min as [m|]; [|discriminate]. constructor; [cbn [shown snd fst]; lia|].
      eapply Forall_impl; [|exact F]. intros y Hy. apply rle_fst in Hy. cbn [shown snd fst] in *. lia.
    + exists ((key, r) :: p), q. repeat split; cbn [List.length]; auto with arith.
      * constructor; [|exact Fp]. destruct min as [m|]; [cbn [shown snd fst]; lia | exact I].
      * destruct D as [D|D]; [left; congruence | right; exact D].
Qed.

Lemma strongly_sorted_app {A} (R : A -> A -> Prop) : forall l1 l2, StronglySorted R (l1 ++ l2) ->
  StronglySorted R l1 /\ forall x y, In x l1 -> In y l2 -> R x y.
Proof.
  induction l1 as [|a l1 IH]; cbn [app]; intros l2 S; [split; [constructor | contradiction]|].
  inversion S as [|? ? S' F]; subst. destruct (IH _ S') as (A1 & A2). rewrite Forall_app in F. destruct F as (F1 & F2).
  split; [constructor; assumption|]. intros x y [<-|Hx] Hy; [|auto]. rewrite Forall_forall in F2. auto.
Qed.

Lemma top_ok st n min (r3 : bool) :
  (forall k a, l_get (v_ledger st) k = Some a -> a_received_votes a <= MAX_BCOINS) ->
  (forall k1 k2 a1 a2, l_get (v_ledger st) k1 = Some a1 -> l_get (v_ledger st) k2 = Some a2 ->
     regid_empty (a_regid a1) = false -> a_regid a1 = a_regid a2 -> k1 = k2) ->
  rank_current st -> rank_complete st ->
  top_of st n (if r3 then Some min else None)
    (match top_delegates st n min r3 with Some l => l | None => [] end).
Proof.
  intros Hb Hu (Nd & Hc) Hm. set (mn := if r3 then Some min else None).
  assert (E : match top_delegates st n min r3 with Some l => l | None => [] end =
              take_top (N.to_nat n) mn (ranking st)).
  { unfold top_delegates. fold mn. destruct (take_top (N.to_nat n) mn (ranking st)); reflexivity. }
  rewrite E. clear E.
  destruct (take_top_spec mn (ranking st) (N.to_nat n) (ranking_sorted st)) as (p & q & El & -> & Sz & Fp & D).
  pose proof (ranking_perm st) as P. pose proof (ranking_sorted st) as S. rewrite El in P, S.
  destruct (strongly_sorted_app _ _ _ S) as (Sp & Cross).
  assert (Cur : forall x, In x (p ++ q) -> regid_empty (snd x) = false /\
            exists k a, l_get (v_ledger st) k = Some a /\ a_regid a = snd x /\
                        fst x = 18446744073709551615 - a_received_votes a).
  { intros (m, r) Hx. apply Hc. eapply Permutation_in; [apply Permutation_sym; exact P | exact Hx]. }
  assert (Val : forall x k a, l_get (v_ledger st) k = Some a -> fst x = 18446744073709551615 - a_received_votes a ->
            snd (shown x) = a_received_votes a).
  { intros x k a La Ex. pose proof (Hb _ _ La) as B. unfold shown, two64, MAX_BCOINS in *. cbn [snd]. clear - Ex B. lia. }
  split; [|split; [|split; [|split]]].
  - clear - Sp. induction Sp as [|x l S IH F]; cbn [map]; constructor; [exact IH|].
    apply Forall_forall. intros y Hy. apply in_map_iff in Hy. destruct Hy as (z & <- & Hz).
    rewrite Forall_forall in F. specialize (F _ Hz). apply rle_fst in F. unfold shown. cbn [snd]. clear - F. lia.
  - rewrite map_map. cbn [shown fst].
    assert (Ndl : NoDup (p ++ q)) by (eapply Permutation_NoDup; eauto).
    assert (Np : NoDup p) by (clear - Ndl; induction p; [constructor|]; cbn [app] in Ndl; inversion Ndl; subst;
                              constructor; [intros X; apply H1; apply in_or_app; left; exact X | auto]).
    assert (Cp : forall x, In x p -> regid_empty (snd x) = false /\
            exists k a, l_get (v_ledger st) k = Some a /\ a_regid a = snd x /\
                        fst x = 18446744073709551615 - a_received_votes a).
    { intros x Hx. apply Cur. apply in_or_app. left. exact Hx. }
    clear - Np Cp Hu. induction Np as [|x p Hno Np IH]; cbn [map]; constructor.
    + intros Hin. apply in_map_iff in Hin. destruct Hin as (y & Ey & Hy). apply Hno.
      destruct (Cp x (or_introl eq_refl)) as (Rx & kx & ax & Lx & Gx & Nx).
      destruct (Cp y (or_intror Hy)) as (Ry & ky & ay & Ly & Gy & Ny).
      assert (kx = ky) by (apply (Hu kx ky ax ay); try assumption; congruence). subst ky.
      assert (x = y); [|congruence]. destruct x, y. cbn [fst snd] in *. congruence.
    + apply IH. intros y Hy. apply Cp. right. exact Hy.
  - rewrite map_length. lia.
  - intros r v Hin. apply in_map_iff in Hin. destruct Hin as (x & Ex & Hx).
    destruct (Cur x) as (Rx & k & a & La & Ga & Na); [apply in_or_app; left; exact Hx|].
    pose proof (Val _ _ _ La Na) as Vx. pose proof Ex as Ex'. apply (f_equal snd) in Ex'. cbn [snd] in Ex'.
    apply (f_equal fst) in Ex. cbn [fst shown] in Ex. rewrite <- Ex' , <- Ex. split.
    + rewrite Forall_forall in Fp. apply (Fp _ Hx).
    + split; [exact Rx|]. exists k, a. split; [exact La|]. split; [exact Ga|]. congruence.
  - intros k a La Ra Rp Mn Not.
    pose proof (Hm _ _ La Ra Rp) as Hin. apply (Permutation_in _ P) in Hin.
    set (x := (18446744073709551615 - a_received_votes a, a_regid a)) in *.
    pose proof (Val x _ _ La eq_refl) as Vx.
    apply in_app_or in Hin. destruct Hin as [Hin|Hin].
    { exfalso. apply Not. apply in_map_iff. exists x. split; [|exact Hin]. unfold shown in *. cbn [snd] in Vx.
      rewrite Vx. reflexivity. }
    destruct D as [D|D].
    + split; [rewrite map_length, D; lia|]. apply Forall_forall. intros y Hy. apply in_map_iff in Hy.
      destruct Hy as (z & <- & Hz). pose proof (Cross _ _ Hz Hin) as R. apply rle_fst in R.
      rewrite <- Vx. unfold shown. cbn [snd]. clear - R. lia.
    + exfalso. rewrite Forall_forall in D. specialize (D _ Hin). unfold at_least in Mn. destruct mn; [|exact D].
      rewrite Vx in D. clear - D Mn. lia.
Qed.

Lemma regid_raw_inj r s : regid_ok r -> regid_ok s -> regid_raw r = regid_raw s -> r = s.
Proof.
  intros Hr Hs E. apply regid_raw_round_trip in Hr. apply regid_raw_round_trip in Hs.
  rewrite E in Hr. congruence.
Qed.

Lemma top_same st1 st2 n min r3 :
  NoDup (keys (v_rank st1)) -> NoDup (keys (v_rank st2)) ->
  (forall x, In x (keys (v_rank st1)) <-> In x (keys (v_rank st2))) ->
  (forall x, In x (keys (v_rank st1)) -> regid_ok (snd x)) ->
  top_delegates st1 n min r3 = top_delegates st2 n min r3.
Proof.
  intros N1 N2 E Ok. assert (P : Permutation (ranking st1) (ranking st2)).
  { eapply perm_trans; [apply Permutation_sym, ranking_perm|]. eapply perm_trans; [|apply ranking_perm].
    apply NoDup_Permutation; assumption. }
  assert (X : ranking st1 = ranking st2).
  { apply (sorted_unique rle); [|apply ranking_sorted | apply ranking_sorted | exact P].
    intros x y Hx Hy A B. pose proof (rle_fst _ _ A). pose proof (rle_fst _ _ B).
    apply (Permutation_in _ (Permutation_sym (ranking_perm st1))) in Hx, Hy. apply Ok in Hx, Hy.
    destruct x as (m, r), y as (m', s). cbn [fst snd] in *. assert (m' = m) by lia. subst m'. f_equal.
    unfold rle, rank_leb in A, B. cbn [fst snd] in A, B. rewrite N.eqb_refl, negb_true_iff in A, B.
    apply regid_raw_inj; auto. apply bytes_ltb_total; assumption. }
  unfold top_delegates. now rewrite X.
Qed.
