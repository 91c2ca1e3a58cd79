(** Voting: C09 (vote lists and locked coins), C54 (received votes), C55 (taking votes back),
    C10 (the ranking).

    Hypotheses throughout: no two public keys have the same key id ([pk_keyid] injective), and
    sorting sorts ([sorts], whatever it does to equal elements). *)
From Coq Require Import String List Bool NArith ZArith Lia Sorting.Sorted Permutation.
From Verif Require Import Prelude PreludeFacts AccountModel AccountSpec AccountProofs TxModel TxProofs
  CodecModel CodecSpec VoteModel VoteSpec VoteProofs.
Import ListNotations.
Open Scope N_scope.

Definition injective (f : N -> N) : Prop := forall p q, f p = f q -> p = q.

(** Whatever happens, every voter's list is in order (descending, at most 22 candidates, nobody
    twice under different names, all amounts positive, all candidates existing) and locks up
    exactly the coins it needs; nobody else has coins locked up. *)
Theorem c09_votes_in_order : forall pk_keyid fi bi arrange st st',
  injective pk_keyid -> sorts arrange -> votes_ok pk_keyid st ->
  vreaches pk_keyid fi bi arrange anything st st' ->
  (forall k a, l_get (v_ledger st') k = Some a -> regid_empty (a_regid a) = false ->
     list_ok pk_keyid st' (list_of st' (a_regid a)) /\
     bal a "WICC" BVoted = locked (v_r2 st') (list_of st' (a_regid a))) /\
  (forall k a, l_get (v_ledger st') k = Some a -> regid_empty (a_regid a) = true ->
     bal a "WICC" BVoted = 0).
Proof.
  intros pk fi bi ar st st' Hi Hs Hv Hr.
  destruct (reaches_votes pk fi bi ar Hi Hs anything st st' Hv Hr) as [_ A B _ _]. split; assumption.
Qed.
Print Assumptions c09_votes_in_order.

(** The change of rules leaves every voter with at most one candidate. *)
Theorem c09_rules_change : forall pk_keyid fi bi arrange e st st',
  injective pk_keyid -> sorts arrange -> votes_ok pk_keyid st ->
  new_rules pk_keyid fi bi arrange e st = Some st' ->
  votes_ok pk_keyid st' /\ v_r2 st' = true /\ forall r, (List.length (list_of st' r) <= 1)%nat.
Proof.
  intros pk fi bi ar e st st' Hi Hs Hv H.
  destruct (rules_ok pk fi bi ar Hi Hs e st st' Hv H) as (A & _ & B & C & _). auto.
Qed.
Print Assumptions c09_rules_change.

(** Every account has received the votes of all lists for it, no more and no less. *)
Theorem c54_received_votes : forall pk_keyid fi bi arrange st st',
  injective pk_keyid -> sorts arrange -> votes_ok pk_keyid st ->
  vreaches pk_keyid fi bi arrange anything st st' ->
  forall k a, l_get (v_ledger st') k = Some a ->
    a_received_votes a = all_votes_for pk_keyid st' k /\ a_received_votes a <= 21000000000000000.
Proof.
  intros pk fi bi ar st st' Hi Hs Hv Hr.
  destruct (reaches_votes pk fi bi ar Hi Hs anything st st' Hv Hr) as [_ _ _ _ A]. exact A.
Qed.
Print Assumptions c54_received_votes.

(** A voter can take back any part of their votes for a candidate; under the rules of the second
    release the candidate has to have a public key on record. The coins are free again and the
    candidate has that much fewer votes. *)
Theorem c55_votes_back : forall pk_keyid fi bi arrange e st k a u n w,
  injective pk_keyid -> sorts arrange -> votes_ok pk_keyid st ->
  l_get (v_ledger st) k = Some a -> regid_empty (a_regid a) = false ->
  In (u, n) (list_of st (a_regid a)) -> 0 < w <= n ->
  (v_r2 st = true -> exists c, account_of pk_keyid st u = Some c /\ a_pubkey c <> None) ->
  a_last_vote_height a <= x_height e ->
  (v_r2 st = true \/
   bi (bal a "WICC" BVoted) (a_last_vote_height a) (x_height e) <= 21000000000000000) ->
  bal a "WICC" BFree + bal a "WICC" BVoted < 18446744073709551616 ->
  exists st' a', vote_tx pk_keyid fi bi arrange e st k [mkVote 2 u w] = Some st' /\
    l_get (v_ledger st') k = Some a' /\
    (v_r2 st = true -> bal a' "WICC" BFree = bal a "WICC" BFree + w /\
                       bal a "WICC" BVoted = bal a' "WICC" BVoted + w) /\
    forall c b b', target pk_keyid st u = Some c ->
      l_get (v_ledger st) c = Some b -> l_get (v_ledger st') c = Some b' ->
      a_received_votes b = a_received_votes b' + w.
Proof.
  intros pk fi bi ar e st k a u n w Hi Hs Hv La Re Hin Hw Hk Hh Hint Hf.
  destruct (vk_voters _ _ Hv _ _ La Re) as (Lk & _). pose proof Lk as Lk0. apply list_ok_iff in Lk0.
  destruct Lk0 as (_ & Li). pose proof (vk_names _ _ Hv) as Hn.
  destruct (take_one pk fi bi Hi st _ u n w Hn Li Hin Hw) as (l1 & Ap).
  assert (G : Forall (vote_good pk st) [mkVote 2 u w]).
  { constructor; [|constructor]. destruct Li as (_ & Am & _ & Kn). rewrite Forall_forall in Am, Kn.
    pose proof (Am _ Hin) as X. pose proof (Kn _ Hin) as Y. split; [exact Y|]. cbn [w_votes snd] in *. lia. }
  destruct (tx_back pk fi bi ar Hi Hs e st k a [mkVote 2 u w] l1) as (st' & a' & T & La' & _ & R2 & Rc);
    try assumption.
  - constructor; [reflexivity | constructor].
  - discriminate.
  - cbn. lia.
  - constructor; [exact Hk | constructor].
  - exists st', a'. split; [exact T|]. split; [exact La'|]. split.
    + intros X. destruct (R2 X) as (A & B). unfold amount in *. cbn [map nsum w_votes] in *. lia.
    + intros c b b' Tc Lb Lb'. specialize (Rc _ _ _ Lb Lb'). cbn [dvotes] in Rc. unfold dvote, is_for in Rc.
      cbn [w_uid w_type w_votes] in Rc. rewrite Tc, N.eqb_refl in Rc. change (2 =? 1) with false in Rc.
      cbv iota in Rc. lia.
Qed.
Print Assumptions c55_votes_back.

(** ... or all of them at once. *)
Theorem c55_all_votes_back : forall pk_keyid fi bi arrange e st k a,
  injective pk_keyid -> sorts arrange -> votes_ok pk_keyid st ->
  l_get (v_ledger st) k = Some a -> regid_empty (a_regid a) = false ->
  list_of st (a_regid a) <> [] ->
  (v_r2 st = true -> Forall (fun x => exists c, account_of pk_keyid st (fst x) = Some c /\
                                                a_pubkey c <> None) (list_of st (a_regid a))) ->
  a_last_vote_height a <= x_height e ->
  (v_r2 st = true \/
   bi (bal a "WICC" BVoted) (a_last_vote_height a) (x_height e) <= 21000000000000000) ->
  bal a "WICC" BFree + bal a "WICC" BVoted < 18446744073709551616 ->
  exists st' a', vote_tx pk_keyid fi bi arrange e st k
                   (map (fun x => mkVote 2 (fst x) (snd x)) (list_of st (a_regid a))) = Some st' /\
    l_get (v_ledger st') k = Some a' /\ list_of st' (a_regid a) = [] /\
    (v_r2 st = true -> bal a' "WICC" BVoted = 0 /\
                       bal a' "WICC" BFree = bal a "WICC" BFree + bal a "WICC" BVoted).
Proof.
  intros pk fi bi ar e st k a Hi Hs Hv La Re Hne Hk Hh Hint Hf.
  destruct (vk_voters _ _ Hv _ _ La Re) as (Lk & Lv). pose proof (vk_names _ _ Hv) as Hn.
  set (l := list_of st (a_regid a)) in *.
  assert (Ap : apply_votes pk st l (map (fun x => mkVote 2 (fst x) (snd x)) l) = Some []).
  { apply (take_all pk fi bi Hi st Hn); apply Lk. }
  destruct (tx_back pk fi bi ar Hi Hs e st k a (map (fun x => mkVote 2 (fst x) (snd x)) l) [])
    as (st' & a' & T & La' & Ls & R2 & _); try assumption.
  - apply good_of_list. exact Lk.
  - apply Forall_forall. intros v Hin. apply in_map_iff in Hin. destruct Hin as (x & <- & _). reflexivity.
  - destruct l; [congruence | discriminate].
  - rewrite map_length. apply Lk.
  - apply Forall_forall. intros v Hin. apply in_map_iff in Hin. destruct Hin as (x & <- & Hx). intros Y.
    specialize (Hk Y). rewrite Forall_forall in Hk. exact (Hk _ Hx).
  - exists st', a'. split; [exact T|]. split; [exact La'|].
    assert (Nil : ar [] = []) by (destruct (Hs []) as (P & _); apply Permutation_nil in P; exact P).
    split; [rewrite Ls; exact Nil|]. intros Y. destruct (R2 Y) as (A & B).
    assert (Sum : amount (map (fun x => mkVote 2 (fst x) (snd x)) l) = bal a "WICC" BVoted).
    { rewrite Lv, Y. unfold amount, locked. rewrite map_map. reflexivity. }
    lia.
Qed.
Print Assumptions c55_all_votes_back.

(** Every entry of the ranking is that of a registered account and has the votes it has now; no
    account has two. *)
Theorem c10_ranking_current : forall pk_keyid fi bi arrange st st',
  injective pk_keyid -> sorts arrange -> votes_ok pk_keyid st -> rank_current st ->
  vreaches pk_keyid fi bi arrange anything st st' -> rank_current st'.
Proof. intros pk fi bi ar st st' Hi Hs. exact (reaches_rank pk fi bi ar Hi Hs anything st st'). Qed.
Print Assumptions c10_ranking_current.

(** Every registered account with votes is in the ranking, if accounts do not get votes before
    they get registered. *)
Theorem c10_ranking_complete : forall pk_keyid fi bi arrange st st',
  injective pk_keyid -> sorts arrange -> votes_ok pk_keyid st -> rank_complete st ->
  vreaches pk_keyid fi bi arrange registered_before_voted st st' -> rank_complete st'.
Proof. intros pk fi bi ar st st' Hi Hs. exact (reaches_complete pk fi bi ar Hi Hs st st'). Qed.
Print Assumptions c10_ranking_complete.

(** That condition takes care of itself under the rules of the second release, if there are no
    such accounts to begin with. *)
Theorem c10_second_release : forall pk_keyid fi bi arrange st st',
  injective pk_keyid -> sorts arrange -> votes_ok pk_keyid st -> rank_complete st ->
  (forall k a, l_get (v_ledger st) k = Some a -> (a_pubkey a <> None \/ 0 < a_received_votes a) ->
     regid_empty (a_regid a) = false) ->
  vreaches pk_keyid fi bi arrange second_release st st' -> rank_complete st'.
Proof.
  intros pk fi bi ar st st' Hi Hs Hv Hc Ho Hr. apply (reaches_second pk fi bi ar Hi Hs st st' Hv Ho Hc Hr).
Qed.
Print Assumptions c10_second_release.

(** Listing the top lists the top. *)
Theorem c10_top : forall pk_keyid st n min (r3 : bool),
  votes_ok pk_keyid st -> rank_current st -> rank_complete st ->
  top_of st n (if r3 then Some min else None)
    (match top_delegates st n min r3 with Some l => l | None => [] end).
Proof.
  intros pk st n min r3 Hv Hc Hm. apply top_ok; try assumption.
  - intros k a La. apply (vk_received _ _ Hv _ _ La).
  - intros k1 k2 a1 a2 L1 L2 R E. apply (same_regid pk st k1 k2 a1 a2); try assumption. apply Hv.
Qed.
Print Assumptions c10_top.

(** The list depends on the entries alone, also where votes are equal: nodes with the same
    entries list the same delegates in the same order. *)
Theorem c10_top_deterministic : forall st1 st2 n min r3,
  NoDup (keys (v_rank st1)) -> NoDup (keys (v_rank st2)) ->
  (forall x, In x (keys (v_rank st1)) <-> In x (keys (v_rank st2))) ->
  (forall x, In x (keys (v_rank st1)) -> regid_ok (snd x)) ->
  top_delegates st1 n min r3 = top_delegates st2 n min r3.
Proof. exact top_same. Qed.
Print Assumptions c10_top_deterministic.

(** ** Instances and counterexamples *)

Section Instance.
  (** A sorting function. *)
  Fixpoint ins (x : uid * N) (l : list (uid * N)) : list (uid * N) :=
    match l with
    | [] => [x]
    | y :: l' => if snd x <? snd y then y :: ins x l' else x :: l
    end.
  Definition isort (l : list (uid * N)) : list (uid * N) := fold_right ins [] l.

  Example isort_sorts : sorts isort.
  Proof.
    assert (P : forall x l, Permutation (x :: l) (ins x l)).
    { intros x. induction l as [|y l IH]; cbn [ins]; [reflexivity|]. destruct (snd x <? snd y); [|reflexivity].
      eapply perm_trans; [apply perm_swap | apply perm_skip; exact IH]. }
    intros l. induction l as [|x l (IH1 & IH2)]; [split; constructor|]. cbn [isort fold_right]. split.
    - eapply perm_trans; [apply perm_skip; exact IH1 | apply P].
    - fold (isort l). clear IH1. revert IH2. generalize (isort l) as m. clear l.
      induction 1 as [|y l S IH F]; cbn [ins]; [repeat constructor|].
      destruct (snd x <? snd y) eqn:E.
      + constructor; [exact IH|]. apply (Permutation_Forall (P x l)). constructor; [lia | exact F].
      + constructor; [constructor; assumption|]. constructor; [lia|].
        eapply Forall_impl; [|exact F]. cbv beta. intros z Hz. lia.
  Qed.

  Definition pk (p : N) : N := p.
  Example pk_inj : injective pk.
  Proof. intros p q H. exact H. Qed.
  Definition none3 (a b c : N) : N := 0.

  Definition acct (k : N) (r : N * N) (p : option N) (t : list (string * token)) (rec : N) : account :=
    mkAccount k r p t rec 0 0 0.
  Definition coins (n : N) : list (string * token) := [("WICC"%string, mkToken n 0 0 0 0)].

  (** Voters 1 and 2, who are registered, and account 3, which is not. *)
  Definition L0 : list (N * account) :=
    [(1, acct 1 (5, 1) (Some 1) (coins 1000) 0); (2, acct 2 (5, 2) (Some 2) (coins 1000) 0);
     (3, acct 3 (0, 0) None [] 0)].
  Definition s0 : vstate := mkV L0 [((5, 1), 1); ((5, 2), 2)] [] [] false.

  Ltac cases H := apply (fget_in N.eqb N_eqb_ok) in H; cbn in H;
    repeat destruct H as [H|H]; try contradiction; injection H as <- <-.

  Lemma s0_names : names_ok pk s0.
  Proof.
    split; [split|split; [|split]].
    - cbn. repeat (apply NoDup_cons; [cbn; intuition discriminate|]); apply NoDup_nil.
    - intros k a H. cases H; reflexivity.
    - intros r k. split.
      + intros H. apply (fget_in regid_eqb regid_eqb_ok) in H. cbn in H.
        repeat destruct H as [H|H]; try contradiction; injection H as <- <-;
          (split; [reflexivity|]); eexists; split; reflexivity.
      + intros (He & a & H & Hr). cases H; cbn in Hr; subst r; try reflexivity. discriminate.
    - intros k a p H. cases H; cbn; intros He Hp; unfold pk in Hp; subst; [reflexivity..|discriminate].
    - intros k a p H. cases H; cbn; intros [= <-]; reflexivity.
  Qed.

  Lemma s0_ok : votes_ok pk s0.
  Proof.
    constructor.
    - exact s0_names.
    - intros k a H He. cases H; try discriminate; (split; [apply nil_ok | reflexivity]).
    - intros k a H He. cases H; try discriminate; reflexivity.
    - split; [constructor|]. intros r l H. discriminate.
    - intros k a H. cases H; (split; [reflexivity | cbn; lia]).
  Qed.

  Lemma s0_rank : rank_current s0 /\ rank_complete s0.
  Proof.
    split; [split; [constructor | intros n r []]|]. intros k a H He Hp. cases H; cbn in Hp; lia.
  Qed.

  Notation reach := (vreaches pk none3 none3 isort).
  Notation stepf := (vstep pk none3 none3 isort).

  Lemma one allowed st1 st2 st3 a : reach allowed st1 st2 ->
    (forall st', a = VElse st' -> velsewhere pk st2 st') -> allowed st2 a -> stepf st2 a = Some st3 ->
    reach allowed st1 st3.
  Proof. intros H1 H2 H3 H4. econstructor; eauto. Qed.

  Definition e0 : venv := mkVenv 10 1000 false.
  Definition get (o : option vstate) : vstate := match o with Some s => s | None => s0 end.

  (** Voter 1 votes for themself (300, by public key), for voter 2 (200) and for account 3 (250);
      voter 2 for voter 1 (100) twice, by different names. *)
  Definition a1 : vaction := VVote e0 1 [mkVote 1 (UPub 1) 300; mkVote 1 (UReg (5, 2)) 200; mkVote 1 (UPub 3) 250].
  Definition a2 : vaction := VVote e0 2 [mkVote 1 (UReg (5, 1)) 100; mkVote 1 (UPub 1) 100].
  Definition s1 : vstate := Eval vm_compute in get (stepf s0 a1).
  Definition s2 : vstate := Eval vm_compute in get (stepf s1 a2).

  Example s2_lists : list_of s2 (5, 1) = [(UPub 1, 300); (UPub 3, 250); (UReg (5, 2), 200)] /\
    list_of s2 (5, 2) = [(UReg (5, 1), 200)] /\
    (exists a, l_get (v_ledger s2) 1 = Some a /\ bal a "WICC" BVoted = 300 /\ a_received_votes a = 500) /\
    (exists a, l_get (v_ledger s2) 3 = Some a /\ a_received_votes a = 250) /\
    top_delegates s2 11 0 false = Some [((5, 1), 500); ((5, 2), 200)].
  Proof. vm_compute. repeat split; eexists; repeat split. Qed.

  Lemma s2_reached (allowed : vstate -> vaction -> Prop) : (forall st e k vs, allowed st (VVote e k vs)) -> reach allowed s0 s2.
  Proof.
    intros H. apply (one allowed s0 s1 s2 a2); [|discriminate | apply H | vm_compute; reflexivity].
    apply (one allowed s0 s0 s1 a1); [apply vreach_here | discriminate | apply H | vm_compute; reflexivity].
  Qed.

  Example s2_ok : votes_ok pk s2 /\ rank_current s2 /\ rank_complete s2.
  Proof.
    pose proof (s2_reached anything (fun _ _ _ _ => I)) as H.
    split; [|split].
    - exact (reaches_votes pk none3 none3 isort pk_inj isort_sorts anything s0 s2 s0_ok H).
    - exact (c10_ranking_current pk none3 none3 isort s0 s2 pk_inj isort_sorts s0_ok (proj1 s0_rank) H).
    - apply (c10_ranking_complete pk none3 none3 isort s0 s2 pk_inj isort_sorts s0_ok (proj2 s0_rank)).
      apply s2_reached. intros st e k vs st' X. discriminate.
  Qed.

  (** The change of rules: voter 1 keeps the first candidate; then the votes taken back. *)
  Definition s3 : vstate := Eval vm_compute in get (stepf s2 (VRules e0)).
  Example s3_lists : new_rules pk none3 none3 isort e0 s2 = Some s3 /\
    list_of s3 (5, 1) = [(UPub 1, 300)] /\ list_of s3 (5, 2) = [(UReg (5, 1), 200)] /\ v_r2 s3 = true /\
    top_delegates s3 11 0 false = Some [((5, 1), 500); ((5, 2), 0)].
  Proof. vm_compute. repeat split. Qed.
  Example s3_ok : votes_ok pk s3.
  Proof.
    apply (c09_rules_change pk none3 none3 isort e0 s2 s3 pk_inj isort_sorts (proj1 s2_ok)). vm_compute. reflexivity.
  Qed.

  Example s3_back : exists st' a', vote_tx pk none3 none3 isort e0 s3 1 [mkVote 2 (UPub 1) 120] = Some st' /\
    l_get (v_ledger st') 1 = Some a' /\ bal a' "WICC" BFree = 820 /\ bal a' "WICC" BVoted = 180.
  Proof.
    destruct (l_get (v_ledger s3) 1) as [a|] eqn:La; [|discriminate].
    destruct (c55_votes_back pk none3 none3 isort e0 s3 1 a (UPub 1) 300 120) as (st' & a' & T & La' & R & _).
    - exact pk_inj.
    - exact isort_sorts.
    - exact s3_ok.
    - exact La.
    - vm_compute in La. injection La as <-. reflexivity.
    - vm_compute in La. injection La as <-. left. reflexivity.
    - lia.
    - intros _. exists a. split; [exact La|]. vm_compute in La. injection La as <-. discriminate.
    - vm_compute in La. injection La as <-. cbn. lia.
    - left. reflexivity.
    - vm_compute in La. injection La as <-. reflexivity.
    - exists st', a'. split; [exact T|]. split; [exact La'|]. specialize (R eq_refl).
      vm_compute in La. injection La as <-. cbn in R. unfold bal in *. cbn in *. lia.
  Qed.

  Example s3_all_back : exists st' a', vote_tx pk none3 none3 isort e0 s3 1 [mkVote 2 (UPub 1) 300] = Some st' /\
    l_get (v_ledger st') 1 = Some a' /\ list_of st' (5, 1) = [] /\ bal a' "WICC" BFree = 1000.
  Proof.
    destruct (l_get (v_ledger s3) 1) as [a|] eqn:La; [|discriminate].
    destruct (c55_all_votes_back pk none3 none3 isort e0 s3 1 a) as (st' & a' & T & La' & Ls & R);
      try (vm_compute in La; injection La as <-).
    - exact pk_inj.
    - exact isort_sorts.
    - exact s3_ok.
    - reflexivity.
    - reflexivity.
    - discriminate.
    - intros _. constructor; [|constructor]. eexists. split; [reflexivity | discriminate].
    - cbn. lia.
    - left. reflexivity.
    - reflexivity.
    - exists st', a'. split; [exact T|]. split; [exact La'|]. split; [exact Ls|].
      specialize (R eq_refl). destruct R as (_ & ->). reflexivity.
  Qed.

  (** Account 3 gets registered. *)
  Definition registered3 (st : vstate) : vstate :=
    mkV (match l_get (v_ledger st) 3 with
         | Some a => l_put (v_ledger st) 3 (mkAccount 3 (7, 1) (Some 3) (a_tokens a) (a_received_votes a)
                       (a_last_vote_height a) (a_last_vote_epoch a) (a_perms a))
         | None => v_ledger st
         end) (fput regid_eqb (v_reg st) (7, 1) 3) (v_lists st) (v_rank st) (v_r2 st).
  Definition s4 : vstate := Eval vm_compute in registered3 s2.

  Lemma s4_else : velsewhere pk s2 s4.
  Proof.
    split; [|split; [reflexivity|split; [reflexivity|split; [reflexivity|split]]]].
    - split; [split|split; [|split]].
      + cbn. repeat (apply NoDup_cons; [cbn; intuition discriminate|]); apply NoDup_nil.
      + intros k a H. cases H; reflexivity.
      + intros r k. split.
        * intros H. apply (fget_in regid_eqb regid_eqb_ok) in H. cbn in H.
          repeat destruct H as [H|H]; try contradiction; injection H as <- <-;
            (split; [reflexivity|]); eexists; split; reflexivity.
        * intros (He & a & H & Hr). cases H; cbn in Hr; subst r; reflexivity.
      + intros k a p H. cases H; cbn; intros He Hp; unfold pk in Hp; subst; reflexivity.
      + intros k a p H. cases H; cbn; intros [= <-]; reflexivity.
    - intros k a H. cases H; eexists; (split; [reflexivity|]); repeat split; intros; try reflexivity; discriminate.
    - intros k a' H1 H2. cases H2; discriminate.
  Qed.

  (** Votes an account gets before it is registered do not count for the ranking, even after it
      is: account 3 has more votes than voter 2, but it is voter 2 who is listed. *)
  Theorem c10_unregistered_refuted : exists st,
    reach anything s0 st /\ ~ rank_complete st /\
    (exists a, l_get (v_ledger st) 3 = Some a /\ regid_empty (a_regid a) = false /\ a_received_votes a = 250) /\
    top_delegates st 2 0 false = Some [((5, 1), 500); ((5, 2), 200)].
  Proof.
    exists s4. split; [|split; [|split]].
    - apply (one anything s0 s2 s4 (VElse s4)); [apply s2_reached; intros; exact I | | exact I | reflexivity].
      intros st' [= <-]. exact s4_else.
    - intros H. assert (X : In (18446744073709551615 - 250, (7, 1)) (keys (v_rank s4))).
      { apply (H 3 (mkAccount 3 (7, 1) (Some 3) [] 250 0 0 0)); reflexivity. }
      cbn in X. repeat destruct X as [X|X]; try discriminate. exact X.
    - eexists. split; [vm_compute; reflexivity|]. split; reflexivity.
    - vm_compute. reflexivity.
  Qed.

  (** An account without votes can be listed: one that had votes, all of which were taken
      back. *)
  Theorem c10_zero_votes_refuted : exists st l,
    reach anything s0 st /\ top_delegates st 2 0 true = Some l /\ In ((5, 2), 0) l.
  Proof.
    exists s3, [((5, 1), 500); ((5, 2), 0)]. split; [|split].
    - apply (one anything s0 s2 s3 (VRules e0)); [apply s2_reached; intros; exact I | discriminate | exact I |].
      vm_compute. reflexivity.
    - vm_compute. reflexivity.
    - right. left. reflexivity.
  Qed.

  (** Votes given under the old rules to an account that is not registered cannot be taken back
      under the rules of the second release, whenever it is tried. *)
  Definition b1 : vaction := VVote e0 1 [mkVote 1 (UPub 3) 250].
  Definition s5 : vstate := Eval vm_compute in get (stepf s0 b1).
  Definition s6 : vstate := Eval vm_compute in get (stepf s5 (VRules e0)).
  Theorem c55_unregistered_refuted : exists st a,
    reach anything s0 st /\ l_get (v_ledger st) 1 = Some a /\ bal a "WICC" BVoted = 250 /\
    list_of st (a_regid a) = [(UPub 3, 250)] /\
    forall e w, vote_tx pk none3 none3 isort e st 1 [mkVote 2 (UPub 3) w] = None.
  Proof.
    exists s6. eexists. split; [|split; [vm_compute; reflexivity|split; [reflexivity|split; [reflexivity|]]]].
    - apply (one anything s0 s5 s6 (VRules e0)); [| discriminate | exact I | vm_compute; reflexivity].
      apply (one anything s0 s0 s5 b1); [apply vreach_here | discriminate | exact I | vm_compute; reflexivity].
    - intros e w. unfold vote_tx.
      assert (C : check_votes pk e s6 [mkVote 2 (UPub 3) w] = false).
      { unfold check_votes. cbn [forallb]. assert (X : vote_ok pk e s6 (mkVote 2 (UPub 3) w) = false).
        { unfold vote_ok. cbn [w_uid w_votes w_type]. change (account_of pk s6 (UPub 3)) with
            (Some (mkAccount 3 (0, 0) None [] 250 0 0 0)). cbn [a_pubkey]. change (v_r2 s6) with true.
          cbn [negb orb]. rewrite !andb_false_r. reflexivity. }
        rewrite X. rewrite andb_false_r. reflexivity. }
      destruct (l_get (v_ledger s6) 1); [|reflexivity]. rewrite C, andb_false_r. reflexivity.
  Qed.

  (** The hypotheses of the remaining theorems, met. *)
  Example s2_top : top_of s2 1 (Some 201)
    (match top_delegates s2 1 201 true with Some l => l | None => [] end) /\
    top_delegates s2 1 201 true = Some [((5, 1), 500)].
  Proof.
    destruct s2_ok as (A & B & C). split; [exact (c10_top pk s2 1 201 true A B C) | vm_compute; reflexivity].
  Qed.

  Example s2_deterministic :
    let st2 := set_rank s2 (rev (v_rank s2)) in
    v_rank st2 <> v_rank s2 /\ top_delegates st2 11 0 false = top_delegates s2 11 0 false.
  Proof.
    cbv zeta. split; [vm_compute; discriminate|]. apply c10_top_deterministic.
    - vm_compute. repeat (apply NoDup_cons; [cbn; intuition discriminate|]); apply NoDup_nil.
    - vm_compute. repeat (apply NoDup_cons; [cbn; intuition discriminate|]); apply NoDup_nil.
    - intros x. vm_compute. intuition.
    - intros x H. vm_compute in H. repeat destruct H as [H|H]; try contradiction; subst x; split; reflexivity.
  Qed.

  (** Under the new rules voter 2 votes for voter 1's account. *)
  Definition t0 : vstate := mkV [(1, acct 1 (5, 1) (Some 1) (coins 1000) 0); (2, acct 2 (5, 2) (Some 2) (coins 1000) 0)]
    [((5, 1), 1); ((5, 2), 2)] [] [] true.
  Definition t1 : vstate := Eval vm_compute in get (stepf t0 a2).
  Lemma t0_ok : votes_ok pk t0.
  Proof.
    constructor.
    - split; [split|split; [|split]].
      + cbn. repeat (apply NoDup_cons; [cbn; intuition discriminate|]); apply NoDup_nil.
      + intros k a H. cases H; reflexivity.
      + intros r k. split.
        * intros H. apply (fget_in regid_eqb regid_eqb_ok) in H. cbn in H.
          repeat destruct H as [H|H]; try contradiction; injection H as <- <-;
            (split; [reflexivity|]); eexists; split; reflexivity.
        * intros (He & a & H & Hr). cases H; cbn in Hr; subst r; reflexivity.
      + intros k a p H. cases H; cbn; intros He Hp; unfold pk in Hp; subst; reflexivity.
      + intros k a p H. cases H; cbn; intros [= <-]; reflexivity.
    - intros k a H He. cases H; (split; [apply nil_ok | reflexivity]).
    - intros k a H He. cases H; reflexivity.
    - split; [constructor|]. intros r l H. discriminate.
    - intros k a H. cases H; (split; [reflexivity | cbn; lia]).
  Qed.
  Example t1_complete : rank_complete t1 /\ keys (v_rank t1) = [(18446744073709551615 - 200, (5, 1))].
  Proof.
    split; [|reflexivity].
    apply (c10_second_release pk none3 none3 isort t0 t1 pk_inj isort_sorts t0_ok).
    - intros k a H He Hp. cases H; cbn in Hp; lia.
    - intros k a H _. cases H; reflexivity.
    - apply (one second_release t0 t0 t1 a2); [apply vreach_here | discriminate | | vm_compute; reflexivity].
      split; [reflexivity | discriminate].
  Qed.
End Instance.
Print Assumptions c10_unregistered_refuted.
Print Assumptions c10_zero_votes_refuted.
Print Assumptions c55_unregistered_refuted.
