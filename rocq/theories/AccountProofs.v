From Coq Require Import String List Bool NArith ZArith Lia.
From Coq Require Import ZifyBool ZifyNat ZifyN.
From Verif Require Import Prelude PreludeFacts AccountModel AccountSpec.
Import ListNotations.
Open Scope N_scope.

Lemma get_set_token a s t s' :
  get_token (set_token a s t) s' = if String.eqb s' s then t else get_token a s'.
Proof.
  unfold get_token, set_token; simpl. rewrite fget_put by apply String_eqb_ok.
  destruct (String.eqb s' s); auto.
Qed.

Lemma get_set_same a s t : get_token (set_token a s t) s = t.
Proof. rewrite get_set_token, String.eqb_refl. reflexivity. Qed.

Lemma bal_set a s t s' b :
  bal (set_token a s t) s' b = if String.eqb s' s then in_bucket b t else bal a s' b.
Proof. unfold bal. rewrite get_set_token. destruct (String.eqb s' s); auto. Qed.

Lemma set_get_same_bal a s : same_balances a (set_token a s (get_token a s)).
Proof.
  intros s' b. rewrite bal_set. destruct (String.eqb s' s) eqn:E; auto.
  apply String.eqb_eq in E; subst; auto.
Qed.

Lemma set_identity a s t : same_identity a (set_token a s t).
Proof. repeat split. Qed.

Lemma same_identity_trans a b c : same_identity a b -> same_identity b c -> same_identity a c.
Proof. unfold same_identity. intuition congruence. Qed.

Lemma same_identity_refl a : same_identity a a.
Proof. repeat split. Qed.

(** Where an operation leaves the identity fields. *)
Lemma operate_identity a s o v p : same_identity a (self' (operate_balance a s o v p)).
Proof.
  unfold operate_balance, internal_move, with_peer.
  destruct (match p with Peer b => _ | _ => false end); [apply set_identity|].
  destruct o, p; simpl;
    repeat match goal with |- context[if ?c then _ else _] => destruct c; simpl end;
    repeat split.
Qed.

Lemma operate_identity_peer a s o v b :
  exists b', peer' (operate_balance a s o v (Peer b)) = Peer b' /\ same_identity b b'.
Proof.
  unfold operate_balance, internal_move, with_peer.
  destruct (a_keyid a =? a_keyid b); [eexists; split; [reflexivity | apply same_identity_refl]|].
  destruct o; simpl;
    repeat match goal with |- context[if ?c then _ else _] => destruct c; simpl end;
    eexists; (split; [reflexivity | repeat split]).
Qed.

Definition distinct_peer (a : account) (p : peer) : Prop :=
  match p with Peer b => a_keyid a <> a_keyid b | _ => True end.

Lemma distinct_eqb a p : distinct_peer a p ->
  match p with Peer b => a_keyid a =? a_keyid b | _ => false end = false.
Proof. destruct p; simpl; auto. intros. now apply N.eqb_neq. Qed.

Lemma bucket_eqb_ok a b : bucket_eqb a b = true <-> a = b.
Proof. destruct a, b; simpl; split; congruence. Qed.

(** C05, internal operations. *)
Lemma internal_ok a s o v p src dst :
  internal o = Some (src, dst) -> distinct_peer a p ->
  let r := operate_balance a s o v p in
  peer' r = p /\
  (ok r = true <-> v <= bal a s src) /\
  (ok r = false -> same_balances a (self' r)) /\
  (ok r = true -> bal a s dst + v < two64 ->
     bal (self' r) s src = bal a s src - v /\
     bal (self' r) s dst = bal a s dst + v /\
     forall s' b, s' <> s \/ (b <> src /\ b <> dst) -> bal (self' r) s' b = bal a s' b).
Proof.
  intros Hi Hd. cbv zeta. unfold operate_balance. rewrite (distinct_eqb _ _ Hd).
  destruct o; simpl in Hi; try discriminate; inversion Hi; subst src dst; clear Hi;
    unfold internal_move, with_peer; simpl;
    match goal with |- context[if ?c then _ else _] => destruct c eqn:E end; simpl;
    (split; [reflexivity|]);
    (split; [unfold bal; simpl; split; intros; first [discriminate | reflexivity | lia]|]);
    (split; [first [discriminate | intros _; apply set_get_same_bal]|]);
    try discriminate;
    intros _ Hb; unfold bal in *; simpl in *; rewrite !get_set_same; simpl;
    (split; [reflexivity|]);
    (split; [apply add64_small; assumption|]);
    intros s' b Hor; rewrite !get_set_token;
    (destruct (String.eqb s' s) eqn:Es; [|reflexivity]);
    apply String.eqb_eq in Es; subst s';
    (destruct Hor as [Hs | [H1 H2]]; [congruence|]);
    destruct b; simpl; congruence.
Qed.

(** C05, transfers between two accounts. *)
Lemma sub_free_ok a s v b :
  a_keyid a <> a_keyid b ->
  let r := operate_balance a s SubFree v (Peer b) in
  exists b', peer' r = Peer b' /\
  (ok r = true <-> v <= bal a s BFree) /\
  (ok r = false -> same_balances a (self' r) /\ b' = b) /\
  (ok r = true -> bal b s BFree + v < two64 ->
     bal (self' r) s BFree = bal a s BFree - v /\
     bal b' s BFree = bal b s BFree + v /\
     (forall s' k, s' <> s \/ k <> BFree ->
        bal (self' r) s' k = bal a s' k /\ bal b' s' k = bal b s' k)).
Proof.
  intros Hd. cbv zeta. unfold operate_balance.
  rewrite (proj2 (N.eqb_neq _ _) Hd).
  destruct (free (get_token a s) <? v) eqn:E; simpl; eexists; (split; [reflexivity|]).
  - split; [unfold bal; simpl; split; intros; [discriminate | lia]|].
    split; [|discriminate]. intros _; split; [apply set_get_same_bal | reflexivity].
  - split; [unfold bal; simpl; split; intros; [lia | reflexivity]|].
    split; [discriminate|]. intros _ Hb. unfold bal in *; simpl in *.
    rewrite !get_set_same. simpl. split; [reflexivity|].
    split; [apply add64_small; assumption|].
    intros s' k Hor. rewrite !get_set_token. destruct (String.eqb s' s) eqn:Es; [|split; reflexivity].
    apply String.eqb_eq in Es; subst s'. destruct Hor as [Hs|Hk]; [congruence|].
    destruct k; simpl; split; congruence.
Qed.

Lemma dex_deal_ok a s v b :
  a_keyid a <> a_keyid b ->
  let r := operate_balance a s DexDeal v (Peer b) in
  exists b', peer' r = Peer b' /\
  (ok r = true <-> v <= bal a s BFrozen) /\
  (ok r = false -> same_balances a (self' r) /\ b' = b) /\
  (ok r = true -> bal b s BFree + v < two64 ->
     bal (self' r) s BFrozen = bal a s BFrozen - v /\
     bal b' s BFree = bal b s BFree + v /\
     (forall s' k, s' <> s \/ k <> BFrozen -> bal (self' r) s' k = bal a s' k) /\
     (forall s' k, s' <> s \/ k <> BFree -> bal b' s' k = bal b s' k)).
Proof.
  intros Hd. cbv zeta. unfold operate_balance.
  rewrite (proj2 (N.eqb_neq _ _) Hd).
  destruct (frozen (get_token a s) <? v) eqn:E; simpl; eexists; (split; [reflexivity|]).
  - split; [unfold bal; simpl; split; intros; [discriminate | lia]|].
    split; [|discriminate]. intros _; split; [apply set_get_same_bal | reflexivity].
  - split; [unfold bal; simpl; split; intros; [lia | reflexivity]|].
    split; [discriminate|]. intros _ Hb. unfold bal in *; simpl in *.
    rewrite !get_set_same. simpl. split; [reflexivity|].
    split; [apply add64_small; assumption|].
    split; intros s' k Hor; rewrite !get_set_token;
      (destruct (String.eqb s' s) eqn:Es; [|reflexivity]);
      apply String.eqb_eq in Es; subst s'; (destruct Hor as [Hs|Hk]; [congruence|]);
      destruct k; simpl; congruence.
Qed.

Lemma add_free_ok a s v b :
  a_keyid a <> a_keyid b ->
  let r := operate_balance a s AddFree v (Peer b) in
  exists b', peer' r = Peer b' /\
  (ok r = true <-> v <= bal b s BFree) /\
  (ok r = true -> bal a s BFree + v < two64 ->
     bal (self' r) s BFree = bal a s BFree + v /\
     bal b' s BFree = bal b s BFree - v /\
     (forall s' k, s' <> s \/ k <> BFree ->
        bal (self' r) s' k = bal a s' k /\ bal b' s' k = bal b s' k)).
Proof.
  intros Hd. cbv zeta. unfold operate_balance.
  rewrite (proj2 (N.eqb_neq _ _) Hd).
  destruct (free (get_token b s) <? v) eqn:E; simpl; eexists; (split; [reflexivity|]).
  - split; [unfold bal; simpl; split; intros; [discriminate | lia]|]. discriminate.
  - split; [unfold bal; simpl; split; intros; [lia | reflexivity]|].
    intros _ Hb. unfold bal in *; simpl in *.
    rewrite !get_set_same. simpl. split; [apply add64_small; assumption|].
    split; [reflexivity|].
    intros s' k Hor. rewrite !get_set_token. destruct (String.eqb s' s) eqn:Es; [|split; reflexivity].
    apply String.eqb_eq in Es; subst s'. destruct Hor as [Hs|Hk]; [congruence|].
    destruct k; simpl; split; congruence.
Qed.

(** The same object on both sides. *)
Lemma self_peer_ok a s o v :
  (o = AddFree \/ o = SubFree \/ o = DexDeal) ->
  bal a s BFree + v < two64 ->
  let r := operate_balance a s o v SelfPeer in
  ok r = true ->
  match o with
  | DexDeal => v <= bal a s BFrozen /\ bal (self' r) s BFrozen = bal a s BFrozen - v /\
      bal (self' r) s BFree = bal a s BFree + v /\
      (forall s' k, s' <> s \/ (k <> BFrozen /\ k <> BFree) -> bal (self' r) s' k = bal a s' k)
  | _ => same_balances a (self' r)
  end.
Proof.
  intros Ho Hb. cbv zeta. unfold operate_balance. simpl.
  destruct Ho as [-> | [-> | ->]]; rewrite ?get_set_same; simpl.
  - destruct (add64 _ _ <? v) eqn:E; simpl; [discriminate|]. intros _ s' k.
    unfold bal in *; simpl in *. rewrite !get_set_token.
    destruct (String.eqb s' s) eqn:Es; auto. apply String.eqb_eq in Es; subst s'.
    destruct k; simpl; auto. rewrite add64_small by assumption. lia.
  - destruct (_ <? v) eqn:E; simpl; [discriminate|]. intros _ s' k.
    unfold bal in *; simpl in *. rewrite !get_set_token.
    destruct (String.eqb s' s) eqn:Es; auto. apply String.eqb_eq in Es; subst s'.
    rewrite ?get_set_same. destruct k; simpl; auto. rewrite add64_small by lia. lia.
  - destruct (_ <? v) eqn:E; simpl; [discriminate|]. intros _.
    unfold bal in *; simpl in *. rewrite !get_set_same. simpl.
    split; [lia|]. split; [reflexivity|]. split; [apply add64_small; assumption|].
    intros s' k Hor. rewrite !get_set_token.
    destruct (String.eqb s' s) eqn:Es; auto. apply String.eqb_eq in Es; subst s'.
    destruct Hor as [|[? ?]]; [congruence|]. destruct k; simpl; congruence.
Qed.

(** *** Ledger level *)

Lemma lget_put L k a k' : l_get (l_put L k a) k' = if k' =? k then Some a else l_get L k'.
Proof. unfold l_get, l_put. apply fget_put. apply N_eqb_ok. Qed.

Lemma lput_wf L k a : ledger_wf L -> a_keyid a = k -> ledger_wf (l_put L k a).
Proof.
  intros [H1 H2] Hk. split.
  - apply nodup_put; auto. apply N_eqb_ok.
  - intros k' a'. rewrite lget_put. destruct (k' =? k) eqn:E.
    + intros H; inversion H; subst. lia.
    + apply H2.
Qed.

Lemma holding_le_supply L k a s :
  ledger_wf L -> l_get L k = Some a -> holding a s <= supply L s.
Proof.
  intros [H1 _] H. pose proof (@fval_le_msum N account N.eqb N_eqb_ok (fun a => holding a s) L k H1) as F.
  unfold fval in F. unfold l_get in H. rewrite H in F. exact F.
Qed.

Lemma supply_put L k a a' s :
  ledger_wf L -> l_get L k = Some a ->
  supply (l_put L k a') s + holding a s = supply L s + holding a' s.
Proof.
  intros [H1 _] H. pose proof (@msum_put N account N.eqb N_eqb_ok (fun a => holding a s) L k a' H1) as F.
  unfold fval in F. unfold l_get in H. rewrite H in F. exact F.
Qed.

Lemma supply_put_new L k a' s :
  ledger_wf L -> l_get L k = None ->
  supply (l_put L k a') s = supply L s + holding a' s.
Proof.
  intros [H1 _] H. pose proof (@msum_put N account N.eqb N_eqb_ok (fun a => holding a s) L k a' H1) as F.
  unfold fval in F. unfold l_get in H. rewrite H in F. rewrite N.add_0_r in F. exact F.
Qed.

Lemma two_holdings_le L k1 k2 a1 a2 s :
  ledger_wf L -> k1 <> k2 -> l_get L k1 = Some a1 -> l_get L k2 = Some a2 ->
  holding a1 s + holding a2 s <= supply L s.
Proof.
  intros W Hn H1 H2.
  set (z := mkAccount k1 (0,0) None [] 0 0 0 0).
  pose proof (supply_put _ _ _ z s W H1) as E.
  assert (Hz : holding z s = 0) by reflexivity.
  assert (W' : ledger_wf (l_put L k1 z)) by (apply lput_wf; auto).
  assert (G : l_get (l_put L k1 z) k2 = Some a2).
  { rewrite lget_put. destruct (k2 =? k1) eqn:E2; [|exact H2]. apply N.eqb_eq in E2; congruence. }
  pose proof (holding_le_supply _ _ _ s W' G). lia.
Qed.

Lemma same_balances_holding a b s : same_balances a b -> holding b s = holding a s.
Proof. intros H. unfold holding. now rewrite !H. Qed.

Lemma bal_le_holding a s b : bal a s b <= holding a s.
Proof. unfold holding. destruct b; lia. Qed.

(** An account whose only change is in two buckets of one token. *)
Lemma holding_move a a' s src dst v :
  src <> dst -> v <= bal a s src ->
  bal a' s src = bal a s src - v -> bal a' s dst = bal a s dst + v ->
  (forall b, b <> src /\ b <> dst -> bal a' s b = bal a s b) ->
  holding a' s = holding a s.
Proof.
  intros Hn Hv H1 H2 H3. unfold holding.
  destruct src, dst; try congruence;
    rewrite ?H1, ?H2, ?(H3 BFree), ?(H3 BFrozen), ?(H3 BStaked), ?(H3 BVoted), ?(H3 BPledged)
      by (split; discriminate); lia.
Qed.

Lemma holding_plus a a' s b0 v :
  bal a' s b0 = bal a s b0 + v -> (forall b, b <> b0 -> bal a' s b = bal a s b) ->
  holding a' s = holding a s + v.
Proof.
  intros H1 H2. unfold holding.
  destruct b0; rewrite ?H1, ?(H2 BFree), ?(H2 BFrozen), ?(H2 BStaked), ?(H2 BVoted), ?(H2 BPledged)
      by discriminate; lia.
Qed.

Lemma holding_minus a a' s b0 v :
  v <= bal a s b0 ->
  bal a' s b0 = bal a s b0 - v -> (forall b, b <> b0 -> bal a' s b = bal a s b) ->
  holding a' s + v = holding a s.
Proof.
  intros Hv H1 H2. unfold holding.
  destruct b0; rewrite ?H1, ?(H2 BFree), ?(H2 BFrozen), ?(H2 BStaked), ?(H2 BVoted), ?(H2 BPledged)
      by discriminate; lia.
Qed.

Lemma holding_other a a' s : (forall b, bal a' s b = bal a s b) -> holding a' s = holding a s.
Proof. intros H. unfold holding. now rewrite !H. Qed.

(** Peerless add and subtract. *)
Lemma add_free_alone a s v :
  let r := operate_balance a s AddFree v NoPeer in
  ok r = true /\
  (bal a s BFree + v < two64 ->
     bal (self' r) s BFree = bal a s BFree + v /\
     forall s' b, s' <> s \/ b <> BFree -> bal (self' r) s' b = bal a s' b).
Proof.
  cbv zeta. unfold operate_balance. simpl. split; auto. intros Hb.
  unfold bal in *. rewrite !get_set_same. simpl in *.
  split; [apply add64_small; assumption|].
  intros s' b Hor. rewrite !get_set_token. destruct (String.eqb s' s) eqn:Es; auto.
  apply String.eqb_eq in Es; subst s'. destruct Hor; [congruence|]. destruct b; simpl; congruence.
Qed.

Lemma sub_free_alone a s v :
  let r := operate_balance a s SubFree v NoPeer in
  (ok r = true <-> v <= bal a s BFree) /\
  (ok r = true ->
     bal (self' r) s BFree = bal a s BFree - v /\
     forall s' b, s' <> s \/ b <> BFree -> bal (self' r) s' b = bal a s' b).
Proof.
  cbv zeta. unfold operate_balance. simpl.
  destruct (free (get_token a s) <? v) eqn:E; simpl.
  - split; [unfold bal; simpl; split; intros; [discriminate|lia] | discriminate].
  - split; [unfold bal; simpl; split; intros; [lia|reflexivity]|].
    intros _. unfold bal in *. rewrite !get_set_same. simpl in *. split; [reflexivity|].
    intros s' b Hor. rewrite !get_set_token. destruct (String.eqb s' s) eqn:Es; auto.
    apply String.eqb_eq in Es; subst s'. destruct Hor; [congruence|]. destruct b; simpl; congruence.
Qed.

(** What [l_operate] keeps. *)
Lemma l_operate_wf L who s o v other b L' :
  ledger_wf L -> l_operate L who s o v other = (b, L') -> ledger_wf L'.
Proof.
  intros W. unfold l_operate. destruct (l_get L who) as [a|] eqn:Ga.
  2: { intros H; inversion H; subst; auto. }
  assert (Ka : a_keyid a = who) by (apply (proj2 W); auto).
  assert (P : forall p, ledger_wf (l_put L who (self' (operate_balance a s o v p)))).
  { intros p. apply lput_wf; auto. destruct (operate_identity a s o v p) as [H _]. congruence. }
  destruct other as [k|].
  2: { intros H; inversion H; subst; auto. }
  destruct (k =? who) eqn:E.
  { intros H; inversion H; subst; auto. }
  destruct (l_get L k) as [p|] eqn:Gk.
  2: { intros H; inversion H; subst; auto. }
  destruct (operate_identity_peer a s o v p) as (p' & Hp & Hi). rewrite Hp.
  intros H; inversion H; subst. apply lput_wf; auto.
  destruct Hi as [Hi _]. rewrite <- Hi. apply (proj2 W); auto.
Qed.

Lemma l_operate_none L who s o v other b L' k :
  l_operate L who s o v other = (b, L') -> (l_get L' k = None <-> l_get L k = None).
Proof.
  unfold l_operate. destruct (l_get L who) as [a|] eqn:Ga.
  2: { intros H; inversion H; subst; tauto. }
  assert (P : forall x, l_get (l_put L who x) k = None <-> l_get L k = None).
  { intros x. rewrite lget_put. destruct (k =? who) eqn:E; [|tauto].
    apply N.eqb_eq in E; subst. rewrite Ga. split; discriminate. }
  destruct other as [k2|].
  2: { intros H; inversion H; subst; auto. }
  destruct (k2 =? who) eqn:E.
  { intros H; inversion H; subst; auto. }
  destruct (l_get L k2) as [p|] eqn:Gk.
  2: { intros H; inversion H; subst; tauto. }
  destruct (operate_identity_peer a s o v p) as (p' & Hp & Hi). rewrite Hp.
  intros H; inversion H; subst. rewrite lget_put.
  destruct (k =? k2) eqn:E2; [|apply P]. apply N.eqb_eq in E2; subst. rewrite Gk. split; discriminate.
Qed.

(** C06, one step: supply changes exactly by what is minted or burned. *)
Lemma l_operate_supply L q L' s :
  ledger_wf L ->
  l_operate L (q_who q) (q_symbol q) (q_op q) (q_amount q) (q_other q) = (true, L') ->
  (forall s0, s0 = q_symbol q -> supply L s0 + mint_of s0 q < two64) ->
  supply L' s + burn_of s q = supply L s + mint_of s q.
Proof.
  destruct q as [who s0 o v other]; simpl. intros W Hl Hb.
  specialize (Hb _ eq_refl).
  unfold l_operate in Hl. destruct (l_get L who) as [a|] eqn:Ga; [|discriminate].
  pose proof (holding_le_supply _ _ _ s0 W Ga) as Ha.
  assert (Other : forall a', s <> s0 -> (forall b, bal a' s b = bal a s b) ->
     supply (l_put L who a') s = supply L s).
  { intros a' _ Hx. pose proof (supply_put _ _ _ a' s W Ga). rewrite (holding_other a a' s Hx) in H. lia. }
  destruct other as [k|].
  - destruct (k =? who) eqn:Ek.
    + inversion Hl; subst L'; clear Hl. rename H0 into Hok.
      assert (Hm : mint_of s {| q_who := who; q_symbol := s0; q_op := o; q_amount := v; q_other := Some k |} = 0)
        by (unfold mint_of; simpl; destruct o; auto).
      assert (Hu : burn_of s {| q_who := who; q_symbol := s0; q_op := o; q_amount := v; q_other := Some k |} = 0)
        by (unfold burn_of; simpl; destruct o; auto).
      rewrite Hm, Hu, !N.add_0_r.
      pose proof (supply_put _ _ _ (self' (operate_balance a s0 o v SelfPeer)) s W Ga) as Hs.
      cut (holding (self' (operate_balance a s0 o v SelfPeer)) s = holding a s); [intros He; lia|].
      assert (Hb' : supply L s0 < two64) by lia.
      assert (Hbb : forall b, bal a s0 b <= holding a s0) by (intros; apply bal_le_holding).
      destruct (internal o) as [[src dst]|] eqn:Ei.
      * destruct (internal_ok a s0 o v SelfPeer src dst Ei I) as (_ & H1 & _ & H2).
        rewrite Hok in H1. pose proof (proj1 H1 eq_refl) as Hv.
        assert (Hne : src <> dst) by (destruct o; simpl in Ei; congruence).
        assert (Hsum : bal a s0 src + bal a s0 dst <= holding a s0).
        { unfold holding. destruct src, dst; try congruence; lia. }
        destruct (H2 Hok) as (E1 & E2 & E3); [lia|].
        destruct (String.eqb s s0) eqn:Es.
        -- apply String.eqb_eq in Es; subst s. eapply holding_move; eauto.
        -- apply String.eqb_neq in Es. apply holding_other. intros b. apply E3; auto.
      * assert (Ho : o = AddFree \/ o = SubFree \/ o = DexDeal).
        { destruct o; simpl in Ei; try discriminate; auto. }
        (* the moved amount is bounded by what the account holds *)
        destruct (N.lt_ge_cases (bal a s0 BFree + v) two64) as [Hlt|Hge].
        -- pose proof (self_peer_ok a s0 o v Ho Hlt Hok) as Hsp.
           destruct Ho as [-> | [-> | ->]]; simpl in Hsp.
           ++ apply same_balances_holding; auto.
           ++ apply same_balances_holding; auto.
           ++ destruct Hsp as (Hv & E1 & E2 & E3). destruct (String.eqb s s0) eqn:Es.
              ** apply String.eqb_eq in Es; subst s.
                 eapply (holding_move a _ s0 BFrozen BFree v); eauto; try discriminate.
              ** apply String.eqb_neq in Es. apply holding_other. intros b. apply E3; auto.
        -- (* overflow would need v > balance: the check refuses it, except for AddFree *)
           unfold operate_balance in Hok |- *. simpl in *. rewrite ?get_set_same in *. simpl in *.
           destruct Ho as [-> | [-> | ->]].
           ++ unfold bal in *; simpl in *. rewrite ?get_set_same in *. simpl in *.
              destruct (add64 (free (get_token a s0)) v <? v) eqn:E; [discriminate|]. simpl.
              apply same_balances_holding. intros s' b. rewrite !bal_set.
              destruct (String.eqb s' s0) eqn:Es; auto. apply String.eqb_eq in Es; subst.
              unfold bal. destruct b; simpl; auto.
              exfalso. unfold add64 in E.
              assert (free (get_token a s0) <= holding a s0) by apply (bal_le_holding a s0 BFree).
              destruct (N.lt_ge_cases v two64).
              ** assert ((free (get_token a s0) + v) mod two64 = free (get_token a s0) + v - two64).
                 { symmetry. apply (N.mod_unique _ _ 1); unfold two64 in *; lia. }
                 lia.
              ** assert ((free (get_token a s0) + v) mod two64 < two64)
                   by (apply N.mod_lt; unfold two64; lia). lia.
           ++ destruct (free (get_token a s0) <? v) eqn:E; [discriminate|].
              assert (free (get_token a s0) + v <= 2 * holding a s0).
              { pose proof (bal_le_holding a s0 BFree). unfold bal in H; simpl in H. lia. }
              simpl. apply same_balances_holding. intros s' b. rewrite !bal_set.
              destruct (String.eqb s' s0) eqn:Es; auto. apply String.eqb_eq in Es; subst.
              rewrite ?get_set_same. unfold bal.
              destruct b; simpl; auto.
              rewrite add64_small; [lia|].
              pose proof (bal_le_holding a s0 BFree) as Hq. unfold bal in Hq; simpl in Hq. lia.
           ++ destruct (frozen (get_token a s0) <? v) eqn:E; [discriminate|].
              exfalso. assert (bal a s0 BFree + bal a s0 BFrozen <= holding a s0)
                by (unfold holding; lia). unfold bal in *; simpl in *. lia.
    + destruct (l_get L k) as [p|] eqn:Gk; [|discriminate].
      assert (Hkn : k <> who) by (now apply N.eqb_neq).
      assert (Hd : a_keyid a <> a_keyid p).
      { rewrite (proj2 W _ _ Ga), (proj2 W _ _ Gk). auto. }
      pose proof (two_holdings_le _ _ _ _ _ s0 W (not_eq_sym Hkn) Ga Gk) as H2h.
      assert (Hm : mint_of s {| q_who := who; q_symbol := s0; q_op := o; q_amount := v; q_other := Some k |} = 0)
        by (unfold mint_of; simpl; destruct o; auto).
      assert (Hu : burn_of s {| q_who := who; q_symbol := s0; q_op := o; q_amount := v; q_other := Some k |} = 0)
        by (unfold burn_of; simpl; destruct o; auto).
      rewrite Hm, Hu, !N.add_0_r.
      assert (Hb' : supply L s0 < two64) by lia.
      assert (Hba : forall b, bal a s0 b <= holding a s0) by (intros; apply bal_le_holding).
      assert (Hbp : forall b, bal p s0 b <= holding p s0) by (intros; apply bal_le_holding).
      inversion Hl; subst; clear Hl. rename H0 into Hok.
      destruct (operate_identity_peer a s0 o v p) as (p' & Hp' & Hip). rewrite Hp'.
      set (a' := self' (operate_balance a s0 o v (Peer p))) in *.
      assert (Ka' : a_keyid a' = who).
      { destruct (operate_identity a s0 o v (Peer p)) as [Hx _]. unfold a'. rewrite <- Hx.
        apply (proj2 W); auto. }
      assert (W1 : ledger_wf (l_put L who a')) by (apply lput_wf; auto).
      assert (G1 : l_get (l_put L who a') k = Some p) by (rewrite lget_put, Ek; auto).
      pose proof (supply_put _ _ _ a' s W Ga) as S1.
      pose proof (supply_put _ _ _ p' s W1 G1) as S2.
      cut (holding a' s + holding p' s = holding a s + holding p s); [intros; lia|].
      clear S1 S2 W1 G1.
      destruct (internal o) as [[src dst]|] eqn:Ei.
      * destruct (internal_ok a s0 o v (Peer p) src dst Ei Hd) as (Hpe & H1 & _ & H2).
        rewrite Hp' in Hpe. inversion Hpe; subst p'.
        rewrite Hok in H1. pose proof (proj1 H1 eq_refl) as Hv.
        assert (Hne : src <> dst) by (destruct o; simpl in Ei; congruence).
        assert (Hsum : bal a s0 src + bal a s0 dst <= holding a s0).
        { unfold holding. destruct src, dst; try congruence; lia. }
        destruct (H2 Hok) as (E1 & E2 & E3); [lia|]. f_equal.
        destruct (String.eqb s s0) eqn:Es.
        -- apply String.eqb_eq in Es; subst s. eapply holding_move; eauto.
        -- apply String.eqb_neq in Es. apply holding_other. intros b. apply E3; auto.
      * assert (Ho : o = AddFree \/ o = SubFree \/ o = DexDeal \/ o = OpNull).
        { destruct o; simpl in Ei; try discriminate; auto. }
        destruct Ho as [-> | [-> | [-> | ->]]].
        -- destruct (add_free_ok a s0 v p Hd) as (b' & Hb1 & H1 & H2).
           rewrite Hp' in Hb1; inversion Hb1; subst b'. rewrite Hok in H1.
           pose proof (proj1 H1 eq_refl) as Hv. pose proof (Hba BFree). pose proof (Hbp BFree).
           destruct (H2 Hok) as (E1 & E2 & E3); [lia|]. fold a' in E1, E3.
           destruct (String.eqb s s0) eqn:Es.
           ++ apply String.eqb_eq in Es; subst s.
              pose proof (holding_plus a a' s0 BFree v E1 (fun b Hn => proj1 (E3 s0 b (or_intror Hn)))).
              pose proof (holding_minus p p' s0 BFree v Hv E2 (fun b Hn => proj2 (E3 s0 b (or_intror Hn)))).
              lia.
           ++ apply String.eqb_neq in Es. f_equal; apply holding_other; intros b; apply E3; auto.
        -- destruct (sub_free_ok a s0 v p Hd) as (b' & Hb1 & H1 & _ & H2).
           rewrite Hp' in Hb1; inversion Hb1; subst b'. rewrite Hok in H1.
           pose proof (proj1 H1 eq_refl) as Hv. pose proof (Hba BFree). pose proof (Hbp BFree).
           destruct (H2 Hok) as (E1 & E2 & E3); [lia|]. fold a' in E1, E3.
           destruct (String.eqb s s0) eqn:Es.
           ++ apply String.eqb_eq in Es; subst s.
              pose proof (holding_minus a a' s0 BFree v Hv E1 (fun b Hn => proj1 (E3 s0 b (or_intror Hn)))).
              pose proof (holding_plus p p' s0 BFree v E2 (fun b Hn => proj2 (E3 s0 b (or_intror Hn)))).
              lia.
           ++ apply String.eqb_neq in Es. f_equal; apply holding_other; intros b; apply E3; auto.
        -- destruct (dex_deal_ok a s0 v p Hd) as (b' & Hb1 & H1 & _ & H2).
           rewrite Hp' in Hb1; inversion Hb1; subst b'. rewrite Hok in H1.
           pose proof (proj1 H1 eq_refl) as Hv. pose proof (Hba BFrozen). pose proof (Hbp BFree).
           destruct (H2 Hok) as (E1 & E2 & E3 & E4); [lia|]. fold a' in E1, E3.
           destruct (String.eqb s s0) eqn:Es.
           ++ apply String.eqb_eq in Es; subst s.
              pose proof (holding_minus a a' s0 BFrozen v Hv E1 (fun b Hn => (E3 s0 b (or_intror Hn)))).
              pose proof (holding_plus p p' s0 BFree v E2 (fun b Hn => (E4 s0 b (or_intror Hn)))).
              lia.
           ++ apply String.eqb_neq in Es. f_equal; apply holding_other; intros b; [apply E3|apply E4]; auto.
        -- exfalso. unfold operate_balance in Hok.
           rewrite (proj2 (N.eqb_neq _ _) Hd) in Hok. discriminate.
  - inversion Hl; subst L'; clear Hl. rename H0 into Hok.
    pose proof (supply_put _ _ _ (self' (operate_balance a s0 o v NoPeer)) s W Ga) as Hs.
    assert (Hbb : forall b, bal a s0 b <= holding a s0) by (intros; apply bal_le_holding).
    destruct (internal o) as [[src dst]|] eqn:Ei.
    + assert (Hm : forall s, mint_of s {| q_who := who; q_symbol := s0; q_op := o; q_amount := v; q_other := None |} = 0)
        by (intros; unfold mint_of; simpl; destruct o; simpl in Ei; auto; discriminate).
      assert (Hu : burn_of s {| q_who := who; q_symbol := s0; q_op := o; q_amount := v; q_other := None |} = 0)
        by (unfold burn_of; simpl; destruct o; simpl in Ei; auto; discriminate).
      rewrite Hm in *. rewrite Hu, !N.add_0_r in *.
      cut (holding (self' (operate_balance a s0 o v NoPeer)) s = holding a s); [intros; lia|].
      destruct (internal_ok a s0 o v NoPeer src dst Ei I) as (_ & H1 & _ & H2).
      rewrite Hok in H1. pose proof (proj1 H1 eq_refl) as Hv.
      assert (Hne : src <> dst) by (destruct o; simpl in Ei; congruence).
      assert (Hsum : bal a s0 src + bal a s0 dst <= holding a s0).
      { unfold holding. destruct src, dst; try congruence; lia. }
      destruct (H2 Hok) as (E1 & E2 & E3); [lia|].
      destruct (String.eqb s s0) eqn:Es.
      * apply String.eqb_eq in Es; subst s. eapply holding_move; eauto.
      * apply String.eqb_neq in Es. apply holding_other. intros b. apply E3; auto.
    + destruct o; simpl in Ei; try discriminate; unfold mint_of, burn_of in *; simpl in *.
      * destruct (add_free_alone a s0 v) as [_ H2]. rewrite String.eqb_refl in Hb.
        pose proof (Hbb BFree). destruct H2 as (E1 & E2); [lia|].
        destruct (String.eqb s0 s) eqn:Es.
        -- apply String.eqb_eq in Es; subst s.
           pose proof (holding_plus a _ s0 BFree v E1 (fun b Hn => E2 s0 b (or_intror Hn))). simpl in *. lia.
        -- apply String.eqb_neq in Es.
           assert (Ho : holding (self' (operate_balance a s0 AddFree v NoPeer)) s = holding a s).
           { apply holding_other. intros b. apply E2. auto. } simpl in *. lia.
      * destruct (sub_free_alone a s0 v) as [H1 H2]. rewrite Hok in H1.
        pose proof (proj1 H1 eq_refl) as Hv. destruct (H2 Hok) as (E1 & E2).
        destruct (String.eqb s0 s) eqn:Es.
        -- apply String.eqb_eq in Es; subst s.
           pose proof (holding_minus a _ s0 BFree v Hv E1 (fun b Hn => E2 s0 b (or_intror Hn))). lia.
        -- apply String.eqb_neq in Es.
           assert (Ho : holding (self' (operate_balance a s0 SubFree v NoPeer)) s = holding a s).
           { apply holding_other. intros b. apply E2. auto. } lia.
Qed.

(** C06: any history. *)
Definition mints (s : string) (qs : list request) : N := nsum (map (mint_of s) qs).
Definition burns (s : string) (qs : list request) : N := nsum (map (burn_of s) qs).

Lemma history_supply : forall qs L L' done,
  ledger_wf L -> history L qs = (L', done) ->
  (forall s, supply L s + mints s done < two64) ->
  ledger_wf L' /\ forall s, supply L' s + burns s done = supply L s + mints s done.
Proof.
  induction qs as [|q qs IH]; intros L L' done W H Hb; simpl in H.
  - inversion H; subst. split; auto.
  - destruct (l_operate L (q_who q) (q_symbol q) (q_op q) (q_amount q) (q_other q))
      as [b L1] eqn:E.
    destruct b.
    + destruct (history L1 qs) as [L2 done2] eqn:E2. inversion H; subst L' done; clear H.
      assert (W1 : ledger_wf L1) by (eapply l_operate_wf; eauto).
      assert (S1 : forall s, supply L1 s + burn_of s q = supply L s + mint_of s q).
      { intros s. eapply l_operate_supply; eauto. intros s0 _. specialize (Hb s0).
        unfold mints in Hb; cbn [map nsum] in Hb. lia. }
      destruct (IH L1 L2 done2 W1 E2) as [W2 S2].
      * intros s. specialize (Hb s). specialize (S1 s). unfold mints in *; cbn [map nsum] in Hb. lia.
      * split; auto. intros s. specialize (S1 s); specialize (S2 s).
        unfold mints, burns in *; cbn [map nsum] in *. lia.
    + eapply IH; eauto.
Qed.

Lemma lbal_le_supply L k s b : ledger_wf L -> lbal L k s b <= supply L s.
Proof.
  intros W. unfold lbal. destruct (l_get L k) eqn:E; [|lia].
  pose proof (holding_le_supply _ _ _ s W E). pose proof (bal_le_holding a s b). lia.
Qed.

(** Bits. *)
Lemma check_perms_ok p r :
  check_perms p r = true <-> forall i, N.testbit r i = true -> N.testbit p i = true.
Proof.
  unfold check_perms. split.
  - destruct (p <? r); [discriminate|]. intros H i Hr. apply N.eqb_eq in H.
    rewrite H, N.land_spec in Hr. apply andb_true_iff in Hr. tauto.
  - intros H. assert (E : N.land p r = r).
    { apply N.bits_inj. intros i. rewrite N.land_spec.
      destruct (N.testbit r i) eqn:Er; [rewrite (H i Er); auto | apply andb_false_r]. }
    assert (L : r <= p).
    { rewrite <- E. apply N.ldiff_le. apply N.bits_inj. intros i.
      rewrite N.ldiff_spec, N.land_spec, N.bits_0. destruct (N.testbit p i); simpl; auto.
      apply andb_false_r. }
    rewrite (proj2 (N.ltb_ge p r) L). rewrite E. apply N.eqb_refl.
Qed.

(** C05 at ledger level: the exact change of every balance. *)
Lemma lbal_put L k a k' s b :
  lbal (l_put L k a) k' s b = if k' =? k then bal a s b else lbal L k' s b.
Proof. unfold lbal. rewrite lget_put. destruct (k' =? k); auto. Qed.

Lemma lbal_get L k a s b : l_get L k = Some a -> lbal L k s b = bal a s b.
Proof. unfold lbal. intros ->. auto. Qed.

Definition dlt (v : N) (p : option (N * bucket)) (s : string) k s' b : Z :=
  Z.of_N (at_place p s v k s' b).

Lemma one_account_delta L who a a' s v (src dst : option bucket) :
  l_get L who = Some a ->
  (forall s' b, Z.of_N (bal a' s' b) = (Z.of_N (bal a s' b)
     - Z.of_N (at_place (option_map (fun x => (who, x)) src) s v who s' b)
     + Z.of_N (at_place (option_map (fun x => (who, x)) dst) s v who s' b))%Z) ->
  forall k s' b, Z.of_N (lbal (l_put L who a') k s' b) = (Z.of_N (lbal L k s' b)
     - Z.of_N (at_place (option_map (fun x => (who, x)) src) s v k s' b)
     + Z.of_N (at_place (option_map (fun x => (who, x)) dst) s v k s' b))%Z.
Proof.
  intros Ga H k s' b. rewrite lbal_put. destruct (k =? who) eqn:E.
  - apply N.eqb_eq in E; subst k. rewrite H. rewrite (lbal_get _ _ _ _ _ Ga). reflexivity.
  - unfold at_place. destruct src, dst; simpl; rewrite ?E; simpl; lia.
Qed.

Lemma at_none s v k s' b : at_place None s v k s' b = 0.
Proof. reflexivity. Qed.

Lemma at_same k b0 s v s' b : at_place (Some (k, b0)) s v k s' b =
  if String.eqb s' s && bucket_eqb b b0 then v else 0.
Proof. unfold at_place. rewrite N.eqb_refl. reflexivity. Qed.

Lemma l_operate_ok_iff L who s o v other :
  o <> OpNull -> (o = DexDeal -> other <> None) ->
  (forall k, other = Some k -> l_get L k <> None) -> ledger_wf L ->
  (o = AddFree -> other = Some who -> lbal L who s BFree + v < two64 /\ v <= lbal L who s BFree) ->
  (fst (l_operate L who s o v other) = true <->
   l_get L who <> None /\
   match debited who o other with Some (k, b) => v <= lbal L k s b | None => True end).
Proof.
  intros Hnull Hdex Hoth W Hself. unfold l_operate. destruct (l_get L who) as [a|] eqn:Ga.
  2: { simpl. split; [discriminate|]. intros [H _]; congruence. }
  assert (Ha : forall b, lbal L who s b = bal a s b) by (intros; apply lbal_get; auto).
  destruct other as [k|].
  - destruct (k =? who) eqn:Ek.
    + apply N.eqb_eq in Ek; subst k. simpl.
      destruct (internal o) as [[src dst]|] eqn:Ei.
      * destruct (internal_ok a s o v SelfPeer src dst Ei I) as (_ & H1 & _). rewrite H1.
        assert (debited who o (Some who) = Some (who, src)) as -> by
          (unfold debited; destruct o; simpl in Ei; try discriminate; inversion Ei; auto).
        rewrite Ha. intuition congruence.
      * unfold operate_balance. destruct o; simpl in Ei; try discriminate; simpl; try congruence;
          rewrite ?Ha; unfold bal; simpl; rewrite ?get_set_same; simpl.
        -- destruct Hself as [H1 H2]; auto. rewrite Ha in *. unfold bal in *; simpl in *.
           rewrite add64_small by assumption.
           destruct (_ <? v) eqn:E; simpl; [lia|]. intuition congruence.
        -- destruct (_ <? v) eqn:E; simpl; split; intros; try discriminate; try lia; intuition (try congruence; try lia).
        -- destruct (_ <? v) eqn:E; simpl; split; intros; try discriminate; try lia; intuition (try congruence; try lia).
    + assert (Hk : l_get L k <> None) by auto. destruct (l_get L k) as [p|] eqn:Gk; [|congruence].
      assert (Hd : a_keyid a <> a_keyid p).
      { rewrite (proj2 W _ _ Ga), (proj2 W _ _ Gk). apply N.eqb_neq in Ek. auto. }
      assert (Hp : forall b, lbal L k s b = bal p s b) by (intros; apply lbal_get; auto).
      simpl. destruct (internal o) as [[src dst]|] eqn:Ei.
      * destruct (internal_ok a s o v (Peer p) src dst Ei Hd) as (_ & H1 & _). rewrite H1.
        assert (debited who o (Some k) = Some (who, src)) as -> by
          (unfold debited; destruct o; simpl in Ei; try discriminate; inversion Ei; auto).
        rewrite Ha. intuition congruence.
      * destruct o; simpl in Ei; try discriminate; simpl; try congruence; rewrite ?Ha, ?Hp.
        -- destruct (add_free_ok a s v p Hd) as (b' & _ & H1 & _). rewrite H1. intuition congruence.
        -- destruct (sub_free_ok a s v p Hd) as (b' & _ & H1 & _). rewrite H1. intuition congruence.
        -- destruct (dex_deal_ok a s v p Hd) as (b' & _ & H1 & _). rewrite H1. intuition congruence.
  - simpl. destruct (internal o) as [[src dst]|] eqn:Ei.
    + destruct (internal_ok a s o v NoPeer src dst Ei I) as (_ & H1 & _). rewrite H1.
      assert (debited who o None = Some (who, src)) as -> by
        (unfold debited; destruct o; simpl in Ei; try discriminate; inversion Ei; auto).
      rewrite Ha. intuition congruence.
    + destruct o; simpl in Ei; try discriminate; cbn [fst debited]; try congruence; rewrite ?Ha.
      * destruct (add_free_alone a s v) as [H1 _]. rewrite H1. intuition congruence.
      * destruct (sub_free_alone a s v) as [H1 _]. rewrite H1. intuition congruence.
      * exfalso. apply Hdex; auto.
Qed.

Lemma l_operate_delta L who s o v other L' :
  ledger_wf L ->
  l_operate L who s o v other = (true, L') ->
  supply L s + mint_of s (mkReq who s o v other) < two64 ->
  forall k s' b,
    Z.of_N (lbal L' k s' b) = (Z.of_N (lbal L k s' b)
      - Z.of_N (at_place (debited who o other) s v k s' b)
      + Z.of_N (at_place (credited who o other) s v k s' b))%Z.
Proof.
  intros W Hl Hb. unfold l_operate in Hl.
  destruct (l_get L who) as [a|] eqn:Ga; [|discriminate].
  pose proof (holding_le_supply _ _ _ s W Ga) as Hh.
  assert (Hba : forall b, bal a s b <= holding a s) by (intros; apply bal_le_holding).
  assert (Internal : forall p src dst, distinct_peer a p -> internal o = Some (src, dst) ->
     ok (operate_balance a s o v p) = true ->
     forall s' b, Z.of_N (bal (self' (operate_balance a s o v p)) s' b) = (Z.of_N (bal a s' b)
        - Z.of_N (at_place (Some (who, src)) s v who s' b)
        + Z.of_N (at_place (Some (who, dst)) s v who s' b))%Z).
  { intros p src dst Hd Ei Hok s' b.
    destruct (internal_ok a s o v p src dst Ei Hd) as (_ & H1 & _ & H2).
    rewrite Hok in H1. pose proof (proj1 H1 eq_refl) as Hv.
    assert (Hne : src <> dst) by (destruct o; simpl in Ei; congruence).
    assert (Hsum : bal a s src + bal a s dst <= holding a s).
    { unfold holding. destruct src, dst; try congruence; lia. }
    destruct (H2 Hok) as (E1 & E2 & E3); [lia|]. rewrite !at_same.
    destruct (String.eqb s' s) eqn:Es; cbn [bucket_eqb andb].
    - apply String.eqb_eq in Es; subst s'.
      destruct (bucket_eqb b src) eqn:B1; [apply bucket_eqb_ok in B1|];
      destruct (bucket_eqb b dst) eqn:B2; try (apply bucket_eqb_ok in B2); subst; try congruence.
      + rewrite E1. lia.
      + rewrite E2. lia.
      + rewrite E3. { lia. } right. split; intros ->; [rewrite (proj2 (bucket_eqb_ok src src) eq_refl) in B1 |
          rewrite (proj2 (bucket_eqb_ok dst dst) eq_refl) in B2]; discriminate.
    - apply String.eqb_neq in Es. rewrite E3; auto. lia. }
  destruct other as [k0|].
  - destruct (k0 =? who) eqn:Ek.
    + apply N.eqb_eq in Ek; subst k0. inversion Hl; subst L'; clear Hl. rename H0 into Hok.
      destruct (internal o) as [[src dst]|] eqn:Ei.
      * replace (debited who o (Some who)) with (option_map (fun x => (who, x)) (Some src))
          by (unfold debited; destruct o; simpl in Ei; try discriminate; inversion Ei; auto).
        replace (credited who o (Some who)) with (option_map (fun x => (who, x)) (Some dst))
          by (unfold credited; destruct o; simpl in Ei; try discriminate; inversion Ei; auto).
        apply one_account_delta with (a := a); auto. cbn [option_map]. apply Internal; simpl; auto.
      * assert (Hm : mint_of s (mkReq who s o v (Some who)) = 0)
          by (unfold mint_of; simpl; destruct o; auto).
        assert (Hvb : match o with AddFree => True | SubFree => v <= bal a s BFree
                      | DexDeal => v <= bal a s BFrozen | _ => True end).
        { unfold operate_balance in Hok. destruct o; simpl in Hok; auto; unfold bal; simpl.
          - destruct (free (get_token a s) <? v) eqn:E; [discriminate | lia].
          - destruct (frozen (get_token a s) <? v) eqn:E; [discriminate | lia]. }
        assert (Hsum : bal a s BFree + bal a s BFrozen <= holding a s) by (unfold holding; lia).
        destruct o; simpl in Ei; try discriminate.
        -- (* AddFree *)
           simpl debited; simpl credited.
           change (Some (who, BFree)) with (option_map (fun x => (who, x)) (Some BFree)).
           apply one_account_delta with (a := a); auto. cbn [option_map]. intros s' b.
           assert (Hs : bal (self' (operate_balance a s AddFree v SelfPeer)) s' b = bal a s' b).
           { unfold operate_balance in *. simpl in *. rewrite get_set_same in *. simpl in *.
             destruct (add64 (free (get_token a s)) v <? v) eqn:E; [discriminate|]. simpl.
             rewrite !bal_set. destruct (String.eqb s' s) eqn:Es; auto.
             apply String.eqb_eq in Es; subst. unfold bal. destruct b; simpl; auto.
             pose proof (Hba BFree) as Hf. unfold bal in Hf; simpl in Hf. unfold add64 in *.
             destruct (N.lt_ge_cases (free (get_token a s) + v) two64).
             - rewrite N.mod_small in * by assumption. lia.
             - exfalso. destruct (N.lt_ge_cases v two64).
               + assert ((free (get_token a s) + v) mod two64 = free (get_token a s) + v - two64).
                 { symmetry. apply (N.mod_unique _ _ 1); unfold two64 in *; lia. } lia.
               + assert ((free (get_token a s) + v) mod two64 < two64)
                   by (apply N.mod_lt; unfold two64; lia). lia. }
           rewrite Hs. lia.
        -- (* SubFree *)
           simpl debited; simpl credited.
           change (Some (who, BFree)) with (option_map (fun x => (who, x)) (Some BFree)).
           apply one_account_delta with (a := a); auto. cbn [option_map]. intros s' b.
           assert (Hs : bal (self' (operate_balance a s SubFree v SelfPeer)) s' b = bal a s' b).
           { unfold operate_balance in *. simpl in *.
             destruct (free (get_token a s) <? v) eqn:E; [discriminate|]. simpl.
             rewrite !bal_set. destruct (String.eqb s' s) eqn:Es; auto.
             apply String.eqb_eq in Es; subst. rewrite get_set_same.
             pose proof (Hba BFree) as Hf. unfold bal in *. destruct b; simpl in *; auto.
             rewrite add64_small; lia. }
           rewrite Hs. lia.
        -- (* DexDeal *)
           simpl debited; simpl credited.
           change (Some (who, BFree)) with (option_map (fun x => (who, x)) (Some BFree)).
           change (Some (who, BFrozen)) with (option_map (fun x => (who, x)) (Some BFrozen)).
           apply one_account_delta with (a := a); auto. cbn [option_map]. intros s' b.
           destruct (self_peer_ok a s DexDeal v) as (H1 & H2 & H3 & H4); auto; [lia|].
           rewrite !at_same. destruct (String.eqb s' s) eqn:Es; cbn [bucket_eqb andb].
           ++ apply String.eqb_eq in Es; subst s'. destruct b; cbn [bucket_eqb andb]; try (rewrite H4; [lia|right; split; discriminate]).
              ** rewrite H3; lia.
              ** rewrite H2; lia.
           ++ apply String.eqb_neq in Es. rewrite H4; auto. lia.
    + destruct (l_get L k0) as [p|] eqn:Gk; [|discriminate].
      assert (Hkn : k0 <> who) by (now apply N.eqb_neq).
      assert (Hd : a_keyid a <> a_keyid p).
      { rewrite (proj2 W _ _ Ga), (proj2 W _ _ Gk). auto. }
      pose proof (two_holdings_le _ _ _ _ _ s W (not_eq_sym Hkn) Ga Gk) as H2h.
      assert (Hbp : forall b, bal p s b <= holding p s) by (intros; apply bal_le_holding).
      inversion Hl; subst; clear Hl. rename H0 into Hok. 
      destruct (operate_identity_peer a s o v p) as (p' & Hp' & Hip). rewrite Hp' in *.
      intros k s' b. rewrite !lbal_put.
      set (a' := self' (operate_balance a s o v (Peer p))) in *.
      assert (Hcore : forall s' b,
         Z.of_N (bal a' s' b) = (Z.of_N (bal a s' b) - Z.of_N (at_place (debited who o (Some k0)) s v who s' b)
            + Z.of_N (at_place (credited who o (Some k0)) s v who s' b))%Z /\
         Z.of_N (bal p' s' b) = (Z.of_N (bal p s' b) - Z.of_N (at_place (debited who o (Some k0)) s v k0 s' b)
            + Z.of_N (at_place (credited who o (Some k0)) s v k0 s' b))%Z).
      { clear k s' b. intros s' b. destruct (internal o) as [[src dst]|] eqn:Ei.
        - replace (debited who o (Some k0)) with (Some (who, src))
            by (unfold debited; destruct o; simpl in Ei; try discriminate; inversion Ei; auto).
          replace (credited who o (Some k0)) with (Some (who, dst))
            by (unfold credited; destruct o; simpl in Ei; try discriminate; inversion Ei; auto).
          split; [apply (Internal (Peer p)); simpl; auto|].
          destruct (internal_ok a s o v (Peer p) src dst Ei Hd) as (Hpe & _).
          rewrite Hp' in Hpe. inversion Hpe; subst p'. unfold at_place. rewrite Ek. simpl. lia.
        - destruct o; simpl in Ei; try discriminate; simpl debited; simpl credited;
            rewrite ?at_same; unfold at_place; rewrite ?Ek, ?(N.eqb_sym who k0), ?Ek; simpl.
          + exfalso. unfold operate_balance in Hok.
            rewrite (proj2 (N.eqb_neq _ _) Hd) in Hok. discriminate.
          + destruct (add_free_ok a s v p Hd) as (b' & Hb1 & H1 & H2).
            rewrite Hp' in Hb1; inversion Hb1; subst b'. rewrite Hok in H1.
            pose proof (proj1 H1 eq_refl) as Hv. pose proof (Hba BFree). pose proof (Hbp BFree).
            destruct (H2 Hok) as (E1 & E2 & E3); [lia|]. fold a' in E1, E3.
            destruct (String.eqb s' s) eqn:Es; cbn [bucket_eqb andb].
            * apply String.eqb_eq in Es; subst s'.
              destruct b; cbn [bucket_eqb andb]; try (destruct (E3 s BFrozen) as [X1 X2]; [right; discriminate|]; rewrite X1, X2; lia);
                try (destruct (E3 s BStaked) as [X1 X2]; [right; discriminate|]; rewrite X1, X2; lia);
                try (destruct (E3 s BVoted) as [X1 X2]; [right; discriminate|]; rewrite X1, X2; lia);
                try (destruct (E3 s BPledged) as [X1 X2]; [right; discriminate|]; rewrite X1, X2; lia).
              rewrite E1, E2. lia.
            * apply String.eqb_neq in Es. destruct (E3 s' b) as [X1 X2]; auto. rewrite X1, X2. lia.
          + destruct (sub_free_ok a s v p Hd) as (b' & Hb1 & H1 & _ & H2).
            rewrite Hp' in Hb1; inversion Hb1; subst b'. rewrite Hok in H1.
            pose proof (proj1 H1 eq_refl) as Hv. pose proof (Hba BFree). pose proof (Hbp BFree).
            destruct (H2 Hok) as (E1 & E2 & E3); [lia|]. fold a' in E1, E3.
            destruct (String.eqb s' s) eqn:Es; cbn [bucket_eqb andb].
            * apply String.eqb_eq in Es; subst s'.
              destruct b; cbn [bucket_eqb andb]; try (destruct (E3 s BFrozen) as [X1 X2]; [right; discriminate|]; rewrite X1, X2; lia);
                try (destruct (E3 s BStaked) as [X1 X2]; [right; discriminate|]; rewrite X1, X2; lia);
                try (destruct (E3 s BVoted) as [X1 X2]; [right; discriminate|]; rewrite X1, X2; lia);
                try (destruct (E3 s BPledged) as [X1 X2]; [right; discriminate|]; rewrite X1, X2; lia).
              rewrite E1, E2. lia.
            * apply String.eqb_neq in Es. destruct (E3 s' b) as [X1 X2]; auto. rewrite X1, X2. lia.
          + destruct (dex_deal_ok a s v p Hd) as (b' & Hb1 & H1 & _ & H2).
            rewrite Hp' in Hb1; inversion Hb1; subst b'. rewrite Hok in H1.
            pose proof (proj1 H1 eq_refl) as Hv. pose proof (Hba BFrozen). pose proof (Hbp BFree).
            destruct (H2 Hok) as (E1 & E2 & E3 & E4); [lia|]. fold a' in E1, E3.
            destruct (String.eqb s' s) eqn:Es; cbn [bucket_eqb andb].
            * apply String.eqb_eq in Es; subst s'.
              destruct b; cbn [bucket_eqb andb]; rewrite ?E1, ?E2, ?(E3 s BFree), ?(E4 s BFrozen), ?(E3 s BStaked), ?(E4 s BStaked),
                ?(E3 s BVoted), ?(E4 s BVoted), ?(E3 s BPledged), ?(E4 s BPledged) by (right; discriminate); lia.
            * apply String.eqb_neq in Es. rewrite E3, E4 by auto. lia. }
      destruct (k =? k0) eqn:Ek0.
      * apply N.eqb_eq in Ek0; subst k. rewrite (lbal_get _ _ _ _ _ Gk). apply Hcore.
      * destruct (k =? who) eqn:Ekw.
        -- apply N.eqb_eq in Ekw; subst k. rewrite (lbal_get _ _ _ _ _ Ga). apply Hcore.
        -- assert (Z1 : forall p0, (p0 = None \/ exists x, p0 = Some (who, x) \/ p0 = Some (k0, x)) -> at_place p0 s v k s' b = 0).
           { intros p0 [-> | [x [-> | ->]]]; simpl; auto; rewrite ?Ekw, ?Ek0; reflexivity. }
           rewrite !Z1; [lia| |]; unfold credited, debited; destruct o; simpl; eauto.
  - inversion Hl; subst L'; clear Hl. rename H0 into Hok.
    destruct (internal o) as [[src dst]|] eqn:Ei.
    + replace (debited who o None) with (option_map (fun x => (who, x)) (Some src))
        by (unfold debited; destruct o; simpl in Ei; try discriminate; inversion Ei; auto).
      replace (credited who o None) with (option_map (fun x => (who, x)) (Some dst))
        by (unfold credited; destruct o; simpl in Ei; try discriminate; inversion Ei; auto).
      apply one_account_delta with (a := a); auto. cbn [option_map]. apply Internal; simpl; auto.
    + destruct o; simpl in Ei; try discriminate; simpl debited; simpl credited.
      * change (Some (who, BFree)) with (option_map (fun x => (who, x)) (Some BFree)).
        change (@None (N * bucket)) with (option_map (fun x : bucket => (who, x)) None).
        apply one_account_delta with (a := a); auto. cbn [option_map]. intros s' b.
        unfold mint_of in Hb; simpl in Hb. rewrite String.eqb_refl in Hb.
        destruct (add_free_alone a s v) as [_ H2]. pose proof (Hba BFree).
        destruct H2 as [E1 E2]; [lia|]. rewrite at_same, at_none.
        destruct (String.eqb s' s) eqn:Es; cbn [bucket_eqb andb].
        -- apply String.eqb_eq in Es; subst s'. destruct b; cbn [bucket_eqb andb]; rewrite ?E1; rewrite ?E2 by (right; discriminate); try lia.
        -- apply String.eqb_neq in Es. rewrite E2 by auto. lia.
      * change (Some (who, BFree)) with (option_map (fun x => (who, x)) (Some BFree)).
        change (@None (N * bucket)) with (option_map (fun x : bucket => (who, x)) None).
        apply one_account_delta with (a := a); auto. cbn [option_map]. intros s' b.
        destruct (sub_free_alone a s v) as [H1 H2]. rewrite Hok in H1. pose proof (proj1 H1 eq_refl) as Hv.
        destruct (H2 Hok) as [E1 E2]. rewrite at_same, at_none.
        destruct (String.eqb s' s) eqn:Es; cbn [bucket_eqb andb].
        -- apply String.eqb_eq in Es; subst s'. destruct b; cbn [bucket_eqb andb]; rewrite ?E1; rewrite ?E2 by (right; discriminate); try lia.
        -- apply String.eqb_neq in Es. rewrite E2 by auto. lia.
Qed.
