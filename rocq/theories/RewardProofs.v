(** Proofs about block rewards. *)
From Coq Require Import String List Bool NArith ZArith Lia Arith.
From Coq Require Import ZifyBool ZifyNat ZifyN.
From Verif Require Import Prelude PreludeFacts AccountModel AccountSpec AccountProofs TxModel TxSpec
  TxProofs RegidModel RegidSpec RegidProofs RewardSpec.
Import ListNotations.
Open Scope N_scope.

(** What adding coins does to an account object. *)
Definition plus (a : account) (s : string) (v : N) : account :=
  self' (operate_balance a s AddFree v NoPeer).
Fixpoint plus_all (a : account) (fs : list (string * N)) : account :=
  match fs with [] => a | (s, v) :: fs => plus_all (plus a s v) fs end.
Definition items (w : reward) : list (string * N) :=
  match w with RPlain n => [(WICC, n)] | RCoins fs i => fs ++ [(WICC, i)] end.
Definition known_symbol (s : string) : bool := String.eqb s WICC || String.eqb s WUSD.
Definition payable (w : reward) : bool := forallb (fun f => known_symbol (fst f)) (items w).

Lemma plus_identity a s v : same_identity a (plus a s v).
Proof. apply operate_identity. Qed.
Lemma plus_all_identity : forall fs a, same_identity a (plus_all a fs).
Proof.
  induction fs as [|[s v] fs IH]; intros a; cbn [plus_all]; [repeat split|].
  eapply same_identity_trans; [apply plus_identity|apply IH].
Qed.
Lemma plus_all_app a l m : plus_all a (l ++ m) = plus_all (plus_all a l) m.
Proof. revert a. induction l as [|[s v] l IH]; intros a; cbn [plus_all app]; auto. Qed.

Lemma plus_bal a s v s' b : bal (plus a s v) s' b =
  if String.eqb s' s && bucket_eqb b BFree then add64 (bal a s BFree) v else bal a s' b.
Proof.
  unfold plus, operate_balance. cbn [self']. rewrite !bal_set. unfold bal.
  destruct (String.eqb s' s) eqn:E; [|reflexivity]. apply String.eqb_eq in E. subst s'.
  destruct b; reflexivity.
Qed.

Definition total (fs : list (string * N)) (s : string) : N :=
  fold_right (fun f t => (if String.eqb s (fst f) then snd f else 0) + t) 0 fs.

Lemma plus_all_bal : forall fs a s b,
  bal (plus_all a fs) s b mod two64 = (bal a s b + (if bucket_eqb b BFree then total fs s else 0)) mod two64 /\
  (bal a s b + total fs s < two64 ->
   bal (plus_all a fs) s b = bal a s b + (if bucket_eqb b BFree then total fs s else 0)) /\
  (b <> BFree -> bal (plus_all a fs) s b = bal a s b).
Proof.
  induction fs as [|[t v] fs IH]; intros a s b.
  - cbn. destruct (bucket_eqb b BFree); rewrite N.add_0_r; auto.
  - cbn [plus_all total fold_right fst snd]. fold (total fs s).
    destruct (IH (plus a t v) s b) as (H1 & H2 & H3). pose proof (plus_bal a t v s b) as P.
    destruct (String.eqb s t) eqn:E.
    + apply String.eqb_eq in E. subst t. destruct (bucket_eqb b BFree) eqn:Eb; cbn [andb] in P.
      * assert (b = BFree) by (destruct b; try discriminate Eb; reflexivity). subst b.
        rewrite P in *. unfold add64 in *. split; [|split; [|congruence]].
        -- rewrite H1. rewrite N.add_mod_idemp_l by discriminate. f_equal. lia.
        -- intros L. rewrite N.mod_small in H2 by lia. rewrite H2 by lia. lia.
      * rewrite P in *. split; [rewrite H1; auto|]. split; [intros L; apply H2; lia|auto].
    + cbn [andb] in P. rewrite P in *. cbn [N.add]. split; [rewrite H1; auto|]. split; auto.
Qed.

Lemma promised_total w s : promised w s = total (items w) s.
Proof.
  destruct w as [n|fs i]; cbn [promised items].
  - unfold total. cbn. lia.
  - unfold total. rewrite fold_right_app. cbn [fold_right fst snd].
    induction fs as [|f fs IH]; cbn [fold_right]; lia.
Qed.

(** Running it on the memory of a transaction that holds one account. *)
Lemma add_coins_alone k a s v acc reg key ord :
  add_coins k s v (mkTx acc reg [(k, a)] key ord) = Some (mkTx acc reg [(k, plus a s v)] key ord).
Proof.
  unfold add_coins, m_operate, l_operate. cbn [t_mem]. unfold l_get, l_put. cbn [fget fput].
  rewrite N.eqb_refl. unfold set_mem. cbn [t_acc t_reg t_key t_orders].
  destruct (operate_balance a s AddFree v NoPeer) as [o x y z] eqn:E.
  pose proof (proj1 (add_free_alone a s v)) as O. rewrite E in O. cbn [ok] in O. subst o.
  unfold plus. rewrite E. reflexivity.
Qed.
Lemma add_fees_alone k acc reg key ord : forall fs a,
  add_fees k fs (mkTx acc reg [(k, a)] key ord) =
  if forallb (fun f => known_symbol (fst f)) fs then Some (mkTx acc reg [(k, plus_all a fs)] key ord) else None.
Proof.
  induction fs as [|[s v] fs IH]; intros a; cbn [add_fees forallb plus_all fst]; [reflexivity|].
  fold (known_symbol s). destruct (known_symbol s); cbn [andb]; [|reflexivity].
  rewrite add_coins_alone. apply IH.
Qed.
Lemma pay_alone k a w acc reg key ord :
  pay_reward w k (mkTx acc reg [(k, a)] key ord) =
  if payable w then Some (mkTx acc reg [(k, plus_all a (items w))] key ord) else None.
Proof.
  destruct w as [n|fs i]; cbn [pay_reward]; unfold payable; cbn [items].
  - cbn. apply add_coins_alone.
  - rewrite add_fees_alone, forallb_app. cbn [forallb fst known_symbol].
    replace (known_symbol WICC) with true by reflexivity. rewrite !andb_true_r.
    destruct (forallb _ fs); [|reflexivity]. rewrite add_coins_alone, plus_all_app. reflexivity.
Qed.

(** What the check of a reward says of what it promises. *)
Lemma amounts_two fs a v b w : amounts_eqb fs [(a, v); (b, w)] = true -> fs = [(a, v); (b, w)].
Proof.
  intros A. destruct fs as [|[s x] [|[t y] [|[u z] fs]]]; cbn [amounts_eqb] in A; try (rewrite ?andb_false_r in A; discriminate A).
  rewrite !andb_true_r in A. apply andb_true_iff in A as [A1 A2]. apply andb_true_iff in A1 as [A1 B1].
  apply andb_true_iff in A2 as [A2 B2]. apply String.eqb_eq in A1, A2. apply N.eqb_eq in B1, B2. congruence.
Qed.

Lemma right_promised lenient b h : lenient h = false -> amounts_right lenient h b = true ->
  forall s, promised (b_amounts b) s =
    match b_amounts b with
    | RPlain _ => if String.eqb s WICC then fst (b_fees b) else 0
    | RCoins _ _ =>
        if String.eqb s WICC then fst (b_fees b) + b_inflation b
        else if String.eqb s WUSD then snd (b_fees b) else 0
    end.
Proof.
  intros L A s. unfold amounts_right in A. rewrite L in A. destruct (b_amounts b) as [n|fs i].
  - apply N.eqb_eq in A. subst n. reflexivity.
  - cbn [orb] in A. apply andb_true_iff in A as [A B]. apply amounts_two in A. apply N.eqb_eq in B. subst fs i.
    cbn [promised fold_right fst snd]. destruct (String.eqb s WICC) eqn:E.
    + apply String.eqb_eq in E. subst s. change (String.eqb WICC WUSD) with false. cbn iota. lia.
    + destruct (String.eqb s WUSD); lia.
Qed.

Section Rewards.
  Variable pk_keyid : N -> N.
  Variable address : regid -> N.

  Definition paid_items (paid : option reward) : list (string * N) :=
    match paid with None => [] | Some w => items w end.

  (** What executing a reward does, exactly. *)
  Lemma reward_exact r u paid st k a : inv pk_keyid address (clear_mem st) ->
    denotes pk_keyid (t_reg st) u = Some k -> l_get (t_acc st) k = Some a -> regid_empty (a_regid a) = false ->
    (execute_reward pk_keyid r u paid st = None <-> match paid with Some w => payable w = false | None => False end) /\
    forall st', execute_reward pk_keyid r u paid st = Some st' ->
      (forall j, l_get (t_acc st') j = if j =? k then Some (plus_all a (paid_items paid)) else l_get (t_acc st) j) /\
      (forall s, owner_of st' s = owner_of st s).
  Proof.
    intros I D A R. unfold execute_reward, execute_full, get_account. cbn [t_key t_mem t_reg t_acc fget].
    assert (G : get_key_id pk_keyid (t_reg st) u = Some k) by (destruct u; exact D).
    rewrite G, A. cbn [set_mem t_mem t_acc t_reg t_orders t_key fput].
    cbn [fget]. rewrite N.eqb_refl, R. cbn [negb].
    assert (Ka : a_keyid a = k) by (apply (proj1 (i_wf _ _ _ I)); exact A).
    assert (Ro : owner_of st (a_regid a) = Some k).
    { apply (i_reg _ _ _ I k (a_regid a) (a_pubkey a)); [|exact R]. unfold iv, view, clear_mem. cbn [t_mem t_acc fget].
      rewrite A. reflexivity. }
    set (e := match u with UPub _ => _ | _ => _ end).
    assert (E : e = mkTx (t_acc st) (t_reg st) [(k, a)] (Some k) (t_orders st)) by (subst e; destruct u; reflexivity).
    rewrite E. clear e E. cbn [N.ltb N.compare].
    set (body := match paid with None => _ | Some w => _ end).
    assert (B : body = match paid with Some w => if payable w then Some (mkTx (t_acc st) (t_reg st) [(k, plus_all a (paid_items paid))] (Some k) (t_orders st)) else None
                       | None => Some (mkTx (t_acc st) (t_reg st) [(k, plus_all a (paid_items paid))] (Some k) (t_orders st)) end).
    { subst body. destruct paid as [w|]; [apply pay_alone|reflexivity]. }
    rewrite B. clear body B.
    set (a' := plus_all a (paid_items paid)).
    assert (Id : same_identity a a') by apply plus_all_identity.
    assert (Sv : forall m key ord st', (let '(acc, reg) := save_all (t_acc st) (t_reg st) [(k, a')] in Some (mkTx acc reg m key ord)) = Some st' ->
      (forall j, l_get (t_acc st') j = if j =? k then Some a' else l_get (t_acc st) j) /\
      (forall s, owner_of st' s = owner_of st s)).
    { intros m key ord st'. cbn [save_all]. unfold save_account.
      rewrite <- (proj1 Id), Ka. rewrite <- (proj1 (proj2 Id)), R. intros [= <-]. cbn [t_acc t_reg]. split.
      - intros j. apply lget_put.
      - intros s. unfold owner_of. cbn [t_reg]. rewrite (fget_put regid_eqb regid_eqb_ok).
        destruct (regid_eqb s (a_regid a)) eqn:E; auto. apply regid_eqb_ok in E. subst s. symmetry. exact Ro. }
    destruct paid as [w|].
    - destruct (payable w); cbn [t_acc t_reg t_mem t_key t_orders].
      + split; [|apply Sv]. cbn [save_all]. unfold save_account. split; discriminate.
      + split; [tauto|discriminate].
    - cbn [t_acc t_reg t_mem t_key t_orders]. split; [|apply Sv]. cbn [save_all]. unfold save_account. split; [discriminate|tauto].
  Qed.

  (** An id, key or public key that leads to a registered account. *)
  Definition sits (st : txst) (u : uid) (k : N) : Prop :=
    denotes pk_keyid (t_reg st) u = Some k /\
    exists a, l_get (t_acc st) k = Some a /\ regid_empty (a_regid a) = false.

  Lemma stored_iv_of st k a : l_get (t_acc st) k = Some a -> iv (clear_mem st) k = Some (a_regid a, a_pubkey a).
  Proof. intros A. unfold iv, view, clear_mem. cbn [t_mem t_acc fget]. rewrite A. reflexivity. Qed.

  Lemma owner_account st r k : inv pk_keyid address (clear_mem st) -> owner_of st r = Some k ->
    exists a, l_get (t_acc st) k = Some a /\ a_regid a = r /\ regid_empty r = false.
  Proof.
    intros I O. destruct (i_own _ _ _ I r k O) as (E & p & H). unfold iv, view, clear_mem in H.
    cbn [t_mem t_acc fget] in H. destruct (l_get (t_acc st) k) as [a|]; [|discriminate].
    exists a. cbn in H. unfold ident in H. injection H as H1 H2. rewrite H1. auto.
  Qed.

  Lemma account_owner st k a : inv pk_keyid address (clear_mem st) -> l_get (t_acc st) k = Some a ->
    regid_empty (a_regid a) = false -> owner_of st (a_regid a) = Some k.
  Proof. intros I A R. apply (i_reg _ _ _ I k (a_regid a) (a_pubkey a)); [now apply stored_iv_of|exact R]. Qed.

  Lemma sits_keeps st st' u k : inv pk_keyid address (clear_mem st) -> inv pk_keyid address (clear_mem st') ->
    keeps_ids st st' -> sits st u k -> sits st' u k.
  Proof.
    intros I I' K (D & a & A & R).
    assert (X : id_of st' k = Some (a_regid a)) by (apply K; unfold id_of; rewrite A, R; reflexivity).
    unfold id_of in X. destruct (l_get (t_acc st') k) as [a'|] eqn:A'; [|discriminate].
    destruct (regid_empty (a_regid a')) eqn:R'; [discriminate|]. inversion X as [E].
    split; [|exists a'; auto]. destruct u as [r|j|p|]; auto.
    cbn [denotes] in *. destruct (owner_account st r k I D) as (b & B & Eb & _). rewrite A in B. inversion B; subst b.
    rewrite <- Eb, <- E. apply (account_owner st'); auto.
  Qed.

  Lemma verify_sits b st : inv pk_keyid address (clear_mem st) -> verify_reward pk_keyid b st = true ->
    exists k, owner_of st (b_producer b) = Some k /\ sits st (b_reward b) k.
  Proof.
    intros I V. unfold verify_reward in V. cbn [stored] in V.
    destruct (regid_empty (b_producer b)) eqn:Ep; [discriminate|].
    destruct (fget regid_eqb (t_reg st) (b_producer b)) as [k|] eqn:O; [|discriminate].
    destruct (owner_account st _ k I O) as (d & D & Ed & Rd). rewrite D in V.
    destruct (stored pk_keyid st (b_reward b)) as [a|] eqn:A; [|discriminate]. apply regid_eqb_ok in V.
    exists k. split; [exact O|].
    assert (Q : forall j, l_get (t_acc st) j = Some a -> j = k).
    { intros j J. assert (owner_of st (a_regid a) = Some j) as X by (apply account_owner; auto; rewrite <- V, Ed; exact Rd).
      rewrite <- V, Ed in X. unfold owner_of in X. congruence. }
    assert (Ra : regid_empty (a_regid a) = false) by (rewrite <- V, Ed; exact Rd).
    destruct (b_reward b) as [r|j|p|]; cbn [stored] in A; try discriminate.
    - destruct (regid_empty r); [discriminate|]. destruct (fget regid_eqb (t_reg st) r) as [j|] eqn:J; [|discriminate].
      pose proof (Q j A). subst j. split; [exact J|]. exists a. auto.
    - pose proof (Q j A). subst j. split; [reflexivity|]. exists a. auto.
    - pose proof (Q _ A) as E. split; [cbn; congruence|]. exists a. rewrite <- E. auto.
  Qed.

  Variable valid : N -> bool.
  Variable mint_height : N.
  Variable lenient : N -> bool.
  Hypothesis Hno : no_collisions pk_keyid address.

  Notation connect_at := (connect_at pk_keyid address valid mint_height lenient).
  Notation grown := (grown pk_keyid address valid mint_height lenient).
  Notation undue := (undue pk_keyid address valid mint_height lenient).
  Notation own := (own pk_keyid address valid mint_height lenient).
  Notation roomy := (roomy pk_keyid address valid mint_height lenient).

  Lemma connect_split h mature b st : connect_at h mature b st =
    match connect_at h None b st, mature with
    | Some mid, Some m => execute_reward pk_keyid (position h mature_index) (b_reward m) (Some (b_amounts m)) mid
    | o, _ => o
    end.
  Proof.
    unfold RegidModel.connect_at. destruct (verify_reward pk_keyid b st); cbn [negb]; [|reflexivity].
    destruct (apply_txs _ _ _ _ _ _ _ _) as [st1|]; [|reflexivity].
    destruct (amounts_right lenient h b); cbn [negb]; [|reflexivity].
    destruct (execute_reward _ _ _ None st1) as [st2|]; [|reflexivity].
    destruct (apply_changes _ _ st2) as [st3|]; [|reflexivity]. destruct mature; reflexivity.
  Qed.

  Lemma connect_checked h mature b st st' : connect_at h mature b st = Some st' ->
    verify_reward pk_keyid b st = true /\ amounts_right lenient h b = true.
  Proof.
    unfold RegidModel.connect_at. destruct (verify_reward pk_keyid b st); cbn [negb]; [|discriminate].
    destruct (apply_txs _ _ _ _ _ _ _ _) as [st1|]; [|discriminate].
    destruct (amounts_right lenient h b); cbn [negb]; [auto|discriminate].
  Qed.

  Lemma skipn_nth {A} (l : list A) : forall n, skipn n l = match nth_error l n with Some x => x :: skipn (S n) l | None => [] end.
  Proof.
    induction l as [|x l IH]; intros [|n]; try reflexivity. cbn [skipn nth_error]. rewrite IH.
    destruct (nth_error l n); reflexivity.
  Qed.

  Lemma height_cons (b : block) (st : txst) ch : height_of ((b, st) :: ch) = height_of ch + 1.
  Proof. unfold height_of. cbn [List.length]. lia. Qed.

  Lemma due_split (ch : list (block * txst)) m : due ch = Some m ->
    exists sm, ch = firstn (maturity - 1) ch ++ (m, sm) :: skipn maturity ch.
  Proof.
    unfold due. destruct (nth_error ch (maturity - 1)) as [[m' sm]|] eqn:E; [|discriminate]. intros [= <-]. exists sm.
    rewrite <- (firstn_skipn (maturity - 1) ch) at 1. f_equal. rewrite skipn_nth, E. reflexivity.
  Qed.

  (** The account that is paid. *)
  Lemma due_sits g ch m : start pk_keyid address g -> grown g ch -> fits ch -> due ch = Some m ->
    exists k, owner_of (tip g (skipn maturity ch)) (b_producer m) = Some k /\ sits (tip g ch) (b_reward m) k.
  Proof.
    intros S G F D. destruct (due_split ch m D) as (sm & E).
    set (c1 := firstn (maturity - 1) ch) in *. set (c2 := skipn maturity ch) in *.
    assert (G0 : grown g ((m, sm) :: c2)) by (rewrite E in G; exact (grown_app _ _ _ _ _ g c1 _ G)).
    assert (F0 : fits ((m, sm) :: c2)) by (rewrite E in F; exact (fits_app valid mint_height lenient c1 _ F)).
    assert (F2 : fits c2) by exact (fits_app valid mint_height lenient [(m, sm)] _ F0).
    destruct G0 as [G2 Cm]. destruct (connect_checked _ _ _ _ _ Cm) as [V _].
    destruct (grown_inv _ _ _ _ Hno _ g S c2 G2 F2) as (I2 & _).
    destruct (grown_inv _ _ _ _ Hno _ g S ch G F) as (I & _).
    destruct (verify_sits m (tip g c2) I2 V) as (k & O & Si). exists k. split; [exact O|].
    apply (sits_keeps (tip g c2)); auto.
    assert (E' : ch = (c1 ++ [(m, sm)]) ++ c2) by (rewrite <- app_assoc; exact E).
    rewrite E'. rewrite E' in G, F. apply (grown_keeps _ _ valid mint_height Hno lenient); auto.
  Qed.

  Lemma undue_inv g ch b mid : start pk_keyid address g -> grown g ch -> fits ch ->
    height_of ch + 1 < two32 -> N.of_nat (List.length (b_txs b)) < two16 -> undue g ch b = Some mid ->
    inv pk_keyid address (clear_mem mid) /\ keeps_ids (tip g ch) mid.
  Proof.
    intros S G F Hh Hl U. destruct (grown_inv _ _ _ _ Hno _ g S ch G F) as (I & B & _).
    destruct (connect_inv _ _ valid mint_height Hno lenient (height_of ch + 1) None b (tip g ch) mid) as (I' & K & _); auto; try lia.
    { discriminate. }
    split; auto. intros k r. rewrite !id_idv. apply K.
  Qed.

  (** Connecting a block: what it does by itself, then the reward that is due. *)
  Lemma connected g b st ch : start pk_keyid address g -> grown g ((b, st) :: ch) -> fits ((b, st) :: ch) ->
    exists mid, undue g ch b = Some mid /\
    match due ch with
    | None => st = mid
    | Some m => exists k a, owner_of (tip g (skipn maturity ch)) (b_producer m) = Some k /\
        l_get (t_acc mid) k = Some a /\
        (forall j, l_get (t_acc st) j = if j =? k then Some (plus_all a (items (b_amounts m))) else l_get (t_acc mid) j) /\
        (forall s, owner_of st s = owner_of mid s)
    end.
  Proof.
    intros S [G C] F. assert (Fc : fits ch) by exact (fits_app valid mint_height lenient [(b, st)] _ F).
    destruct F as [F1 F2]. rewrite height_cons in F1. pose proof (F2 b st (or_introl eq_refl)) as Hl.
    rewrite connect_split in C. fold (undue g ch b) in C. destruct (undue g ch b) as [mid|] eqn:U; [|discriminate].
    exists mid. split; [reflexivity|]. destruct (due ch) as [m|] eqn:D; [|congruence].
    destruct (due_sits g ch m S G Fc D) as (k & O & Si).
    destruct (grown_inv _ _ _ _ Hno _ g S ch G Fc) as (I & _).
    destruct (undue_inv g ch b mid S G Fc F1 Hl U) as (Im & K).
    pose proof (sits_keeps _ _ _ _ I Im K Si) as (Dm & a & A & R).
    exists k, a. split; [exact O|]. split; [exact A|].
    exact (proj2 (reward_exact (position (height_of ch + 1) mature_index) (b_reward m) (Some (b_amounts m)) mid k a Im Dm A R) st C).
  Qed.

  (** A block is never refused for the reward that is due. *)
  Lemma due_payable g ch m : grown g ch -> lenient (height_of (skipn maturity ch) + 1) = false -> due ch = Some m -> payable (b_amounts m) = true.
  Proof.
    intros G L D. destruct (due_split ch m D) as (sm & E). rewrite E in G.
    apply (grown_app _ _ _ _ _ g) in G. destruct G as [_ C]. destruct (connect_checked _ _ _ _ _ C) as [_ A].
    unfold amounts_right in A. rewrite L in A. destruct (b_amounts m) as [n|fs i]; [reflexivity|]. cbn [orb] in A.
    apply andb_true_iff in A as [A _]. apply amounts_two in A. subst fs. reflexivity.
  Qed.

  Lemma never_refused g ch b mid m : start pk_keyid address g -> grown g ch -> fits ch ->
    height_of ch + 1 < two32 -> N.of_nat (List.length (b_txs b)) < two16 ->
    undue g ch b = Some mid -> due ch = Some m -> payable (b_amounts m) = true ->
    exists st, connect_at (height_of ch + 1) (due ch) b (tip g ch) = Some st.
  Proof.
    intros S G F Hh Hl U D P. rewrite connect_split. fold (undue g ch b). rewrite U, D.
    destruct (due_sits g ch m S G F D) as (k & O & Si).
    destruct (grown_inv _ _ _ _ Hno _ g S ch G F) as (I & _).
    destruct (undue_inv g ch b mid S G F Hh Hl U) as (Im & K).
    pose proof (sits_keeps _ _ _ _ I Im K Si) as (Dm & a & A & R).
    pose proof (proj1 (reward_exact (position (height_of ch + 1) mature_index) (b_reward m) (Some (b_amounts m)) mid k a Im Dm A R)) as X.
    destruct (execute_reward _ _ _ _ mid) as [st|]; [eauto|]. pose proof (proj1 X eq_refl). congruence.
  Qed.

  Lemma refused g ch b m : start pk_keyid address g -> grown g ch -> fits ch ->
    height_of ch + 1 < two32 -> N.of_nat (List.length (b_txs b)) < two16 ->
    due ch = Some m -> payable (b_amounts m) = false -> connect_at (height_of ch + 1) (due ch) b (tip g ch) = None.
  Proof.
    intros S G F Hh Hl D P. rewrite connect_split. fold (undue g ch b).
    destruct (undue g ch b) as [mid|] eqn:U; [|reflexivity]. rewrite D.
    destruct (due_sits g ch m S G F D) as (k & O & Si).
    destruct (grown_inv _ _ _ _ Hno _ g S ch G F) as (I & _).
    destruct (undue_inv g ch b mid S G F Hh Hl U) as (Im & K).
    pose proof (sits_keeps _ _ _ _ I Im K Si) as (Dm & a & A & R).
    apply (proj1 (reward_exact (position (height_of ch + 1) mature_index) (b_reward m) (Some (b_amounts m)) mid k a Im Dm A R)).
    exact P.
  Qed.

  Lemma free_paid st mid k a w j s : l_get (t_acc mid) k = Some a ->
    (forall j, l_get (t_acc st) j = if j =? k then Some (plus_all a (items w)) else l_get (t_acc mid) j) ->
    forall b, lbal (t_acc st) j s b mod two64 =
      (lbal (t_acc mid) j s b + (if (j =? k) && bucket_eqb b BFree then promised w s else 0)) mod two64 /\
    (lbal (t_acc mid) j s b + promised w s < two64 -> lbal (t_acc st) j s b =
      lbal (t_acc mid) j s b + (if (j =? k) && bucket_eqb b BFree then promised w s else 0)) /\
    (b <> BFree -> lbal (t_acc st) j s b = lbal (t_acc mid) j s b).
  Proof.
    intros A H b. unfold lbal. rewrite H. destruct (j =? k) eqn:E.
    - apply N.eqb_eq in E. subst j. rewrite A. cbn [andb]. rewrite promised_total. apply plus_all_bal.
    - cbn [andb]. rewrite N.add_0_r. auto.
  Qed.

  Lemma mod_eq_Z x y : x mod two64 = y mod two64 -> exists z, Z.of_N x = (Z.of_N y + z * Z.of_N two64)%Z.
  Proof.
    intros E. exists (Z.of_N (x / two64) - Z.of_N (y / two64))%Z.
    pose proof (N.div_mod x two64 ltac:(discriminate)). pose proof (N.div_mod y two64 ltac:(discriminate)).
    rewrite E in H. set (q := x / two64) in *. set (p := y / two64) in *. set (r := y mod two64) in *.
    clearbody q p r. unfold two64 in *. lia.
  Qed.

  Lemma earned_step g (b : block) (st : txst) ch k s : earned g (skipn maturity ((b, st) :: ch)) k s =
    earned g (skipn maturity ch) k s +
    match due ch with
    | Some m => match owner_of (tip g (skipn maturity ch)) (b_producer m) with
                | Some j => if j =? k then promised (b_amounts m) s else 0
                | None => 0
                end
    | None => 0
    end.
  Proof.
    unfold due. change maturity with (S (maturity - 1)) at 1. cbn [skipn]. rewrite (skipn_nth ch (maturity - 1)).
    destruct (nth_error ch (maturity - 1)) as [[m sm]|] eqn:E; [reflexivity|].
    rewrite skipn_all2; [reflexivity|]. apply nth_error_None in E. unfold maturity in *. lia.
  Qed.

  Lemma once g : start pk_keyid address g -> forall ch, grown g ch -> fits ch -> forall k s,
    (exists z, Z.of_N (free_of (tip g ch) k s) =
       (Z.of_N (free_of g k s) + own g ch k s + Z.of_N (earned g (skipn maturity ch) k s) + z * Z.of_N two64)%Z) /\
    (roomy g ch -> Z.of_N (free_of (tip g ch) k s) =
       (Z.of_N (free_of g k s) + own g ch k s + Z.of_N (earned g (skipn maturity ch) k s))%Z).
  Proof.
    intros S. induction ch as [|[b st] ch IH]; intros G F k s.
    - cbn. split; [exists 0%Z|intros _]; lia.
    - assert (Fc : fits ch) by exact (fits_app valid mint_height lenient [(b, st)] _ F). pose proof G as [Gc _].
      destruct (IH Gc Fc k s) as ((z & Hz) & He). clear IH.
      destruct (connected g b st ch S G F) as (mid & U & D).
      rewrite earned_step. cbn [tip RewardSpec.own]. rewrite U.
      assert (Ro : roomy g ((b, st) :: ch) -> roomy g ch).
      { intros R c1 b' st' c2 m mid' E. apply (R ((b, st) :: c1) b' st' c2 m mid'). rewrite E. reflexivity. }
      destruct (due ch) as [m|] eqn:Du.
      + destruct D as (j & a & O & A & L & _). rewrite O.
        destruct (free_paid st mid j a (b_amounts m) k s A L BFree) as (M & X & _).
        cbn [bucket_eqb] in M, X. rewrite andb_true_r in M, X. rewrite (N.eqb_sym k j) in M, X.
        fold (free_of st k s) in M, X. fold (free_of mid k s) in M, X. split.
        * destruct (mod_eq_Z _ _ M) as (z' & Hz'). exists (z + z')%Z. rewrite Hz'. lia.
        * intros R. rewrite X; [|apply (R [] b st ch m mid eq_refl Du U)]. specialize (He (Ro R)). lia.
      + subst st. split; [exists z; lia|]. intros R. specialize (He (Ro R)). lia.
  Qed.
End Rewards.
