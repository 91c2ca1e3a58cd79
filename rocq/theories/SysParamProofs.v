(** Proofs about the governed parameters. *)
From Coq Require Import String List Bool NArith ZArith Lia.
From Verif Require Import Prelude PreludeFacts SysParamModel SysParamSpec.
Import ListNotations.
Open Scope N_scope.

Lemma pair_eqb2_ok : forall a b, pair_eqb2 a b = true <-> a = b.
Proof.
  intros [a1 a2] [b1 b2]. unfold pair_eqb2; simpl. rewrite andb_true_iff, !String.eqb_eq.
  split; [intros [-> ->]; auto | intros H; inversion H; auto].
Qed.
Lemma cdpkey_eqb_ok : forall a b, cdpkey_eqb a b = true <-> a = b.
Proof.
  intros [a1 a2] [b1 b2]. unfold cdpkey_eqb; cbn [fst snd]. rewrite andb_true_iff, pair_eqb2_ok, N.eqb_eq.
  split; [intros [-> ->]; auto | intros H; inversion H; auto].
Qed.
Lemma feekey_eqb_ok : forall a b, feekey_eqb a b = true <-> a = b.
Proof.
  intros [a1 a2] [b1 b2]. unfold feekey_eqb; cbn [fst snd]. rewrite andb_true_iff, String.eqb_eq, N.eqb_eq.
  split; [intros [-> ->]; auto | intros H; inversion H; auto].
Qed.

Lemma get_nz_put {K} (eqb : K -> K -> bool) (ok : forall a b, eqb a b = true <-> a = b) m k v k' :
  get_nz eqb (fput eqb m k v) k' =
  if eqb k' k then (if v =? 0 then None else Some v) else get_nz eqb m k'.
Proof. unfold get_nz. rewrite (fget_put eqb ok). destruct (eqb k' k); auto. Qed.

(** ** System parameters *)

Lemma get_param_set p t v ty :
  get_param (set_param p t v) ty =
  if ty =? t then option_map (fun d => if v =? 0 then d else v) (fget N.eqb sys_table ty)
  else get_param p ty.
Proof.
  unfold get_param, set_param. cbn [p_sys]. destruct (fget N.eqb sys_table ty) as [d|].
  - rewrite (get_nz_put N.eqb N_eqb_ok). destruct (ty =? t); auto. destruct (v =? 0); auto.
  - destruct (ty =? t); auto.
Qed.

Lemma exec_sys_get h : forall l p ty,
  get_param (exec_sys h l p) ty =
  match setting l ty with
  | Some v => option_map (fun d => if v =? 0 then d else v) (fget N.eqb sys_table ty)
  | None => get_param p ty
  end.
Proof.
  unfold exec_sys. induction l as [|[t v] l IH]; intros p ty; cbn [fold_left setting fst snd]; auto.
  rewrite IH. destruct (setting l ty); auto.
  assert (E : get_param (if t =? 50 then set_vote_height (set_param p t v) h else set_param p t v) ty
    = get_param (set_param p t v) ty) by (destruct (t =? 50); reflexivity).
  rewrite E, get_param_set, (N.eqb_sym ty t). destruct (t =? ty); reflexivity.
Qed.

Lemma exec_sys_frame h : forall l p,
  p_cdp (exec_sys h l p) = p_cdp p /\ p_fee (exec_sys h l p) = p_fee p /\
  p_int (exec_sys h l p) = p_int p /\ p_bps (exec_sys h l p) = p_bps p /\
  p_newbps (exec_sys h l p) = p_newbps p.
Proof.
  unfold exec_sys. induction l as [|[t v] l IH]; intros p; cbn [fold_left fst snd]; auto.
  destruct (IH (if t =? 50 then set_vote_height (set_param p t v) h else set_param p t v))
    as (-> & -> & -> & -> & ->).
  destruct (t =? 50); auto.
Qed.

(** ** CDP parameters *)

Lemma get_cdp_set p cp t v cp' ty :
  get_cdp_param (set_cdp_param p cp t v) cp' ty =
  if pair_eqb2 cp' cp && (ty =? t)
  then option_map (fun d => if v =? 0 then d else v) (fget N.eqb cdp_table ty)
  else get_cdp_param p cp' ty.
Proof.
  unfold get_cdp_param, set_cdp_param. cbn [p_cdp]. destruct (fget N.eqb cdp_table ty) as [d|].
  - rewrite (get_nz_put cdpkey_eqb cdpkey_eqb_ok). unfold cdpkey_eqb at 1. cbn [fst snd].
    destruct (pair_eqb2 cp' cp && (ty =? t)); auto. destruct (v =? 0); auto.
  - destruct (pair_eqb2 cp' cp && (ty =? t)); auto.
Qed.

Lemma set_interest_frame p cp ty h v p' : set_interest_param p cp ty h v = Some p' ->
  p_sys p' = p_sys p /\ p_cdp p' = p_cdp p /\ p_fee p' = p_fee p /\ p_bps p' = p_bps p /\
  p_newbps p' = p_newbps p /\ p_vote_height p' = p_vote_height p.
Proof.
  unfold set_interest_param. destruct (ty =? INTEREST_A).
  - destruct (get_cdp_param p cp INTEREST_B); [|discriminate]. intros H; inversion H; subst; simpl; auto 10.
  - destruct (ty =? INTEREST_B); [|discriminate].
    destruct (get_cdp_param p cp INTEREST_A); [|discriminate]. intros H; inversion H; subst; simpl; auto 10.
Qed.

Lemma exec_cdp_item_get cp h p t v p' :
  exec_cdp_item cp h p (t, v) = Some p' ->
  (forall cp' ty, get_cdp_param p' cp' ty =
     if pair_eqb2 cp' cp && (ty =? t)
     then option_map (fun d => if v =? 0 then d else v) (fget N.eqb cdp_table ty)
     else get_cdp_param p cp' ty) /\
  p_sys p' = p_sys p /\ p_fee p' = p_fee p /\ p_bps p' = p_bps p /\ p_newbps p' = p_newbps p /\
  p_vote_height p' = p_vote_height p.
Proof.
  unfold exec_cdp_item. destruct (fget N.eqb cdp_table t); [|discriminate].
  destruct ((t =? INTEREST_A) || (t =? INTEREST_B)).
  - intros H. destruct (set_interest_frame _ _ _ _ _ _ H) as (E1 & E2 & E3 & E4 & E5 & E6).
    split; [|simpl in *; auto 10].
    intros cp' ty. unfold get_cdp_param at 1. rewrite E2. fold (get_cdp_param (set_cdp_param p cp t v) cp' ty).
    apply get_cdp_set.
  - intros H; inversion H; subst; simpl. split; [|auto 10]. intros; apply get_cdp_set.
Qed.

Lemma exec_cdp_get cp h : forall l p p',
  exec_cdp cp h l p = Some p' ->
  (forall cp' ty, get_cdp_param p' cp' ty =
     match setting l ty with
     | Some v => if pair_eqb2 cp' cp
                 then option_map (fun d => if v =? 0 then d else v) (fget N.eqb cdp_table ty)
                 else get_cdp_param p cp' ty
     | None => get_cdp_param p cp' ty
     end) /\
  p_sys p' = p_sys p /\ p_fee p' = p_fee p /\ p_bps p' = p_bps p /\ p_newbps p' = p_newbps p /\
  p_vote_height p' = p_vote_height p.
Proof.
  induction l as [|[t v] l IH]; intros p p' H; cbn [exec_cdp setting] in *.
  - inversion H; subst; auto 10.
  - destruct (exec_cdp_item cp h p (t, v)) as [p1|] eqn:E; [|discriminate].
    destruct (exec_cdp_item_get _ _ _ _ _ _ E) as (G & F1 & F2 & F3 & F4 & F5).
    destruct (IH _ _ H) as (G' & F1' & F2' & F3' & F4' & F5').
    split; [|repeat split; congruence].
    intros cp' ty. rewrite G'. rewrite G. destruct (setting l ty) as [w|].
    + destruct (pair_eqb2 cp' cp) eqn:Ep; auto.
    + rewrite (N.eqb_sym t ty). destruct (ty =? t); [|rewrite andb_false_r; auto].
      rewrite andb_true_r. destruct (pair_eqb2 cp' cp); auto.
Qed.

(** ** Interest periods *)

(** Heights strictly ascending. *)
Fixpoint ascending (m : list (Z * (N * N))) : Prop :=
  match m with
  | [] => True
  | (h, _) :: m' => (forall h' x, In (h', x) m' -> (h < h')%Z) /\ ascending m'
  end.

(** The entry of the last change at or below a height. *)
Fixpoint rate (d : N * N) (m : list (Z * (N * N))) (x : Z) : N * N :=
  match m with
  | [] => d
  | (h, ab) :: m' => rate (if (h <=? x)%Z then ab else d) m' x
  end.

Lemma rate_above d : forall m x, (forall h ab, In (h, ab) m -> (x < h)%Z) -> rate d m x = d.
Proof.
  intros m; revert d; induction m as [|[h ab] m IH]; intros d x H; simpl; auto.
  assert (x < h)%Z by (eapply H; left; eauto).
  destruct (Z.leb_spec h x); [lia|]. apply IH. intros; eapply H; right; eauto.
Qed.

Lemma change_put_in m h ab h' ab' : In (h', ab') (change_put m h ab) ->
  (h', ab') = (h, ab) \/ In (h', ab') m.
Proof.
  induction m as [|[h1 ab1] m IH]; simpl.
  - intros [H|[]]; auto.
  - destruct (h =? h1)%Z; [|destruct (h <? h1)%Z]; simpl; intuition congruence.
Qed.

Lemma change_put_ascending m h ab : ascending m -> ascending (change_put m h ab).
Proof.
  induction m as [|[h1 ab1] m IH]; simpl; intros A.
  - split; auto. intros ? ? [].
  - destruct A as [A1 A2]. destruct (Z.eqb_spec h h1); [subst; simpl; auto|].
    destruct (Z.ltb_spec h h1).
    + simpl. split; [|auto]. intros h' x [E|Hin]; [inversion E; subst; auto|].
      specialize (A1 _ _ Hin). lia.
    + simpl. split; [|auto]. intros h' x Hin. destruct (change_put_in _ _ _ _ _ Hin) as [E|Hin'].
      * inversion E; subst. lia.
      * eauto.
Qed.

(** Putting a change at a height not below any other. *)
Lemma rate_put : forall m d h ab x, ascending m -> (forall h' y, In (h', y) m -> (h' <= h)%Z) ->
  rate d (change_put m h ab) x = if (h <=? x)%Z then ab else rate d m x.
Proof.
  induction m as [|[h1 ab1] m IH]; simpl; intros d h ab x A B; auto.
  destruct A as [A1 A2]. assert (Hle : (h1 <= h)%Z) by eauto.
  destruct (Z.eqb_spec h h1).
  - subst h1. simpl. assert (m = []) as ->.
    { destruct m as [|[h2 ab2] m]; auto. exfalso. specialize (A1 h2 ab2 (or_introl eq_refl)).
      specialize (B h2 ab2 (or_intror (or_introl eq_refl))). lia. }
    simpl. destruct (h <=? x)%Z; auto.
  - destruct (Z.ltb_spec h h1); [lia|]. simpl. rewrite IH; auto. eauto.
Qed.

Lemma find_begin_ok b : forall m cur, ascending m ->
  let '(c, rest) := find_begin b cur m in
  ascending rest /\ (forall h ab, In (h, ab) rest -> (b < h)%Z) /\
  forall d x, (b <= x)%Z ->
    rate (match cur with Some ab => ab | None => d end) m x =
    rate (match c with Some ab => ab | None => d end) rest x.
Proof.
  induction m as [|[h ab] m IH]; intros cur A; simpl.
  - split; auto. split; [intros ? ? []|auto].
  - destruct A as [A1 A2]. destruct (Z.ltb_spec b h).
    + split; [simpl; auto|]. split; [|auto].
      intros h' ab' [E|Hin]; [inversion E; subst; auto|]. specialize (A1 _ _ Hin). lia.
    + specialize (IH (Some ab) A2). destruct (find_begin b (Some ab) m) as [c rest].
      destruct IH as (I1 & I2 & I3). split; auto. split; auto.
      intros d x Hx. destruct (Z.leb_spec h x); [|lia]. apply I3; auto.
Qed.

Lemma tiles_cons f t b e ps : f = b -> (f <= t)%Z -> tiles (t + 1) e ps -> tiles b e ((f, t) :: ps).
Proof. intros -> H1 H2. destruct ps as [|[f2 t2] ps]; [destruct H2|]. simpl in *. auto. Qed.

Lemma periods_from_ok : forall rest start ab e, ascending rest ->
  (forall h x, In (h, x) rest -> (start < h)%Z) -> (start <= e)%Z ->
  tiles start e (map as_range (periods_from start ab rest e)) /\
  forall d, In d (periods_from start ab rest e) ->
    forall x, (d_from d <= x <= d_to d)%Z -> (d_a d, d_b d) = rate ab rest x /\ (start <= x <= e)%Z.
Proof.
  induction rest as [|[h ab'] rest IH]; intros start ab e A B Hse; simpl.
  - split; [auto|]. intros d [<-|[]] x Hx. simpl in *. split; [destruct ab; auto|lia].
  - destruct A as [A1 A2]. assert (Hh : (start < h)%Z) by (eapply B; left; eauto).
    destruct (Z.ltb_spec e h).
    + split; [simpl; auto|]. intros d [<-|[]] x Hx. simpl in *. split; [|lia].
      destruct (Z.leb_spec h x); [lia|]. rewrite rate_above; [destruct ab; auto|].
      intros h' ? Hin. specialize (A1 _ _ Hin). lia.
    + destruct (IH h ab' e A2 A1) as [I1 I2]; [lia|]. split.
      * change (tiles start e ((start, h - 1)%Z :: map as_range (periods_from h ab' rest e))).
        apply tiles_cons; auto; [lia|]. replace (h - 1 + 1)%Z with h by lia. exact I1.
      * intros d [<-|Hin] x Hx; simpl in Hx |- *.
        -- split; [|lia]. destruct (Z.leb_spec h x); [lia|]. rewrite rate_above; [destruct ab; auto|].
           intros h' ? Hi. specialize (A1 _ _ Hi). lia.
        -- destruct (I2 _ Hin x Hx) as [E1 E2]. split; [|lia].
           destruct (Z.leb_spec h x); [auto|lia].
Qed.

Lemma tiles_covered : forall ps b e x, tiles b e ps -> (b <= x <= e)%Z ->
  exists f t, In (f, t) ps /\ (f <= x <= t)%Z.
Proof.
  induction ps as [|[f t] ps IH]; intros b e x H Hx; [destruct H|].
  destruct ps as [|[f2 t2] ps].
  - simpl in H. exists f, t. split; [left; auto|]. lia.
  - destruct H as (-> & H1 & H2). destruct (Z.le_gt_cases x t).
    + exists b, t. split; [left; auto|lia].
    + destruct (IH _ _ x H2) as (f' & t' & Hi & Hb); [lia|]. exists f', t'. split; [right; auto|auto].
Qed.

(** ** Histories of interest-parameter changes *)

Lemma value_at_app d : forall cs c cp ty x,
  value_at d (cs ++ [c]) cp ty x =
  if same_pair (g_pair c) cp && (g_type c =? ty) && (g_height c <=? x)%Z then g_value c
  else value_at d cs cp ty x.
Proof.
  intros cs; revert d; induction cs as [|c0 cs IH]; intros d c cp ty x; simpl; auto.
Qed.

(** Above all changes the value does not depend on the height any more. *)
Lemma value_at_top d : forall cs cp ty x y,
  (forall c, In c cs -> (g_height c <= x)%Z) -> (forall c, In c cs -> (g_height c <= y)%Z) ->
  value_at d cs cp ty x = value_at d cs cp ty y.
Proof.
  intros cs; revert d; induction cs as [|c0 cs IH]; intros d cp ty x y H1 H2; simpl; auto.
  pose proof (H1 c0 (or_introl eq_refl)). pose proof (H2 c0 (or_introl eq_refl)).
  rewrite (proj2 (Z.leb_le _ _)) by auto. rewrite (proj2 (Z.leb_le _ _)) by auto.
  apply IH; intros; [apply H1 | apply H2]; right; auto.
Qed.

Definition interest_default : N * N := (2, 1).

Record int_inv (cs : list change) (p : params) : Prop := {
  ii_asc : forall cp, ascending (get_changes p cp);
  ii_bound : forall cp h ab, In (h, ab) (get_changes p cp) -> exists c, In c cs /\ (h <= g_height c)%Z;
  ii_a : forall cp x, (forall c, In c cs -> (g_height c <= x)%Z) ->
         get_cdp_param p cp INTEREST_A = Some (value_at 2 cs cp INTEREST_A x);
  ii_b : forall cp x, (forall c, In c cs -> (g_height c <= x)%Z) ->
         get_cdp_param p cp INTEREST_B = Some (value_at 1 cs cp INTEREST_B x);
  ii_rate : forall cp x, rate interest_default (get_changes p cp) x =
         (value_at 2 cs cp INTEREST_A x, value_at 1 cs cp INTEREST_B x) }.

Lemma int_inv_step cs p c p' :
  int_inv cs p -> exec_change p c = Some p' -> g_value c <> 0 ->
  (forall c', In c' cs -> (g_height c' <= g_height c)%Z) ->
  int_inv (cs ++ [c]) p'.
Proof.
  intros I H Hv Hmax. unfold exec_change in H.
  destruct (exec_cdp_item_get _ _ _ _ _ _ H) as (G & _).
  destruct c as [cp0 h t v]. cbn [g_pair g_height g_type g_value] in *.
  unfold exec_cdp_item in H. destruct (fget N.eqb cdp_table t) as [d0|] eqn:Ed; [|discriminate].
  assert (Ev : (v =? 0) = false) by (apply N.eqb_neq; auto).
  (* what is read afterwards *)
  assert (Read : forall ty d, fget N.eqb cdp_table ty = Some d ->
    (forall cp x, (forall c, In c cs -> (g_height c <= x)%Z) ->
       get_cdp_param p cp ty = Some (value_at d cs cp ty x)) ->
    forall cp x, (forall c, In c (cs ++ [mkChange cp0 h t v]) -> (g_height c <= x)%Z) ->
       get_cdp_param p' cp ty = Some (value_at d (cs ++ [mkChange cp0 h t v]) cp ty x)).
  { intros ty d Hd Old cp x Hx. rewrite G, value_at_app. cbn [g_pair g_height g_type g_value].
    assert (Hhx : (h <= x)%Z) by (apply (Hx (mkChange cp0 h t v)); apply in_app_iff; right; left; auto).
    rewrite (proj2 (Z.leb_le h x)) by auto. rewrite andb_true_r.
    change (same_pair cp0 cp) with (pair_eqb2 cp0 cp).
    assert (Es : pair_eqb2 cp cp0 = pair_eqb2 cp0 cp).
    { destruct (pair_eqb2 cp cp0) eqn:E1, (pair_eqb2 cp0 cp) eqn:E2; auto.
      - apply pair_eqb2_ok in E1. subst. rewrite (proj2 (pair_eqb2_ok cp0 cp0) eq_refl) in E2; discriminate.
      - apply pair_eqb2_ok in E2. subst. rewrite (proj2 (pair_eqb2_ok cp cp) eq_refl) in E1; discriminate. }
    rewrite Es, (N.eqb_sym ty t). destruct (pair_eqb2 cp0 cp && (t =? ty)) eqn:E.
    - rewrite Hd. simpl. rewrite Ev. reflexivity.
    - apply Old. intros c Hc. apply Hx. apply in_app_iff; auto. }
  assert (A' : forall cp x, (forall c, In c (cs ++ [mkChange cp0 h t v]) -> (g_height c <= x)%Z) ->
       get_cdp_param p' cp INTEREST_A = Some (value_at 2 (cs ++ [mkChange cp0 h t v]) cp INTEREST_A x)).
  { apply Read; [reflexivity|]. apply I. }
  assert (B' : forall cp x, (forall c, In c (cs ++ [mkChange cp0 h t v]) -> (g_height c <= x)%Z) ->
       get_cdp_param p' cp INTEREST_B = Some (value_at 1 (cs ++ [mkChange cp0 h t v]) cp INTEREST_B x)).
  { apply Read; [reflexivity|]. apply I. }
  assert (Hall : forall c, In c (cs ++ [mkChange cp0 h t v]) -> (g_height c <= h)%Z).
  { intros c Hc. apply in_app_iff in Hc. destruct Hc as [Hc|[<-|[]]]; [auto | simpl; lia]. }
  (* the change map *)
  assert (Map : (forall cp, get_changes p' cp = get_changes p cp) /\
                 t <> INTEREST_A /\ t <> INTEREST_B \/
                 (t = INTEREST_A \/ t = INTEREST_B) /\
                 forall cp, get_changes p' cp =
                  if pair_eqb2 cp cp0 then
                    change_put (get_changes p cp0) h
                      (value_at 2 (cs ++ [mkChange cp0 h t v]) cp0 INTEREST_A h,
                       value_at 1 (cs ++ [mkChange cp0 h t v]) cp0 INTEREST_B h)
                  else get_changes p cp).
  { destruct (t =? INTEREST_A) eqn:Ea.
    - apply N.eqb_eq in Ea. subst t. cbn [orb] in H. right. split; auto.
      unfold set_interest_param in H. cbn [N.eqb] in H. rewrite N.eqb_refl in H.
      change (get_cdp_param (set_cdp_param p cp0 INTEREST_A v) cp0 INTEREST_B) with
        (get_cdp_param p cp0 INTEREST_B) in H || idtac.
      assert (Eb : get_cdp_param (set_cdp_param p cp0 INTEREST_A v) cp0 INTEREST_B =
                   Some (value_at 1 (cs ++ [mkChange cp0 h INTEREST_A v]) cp0 INTEREST_B h)).
      { rewrite get_cdp_set. replace (INTEREST_B =? INTEREST_A) with false by reflexivity.
        rewrite andb_false_r, value_at_app. cbn [g_pair g_height g_type g_value].
        replace (INTEREST_A =? INTEREST_B) with false by reflexivity. rewrite andb_false_r. cbn [andb].
        apply I. exact Hmax. }
      rewrite Eb in H. inversion H; subst p'. intros cp. unfold get_changes at 1. cbn [p_int].
      rewrite (fget_put pair_eqb2 pair_eqb2_ok).
      destruct (pair_eqb2 cp cp0) eqn:Ep; [|reflexivity].
      change (get_changes (set_cdp_param p cp0 INTEREST_A v) cp0) with (get_changes p cp0).
      f_equal. f_equal. rewrite value_at_app. cbn [g_pair g_height g_type g_value].
      rewrite (proj2 (pair_eqb2_ok cp0 cp0) eq_refl : same_pair cp0 cp0 = true), N.eqb_refl, Z.leb_refl. reflexivity.
    - destruct (t =? INTEREST_B) eqn:Eb0.
      + apply N.eqb_eq in Eb0. subst t. cbn [orb] in H. right. split; auto.
        unfold set_interest_param in H. replace (INTEREST_B =? INTEREST_A) with false in H by reflexivity.
        rewrite N.eqb_refl in H.
        assert (Eb : get_cdp_param (set_cdp_param p cp0 INTEREST_B v) cp0 INTEREST_A =
                     Some (value_at 2 (cs ++ [mkChange cp0 h INTEREST_B v]) cp0 INTEREST_A h)).
        { rewrite get_cdp_set. replace (INTEREST_A =? INTEREST_B) with false by reflexivity.
          rewrite andb_false_r, value_at_app. cbn [g_pair g_height g_type g_value].
          replace (INTEREST_B =? INTEREST_A) with false by reflexivity. rewrite andb_false_r. cbn [andb].
          apply I. exact Hmax. }
        rewrite Eb in H. inversion H; subst p'. intros cp. unfold get_changes at 1. cbn [p_int].
        rewrite (fget_put pair_eqb2 pair_eqb2_ok).
        destruct (pair_eqb2 cp cp0) eqn:Ep; [|reflexivity].
        change (get_changes (set_cdp_param p cp0 INTEREST_B v) cp0) with (get_changes p cp0).
        f_equal. f_equal. rewrite value_at_app. cbn [g_pair g_height g_type g_value].
        rewrite (proj2 (pair_eqb2_ok cp0 cp0) eq_refl : same_pair cp0 cp0 = true), N.eqb_refl, Z.leb_refl. reflexivity.
      + cbn [orb] in H. inversion H; subst p'. left. apply N.eqb_neq in Ea, Eb0. auto. }
  destruct Map as [(Mp & Na & Nb)|(Ht & Mp)].
  - constructor; auto.
    + intros cp. rewrite Mp. apply I.
    + intros cp h' ab Hin. rewrite Mp in Hin. destruct (ii_bound _ _ I _ _ _ Hin) as (c & Hc & Hle).
      exists c. split; auto. apply in_app_iff; auto.
    + intros cp x. rewrite Mp, !value_at_app. cbn [g_pair g_height g_type g_value].
      rewrite (proj2 (N.eqb_neq _ _) Na), (proj2 (N.eqb_neq _ _) Nb), andb_false_r. cbn [andb]. apply I.
  - constructor; auto.
    + intros cp. rewrite Mp. destruct (pair_eqb2 cp cp0); [apply change_put_ascending|]; apply I.
    + intros cp h' ab Hin. rewrite Mp in Hin. destruct (pair_eqb2 cp cp0) eqn:Ep.
      * destruct (change_put_in _ _ _ _ _ Hin) as [E|Hin'].
        -- inversion E; subst. exists (mkChange cp0 h t v). split; [apply in_app_iff; right; left; auto|simpl; lia].
        -- destruct (ii_bound _ _ I _ _ _ Hin') as (c & Hc & Hle). exists c. split; auto. apply in_app_iff; auto.
      * destruct (ii_bound _ _ I _ _ _ Hin) as (c & Hc & Hle). exists c. split; auto. apply in_app_iff; auto.
    + intros cp x. rewrite Mp. destruct (pair_eqb2 cp cp0) eqn:Ep.
      * apply pair_eqb2_ok in Ep. subst cp. rewrite rate_put; [|apply I|].
        2: { intros h' y Hin. destruct (ii_bound _ _ I _ _ _ Hin) as (c & Hc & Hle). specialize (Hmax c Hc). lia. }
        destruct (Z.leb_spec h x) as [Hhx|Hhx].
        -- f_equal; apply value_at_top; intros c Hc; specialize (Hall c Hc); lia.
        -- rewrite !value_at_app. cbn [g_pair g_height g_type g_value].
           rewrite (proj2 (Z.leb_gt h x)) by lia. rewrite !andb_false_r. apply I.
      * rewrite !value_at_app. cbn [g_pair g_height g_type g_value].
        assert (same_pair cp0 cp = false) as ->.
        { change (same_pair cp0 cp) with (pair_eqb2 cp0 cp). destruct (pair_eqb2 cp0 cp) eqn:E; auto.
          apply pair_eqb2_ok in E. subst. rewrite (proj2 (pair_eqb2_ok cp cp) eq_refl) in Ep. discriminate. }
        cbn [andb]. apply I.
Qed.

Lemma int_inv_run : forall cs done p p', int_inv done p -> exec_changes cs p = Some p' ->
  (forall c, In c cs -> g_value c <> 0) -> heights_ascend cs ->
  (forall c c', In c done -> In c' cs -> (g_height c <= g_height c')%Z) -> int_inv (done ++ cs) p'.
Proof.
  induction cs as [|c cs IH]; intros done p p' I H Hv Ha Hd; simpl in *.
  - inversion H; subst. rewrite app_nil_r. auto.
  - destruct (exec_change p c) as [p1|] eqn:E; [|discriminate]. destruct Ha as [Ha1 Ha2].
    replace (done ++ c :: cs) with ((done ++ [c]) ++ cs) by (rewrite <- app_assoc; reflexivity).
    apply (IH (done ++ [c]) p1); auto.
    + eapply int_inv_step; eauto.
    + intros c1 c2 H1 H2. apply in_app_iff in H1. destruct H1 as [H1|[<-|[]]]; auto.
Qed.

Lemma int_inv0 : int_inv [] params0.
Proof. constructor; simpl; auto; intros; try contradiction; reflexivity. Qed.

Lemma interest_periods cs p cp b e :
  exec_changes cs params0 = Some p -> (forall c, In c cs -> g_value c <> 0) -> heights_ascend cs ->
  (b <= e)%Z ->
  let ps := get_interest_changes p cp b e in
  tiles b e (map as_range ps) /\
  forall d x, In d ps -> (d_from d <= x <= d_to d)%Z ->
    d_a d = value_at 2 cs cp INTEREST_A x /\ d_b d = value_at 1 cs cp INTEREST_B x.
Proof.
  intros H Hv Ha Hbe. cbv zeta.
  assert (I : int_inv cs p).
  { apply (int_inv_run cs [] params0 p); auto. apply int_inv0. intros ? ? []. }
  unfold get_interest_changes.
  pose proof (find_begin_ok b (get_changes p cp) None (ii_asc _ _ I cp)) as F.
  destruct (find_begin b None (get_changes p cp)) as [cur rest]. destruct F as (F1 & F2 & F3).
  set (ab := match cur with Some ab => ab | None => _ end).
  destruct (periods_from_ok rest b ab e F1 F2 Hbe) as [P1 P2]. split; auto.
  intros d x Hd Hx. destruct (P2 d Hd x Hx) as [E Hr].
  pose proof (F3 interest_default x ltac:(lia)) as F3'. simpl in F3'.
  rewrite (ii_rate _ _ I) in F3'.
  change (match cur with Some ab0 => ab0 | None => interest_default end) with ab in F3'.
  rewrite <- F3' in E. inversion E; auto.
Qed.

(** ** Ratio relations *)

Lemma ratio_relation_ok sc sl fl ld : ratio_relation sc sl fl ld = true -> fl <= 20000 -> ld <= 10000 ->
  sl < sc /\ fl < sl /\ 10000 * 10000 <= fl * ld.
Proof.
  unfold ratio_relation. rewrite andb_true_iff, !negb_true_iff, !orb_false_iff, !N.leb_gt, N.ltb_ge.
  intros [[[H1 H2] _] H3] Hf Hl. rewrite mul64_small in H3; [lia|].
  apply N.le_lt_trans with (20000 * 10000); [apply N.mul_le_mono; auto | reflexivity].
Qed.

Lemma setting_in : forall l ty v, setting l ty = Some v -> In (ty, v) l.
Proof.
  induction l as [|[t w] l IH]; simpl; intros ty v H; [discriminate|].
  destruct (setting l ty) eqn:E; [inversion H; subst; auto|].
  destruct (t =? ty) eqn:Et; [|discriminate]. apply N.eqb_eq in Et. inversion H; subst; auto.
Qed.

(** A proposal that sets at most one of the four ratios keeps the relations. *)
Lemma exec_cdp_ratios p cp l h p' k :
  ratios_ok p cp -> check_cdp p cp l = true -> exec_cdp cp h l p = Some p' ->
  (forall ty v, In (ty, v) l -> is_ratio ty = true -> ty = k) ->
  ratios_ok p' cp.
Proof.
  intros (sc & sl & fl & ld & G1 & G2 & G3 & G4 & R1 & R2 & R3 & R4 & R5) Hc He Hk.
  destruct (exec_cdp_get _ _ _ _ _ He) as (G & _).
  unfold check_cdp in Hc. rewrite !andb_true_iff in Hc. destruct Hc as [_ Hc].
  rewrite forallb_forall in Hc.
  (* the four values afterwards *)
  assert (Keep : forall ty, is_ratio ty = true -> setting l ty = None \/ ty = k).
  { intros ty Ht. destruct (setting l ty) eqn:E; auto. right. eapply Hk; eauto. apply setting_in; eauto. }
  destruct (is_ratio k && match setting l k with Some _ => true | None => false end) eqn:Ek.
  2: { assert (N : forall ty, is_ratio ty = true -> setting l ty = None).
       { intros ty Ht. destruct (Keep ty Ht) as [ | -> ]; auto. rewrite Ht in Ek. destruct (setting l k); auto; discriminate. }
       exists sc, sl, fl, ld. rewrite !G, !N by reflexivity. auto 12. }
  apply andb_true_iff in Ek. destruct Ek as [Kr Ks]. destruct (setting l k) as [v|] eqn:Sk; [|discriminate].
  pose proof (Hc _ (setting_in _ _ _ Sk)) as C. unfold check_cdp_item in C.
  destruct (fget N.eqb cdp_table k) as [dk|] eqn:Tk; [|discriminate].
  rewrite Kr, G1, G2, G3, G4 in C. apply andb_true_iff in C. destruct C as [C1 C2].
  assert (Hpp : pair_eqb2 cp cp = true) by (apply pair_eqb2_ok; auto).
  unfold is_ratio in Kr. rewrite !orb_true_iff, !N.eqb_eq in Kr.
  assert (Oth : forall ty, is_ratio ty = true -> ty <> k -> setting l ty = None).
  { intros ty Ht Hn. destruct (Keep ty Ht); auto; contradiction. }
  assert (Rng : check_range cdp_range k v = true) by auto.
  destruct Kr as [ [ [Kr|Kr]|Kr]|Kr]; subst k; vm_compute in Tk; cbn [N.eqb Pos.eqb START_COLLATERAL START_LIQUIDATE FORCE_LIQUIDATE LIQUIDATE_DISCOUNT] in C2.
  - destruct (ratio_relation_ok _ _ _ _ C2 R4 R5) as (A1 & A2 & A3).
    exists v, sl, fl, ld. rewrite !G, Sk, Hpp, !Oth by (reflexivity || discriminate). 
    assert (v =? 0 = false) as -> by (apply N.eqb_neq; lia). auto 12.
  - destruct (ratio_relation_ok _ _ _ _ C2 R4 R5) as (A1 & A2 & A3).
    exists sc, v, fl, ld. rewrite !G, Sk, Hpp, !Oth by (reflexivity || discriminate).
    assert (v =? 0 = false) as -> by (apply N.eqb_neq; lia). auto 12.
  - assert (Hv : v <= 20000).
    { unfold check_range in Rng. cbn in Rng. apply negb_true_iff in Rng. apply orb_false_iff in Rng.
      destruct Rng as [_ Rng]. apply N.ltb_ge in Rng. exact Rng. }
    destruct (ratio_relation_ok _ _ _ _ C2 Hv R5) as (A1 & A2 & A3).
    exists sc, sl, v, ld. rewrite !G, Sk, Hpp, !Oth by (reflexivity || discriminate).
    assert (v =? 0 = false) as -> by (apply N.eqb_neq; intros ->; lia). auto 12.
  - assert (Hv : v <= 10000).
    { unfold check_range in Rng. cbn in Rng. apply negb_true_iff in Rng. apply orb_false_iff in Rng.
      destruct Rng as [_ Rng]. apply N.ltb_ge in Rng. exact Rng. }
    destruct (ratio_relation_ok _ _ _ _ C2 R4 Hv) as (A1 & A2 & A3).
    exists sc, sl, fl, v. rewrite !G, Sk, Hpp, !Oth by (reflexivity || discriminate).
    assert (v =? 0 = false) as -> by (apply N.eqb_neq; intros ->; lia). auto 12.
Qed.
