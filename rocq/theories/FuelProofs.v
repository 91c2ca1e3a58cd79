(** Proofs about the fees for fuel and the totals of a block (FuelModel.v, FuelSpec.v). *)
From Coq Require Import List Bool NArith ZArith Lia.
From Coq Require Import ZifyBool ZifyNat ZifyN.
From Verif Require Import Prelude PreludeFacts DexModel DoubleModel SingleModel FuelModel FuelSpec FuelFloat.
Import ListNotations.
Open Scope N_scope.

Section Fees.
  Context {St : Type} (gov : St -> kind -> symbol -> option N)
    (rest : N -> N -> St -> tx -> option (St * burn)) (rate : N).
  Hypothesis Hgov : fees_kept gov.
  Hypothesis Hrest : rest_ok gov rest.
  Hypothesis Hrate : 1 <= rate <= highest_rate.

  Notation min_fee' := (min_fee gov true).
  Notation exec := (check_and_execute gov rest true rate).

  Lemma min_fee_usual st k s m : min_fee' st k s = Some m -> usual_fee k <= m.
  Proof.
    unfold min_fee. destruct (gov st k s) as [f|] eqn:E.
    - intros H. injection H as <-. apply (Hgov _ _ _ _ E).
    - destruct k, s; cbn; intros H; try discriminate; injection H as <-; vm_compute; discriminate.
  Qed.

  Lemma min_fee_next st st' k s : gov st' = gov st -> min_fee' st' k s = min_fee' st k s.
  Proof. intros E. unfold min_fee. rewrite E. reflexivity. Qed.

  Lemma rest_gov i l st t t0 st' u : rest i l st t0 = Some (st', u) -> x_kind t0 = x_kind t ->
    x_kind t <> Plain -> gov st' = gov st.
  Proof. intros R K P. apply (ro_gov _ _ Hrest _ _ _ _ _ _ R). congruence. Qed.

  (** A deployment's fuel fee is its minimum fee. *)
  Lemma deploy_fee st t m : is_deploy (x_kind t) -> x_fuel t <= 65645 ->
    min_fee' st (x_kind t) (x_symbol t) = Some m -> deploy_fuel_fee gov true rate st t = Done m.
  Proof.
    intros D F M. unfold deploy_fuel_fee. rewrite M.
    destruct (deploy_fee_small rate (x_fuel t) F) as [f [-> L]].
    { unfold highest_rate in Hrate. lia. }
    cbn [defined bind]. f_equal.
    pose proof (min_fee_usual _ _ _ _ M) as U.
    assert (coin <= usual_fee (x_kind t)) by (destruct D as [-> | ->]; vm_compute; discriminate). lia.
  Qed.

  Lemma string_small n k : n <= k -> k <= 65536 -> string_size n <= k + (if k <? 253 then 1 else 5).
  Proof.
    intros A B. unfold string_size, compact_size.
    destruct (N.ltb_spec n 253), (N.leb_spec n 65535), (N.leb_spec n 4294967295), (N.ltb_spec k 253); lia.
  Qed.

  Lemma size_small t : x_code t <= max_code -> x_memo t <= max_memo ->
    (x_kind t = UniDeploy -> x_abi t = 0) -> contract_size t <= 65645.
  Proof.
    intros A B E. pose proof (string_small _ _ A ltac:(vm_compute; discriminate)) as X.
    pose proof (string_small _ _ B ltac:(vm_compute; discriminate)) as Y.
    change (max_code + (if max_code <? 253 then 1 else 5)) with 65541 in X.
    change (max_memo + (if max_memo <? 253 then 1 else 5)) with 101 in Y.
    unfold contract_size. destruct (x_kind t); try lia.
    rewrite (E eq_refl). change (string_size 0) with 1. lia.
  Qed.

  Lemma exec_deploy i st t st' t' : is_deploy (x_kind t) -> exec i st t = Done (st', t') ->
    exists m u, min_fee' st (x_kind t) (x_symbol t) = Some m /\ m <= x_fee t /\
      rest i 0 st (with_fuel t 0) = Some (st', u) /\ t' = with_fuel t (contract_size t) /\
      contract_size t <= 65645 /\ gov st' = gov st /\
      (x_kind t = UniDeploy -> check_fee gov true st t = true).
  Proof.
    intros D E. unfold check_and_execute in E.
    assert ((if match x_kind t with UniDeploy => negb (check_fee gov true st t) | _ => false end then Reject
        else do _ <- deploy_check gov true rate st t;
          match rest i 0 st (with_fuel t 0) with
          | None => Reject
          | Some (st', _) => Done (st', with_fuel t (contract_size t))
          end) = Done (st', t')) as E'.
    { destruct D as [D|D]; rewrite D in *; exact E. }
    clear E. rename E' into E.
    destruct (match x_kind t with UniDeploy => negb (check_fee gov true st t) | _ => false end) eqn:CF; [discriminate|].
    destruct (deploy_check gov true rate st t) as [[]| | |] eqn:DC; try discriminate. cbn [bind] in E.
    destruct (rest i 0 st (with_fuel t 0)) as [[s1 u]|] eqn:R; [|discriminate].
    injection E as <- <-.
    unfold deploy_check in DC.
    destruct ((max_code <? x_code t) || (max_memo <? x_memo t) ||
       match x_kind t with UniDeploy => negb (x_abi t =? 0) | _ => false end) eqn:V; [discriminate|].
    apply Bool.orb_false_iff in V as [V V3]. apply Bool.orb_false_iff in V as [V1 V2].
    apply N.ltb_ge in V1. apply N.ltb_ge in V2.
    destruct (deploy_fuel_fee gov true rate st t) as [f| | |] eqn:DF; try discriminate. cbn [bind] in DC.
    destruct (N.ltb_spec (x_fee t) f) as [|L]; [discriminate|].
    unfold deploy_fuel_fee in DF. destruct (min_fee' st (x_kind t) (x_symbol t)) as [m|]; [|discriminate].
    destruct (defined _) as [p| | |]; cbn [bind] in DF; try discriminate. injection DF as <-.
    exists m, u. do 2 (split; [auto; lia|]). split; auto. split; auto. split; [|split].
    - apply size_small; auto. intros K. rewrite K in V3. lia.
    - apply (rest_gov _ _ _ t _ _ _ R); [reflexivity|]. destruct D as [-> | ->]; discriminate.
    - intros K. rewrite K in CF. apply Bool.negb_false_iff in CF. auto.
  Qed.

  Lemma deploy_symbol t st : held t -> is_deploy (x_kind t) ->
    (x_kind t = UniDeploy -> check_fee gov true st t = true) -> x_symbol t <> Token.
  Proof.
    intros H [D|D] C; [rewrite (h_lua _ H) by auto; discriminate|].
    specialize (C D). unfold check_fee in C. destruct (x_symbol t); try discriminate.
    rewrite Bool.andb_false_r in C. discriminate.
  Qed.

  (** A deployment's fuel never costs more than its fee. *)
  Lemma deploy_covered i st t st' t' : held t -> is_deploy (x_kind t) -> exec i st t = Done (st', t') ->
    exists f, fuel_fee gov true rate st' t' = Done f /\ f <= x_fee t' /\ x_symbol t' <> Token.
  Proof.
    intros H D E. destruct (exec_deploy _ _ _ _ _ D E) as [m [u [M [L [R [-> [S [G CF]]]]]]]].
    exists m. split; [|split; auto; apply (deploy_symbol t st); auto].
    replace (fuel_fee gov true rate st' (with_fuel t (contract_size t)))
      with (deploy_fuel_fee gov true rate st' (with_fuel t (contract_size t)))
      by (unfold fuel_fee; cbn [with_fuel x_kind]; destruct D as [-> | ->]; reflexivity).
    apply deploy_fee; auto. cbn [with_fuel x_kind x_symbol]. rewrite (min_fee_next st) by auto. auto.
  Qed.

  Definition is_call (k : kind) : Prop := k = LuaCall \/ k = UniCall.

  Lemma exec_call i st t st' t' : is_call (x_kind t) -> exec i st t = Done (st', t') ->
    exists limit f u, fuel_limit gov true rate st t = Done limit /\ f <= limit /\ t' = with_fuel t f /\
      rest i limit st (with_fuel t 0) = Some (st', u) /\
      (x_kind t = UniCall -> check_fee gov true st t = true).
  Proof.
    intros D E. unfold check_and_execute in E.
    assert ((if match x_kind t with UniCall => negb (check_fee gov true st t) | _ => false end then Reject
        else do limit <- fuel_limit gov true rate st t;
          match rest i limit st (with_fuel t 0) with
          | None => Reject
          | Some (st', u) => do f <- lua_result limit (u_run u); Done (st', with_fuel t f)
          end) = Done (st', t')) as E'.
    { destruct D as [D|D]; rewrite D in *; exact E. }
    clear E. rename E' into E.
    destruct (match x_kind t with UniCall => negb (check_fee gov true st t) | _ => false end) eqn:CF; [discriminate|].
    destruct (fuel_limit gov true rate st t) as [limit| | |] eqn:FL; try discriminate. cbn [bind] in E.
    destruct (rest i limit st (with_fuel t 0)) as [[s1 u]|] eqn:R; [|discriminate].
    unfold lua_result in E. destruct (N.ltb_spec limit (u_run u)) as [X|X]; cbn zeta in E.
    - rewrite N.eqb_refl, Bool.orb_true_r in E. discriminate.
    - destruct ((u_run u =? 0) || (u_run u =? two64 - 1)); [discriminate|]. cbn [bind] in E.
      injection E as <- <-. exists limit, (u_run u), u. repeat (split; auto).
      intros K. rewrite K in CF. apply Bool.negb_false_iff in CF. auto.
  Qed.

  Lemma call_fee_kept t fuel reserved K : fuel <= 100 * K -> K <= 6005625 ->
    100000 <= reserved -> K * rate + reserved <= x_fee t ->
    exists f, base_fuel_fee rate fuel = Done f /\ f <= x_fee t.
  Proof.
    intros A B C D. destruct (base_fee_bound rate fuel K A B) as [f [-> F]].
    { unfold highest_rate in Hrate. lia. }
    exists f. split; auto. unfold highest_rate in Hrate.
    assert (K * rate <= 6005625 * 21543) by nia.
    set (p := K * rate) in *. replace ((K + 1) * rate) with (p + rate) in F by (unfold p; ring).
    clearbody p. clear - H F C D Hrate. lia.
  Qed.

  Lemma call_covered i st t st' t' : held t -> is_call (x_kind t) -> exec i st t = Done (st', t') ->
    exists f, fuel_fee gov true rate st' t' = Done f /\ f <= x_fee t' /\ x_symbol t' <> Token.
  Proof.
    intros H D E. destruct (exec_call _ _ _ _ _ D E) as [limit [fu [u [FL [L [-> [R CF]]]]]]].
    assert (x_fee t <= max_money /\ x_symbol t <> Token) as [Fee Sym].
    { destruct D as [D|D].
      - split; [apply (ro_fee _ _ Hrest _ _ _ _ _ R); auto|]. rewrite (h_lua _ H) by auto. discriminate.
      - specialize (CF D). unfold check_fee in CF.
        apply Bool.andb_true_iff in CF as [CF _]. apply Bool.andb_true_iff in CF as [CF C2].
        split; [lia|]. destruct (x_symbol t); discriminate. }
    replace (fuel_fee gov true rate st' (with_fuel t fu)) with (base_fuel_fee rate fu)
      by (unfold fuel_fee; cbn [with_fuel x_kind x_fuel]; destruct D as [-> | ->]; reflexivity).
    cbn [with_fuel x_fee x_symbol].
    unfold fuel_limit in FL. destruct (rate =? 0); [discriminate|].
    destruct (min_fee' st (x_kind t) (x_symbol t)) as [m|] eqn:M; [|discriminate].
    destruct (N.ltb_spec (x_fee t) m) as [|Lm]; [discriminate|].
    assert (1000000 <= m) as U.
    { pose proof (min_fee_usual _ _ _ _ M) as X. destruct D as [D|D]; rewrite D in X; exact X. }
    unfold mul64, sub64, reserved_ratio, two64, max_money, coin in *. cbn zeta in FL.
    rewrite (N.mod_small (m * 10)) in FL by lia.
    assert (m * 10 / 100 <= m) by (apply N.div_le_upper_bound; lia).
    assert (100000 <= m * 10 / 100) by (apply N.div_le_lower_bound; lia).
    set (re := m * 10 / 100) in *.
    replace ((x_fee t + 18446744073709551616 - re) mod 18446744073709551616) with (x_fee t - re) in FL.
    2:{ replace (x_fee t + 18446744073709551616 - re) with (x_fee t - re + 1 * 18446744073709551616) by lia.
        rewrite N.mod_add by lia. rewrite N.mod_small by lia. reflexivity. }
    set (g0 := x_fee t - re) in *.
    assert (g0 / rate * 100 mod 18446744073709551616 <= g0 / rate * 100) as MM by (apply N.mod_le; lia).
    set (lim := N.min (g0 / rate * 100 mod 18446744073709551616) max_block_fuel) in *.
    destruct (lim =? 0); [discriminate|]. injection FL as <-.
    destruct (call_fee_kept t fu re (N.min (g0 / rate) 6005625)) as [f [F1 F2]].
    - unfold lim, max_block_fuel in L. lia.
    - lia.
    - auto.
    - pose proof (N.mul_div_le g0 rate ltac:(lia)) as Q.
      assert (N.min (g0 / rate) 6005625 * rate <= g0 / rate * rate) by (apply N.mul_le_mono_r; lia).
      unfold g0 in *. lia.
    - exists f. auto.
  Qed.

  Lemma exec_uni i st t st' t' : x_kind t = Uni -> exec i st t = Done (st', t') ->
    exists u, rest i 0 st (with_fuel t 0) = Some (st', u) /\ t' = with_fuel t (universal_fuel t u) /\
      check_fee gov true st t = true /\ universal_fee_ok gov true rate st t (universal_fuel t u) = true.
  Proof.
    intros K E. unfold check_and_execute in E. rewrite K in E.
    destruct (check_fee gov true st t) eqn:CF; cbn [negb] in E; [|discriminate].
    destruct (rest i 0 st (with_fuel t 0)) as [[s1 u]|] eqn:R; [|discriminate]. cbn zeta in E.
    destruct (universal_fee_ok gov true rate st t (universal_fuel t u)) eqn:F; [|discriminate].
    injection E as <- <-. exists u. auto.
  Qed.

  (** The fuel fee of a universal transaction, whatever its margin. *)
  Lemma uni_fee i st t st' t' : x_kind t = Uni -> exec i st t = Done (st', t') ->
    exists f, fuel_fee gov true rate st' t' = Done f /\
      f * 2 ^ 24 <= (x_fuel t' / 100 + 2) * rate * (2 ^ 24 + 1) /\
      x_fuel t' <= max_block_fuel /\ x_fuel t' / 100 * rate <= x_fee t' /\ x_symbol t' <> Token.
  Proof.
    intros K E. destruct (exec_uni _ _ _ _ _ K E) as [u [R [-> [CF F]]]].
    replace (fuel_fee gov true rate st' (with_fuel t (universal_fuel t u)))
      with (base_fuel_fee rate (universal_fuel t u))
      by (unfold fuel_fee; cbn [with_fuel x_kind x_fuel]; rewrite K; reflexivity).
    cbn [with_fuel x_fee x_fuel x_symbol]. unfold universal_fee_ok in F.
    destruct (min_fee' st (x_kind t) (x_symbol t)) as [m|]; [|discriminate].
    apply Bool.andb_true_iff in F as [F F2]. apply Bool.andb_true_iff in F as [_ F1].
    set (fu := universal_fuel t u) in *. clearbody fu. apply N.leb_le in F1. apply N.leb_le in F2.
    unfold highest_rate in Hrate.
    assert (fu / 100 < 6005626) by (apply N.div_lt_upper_bound; unfold max_block_fuel in F1; lia).
    assert (fu <= 100 * N.min (fu / 100 + 1) 6005625) as FK.
    { pose proof (N.div_mod fu 100 ltac:(lia)). pose proof (N.mod_lt fu 100 ltac:(lia)).
      unfold max_block_fuel in F1. clear - H0 H1 F1. lia. }
    destruct (base_fee_bound rate fu _ FK) as [f [B1 B2]]; [lia|lia|].
    exists f. split; auto. split; [|split; [auto|split]].
    - eapply N.le_trans; [exact B2|]. apply N.mul_le_mono_r. apply N.mul_le_mono_r. clear. lia.
    - unfold mul64 in F2. rewrite N.mod_small in F2; [lia|].
      assert (fu / 100 * rate <= 6005625 * 21543) by nia. unfold two64. lia.
    - unfold check_fee in CF. destruct (x_symbol t); try discriminate.
      rewrite Bool.andb_false_r in CF. discriminate.
  Qed.

  (** Every executed transaction's fuel fee is known and covered. *)
  Lemma covered i st t st' t' : held t -> roomy rest rate t -> exec i st t = Done (st', t') ->
    exists f, fuel_fee gov true rate st' t' = Done f /\ f <= x_fee t' /\ x_symbol t' <> Token.
  Proof.
    intros H Ro E. destruct (x_kind t) eqn:K.
    - apply (deploy_covered i st t); auto. left. auto.
    - apply (call_covered i st t); auto. left. auto.
    - apply (deploy_covered i st t); auto. right. auto.
    - apply (call_covered i st t); auto. right. auto.
    - destruct (uni_fee _ _ _ _ _ K E) as [f [F1 [F2 [_ [_ F5]]]]].
      exists f. split; auto. split; auto.
      destruct (exec_uni _ _ _ _ _ K E) as [u [R [-> _]]].
      pose proof (Ro K _ _ _ _ _ R) as X. cbn [with_fuel x_fuel x_fee] in *.
      assert (f * 2 ^ 24 <= x_fee t * 2 ^ 24) as Y by (eapply N.le_trans; eauto).
      clear - Y. lia.
    - unfold check_and_execute in E. rewrite K in E.
      destruct (rest i 0 st (with_fuel t 0)) as [[s1 u]|] eqn:R; [|discriminate]. injection E as <- <-.
      unfold fuel_fee. rewrite K. rewrite (h_plain _ H K). exists 0. split; [reflexivity|].
      split; [lia|]. apply (ro_symbol _ _ Hrest _ _ _ _ _ R). auto.
  Qed.

  Lemma settled i st t st' t' q : held t -> roomy rest rate t -> exec i st t = Done (st', t') ->
    exists q', settle gov true rate st' t' q = Done q'.
  Proof.
    intros H Ro E. destruct (covered _ _ _ _ _ H Ro E) as [f [F [L Sy]]].
    unfold settle. rewrite F. cbn [bind].
    replace (x_fee t' <? f) with false by (symmetry; apply N.ltb_ge; auto).
    destruct (x_symbol t'); [| |congruence]; eexists; reflexivity.
  Qed.

  (** Checking and executing alone does not stop a node. *)
  Lemma exec_goes_on i st t : held t -> goes_on (exec i st t).
  Proof.
    intros H. unfold check_and_execute.
    destruct (x_kind t) eqn:K; try (destruct (check_fee gov true st t); cbn [negb]; [|left; reflexivity]).
    - cut (goes_on (deploy_check gov true rate st t)).
      + intros [-> | [[] ->]]; cbn [bind]; [left; reflexivity|].
        destruct (rest i 0 st (with_fuel t 0)) as [[s1 u]|]; [right; eexists; reflexivity|left; reflexivity].
      + unfold deploy_check. rewrite K.
        destruct ((max_code <? x_code t) || (max_memo <? x_memo t) || false) eqn:V; [left; reflexivity|].
        destruct (min_fee' st LuaDeploy (x_symbol t)) as [m|] eqn:M.
        * rewrite (deploy_fee st t m); [|left; auto| |rewrite K; auto].
          { cbn [bind]. destruct (x_fee t <? m); [left; reflexivity|]. cbn zeta.
            destruct (true && _); [left|right; eexists]; reflexivity. }
          destruct (h_deploy _ H) as [-> | ->]; [left; auto|lia|].
          apply size_small; [lia|lia|intros X; congruence].
        * unfold deploy_fuel_fee. rewrite K, M. left. reflexivity.
    - cut (goes_on (fuel_limit gov true rate st t)).
      + intros [-> | [l ->]]; cbn [bind]; [left; reflexivity|].
        destruct (rest i l st (with_fuel t 0)) as [[s1 u]|]; [|left; reflexivity].
        unfold lua_result. cbn zeta. set (ret := if l <? u_run u then two64 - 1 else u_run u).
        destruct ((ret =? 0) || (ret =? two64 - 1)); cbn [bind]; [left|right; eexists]; reflexivity.
      + unfold fuel_limit. destruct (rate =? 0); [left; reflexivity|].
        destruct (min_fee' _ _ _) as [m|]; [|left; reflexivity].
        destruct (x_fee t <? m); [left; reflexivity|]. cbn zeta.
        destruct (N.min _ _ =? 0); [left|right; eexists]; reflexivity.
    - cut (goes_on (deploy_check gov true rate st t)).
      + intros [-> | [[] ->]]; cbn [bind]; [left; reflexivity|].
        destruct (rest i 0 st (with_fuel t 0)) as [[s1 u]|]; [right; eexists; reflexivity|left; reflexivity].
      + unfold deploy_check. rewrite K.
        destruct ((max_code <? x_code t) || (max_memo <? x_memo t) || negb (x_abi t =? 0)) eqn:V; [left; reflexivity|].
        destruct (min_fee' st UniDeploy (x_symbol t)) as [m|] eqn:M.
        * rewrite (deploy_fee st t m); [|right; auto| |rewrite K; auto].
          { cbn [bind]. destruct (x_fee t <? m); [left; reflexivity|]. cbn zeta.
            destruct (true && _); [left|right; eexists]; reflexivity. }
          destruct (h_deploy _ H) as [-> | ->]; [right; auto|lia|].
          apply size_small; [lia|lia|intros X; lia].
        * unfold deploy_fuel_fee. rewrite K, M. left. reflexivity.
    - cut (goes_on (fuel_limit gov true rate st t)).
      + intros [-> | [l ->]]; cbn [bind]; [left; reflexivity|].
        destruct (rest i l st (with_fuel t 0)) as [[s1 u]|]; [|left; reflexivity].
        unfold lua_result. cbn zeta. set (ret := if l <? u_run u then two64 - 1 else u_run u).
        destruct ((ret =? 0) || (ret =? two64 - 1)); cbn [bind]; [left|right; eexists]; reflexivity.
      + unfold fuel_limit. destruct (rate =? 0); [left; reflexivity|].
        destruct (min_fee' _ _ _) as [m|]; [|left; reflexivity].
        destruct (x_fee t <? m); [left; reflexivity|]. cbn zeta.
        destruct (N.min _ _ =? 0); [left|right; eexists]; reflexivity.
    - destruct (rest i 0 st (with_fuel t 0)) as [[s1 u]|]; [|left; reflexivity]. cbn zeta.
      destruct (universal_fee_ok _ _ _ _ _ _); [right; eexists|left]; reflexivity.
    - destruct (rest i 0 st (with_fuel t 0)) as [[s1 u]|]; [right; eexists|left]; reflexivity.
  Qed.

  Lemma connect_txs_goes_on i st txs q : Forall held txs -> Forall (roomy rest rate) txs ->
    goes_on (connect_txs gov rest true rate i st txs q).
  Proof.
    intros H. revert i st q. induction H as [|t txs Ht H IH]; intros i st q R; cbn [connect_txs].
    - right. eexists. reflexivity.
    - inversion R as [|? ? Rt R']; subst.
      destruct (exec_goes_on i st t Ht) as [-> | [[st' t'] E]]; [left; reflexivity|].
      rewrite E. cbn [bind]. destruct (max_block_fuel <? _); [left; reflexivity|].
      destruct (settled i st t st' t' q Ht Rt E) as [q' ->]. cbn [bind]. apply IH. auto.
  Qed.

  Lemma connect_block_goes_on st b : Forall held (k_txs b) -> Forall (roomy rest rate) (k_txs b) ->
    goes_on (connect_block gov rest true rate st b).
  Proof.
    intros H R. unfold connect_block.
    destruct (connect_txs_goes_on 1 st (k_txs b) no_totals H R) as [-> | [[st' q] ->]]; [left; reflexivity|].
    cbn [bind]. destruct (negb (q_fuel_fee q =? header_fuel_fee b)); [left; reflexivity|].
    destruct (negb _); [left|right; eexists]; reflexivity.
  Qed.

  Lemma pack_goes_on max_size i st pool size q : Forall held pool -> Forall (roomy rest rate) pool ->
    exists r, pack gov rest true rate max_size i st pool size q = Done r.
  Proof.
    intros H. revert i st size q. induction H as [|t pool Ht H IH]; intros i st size q R; cbn [pack].
    - eexists. reflexivity.
    - inversion R as [|? ? Rt R']; subst.
      destruct (max_size <=? size + x_size t); [apply IH; auto|].
      destruct (exec_goes_on i st t Ht) as [-> | [[st' t'] E]]; [apply IH; auto|].
      rewrite E. destruct (max_block_fuel <=? _); [apply IH; auto|].
      destruct (settled i st t st' t' q Ht Rt E) as [q' ->]. cbn [bind].
      destruct (IH (i + 1) st' (size + x_size t) q' R') as [[[st'' txs] q''] ->].
      cbn [bind]. eexists. reflexivity.
  Qed.

  (** ** The same transaction in another object *)

  Lemma same_shape t t' : same_tx t t' -> t' = with_fuel t (x_fuel t').
  Proof.
    unfold same_tx, with_fuel. destruct t as [? ? ? ? ? ? ? ? ? fu], t' as [? ? ? ? ? ? ? ? ? fu']. cbn.
    intros E. injection E as -> -> -> -> -> -> -> -> ->. reflexivity.
  Qed.

  Lemma exec_same i st t t' st1 t1 : same_tx t t' -> held t -> held t' ->
    exec i st t = Done (st1, t1) -> exec i st t' = Done (st1, t1).
  Proof.
    intros S H H' E. pose proof (same_shape _ _ S) as Sh.
    assert (forall f, with_fuel t' f = with_fuel t f) as WF by (intros f; rewrite Sh; reflexivity).
    assert (x_kind t' = x_kind t /\ x_symbol t' = x_symbol t /\ x_fee t' = x_fee t /\ x_wire t' = x_wire t /\
      x_code t' = x_code t /\ x_memo t' = x_memo t /\ x_abi t' = x_abi t /\ x_size t' = x_size t)
      as [Ek [Es [Ef [Ew [Ec [Em [Ea Ez]]]]]]] by (rewrite Sh; cbn; auto 10).
    assert (check_fee gov true st t' = check_fee gov true st t) as CF
      by (unfold check_fee; rewrite Ek, Es, Ef; reflexivity).
    destruct (x_kind t) eqn:K.
    1, 3: (
      destruct (exec_deploy i st t st1 t1) as [m [u [M [Lm [R [T1 [Sz _]]]]]]];
        [unfold is_deploy; rewrite K; auto|auto|];
      assert (deploy_check gov true rate st t' = deploy_check gov true rate st t) as DC;
      [unfold deploy_check; rewrite ?Ek, ?Ec, ?Em, ?Ea, ?Ef, ?Ew, ?K;
       rewrite (deploy_fee st t m), (deploy_fee st t' m);
       [reflexivity
       |unfold is_deploy; rewrite Ek; auto
       |destruct (h_deploy _ H') as [-> | ->]; [unfold is_deploy; rewrite Ek; auto|lia|];
          replace (contract_size t') with (contract_size t);
          [auto|unfold contract_size; rewrite ?Ek, ?Ec, ?Em, ?Ea, ?K; reflexivity]
       |rewrite Ek, Es, <- K; auto
       |unfold is_deploy; rewrite K; auto
       |destruct (h_deploy _ H) as [-> | ->]; [unfold is_deploy; rewrite K; auto|lia|auto]
       |auto]
      |];
      unfold check_and_execute in *; rewrite Ek, K in *; rewrite ?CF, DC, !WF;
      replace (contract_size t') with (contract_size t);
      [auto|unfold contract_size; rewrite ?Ek, ?Ec, ?Em, ?Ea, ?K; reflexivity]).
    - unfold check_and_execute in *. rewrite Ek, K in *. rewrite !WF.
      replace (fuel_limit gov true rate st t') with (fuel_limit gov true rate st t)
        by (unfold fuel_limit; rewrite Ek, Es, Ef, K; reflexivity).
      destruct (fuel_limit gov true rate st t); cbn [bind] in *; auto. rewrite ?WF.
      destruct (rest _ _ _ _) as [[s1 u]|]; auto.
      destruct (lua_result _ _); cbn [bind] in *; auto. rewrite WF. auto.
    - unfold check_and_execute in *. rewrite Ek, K in *. rewrite CF.
      destruct (negb _); auto.
      replace (fuel_limit gov true rate st t') with (fuel_limit gov true rate st t)
        by (unfold fuel_limit; rewrite Ek, Es, Ef, K; reflexivity).
      destruct (fuel_limit gov true rate st t); cbn [bind] in *; auto. rewrite ?WF.
      destruct (rest _ _ _ _) as [[s1 u]|]; auto.
      destruct (lua_result _ _); cbn [bind] in *; auto. rewrite WF. auto.
    - unfold check_and_execute in *. rewrite Ek, K in *. rewrite CF.
      destruct (negb _); auto. rewrite WF. destruct (rest _ _ _ _) as [[s1 u]|]; auto. cbn zeta in *.
      replace (universal_fuel t' u) with (universal_fuel t u) by (unfold universal_fuel; rewrite Ez; reflexivity).
      replace (universal_fee_ok gov true rate st t' (universal_fuel t u))
        with (universal_fee_ok gov true rate st t (universal_fuel t u))
        by (unfold universal_fee_ok; rewrite Ek, Es, Ef, K; reflexivity).
      rewrite WF. auto.
    - assert (t' = t) as ->; [|auto].
      rewrite Sh. rewrite (h_plain _ H' Ek). rewrite <- (h_plain _ H K). destruct t. reflexivity.
  Qed.

  Lemma exec_held i st t st1 t1 : held t -> exec i st t = Done (st1, t1) -> held t1 /\ same_tx t1 t.
  Proof.
    intros H E.
    assert (exists f, t1 = with_fuel t f /\ (x_kind t = Plain -> f = 0) /\
      (is_deploy (x_kind t) -> f = contract_size t)) as [f [-> [P D]]].
    { destruct (x_kind t) eqn:K.
      - destruct (exec_deploy i st t st1 t1) as [m [u [_ [_ [_ [T1 _]]]]]];
          [unfold is_deploy; rewrite K; auto|auto|].
        exists (contract_size t). split; auto. split; [intros; discriminate|auto].
      - destruct (exec_call i st t st1 t1) as [l [f [u [_ [_ [T1 _]]]]]];
          [unfold is_call; rewrite K; auto|auto|].
        exists f. split; auto. split; [intros; discriminate|intros [X|X]; discriminate].
      - destruct (exec_deploy i st t st1 t1) as [m [u [_ [_ [_ [T1 _]]]]]];
          [unfold is_deploy; rewrite K; auto|auto|].
        exists (contract_size t). split; auto. split; [intros; discriminate|auto].
      - destruct (exec_call i st t st1 t1) as [l [f [u [_ [_ [T1 _]]]]]];
          [unfold is_call; rewrite K; auto|auto|].
        exists f. split; auto. split; [intros; discriminate|intros [X|X]; discriminate].
      - destruct (exec_uni i st t st1 t1 K E) as [u [_ [T1 _]]].
        exists (universal_fuel t u). split; auto. split; [intros; discriminate|intros [X|X]; discriminate].
      - unfold check_and_execute in E. rewrite K in E.
        destruct (rest i 0 st (with_fuel t 0)) as [[s1 u]|]; [|discriminate]. injection E as <- <-.
        exists (x_fuel t). split; [destruct t; reflexivity|]. split; [intros _; apply (h_plain _ H K)|].
        intros [X|X]; discriminate. }
    split; [|destruct t; reflexivity].
    constructor; cbn [with_fuel x_kind x_symbol x_fuel].
    - apply (h_lua _ H).
    - auto.
    - intros X. right. rewrite (D X). destruct t; reflexivity.
  Qed.

  (** What was packed goes through again, in whatever objects. *)
  Lemma packed max_size i st pool size q st' txs q' txs' : Forall held pool ->
    pack gov rest true rate max_size i st pool size q = Done (st', txs, q') ->
    Forall2 same_tx txs txs' -> Forall held txs' ->
    connect_txs gov rest true rate i st txs' q = Done (st', q').
  Proof.
    intros H. revert i st size q txs txs'. induction H as [|t pool Ht H IH]; intros i st size q txs txs' P F H'; cbn [pack] in P.
    - injection P as <- <- <-. inversion F; subst. reflexivity.
    - destruct (max_size <=? size + x_size t); [eapply IH; eauto|].
      destruct (exec i st t) as [[s1 t1]| | |] eqn:E; try discriminate; [|eapply IH; eauto].
      destruct (N.leb_spec max_block_fuel (add64 (q_fuel q) (x_fuel t1))) as [X|X]; [eapply IH; eauto|].
      destruct (settle gov true rate s1 t1 q) as [q1| | |] eqn:Se; cbn [bind] in P; try discriminate.
      destruct (pack gov rest true rate max_size (i + 1) s1 pool (size + x_size t) q1) as [[[s2 txs2] q2]| | |] eqn:P2;
        cbn [bind] in P; try discriminate.
      injection P as <- <- <-. inversion F as [|? t2 ? txs3 S1 F2]; subst.
      inversion H' as [|? ? Ht2 H3]; subst.
      destruct (exec_held _ _ _ _ _ Ht E) as [_ Sa].
      cbn [connect_txs].
      assert (same_tx t t2) as St2 by (unfold same_tx in *; congruence).
      rewrite (exec_same _ _ _ _ _ _ St2 Ht Ht2 E). cbn [bind].
      replace (max_block_fuel <? add64 (q_fuel q) (x_fuel t1)) with false by (symmetry; apply N.ltb_ge; lia).
      rewrite Se. cbn [bind]. eapply IH; eauto.
  Qed.

  Lemma packed_held max_size i st pool size q st' txs q' : Forall held pool ->
    pack gov rest true rate max_size i st pool size q = Done (st', txs, q') -> Forall held txs.
  Proof.
    intros H. revert i st size q txs. induction H as [|t pool Ht H IH]; intros i st size q txs P; cbn [pack] in P.
    - injection P as <- <- <-. constructor.
    - destruct (max_size <=? size + x_size t); [eapply IH; eauto|].
      destruct (exec i st t) as [[s1 t1]| | |] eqn:E; try discriminate; [|eapply IH; eauto].
      destruct (max_block_fuel <=? add64 (q_fuel q) (x_fuel t1)); [eapply IH; eauto|].
      destruct (settle gov true rate s1 t1 q) as [q1| | |] eqn:Se; cbn [bind] in P; try discriminate.
      destruct (pack gov rest true rate max_size (i + 1) s1 pool (size + x_size t) q1) as [[[s2 txs2] q2]| | |] eqn:P2;
        cbn [bind] in P; try discriminate.
      injection P as <- <- <-. constructor; [apply (exec_held _ _ _ _ _ Ht E)|eapply IH; eauto].
  Qed.

  Lemma assembled max_size st pool size st' b txs : Forall held pool ->
    assemble gov rest true rate max_size st pool size = Done (st', b) -> k_fuel_fee b < two32 ->
    Forall2 same_tx (k_txs b) txs -> Forall held txs ->
    exists q, connect_block gov rest true rate st (mkBlock txs (k_fuel_fee b) (k_reward b)) = Done (st', q).
  Proof.
    intros H A L F H'. unfold assemble in A.
    destruct (pack gov rest true rate max_size 1 st pool size no_totals) as [[[s1 txs1] q1]| | |] eqn:P;
      cbn [bind] in A; try discriminate.
    injection A as <- <-. cbn [k_txs k_fuel_fee k_reward] in *.
    unfold connect_block. cbn [k_txs].
    rewrite (packed _ _ _ _ _ _ _ _ _ _ H P F H'). cbn [bind].
    unfold header_fuel_fee. cbn [k_fuel_fee k_reward fst snd]. rewrite N.mod_small by auto.
    rewrite !N.eqb_refl. cbn. eexists. reflexivity.
  Qed.
End Fees.

(** * The fuel of a universal transaction *)
Definition grown (l : list Z) : N := fold_right (fun s n => Z.to_N (Z.max 0 s) + n) 0 l.

Lemma storage_fuel_exact f s : (-900000000000000000 <= s <= 900000000000000000)%Z ->
  f + 10 * Z.to_N (Z.max 0 s) < two64 -> storage_fuel f s = f + 10 * Z.to_N (Z.max 0 s).
Proof.
  intros B H. unfold storage_fuel, add64, two64, fuel_per_byte in *. cbv zeta.
  destruct (Z_lt_le_dec s 0) as [L|L].
  - rewrite Z.max_l in * by lia.
    replace ((s * Z.of_N 10) mod Z.of_N (18446744073709551616))%Z with (s * 10 + 18446744073709551616)%Z.
    + replace (18446744073709551616 / 2 <=? Z.to_N (s * 10 + 18446744073709551616)) with true; [cbv iota; lia|].
      symmetry. apply N.leb_le. change (18446744073709551616 / 2) with 9223372036854775808. lia.
    + change (Z.of_N (18446744073709551616)) with 18446744073709551616%Z.
      change (Z.of_N 10) with 10%Z. apply (Z.mod_unique_pos _ _ (-1)); lia.
  - rewrite Z.max_r in * by lia. change (Z.of_N (18446744073709551616)) with 18446744073709551616%Z.
    change (Z.of_N 10) with 10%Z. rewrite Z.mod_small by lia.
    replace (18446744073709551616 / 2 <=? Z.to_N (s * 10)) with false.
    + rewrite N.mod_small; lia.
    + symmetry. apply N.leb_gt. change (18446744073709551616 / 2) with 9223372036854775808. lia.
Qed.

Lemma storage_fuels_exact l : forall f,
  (forall s, In s l -> -900000000000000000 <= s <= 900000000000000000)%Z ->
  f + 10 * grown l < two64 -> fold_left storage_fuel l f = f + 10 * grown l.
Proof.
  induction l as [|s l IH]; intros f B H; cbn [fold_left].
  - cbn. lia.
  - change (grown (s :: l)) with (Z.to_N (Z.max 0 s) + grown l) in *.
    assert (Bs := B s (or_introl eq_refl)). rewrite storage_fuel_exact by lia.
    rewrite IH; [lia|intros x I; apply B; now right|lia].
Qed.
