(** The layouts carry exactly the variables that transactions have, each in a format for exactly
    the values of its type: the conditions of WireSpec.v are those of WireForm.v. *)
From Coq Require Import String List Bool NArith ZArith Lia Sorting.Sorted.
From Coq Require Import ZifyBool ZifyNat ZifyN.
From Verif Require Import Prelude CodecModel CodecSpec WireModel WireSpec WireForm WireProofs
  WireTxProofs.
Import ListNotations.
Open Scope string_scope.
Open Scope list_scope.
Open Scope N_scope.

(** A format is for a type. *)
Definition for_kind (f : fmt) (k : kind) : Prop := forall v, fits f v <-> holds k v.

Ltac both := intros v; split; [intros H; inversion H; subst; cbn; auto
                              |destruct v; cbn; try contradiction; intros H; constructor; auto].

Lemma for_unit : for_kind FUnit KNothing.
Proof. both. Qed.
Lemma for_skip b : b < 256 -> for_kind (FSkip b) KNothing.
Proof. intros Hb. both. Qed.
Lemma for_num w : 7 <= w -> for_kind (FNum w) (KNum w).
Proof. intros Hw. both. Qed.
Lemma for_int : for_kind FInt KInt.
Proof. both. Qed.
Lemma for_dex : for_kind FDex (KNum 32).
Proof. both. Qed.
Lemma for_u8 : for_kind u8 (KNum 8).
Proof. both. Qed.
Lemma for_raw2 : for_kind (FRaw 2) (KNum 16).
Proof. both. Qed.
Lemma for_raw8 : for_kind (FRaw 8) (KNum 64).
Proof. both. Qed.
Lemma for_u64 : for_kind u64v (KNum 64).
Proof. apply for_num. lia. Qed.
Lemma for_bool : for_kind FBool KBool.
Proof. both. Qed.
Lemma for_blob k : for_kind (FBlob k) (KFixed k).
Proof. both; tauto. Qed.
Lemma for_bytes : for_kind FBytes KBytes.
Proof. both; tauto. Qed.
Lemma for_text : for_kind FText KText.
Proof. both; tauto. Qed.
Lemma for_uid : for_kind FUid KUid.
Proof. both. Qed.
Lemma for_reg : for_kind FReg KReg.
Proof. both. Qed.
Lemma for_pair f g a b : for_kind f a -> for_kind g b -> for_kind (FPair f g) (KPair a b).
Proof.
  intros H1 H2 v. split; [intros H; inversion H; subst; cbn; split; [now apply H1|now apply H2]|].
  destruct v; cbn; try contradiction. intros (Q1 & Q2). constructor; [now apply H1|now apply H2].
Qed.
Lemma for_lua : for_kind FLua k_lua.
Proof.
  intros v. split.
  - intros H. inversion H as [| | | | | | | | | | | |c m Hc Hm| | | |]; subst. cbn.
    apply for_text in Hc. apply for_text in Hm. cbn in Hc, Hm. tauto.
  - destruct v as [| | | | | |x y| |]; cbn; try contradiction. intros (Q1 & Q2).
    destruct x; try contradiction. destruct y; try contradiction.
    constructor; now apply for_text.
Qed.
Lemma for_list f a : for_kind f a -> for_kind (FList f) (KVec a).
Proof.
  intros H v. split.
  - intros Q. inversion Q as [| | | | | | | | | | | | | |f' l Hn Hl| |]; subst. cbn.
    split; [exact Hn|]. intros x Hx. apply H. rewrite Forall_forall in Hl. auto.
  - destruct v; cbn; try contradiction. intros (Hn & Hl). constructor; [exact Hn|].
    apply Forall_forall. intros x Hx. apply H. auto.
Qed.
Lemma for_map strict (two : bool) f a : for_kind f a ->
  for_kind (FMap strict two f) (KMap (if two then k_pair else KText) a).
Proof.
  intros H v.
  assert (K : for_kind (if two then FPair FText FText else FText) (if two then k_pair else KText))
    by (destruct two; [apply for_pair; apply for_text|apply for_text]).
  split.
  - intros Q. inversion Q as [| | | | | | | | | | | | | | |s' t' f' l Hn Hl Ho|]; subst. cbn.
    split; [exact Hn|]. split; [exact Ho|]. intros e He. rewrite Forall_forall in Hl.
    specialize (Hl e He). inversion Hl; subst. do 2 eexists. split; [reflexivity|].
    split; [now apply K|now apply H].
  - destruct v; cbn [holds]; try contradiction. intros (Hn & Ho & Hl). constructor; [exact Hn| |exact Ho].
    apply Forall_forall. intros e He. destruct (Hl e He) as (x & y & -> & Hx & Hy).
    constructor; [now apply K|now apply H].
Qed.
Lemma for_tag body k : (forall t, for_kind (body t) (k t)) -> for_kind (FTag body) (KOneOf k).
Proof.
  intros H v. split.
  - intros Q. inversion Q; subst. cbn. split; [assumption|now apply H].
  - destruct v; cbn; try contradiction. intros (Ht & Hv). constructor; [exact Ht|now apply H].
Qed.
Lemma for_bad : for_kind FBad KNever.
Proof. intros v. split; [intros H; inversion H|destruct v; cbn; contradiction]. Qed.

Ltac kinds := repeat first
  [ apply for_pair | apply for_list | apply (for_map false false) | apply for_lua | apply for_text
  | apply for_u64 | apply for_u8 | apply for_raw8 | apply for_raw2 | apply for_uid | apply for_reg
  | apply for_bytes | apply for_blob | apply for_bool | apply for_int | apply for_dex
  | apply for_unit | apply for_bad | (apply for_skip; lia) | (apply for_num; lia) ].
Ltac tags := apply for_tag; intros t; cbn [one_of map fst snd app];
  repeat match goal with |- context [t =? ?n] =>
    destruct (N.eqb_spec t n); [subst t; cbn; kinds|] end; cbn; kinds.

Lemma for_transfer : for_kind f_transfer k_transfer.
Proof. cbn. kinds. Qed.
Lemma for_vote : for_kind f_vote k_vote.
Proof. cbn. kinds. Qed.
Lemma for_asset : for_kind f_issued_asset k_asset.
Proof. cbn. kinds. Qed.
Lemma for_asset_change : for_kind f_asset_update k_asset_change.
Proof. unfold f_asset_update, k_asset_change. tags. Qed.
Lemma for_exchange : for_kind f_dexop_data k_exchange.
Proof. cbn. kinds. Qed.
Lemma for_exchange_change : for_kind f_dexop_update k_exchange_change.
Proof. unfold f_dexop_update, k_exchange_change. apply for_pair; [kinds|]. tags. Qed.
Lemma for_price : for_kind f_price_point k_price.
Proof. cbn. kinds. Qed.
Lemma for_contract : for_kind f_contract k_contract.
Proof. cbn. kinds. Qed.
Lemma for_deal : for_kind f_deal k_deal.
Proof. cbn. kinds. Qed.
Lemma for_inline : for_kind f_inline k_inline.
Proof. cbn. kinds. Qed.
Lemma for_signer : for_kind f_signer k_signer.
Proof. cbn. kinds. Qed.
Lemma for_condition : for_kind f_cond k_condition.
Proof. unfold f_cond, k_condition. tags. Qed.
Lemma for_input : for_kind f_vin k_input.
Proof. cbn. apply for_pair; [kinds|]. apply for_pair; [kinds|]. apply for_list, for_condition. Qed.
Lemma for_output : for_kind f_vout k_output.
Proof. cbn. apply for_pair; [kinds|]. apply for_list, for_condition. Qed.
Lemma for_proposal : for_kind f_proposal k_proposal.
Proof. unfold f_proposal, k_proposal. tags. Qed.

(** ** Layouts and variables *)

Section Bridge.
  Variable r3 : Z -> bool.

  (** An entry of a layout is for a variable. *)
  Definition entry_for (i : item) (m : string * kind) : Prop :=
    i_name i = fst m /\ i_view i = Whole /\ (forall h v, fits (i_fmt i (VInt h)) v <-> holds (snd m) v) /\
    (forall g, holds KInt (g "nVersion") -> holds KInt (g "valid_height") -> exists h, g (i_on i) = VInt h).

  Lemma fld_for n f k : for_kind f k -> entry_for (fld n f) (n, k).
  Proof.
    intros H. split; [reflexivity|]. split; [reflexivity|]. split; [intros h v; apply H|].
    intros g Hg _. cbn. destruct (g "nVersion"); cbn in Hg; try contradiction. eauto.
  Qed.
  Lemma prices_for : entry_for (prices r3) ("median_prices", KMap k_pair k_amount).
  Proof.
    split; [reflexivity|]. split; [reflexivity|]. split.
    - intros h. change (for_kind (f_prices r3 (VInt h)) (KMap k_pair k_amount)).
      unfold f_prices. destruct (r3 h).
      + apply (for_map true true). apply for_u64.
      + apply (for_map true true). apply for_raw8.
    - intros g _ Hg. cbn. destruct (g "valid_height"); cbn in Hg; try contradiction. eauto.
  Qed.

  (** Every entry is for a variable, and every variable but the version has an entry. *)
  Definition layout_for (l : list item) (ms : list (string * kind)) : Prop :=
    (forall i, In i l -> exists m, In m ms /\ entry_for i m) /\
    (forall m, In m ms -> m = ("nVersion", KInt) \/ exists i, In i l /\ entry_for i m).

  Ltac kinds2 := first
    [ apply for_transfer | apply for_vote | apply for_asset | apply for_asset_change
    | apply for_exchange | apply for_exchange_change | apply for_price | apply for_contract
    | apply for_deal | apply for_inline | apply for_signer | apply for_input | apply for_output
    | apply for_proposal | (apply for_list; kinds2) | kinds ].
  Ltac find_in := first [left; reflexivity | right; find_in].
  Ltac entry := first [apply prices_for | apply fld_for; kinds2].

  Lemma wire_members t l : wire r3 t = Some l -> exists ms, members t = Some ms /\ layout_for l ms.
  Proof.
    intros H. pose proof (wire_types r3 t l H) as H'. cbn [types In] in H'.
    repeat (destruct H' as [<-|H']; [cbn [wire] in H; injection H as <-;
      eexists; (split; [reflexivity|]);
      cbv [app base order_data operator_data height uid fee_symbol fees sign existsb N.eqb Pos.eqb orb];
      split; [intros i Hi; repeat (destruct Hi as [<-|Hi];
                [match goal with
                 | |- exists m, In m ?ms /\ entry_for (fld ?n ?f) m =>
                     match ms with context [(n, ?k)] => exists (n, k) end
                 | |- exists m, In m ?ms /\ entry_for (prices r3) m =>
                     exists ("median_prices", KMap k_pair k_amount)
                 end; split; [find_in|entry]|]); destruct Hi
             |intros m Hm; repeat (destruct Hm as [<-|Hm];
                [first [left; reflexivity
                 |right; match goal with
                 | |- exists i, In i ?l /\ entry_for i (?n, _) =>
                     match l with
                     | context [fld n ?f] => exists (fld n f)
                     | _ => exists (prices r3)
                     end
                 end; split; [find_in|entry]]|]); destruct Hm]|]).
    destruct H'.
  Qed.

  Lemma members_types t ms : members t = Some ms -> In t types.
  Proof.
    unfold members. intros H. destruct (own_members t) as [l|] eqn:E; [|discriminate]. clear H.
    destruct t as [|p]; [discriminate|].
    do 7 (try destruct p as [p|p|]; try discriminate E; try (clear E; cbn; tauto)).
  Qed.
  Lemma members_wire t ms : members t = Some ms -> exists l, wire r3 t = Some l /\ layout_for l ms.
  Proof.
    intros H. assert (W : exists l, wire r3 t = Some l).
    { pose proof (members_types t ms H) as H'. cbn [types In] in H'.
      repeat (destruct H' as [<-|H']; [eexists; reflexivity|]). destruct H'. }
    destruct W as (l & W). exists l. split; [exact W|].
    destruct (wire_members t l W) as (ms' & M & L). congruence.
  Qed.

  (** The fields that are carried are the variables. *)
  Lemma carried_member t l : wire r3 t = Some l -> forall n, carried r3 t n <-> member t n.
  Proof.
    intros W n. destruct (wire_members t l W) as (ms & M & L1 & L2). split.
    - intros [->|(l' & i & W' & Hi & <-)].
      + exists ms, KInt. split; [exact M|]. unfold members in M.
        destruct (own_members t); [|discriminate]. injection M as <-. now left.
      + rewrite W in W'. injection W' as <-. destruct (L1 i Hi) as ((n & k) & Hm & En & _).
        exists ms, k. split; [exact M|]. cbn in En. now subst.
    - intros (ms' & k & M' & Hm). rewrite M in M'. injection M' as <-.
      destruct (L2 _ Hm) as [E|(i & Hi & En & _)].
      + injection E as -> _. now left.
      + right. exists l, i. auto.
  Qed.

  Lemma head_members t ms : members t = Some ms ->
    In ("nVersion", KInt) ms /\ In ("valid_height", KInt) ms.
  Proof.
    unfold members. destruct (own_members t); [|discriminate]. intros M. injection M as <-.
    cbn [app In]. tauto.
  Qed.

  Lemma value_iff t : tx_value t <-> tx_fits r3 t.
  Proof.
    split.
    - intros (ms & M & H). destruct (members_wire _ _ M) as (l & W & L1 & L2).
      destruct (head_members _ _ M) as (I1 & I2). pose proof (H _ _ I1) as V1.
      pose proof (H _ _ I2) as V2. split; [now apply for_int|].
      exists l. split; [exact W|]. intros i Hi.
      destruct (L1 i Hi) as ((n & k) & Hm & En & _ & Ef & Eo). cbn in En, Ef. subst n.
      destruct (Eo (tx_get t) V1 V2) as (h & ->). apply Ef. now apply H.
    - intros (V1 & l & W & H). destruct (wire_members _ _ W) as (ms & M & L1 & L2).
      assert (G1 : holds KInt (tx_get t "nVersion")) by now apply for_int.
      exists ms. split; [exact M|].
      assert (G2 : holds KInt (tx_get t "valid_height")).
      { destruct (head_members _ _ M) as (_ & I2).
        destruct (L2 _ I2) as [E|(i & Hi & En & _)]; [discriminate E|]. cbn in En.
        specialize (H i Hi). rewrite En in H. revert H.
        pose proof (wire_types r3 _ _ W) as H'. revert W H' En Hi. clear. intros W H' En Hi.
        generalize dependent (tx_get t). intros g.
        generalize dependent (tx_type t). intros ty W H'. cbn [types In] in H'.
        repeat (destruct H' as [<-|H']; [cbn [wire] in W; injection W as <-;
          cbv [app base order_data operator_data] in Hi;
          repeat (destruct Hi as [<-|Hi]; [first [discriminate En|exact (proj1 (for_int _))]|]);
          destruct Hi|]).
        destruct H'. }
      intros n k Hm. destruct (L2 _ Hm) as [E|(i & Hi & En & _ & Ef & Eo)].
      + injection E as -> ->. exact G1.
      + cbn in En, Ef. subst n. specialize (H i Hi). destruct (Eo (tx_get t) G1 G2) as (h & E).
        rewrite E in H. now apply Ef in H.
  Qed.

  Lemma fits_wire t : tx_fits r3 t -> exists l, wire r3 (tx_type t) = Some l.
  Proof. intros (_ & l & W & _). eauto. Qed.

  Lemma keys_iff t : tx_fits r3 t -> (tx_keys_valid t <-> carried_keys r3 t).
  Proof.
    intros H. destruct (fits_wire t H) as (l & W). unfold tx_keys_valid, carried_keys.
    split; intros Q n Hn; apply Q; now apply (carried_member _ _ W).
  Qed.
  Lemma nonneg_iff t : tx_fits r3 t -> (tx_nonneg t <-> carried_nonneg r3 t).
  Proof.
    intros H. destruct (fits_wire t H) as (l & W). unfold tx_nonneg, carried_nonneg.
    split; intros Q n Hn; apply Q; now apply (carried_member _ _ W).
  Qed.
  Lemma same_iff a b : tx_fits r3 a -> (same_tx a b <-> carried_same r3 a b).
  Proof.
    intros H. destruct (fits_wire a H) as (l & W). unfold same_tx, carried_same.
    split; intros (T & Q); (split; [exact T|]); intros n Hn; apply Q;
      now apply (carried_member _ _ W).
  Qed.
  Lemma content_iff but a b : tx_fits r3 a ->
    (same_content but a b <-> carried_content r3 but a b).
  Proof.
    intros H. destruct (fits_wire a H) as (l & W). unfold same_content, carried_content.
    split; intros (T & Q & S); (split; [exact T|]); (split; [|exact S]); intros n Hn; apply Q;
      now apply (carried_member _ _ W).
  Qed.
  Lemma proper_iff x : proper x <-> proper_form r3 x.
  Proof.
    destruct x as [t| | | |]; cbn; try reflexivity. rewrite value_iff.
    split; intros (H1 & H2 & H3); (split; [exact H1|]); rewrite keys_iff, nonneg_iff in * by exact H1;
      now split.
  Qed.
  Lemma same_form_iff x y : proper x -> (same_thing x y <-> same_form r3 x y).
  Proof.
    intros H. destruct x as [a| | | |], y as [b| | | |]; cbn; try reflexivity.
    apply content_iff. destruct H as (H & _). now apply value_iff.
  Qed.

  Lemma proper_value t : proper (STx t) -> tx_fits r3 t /\ carried_keys r3 t /\ carried_nonneg r3 t.
  Proof. intros H. now apply (proper_iff (STx t)) in H. Qed.
  Lemma checked t : properb r3 t = true -> tx_value t /\ tx_keys_valid t /\ tx_nonneg t.
  Proof. intros H. apply (proper_iff (STx t)). cbn. now apply properb_spec. Qed.
  Lemma checked_keys t : tx_valueb r3 t && tx_allb keysb r3 t = true -> tx_keys_valid t.
  Proof.
    rewrite andb_true_iff. intros (H1 & H2). apply keys_iff; [now apply tx_valueb_spec|].
    exact (tx_allb_spec keysb keys_valid r3 t keysb_spec H2).
  Qed.
End Bridge.
