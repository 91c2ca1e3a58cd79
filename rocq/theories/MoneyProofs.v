From Coq Require Import String List Bool NArith ZArith Lia Reals Lra.
From Flocq Require Import Core BinarySingleNaN.
From Verif Require Import DoubleModel DoubleFacts MoneyModel MoneySpec.
Import ListNotations.
From Coq Require Import ZifyBool ZifyNat ZifyN.
Local Open Scope N_scope.

(** ** Splitting *)

Lemma cut d (s : bytes) : ~ In d s \/ exists a r, s = a ++ d :: r /\ ~ In d a.
Proof.
  induction s as [|c s IH]; [left; auto|].
  destruct (N.eq_dec c d) as [->|Hc].
  - right. exists [], s. split; auto.
  - destruct IH as [H | (a & r & -> & Ha)].
    + left. intros [?|?]; auto.
    + right. exists (c :: a), r. split; auto. intros [?|?]; auto.
Qed.

Lemma split_cut d a r f : ~ In d a -> split d (a ++ d :: r) f = (f ++ a) :: split d r [].
Proof.
  revert f. induction a as [|c a IH]; intros f H; cbn [app split].
  - rewrite N.eqb_refl, app_nil_r. reflexivity.
  - destruct (N.eqb_spec c d) as [->|Hc]; [exfalso; apply H; left; auto|].
    rewrite IH by (intros ?; apply H; right; auto). rewrite <- app_assoc. reflexivity.
Qed.

Lemma split_last d a f : ~ In d a -> split d a f = match f ++ a with [] => [] | _ => [f ++ a] end.
Proof.
  revert f. induction a as [|c a IH]; intros f H; cbn [split].
  - rewrite app_nil_r. reflexivity.
  - destruct (N.eqb_spec c d) as [->|Hc]; [exfalso; apply H; left; auto|].
    rewrite IH by (intros ?; apply H; right; auto). rewrite <- app_assoc. reflexivity.
Qed.

Lemma split_one d a : ~ In d a -> a <> [] -> split d a [] = [a].
Proof. intros H Ha. rewrite split_last by auto. cbn. destruct a; congruence. Qed.

(** The fields of a text, read backwards. *)
Lemma split_1 d s a : split d s [] = [a] -> a <> [] -> ~ In d a /\ (s = a \/ s = a ++ [d]).
Proof.
  intros E Ha. destruct (cut d s) as [H | (b & r & -> & H)].
  - rewrite split_last in E by auto. cbn in E. destruct s; [discriminate|]. injection E as <-. auto.
  - rewrite split_cut in E by auto. cbn [app] in E. injection E as -> E. split; auto. right. f_equal. f_equal.
    destruct (cut d r) as [Hr | (b & r' & -> & Hr)].
    + rewrite split_last in E by auto. cbn in E. destruct r; auto; discriminate.
    + rewrite split_cut in E by auto. discriminate.
Qed.

Lemma split_S d s a b l : split d s [] = a :: b :: l -> exists r, s = a ++ d :: r /\ ~ In d a /\ split d r [] = b :: l.
Proof.
  intros E. destruct (cut d s) as [H | (c & r & -> & H)].
  - rewrite split_last in E by auto. cbn in E. destruct s; discriminate.
  - rewrite split_cut in E by auto. cbn [app] in E. injection E as -> E. exists r. auto.
Qed.

(** ** Digits *)

Lemma is_digit_spec c : is_digit c = true <-> digit c.
Proof. unfold is_digit, digit. lia. Qed.

Lemma forallb_digits l : forallb is_digit l = true <-> Forall digit l.
Proof.
  rewrite forallb_forall, Forall_forall. split; intros H x Hx; apply is_digit_spec; auto.
Qed.

Lemma is_number_spec s : is_number s = true <-> s <> [] /\ Forall digit s.
Proof.
  destruct s as [|c s]; cbn [is_number].
  - split; [discriminate|]. intros [H _]. congruence.
  - rewrite forallb_digits. split; [intros H; split; auto; discriminate | intros [_ H]; auto].
Qed.

Lemma number_app a b : number (a ++ b) = number a * 10 ^ N.of_nat (List.length b) + number b.
Proof.
  induction a as [|c a IH]; cbn [app number]; [lia|].
  rewrite IH, app_length, Nat2N.inj_add, N.pow_add_r. lia.
Qed.

Lemma number_zeros k : number (repeat 48 k) = 0.
Proof. induction k as [|k IH]; cbn [repeat number]; [auto|]. rewrite IH. lia. Qed.

Lemma fold_number s n :
  fold_left (fun n c => 10 * n + (c - 48)) s n = n * 10 ^ N.of_nat (List.length s) + number s.
Proof.
  revert n. induction s as [|c s IH]; intros n; cbn [fold_left List.length number].
  - change (N.of_nat 0) with 0. rewrite N.pow_0_r. lia.
  - rewrite IH, Nat2N.inj_succ, N.pow_succ_r'. lia.
Qed.

Lemma atoll_spec s : atoll s = N.min max_i64 (number s).
Proof. unfold atoll. rewrite fold_number. reflexivity. Qed.

Lemma digits_no_sep s c : Forall digit s -> ~ digit c -> ~ In c s.
Proof. rewrite Forall_forall. intros H Hc Hi. apply Hc, H, Hi. Qed.

(** ** Amounts *)

Lemma ddd_spec s : digits_dot_digits s = true <->
  exists ip dp, s = ip ++ 46 :: dp /\ Forall digit ip /\ dp <> [] /\ Forall digit dp.
Proof.
  induction s as [|c s IH]; cbn [digits_dot_digits].
  - split; [discriminate|]. intros (ip & dp & E & _). destruct ip; discriminate.
  - unfold dot. destruct (N.eqb_spec c 46) as [->|Hc].
    + rewrite is_number_spec. split.
      * intros [H1 H2]. exists [], s. auto.
      * intros (ip & dp & E & Hi & Hd & Hd'). destruct ip as [|x ip].
        { injection E as ->. auto. }
        { injection E as <- _. inversion Hi as [|? ? Hx]. unfold digit in Hx. lia. }
    + rewrite andb_true_iff, is_digit_spec, IH. split.
      * intros (H & ip & dp & -> & Hi & Hd & Hd'). exists (c :: ip), dp. auto.
      * intros (ip & dp & E & Hi & Hd & Hd'). destruct ip as [|x ip].
        { injection E as -> _. congruence. }
        { injection E as -> ->. inversion Hi. split; auto. exists ip, dp. auto. }
Qed.

Lemma is_decimal_spec s : is_decimal s = true <->
  (exists dp, s = 48 :: 46 :: dp /\ dp <> [] /\ Forall digit dp) \/
  (exists c ip dp, s = (c :: ip) ++ 46 :: dp /\ 49 <= c <= 57 /\ Forall digit ip /\ dp <> [] /\ Forall digit dp).
Proof.
  destruct s as [|c s]; cbn [is_decimal].
  - split; [discriminate|]. intros [(dp & E & _) | (c & ip & dp & E & _)]; discriminate.
  - destruct (N.eqb_spec c 48) as [->|Hc].
    + destruct s as [|c' s].
      * split; [discriminate|]. intros [(dp & E & _) | (c & ip & dp & E & Hc & _)]; [discriminate|].
        injection E as <- _. lia.
      * rewrite andb_true_iff, is_number_spec, N.eqb_eq. unfold dot. split.
        { intros (-> & H1 & H2). left. exists s. auto. }
        { intros [(dp & E & Hd & Hd') | (c & ip & dp & E & Hc & _)].
          - injection E as -> ->. auto.
          - injection E as <- _. lia. }
    + rewrite andb_true_iff, is_digit_spec, ddd_spec. unfold digit at 1. split.
      * intros (H & ip & dp & -> & Hi & Hd & Hd'). right. exists c, ip, dp. repeat split; auto; lia.
      * intros [(dp & E & _) | (x & ip & dp & E & Hx & Hi & Hd & Hd')].
        { injection E as -> _. congruence. }
        { injection E as -> ->. split; [lia|]. exists ip, dp. auto. }
Qed.

Lemma quantity_iff s : is_number s || is_decimal s = true <-> exists n k, quantity s n k.
Proof.
  rewrite orb_true_iff, is_number_spec, is_decimal_spec. split.
  - intros [[H1 H2] | [(dp & -> & H1 & H2) | (c & ip & dp & -> & Hc & Hi & H1 & H2)]].
    + exists (number s), 0%nat. constructor; auto.
    + exists (number dp), (List.length dp). constructor; auto.
    + eexists _, (List.length dp). constructor; auto.
  - intros (n & k & H). inversion H; subst; eauto 10.
Qed.

Lemma whole_iff s : is_number s = true <-> exists n, quantity s n 0.
Proof.
  rewrite is_number_spec. split.
  - intros [H1 H2]. exists (number s). constructor; auto.
  - intros (n & H). inversion H; subst; auto; destruct dp; try congruence; discriminate.
Qed.

Lemma whole_number s n : quantity s n 0 -> n = number s.
Proof. intros H. inversion H; subst; auto; destruct dp; try congruence; discriminate. Qed.

Lemma quantity_chars s n k c : quantity s n k -> In c s -> digit c \/ c = 46.
Proof.
  intros H Hc. inversion H; subst.
  - left. rewrite Forall_forall in H1. auto.
  - rewrite Forall_forall in H1. destruct Hc as [<- | [<- | Hc]]; auto. left. unfold digit. lia.
  - rewrite Forall_forall in H1, H3. apply in_app_or in Hc. destruct Hc as [[<- | Hc] | [<- | Hc]]; auto.
    left. unfold digit. lia.
Qed.

Lemma quantity_no_colon s n k : quantity s n k -> ~ In 58 s.
Proof. intros H Hc. destruct (quantity_chars s n k 58 H Hc) as [Hd | Hd]; [unfold digit in Hd|]; lia. Qed.

Lemma quantity_nonempty s n k : quantity s n k -> s <> [].
Proof. intros H. inversion H; subst; auto; discriminate. Qed.

Lemma dp_digits (dp : bytes) p : (List.length dp <= p)%nat ->
  map (fun i => nth i dp 48) (seq 0 p) = dp ++ repeat 48 (p - length dp).
Proof.
  revert dp. induction p as [|p IH]; intros dp H.
  - destruct dp; [reflexivity | cbn in H; lia].
  - cbn [seq map]. rewrite <- seq_shift, map_map. destruct dp as [|c dp].
    + cbn [nth List.length app]. rewrite Nat.sub_0_r. cbn [repeat]. f_equal.
      specialize (IH [] (Nat.le_0_l _)). cbn [List.length app] in IH. rewrite Nat.sub_0_r in IH. rewrite <- IH.
      apply map_ext. intros i. destruct i; reflexivity.
    + cbn [nth List.length app]. f_equal. rewrite (IH dp) by (cbn in H; lia). reflexivity.
Qed.

Lemma pow10_parts s ip dp p : split dot s [] = match dp with [] => [ip] | _ => [ip; dp] end ->
  pow10 s p = if Nat.ltb p (List.length dp) then None
              else Some (N.min max_i64 (number (ip ++ dp) * 10 ^ N.of_nat (p - length dp))).
Proof.
  intros E. unfold pow10. rewrite E.
  assert (nth 0 match dp with [] => [ip] | _ :: _ => [ip; dp] end [] = ip) as -> by (destruct dp; auto).
  assert (nth 1 match dp with [] => [ip] | _ :: _ => [ip; dp] end [] = dp) as -> by (destruct dp; auto).
  destruct (Nat.ltb_spec p (List.length dp)) as [H|H]; auto.
  rewrite dp_digits by auto. rewrite atoll_spec, app_assoc, number_app, number_zeros, repeat_length, N.add_0_r.
  reflexivity.
Qed.

Lemma pow10_spec s n k p : quantity s n k ->
  pow10 s p = if Nat.ltb p k then None else Some (N.min max_i64 (n * 10 ^ N.of_nat (p - k))).
Proof.
  assert (~ digit 46) as Hdot by (unfold digit; lia).
  intros H. inversion H as [ds H1 H2|dp H1 H2|c ip dp Hc Hi H1 H2]; subst.
  - rewrite (pow10_parts s s []); [cbn [List.length]; rewrite app_nil_r; auto|].
    apply split_one; auto. apply digits_no_sep; auto.
  - rewrite (pow10_parts _ [48] dp); [reflexivity|]. destruct dp as [|c dp]; [congruence|].
    change (48 :: 46 :: c :: dp) with ([48] ++ dot :: (c :: dp)). rewrite split_cut.
    + cbn [app]. f_equal. apply split_one; [|discriminate]. apply digits_no_sep; auto.
    + intros [E|[]]. discriminate.
  - rewrite (pow10_parts _ (c :: ip) dp); [reflexivity|]. destruct dp as [|c' dp]; [congruence|].
    rewrite (split_cut dot).
    + cbn [app]. f_equal. apply split_one; [|discriminate]. apply digits_no_sep; auto.
    + apply digits_no_sep; auto. constructor; auto. unfold digit. lia.
Qed.

(** ** Units *)

Lemma lower_letter c l : same_letter c l <-> to_lower c = l.
Proof. unfold same_letter, to_lower. destruct (65 <=? c) eqn:A, (c <=? 90) eqn:B; cbn; lia. Qed.

Lemma lower_word u n : Forall2 same_letter u n <-> map to_lower u = n.
Proof.
  split.
  - induction 1 as [|c l u n H _ IH]; cbn; auto. apply lower_letter in H. congruence.
  - intros <-. induction u; cbn; constructor; auto. apply lower_letter. auto.
Qed.

Lemma bytes_eqb_spec a b : bytes_eqb a b = true <-> a = b.
Proof.
  revert b. induction a as [|x a IH]; intros [|y b]; cbn; try (split; congruence).
  rewrite andb_true_iff, N.eqb_eq, IH. split; [intros [-> ->]; auto | intros E; injection E; auto].
Qed.

Lemma find_unit_in u t p : find_unit u t = Some p -> In (u, p) t.
Proof.
  induction t as [|(n, q) t IH]; cbn [find_unit]; [discriminate|].
  destruct (bytes_eqb u n) eqn:E.
  - apply bytes_eqb_spec in E. intros H. injection H as ->. subst. left. auto.
  - right. auto.
Qed.

Lemma find_unit_spec u p : find_unit (map to_lower u) unit_precision = Some p <-> unit_of u p.
Proof.
  split.
  - intros H. apply find_unit_in in H.
    change unit_precision with (map (fun e => (letters (fst e), snd e)) units) in H.
    apply in_map_iff in H. destruct H as ((n & p') & E & Hn). injection E as E ->.
    exists n. split; auto. apply lower_word. auto.
  - intros (n & Hn & Hu). apply lower_word in Hu. rewrite Hu. clear u Hu.
    repeat (destruct Hn as [E|Hn]; [injection E as <- <-; reflexivity|]). destruct Hn.
Qed.

Lemma unit_chars u p : unit_of u p -> u <> [] /\ ~ In 58 u.
Proof.
  intros (n & Hn & Hu). apply lower_word in Hu. split.
  - intros ->. cbn in Hu. repeat (destruct Hn as [E|Hn]; [injection E as <- _; discriminate|]). destruct Hn.
  - intros Hi. apply (in_map to_lower) in Hi. rewrite Hu in Hi. change (to_lower 58) with 58 in Hi.
    repeat (destruct Hn as [E|Hn]; [injection E as <- _; repeat (destruct Hi as [Hi|Hi]; [discriminate|]); destruct Hi|]).
    destruct Hn.
Qed.

(** ** What is read is what is meant *)

Lemma amount_unit_spec q u sym s' a : is_number q || is_decimal q = true ->
  parse_amount_and_unit q u sym = Some (s', a) <->
  s' = sym /\ exists n k p, quantity q n k /\ unit_of u p /\ (k <= p)%nat /\
    a = N.min max_i64 (n * 10 ^ N.of_nat (p - k)).
Proof.
  intros Hq. apply quantity_iff in Hq. destruct Hq as (n & k & Hq).
  unfold parse_amount_and_unit. destruct (find_unit _ _) as [p|] eqn:Hu.
  - rewrite (pow10_spec _ _ _ p Hq). destruct (Nat.ltb_spec p k) as [H|H].
    + split; [discriminate|]. intros (_ & n' & k' & p' & Hq' & Hu' & Hk & _).
      apply find_unit_spec in Hu'. rewrite Hu in Hu'. injection Hu' as <-.
      pose proof (pow10_spec _ _ _ p Hq) as E1. rewrite (pow10_spec _ _ _ p Hq') in E1.
      destruct (Nat.ltb_spec p k); [|lia]. destruct (Nat.ltb_spec p k'); [lia|discriminate].
    + apply find_unit_spec in Hu. split.
      * intros E. injection E as <- <-. split; auto. exists n, k, p. auto.
      * intros (-> & n' & k' & p' & Hq' & Hu' & Hk & ->). do 2 f_equal.
        apply find_unit_spec in Hu, Hu'. rewrite Hu in Hu'. injection Hu' as <-.
        pose proof (pow10_spec _ _ _ p Hq) as E1. rewrite (pow10_spec _ _ _ p Hq') in E1.
        destruct (Nat.ltb_spec p k); [lia|]. destruct (Nat.ltb_spec p k'); [discriminate|]. congruence.
  - split; [discriminate|]. intros (_ & _ & _ & p & _ & Hu' & _). apply find_unit_spec in Hu'. congruence.
Qed.

(** The token that is taken if the text names none. *)
Definition taken (f : form) (def : bytes) : bytes := match f with AmountUnit => WICC | _ => def end.

Lemma parse_means def s sym a : parse_money s def = Some (sym, a) ->
  exists f n k p, means (taken f def) f s sym n k p /\ (k <= p)%nat /\ a = N.min max_i64 (n * 10 ^ N.of_nat (p - k)).
Proof.
  unfold parse_money. destruct (split colon s []) as [|x [|y [|z [|]]]] eqn:Es; try discriminate.
  - destruct (is_number x) eqn:Hx; [|discriminate]. intros E. injection E as <- <-.
    apply whole_iff in Hx. destruct Hx as (n & Hx).
    apply split_1 in Es; [|eapply quantity_nonempty; eauto]. destruct Es as [_ Es].
    exists Plain, n, 0%nat, 0%nat. split; [|split; [lia|]].
    + exists x. split; [constructor; auto|exact Es].
    + rewrite atoll_spec, (whole_number _ _ Hx). cbn. rewrite N.mul_1_r. auto.
  - apply split_S in Es. destruct Es as (r & -> & Hx & Er).
    destruct (is_number x || is_decimal x) eqn:Hq.
    + intros E. apply amount_unit_spec in E; auto.
      destruct E as (-> & n & k & p & Hn & Hu & Hk & ->). destruct (unit_chars _ _ Hu) as [Hu1 Hu2].
      apply split_1 in Er; auto. destruct Er as [_ Er].
      exists AmountUnit, n, k, p. split; [|auto].
      exists (x ++ 58 :: y). split; [constructor; auto|].
      destruct Er as [-> | ->]; [left; auto | right; rewrite <- app_assoc; auto].
    + destruct (is_number y) eqn:Hy; [|discriminate]. unfold parse_symbol_and_amount.
      destruct (Nat.ltb_spec max_symbol (List.length x)) as [|Hl]; [discriminate|].
      intros E. injection E as <- <-. apply whole_iff in Hy. destruct Hy as (n & Hy).
      apply split_1 in Er; [|eapply quantity_nonempty; eauto]. destruct Er as [_ Er].
      exists SymbolAmount, n, 0%nat, 0%nat. split; [|split; [lia|]].
      * exists (x ++ 58 :: y). split.
        { constructor; auto; [split; auto|]. intros m k Hm.
          assert (is_number x || is_decimal x = true) as H by (apply quantity_iff; eauto). congruence. }
        { destruct Er as [-> | ->]; [left; auto | right; rewrite <- app_assoc; auto]. }
      * rewrite atoll_spec, (whole_number _ _ Hy). cbn. rewrite N.mul_1_r. auto.
  - apply split_S in Es. destruct Es as (r & -> & Hx & Er).
    apply split_S in Er. destruct Er as (r' & -> & Hy & Er).
    destruct (Nat.ltb_spec max_symbol (List.length x)) as [|Hl]; [discriminate|].
    rewrite <- negb_orb. destruct (is_number y || is_decimal y) eqn:Hq; [|discriminate]. cbn [negb].
    intros E. apply amount_unit_spec in E; auto.
    destruct E as (-> & n & k & p & Hn & Hu & Hk & ->). destruct (unit_chars _ _ Hu) as [Hu1 Hu2].
    apply split_1 in Er; auto. destruct Er as [_ Er].
    exists Full, n, k, p. split; [|auto].
    exists (x ++ 58 :: y ++ 58 :: z). split; [constructor; auto; split; auto|].
    destruct Er as [-> | ->]; [left; auto | right]. rewrite <- app_assoc. cbn [app]. rewrite <- app_assoc. auto.
Qed.

Lemma split_end a e : ~ In 58 a -> a <> [] -> e = [] \/ e = [58] -> split colon (a ++ e) [] = [a].
Proof.
  intros Ha Hn [-> | ->].
  - rewrite app_nil_r. apply split_one; auto.
  - rewrite (split_cut 58) by auto. reflexivity.
Qed.

Lemma amount_unit_eq q u sym n k p : quantity q n k -> unit_of u p ->
  parse_amount_and_unit q u sym =
  if Nat.ltb p k then None else Some (sym, N.min max_i64 (n * 10 ^ N.of_nat (p - k))).
Proof.
  intros Hq Hu. apply find_unit_spec in Hu. unfold parse_amount_and_unit.
  rewrite Hu, (pow10_spec _ _ _ p Hq). destruct (Nat.ltb p k); auto.
Qed.

Lemma means_parse def f s sym n k p : means (taken f def) f s sym n k p ->
  parse_money s def = if Nat.ltb p k then None else Some (sym, N.min max_i64 (n * 10 ^ N.of_nat (p - k))).
Proof.
  intros (s0 & H & Hs).
  assert (exists e, s = s0 ++ e /\ (e = [] \/ e = [58])) as (e & -> & He).
  { destruct Hs as [-> | ->]; [exists []; rewrite app_nil_r; auto | exists [58]; auto]. }
  clear Hs. unfold parse_money. inversion H; subst; cbn [taken] in *.
  - rewrite split_end; auto; [|eapply quantity_no_colon; eauto|eapply quantity_nonempty; eauto].
    assert (is_number s0 = true) as -> by (apply whole_iff; eauto).
    rewrite atoll_spec, (whole_number _ _ H0). cbn. rewrite N.mul_1_r. auto.
  - destruct (unit_chars _ _ H1) as [Hu1 Hu2].
    rewrite <- app_assoc. cbn [app]. rewrite (split_cut 58), split_end; auto; [|eapply quantity_no_colon; eauto].
    cbn [app]. assert (is_number q || is_decimal q = true) as Hq by (apply quantity_iff; eauto).
    rewrite Hq. apply amount_unit_eq; auto.
  - destruct H0 as [Hc Hl].
    rewrite <- app_assoc. cbn [app]. rewrite (split_cut 58), split_end; auto;
      [|eapply quantity_no_colon; eauto|eapply quantity_nonempty; eauto].
    cbn [app]. destruct (is_number sym || is_decimal sym) eqn:E.
    { apply quantity_iff in E. destruct E as (m & k' & E). exfalso. eapply H1; eauto. }
    assert (is_number q = true) as -> by (apply whole_iff; eauto).
    unfold parse_symbol_and_amount. unfold max_symbol. destruct (Nat.ltb_spec 7 (List.length sym)); [lia|].
    rewrite atoll_spec, (whole_number _ _ H2). cbn. rewrite N.mul_1_r. auto.
  - destruct H0 as [Hc Hl]. destruct (unit_chars _ _ H2) as [Hu1 Hu2].
    rewrite <- app_assoc. cbn [app]. rewrite (split_cut 58) by auto.
    rewrite <- app_assoc. cbn [app]. rewrite (split_cut 58), split_end; auto; [|eapply quantity_no_colon; eauto].
    cbn [app]. assert (is_number q || is_decimal q = true) as Hq by (apply quantity_iff; eauto).
    unfold max_symbol. destruct (Nat.ltb_spec 7 (List.length sym)); [lia|].
    rewrite <- negb_orb, Hq. cbn [negb]. apply amount_unit_eq; auto.
Qed.

(** Exactly. *)
Lemma scaled n k p : (k <= p)%nat ->
  n * 10 ^ N.of_nat (p - k) * 10 ^ N.of_nat k = n * 10 ^ N.of_nat p.
Proof.
  intros H. rewrite <- N.mul_assoc, <- N.pow_add_r. do 2 f_equal. lia.
Qed.

Lemma pow_pos k : 0 < 10 ^ N.of_nat k.
Proof. apply N.neq_0_lt_0, N.pow_nonzero. discriminate. Qed.

Lemma exact_amount n k p a : (k <= p)%nat -> a < max_i64 ->
  a = N.min max_i64 (n * 10 ^ N.of_nat (p - k)) -> a * 10 ^ N.of_nat k = n * 10 ^ N.of_nat p.
Proof. intros H Ha E. rewrite <- (scaled n k p H). f_equal. lia. Qed.

(** ** Showing amounts *)

Lemma digits_forall k n : Forall digit (digits k n).
Proof.
  revert n. induction k as [|k IH]; intros n; cbn [digits]; [constructor|].
  apply Forall_app. split; auto. constructor; auto. unfold digit.
  pose proof (N.mod_lt n 10). lia.
Qed.

Lemma digits_length k n : length (digits k n) = k.
Proof.
  revert n. induction k as [|k IH]; intros n; cbn [digits]; auto. rewrite app_length, IH. cbn. lia.
Qed.

Lemma digits_number k n : n < 10 ^ N.of_nat k -> number (digits k n) = n.
Proof.
  revert n. induction k as [|k IH]; intros n H; cbn [digits].
  - cbn in H. cbn. lia.
  - rewrite number_app. cbn [number List.length]. change (10 ^ N.of_nat 1) with 10.
    change (10 ^ N.of_nat 0) with 1. rewrite IH.
    + pose proof (N.div_mod n 10). lia.
    + rewrite Nat2N.inj_succ, N.pow_succ_r' in H. apply N.div_lt_upper_bound; lia.
Qed.

Lemma size10_bound f n : n < 10 ^ N.of_nat f -> n < 10 ^ N.of_nat (size10 f n).
Proof.
  revert n. induction f as [|f IH]; intros n H; cbn [size10].
  - cbn in *. lia.
  - destruct (N.ltb_spec n 10); [cbn; lia|].
    rewrite Nat2N.inj_succ, N.pow_succ_r' in *.
    assert (n / 10 < 10 ^ N.of_nat f) as H1 by (apply N.div_lt_upper_bound; lia).
    apply IH in H1. pose proof (N.div_mod n 10). pose proof (N.mod_lt n 10). lia.
Qed.

(** No zero in front. *)
Lemma size10_head f n : n < 10 ^ N.of_nat (S f) ->
  digits (size10 f n) n = [48] /\ n = 0 \/
  exists c ip, digits (size10 f n) n = c :: ip /\ 49 <= c <= 57.
Proof.
  revert n. induction f as [|f IH]; intros n H; cbn [size10].
  - cbn in H. cbn [digits app]. destruct (N.eq_dec n 0) as [->|Hn]; [left; auto|]. right. exists (48 + n mod 10), [].
    split; auto. rewrite N.mod_small; lia.
  - destruct (N.ltb_spec n 10).
    + cbn [digits app]. destruct (N.eq_dec n 0) as [->|Hn]; [left; auto|]. right. exists (48 + n mod 10), [].
      split; auto. rewrite N.mod_small; lia.
    + right. rewrite Nat2N.inj_succ, N.pow_succ_r' in H.
      assert (n / 10 < 10 ^ N.of_nat (S f)) as H1 by (apply N.div_lt_upper_bound; lia).
      cbn [digits]. destruct (IH _ H1) as [[_ E] | (c & ip & -> & Hc)].
      * pose proof (N.div_mod n 10). pose proof (N.mod_lt n 10). lia.
      * exists c, (ip ++ [48 + n mod 10]). auto.
Qed.

Lemma show_quantity a : a < 2 ^ 64 -> quantity (show_amount a) a 8.
Proof.
  intros H. unfold show_amount, decimal.
  assert (a / 100000000 < 10 ^ N.of_nat 20) as H1.
  { apply N.div_lt_upper_bound; [lia|]. eapply N.lt_trans; [exact H|]. reflexivity. }
  assert (a mod 100000000 < 10 ^ N.of_nat 8) as H2 by (apply (N.mod_lt a 100000000); lia).
  pose proof (digits_number 8 _ H2) as E2. pose proof (digits_length 8 (a mod 100000000)) as L2.
  pose proof (digits_forall 8 (a mod 100000000)) as F2.
  pose proof (digits_number _ _ (size10_bound 20 _ H1)) as E1.
  pose proof (digits_forall (size10 20 (a / 100000000)) (a / 100000000)) as F1.
  assert (a / 100000000 < 10 ^ N.of_nat 21) as H3 by (eapply N.lt_trans; [exact H1|reflexivity]).
  destruct (size10_head 20 _ H3) as [[E E0] | (c & ip & E & Hc)].
  - rewrite E. set (dp := digits 8 (a mod 100000000)) in *.
    assert (a = number dp) as Ea by (rewrite E2; pose proof (N.div_mod a 100000000); lia).
    clearbody dp. rewrite Ea. rewrite <- L2. constructor; auto. intros Hd. rewrite Hd in L2. discriminate.
  - rewrite E in *. set (dp := digits 8 (a mod 100000000)) in *.
    assert (a = number ((c :: ip) ++ dp)) as Ea.
    { rewrite number_app, L2, E1, E2. change (10 ^ N.of_nat 8) with 100000000.
      pose proof (N.div_mod a 100000000). lia. }
    clearbody dp. rewrite Ea. rewrite <- L2. change ([dot] ++ dp) with (46 :: dp). constructor; auto.
    + inversion F1; auto.
    + intros Hd. rewrite Hd in L2. discriminate.
Qed.

(** ** Numbers *)

Lemma dadd_ok x y b : (-1074 <= b <= 1023)%Z -> is_finite x = true -> is_finite y = true ->
  (Rabs (val x + val y) <= bpow radix2 b)%R ->
  is_finite (dadd x y) = true /\ val (dadd x y) = rnd (val x + val y).
Proof.
  intros Hb Fx Fy H. pose proof (Bplus_correct 53 1024 prec53 emax1024 mode_NE x y Fx Fy) as E.
  change (round radix2 (SpecFloat.fexp 53 1024) (round_mode mode_NE) (B2R x + B2R y)) with (rnd (val x + val y)) in E.
  rewrite (no_overflow _ b) in E; auto. destruct E as (E1 & E2 & _).
  unfold dadd, val. auto.
Qed.

Lemma half_ok : is_finite half = true /\ val half = (/ 2)%R.
Proof.
  destruct (of_Z_exact 1) as [F1 E1]; [lia|]. destruct (of_Z_exact 2) as [F2 E2]; [lia|].
  assert (val (of_Z 1) / val (of_Z 2) = bpow radix2 (-1))%R as E by (rewrite E1, E2; simpl; lra).
  unfold half. destruct (ddiv_ok (of_Z 1) (of_Z 2) 0) as [F Ev]; auto; try lia.
  - rewrite E2. lra.
  - rewrite E, Rabs_pos_eq by apply bpow_ge_0. apply bpow_le. lia.
  - split; auto. rewrite Ev, E, rnd_bpow by lia. simpl. lra.
Qed.

(** Half integers with few bits are exact. *)
Lemma generic_half z : (Z.abs z <= 2 ^ 53)%Z ->
  generic_format radix2 (SpecFloat.fexp 53 1024) (IZR z * / 2)%R.
Proof.
  intros H. replace (IZR z * / 2)%R with (F2R (Float radix2 z (-1))) by (unfold F2R; simpl; lra).
  destruct (Z.eq_dec z 0) as [->|Hz]; [rewrite F2R_0; apply generic_format_0|].
  destruct (Z.eq_dec (Z.abs z) (2 ^ 53)) as [E|E].
  - replace (F2R (Float radix2 z (-1))) with (IZR (Z.sgn z * 2 ^ 52)).
    + apply generic_Z. lia.
    + unfold F2R. simpl Fnum. simpl Fexp. assert (z = Z.sgn z * 2 ^ 53)%Z as H1 by lia. rewrite H1 at 2.
      rewrite !mult_IZR. simpl. lra.
  - apply generic_format_F2R. intros _. unfold cexp.
    assert ((mag radix2 (F2R (Float radix2 z (-1))) <= 52)%Z).
    { rewrite mag_F2R by auto.
      assert ((mag radix2 (IZR z) <= 53)%Z).
      { apply mag_le_bpow; [apply IZR_neq; auto|]. rewrite <- abs_IZR.
        change (bpow radix2 53) with (IZR (2 ^ 53)). apply IZR_lt. lia. }
      simpl Fnum. simpl Fexp. lia. }
    unfold SpecFloat.fexp, SpecFloat.emin. lia.
Qed.

Lemma rnd_half z : (Z.abs z <= 2 ^ 53)%Z -> rnd (IZR z * / 2) = (IZR z * / 2)%R.
Proof. intros H. apply round_generic; [typeclasses eauto|]. apply generic_half; auto. Qed.

Lemma dlt_ok x y : is_finite x = true -> is_finite y = true -> dlt x y = Rlt_bool (val x) (val y).
Proof. intros Fx Fy. unfold dlt. apply Bltb_correct; auto. Qed.

Lemma round_exact n : (0 <= n < 2 ^ 52)%Z -> round_int64 (of_Z n) = Some n.
Proof.
  intros H. destruct (Z.eq_dec n 0) as [->|Hn]; [reflexivity|].
  destruct (of_Z_exact n) as [F E]; [lia|]. destruct (of_Z_exact 0) as [F0 E0]; [lia|].
  destruct half_ok as [Fh Eh]. unfold round_int64. rewrite dlt_ok, E, E0 by auto.
  assert (1 <= IZR n)%R as H1 by (apply IZR_le; lia).
  assert (IZR n <= IZR (2 ^ 52))%R as H2 by (apply IZR_le; lia).
  rewrite Rlt_bool_true by lra.
  destruct (dadd_ok (of_Z n) half 53) as [Fa Ea]; auto; try lia.
  { rewrite E, Eh, Rabs_pos_eq by lra. change (bpow radix2 53) with (IZR (2 ^ 53)).
    change (IZR (2 ^ 53)) with 9007199254740992%R. change (IZR (2 ^ 52)) with 4503599627370496%R in H2. lra. }
  rewrite Fa, trunc_ok, Ea, E, Eh.
  replace (IZR n + / 2)%R with (IZR (2 * n + 1) * / 2)%R by (rewrite plus_IZR, mult_IZR; lra).
  rewrite rnd_half by lia. rewrite plus_IZR, mult_IZR.
  assert (Ztrunc ((2 * IZR n + 1) * / 2) = n) as ->.
  { rewrite Ztrunc_floor by lra. apply Zfloor_imp. rewrite plus_IZR. lra. }
  destruct ((- 2 ^ 63 <=? n) && (n <? 2 ^ 63))%Z eqn:Eb; auto. lia.
Qed.

(** The error of large numbers. *)
Lemma round_near n : (0 <= n <= max_money)%Z -> exists z, round_int64 (of_Z n) = Some z /\ (Z.abs (z - n) <= 5)%Z.
Proof.
  intros H. destruct (Z.eq_dec n 0) as [->|Hn]; [exists 0%Z; split; [reflexivity|lia]|].
  unfold max_money in H.
  destruct (of_Z_ok n) as [F E].
  { rewrite Z.abs_eq by lia. apply Z.le_trans with (2 ^ 55)%Z; [cbn; lia|]. apply Z.pow_le_mono_r; lia. }
  destruct (of_Z_exact 0) as [F0 E0]; [lia|]. destruct half_ok as [Fh Eh].
  assert (1 <= IZR n)%R as H1 by (apply IZR_le; lia).
  assert (IZR n <= 21000000000000000)%R as H2 by (apply IZR_le; lia).
  pose proof (rnd_err0 (IZR n)) as Er. rewrite (Rabs_pos_eq (IZR n)) in Er by lra. rewrite eps_val in Er.
  assert (bpow radix2 (-1000) <= 1)%R as Hb by (change 1%R with (bpow radix2 0); apply bpow_le; lia).
  specialize (Er (or_intror (Rle_trans _ _ _ Hb H1))).
  pose proof (rnd_le 1 (IZR n) H1) as G1. rewrite (rnd_Z 1) in G1 by lia.
  set (x := rnd (IZR n)) in *. apply Rabs_le_inv in Er.
  unfold round_int64. rewrite dlt_ok, E, E0 by auto. rewrite Rlt_bool_true by lra.
  destruct (dadd_ok (of_Z n) half 55) as [Fa Ea]; auto; try lia.
  { rewrite E, Eh, Rabs_pos_eq by lra. change (bpow radix2 55) with 36028797018963968%R. lra. }
  rewrite E, Eh in Ea.
  pose proof (rnd_err0 (x + / 2)) as Er2. rewrite (Rabs_pos_eq (x + / 2)) in Er2 by lra. rewrite eps_val in Er2.
  assert (bpow radix2 (-1000) <= x + / 2)%R as Hb2 by lra.
  specialize (Er2 (or_intror Hb2)). apply Rabs_le_inv in Er2.
  rewrite Fa, trunc_ok, Ea.
  set (y := rnd (x + / 2)) in *.
  assert (0 <= y)%R by lra.
  rewrite Ztrunc_floor by auto.
  pose proof (Zfloor_lb y) as Fl. pose proof (Zfloor_ub y) as Fu.
  assert ((Zfloor y <= n + 5)%Z /\ (n - 5 <= Zfloor y)%Z) as [B1 B2].
  { split.
    - assert (IZR (Zfloor y) < IZR (n + 6))%R as L by (rewrite plus_IZR; lra). apply lt_IZR in L. lia.
    - assert (IZR (n - 6) < IZR (Zfloor y))%R as L by (rewrite minus_IZR; lra). apply lt_IZR in L. lia. }
  destruct ((- 2 ^ 63 <=? Zfloor y) && (Zfloor y <? 2 ^ 63))%Z eqn:Eb; [|lia].
  exists (Zfloor y). split; auto. lia.
Qed.

(** ** Through the calls *)

Lemma typed_lemma def s sym a : get_combo_money (JStr s) def = Value (sym, a) -> a < max_i64 ->
  exists f n k p, means (taken f def) f s sym n k p /\ a * 10 ^ N.of_nat k = n * 10 ^ N.of_nat p.
Proof.
  unfold get_combo_money. destruct (parse_money s def) as [m|] eqn:E; [|discriminate].
  intros H Ha. injection H as ->. apply parse_means in E. destruct E as (f & n & k & p & M & Hk & Ea).
  exists f, n, k, p. split; auto. eapply exact_amount; eauto.
Qed.

Lemma understood_lemma def f s sym n k p : means def f s sym n k p -> (f = AmountUnit -> def = WICC) ->
  (k <= p)%nat -> n * 10 ^ N.of_nat p < 2 ^ 63 * 10 ^ N.of_nat k ->
  exists a, get_combo_money (JStr s) def = Value (sym, a) /\ a * 10 ^ N.of_nat k = n * 10 ^ N.of_nat p.
Proof.
  intros M Hd Hk Hb. exists (n * 10 ^ N.of_nat (p - k)). split; [|apply scaled; auto].
  unfold get_combo_money. rewrite (means_parse def f s sym n k p).
  - destruct (Nat.ltb_spec p k); [lia|]. do 2 f_equal. rewrite <- (scaled n k p Hk) in Hb.
    apply N.mul_lt_mono_pos_r in Hb; [|apply pow_pos]. unfold max_i64. lia.
  - destruct f; cbn [taken]; auto. rewrite <- Hd; auto.
Qed.

Lemma too_fine_lemma def f s sym n k p : means def f s sym n k p -> (f = AmountUnit -> def = WICC) ->
  (p < k)%nat -> get_combo_money (JStr s) def = Refused.
Proof.
  intros M Hd Hk. unfold get_combo_money. rewrite (means_parse def f s sym n k p).
  - destruct (Nat.ltb_spec p k); [auto|lia].
  - destruct f; cbn [taken]; auto. rewrite <- Hd; auto.
Qed.

Lemma shown_back_lemma a sym def : a < 2 ^ 63 -> ~ In 58 sym -> (List.length sym <= 7)%nat ->
  get_combo_money (JStr (sym ++ 58 :: show_amount a ++ 58 :: letters "wi")) def = Value (sym, a).
Proof.
  intros Ha H1 H2. unfold get_combo_money.
  rewrite (means_parse def Full _ sym a 8 8).
  - change (Nat.ltb 8 8) with false. cbv iota. change (8 - 8)%nat with 0%nat. change (10 ^ N.of_nat 0) with 1.
    rewrite N.mul_1_r. do 2 f_equal. unfold max_i64. lia.
  - eexists. split; [|left; reflexivity]. constructor.
    + split; auto.
    + apply show_quantity. lia.
    + apply find_unit_spec. reflexivity.
Qed.

Lemma number_lemma n def : (0 <= n < 2 ^ 52)%Z -> get_combo_money (JInt n) def = Value (def, Z.to_N n).
Proof.
  intros H. unfold get_combo_money, amount_to_raw_value. rewrite round_exact by auto.
  unfold max_money. destruct ((0 <=? n) && (n <=? 21000000000000000))%Z eqn:E; auto. lia.
Qed.

Lemma number_near_lemma n sym a def : (0 <= n <= max_money)%Z -> get_combo_money (JInt n) def = Value (sym, a) ->
  sym = def /\ (Z.abs (Z.of_N a - n) <= 5)%Z.
Proof.
  intros H. unfold get_combo_money, amount_to_raw_value. destruct (round_near n H) as (z & -> & Hz).
  destruct ((0 <=? z) && (z <=? max_money))%Z eqn:E; [|discriminate].
  intros E'. injection E' as <- <-. split; auto. lia.
Qed.

Lemma round_negative n z : (- 2 ^ 63 <= n < 0)%Z -> round_int64 (of_Z n) = Some z -> (z < 0)%Z.
Proof.
  intros H. destruct (of_Z_ok n) as [F E].
  { apply Z.le_trans with (2 ^ 63)%Z; [lia|]. apply Z.pow_le_mono_r; lia. }
  destruct (of_Z_exact 0) as [F0 E0]; [lia|]. destruct half_ok as [Fh Eh].
  assert (IZR n <= -1)%R as H1 by (apply IZR_le; lia).
  assert (-9223372036854775808 <= IZR n)%R as H2 by (apply IZR_le; lia).
  pose proof (rnd_le _ _ H1) as G1. rewrite (rnd_Z (-1)) in G1 by lia.
  assert (Rabs (rnd (IZR n)) <= bpow radix2 63)%R as G2.
  { apply rnd_small; [lia|]. rewrite Rabs_left by lra. change (bpow radix2 63) with 9223372036854775808%R. lra. }
  apply Rabs_le_inv in G2. destruct G2 as [G2 _]. change (bpow radix2 63) with 9223372036854775808%R in G2.
  unfold round_int64. rewrite dlt_ok, E, E0 by auto. rewrite Rlt_bool_false by lra.
  pose proof (Bminus_correct 53 1024 prec53 emax1024 mode_NE (of_Z n) half F Fh) as B.
  change (round radix2 (SpecFloat.fexp 53 1024) (round_mode mode_NE) (B2R (of_Z n) - B2R half))
    with (rnd (val (of_Z n) - val half)) in B.
  rewrite E, Eh in B. rewrite (no_overflow _ 64) in B; [|lia|].
  - destruct B as (B1 & B2 & _). fold (dsub (of_Z n) half) in B1, B2. rewrite B2, trunc_ok. unfold val. rewrite B1.
    set (y := rnd (rnd (IZR n) - / 2)).
    assert (y <= -1)%R as Hy.
    { unfold y. rewrite <- (rnd_Z (-1)) by lia. apply rnd_le. lra. }
    assert (Ztrunc y < 0)%Z as Ht.
    { rewrite Ztrunc_ceil by lra. apply Z.le_lt_trans with (-1)%Z; [|lia]. apply Zceil_glb. exact Hy. }
    destruct (_ && _)%bool; [|discriminate]. intros Ez. injection Ez as <-. exact Ht.
  - rewrite Rabs_left by lra. change (bpow radix2 64) with 18446744073709551616%R. lra.
Qed.

Lemma number_negative_lemma n def m : (- 2 ^ 63 <= n < 0)%Z -> get_combo_money (JInt n) def <> Value m.
Proof.
  intros H. unfold get_combo_money, amount_to_raw_value. destruct (round_int64 (of_Z n)) as [z|] eqn:E; [|discriminate].
  apply round_negative in E; auto. destruct ((0 <=? z) && (z <=? max_money))%Z eqn:Eb; [lia|discriminate].
Qed.
