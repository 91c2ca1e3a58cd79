(** Vocabulary of the claims about universal transactions and WASM contracts (C85-C94). *)
From Coq Require Import String Ascii List Bool NArith ZArith.
From Verif Require Import Prelude AccountModel AccountSpec TxModel TxSpec PermModel DexModel
  LuaModel WasmModel.
Import ListNotations.
Open Scope N_scope.

(** The numbers of the names in WasmModel.v are those of the texts in the source. *)
Lemma names_ok :
  map name_of ["issue"; "mint"; "burn"; "update"; "transfer"; "setasseticon"; "setcode";
               "setcoder"; "vote"; "mintrewards"; "on_mint"; "wasmio_code"]%string =
  [n_issue; n_mint; n_burn; n_update; n_transfer; n_setasseticon; n_setcode; n_setcoder;
   n_vote; n_mintrewards; n_on_mint; n_wasmio_code].
Proof. vm_compute. reflexivity. Qed.

(** What the record of a token says is in circulation; the rewards still to be minted. *)
Definition recorded (w : world) (s : string) : N :=
  match fget String.eqb (wd_assets w) s with Some a => s_total a | None => 0 end.
Definition pending (w : world) (s : string) : N :=
  if String.eqb s "WICC" then r_new (wd_reward w) else 0.

(** Somebody may mint and burn the token. *)
Definition owned (a : asset) : bool := s_mintable a && negb (regid_empty (s_owner a)).

(** The bound on the coins of a token: a token somebody may mint has no more coins than are
    recorded; a name that may still be issued has none; all others fit a signed number. *)
Definition cap (e : wenv) (w : world) (s : string) : N :=
  match fget String.eqb (wd_assets w) s with
  | Some a => if owned a then s_total a else 9223372036854775807
  | None => if uia_ok (ev_symbol_min e) s then 0 else 9223372036854775807
  end.

Definition env_ok (e : wenv) : Prop :=
  0 < ev_height e /\ ev_address e (ev_height e, ev_index e) <> 0 /\ ev_ratio e <= 10000 /\
  ev_issue_fee e < two64.

(** Bytes of data contracts keep: key, value and the contract's number. *)
Definition data_size (d : list ((regid * (N * list N)) * list N)) : N :=
  nsum (map (fun kv => 8 + N.of_nat (List.length (snd (snd (fst kv)))) + N.of_nat (List.length (snd kv))) d).

Section Spec.
  Variable pk_keyid : N -> N.
  Variable payer_sig : N -> bool.
  Variable extra_sig : N -> N -> bool.

  (** A state between transactions: accounts and the table of registration ids agree with each
      other; the built-in modules have no account; WICC belongs to nobody; recorded totals and
      coins are within their bounds. *)
  Record sane (e : wenv) (w : world) : Prop := {
    st_accounts : consistent pk_keyid (t_acc (wd_tx w)) (t_reg (wd_tx w));
    st_orders : NoDup (map fst (t_orders (wd_tx w)));
    st_zero : l_get (t_acc (wd_tx w)) 0 = None;
    st_table : forall r k, fget regid_eqb (t_reg (wd_tx w)) r = Some k ->
      exists a, l_get (t_acc (wd_tx w)) k = Some a /\ a_regid a = r;
    st_modules : forall n, is_native n = true -> fget regid_eqb (t_reg (wd_tx w)) (reg_of n) = None;
    st_wicc : exists a, fget String.eqb (wd_assets w) "WICC"%string = Some a /\
                        regid_empty (s_owner a) = true;
    st_total : forall s a, fget String.eqb (wd_assets w) s = Some a -> owned a = true ->
                           s_total a <= 9000000000000000000;
    st_supply : forall s, supply (t_acc (wd_tx w)) s + pending w s <= cap e w s }.

  (** The registration id the transaction can give away, and the address that goes with it, are
      not in use. *)
  Definition vacant (e : wenv) (w : world) : Prop :=
    fget regid_eqb (t_reg (wd_tx w)) (ev_height e, ev_index e) = None /\
    l_get (t_acc (wd_tx w)) (ev_address e (ev_height e, ev_index e)) = None.
  Definition settled (e : wenv) (w : world) : Prop := env_ok e /\ sane e w /\ vacant e w.

  (** The payer is a registered account. *)
  Definition payer (w : world) (u : utx) (k : N) (r : regid) : Prop :=
    denotes pk_keyid (t_reg (wd_tx w)) (u_uid u) = Some k /\
    exists a, l_get (t_acc (wd_tx w)) k = Some a /\ a_regid a = r /\ regid_empty r = false.

  (** The transaction carries a signature, other than the payer's, that the key of the account
      with number [n] verifies. *)
  Definition cosigned (w : world) (u : utx) (n : N) : Prop :=
    exists s k a p, In (n, s) (u_sigs u) /\ fget regid_eqb (t_reg (wd_tx w)) (reg_of n) = Some k /\
      l_get (t_acc (wd_tx w)) k = Some a /\ a_pubkey a = Some p /\ extra_sig p s = true.

  (** [n] is the payer's number, or its account signed too. *)
  Definition signed (w : world) (u : utx) (n : N) : Prop :=
    (exists k r, payer w u k r /\ n = num_of r) \/ cosigned w u n.

  (** The transaction itself calls the contract [m] with the authority of [n], who signed. *)
  Definition asked (w : world) (u : utx) (m n : N) : Prop :=
    signed w u n /\ exists t p, In t (u_inl u) /\ g_contract t = m /\ In p (g_auth t) /\ pm_acc p = n.

  (** Code stored as a contract ran under the number [n]; or one of the modules did. *)
  Definition acted (w' : world) (n : N) : Prop :=
    In (n, true) (wd_runs w') /\
    (is_native n = true \/ fget regid_eqb (wd_codes w') (reg_of n) <> None).

  (** What is needed to act for [n] in the module [m]. *)
  Definition authority (w : world) (u : utx) (w' : world) (m n : N) : Prop :=
    asked w u m n \/ acted w' n.
End Spec.

(** The ranking of candidates shows [v] votes for [r]: the entries are ordered by votes, most
    first; a candidate with votes is there, with no other number of votes. *)
Definition shows (rank : list ((N * regid) * unit)) (r : regid) (v : N) : Prop :=
  (forall x, fget rank_key_eqb rank (x, r) <> None -> x = 18446744073709551615 - v) /\
  (0 < v -> fget rank_key_eqb rank (18446744073709551615 - v, r) <> None).

(** The same surroundings but for the clock. *)
Definition with_clock (e : wenv) (late : N -> bool) : wenv :=
  mkWenv (ev_height e) (ev_index e) (ev_issue_fee e) (ev_ratio e) (ev_reserve e) (ev_delegates e)
    (ev_symbol_min e) (ev_voting e) late (ev_size e) (ev_address e) (ev_prog e).
