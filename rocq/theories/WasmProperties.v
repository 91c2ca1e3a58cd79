(** Claims about universal transactions and WASM contracts (C85-C94). *)
From Coq Require Import String Ascii List Bool NArith ZArith Lia.
From Coq Require Import ZifyBool ZifyNat ZifyN.
From Verif Require Import Prelude PreludeFacts AccountModel AccountSpec AccountProofs TxModel TxSpec
  TxProofs FeeModel PermModel DexModel RegidModel LuaModel LuaProofs WasmModel WasmSpec WasmTx
  WasmBank WasmSteps WasmProofs.
Import ListNotations.
Open Scope N_scope.
Ltac Zify.zify_post_hook ::= Z.div_mod_to_equations.

(** ** A small world *)

Definition wx_acc (k : N) (r : regid) (pub : option N) (c : N) (perms : N) : account :=
  mkAccount k r pub [("WICC"%string, mkToken c 0 0 0 0)] 0 0 0 perms.
(** 1 and 2 are ordinary accounts, 3 a contract, 4 an account without any rights, 9 an account
    that is not registered. *)
Definition wx_accounts : list (N * account) :=
  [(1, mkAccount 1 (1, 1) (Some 1) [("WICC"%string, mkToken 5000 0 0 0 0); ("AAAA"%string, mkToken 700 0 0 0 0)]
         0 0 0 65535);
   (2, wx_acc 2 (2, 1) (Some 2) 600 65535); (3, wx_acc 3 (3, 1) None 400 65535);
   (4, wx_acc 4 (4, 1) (Some 4) 800 0); (9, wx_acc 9 (0, 0) None 9000 65535)].
Definition wx_table : list (regid * N) := [((1, 1), 1); ((2, 1), 2); ((3, 1), 3); ((4, 1), 4)].
Definition wx_assets : list (string * asset) :=
  [("WICC"%string, mkAsset [] (0, 0) 21000000000000000 false []);
   ("AAAA"%string, mkAsset [65] (1, 1) 700 true [])].
(** Three contracts: the first maintained by account 1, the second by nobody, the third by
    account 2. *)
Definition wx_codes : list (regid * store) :=
  [((3, 1), mkStore [7] [1] (1, 1)); ((5, 1), mkStore [9] [1] (0, 0)); ((6, 1), mkStore [8] [1] (2, 1))].
Definition wx : world :=
  mkWorld (mkTx wx_accounts wx_table [] None []) wx_assets wx_codes [] [] 0 (mkReward 0 0 0 0 0) 0 [] 0.

Definition wx_transfer (from to amount : N) (memo : list N) : itx :=
  mkItx wasmio_bank n_transfer [mkPerm from n_wasmio_code]
    (le_bytes 8 from ++ le_bytes 8 to ++ le_bytes 8 amount ++ le_bytes 8 wicc_symbol ++ memo).
Definition wx1 : N := num_of (1, 1).
Definition wx2 : N := num_of (2, 1).
Definition wx3 : N := num_of (3, 1).
Definition wx4 : N := num_of (4, 1).
Definition wx5 : N := num_of (5, 1).
Definition wx6 : N := num_of (6, 1).

(** The first contract notes something and pays 30 to account 2 whenever it is called directly;
    the third calls itself. *)
Definition wx_prog (code : list N) (t : itx) (n : N) (w : world) : list hcall :=
  match code with
  | [7] => if g_contract t =? n then [HStore [1] [2; 3]; HInline (wx_transfer n wx2 30 [0])] else []
  | [8] => [HInline (mkItx n 0 [] [])]
  | _ => []
  end.
Definition wx_env : wenv :=
  mkWenv 50 1 110 4000 (2, 1) [(1, 1)] 4 wx3 (fun _ => false) (fun _ => 10) (fun _ => 77) wx_prog.
Definition wx_sig (p s : N) : bool := p =? s.
Definition wx_tx (u : uid) (sigs : list (N * N)) (ts : list itx) : utx :=
  mkUtx u "WICC" 2000 ts sigs 100 3 true (Some 100) 1.
Definition wx_apply (e : wenv) (u : utx) (w : world) : outcome world :=
  apply_utx (fun p => p) (fun _ => true) wx_sig e u w.
Definition wx_free (k : N) (s : string) (o : outcome world) : option N :=
  match o with Done w => Some (lbal (t_acc (wd_tx w)) k s BFree) | _ => None end.

Lemma wx_settled : settled (fun p => p) wx_env wx.
Proof.
  split; [|split; [constructor|]].
  - repeat split; try discriminate; vm_compute; first [reflexivity|discriminate].
  - split.
    + split; [cbn; repeat constructor; cbn; intuition discriminate|].
      intros k a H. unfold l_get in H. cbn [wx wd_tx t_acc wx_accounts fget] in H.
      repeat (match type of H with context [N.eqb ?x ?y] => let Q := fresh in destruct (N.eqb x y) eqn:Q; [apply N.eqb_eq in Q; inversion H; subst; reflexivity|] end).
      discriminate.
    + intros k a H. unfold l_get in H. cbn [wx wd_tx t_acc wx_accounts fget] in H.
      repeat (match type of H with context [N.eqb ?x ?y] => let Q := fresh in destruct (N.eqb x y) eqn:Q;
        [apply N.eqb_eq in Q; inversion H; subst; split; [cbn; congruence|cbn; first [reflexivity|discriminate]]|] end).
      discriminate.
  - constructor.
  - reflexivity.
  - intros r k H. cbn [wx wd_tx t_reg wx_table fget] in H.
    repeat (match type of H with context [regid_eqb ?x ?y] => let Q := fresh in destruct (regid_eqb x y) eqn:Q;
      [apply regid_eqb_ok in Q; inversion H; subst; eexists; split; reflexivity|] end).
    discriminate.
  - intros n H. unfold is_native in H.
    destruct (n =? wasmio) eqn:E1; [apply N.eqb_eq in E1; subst; reflexivity|].
    destruct (n =? wasmio_bank) eqn:E2; [apply N.eqb_eq in E2; subst; reflexivity|].
    destruct (n =? wasmio_voting) eqn:E3; [apply N.eqb_eq in E3; subst; reflexivity|discriminate].
  - eexists. split; reflexivity.
  - intros s a H. cbn [wx wd_assets wx_assets fget] in H.
    destruct (String.eqb s "WICC"); [inversion H; subst; discriminate|].
    destruct (String.eqb s "AAAA"); [inversion H; subst; intros _; vm_compute; discriminate|discriminate].
  - intros s. unfold cap, pending, supply. cbn [wx wd_tx t_acc wx_accounts wx_acc wd_assets wx_assets fget wd_reward r_new].
    destruct (String.eqb s "WICC") eqn:E1; [apply String_eqb_ok in E1; subst; vm_compute; discriminate|].
    destruct (String.eqb s "AAAA") eqn:E2; [apply String_eqb_ok in E2; subst; vm_compute; discriminate|].
    match goal with |- ?a + 0 <= _ => assert (X : a = 0); [|rewrite X; apply N.le_0_l] end.
    cbn [msum wx_accounts]. unfold holding, bal, get_token, wx_acc. cbn [a_tokens fget]. rewrite E1, ?E2. reflexivity.
  - split; reflexivity.
Qed.

Lemma wx_payer sigs ts : payer (fun p => p) wx (wx_tx (UReg (1, 1)) sigs ts) 1 (1, 1).
Proof. split; [reflexivity|]. eexists. repeat split; reflexivity. Qed.

(** *** C85 *)

(** Coins leave an account in a universal transaction, beyond the fee of the payer, only out of
    its free balance, and only if the account signed and the transaction itself names its
    authority to the bank, or if contract code stored for that very account ran. *)
Theorem c85_coins : forall pk_keyid payer_sig extra_sig e u w w' kp rp,
  settled pk_keyid e w -> payer pk_keyid w u kp rp ->
  apply_utx pk_keyid payer_sig extra_sig e u w = Done w' ->
  forall k s b,
  lbal (t_acc (wd_tx w')) k s b + at_place (Some (kp, BFree)) (u_fee_symbol u) (u_fee u) k s b <
    lbal (t_acc (wd_tx w)) k s b ->
  b = BFree /\ exists n, fget regid_eqb (t_reg (wd_tx w')) (reg_of n) = Some k /\
    (asked pk_keyid extra_sig w u wasmio_bank n \/
     (In (n, true) (wd_runs w') /\ fget regid_eqb (wd_codes w') (reg_of n) <> None)).
Proof.
  intros pk ps xs e u w w' kp rp St P H k s b L.
  pose proof (apply_sane _ _ _ _ _ _ _ _ _ St P H) as Sn.
  destruct (apply_run _ _ _ _ _ _ _ _ _ St P H) as (w0 & w1 & R & Au).
  destruct (steps_lose _ _ _ _ _ (ra_steps _ _ _ _ _ _ _ _ R) k s b) as (Eb & n & A & B).
  { pose proof (ra_bal0 _ _ _ _ _ _ _ _ R k s b) as X. unfold lbal at 1 in L. rewrite (ra_get _ _ _ _ _ _ _ _ R) in L.
    fold (lbal (commit (wd_tx w1)) k s b) in L. lia. }
  split; auto. exists n. rewrite (ra_reg _ _ _ _ _ _ _ _ R). split; auto.
  destruct (Au _ _ B) as [X|[X Y]]; auto. right. split; auto. destruct Y as [Y|Y]; auto. exfalso.
  rewrite <- (ra_reg _ _ _ _ _ _ _ _ R) in A. rewrite (st_modules _ _ _ Sn n Y) in A. discriminate.
Qed.

(** A transaction that holds one transfer between accounts without code moves exactly the amount
    from the one to the other, and takes the fee. *)
Theorem c85_transfer : forall pk_keyid payer_sig extra_sig e u w w' kp rp t from to amount raw d1 d2 d3 d4,
  settled pk_keyid e w -> payer pk_keyid w u kp rp ->
  apply_utx pk_keyid payer_sig extra_sig e u w = Done w' ->
  u_inl u = [t] -> g_contract t = wasmio_bank -> g_action t = n_transfer ->
  read_u64 (g_data t) = Done (from, d1) -> read_u64 d1 = Done (to, d2) ->
  read_u64 d2 = Done (amount, d3) -> read_u64 d3 = Done (raw, d4) ->
  code_of w from = [] -> code_of w to = [] ->
  exists kf kt, fget regid_eqb (t_reg (wd_tx w)) (reg_of from) = Some kf /\
    fget regid_eqb (t_reg (wd_tx w)) (reg_of to) = Some kt /\
    forall k s b, Z.of_N (lbal (t_acc (wd_tx w')) k s b) =
      (Z.of_N (lbal (t_acc (wd_tx w)) k s b)
       - Z.of_N (at_place (Some (kp, BFree)) (u_fee_symbol u) (u_fee u) k s b)
       - Z.of_N (at_place (Some (kf, BFree)) (code_text (sym_code raw)) amount k s b)
       + Z.of_N (at_place (Some (kt, BFree)) (code_text (sym_code raw)) amount k s b))%Z.
Proof. intros. eapply transfer_exact; eauto. Qed.

(** Account 1 pays 100 to account 2 and calls the contract, which pays 30 of its own to account
    2. Nobody else pays, and a transfer out of account 2 without its signature is rejected. *)
Definition wx_ex : utx :=
  wx_tx (UReg (1, 1)) [] [wx_transfer wx1 wx2 100 [0]; mkItx wx3 5 [mkPerm wx1 0] []].
Example c85_example :
  settled (fun p => p) wx_env wx /\ payer (fun p => p) wx wx_ex 1 (1, 1) /\
  let o := wx_apply wx_env wx_ex wx in
  map (fun k => wx_free k "WICC" o) [1; 2; 3; 4] = [Some 2900; Some 730; Some 370; Some 800] /\
  wx_apply wx_env (wx_tx (UReg (1, 1)) [] [wx_transfer wx2 wx1 100 [0]]) wx = Reject /\
  wx_free 2 "WICC" (wx_apply wx_env (wx_tx (UReg (1, 1)) [(wx2, 2)] [wx_transfer wx2 wx1 100 [0]]) wx) = Some 500.
Proof. split; [apply wx_settled|]. split; [apply wx_payer|]. vm_compute. auto. Qed.

Example c85_transfer_example :
  let o := wx_apply wx_env (wx_tx (UReg (1, 1)) [] [wx_transfer wx1 wx2 100 [0]]) wx in
  code_of wx wx1 = [] /\ code_of wx wx2 = [] /\
  map (fun k => wx_free k "WICC" o) [1; 2; 3; 4] = [Some 2900; Some 700; Some 400; Some 800].
Proof. vm_compute. auto. Qed.

(** What contracts are told about authority is true: if every program stored for a contract
    requires the authority of somebody in a set, then whenever its code ran, somebody of that set
    signed and is named by the transaction itself, or is a contract whose code ran. *)
Theorem c85_require : forall pk_keyid payer_sig extra_sig e u w w' kp rp r (P : N -> Prop),
  settled pk_keyid e w -> payer pk_keyid w u kp rp ->
  apply_utx pk_keyid payer_sig extra_sig e u w = Done w' ->
  is_native r = false ->
  (forall code t w, code <> [] -> exists a, P a /\ In (HRequire a) (ev_prog e code t r w)) ->
  In (r, true) (wd_runs w') ->
  exists a, P a /\
    ((signed pk_keyid extra_sig w u a /\ exists t p, In t (u_inl u) /\ In p (g_auth t) /\ pm_acc p = a) \/
     acted w' a).
Proof.
  intros pk ps xs e u w w' kp rp r P St P0 H Hr Hp Hin.
  destruct (apply_run _ _ _ _ _ _ _ _ _ St P0 H) as (w0 & w1 & R & Au).
  destruct (ra_end _ _ _ _ _ _ _ _ R) as (E1 & _). destruct (ra_zero _ _ _ _ _ _ _ _ R) as (E0 & _).
  assert (G : guarded (u_inl u) r P w1).
  { eapply execute_all_genuine; [exact Hr|exact Hp|apply St|apply R|apply incl_refl| |apply R].
    intros X. rewrite E0 in X. destruct X. }
  rewrite E1 in Hin. destruct (G Hin) as (a & A & B). exists a. split; auto.
  assert (X : exists m, authority pk xs w u w' m a).
  { destruct B as [(t & p & B1 & B2 & B3)|B]; [exists (g_contract t)|exists wasmio]; apply Au; [left|right; exact B].
    exists t. split; auto. split; auto. unfold has_auth. apply existsb_exists. exists p. split; auto. now apply N.eqb_eq. }
  destruct X as (m & [(X1 & t & p & X2 & X3 & X4 & X5)|X]); [left|right; exact X]. split; auto. exists t, p. auto.
Qed.

(** A contract that requires the authority of account 2 runs if account 2 signed and is named,
    not otherwise: not if only account 1 signed, and not if the contract names account 2 in a
    call to itself. *)
Definition wx_require (code : list N) (t : itx) (n : N) (w : world) : list hcall :=
  match code with
  | [7] => [HRequire wx2]
  | [8] => if g_action t =? 0 then [HRequire wx2] else [HInline (mkItx n 0 [mkPerm wx2 0] [])]
  | _ => [HRequire wx2]
  end.
Example c85_require_example :
  let e := mkWenv 50 1 110 4000 (2, 1) [(1, 1)] 4 wx3 (fun _ => false) (fun _ => 10) (fun _ => 77) wx_require in
  let run c sigs auth := match wx_apply e (wx_tx (UReg (1, 1)) sigs [mkItx c 5 auth []]) wx with
                         | Done w => Some (wd_runs w) | _ => None end in
  run wx3 [] [mkPerm wx1 0] = None /\ run wx3 [(wx2, 2)] [mkPerm wx1 0] = None /\
  run wx3 [(wx2, 2)] [mkPerm wx2 0] = Some [(wx3, true)] /\ run wx6 [] [mkPerm wx1 0] = None /\
  run wx6 [(wx2, 2)] [mkPerm wx2 0] = Some [(wx6, true); (wx6, true)].
Proof. vm_compute. auto. Qed.

(** *** C86 *)

(** The code, the interface and the maintainer of a contract change only with the authority of
    its maintainer (of before the transaction): it signed and the transaction names it to the
    system module, or its own code ran. A new contract gets the position of the transaction. *)
Theorem c86_code : forall pk_keyid payer_sig extra_sig e u w w' kp rp,
  settled pk_keyid e w -> payer pk_keyid w u kp rp ->
  apply_utx pk_keyid payer_sig extra_sig e u w = Done w' ->
  forall r, fget regid_eqb (wd_codes w') r <> fget regid_eqb (wd_codes w) r ->
  (fget regid_eqb (wd_codes w) r = None /\ r = (ev_height e, ev_index e)) \/
  exists old, fget regid_eqb (wd_codes w) r = Some old /\
              authority pk_keyid extra_sig w u w' wasmio (num_of (k_maintainer old)).
Proof.
  intros pk ps xs e u w w' kp rp St P H r L.
  destruct (apply_run _ _ _ _ _ _ _ _ _ St P H) as (w0 & w1 & R & Au).
  destruct (ra_end _ _ _ _ _ _ _ _ R) as (_ & _ & E3 & _). destruct (ra_zero _ _ _ _ _ _ _ _ R) as (_ & _ & _ & _ & E0 & _).
  rewrite E3, <- E0 in L. rewrite <- E0.
  destruct (steps_codes _ _ _ _ _ (ra_steps _ _ _ _ _ _ _ _ R) r L) as [A|(old & A & B)]; eauto.
Qed.

Definition wx_setcode (contract maintainer : N) (code : list N) (auth : list perm) : itx :=
  mkItx wasmio n_setcode auth
    (le_bytes 8 contract ++ le_bytes 8 maintainer ++ [0] ++ short_str code ++ short_str [1] ++ [0]).
Definition wx_code (r : regid) (o : outcome world) : option (option store) :=
  match o with Done w => Some (fget regid_eqb (wd_codes w) r) | _ => None end.
Example c86_example :
  let run t := wx_apply wx_env (wx_tx (UReg (1, 1)) [] [t]) wx in
  wx_code (3, 1) (run (wx_setcode wx3 wx1 [5] [mkPerm wx1 0])) = Some (Some (mkStore [5] [1] (1, 1))) /\
  run (wx_setcode wx6 wx2 [5] [mkPerm wx1 0]) = Reject /\
  run (wx_setcode wx6 wx2 [5] [mkPerm wx2 0]) = Reject /\
  run (wx_setcode wx5 0 [5] []) = Reject /\
  wx_code (50, 1) (run (wx_setcode 0 wx2 [5] [])) = Some (Some (mkStore [5] [1] (2, 1))).
Proof. vm_compute. auto. Qed.

(** That the payer is registered is needed: a payer known by public key only signs as number 0.
    Everybody can thus replace the code of a contract that was given to nobody. *)
Theorem c86_nobody_refuted : exists e u w w' r old new,
  settled (fun p => p) e w /\ wx_apply e u w = Done w' /\
  fget regid_eqb (wd_codes w) r = Some old /\ k_maintainer old = (0, 0) /\
  fget regid_eqb (wd_codes w') r = Some new /\ k_code new <> k_code old /\
  u_sigs u = [] /\ wd_runs w' = [(wasmio, true)].
Proof.
  exists wx_env, (wx_tx (UPub 9) [] [wx_setcode wx5 0 [5] [mkPerm 0 0]]), wx. do 4 eexists.
  split; [apply wx_settled|]. split; [vm_compute; reflexivity|].
  split; [instantiate (2 := (5, 1)); reflexivity|]. split; [reflexivity|]. split; [reflexivity|].
  split; [discriminate|]. split; reflexivity.
Qed.

(** *** C87 *)

(** What is in circulation follows the records: coins and rewards still to be minted change
    exactly as the recorded total does, less the fee. *)
Theorem c87_supply : forall pk_keyid payer_sig extra_sig e u w w' kp rp,
  settled pk_keyid e w -> payer pk_keyid w u kp rp ->
  apply_utx pk_keyid payer_sig extra_sig e u w = Done w' ->
  forall s, supply (t_acc (wd_tx w')) s + pending w' s + recorded w s + fee_in (u_fee_symbol u) (u_fee u) s =
            supply (t_acc (wd_tx w)) s + pending w s + recorded w' s.
Proof.
  intros pk ps xs e u w w' kp rp St P H s.
  destruct (apply_run _ _ _ _ _ _ _ _ _ St P H) as (w0 & w1 & R & Au).
  pose proof (steps_supply _ _ _ _ _ (ra_steps _ _ _ _ _ _ _ _ R) s) as X.
  pose proof (ra_sup0 _ _ _ _ _ _ _ _ R s) as Y. rewrite (ra_sup _ _ _ _ _ _ _ _ R s).
  destruct (ra_end _ _ _ _ _ _ _ _ R) as (_ & E2 & _ & _ & E5).
  destruct (ra_zero _ _ _ _ _ _ _ _ R) as (_ & _ & _ & F & _ & _ & G).
  unfold recorded, pending in *. rewrite E2, E5. rewrite F, G in X. lia.
Qed.

(** The record of a token changes only with the authority of its owner. It stays mintable or
    not; if not, its total stays. A new record has a name users may give, and the authority of
    somebody. Totals do not grow beyond 9 * 10^18. *)
Theorem c87_records : forall pk_keyid payer_sig extra_sig e u w w' kp rp,
  settled pk_keyid e w -> payer pk_keyid w u kp rp ->
  apply_utx pk_keyid payer_sig extra_sig e u w = Done w' ->
  forall s, fget String.eqb (wd_assets w') s <> fget String.eqb (wd_assets w) s ->
  exists a', fget String.eqb (wd_assets w') s = Some a' /\
    match fget String.eqb (wd_assets w) s with
    | None => uia_ok (ev_symbol_min e) s = true /\ s_total a' <= 9000000000000000000 /\
              exists n, authority pk_keyid extra_sig w u w' wasmio_bank n
    | Some a => regid_empty (s_owner a) = false /\
                authority pk_keyid extra_sig w u w' wasmio_bank (num_of (s_owner a)) /\
                s_mintable a' = s_mintable a /\ (s_mintable a = false -> s_total a' = s_total a) /\
                (s_total a <= 9000000000000000000 -> s_total a' <= 9000000000000000000)
    end.
Proof.
  intros pk ps xs e u w w' kp rp St P H s L.
  destruct (apply_run _ _ _ _ _ _ _ _ _ St P H) as (w0 & w1 & R & Au).
  destruct (ra_end _ _ _ _ _ _ _ _ R) as (_ & E2 & _ & _ & E5).
  destruct (ra_zero _ _ _ _ _ _ _ _ R) as (_ & _ & _ & F & _ & _ & G).
  rewrite E2, <- F in L. rewrite E2, <- F.
  destruct (steps_assets _ _ _ _ _ (ra_steps _ _ _ _ _ _ _ _ R) s L) as (a' & A & B).
  exists a'. split; auto. destruct (fget String.eqb (wd_assets w0) s) as [a|].
  - destruct B as (B1 & B2 & B3). split; auto.
  - destruct B as (B1 & B2 & n & B3). split; auto. split; auto. exists n. auto.
Qed.

(** Rewards still to be minted are paid out only with the authority of the voting contract. *)
Theorem c87_rewards : forall pk_keyid payer_sig extra_sig e u w w' kp rp,
  settled pk_keyid e w -> payer pk_keyid w u kp rp ->
  apply_utx pk_keyid payer_sig extra_sig e u w = Done w' ->
  r_new (wd_reward w') <> r_new (wd_reward w) ->
  authority pk_keyid extra_sig w u w' wasmio_voting (ev_voting e).
Proof.
  intros pk ps xs e u w w' kp rp St P H L.
  destruct (apply_run _ _ _ _ _ _ _ _ _ St P H) as (w0 & w1 & R & Au).
  destruct (ra_end _ _ _ _ _ _ _ _ R) as (_ & _ & _ & _ & E5).
  destruct (ra_zero _ _ _ _ _ _ _ _ R) as (_ & _ & _ & _ & _ & _ & G). rewrite E5, <- G in L.
  apply Au. eapply steps_reward; eauto. apply R.
Qed.

(** The owner mints 50 AAAA for account 2 and burns 20 of its own; a new token is issued. *)
Definition wx_sym (a b c d : N) : N := 8 + 256 * (a + 256 * (b + 256 * (c + 256 * d))).
Definition wx_mint (action target amount : N) (auth : list perm) : itx :=
  mkItx wasmio_bank action auth
    (le_bytes 8 target ++ le_bytes 8 amount ++ le_bytes 8 (wx_sym 65 65 65 65) ++ [0]).
Definition wx_issue (owner total : N) : itx :=
  mkItx wasmio_bank n_issue [mkPerm owner 0]
    (le_bytes 8 (wx_sym 66 66 66 66) ++ le_bytes 8 owner ++ [1; 66] ++ le_bytes 8 total ++ [1; 0]).
Definition wx_total (s : string) (o : outcome world) : option N :=
  match o with Done w => Some (recorded w s) | _ => None end.
Example c87_example :
  let o := wx_apply wx_env (wx_tx (UReg (1, 1)) []
             [wx_mint n_mint wx2 50 [mkPerm wx1 0]; wx_mint n_burn wx1 20 [mkPerm wx1 0]; wx_issue wx1 1000]) wx in
  (wx_free 1 "AAAA" o, wx_free 2 "AAAA" o, wx_total "AAAA" o) = (Some 680, Some 50, Some 730) /\
  (wx_free 1 "BBBB" o, wx_total "BBBB" o) = (Some 1000, Some 1000) /\
  wx_apply wx_env (wx_tx (UReg (2, 1)) [] [wx_mint n_mint wx2 50 [mkPerm wx2 0]]) wx = Reject.
Proof. vm_compute. auto. Qed.

(** *** C88 *)

(** Data change only under the number of a contract whose code ran under that number, and only
    in the part of the store that belongs to the contract. *)
Theorem c88_data : forall pk_keyid payer_sig extra_sig e u w w' kp rp,
  settled pk_keyid e w -> payer pk_keyid w u kp rp ->
  apply_utx pk_keyid payer_sig extra_sig e u w = Done w' ->
  forall r n k, fget data_eqb (wd_data w') (r, (n, k)) <> fget data_eqb (wd_data w) (r, (n, k)) ->
  r = reg_of n /\ In (n, true) (wd_runs w') /\ fget regid_eqb (wd_codes w') r <> None.
Proof.
  intros pk ps xs e u w w' kp rp St P H r n k L.
  destruct (apply_run _ _ _ _ _ _ _ _ _ St P H) as (w0 & w1 & R & Au).
  destruct (ra_end _ _ _ _ _ _ _ _ R) as (E1 & _ & E3 & E4 & _).
  destruct (ra_zero _ _ _ _ _ _ _ _ R) as (_ & _ & _ & _ & _ & F & _). rewrite E4, <- F in L.
  destruct (steps_data _ _ _ _ _ (ra_steps _ _ _ _ _ _ _ _ R) r n k L) as (A & B & C).
  split; auto. split; [rewrite E1; auto|].
  destruct (Au wasmio n (or_intror C)) as [(_ & _)|[_ [X|X]]]; [|congruence|congruence].
  destruct (steps_coded _ _ _ _ _ (ra_steps _ _ _ _ _ _ _ _ R)) with (n := n) as [X|X]; auto; try congruence.
  destruct (ra_zero _ _ _ _ _ _ _ _ R) as (E0 & _). rewrite E0. intros ? [].
Qed.

Definition wx_data (r : regid) (n : N) (k : list N) (o : outcome world) : option (option (list N)) :=
  match o with Done w => Some (fget data_eqb (wd_data w) (r, (n, k))) | _ => None end.
Definition wx_call (n : N) : utx := wx_tx (UReg (1, 1)) [] [mkItx n 5 [] []].
Example c88_example :
  wx_data (3, 1) wx3 [1] (wx_apply wx_env (wx_call wx3) wx) = Some (Some [2; 3]).
Proof. vm_compute. reflexivity. Qed.

(** One contract has many numbers: bits that do not fit are dropped when its code is looked up,
    but not in the key of its data. Called under another number the same code works on other
    data, though on the same coins. *)
Theorem c88_alias_refuted : exists e n n' w w' w'',
  settled (fun p => p) e w /\ n <> n' /\ reg_of n = reg_of n' /\
  wx_apply e (wx_call n) w = Done w' /\ wx_apply e (wx_call n') w = Done w'' /\
  fget data_eqb (wd_data w') (reg_of n, (n, [1])) = Some [2; 3] /\
  fget data_eqb (wd_data w'') (reg_of n, (n, [1])) = None /\
  lbal (t_acc (wd_tx w')) 3 "WICC" BFree = 370 /\ lbal (t_acc (wd_tx w'')) 3 "WICC" BFree = 370.
Proof.
  exists wx_env, wx3, (wx3 + 65536), wx. do 2 eexists. split; [apply wx_settled|]. split; [discriminate|].
  split; [reflexivity|]. split; [vm_compute; reflexivity|]. split; [vm_compute; reflexivity|].
  vm_compute. auto.
Qed.

(** *** C89 *)

(** The check of a transaction ends with a verdict if every account that signed beside the
    payer exists and has a public key. *)
Theorem c89_check : forall pk_keyid payer_sig extra_sig e u w,
  sane pk_keyid e w ->
  (forall n s, In (n, s) (u_sigs u) -> exists k a p,
     fget regid_eqb (t_reg (wd_tx w)) (reg_of n) = Some k /\ l_get (t_acc (wd_tx w)) k = Some a /\
     a_pubkey a = Some p) ->
  match check_utx pk_keyid payer_sig extra_sig u w with
  | Done _ | Reject => True
  | Abort | Undefined => False
  end.
Proof. intros. apply (check_verdict pk_keyid payer_sig extra_sig e); auto. Qed.

Example c89_example :
  wx_apply wx_env (wx_tx (UReg (1, 1)) [(wx2, 7)] [wx_transfer wx1 wx2 100 [0]]) wx = Reject /\
  wx_free 2 "WICC" (wx_apply wx_env (wx_tx (UReg (1, 1)) [(wx2, 2)] [wx_transfer wx1 wx2 100 [0]]) wx) = Some 700.
Proof. vm_compute. auto. Qed.

(** Otherwise the check does not end with a verdict: the message about the missing account, or
    the missing key, cannot be made, and the exception leaves the check. *)
Theorem c89_exception_refuted : exists e w,
  settled (fun p => p) e w /\
  forall n, In n [num_of (8, 8); num_of (3, 1)] ->
  check_utx (fun p => p) (fun _ => true) wx_sig (wx_tx (UReg (1, 1)) [(n, 0)] [wx_transfer wx1 wx2 100 [0]]) w = Abort.
Proof.
  exists wx_env, wx. split; [apply wx_settled|]. intros n [<-|[<-|[]]]; vm_compute; reflexivity.
Qed.

(** Nor does the execution: the length of a memo written in six bytes shifts a 32-bit number
    by 35. *)
Theorem c89_length_refuted : exists e u w,
  settled (fun p => p) e w /\ payer (fun p => p) w u 1 (1, 1) /\ wx_apply e u w = Undefined.
Proof.
  exists wx_env, (wx_tx (UReg (1, 1)) [] [wx_transfer wx1 wx2 100 [128; 128; 128; 128; 128; 0]]), wx.
  split; [apply wx_settled|]. split; [apply wx_payer|]. vm_compute. reflexivity.
Qed.

(** *** C90 *)

(** Work is bounded by the fee: every piece of code run counts 10000, every byte stored by a
    contract 10, the size of the transaction ten times; together at most 600562500, and the fee
    pays for it. *)
Theorem c90_work : forall pk_keyid payer_sig extra_sig e u w w' kp rp,
  settled pk_keyid e w -> payer pk_keyid w u kp rp ->
  apply_utx pk_keyid payer_sig extra_sig e u w = Done w' ->
  exists fuel, fuel <= 600562500 /\ fuel / 100 * u_fuel_rate u <= u_fee u /\
    u_size u * 10 + N.of_nat (List.length (wd_runs w')) * 10000 + data_size (wd_data w') * 10 <=
      fuel + data_size (wd_data w) * 10.
Proof.
  intros pk ps xs e u w w' kp rp St P H.
  destruct (apply_run _ _ _ _ _ _ _ _ _ St P H) as (w0 & w1 & R & _).
  destruct (ra_end _ _ _ _ _ _ _ _ R) as (E1 & _ & _ & E4 & _).
  destruct (ra_zero _ _ _ _ _ _ _ _ R) as (_ & _ & Ef & _ & _ & Ed & _).
  pose proof (steps_fuel _ _ _ _ _ (ra_steps _ _ _ _ _ _ _ _ R)) as X. rewrite Ed, Ef in X.
  pose proof (ra_fee _ _ _ _ _ _ _ _ R) as F. unfold fee_covers in F. destruct (u_min_fee u); [|discriminate].
  exists (wd_fuel w'). rewrite !andb_true_iff in F. destruct F as [[_ F1] F2]. unfold max_fuel in F1.
  split; [lia|]. split; [lia|]. rewrite E4. pose proof (ra_fuel _ _ _ _ _ _ _ _ R). lia.
Qed.

(** A contract that calls itself without end is never accepted. *)
Theorem c90_endless : forall pk_keyid payer_sig extra_sig e u w w' n code,
  is_native n = false -> code <> [] ->
  (forall t w, exists t', ev_prog e code t n w = [HInline t'] /\ g_contract t' = n) ->
  (exists t, u_inl u = [t] /\ g_contract t = n) -> code_of w n = code ->
  apply_utx pk_keyid payer_sig extra_sig e u w <> Done w'.
Proof. intros. eapply endless_rejected; eauto. Qed.

Example c90_example :
  match wx_apply wx_env wx_ex wx with
  | Done w' => (wd_fuel w', List.length (wd_runs w'), data_size (wd_data w')) = (71310, 7%nat, 11)
  | _ => False
  end /\
  wx_apply wx_env (wx_call wx6) wx = Reject.
Proof. vm_compute. auto. Qed.

(** *** C91 *)

(** Two nodes that both accept a transaction agree on the state, whatever their clocks. *)
Theorem c91_agree : forall pk_keyid payer_sig extra_sig e c1 c2 u w w1 w2,
  apply_utx pk_keyid payer_sig extra_sig (with_clock e c1) u w = Done w1 ->
  apply_utx pk_keyid payer_sig extra_sig (with_clock e c2) u w = Done w2 -> w1 = w2.
Proof. intros. eapply clocks_agree; eauto. Qed.

Example c91_example :
  let late k := with_clock wx_env (fun n => k <? n) in
  wx_free 2 "WICC" (wx_apply (late 5) wx_ex wx) = Some 730 /\
  wx_free 2 "WICC" (wx_apply (late 9) wx_ex wx) = Some 730.
Proof. vm_compute. auto. Qed.

(** But whether a node accepts depends on its clock. *)
Theorem c91_clock_refuted : exists e c1 c2 u w w',
  settled (fun p => p) e w /\ payer (fun p => p) w u 1 (1, 1) /\
  wx_apply (with_clock e c1) u w = Done w' /\ wx_apply (with_clock e c2) u w = Reject.
Proof.
  exists wx_env, (fun _ => false), (fun n => 1 <? n), wx_ex, wx. eexists. split; [apply wx_settled|].
  split; [apply wx_payer|]. split; vm_compute; reflexivity.
Qed.

(** *** C92 *)

(** A vote in the voting module changes the candidate's votes by the number given; if that is
    not zero, the ranking shows the candidate's votes afterwards if it did before. Others keep
    their places. *)
Theorem c92_rank : forall pk_keyid e c w c' w' cand votes d1 d2 k w1 a,
  voting_vote pk_keyid e c w = Done (c', w') ->
  read_u64 (g_data (c_trx c)) = Done (cand, d1) -> read_u64 d1 = Done (votes, d2) ->
  account_of pk_keyid (charge e c w) (reg_of cand) = Done (k, w1) ->
  fget N.eqb (t_mem (wd_tx w1)) k = Some a -> a_received_votes a < 2 ^ 63 ->
  exists a', fget N.eqb (t_mem (wd_tx w')) k = Some a' /\ a_received_votes a' < 2 ^ 63 /\
    Z.of_N (a_received_votes a') = (Z.of_N (a_received_votes a) + i64 votes)%Z /\
    (i64 votes <> 0%Z -> shows (wd_rank w) (reg_of cand) (a_received_votes a) ->
       shows (wd_rank w') (reg_of cand) (a_received_votes a')) /\
    (forall x r, r <> reg_of cand ->
       fget rank_key_eqb (wd_rank w') (x, r) = fget rank_key_eqb (wd_rank w) (x, r)).
Proof.
  intros pk e c w c' w' cand votes d1 d2 k w1 a H R1 R2 G Fa Hv.
  destruct (vote_ranks _ _ _ _ _ _ _ _ _ _ _ _ _ H R1 R2 G Fa Hv) as (a' & A & B & C & D & _ & F).
  exists a'. auto 10.
Qed.

(** The voting contract votes for account 2. *)
Definition wx_vote (votes : N) : itx :=
  mkItx wasmio_voting n_vote [mkPerm wx3 n_wasmio_code] (le_bytes 8 wx2 ++ le_bytes 8 votes ++ [0]).
Definition wx_votes (ts : list N) : option (list (N * regid) * option N) :=
  let prog (code : list N) (t : itx) (n : N) (w : world) :=
    match code with [7] => if g_contract t =? n then map (fun v => HInline (wx_vote v)) ts else [] | _ => [] end in
  let e := mkWenv 50 1 110 4000 (2, 1) [(1, 1)] 4 wx3 (fun _ => false) (fun _ => 10) (fun _ => 77) prog in
  match wx_apply e (wx_call wx3) wx with
  | Done w => Some (map fst (wd_rank w), option_map a_received_votes (l_get (t_acc (wd_tx w)) 2))
  | _ => None
  end.
Example c92_example :
  wx_votes [40] = Some ([(two64 - 41, (2, 1))], Some 40) /\
  wx_votes [40; two64 - 15] = Some ([(two64 - 26, (2, 1))], Some 25).
Proof. vm_compute. auto. Qed.

(** A vote of zero takes the candidate off the ranking, with all its votes. *)
Theorem c92_zero_refuted : exists ts,
  wx_votes [40] = Some ([(two64 - 41, (2, 1))], Some 40) /\ wx_votes (40 :: ts) = Some ([], Some 40).
Proof. exists [0]. vm_compute. auto. Qed.

(** *** C93 *)

(** Universal transactions of registered payers keep the state in order: one account for each
    registration id, one registration id for each account in the table, no account for the
    modules, totals and coins within bounds. *)
Theorem c93_order : forall pk_keyid payer_sig extra_sig e u w w' kp rp,
  settled pk_keyid e w -> payer pk_keyid w u kp rp ->
  apply_utx pk_keyid payer_sig extra_sig e u w = Done w' -> sane pk_keyid e w'.
Proof. intros. eapply apply_sane; eauto. Qed.

(** So no two accounts have the same registration id. *)
Theorem c93_one_account : forall pk_keyid payer_sig extra_sig e u w w' kp rp,
  settled pk_keyid e w -> payer pk_keyid w u kp rp ->
  apply_utx pk_keyid payer_sig extra_sig e u w = Done w' ->
  forall k1 k2 a1 a2, l_get (t_acc (wd_tx w')) k1 = Some a1 -> l_get (t_acc (wd_tx w')) k2 = Some a2 ->
  a_regid a1 = a_regid a2 -> regid_empty (a_regid a1) = false -> k1 = k2.
Proof.
  intros pk ps xs e u w w' kp rp St P H k1 k2 a1 a2 H1 H2 E N.
  destruct (st_accounts _ _ _ (apply_sane _ _ _ _ _ _ _ _ _ St P H)) as [_ G].
  destruct (G _ _ H1) as [_ G1]. destruct (G _ _ H2) as [_ G2]. specialize (G1 N). rewrite E in N. specialize (G2 N).
  rewrite E in G1. congruence.
Qed.

Example c93_example :
  match wx_apply wx_env (wx_tx (UReg (1, 1)) [] [wx_setcode 0 wx2 [5] []]) wx with
  | Done w' => option_map a_regid (l_get (t_acc (wd_tx w')) 77) = Some (50, 1) /\
               fget regid_eqb (t_reg (wd_tx w')) (50, 1) = Some 77
  | _ => False
  end.
Proof. vm_compute. auto. Qed.

(** A payer that is not registered gets the position of the transaction as its registration id;
    so does the contract it deploys. *)
Theorem c93_shared_refuted : exists e u w w' k1 k2 a1 a2,
  settled (fun p => p) e w /\ wx_apply e u w = Done w' /\ k1 <> k2 /\
  l_get (t_acc (wd_tx w')) k1 = Some a1 /\ l_get (t_acc (wd_tx w')) k2 = Some a2 /\
  a_regid a1 = a_regid a2 /\ regid_empty (a_regid a1) = false.
Proof.
  exists wx_env, (wx_tx (UPub 9) [] [wx_setcode 0 wx2 [5] []]), wx. eexists. exists 9, 77. do 2 eexists.
  split; [apply wx_settled|]. split; [vm_compute; reflexivity|]. split; [discriminate|].
  split; [reflexivity|]. split; [reflexivity|]. split; reflexivity.
Qed.

(** *** C94 *)

(** The payer of a universal transaction has the right to call contracts. *)
Theorem c94_payer : forall pk_keyid payer_sig extra_sig e u w w' kp rp,
  settled pk_keyid e w -> payer pk_keyid w u kp rp ->
  apply_utx pk_keyid payer_sig extra_sig e u w = Done w' ->
  exists a, l_get (t_acc (wd_tx w)) kp = Some a /\ N.land (a_perms a) PERM_CONTRACT <> 0.
Proof. intros. eapply payer_right; eauto. Qed.

Example c94_example :
  wx_apply wx_env (wx_tx (UReg (4, 1)) [] [wx_transfer wx4 wx2 100 [0]]) wx = Reject.
Proof. vm_compute. reflexivity. Qed.

(** The rights of those who sign beside it are not looked at: an account whose rights were all
    taken away still sends coins through a transaction somebody else pays for. *)
Theorem c94_cosigner_refuted : exists e u w w' k a,
  settled (fun p => p) e w /\ payer (fun p => p) w u 1 (1, 1) /\ wx_apply e u w = Done w' /\
  l_get (t_acc (wd_tx w)) k = Some a /\ a_perms a = 0 /\ k <> 1 /\
  lbal (t_acc (wd_tx w')) k "WICC" BFree < lbal (t_acc (wd_tx w)) k "WICC" BFree.
Proof.
  exists wx_env, (wx_tx (UReg (1, 1)) [(wx4, 4)] [wx_transfer wx4 wx2 100 [0]]), wx. eexists. exists 4. eexists.
  split; [apply wx_settled|]. split; [apply wx_payer|]. split; [vm_compute; reflexivity|].
  split; [reflexivity|]. split; [reflexivity|]. split; [discriminate|]. vm_compute. reflexivity.
Qed.

Print Assumptions c85_coins.
Print Assumptions c85_transfer.
Print Assumptions c85_require.
Print Assumptions c86_code.
Print Assumptions c86_nobody_refuted.
Print Assumptions c87_supply.
Print Assumptions c87_records.
Print Assumptions c87_rewards.
Print Assumptions c88_data.
Print Assumptions c88_alias_refuted.
Print Assumptions c89_check.
Print Assumptions c89_exception_refuted.
Print Assumptions c89_length_refuted.
Print Assumptions c90_work.
Print Assumptions c90_endless.
Print Assumptions c91_agree.
Print Assumptions c91_clock_refuted.
Print Assumptions c92_rank.
Print Assumptions c92_zero_refuted.
Print Assumptions c93_order.
Print Assumptions c93_one_account.
Print Assumptions c93_shared_refuted.
Print Assumptions c94_payer.
Print Assumptions c94_cosigner_refuted.
