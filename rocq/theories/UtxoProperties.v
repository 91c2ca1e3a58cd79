(** UTXO transfers: C16, C17, C18, C51, C52. *)
From Coq Require Import String List Bool NArith ZArith Lia.
From Verif Require Import Prelude PreludeFacts AccountModel AccountSpec TxModel TxSpec UtxoModel
  UtxoSpec UtxoProofs.
Import ListNotations.
Open Scope N_scope.

(** C16. In any history from an empty set of outputs, with hash functions and signature checks
    of any kind and ledgers changed in any way in between, in which no two accepted transfers
    have the same id: an output is consumed at most once, and only after the block of the
    transfer that created it has ended. *)
Theorem c16_spent_once :
  forall pk_keyid ms_keyid ms_hash verify pw_hash proof_hash acts L reg st tr,
  urun pk_keyid ms_keyid ms_hash verify pw_hash proof_hash (ustart L reg) acts = (st, tr) ->
  NoDup (tx_ids tr) ->
  forall t1 k t2, tr = t1 ++ EvSpent k :: t2 ->
    ~ In (EvSpent k) t1 /\ ~ In (EvSpent k) t2 /\
    exists x y, t1 = x ++ EvBlockEnd :: y /\ In (EvCreated k) x.
Proof. exact spent_once. Qed.
Print Assumptions c16_spent_once.

(** The set of unspent outputs is exactly what was created and not consumed. *)
Theorem c16_unspent_exactly :
  forall pk_keyid ms_keyid ms_hash verify pw_hash proof_hash acts L reg st tr,
  urun pk_keyid ms_keyid ms_hash verify pw_hash proof_hash (ustart L reg) acts = (st, tr) ->
  NoDup (tx_ids tr) ->
  forall k, fmem ukey_eqb (u_set st) k = true <-> In (EvCreated k) tr /\ ~ In (EvSpent k) tr.
Proof. exact unspent_exactly. Qed.
Print Assumptions c16_unspent_exactly.

(** Two inputs of one transfer never name the same output. *)
Theorem c16_same_input_twice :
  forall pk_keyid ms_keyid ms_hash verify pw_hash proof_hash e st tx i j a b c,
  ux_vins tx = a ++ i :: b ++ j :: c -> in_txid i = in_txid j -> in_index i = in_index j ->
  ustep pk_keyid ms_keyid ms_hash verify pw_hash proof_hash st (ATransfer e tx) = None.
Proof. exact same_input_twice. Qed.
Print Assumptions c16_same_input_twice.

(** C17. Over a history whose accepted transfers only take inputs of their own token and
    create outputs worth less than 2^64 in total, balances and unspent outputs of each token
    together shrink by exactly the fees paid in it. *)
Theorem c17_history_conserves :
  forall pk_keyid ms_keyid ms_hash verify pw_hash proof_hash acts L reg st tr,
  let run := urun pk_keyid ms_keyid ms_hash verify pw_hash proof_hash in
  let hok := history_ok pk_keyid ms_keyid ms_hash verify pw_hash proof_hash in
  let fees := fees_paid pk_keyid ms_keyid ms_hash verify pw_hash proof_hash in
  ledger_wf L -> (forall s, supply L s < two64) ->
  run (ustart L reg) acts = (st, tr) -> NoDup (tx_ids tr) -> hok (ustart L reg) acts ->
  forall s, wealth st s + fees (ustart L reg) acts s = supply L s.
Proof.
  cbv zeta. intros pk mk mh vf pw ph acts L reg st tr W B R N H s.
  assert (E : forall t, wealth (ustart L reg) t = supply L t).
  { intros t. unfold wealth, unspent, ustart, known. cbn [u_ledger u_set map nsum]. apply N.add_0_r. }
  rewrite <- E.
  eapply (history_conserves pk mk mh vf pw ph acts (ustart L reg) []); eauto.
  - apply linked_start.
  - now apply uwf_start.
  - intros t. now rewrite E.
Qed.
Print Assumptions c17_history_conserves.

(** C18. When [m]-of-[n] verification passes, at least [m] of the supplied signatures (counted
    by position) are valid for a listed party; given that every party's account has its public
    key, it passes exactly then. *)
Theorem c18_enough_signatures :
  forall pk_keyid verify st h m us sigs,
  verify_multisig pk_keyid verify st h m us sigs = true ->
  enough_signatures pk_keyid verify st us h m sigs.
Proof. exact verify_multisig_sound. Qed.
Print Assumptions c18_enough_signatures.

Theorem c18_accepts_exactly :
  forall pk_keyid verify st h m us sigs,
  parties_ok pk_keyid st us ->
  (verify_multisig pk_keyid verify st h m us sigs = true <->
   enough_signatures pk_keyid verify st us h m sigs).
Proof. intros. split; [apply verify_multisig_sound | now apply verify_multisig_complete]. Qed.
Print Assumptions c18_accepts_exactly.

(** If no listed key validates two of the supplied signatures, [m] different listed keys have
    signed. *)
Theorem c18_distinct_signers :
  forall pk_keyid verify st h m us sigs,
  verify_multisig pk_keyid verify st h m us sigs = true ->
  one_each pk_keyid verify st us h sigs ->
  enough_parties pk_keyid verify st us h m sigs.
Proof. intros. apply distinct_parties; [assumption | now apply verify_multisig_sound]. Qed.
Print Assumptions c18_distinct_signers.

(** C51. Of an accepted transfer, every input names an output of a transaction in a connected
    block, below the number of its outputs taken modulo 2^16, and meets every condition that
    output carries. *)
Theorem c51_conditions_met :
  forall pk_keyid ms_keyid ms_hash verify pw_hash proof_hash e st tx st',
  ledger_wf (u_ledger st) ->
  ustep pk_keyid ms_keyid ms_hash verify pw_hash proof_hash st (ATransfer e tx) = Some st' ->
  exists acct, account_of pk_keyid st (ux_uid tx) = Some acct /\
    forall i, In i (ux_vins tx) -> exists p o,
      fget N.eqb (u_index st) (in_txid i) = Some p /\
      in_index i < N.of_nat (List.length (ux_vouts p)) mod two16 /\
      nth_error (ux_vouts p) (N.to_nat (in_index i)) = Some o /\
      Forall (met pk_keyid ms_keyid ms_hash verify pw_hash proof_hash e st acct (ux_uid p) i)
        (out_conds o).
Proof. exact transfer_meets. Qed.
Print Assumptions c51_conditions_met.

(** Conversely a condition that is met passes, if the input's condition list has no null entry
    and no two entries of a kind, and the creator and all listed parties are known. *)
Theorem c51_met_passes :
  forall pk_keyid ms_keyid ms_hash verify pw_hash proof_hash e st acct creator inp c,
  ledger_wf (u_ledger st) -> tidy inp ->
  (forall m n us sigs, In (Cond (InMulti m n us sigs)) (in_conds inp) -> parties_ok pk_keyid st us) ->
  account_of pk_keyid st creator <> None ->
  (check_cond pk_keyid ms_keyid ms_hash verify pw_hash proof_hash e st acct (Some creator) inp c = Pass
   <-> met pk_keyid ms_keyid ms_hash verify pw_hash proof_hash e st acct creator inp c).
Proof.
  intros. split; [now apply cond_sound | now apply cond_complete].
Qed.
Print Assumptions c51_met_passes.

(** The outputs of an accepted transfer: no zero amount, conditions of output kinds with
    non-empty contents, each kind once, not both a single and a multi-signature address. *)
Theorem c51_outputs_well_formed :
  forall pk_keyid ms_keyid ms_hash verify pw_hash proof_hash e st tx st',
  ustep pk_keyid ms_keyid ms_hash verify pw_hash proof_hash st (ATransfer e tx) = Some st' ->
  forall o, In o (ux_vouts tx) -> out_amount o <> 0 /\ Forall well_formed (out_conds o) /\
    NoDup (map kind (out_conds o)) /\
    ~ (In OP2SA (map kind (out_conds o)) /\ In OP2MA (map kind (out_conds o))).
Proof. exact transfer_outputs. Qed.
Print Assumptions c51_outputs_well_formed.

(** A password proof on record was put there by a transaction of the account it is for. *)
Theorem c51_proofs_were_submitted :
  forall pk_keyid ms_keyid ms_hash verify pw_hash proof_hash acts L reg st tr,
  urun pk_keyid ms_keyid ms_hash verify pw_hash proof_hash (ustart L reg) acts = (st, tr) ->
  forall t i rg v, fget pkey_eqb (u_proofs st) (t, i, rg) = Some v -> In (EvProof t i rg v) tr.
Proof.
  intros pk mk mh vf pw ph acts L reg st tr R.
  apply (run_proofs pk mk mh vf pw ph acts (ustart L reg) [] st tr); [discriminate | assumption].
Qed.
Print Assumptions c51_proofs_were_submitted.

(** C52. Validation of a transfer without null conditions, against a chain without them,
    always ends with a verdict. *)
Theorem c52_verdict :
  forall pk_keyid ms_keyid ms_hash verify pw_hash proof_hash e st tx,
  no_null st tx ->
  check_transfer pk_keyid ms_keyid ms_hash verify pw_hash proof_hash e st tx <> Fault.
Proof. exact check_no_fault. Qed.
Print Assumptions c52_verdict.

(** ** Concrete cases. Key ids equal public keys; the signature of [p] on [h] is [h + p]. *)
Section Instance.
  Definition pk (p : N) : N := p.
  Definition mk (m n : N) (ks : list N) : N := 1000000 * m + 10000 * n + nsum ks.
  Definition mh (t i k : N) (s : N * N * list N) : N := 1000 * t + 100 * i + k.
  Definition vf (h sig p : N) : bool := sig =? h + p.
  Definition pw (k w : N) : N := 7 * k + w + 1.
  Definition ph (w c s t i : N) : N := w + c + s + t + i.
  Let run := urun pk mk mh vf pw ph.
  Let chk := check_transfer pk mk mh vf pw ph.

  Definition acc (k : N) (wicc junk : N) : account :=
    mkAccount k (7, k) (Some k) [("WICC", mkToken wicc 0 0 0 0); ("JUNK", mkToken junk 0 0 0 0)]%string
      0 0 0 all_perms.
  Definition L0 := [(1, acc 1 100000 9000); (2, acc 2 50000 0); (3, acc 3 40000 0)].
  Definition R0 : list (N * N * N) := [(7, 1, 1); (7, 2, 2); (7, 3, 3)].
  Definition env (h : N) : uenv := mkUenv h 3 10 10 100.
  Definition wicc (id from fee : N) vins vouts : utx :=
    mkUtx id (UReg (7, from)) "WICC" fee "WICC" vins vouts.

  (** Account 1 locks 20 000 for account 2 and 30 000 for two of accounts 1, 2, 3; account 2
      spends its output, account 3 the other one with the signatures of 1 and 2. A second
      spend, and a spend in the block of the creation, are refused. *)
  Definition lock := wicc 501 1 1000 []
    [mkUout 20000 [Cond (OutSingle (UReg (7, 2))); Cond (OutClaim 60)];
     mkUout 30000 [Cond (OutMulti (mk 2 3 [1; 2; 3]))]].
  Definition spend2 (id : N) := wicc id 2 500 [mkUin 501 0 []] [mkUout 5000 [Cond (OutPassword true (pw 2 99))]].
  Definition multi (sigs : list N) := wicc 503 3 500
    [mkUin 501 1 [Cond (InMulti 2 3 [UKey 1; UKey 2; UReg (7, 3)] sigs)]] [].
  Definition h3 := mh 501 1 3 (2, 3, [1; 2; 3]).
  Definition story :=
    [ATransfer (env 70) lock; ATransfer (env 70) (spend2 502); AEndBlock;
     ATransfer (env 60) (spend2 502); ATransfer (env 71) (spend2 502); ATransfer (env 71) (spend2 504);
     ATransfer (env 71) (multi [h3 + 1; h3 + 2]); AEndBlock;
     AProof (UReg (7, 3)) 502 0 (ph 99 2 3 502 0);
     ATransfer (env 73) (wicc 505 3 500 [mkUin 502 0 [Cond (InPassword 5 99)]] [])].

  Definition done := run (ustart L0 R0) story.

  Example c16_example :
    snd done =
      [EvTx 501; EvCreated (501, 0); EvCreated (501, 1); EvBlockEnd;
       EvTx 502; EvSpent (501, 0); EvCreated (502, 0);
       EvTx 503; EvSpent (501, 1); EvBlockEnd; EvProof 502 0 (7, 3) (ph 99 2 3 502 0);
       EvTx 505; EvSpent (502, 0)] /\ NoDup (tx_ids (snd done)) /\
    ustep pk mk mh vf pw ph (fst (run (ustart L0 R0) (firstn 3 story)))
      (ATransfer (env 71) (wicc 509 2 1000 [mkUin 501 0 []; mkUin 501 0 []] [])) = None /\
    ustep pk mk mh vf pw ph (fst (run (ustart L0 R0) (firstn 3 story)))
      (ATransfer (env 71) (wicc 509 2 1000 [mkUin 501 0 []] [])) <> None.
  Proof.
    split; [vm_compute; reflexivity|].
    split; [vm_compute; repeat (apply NoDup_cons; [cbn; intuition discriminate|]); apply NoDup_nil|].
    split; vm_compute; [reflexivity | discriminate].
  Qed.

  Lemma L0_wf : ledger_wf L0.
  Proof.
    split; [cbn; repeat (apply NoDup_cons; [cbn; intuition discriminate|]); apply NoDup_nil|].
    intros k a H. apply (fget_in N.eqb N_eqb_ok) in H. cbn in H.
    repeat destruct H as [H|H]; inversion H; reflexivity.
  Qed.

  Example c17_example :
    ledger_wf L0 /\ supply L0 "WICC" = 190000 /\
    history_ok pk mk mh vf pw ph (ustart L0 R0) story /\
    fees_paid pk mk mh vf pw ph (ustart L0 R0) story "WICC" = 2500 /\
    wealth (fst done) "WICC" = 187500 /\
    wealth (fst (run (ustart L0 R0) (firstn 5 story))) "WICC" = 188500 /\
    unspent (fst (run (ustart L0 R0) (firstn 5 story))) "WICC" = 35000.
  Proof.
    split; [exact L0_wf|]. split; [reflexivity|].
    split; [|vm_compute; repeat split].
    vm_compute.
    repeat match goal with
    | |- _ /\ _ => split
    | |- True => exact I
    | |- ?x = ?x => reflexivity
    | |- forall _, _ => intros i p Hi Hp; repeat destruct Hi as [<-|Hi]; try destruct Hi; cbn in Hp;
        injection Hp as <-; reflexivity
    end.
  Qed.

  (** Without the first proviso C17 is false: the token of the output is not compared with that
      of the transfer consuming it. 500 units of a worthless token become 500 WICC. *)
  Theorem c17_token_swap_refuted :
    exists (acts : list uaction) st tr,
      run (ustart L0 R0) acts = (st, tr) /\ NoDup (tx_ids tr) /\ ledger_wf L0 /\
      wealth st "WICC" + fees_paid pk mk mh vf pw ph (ustart L0 R0) acts "WICC"
        = supply L0 "WICC" + 500.
  Proof.
    exists [ATransfer (env 70) (mkUtx 601 (UReg (7, 1)) "WICC" 1000 "JUNK" [] [mkUout 500 []]); AEndBlock;
            ATransfer (env 71) (mkUtx 602 (UReg (7, 1)) "WICC" 1000 "WICC" [mkUin 601 0 []] [])].
    eexists. eexists. split; [vm_compute; reflexivity|].
    split; [cbn; repeat (apply NoDup_cons; [cbn; intuition discriminate|]); apply NoDup_nil|].
    split; [exact L0_wf|]. vm_compute. reflexivity.
  Qed.

  (** Without the second one too: the sum of the outputs wraps around. Two outputs of 2^63
      cost nothing, and one of them is spent into the balance. *)
  Theorem c17_output_sum_refuted :
    exists (acts : list uaction) st tr,
      run (ustart L0 R0) acts = (st, tr) /\ NoDup (tx_ids tr) /\
      (forall s, supply L0 s <= 200000) /\
      lbal (u_ledger st) 1 "WICC" BFree = 2 ^ 63 + 97000.
  Proof.
    exists [ATransfer (env 70) (wicc 701 1 2000 [] [mkUout (2 ^ 63) []; mkUout (2 ^ 63) []]); AEndBlock;
            ATransfer (env 71) (wicc 702 1 1000 [mkUin 701 0 []] [])].
    eexists. eexists. split; [vm_compute; reflexivity|].
    split; [cbn; repeat (apply NoDup_cons; [cbn; intuition discriminate|]); apply NoDup_nil|].
    split; [|vm_compute; reflexivity].
    intros s. unfold supply, L0, acc, holding, bal, get_token, msum. cbn [map snd fget a_tokens fold_right nsum].
    destruct (String.eqb s "WICC"), (String.eqb s "JUNK"); cbn; lia.
  Qed.

  Definition s3 := fst (run (ustart L0 R0) (firstn 3 story)).

  Example c18_example :
    let us := [UKey 1; UKey 2; UReg (7, 3)] in
    verify_multisig pk vf s3 h3 2 us [h3 + 2; h3 + 77; h3 + 3] = true /\
    verify_multisig pk vf s3 h3 2 us [h3 + 2; h3 + 77] = false /\
    parties_ok pk s3 us /\ one_each pk vf s3 us h3 [h3 + 2; h3 + 77; h3 + 3].
  Proof.
    cbv zeta. split; [vm_compute; reflexivity|]. split; [vm_compute; reflexivity|]. split.
    - intros u [<-|[<-|[<-|[]]]]; eexists; eexists; split; vm_compute; reflexivity.
    - intros i j si sj p Hi Hj _ Vi Vj. unfold vf in *. apply N.eqb_eq in Vi, Vj. subst.
      revert Hi Hj. generalize h3. intros h Hi Hj.
      destruct i as [|[|[|i]]], j as [|[|[|j]]]; cbn in Hi, Hj; try reflexivity;
        try (destruct i; discriminate); try (destruct j; discriminate);
        exfalso; injection Hi; injection Hj; intros; lia.
  Qed.

  (** Without that proviso it is false: one signature given twice counts twice. A transfer
      consuming a 2-of-3 output is accepted although only one of the parties has signed. *)
  Theorem c18_repeated_signature_refuted :
    exists (tx : utx) (us : list uid) (sigs : list N) st',
      ustep pk mk mh vf pw ph s3 (ATransfer (env 71) tx) = Some st' /\
      ux_vins tx = [mkUin 501 1 [Cond (InMulti 2 3 us sigs)]] /\
      value_in (known s3) "WICC" (501, 1) = 30000 /\
      ~ enough_parties pk vf s3 us h3 2 sigs.
  Proof.
    exists (multi [h3 + 1; h3 + 1]), [UKey 1; UKey 2; UReg (7, 3)], [h3 + 1; h3 + 1].
    eexists. split; [vm_compute; reflexivity|]. split; [reflexivity|]. split; [vm_compute; reflexivity|].
    intros (ps & Hn & Hl & Hp).
    assert (E : forall p, In p ps -> p = 1).
    { intros p Hi. destruct (Hp p Hi) as (_ & sig & Hs & Hv). unfold vf in Hv. apply N.eqb_eq in Hv.
      revert Hs Hv. generalize h3. intros h Hs Hv. destruct Hs as [<-|[<-|[]]]; lia. }
    destruct ps as [|p [|q ps]]; cbn in Hl; [lia | lia|].
    inversion Hn as [|? ? Hni]. apply Hni. left.
    rewrite (E p), (E q); [reflexivity | right; now left | now left].
  Qed.

  (** A threshold of zero asks for no signature at all. *)
  Example c18_zero_threshold : verify_multisig pk vf s3 h3 0 [UKey 1; UKey 2] [] = true.
  Proof. reflexivity. Qed.

  Example c51_example :
    ledger_wf (u_ledger s3) /\
    ustep pk mk mh vf pw ph s3 (ATransfer (env 71) (spend2 502)) <> None /\
    ustep pk mk mh vf pw ph s3 (ATransfer (env 60) (spend2 502)) = None /\
    met pk mk mh vf pw ph (env 71) s3 (acc 2 50000 0) (UReg (7, 1)) (mkUin 501 0 []) (Cond (OutClaim 60)) /\
    tidy (mkUin 501 1 [Cond (InMulti 2 3 [UKey 1] []); Cond (InPassword 3 1)]) /\
    In (EvProof 502 0 (7, 3) (ph 99 2 3 502 0)) (snd (run (ustart L0 R0) (firstn 9 story))) /\
    fget pkey_eqb (u_proofs (fst (run (ustart L0 R0) (firstn 9 story)))) (502, 0, (7, 3))
      = Some (ph 99 2 3 502 0).
  Proof.
    split.
    { split; [vm_compute; repeat (apply NoDup_cons; [cbn; intuition discriminate|]); apply NoDup_nil|].
      intros k a H. apply (fget_in N.eqb N_eqb_ok) in H. vm_compute in H.
      repeat destruct H as [H|H]; inversion H; reflexivity. }
    split; [vm_compute; discriminate|]. split; [vm_compute; reflexivity|].
    split; [vm_compute; reflexivity|].
    split.
    { split; [cbn; intuition discriminate|].
      cbn. repeat (apply NoDup_cons; [cbn; intuition discriminate|]); apply NoDup_nil. }
    split; [vm_compute; auto 20 | vm_compute; reflexivity].
  Qed.

  (** A reclaim lock does not keep anyone but the creator from spending at once. *)
  Example c51_reclaim_lock_open_to_others :
    met pk mk mh vf pw ph (env 5) s3 (acc 3 0 0) (UReg (7, 1)) (mkUin 501 0 []) (Cond (OutReclaim 1000000)).
  Proof. exists 1. split; [reflexivity|]. intros H. discriminate. Qed.

  Example c52_example : no_null s3 (multi [h3 + 1]) /\ chk (env 71) s3 (multi [h3 + 1]) = Refuse.
  Proof.
    split; [|vm_compute; reflexivity]. split; [intros o []|]. split.
    - intros i [<-|[]]. cbn. intuition discriminate.
    - intros id p o H Ho. apply (fget_in N.eqb N_eqb_ok) in H. vm_compute in H.
      destruct H as [H|[]]. inversion H; subst. vm_compute in Ho.
      destruct Ho as [<-|[<-|[]]]; cbn; intuition discriminate.
  Qed.

  (** In general C52 is false: a condition of type 0 is read as a null pointer, which the
      validation of a new output dereferences; so is one in the list of an input. *)
  Theorem c52_null_condition_refuted :
    exists (tx1 tx2 : utx),
      chk (env 71) s3 tx1 = Fault /\ ux_vins tx1 = [] /\
      chk (env 71) s3 tx2 = Fault /\ ux_vouts tx2 = [].
  Proof.
    exists (wicc 801 1 1000 [] [mkUout 5 [CNull]]), (wicc 802 1 1000 [mkUin 501 1 [CNull]] []).
    vm_compute. auto.
  Qed.
End Instance.
Print Assumptions c17_token_swap_refuted.
Print Assumptions c17_output_sum_refuted.
Print Assumptions c18_repeated_signature_refuted.
Print Assumptions c52_null_condition_refuted.
