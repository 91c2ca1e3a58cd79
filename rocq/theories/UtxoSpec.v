(** What UTXO transfers should do (C16-C18, C51, C52). *)
From Coq Require Import String List Bool NArith ZArith.
From Verif Require Import Prelude AccountModel AccountSpec TxModel TxSpec UtxoModel.
Import ListNotations.
Open Scope N_scope.

(** What a history shows from outside: an accepted transfer (its id), then the outputs it
    consumed and those it created; the end of a block. *)
Inductive uevent :=
| EvTx (id : N) | EvSpent (k : N * N) | EvCreated (k : N * N) | EvBlockEnd
| EvProof (txid index : N) (by_ : N * N) (proof : N).

Definition spent_keys (tx : utx) : list (N * N) :=
  map (fun i => (in_txid i, in_index i)) (ux_vins tx).
Definition created_keys (tx : utx) : list (N * N) :=
  map (fun i => (ux_id tx, N.of_nat i mod 65536)) (seq 0 (List.length (ux_vouts tx))).

Fixpoint tx_ids (tr : list uevent) : list N :=
  match tr with
  | [] => []
  | EvTx i :: tr' => i :: tx_ids tr'
  | _ :: tr' => tx_ids tr'
  end.

(** An output's value in token [s], from the transactions that are part of the chain. *)
Definition value_in (known : list (N * utx)) (s : string) (k : N * N) : N :=
  match fget N.eqb known (fst k) with
  | Some tx =>
      if String.eqb (ux_symbol tx) s
      then match nth_error (ux_vouts tx) (N.to_nat (snd k)) with
           | Some o => out_amount o
           | None => 0
           end
      else 0
  | None => 0
  end.

Definition known (st : ustate) : list (N * utx) := u_index st ++ u_block st.

(** The value of all unspent outputs, and everything there is of a token. *)
Definition unspent (st : ustate) (s : string) : N :=
  nsum (map (fun kv => value_in (known st) s (fst kv)) (u_set st)).
Definition wealth (st : ustate) (s : string) : N := supply (u_ledger st) s + unspent st s.

(** A transfer whose inputs are outputs in its own token, and whose outputs add up to less
    than 2^64 (and are fewer than 2^16). *)
Definition one_token (st : ustate) (tx : utx) : Prop :=
  forall i p, In i (ux_vins tx) -> fget N.eqb (u_index st) (in_txid i) = Some p ->
    ux_symbol p = ux_symbol tx.
Definition out_total (tx : utx) : N := nsum (map out_amount (ux_vouts tx)).
Definition coherent (st : ustate) (tx : utx) : Prop :=
  one_token st tx /\ out_total tx < two64 /\ N.of_nat (List.length (ux_vouts tx)) < two16.

Section Run.
  Variable pk_keyid : N -> N.
  Variable ms_keyid : N -> N -> list N -> N.
  Variable ms_hash : N -> N -> N -> (N * N * list N) -> N.
  Variable verify : N -> N -> N -> bool.
  Variable pw_hash : N -> N -> N.
  Variable proof_hash : N -> N -> N -> N -> N -> N.

  Let step := ustep pk_keyid ms_keyid ms_hash verify pw_hash proof_hash.

  Definition events (st : ustate) (a : uaction) : list uevent :=
    match a with
    | ATransfer _ tx => EvTx (ux_id tx) :: map EvSpent (spent_keys tx) ++ map EvCreated (created_keys tx)
    | AProof u txid index proof =>
        match account_of pk_keyid st u with
        | Some a => [EvProof txid index (a_regid a) proof]
        | None => []
        end
    | AEndBlock => [EvBlockEnd]
    | AElse _ _ => []
    end.

  (** A refused action leaves no trace. *)
  Fixpoint urun (st : ustate) (acts : list uaction) : ustate * list uevent :=
    match acts with
    | [] => (st, [])
    | a :: acts' =>
        match step st a with
        | None => urun st acts'
        | Some st1 => let '(st2, tr) := urun st1 acts' in (st2, events st a ++ tr)
        end
    end.

  (** Before the first UTXO transaction. *)
  Definition ustart (L : list (N * account)) (reg : list (regid * N)) : ustate :=
    mkU L reg [] [] [] [].

  (** Histories whose accepted transfers are coherent, and whose other actions keep the total
      of each token. *)
  Fixpoint history_ok (st : ustate) (acts : list uaction) : Prop :=
    match acts with
    | [] => True
    | a :: acts' =>
        match step st a with
        | None => history_ok st acts'
        | Some st1 =>
            (match a with
             | ATransfer _ tx => coherent st tx
             | AElse L _ => ledger_wf L /\ forall s, supply L s = supply (u_ledger st) s
             | _ => True
             end) /\ history_ok st1 acts'
        end
    end.

  (** The fees of the accepted transfers in token [s]. *)
  Fixpoint fees_paid (st : ustate) (acts : list uaction) (s : string) : N :=
    match acts with
    | [] => 0
    | a :: acts' =>
        match step st a with
        | None => fees_paid st acts' s
        | Some st1 =>
            (match a with
             | ATransfer _ tx => fee_in (ux_fee_symbol tx) (ux_fee tx) s
             | _ => 0
             end) + fees_paid st1 acts' s
        end
    end.

  (** [p] is the public key of a listed party. *)
  Definition party_key (st : ustate) (us : list uid) (p : N) : Prop :=
    exists u a, In u us /\ account_of pk_keyid st u = Some a /\ a_pubkey a = Some p.

  (** A signature valid for some listed party. *)
  Definition good_sig (st : ustate) (us : list uid) (h sig : N) : Prop :=
    exists p, party_key st us p /\ verify h sig p = true.

  (** Every party's account exists and has a public key. *)
  Definition parties_ok (st : ustate) (us : list uid) : Prop :=
    forall u, In u us -> exists a p, account_of pk_keyid st u = Some a /\ a_pubkey a = Some p.

  (** At least [m] of the signatures (by position) are good. *)
  Definition enough_signatures (st : ustate) (us : list uid) (h m : N) (sigs : list N) : Prop :=
    exists pos, NoDup pos /\ m <= N.of_nat (List.length pos) /\
      forall i, In i pos -> exists sig, nth_error sigs i = Some sig /\ good_sig st us h sig.

  (** At least [m] different keys of listed parties have signed. *)
  Definition enough_parties (st : ustate) (us : list uid) (h m : N) (sigs : list N) : Prop :=
    exists ps, NoDup ps /\ m <= N.of_nat (List.length ps) /\
      forall p, In p ps -> party_key st us p /\ exists sig, In sig sigs /\ verify h sig p = true.

  (** No listed key validates two of the supplied signatures. *)
  Definition one_each (st : ustate) (us : list uid) (h : N) (sigs : list N) : Prop :=
    forall i j si sj p, nth_error sigs i = Some si -> nth_error sigs j = Some sj ->
      party_key st us p -> verify h si p = true -> verify h sj p = true -> i = j.

  (** The condition [c], put on an output by [creator], is met by the input [inp] of a
      transaction sent by [acct]. *)
  Definition met (e : uenv) (st : ustate) (acct : account) (creator : uid) (inp : uin) (c : cond)
    : Prop :=
    match c with
    | Cond (OutSingle u) => exists a, account_of pk_keyid st u = Some a /\ a_keyid a = a_keyid acct
    | Cond (OutMulti dest) =>
        exists m n us sigs parties,
          In (Cond (InMulti m n us sigs)) (in_conds inp) /\
          m <= n /\ n <= 20 /\ N.of_nat (List.length us) = n /\
          Forall2 (fun u k => exists a, account_of pk_keyid st u = Some a /\ a_keyid a = k) us parties /\
          dest = ms_keyid m n parties /\
          enough_signatures st us
            (ms_hash (in_txid inp) (in_index inp) (a_keyid acct) (m, n, parties)) m sigs
    | Cond (OutPassword req h) =>
        exists len pw a,
          In (Cond (InPassword len pw)) (in_conds inp) /\ len <= 256 /\
          account_of pk_keyid st creator = Some a /\ h = pw_hash (a_keyid a) pw /\
          (req = true ->
           fget pkey_eqb (u_proofs st) (in_txid inp, in_index inp, a_regid acct)
             = Some (proof_hash pw (a_keyid a) (a_keyid acct) (in_txid inp) (in_index inp)))
    | Cond (OutClaim h) => h < v_height e
    | Cond (OutReclaim h) =>
        exists k, denotes pk_keyid (u_reg st) creator = Some k /\
          (k = a_keyid acct -> 0 < h /\ h < v_height e)
    | _ => False
    end.

  (** A condition that may be put on a new output. *)
  Definition well_formed (c : cond) : Prop :=
    match c with
    | Cond (OutSingle u) => u <> UNull
    | Cond (OutMulti dest) => dest <> 0
    | Cond (OutPassword _ h) => h <> 0
    | Cond (OutClaim h) | Cond (OutReclaim h) => h <> 0
    | _ => False
    end.
  Definition kind (c : cond) : N := match c with Cond p => tag p | CNull => 0 end.

  (** An input condition list without null entries and with at most one entry of each kind. *)
  Definition tidy (i : uin) : Prop := ~ In CNull (in_conds i) /\ NoDup (map kind (in_conds i)).

  (** No null condition in the transfer or in the outputs it refers to. *)
  Definition no_null (st : ustate) (tx : utx) : Prop :=
    (forall o, In o (ux_vouts tx) -> ~ In CNull (out_conds o)) /\
    (forall i, In i (ux_vins tx) -> ~ In CNull (in_conds i)) /\
    (forall id p o, fget N.eqb (u_index st) id = Some p -> In o (ux_vouts p) -> ~ In CNull (out_conds o)).
End Run.
