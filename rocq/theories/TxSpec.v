(** Vocabulary of the claims about transfers (C07, C50). *)
From Coq Require Import String List Bool NArith ZArith.
From Verif Require Import Prelude AccountModel AccountSpec TxModel.
Import ListNotations.
Open Scope N_scope.

Section TxSpec.
  Variable pk_keyid : N -> N.

  (** The account a user id denotes, given the table of registration ids. *)
  Definition denotes (reg : list (regid * N)) (u : uid) : option N :=
    match u with
    | UKey k => Some k
    | UPub p => Some (pk_keyid p)
    | UReg r => fget regid_eqb reg r
    | UNull => None
    end.

  (** A consistent state between transactions: each account stored once under its key id;
      its public key hashes to its key id; its registration id is in the table. *)
  Definition consistent (L : list (N * account)) (reg : list (regid * N)) : Prop :=
    ledger_wf L /\
    forall k a, l_get L k = Some a ->
      (forall p, a_pubkey a = Some p -> pk_keyid p = k) /\
      (regid_empty (a_regid a) = false -> fget regid_eqb reg (a_regid a) = Some k).

  (** The friction fee of one transfer. *)
  Definition friction (e : tenv) (x : xfer) : N :=
    if String.eqb (x_symbol x) "WUSD" then x_amount x * e_friction e / 10000 else 0.

  Definition goes_to (reg : list (regid * N)) (k : N) (x : xfer) : bool :=
    match denotes reg (x_to x) with Some d => k =? d | None => false end.

  (** What account [k] receives of token [s], what the sender pays, and the friction. *)
  Definition received (e : tenv) (reg : list (regid * N)) (xs : list xfer) (k : N) (s : string) : N :=
    nsum (map (fun x => if String.eqb (x_symbol x) s && goes_to reg k x
                        then x_amount x - friction e x else 0) xs).
  Definition sent (xs : list xfer) (s : string) : N :=
    nsum (map (fun x => if String.eqb (x_symbol x) s then x_amount x else 0) xs).
  Definition friction_total (e : tenv) (xs : list xfer) : N := nsum (map (friction e) xs).

  (** The fee, if it is paid in token [s]. *)
  Definition fee_in (fee_symbol : string) (fee : N) (s : string) : N :=
    if String.eqb fee_symbol s then fee else 0.

  (** A sequence of balance operations addressed by user ids, applied directly to a ledger:
      [None] as soon as an account is missing or an operation is refused. *)
  Record ureq := mkU {
    u_who : uid; u_symbol : string; u_op : balance_op; u_amount : N; u_other : option uid }.

  Definition find (reg : list (regid * N)) (L : list (N * account)) (u : uid) : option N :=
    match denotes reg u with
    | Some k => match l_get L k with Some _ => Some k | None => None end
    | None => None
    end.

  Fixpoint run_ledger (reg : list (regid * N)) (L : list (N * account)) (rs : list ureq)
    : option (list (N * account)) :=
    match rs with
    | [] => Some L
    | r :: rs' =>
        match find reg L (u_who r), option_map (find reg L) (u_other r) with
        | None, _ | _, Some None => None
        | Some k, other =>
            match l_operate L k (u_symbol r) (u_op r) (u_amount r)
                    (match other with Some o => o | None => None end) with
            | (true, L') => run_ledger reg L' rs'
            | (false, _) => None
            end
        end
    end.

  (** What a transaction sent by [u] at position [(h, i)] starts from: an account without
      registration that sends by public key is registered at that position first. *)
  Definition entered (h i : N) (u : uid) (reg : list (regid * N)) (L : list (N * account))
    : list (regid * N) * list (N * account) :=
    match u with
    | UPub p =>
        match l_get L (pk_keyid p) with
        | Some a =>
            if regid_empty (a_regid a)
            then (((h, i), pk_keyid p) :: reg,
                  l_put L (pk_keyid p)
                    (mkAccount (a_keyid a) (h, i) (Some p) (a_tokens a) (a_received_votes a)
                       (a_last_vote_height a) (a_last_vote_epoch a) (a_perms a)))
            else (reg, L)
        | None => (reg, L)
        end
    | _ => (reg, L)
    end.

  (** A whole transaction on the ledger: its sender must exist, pays the fee if there is
      one, and then the operations happen one after the other. *)
  Definition run_tx (h i : N) (u : uid) (fee_symbol : string) (fee : N) (rs : list ureq)
      (reg : list (regid * N)) (L : list (N * account)) : option (list (N * account)) :=
    match find reg L u with
    | None => None
    | Some _ =>
        let '(reg', L') := entered h i u reg L in
        run_ledger reg' L' ((if fee =? 0 then [] else [mkU u fee_symbol SubFree fee None]) ++ rs)
    end.
End TxSpec.
