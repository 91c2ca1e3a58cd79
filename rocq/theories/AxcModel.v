(** Model of the cross-chain swap proposals: minting a mirrored coin against a foreign
    transaction, and burning it again.

    Source: /repo/src/entities/proposal.cpp:528-776, /repo/src/persistence/axcdb.h:46-60,
    /repo/src/persistence/assetdb.cpp:96-111.

    Simplifications: caches are finite maps (c01_layered_cache_is_a_map); accounts are looked
    up and changed directly in the ledger (c50_transaction_acts_on_ledger); an address is
    represented by its length, the only thing that is looked at. [None] is a failed check or
    execution, after which nothing is kept. *)
From Coq Require Import String List Bool NArith ZArith.
From Verif Require Import Prelude AccountModel TxModel TxSpec DoubleModel.
Import ListNotations.
Open Scope N_scope.

(** [ChainType], proposal.h:64-69. *)
Definition BITCOIN : N := 1.  Definition ETHEREUM : N := 2.

(** [CAxcSwapPairStore]: self symbol, chain type, enabled. *)
Record swap_pair := mkPair { sp_self : string; sp_peer : string; sp_chain : N; sp_on : bool }.

Definition mintkey_eqb (a b : N * string) : bool :=
  (fst a =? fst b) && String.eqb (snd a) (snd b).

Record axc := mkAxc {
  x_ledger : list (N * account);
  x_reg : list (regid * N);
  x_assets : list (string * N);                   (* total_supply of the assets *)
  x_by_peer : list (string * swap_pair);          (* axc_swap_coin_ps_cache *)
  x_by_self : list (string * swap_pair);          (* axc_swap_coin_sp_cache *)
  x_minted : list (N * string * N);               (* axc_swapin_cache *)
  x_ratio : N;                                    (* AXC_SWAP_FEE_RATIO *)
  x_gateway : regid }.                            (* AXC_SWAP_GATEWAY_REGID; (0,0) if unset *)

Definition MAX_SUPPLY : N := 90000000000 * 100000000.   (* MAX_ASSET_TOTAL_SUPPLY, const.h *)
Definition DUST : N := 10000.                            (* DUST_AMOUNT_THRESHOLD *)

(** [GetSwapInMintRecord], axcdb.h:51-60: a stored zero reads as absent. *)
Definition mint_record (x : axc) (chain : N) (txid : string) : option N :=
  match fget mintkey_eqb (x_minted x) (chain, txid) with
  | Some v => if v =? 0 then None else Some v
  | None => None
  end.

Section Axc.
  Variable pk_keyid : N -> N.

  Record swap_in := mkIn {
    i_peer : string; i_addr_len : N; i_txid : string; i_to : uid; i_amount : N }.

  Definition uid_empty (u : uid) : bool :=
    match u with UNull => true | UReg r => regid_empty r | _ => false end.

  (** [CGovAxcInProposal::CheckProposal], proposal.cpp:528-585. *)
  Definition check_in (x : axc) (p : swap_in) : bool :=
    match fget String.eqb (x_by_peer x) (i_peer p) with
    | None => false
    | Some sp =>
        let tl := N.of_nat (String.length (i_txid p)) in
        sp_on sp &&
        negb (((sp_chain sp =? BITCOIN) && ((i_addr_len p <? 26) || (35 <? i_addr_len p))) ||
              ((sp_chain sp =? ETHEREUM) && (42 <? i_addr_len p))) &&
        negb (((sp_chain sp =? BITCOIN) && negb (tl =? 66)) ||
              ((sp_chain sp =? ETHEREUM) && negb (tl =? 66))) &&
        negb (uid_empty (i_to p)) &&
        (match find pk_keyid (x_reg x) (x_ledger x) (i_to p) with Some _ => true | None => false end) &&
        negb (i_amount p <? DUST) && negb (MAX_SUPPLY <? i_amount p) &&
        (match mint_record x (sp_chain sp) (i_txid p) with Some _ => false | None => true end) &&
        (match fget String.eqb (x_assets x) (sp_self sp) with
         | None => false
         | Some t => negb (MAX_SUPPLY <? add64 t (i_amount p))
         end)
    end.

  (** [OperateBalance(symbol, ADD_FREE, amount)] on the accounts of a list. *)
  Fixpoint credit_all (reg : list (regid * N)) (L : list (N * account)) (s : string)
      (cs : list (uid * N)) : option (list (N * account)) :=
    match cs with
    | [] => Some L
    | (u, v) :: cs' =>
        match find pk_keyid reg L u with
        | None => None
        | Some k =>
            match l_operate L k s AddFree v None with
            | (true, L') => credit_all reg L' s cs'
            | (false, _) => None
            end
        end
    end.

  (** [swap_fee_ratio * (swap_amount * 1.0 / RATIO_BOOST)] converted to [uint64_t],
      proposal.cpp:644. *)
  Definition swap_fees (ratio amount : N) : option N :=
    to_u64 (dmul (of_N ratio) (ddiv (dmul (of_N amount) (of_N 1)) (of_N 10000))).

  (** [swap_fee_ratio * 1.0 / RATIO_BOOST > 1], proposal.cpp:640. *)
  Definition ratio_too_big (ratio : N) : bool :=
    dlt (of_N 1) (ddiv (dmul (of_N ratio) (of_N 1)) (of_N 10000)).

  (** [ProcessAxcInFee], proposal.cpp:587-625, and [CGovAxcInProposal::ExecuteProposal],
      627-689, with the approvals of the proposal. *)
  Definition exec_in (x : axc) (p : swap_in) (approvals : list regid) : option axc :=
    match fget String.eqb (x_by_peer x) (i_peer p) with
    | None => None
    | Some sp =>
        if ratio_too_big (x_ratio x) then None
        else
        match swap_fees (x_ratio x) (i_amount p) with
        | None => None
        | Some fees =>
            let after := sub64 (i_amount p) fees in
            let n := N.of_nat (List.length approvals) in
            if n =? 0 then None
            else if regid_empty (x_gateway x) then None
            else
            let per := fees / (n + 3) in
            let gw := sub64 fees (mul64 per n) in
            match credit_all (x_reg x) (x_ledger x) (sp_self sp)
                    (map (fun r => (UReg r, per)) approvals
                       ++ [(UReg (x_gateway x), gw); (i_to p, after)]) with
            | None => None
            | Some L' =>
                match mint_record x (sp_chain sp) (i_txid p) with
                | Some _ => None
                | None =>
                    match fget String.eqb (x_assets x) (sp_self sp) with
                    | None => None
                    | Some t =>
                        let t' := add64 t (i_amount p) in
                        if MAX_SUPPLY <? t' then None
                        else Some (mkAxc L' (x_reg x)
                                     (fput String.eqb (x_assets x) (sp_self sp) t')
                                     (x_by_peer x) (x_by_self x)
                                     (fput mintkey_eqb (x_minted x) (sp_chain sp, i_txid p) after)
                                     (x_ratio x) (x_gateway x))
                    end
                end
            end
        end
    end.

  Record swap_out := mkOut { o_self : string; o_addr_len : N; o_from : uid; o_amount : N }.

  (** [CGovAxcOutProposal::CheckProposal], proposal.cpp:691-732, at the approval. *)
  Definition check_out (x : axc) (p : swap_out) : bool :=
    match fget String.eqb (x_by_self x) (o_self p) with
    | None => false
    | Some sp =>
        sp_on sp &&
        negb (((sp_chain sp =? BITCOIN) && ((o_addr_len p <? 26) || (35 <? o_addr_len p))) ||
              ((sp_chain sp =? ETHEREUM) && (42 <? o_addr_len p))) &&
        (match find pk_keyid (x_reg x) (x_ledger x) (o_from p) with
         | Some k =>
             match l_get (x_ledger x) k with
             | Some a => o_amount p <=? free (get_token a (o_self p))
             | None => false
             end
         | None => false
         end) &&
        negb (o_amount p <? DUST) && negb (MAX_SUPPLY <? o_amount p)
    end.

  (** [CGovAxcOutProposal::ExecuteProposal], proposal.cpp:734-769. *)
  Definition exec_out (x : axc) (p : swap_out) : option axc :=
    match find pk_keyid (x_reg x) (x_ledger x) (o_from p) with
    | None => None
    | Some k =>
        match l_operate (x_ledger x) k (o_self p) SubFree (o_amount p) None with
        | (false, _) => None
        | (true, L') =>
            match fget String.eqb (x_assets x) (o_self p) with
            | None => None
            | Some t =>
                if t <? o_amount p then None
                else Some (mkAxc L' (x_reg x)
                             (fput String.eqb (x_assets x) (o_self p) (t - o_amount p))
                             (x_by_peer x) (x_by_self x) (x_minted x) (x_ratio x) (x_gateway x))
            end
        end
    end.

  (** What can happen: an approved swap-in with its approvals, an approved swap-out, or
      something else, which leaves the assets and the mint records alone. *)
  Inductive axc_event :=
  | AIn (p : swap_in) (approvals : list regid)
  | AOut (p : swap_out)
  | AElse (ledger' : list (N * account)) (reg' : list (regid * N))
          (by_peer by_self : list (string * swap_pair)) (ratio : N) (gateway : regid).

  Definition axc_step (x : axc) (e : axc_event) : option axc :=
    match e with
    | AIn p l => if check_in x p then exec_in x p l else None
    | AOut p => if check_out x p then exec_out x p else None
    | AElse L reg bp bs r g => Some (mkAxc L reg (x_assets x) bp bs (x_minted x) r g)
    end.
End Axc.
