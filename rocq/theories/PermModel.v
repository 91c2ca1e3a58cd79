(** Model of the permission rules and of the check every transaction passes first.

    Source: /repo/src/tx/tx.cpp:90-180, /repo/src/tx/tx.h:45-79, 301-323,
    /repo/src/config/txbase.h:22-77, 111-155, /repo/src/entities/account.h:31-43, 150-155,
    /repo/src/entities/asset.h:37-64, /repo/src/tx/accountpermscleartx.cpp:21-24,
    /repo/src/entities/proposal.cpp:262-282, 321-326.

    The signature check and the fee check are arguments of the model. *)
From Coq Require Import List Bool NArith.
From Verif Require Import Prelude AccountModel TxModel.
Import ListNotations.
Open Scope N_scope.

(** [TxType], txbase.h:22-77, by its number. *)
Definition BLOCK_REWARD_TX : N := 1.        Definition ACCOUNT_REGISTER_TX : N := 2.
Definition BCOIN_TRANSFER_TX : N := 3.      Definition LCONTRACT_INVOKE_TX : N := 4.
Definition LCONTRACT_DEPLOY_TX : N := 5.    Definition DELEGATE_VOTE_TX : N := 6.
Definition UCOIN_STAKE_TX : N := 8.         Definition ASSET_ISSUE_TX : N := 9.
Definition UIA_UPDATE_TX : N := 10.         Definition UCOIN_TRANSFER_TX : N := 11.
Definition UCOIN_MINT_TX : N := 12.         Definition UCOIN_BLOCK_REWARD_TX : N := 13.
Definition UCONTRACT_DEPLOY_TX : N := 14.   Definition UCONTRACT_INVOKE_TX : N := 15.
Definition PRICE_FEED_TX : N := 16.         Definition PRICE_MEDIAN_TX : N := 17.
Definition UTXO_TRANSFER_TX : N := 18.      Definition UTXO_PASSWORD_PROOF_TX : N := 19.
Definition CDP_STAKE_TX : N := 21.          Definition CDP_REDEEM_TX : N := 22.
Definition CDP_LIQUIDATE_TX : N := 23.      Definition CDP_FORCE_SETTLE_INTEREST_TX : N := 24.
Definition ACCOUNT_PERMS_CLEAR_TX : N := 50.
Definition PROPOSAL_REQUEST_TX : N := 70.   Definition PROPOSAL_APPROVAL_TX : N := 71.
Definition DEX_LIMIT_BUY_ORDER_TX : N := 84.    Definition DEX_LIMIT_SELL_ORDER_TX : N := 85.
Definition DEX_MARKET_BUY_ORDER_TX : N := 86.   Definition DEX_MARKET_SELL_ORDER_TX : N := 87.
Definition DEX_CANCEL_ORDER_TX : N := 88.   Definition DEX_TRADE_SETTLE_TX : N := 89.
Definition DEX_ORDER_TX : N := 90.          Definition DEX_OPERATOR_ORDER_TX : N := 91.
Definition DEX_OPERATOR_REGISTER_TX : N := 92.  Definition DEX_OPERATOR_UPDATE_TX : N := 93.
Definition UNIVERSAL_TX : N := 100.

(** [kTxTypeInfoTable], last column (txbase.h:109-157): the first version a type is
    available from. A type not in the table dereferences the end iterator: [None]. *)
Definition available_from (ty : N) : option N :=
  if existsb (N.eqb ty) [0; 1; 2; 3; 4; 5; 6] then Some 1
  else if existsb (N.eqb ty) [8; 9; 10; 11; 12; 13; 14; 15; 16; 17; 21; 22; 23; 84; 85; 86; 87; 88; 89]
  then Some 2
  else if existsb (N.eqb ty) [92; 93; 90; 91; 70; 71; 50; 100; 24; 18; 19] then Some 3
  else None.

(** Rights of an account, account.h:31-43. *)
Definition PERM_SEND_COIN : N := 1.   Definition PERM_STAKE_COIN : N := 2.
Definition PERM_SEND_VOTE : N := 4.   Definition PERM_SEND_UTXO : N := 8.
Definition PERM_CONTRACT : N := 16.   Definition PERM_PROPOSE : N := 32.
Definition PERM_MINE_BLOCK : N := 64. Definition PERM_FEED_PRICE : N := 128.
Definition PERM_DEX : N := 256.       Definition PERM_CDP : N := 512.

(** [kTxTypePermMap], tx.h:45-79. *)
Definition tx_perm_map : list (N * N) :=
  [ (BCOIN_TRANSFER_TX, PERM_SEND_COIN); (DELEGATE_VOTE_TX, PERM_SEND_VOTE);
    (UCOIN_TRANSFER_TX, PERM_SEND_COIN); (UCOIN_STAKE_TX, PERM_STAKE_COIN);
    (UTXO_TRANSFER_TX, PERM_SEND_UTXO); (UTXO_PASSWORD_PROOF_TX, PERM_SEND_UTXO);
    (LCONTRACT_DEPLOY_TX, PERM_CONTRACT); (LCONTRACT_INVOKE_TX, PERM_CONTRACT);
    (UCONTRACT_DEPLOY_TX, PERM_CONTRACT); (UCONTRACT_INVOKE_TX, PERM_CONTRACT);
    (UNIVERSAL_TX, PERM_CONTRACT); (PRICE_FEED_TX, PERM_FEED_PRICE);
    (CDP_STAKE_TX, PERM_CDP); (CDP_REDEEM_TX, PERM_CDP); (CDP_LIQUIDATE_TX, PERM_CDP);
    (DEX_LIMIT_BUY_ORDER_TX, PERM_DEX); (DEX_LIMIT_SELL_ORDER_TX, PERM_DEX);
    (DEX_MARKET_BUY_ORDER_TX, PERM_DEX); (DEX_MARKET_SELL_ORDER_TX, PERM_DEX);
    (DEX_CANCEL_ORDER_TX, PERM_DEX); (DEX_ORDER_TX, PERM_DEX);
    (DEX_OPERATOR_ORDER_TX, PERM_DEX); (DEX_OPERATOR_UPDATE_TX, PERM_DEX);
    (DEX_OPERATOR_REGISTER_TX, PERM_DEX); (DEX_TRADE_SETTLE_TX, PERM_DEX);
    (PROPOSAL_REQUEST_TX, PERM_PROPOSE) ].

Definition is_reg (u : uid) : bool := match u with UReg _ => true | _ => false end.

(** [CAccount::IsRegistered], account.h:187. *)
Definition is_registered (a : account) : bool := negb (regid_empty (a_regid a)).

Section Perm.
  Variable pk_keyid : N -> N.
  (** [VerifySignature] under a public key, and [CheckFee]. *)
  Variable sig_ok : N -> bool.
  Variable fee_ok : bool.

  (** [CBaseTx::CheckBaseTx], tx.cpp:90-180. [fork] is the feature version at the height;
      an absent owner key makes the signature invalid. *)
  Definition check_base (fork ty : N) (u : uid) (st0 : txst) : bool :=
    let st := mkTx (t_acc st0) (t_reg st0) [] None (t_orders st0) in
    if existsb (N.eqb ty) [BLOCK_REWARD_TX; PRICE_MEDIAN_TX; UCOIN_MINT_TX;
                           UCOIN_BLOCK_REWARD_TX; CDP_FORCE_SETTLE_INTEREST_TX]
    then true else
    match get_account pk_keyid st u with
    | (None, _) => false
    | (Some k, st1) =>
        match fget N.eqb (t_mem st1) k with
        | None => false
        | Some a =>
            let signature_valid :=                                     (* lines 106-126 *)
              if fork <? 2 then true
              else
                match u with
                | UPub p => sig_ok p
                | _ =>
                    if a_perms a =? 0 then false
                    else if negb (is_registered a) then false
                    else match a_pubkey a with
                         | None => false
                         | Some p => sig_ok p
                         end
                end in
            let fee_valid :=                                           (* lines 133-139 *)
              if (ty =? LCONTRACT_DEPLOY_TX) || (ty =? LCONTRACT_INVOKE_TX) then true else fee_ok in
            let uid_valid :=                                           (* lines 142-152 *)
              if ty =? ACCOUNT_REGISTER_TX then true
              else if existsb (N.eqb ty) [LCONTRACT_DEPLOY_TX; ASSET_ISSUE_TX; UCONTRACT_DEPLOY_TX;
                                          PRICE_FEED_TX; DEX_TRADE_SETTLE_TX; PROPOSAL_APPROVAL_TX]
              then is_reg u
              else (if (fork =? 1) && negb (is_reg u) then false
                    else is_reg u || is_pub u) in
            let version_valid :=                                       (* lines 155-168 *)
              if existsb (N.eqb ty) [ACCOUNT_REGISTER_TX; BCOIN_TRANSFER_TX; LCONTRACT_DEPLOY_TX;
                                     LCONTRACT_INVOKE_TX; DELEGATE_VOTE_TX]
              then true
              else match available_from ty with Some v => v <=? fork | None => false end in
            let perm_valid :=                                          (* lines 171-177 *)
              match fget N.eqb tx_perm_map ty with
              | None => true
              | Some p => negb ((a_perms a =? 0) || (N.land (a_perms a) p =? 0))
              end in
            signature_valid && fee_valid && uid_valid && version_valid && perm_valid
        end
    end.

  (** [CAccountPermsClearTx::ExecuteTx], accountpermscleartx.cpp:21-24. *)
  Definition clear_perms (a : account) : account :=
    mkAccount (a_keyid a) (a_regid a) (a_pubkey a) (a_tokens a) (a_received_votes a)
      (a_last_vote_height a) (a_last_vote_epoch a) 0.

  (** [CGovAccountPermProposal::CheckProposal] and [ExecuteProposal],
      proposal.cpp:262-282: the whole set is replaced. *)
  Definition propose_perms (a : account) (proposed : N) : option account :=
    if (proposed =? 0) || (all_perms <? proposed) then None
    else Some (mkAccount (a_keyid a) (a_regid a) (a_pubkey a) (a_tokens a) (a_received_votes a)
      (a_last_vote_height a) (a_last_vote_epoch a) proposed).
End Perm.

(** [AssetHasPerms], asset.h:62-64. *)
Definition asset_has_perms (perms req : N) : bool := N.land perms req =? req.
