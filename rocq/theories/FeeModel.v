(** Model of the two fees that are split between the risk reserve and the block producers:
    the asset issue/update fee and the DEX-operator fee.

    Source: /repo/src/tx/assettx.cpp:33-113, /repo/src/tx/dexoperatortx.cpp:22-85. The
    parameters read from the governed-parameter cache ([fee], [ratio]), the reserve's
    registration id and the list of active delegates are arguments. *)
From Coq Require Import String List Bool NArith.
From Verif Require Import Prelude AccountModel TxModel.
Import ListNotations.
Open Scope N_scope.

(** [FAbort]: an [assert] fires (no active delegate). *)
Inductive fee_outcome := FOk (st : txst) | FFail | FAbort.

Section Fee.
  Variable pk_keyid : N -> N.

  (** [assetFee * assetRiskFeeRatio / RATIO_BOOST] in 64-bit arithmetic, assettx.cpp:65,
      dexoperatortx.cpp:48. *)
  Definition risk_part (fee ratio : N) : N := mul64 fee ratio / ratio_boost.

  (** The share of delegate [i] of [n], assettx.cpp:99-100, dexoperatortx.cpp:72-73. *)
  Definition miner_share (total n : N) (i : N) : N :=
    if i =? 0 then add64 (total / n) (total mod n) else total / n.

  (** The loop of [ProcessAssetFee], assettx.cpp:91-110. *)
  Fixpoint asset_fee_loop (sender total n i : N) (ds : list regid) (st : txst) : option txst :=
    match ds with
    | [] => Some st
    | d :: ds' =>
        match get_account pk_keyid st (UReg d) with
        | (None, _) => None
        | (Some k, st1) =>
            match m_operate st1 sender WICC SubFree (miner_share total n i) (Some k) with
            | (false, _) => None
            | (true, st2) => asset_fee_loop sender total n (i + 1) ds' st2
            end
        end
    end.

  (** [ProcessAssetFee], assettx.cpp:33-113. *)
  Definition process_asset_fee (sender fee ratio : N) (reserve : regid) (ds : list regid)
      (st : txst) : fee_outcome :=
    match fget N.eqb (t_mem st) sender with
    | None => FFail
    | Some a =>
        if free (get_token a WICC) <? fee then FFail else
        let risk := risk_part fee ratio in
        let total := sub64 fee risk in
        match get_account pk_keyid st (UReg reserve) with
        | (None, _) => FFail
        | (Some r, st1) =>
            match m_operate st1 sender WICC SubFree risk (Some r) with
            | (false, _) => FFail
            | (true, st2) =>
                match ds with
                | [] => FAbort
                | _ =>
                    match asset_fee_loop sender total (N.of_nat (List.length ds)) 0 ds st2 with
                    | None => FFail
                    | Some st3 => FOk st3
                    end
                end
            end
        end
    end.

  (** The loop of [ProcessDexOperatorFee], dexoperatortx.cpp:68-82. *)
  Fixpoint operator_fee_loop (total n i : N) (ds : list regid) (st : txst) : option txst :=
    match ds with
    | [] => Some st
    | d :: ds' =>
        match get_account pk_keyid st (UReg d) with
        | (None, _) => None
        | (Some k, st1) =>
            match m_operate st1 k WICC AddFree (miner_share total n i) None with
            | (false, _) => None
            | (true, st2) => operator_fee_loop total n (i + 1) ds' st2
            end
        end
    end.

  (** [ProcessDexOperatorFee], dexoperatortx.cpp:22-85. *)
  Definition process_operator_fee (sender fee ratio : N) (reserve : regid) (ds : list regid)
      (st : txst) : fee_outcome :=
    match m_operate st sender WICC SubFree fee None with
    | (false, _) => FFail
    | (true, st0) =>
        let risk := risk_part fee ratio in
        let total := sub64 fee risk in
        match get_account pk_keyid st0 (UReg reserve) with
        | (None, _) => FFail
        | (Some r, st1) =>
            match m_operate st1 r WICC AddFree risk None with
            | (false, _) => FFail
            | (true, st2) =>
                match ds with
                | [] => FAbort
                | _ =>
                    match operator_fee_loop total (N.of_nat (List.length ds)) 0 ds st2 with
                    | None => FFail
                    | Some st3 => FOk st3
                    end
                end
            end
        end
    end.
End Fee.
