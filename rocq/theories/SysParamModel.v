(** Model of the governed parameters: system parameters, CDP parameters, miner fees, the
    number of block producers, and the history of interest parameters.

    Source: /repo/src/persistence/sysparamdb.h, /repo/src/config/sysparams.h,
    /repo/src/config/scoin.h, /repo/src/entities/proposal.cpp:24-195,341-432.

    Simplifications: each cache is a finite map (theorem c01_layered_cache_is_a_map); the
    messages of [state.DoS] are dropped, a failed check is [false], a failed execution
    [None]; whether the account behind a registration id exists is an argument. *)
From Coq Require Import String List Bool NArith ZArith.
From Verif Require Import Prelude.
Import ListNotations.
Open Scope N_scope.

(** [CCdpCoinPair], scoin.h:163-185. *)
Notation coin_pair := (string * string)%type (only parsing).
Definition pair_eqb2 (a b : coin_pair) : bool :=
  String.eqb (fst a) (fst b) && String.eqb (snd a) (snd b).

(** Keys of the CDP parameter cache, sysparamdb.h:292, and of the miner-fee cache, 291. *)
Definition cdpkey_eqb (a b : coin_pair * N) : bool :=
  pair_eqb2 (fst a) (fst b) && (snd a =? snd b).
Definition feekey_eqb (a b : N * string) : bool :=
  (fst a =? fst b) && String.eqb (snd a) (snd b).

(** The caches of [CSysParamDBCache], sysparamdb.h:286-296, and the delegate cache's last
    vote height, which one system parameter also sets. *)
Record params := mkParams {
  p_sys : list (N * N);
  p_cdp : list (coin_pair * N * N);
  p_fee : list (N * string * N);
  p_int : list (coin_pair * list (Z * (N * N)));
  p_bps : N;                         (* current_total_bps_size_cache; 0 when empty *)
  p_newbps : N * N;                  (* new_total_bps_size_cache; (0, 0) when empty *)
  p_vote_height : N }.

(** [CCompositeKVCache::GetData] for integer values: zero is the empty value, and an empty
    value reads as absent; dbaccess.h:26,396-406, serialize.h:413-443. *)
Definition get_nz {K} (eqb : K -> K -> bool) (m : list (K * N)) (k : K) : option N :=
  match fget eqb m k with
  | Some v => if v =? 0 then None else Some v
  | None => None
  end.

(** [kSysParamTable] with defaults, sysparams.h:76-102. *)
Definition COIN : N := 100000000.
Definition sys_table : list (N * N) :=
  [ (1, 11); (2, 210000 * COIN); (3, 10); (6, 7200); (19, 550 * COIN); (21, 1100 * COIN);
    (22, 110 * COIN); (23, 1200); (24, 2); (25, 0); (26, 4000); (27, 4000); (28, 20);
    (50, 21000 * COIN); (29, 8); (51, 0); (101, 0); (102, 20000000) ].

(** [sysParamRangeTable], sysparams.h:104-127; (0, 0) means unrestricted. *)
Definition sys_range : list (N * (N * N)) :=
  [ (1, (1, 1000)); (2, (0, 0)); (3, (0, 0)); (6, (0, 0)); (19, (0, 0)); (21, (0, 0));
    (22, (0, 0)); (23, (100, two64 - 1)); (24, (0, 5000)); (25, (0, 5000)); (26, (0, 10000));
    (27, (0, 10000)); (28, (0, 1000)); (50, (0, 0)); (29, (0, 0)); (51, (0, 0)); (101, (0, 0));
    (102, (0, 0)) ].

(** [kCdpParamTable] and [kCdpParamRangeTable], scoin.h:87-114. *)
Definition START_COLLATERAL : N := 4.   Definition START_LIQUIDATE : N := 5.
Definition FORCE_LIQUIDATE : N := 7.    Definition LIQUIDATE_DISCOUNT : N := 8.
Definition INTEREST_A : N := 10.        Definition INTEREST_B : N := 11.
Definition cdp_table : list (N * N) :=
  [ (2, 52500000); (3, 8000); (4, 19000); (5, 15000); (6, 11300); (7, 10400); (8, 9700);
    (9, 90000000); (10, 2); (11, 1); (13, 30) ].
Definition cdp_range : list (N * (N * N)) :=
  [ (2, (0, 210000000)); (3, (0, 1000000)); (4, (10000, 1000000)); (5, (10000, 100000));
    (6, (10000, 100000)); (7, (0, 20000)); (8, (0, 10000)); (9, (0, 0)); (10, (0, 0));
    (11, (1, 100000000)); (13, (0, 3650)) ].

(** [CheckSysParamValue], sysparams.h:130-144, and [CheckCdpParamValue], scoin.h:116-138. *)
Definition check_range (t : list (N * (N * N))) (ty v : N) : bool :=
  match fget N.eqb t ty with
  | None => false
  | Some (lo, hi) =>
      if (lo =? 0) && (hi =? 0) then true else negb ((v <? lo) || (hi <? v))
  end.

(** [GetParam], sysparamdb.h:60-73. *)
Definition get_param (p : params) (ty : N) : option N :=
  match fget N.eqb sys_table ty with
  | None => None
  | Some d => Some (match get_nz N.eqb (p_sys p) ty with Some v => v | None => d end)
  end.

(** [GetCdpParam], sysparamdb.h:75-89. *)
Definition get_cdp_param (p : params) (cp : coin_pair) (ty : N) : option N :=
  match fget N.eqb cdp_table ty with
  | None => None
  | Some d => Some (match get_nz cdpkey_eqb (p_cdp p) (cp, ty) with Some v => v | None => d end)
  end.

(** [GetMinerFee], sysparamdb.h:226-235. *)
Definition get_miner_fee (p : params) (ty : N) (s : string) : option N :=
  get_nz feekey_eqb (p_fee p) (ty, s).

(** [SetParam], [SetCdpParam], [SetMinerFee], sysparamdb.h:134-147. *)
Definition set_param (p : params) (ty v : N) : params :=
  mkParams (fput N.eqb (p_sys p) ty v) (p_cdp p) (p_fee p) (p_int p) (p_bps p) (p_newbps p)
    (p_vote_height p).
Definition set_cdp_param (p : params) (cp : coin_pair) (ty v : N) : params :=
  mkParams (p_sys p) (fput cdpkey_eqb (p_cdp p) (cp, ty) v) (p_fee p) (p_int p) (p_bps p)
    (p_newbps p) (p_vote_height p).
Definition set_miner_fee (p : params) (ty : N) (s : string) (v : N) : params :=
  mkParams (p_sys p) (p_cdp p) (fput feekey_eqb (p_fee p) (ty, s) v) (p_int p) (p_bps p)
    (p_newbps p) (p_vote_height p).
Definition set_vote_height (p : params) (h : N) : params :=
  mkParams (p_sys p) (p_cdp p) (p_fee p) (p_int p) (p_bps p) (p_newbps p) h.

(** [map<CVarIntValue<int32_t>, CCdpInterestParams>]: ascending heights. *)
Fixpoint change_put (m : list (Z * (N * N))) (h : Z) (ab : N * N) : list (Z * (N * N)) :=
  match m with
  | [] => [(h, ab)]
  | (h', ab') :: m' =>
      if (h =? h')%Z then (h, ab) :: m'
      else if (h <? h')%Z then (h, ab) :: m
      else (h', ab') :: change_put m' h ab
  end.

Definition get_changes (p : params) (cp : coin_pair) : list (Z * (N * N)) :=
  match fget pair_eqb2 (p_int p) cp with Some m => m | None => [] end.

(** [SetCdpInterestParam], sysparamdb.h:149-171. [None]: the assertion on the type. *)
Definition set_interest_param (p : params) (cp : coin_pair) (ty : N) (h : Z) (v : N)
  : option params :=
  let put ab :=
    Some (mkParams (p_sys p) (p_cdp p) (p_fee p)
            (fput pair_eqb2 (p_int p) cp (change_put (get_changes p cp) h ab))
            (p_bps p) (p_newbps p) (p_vote_height p)) in
  if ty =? INTEREST_A then
    match get_cdp_param p cp INTEREST_B with Some b => put (v, b) | None => None end
  else if ty =? INTEREST_B then
    match get_cdp_param p cp INTEREST_A with Some a => put (a, v) | None => None end
  else None.

(** [CCdpInterestParamChange], sysparamdb.h:36-41. *)
Record period := mkPeriod { d_from : Z; d_to : Z; d_a : N; d_b : N }.

(** The first loop of [GetCdpInterestParamChanges], sysparamdb.h:180-188: the last change at
    or before the begin height and the changes after it. *)
Fixpoint find_begin (b : Z) (cur : option (N * N)) (m : list (Z * (N * N)))
  : option (N * N) * list (Z * (N * N)) :=
  match m with
  | [] => (cur, [])
  | (h, ab) :: m' => if (b <? h)%Z then (cur, m) else find_begin b (Some ab) m'
  end.

(** The second loop, 209-221: closes the open period at each change up to the end height. *)
Fixpoint periods_from (start : Z) (ab : N * N) (rest : list (Z * (N * N))) (e : Z)
  : list period :=
  match rest with
  | [] => [mkPeriod start e (fst ab) (snd ab)]
  | (h, ab') :: rest' =>
      if (e <? h)%Z then [mkPeriod start e (fst ab) (snd ab)]
      else mkPeriod start (h - 1) (fst ab) (snd ab) :: periods_from h ab' rest' e
  end.

(** [GetCdpInterestParamChanges], sysparamdb.h:173-224. *)
Definition get_interest_changes (p : params) (cp : coin_pair) (b e : Z) : list period :=
  let '(cur, rest) := find_begin b None (get_changes p cp) in
  let ab := match cur with
            | Some ab => ab
            | None => (match fget N.eqb cdp_table INTEREST_A with Some v => v | None => 0 end,
                       match fget N.eqb cdp_table INTEREST_B with Some v => v | None => 0 end)
            end in
  periods_from b ab rest e.

(** [SetNewTotalBpsSize], [SetCurrentTotalBpsSize], [GetTotalBpsSize], sysparamdb.h:258-281.
    [ini] is the configured number of delegates. *)
Definition get_total_bps (ini : N) (p : params) (height : N) : N :=
  let cur := if p_bps p =? 0 then ini else p_bps p in
  if (fst (p_newbps p) =? 0) && (snd (p_newbps p) =? 0) then cur
  else if fst (p_newbps p) <=? height then snd (p_newbps p)
  else cur.
Definition set_bps (p : params) (cur : N) (new : N * N) : params :=
  mkParams (p_sys p) (p_cdp p) (p_fee p) (p_int p) cur new (p_vote_height p).

Section Proposals.
  (** Does the (non-empty) registration id with this integer value belong to an account? *)
  Variable regid_exists : N -> bool.
  (** The fork version at a height, the fee symbols and the transaction types whose miner fee
      may be changed (const.h, txbase.h). *)
  Variable version_at : N -> N.
  Variable fee_symbol_ok : string -> bool.
  Variable fee_updatable : N -> bool.
  Variable ini_bps : N.

  (** [CGovSysParamProposal::CheckProposal], proposal.cpp:24-60. MAJOR_VER_R3_5 is the
      fourth version. *)
  Definition check_sys_item (height : N) (tv : N * N) : bool :=
    let '(ty, v) := tv in
    match fget N.eqb sys_table ty with
    | None => false
    | Some _ =>
        negb ((version_at height <? 4) && ((ty =? 101) || (ty =? 102))) &&
        check_range sys_range ty v &&
        (if (ty =? 29) || (ty =? 51) || (ty =? 101) then regid_exists v else true)
    end.
  Definition check_sys (height : N) (l : list (N * N)) : bool :=
    negb (Nat.eqb (List.length l) 0) && Nat.leb (List.length l) 50 &&
    forallb (check_sys_item height) l.

  (** [CGovSysParamProposal::ExecuteProposal], proposal.cpp:62-79. *)
  Definition exec_sys (height : N) (l : list (N * N)) (p : params) : params :=
    fold_left (fun p tv =>
      let p1 := set_param p (fst tv) (snd tv) in
      if fst tv =? 50 then set_vote_height p1 height else p1) l p.

  (** [CGovMinerFeeProposal], proposal.cpp:162-195. *)
  Definition check_fee_proposal (ty : N) (s : string) (v : N) : bool :=
    fee_symbol_ok s && fee_updatable ty && negb (v =? 0).
  Definition exec_fee_proposal (ty : N) (s : string) (v : N) (p : params) : params :=
    set_miner_fee p ty s v.

  (** [CGovBpSizeProposal], proposal.cpp:121-160, at its approval. *)
  Definition check_bps_proposal (size : N) : bool := negb (size =? 0).
  Definition exec_bps_proposal (height size effective : N) (p : params) : params :=
    set_bps p (get_total_bps ini_bps p height) (effective, size).

  (** [CGovCdpParamProposal::CheckProposal], proposal.cpp:341-411: the stored ratios with the
      one proposed value replaced. *)
  Definition ratio_relation (sc sl fl ld : N) : bool :=
    negb ((sc <=? sl) || (sl <=? fl) || (sc <=? fl)) &&
    negb (mul64 fl ld <? 10000 * 10000).
  Definition is_ratio (ty : N) : bool :=
    (ty =? START_COLLATERAL) || (ty =? START_LIQUIDATE) || (ty =? FORCE_LIQUIDATE) ||
    (ty =? LIQUIDATE_DISCOUNT).
  Definition check_cdp_item (p : params) (cp : coin_pair) (tv : N * N) : bool :=
    let '(ty, v) := tv in
    match fget N.eqb cdp_table ty with
    | None => false
    | Some _ =>
        check_range cdp_range ty v &&
        (if is_ratio ty then
           match get_cdp_param p cp START_COLLATERAL, get_cdp_param p cp START_LIQUIDATE,
                 get_cdp_param p cp FORCE_LIQUIDATE, get_cdp_param p cp LIQUIDATE_DISCOUNT with
           | Some sc, Some sl, Some fl, Some ld =>
               ratio_relation (if ty =? START_COLLATERAL then v else sc)
                              (if ty =? START_LIQUIDATE then v else sl)
                              (if ty =? FORCE_LIQUIDATE then v else fl)
                              (if ty =? LIQUIDATE_DISCOUNT then v else ld)
           | _, _, _, _ => false
           end
         else true)
    end.
  Definition check_cdp (p : params) (cp : coin_pair) (l : list (N * N)) : bool :=
    negb (Nat.eqb (List.length l) 0) && Nat.leb (List.length l) 50 &&
    forallb (check_cdp_item p cp) l.

  (** [CGovCdpParamProposal::ExecuteProposal], proposal.cpp:413-432. *)
  Definition exec_cdp_item (cp : coin_pair) (height : Z) (p : params) (tv : N * N)
    : option params :=
    let '(ty, v) := tv in
    match fget N.eqb cdp_table ty with
    | None => None
    | Some _ =>
        let p1 := set_cdp_param p cp ty v in
        if (ty =? INTEREST_A) || (ty =? INTEREST_B)
        then set_interest_param p1 cp ty height v
        else Some p1
    end.
  Fixpoint exec_cdp (cp : coin_pair) (height : Z) (l : list (N * N)) (p : params)
    : option params :=
    match l with
    | [] => Some p
    | tv :: l' =>
        match exec_cdp_item cp height p tv with
        | None => None
        | Some p' => exec_cdp cp height l' p'
        end
    end.
End Proposals.
