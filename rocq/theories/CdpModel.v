(** Model of collateralised debt positions (CDPs): opening, adding, redeeming, liquidating,
    settling interest, forced liquidation, and the indexes.

    Source: /repo/src/entities/cdp.h, cdp.cpp, /repo/src/persistence/cdpdb.cpp,
    /repo/src/tx/cdptx.cpp, /repo/src/tx/blockpricemediantx.cpp.

    Simplifications: caches are finite maps (c01_layered_cache_is_a_map); accounts are changed
    directly in the ledger (c50_transaction_acts_on_ledger). The maps of assets to stake and to
    redeem have one entry each, others are refused (cdptx.cpp:175-177, 410-413). Fees and the
    registration of the sender (tx.cpp:192-198) are part of [CElse]. Records of closed positions
    (option -persistclosedcdp) and the special case of the test network below height 1800000
    (blockpricemediantx.cpp:321-326) are left out. Heights are not negative. Entries of an index
    with the same ratio and height come in the order of their ids as numbers.

    Three results of [OperateBalance] are ignored by the code (cdptx.cpp:320, 948,
    blockpricemediantx.cpp:352). The model rejects there, which is the same: ADD_FREE without
    another account never fails (account.cpp:48-66), and the SUB_FREE follows a check that the
    balance is enough (blockpricemediantx.cpp:336-341). *)
From Coq Require Import String List Bool NArith ZArith.
From Verif Require Import Prelude AccountModel DexModel DoubleModel.
Import ListNotations.
Open Scope N_scope.

(** [CCdpCoinPair], scoin.h:163-197: collateral and stable coin. *)
Notation cpair := (string * string)%type (only parsing).
Definition cpair_eqb (a b : string * string) : bool := pair_eqb String.eqb String.eqb a b.

(** [CUserCDP], cdp.h:66-73; the id 0 is the empty one (cdp.h:156). *)
Record cdp := mkCdp {
  c_id : N; c_owner : regid; c_height : N; c_bcoin : string; c_scoin : string;
  c_staked : N; c_owed : N }.
Definition pair_of (c : cdp) : string * string := (c_bcoin c, c_scoin c).

Notation ratio_key := (((string * string) * N) * (N * N))%type (only parsing).
Notation height_key := ((string * string) * (N * N))%type (only parsing).
Definition ratio_eqb (a b : ((string * string) * N) * (N * N)) : bool :=
  pair_eqb (pair_eqb cpair_eqb N.eqb) (pair_eqb N.eqb N.eqb) a b.
Definition height_eqb (a b : (string * string) * (N * N)) : bool :=
  pair_eqb cpair_eqb (pair_eqb N.eqb N.eqb) a b.
Definition user_eqb (a b : regid * (string * string)) : bool := pair_eqb regid_eqb cpair_eqb a b.

(** What CDPs work on; [CCdpDBCache], cdpdb.h:98-110. *)
Record cstate := mkC {
  c_dex : dstate;                                        (* accounts and orders *)
  c_cdps : list (N * cdp);                               (* cdp_cache *)
  c_user : list ((regid * (string * string)) * N);       (* user_cdp_cache *)
  c_ratio : list ((((string * string) * N) * (N * N)) * cdp);  (* cdp_ratio_index_cache *)
  c_heights : list (((string * string) * (N * N)) * cdp);      (* cdp_height_index_cache *)
  c_totals : list ((string * string) * (N * N)) }.       (* cdp_global_data_cache *)

Definition set_dex (st : cstate) (d : dstate) : cstate :=
  mkC d (c_cdps st) (c_user st) (c_ratio st) (c_heights st) (c_totals st).

(** [CdpParamType], scoin.h:49-63, those used here. *)
Inductive cparam :=
| PCeiling | PGlobalMin | PStart | PStartLiquidate | PNonReturn | PForce | PDiscount | PMinStake
| PDays.

(** The block and what it reads from the rest of the state: the exchange's part, whether it is
    the test network, governed parameters (reading never fails, c47_cdp_read), the median price
    of the collateral of a pair and whether it is recent (cdptx.cpp:41-44), the assets allowed as
    collateral, blocks per day. *)
Record cenv := mkCenv {
  e_dex : denv; e_testnet : bool; e_param : (string * string) -> cparam -> N;
  e_price : (string * string) -> N * bool; e_bcoin_ok : string -> bool; e_day : N }.
Definition e_height (e : cenv) : N := fst (n_cord (e_dex e)).
Definition e_r3 (e : cenv) : bool := n_r3 (e_dex e).

(** [GetBcoinMedianPrice], cdptx.cpp:27-51; the stable coin is WUSD, its quote USD. *)
Definition price_of (e : cenv) (p : string * string) : outcome N :=
  let x := e_price e p in
  do _ <- guard (negb (fst x =? 0) && snd x); Done (fst x).

Definition MAX64 : N := two64 - 1.
Definition RATIO_BOOST : N := 10000.           (* const.h:128 *)
Definition COIN : N := 100000000.              (* const.h:129 *)
Definition FORCE_MAX : N := 1000.              (* scoin.h:32 *)
Definition SETTLE_MAX : N := 100.              (* scoin.h:33 *)
Definition PENALTY_MIN : N := 10.              (* scoin.h:35 *)

Section Cdp.
  (** What converting a [double] that does not fit to [uint64_t] gives: undefined in C++. *)
  Variable junk : double -> N.
  (** The interest of a debt between two heights (cdptx.cpp:124-169), for a debt that is not
      zero; periods and rates are c48_periods_ok, the formula uses log10. *)
  Variable interest : (string * string) -> N -> N -> N -> N.
  (** Ids of orders: for settled interest (cdptx.cpp:951-953), for forced liquidation
      (blockpricemediantx.cpp:458-463). *)
  Variable interest_order : N -> N -> N.
  Variable sell_order : N -> string -> N.

  Definition cast (x : double) : N :=
    match to_u64 x with Some n => n | None => junk x mod two64 end.

  (** [ComputeCollateralRatioBase], cdp.h:130-138. *)
  Definition ratio_base (c : cdp) : double :=
    if negb (c_staked c =? 0) && (c_owed c =? 0) then of_N MAX64
    else if (c_staked c =? 0) || (c_owed c =? 0) then of_N 0
    else ddiv (of_N (c_staked c)) (of_N (c_owed c)).

  (** [CUserCDP::GetCollateralRatio], cdp.h:140-146. *)
  Definition cdp_ratio (c : cdp) (price : N) : N :=
    let b := ratio_base c in
    if negb (dlt b (of_N MAX64)) && negb (dlt (of_N MAX64) b) then MAX64
    else cast (dmul (dmul (ddiv (of_N price) (of_N PRICE_BOOST)) b) (of_N RATIO_BOOST)).

  (** [CalcCollateralRatio], cdptx.cpp:113-117, and [CCdpGlobalData::GetCollateralRatio],
      cdp.h:198-205. *)
  Definition calc_ratio (assets scoins price : N) : N :=
    if scoins =? 0 then MAX64
    else cast (dmul (ddiv (ddiv (dmul (of_N assets) (of_N price)) (of_N PRICE_BOOST)) (of_N scoins))
                    (of_N RATIO_BOOST)).

  (** ** Indexes *)

  (** [MakeCdpRatioIndexKey], [MakeCdpHeightIndexKey], cdpdb.cpp:200-210. *)
  Definition ratio_number (c : cdp) : N :=
    let boosted := cast (dmul (ratio_base c) (of_N PRICE_BOOST)) in
    if dlt (of_N boosted) (ratio_base c) then MAX64 else boosted.
  Definition ratio_index (c : cdp) : ratio_key :=
    ((pair_of c, ratio_number c), (c_height c, c_id c)).
  Definition height_index (c : cdp) : height_key := (pair_of c, (c_height c, c_id c)).

  (** [GetCdpGlobalData], cdpdb.cpp:129-133. *)
  Definition totals (st : cstate) (p : string * string) : N * N :=
    match fget cpair_eqb (c_totals st) p with Some x => x | None => (0, 0) end.

  (** [SaveCdpIndexData], [EraseCdpIndexData], cdpdb.cpp:77-110. *)
  Definition save_index (st : cstate) (c : cdp) : cstate :=
    let t := totals st (pair_of c) in
    mkC (c_dex st) (c_cdps st) (c_user st)
      (fput ratio_eqb (c_ratio st) (ratio_index c) c)
      (fput height_eqb (c_heights st) (height_index c) c)
      (fput cpair_eqb (c_totals st) (pair_of c)
         (add64 (fst t) (c_staked c), add64 (snd t) (c_owed c))).
  Definition erase_index (st : cstate) (c : cdp) : cstate :=
    let t := totals st (pair_of c) in
    mkC (c_dex st) (c_cdps st) (c_user st)
      (fdel ratio_eqb (c_ratio st) (ratio_index c))
      (fdel height_eqb (c_heights st) (height_index c))
      (fput cpair_eqb (c_totals st) (pair_of c)
         (sub64 (fst t) (c_staked c), sub64 (snd t) (c_owed c))).

  Definition set_cdps (st : cstate) (m : list (N * cdp)) : cstate :=
    mkC (c_dex st) m (c_user st) (c_ratio st) (c_heights st) (c_totals st).
  Definition set_user (st : cstate) (m : list ((regid * (string * string)) * N)) : cstate :=
    mkC (c_dex st) (c_cdps st) m (c_ratio st) (c_heights st) (c_totals st).

  (** [NewCDP], [EraseCDP], [UpdateCDP], cdpdb.cpp:25-41. *)
  Definition new_cdp (st : cstate) (c : cdp) : cstate :=
    save_index
      (set_user (set_cdps st (fput N.eqb (c_cdps st) (c_id c) c))
         (fput user_eqb (c_user st) (c_owner c, pair_of c) (c_id c))) c.
  Definition erase_cdp (st : cstate) (old c : cdp) : cstate :=
    erase_index
      (set_user (set_cdps st (fdel N.eqb (c_cdps st) (c_id c)))
         (fdel user_eqb (c_user st) (c_owner c, pair_of c))) old.
  Definition updated (st : cstate) (old c : cdp) : cstate :=
    save_index (erase_index (set_cdps st (fput N.eqb (c_cdps st) (c_id c) c)) old) c.
  Definition update_cdp (st : cstate) (old c : cdp) : outcome cstate :=
    do _ <- asserted (negb (c_id c =? 0)); Done (updated st old c).

  (** [AddStake], [Redeem], [PartialLiquidate], cdp.cpp:31-57, with their assertions. *)
  Definition resized (c : cdp) (height staked owed : N) : cdp :=
    mkCdp (c_id c) (c_owner c) height (c_bcoin c) (c_scoin c) staked owed.
  Definition add_stake (c : cdp) (height b s : N) : outcome cdp :=
    do _ <- asserted (c_staked c <=? add64 (c_staked c) b);
    do _ <- asserted (c_owed c <=? add64 (c_owed c) s);
    Done (resized c height (add64 (c_staked c) b) (add64 (c_owed c) s)).
  Definition take_out (c : cdp) (height b s : N) : outcome cdp :=
    do _ <- asserted (b <=? c_staked c);
    do _ <- asserted (s <=? c_owed c);
    Done (resized c height (c_staked c - b) (c_owed c - s)).

  (** ** Money *)

  (** [OperateBalance], the account of the reserve, and a system order; see DexModel.v. *)
  Definition cop (st : cstate) (who : N) (s : string) (o : balance_op) (v : N) (other : option N)
    : outcome cstate :=
    do d <- op (c_dex st) who s o v other; Done (set_dex st d).
  Definition reserve_of (e : cenv) (st : cstate) : outcome N :=
    need (holder (c_dex st) (n_reserve (e_dex e))).
  Definition cplace (e : cenv) (st : cstate) (id : N) (sd : oside) (coin asset : string)
      (amount : N) : outcome cstate :=
    do d <- create_order (c_dex st) id (sys_order (e_dex e) sd coin asset amount);
    Done (set_dex st d).
  Definition free_of (st : cstate) (k : N) (s : string) : N :=
    match l_get (d_ledger (c_dex st)) k with Some a => free (get_token a s) | None => 0 end.

  (** [SellInterestForFcoins], cdptx.cpp:77-109. *)
  Definition sell_interest (e : cenv) (st : cstate) (c : cdp) (k id v : N) : outcome cstate :=
    if v =? 0 then Done st
    else
      do f <- reserve_of e st;
      do st1 <- cop st k (c_scoin c) SubFree v (Some f);
      do st2 <- cop st1 f "WUSD" Freeze v None;
      cplace e st2 id Buy (c_scoin c) "WGRT" v.

  Definition interest_of (p : string * string) (owed from to : N) : N :=
    if owed =? 0 then 0 else interest p owed from to mod two64.

  (** The least collateral a position may have, cdptx.cpp:275-282, 514-521, 787-793. *)
  Definition min_stake (e : cenv) (p : string * string) (price : N) : N :=
    cast (ddiv (of_N (e_param e p PMinStake)) (ddiv (of_N price) (of_N PRICE_BOOST))).

  (** ** Opening and adding *)

  Record stake_tx := mkStake {
    s_id : N; s_sender : N; s_cdp : N;   (* 0: a new position *)
    s_asset : string; s_amount : N; s_scoin : string; s_mint : N }.

  (** [CCDPStakeTx::CheckTx], cdptx.cpp:172-190. *)
  Definition check_stake (e : cenv) (t : stake_tx) : bool :=
    String.eqb (s_scoin t) "WUSD"
    && negb (String.eqb (s_asset t) "WGRT" || String.eqb (s_asset t) "WUSD"
             || negb (e_bcoin_ok e (s_asset t))).

  (** The checks of [ExecuteTx] against the totals, cdptx.cpp:210-233, and cdp.h:214-217. *)
  Definition global_ok (e : cenv) (st : cstate) (p : string * string) (price amount : N) : bool :=
    let t := totals st p in
    (e_testnet e || negb (calc_ratio (fst t) (snd t) price <? e_param e p PGlobalMin))
    && negb (mul64 (e_param e p PCeiling) COIN <? add64 amount (fst t)).

  (** A new position, cdptx.cpp:247-286; the order of the checks does not matter. *)
  Definition open_cdp (e : cenv) (st : cstate) (t : stake_tx) (owner : regid) (price : N)
    : outcome cstate :=
    let p := (s_asset t, s_scoin t) in
    do _ <- guard (negb (s_amount t =? 0) && negb (s_mint t =? 0));
    do _ <- guard (negb (fmem user_eqb (c_user st) (owner, p)));
    do _ <- guard (e_param e p PStart <=? calc_ratio (s_amount t) (s_mint t) price);
    do _ <- guard (min_stake e p price <=? s_amount t);
    Done (new_cdp st (mkCdp (s_id t) owner (e_height e) (s_asset t) (s_scoin t)
                        (s_amount t) (s_mint t))).

  (** More on an existing one, cdptx.cpp:287-348. *)
  Definition extend_cdp (e : cenv) (st : cstate) (t : stake_tx) (id : N) (owner : regid)
      (price : N) : outcome cstate :=
    let p := (s_asset t, s_scoin t) in
    do c <- need (fget N.eqb (c_cdps st) id);
    do _ <- guard (String.eqb (s_asset t) (c_bcoin c));
    do _ <- guard (regid_eqb owner (c_owner c));
    do _ <- guard (c_height c <=? e_height e);
    let i := interest_of p (c_owed c) (c_height c) (e_height e) in
    let own := free_of st (s_sender t) (s_scoin t) in
    let gift := if e_r3 e && (own <? i) then i - own else 0 in
    do st1 <- (if e_r3 e && (own <? i) then cop st (s_sender t) (s_scoin t) AddFree gift None
               else Done st);
    let new_mint := add64 (s_mint t) gift in
    let part := calc_ratio (s_amount t) new_mint price in
    let whole := calc_ratio (add64 (c_staked c) (s_amount t)) (add64 (c_owed c) new_mint) price in
    do _ <- guard (negb ((part <? e_param e p PStart) && (whole <? e_param e p PStart)));
    do st2 <- sell_interest e st1 c (s_sender t) (s_id t) i;
    do c' <- add_stake c (e_height e) (s_amount t) (s_mint t);
    update_cdp st2 c c'.

  (** [CCDPStakeTx::ExecuteTx], cdptx.cpp:192-361. *)
  Definition stake (e : cenv) (st : cstate) (t : stake_tx) : outcome cstate :=
    let p := (s_asset t, s_scoin t) in
    do a <- need (l_get (d_ledger (c_dex st)) (s_sender t));
    do _ <- guard (negb (regid_empty (a_regid a)));
    do _ <- guard (check_stake e t);
    do price <- price_of e p;
    do _ <- guard (global_ok e st p price (s_amount t));
    do st1 <- (if s_cdp t =? 0 then open_cdp e st t (a_regid a) price
               else extend_cdp e st t (s_cdp t) (a_regid a) price);
    do st2 <- cop st1 (s_sender t) (s_asset t) Pledge (s_amount t) None;
    cop st2 (s_sender t) (s_scoin t) AddFree (s_mint t) None.

  (** ** Redeeming *)

  Record redeem_tx := mkRedeem {
    r_id : N; r_sender : N; r_cdp : N; r_repay : N; r_asset : string; r_assets : N }.

  (** [CheckGlobalCollateralRatioFloorReached], cdp.h:208-211. *)
  Definition floor_reached (e : cenv) (st : cstate) (p : string * string) (price : N) : bool :=
    let t := totals st p in calc_ratio (fst t) (snd t) price <? e_param e p PGlobalMin.

  (** The checks after taking collateral out, cdptx.cpp:503-525. *)
  Definition redeemed_ok (e : cenv) (c' : cdp) (b price : N) : bool :=
    let p := pair_of c' in
    (b =? 0) || ((e_param e p PStart <=? cdp_ratio c' price) && (min_stake e p price <=? c_staked c')).

  (** [CCDPRedeemTx::CheckTx], [ExecuteTx], cdptx.cpp:390-398, 400-545. *)
  Definition redeem (e : cenv) (st : cstate) (t : redeem_tx) : outcome cstate :=
    do _ <- guard (negb (r_cdp t =? 0));
    do a <- need (l_get (d_ledger (c_dex st)) (r_sender t));
    do _ <- guard (negb (regid_empty (a_regid a)));
    do c <- need (fget N.eqb (c_cdps st) (r_cdp t));
    do _ <- guard (String.eqb (r_asset t) (c_bcoin c));
    do _ <- guard (regid_eqb (a_regid a) (c_owner c));
    let p := pair_of c in
    do price <- price_of e p;
    do _ <- guard (negb (floor_reached e st p price));
    do _ <- guard (c_height c <=? e_height e);
    let i := interest_of p (c_owed c) (c_height c) (e_height e) in
    do st1 <- sell_interest e st c (r_sender t) (r_id t) i;
    let b := N.min (r_assets t) (c_staked c) in
    let s := N.min (r_repay t) (c_owed c) in
    do _ <- guard (r_repay t <=? free_of st1 (r_sender t) (c_scoin c));
    do c' <- take_out c (e_height e) b s;
    do st2 <- (if (c_owed c' =? 0) && (c_staked c' =? 0) then Done (erase_cdp st1 c c')
               else do _ <- guard (redeemed_ok e c' b price); update_cdp st1 c c');
    do st3 <- cop st2 (r_sender t) (c_scoin c) SubFree s None;
    cop st3 (r_sender t) (c_bcoin c) Unpledge b None.

  (** ** Liquidating *)

  Record liquidate_tx := mkLiquidate {
    q_id : N; q_sender : N; q_cdp : N; q_asset : string; q_scoins : N }.

  (** What closing a position takes, cdptx.cpp:653-692: collateral for the liquidator and for
      the owner, stable coins to pay, the part of them that goes to the reserve. *)
  Record terms_of_closing := mkTerms { k_liquidator : N; k_owner : N; k_scoins : N; k_penalty : N }.
  Definition closing_terms (e : cenv) (c : cdp) (price : N) : outcome terms_of_closing :=
    let p := pair_of c in
    let r := cdp_ratio c price in
    do _ <- guard (negb (e_param e p PStartLiquidate <? r));
    if e_param e p PNonReturn <? r then
      let part := ddiv (dmul (of_N (c_owed c)) (of_N (e_param e p PNonReturn))) (of_N RATIO_BOOST) in
      let b := cast (ddiv part (ddiv (of_N price) (of_N PRICE_BOOST))) in
      do _ <- asserted (b <=? c_staked c);
      let s := cast (ddiv (dmul part (of_N (e_param e p PDiscount))) (of_N RATIO_BOOST)) in
      Done (mkTerms b (c_staked c - b) s (sub64 s (c_owed c)))
    else if e_param e p PForce <? r then
      let s := cast (ddiv (dmul (dmul (of_N (c_staked c)) (ddiv (of_N price) (of_N PRICE_BOOST)))
                             (of_N (e_param e p PDiscount))) (of_N RATIO_BOOST)) in
      Done (mkTerms (c_staked c) 0 s (sub64 s (c_owed c)))
    else Done (mkTerms (c_staked c) 0 (c_owed c) 0).

  (** [ProcessPenaltyFees], cdptx.cpp:834-874. *)
  Definition penalty (e : cenv) (st : cstate) (c : cdp) (id v : N) : outcome cstate :=
    if v =? 0 then Done st
    else
      do f <- reserve_of e st;
      do st1 <- cop st f (c_scoin c) AddFree v None;
      if negb (e_r3 e) && (v <=? PENALTY_MIN) then Done st1
      else
        let x := v - v / 2 in
        do st2 <- cop st1 f (c_scoin c) Freeze x None;
        cplace e st2 id Buy (c_scoin c) "WGRT" x.

  (** The money of a liquidation: [s] stable coins paid, [b] collateral to the liquidator, [o] to
      the owner, cdptx.cpp:695-723 and 748-777. *)
  Definition hand_over (st : cstate) (k owner : N) (c : cdp) (s b o : N) : outcome cstate :=
    do st1 <- cop st k (c_scoin c) SubFree s None;
    do st2 <- cop st1 k (c_bcoin c) AddFree b None;
    do st3 <- cop st2 owner (c_bcoin c) Unpledge b None;
    do st4 <- cop st3 owner (c_bcoin c) SubFree b None;
    cop st4 owner (c_bcoin c) Unpledge o None.

  (** A part of an amount. *)
  Definition part_of (x : N) (rate : double) : N := cast (dmul (of_N x) rate).

  (** [CCDPLiquidateTx::CheckTx], [ExecuteTx], cdptx.cpp:568-579, 597-812. *)
  Definition liquidate (e : cenv) (st : cstate) (t : liquidate_tx) : outcome cstate :=
    do _ <- guard (negb (q_scoins t =? 0) && negb (q_cdp t =? 0));
    do a <- need (l_get (d_ledger (c_dex st)) (q_sender t));
    do _ <- guard (negb (regid_empty (a_regid a)));
    do c <- need (fget N.eqb (c_cdps st) (q_cdp t));
    do _ <- guard (String.eqb (q_asset t) "" || String.eqb (q_asset t) (c_bcoin c));
    let p := pair_of c in
    do _ <- guard (q_scoins t <=? free_of st (q_sender t) (c_scoin c));
    do price <- price_of e p;
    do _ <- guard (negb (floor_reached e st p price));
    do owner <- need (holder (c_dex st) (c_owner c));
    do k <- closing_terms e c price;
    if k_scoins k <=? q_scoins t then
      do st1 <- hand_over st (q_sender t) owner c (k_scoins k) (k_liquidator k) (k_owner k);
      do st2 <- penalty e st1 c (q_id t) (k_penalty k);
      Done (erase_cdp st2 c c)
    else
      let rate := ddiv (of_N (q_scoins t)) (of_N (k_scoins k)) in
      do _ <- asserted (dlt rate (of_N 1));
      let b := part_of (k_liquidator k) rate in
      let o := part_of (k_owner k) rate in
      let s := part_of (c_owed c) rate in
      do st1 <- hand_over st (q_sender t) owner c (q_scoins t) b o;
      do _ <- asserted (s <? c_owed c);
      do _ <- asserted (add64 b o <? c_staked c);
      do c' <- take_out c (c_height c) (add64 b o) s;
      do _ <- guard (min_stake e p price <=? c_staked c');
      do st2 <- penalty e st1 c' (q_id t) (sub64 (q_scoins t) s);
      update_cdp st2 c c'.

  (** ** Settling interest *)

  (** [CdpNeedSettleInterest], cdptx.cpp:72-75. *)
  Definition due (e : cenv) (p : string * string) (last now : N) : bool :=
    (last <? now) && (mul64 (e_param e p PDays) (e_day e) <=? now - last).

  (** One position, cdptx.cpp:904-961. *)
  Definition settle_one (e : cenv) (st : cstate) (txid id : N) : outcome cstate :=
    do c <- need (fget N.eqb (c_cdps st) id);
    let p := pair_of c in
    do price <- price_of e p;
    do _ <- guard (negb (floor_reached e st p price));
    do _ <- guard (due e p (c_height c) (e_height e));
    do k <- need (holder (c_dex st) (c_owner c));
    let i := interest_of p (c_owed c) (c_height c) (e_height e) in
    do st1 <- cop st k (c_scoin c) AddFree i None;
    do st2 <- sell_interest e st1 c k (interest_order txid id) i;
    do c' <- add_stake c (e_height e) 0 i;
    update_cdp st2 c c'.
  Fixpoint settle_list (e : cenv) (st : cstate) (txid : N) (seen ids : list N) : outcome cstate :=
    match ids with
    | [] => Done st
    | id :: ids' =>
        do _ <- guard (negb (existsb (N.eqb id) seen));
        do st1 <- settle_one e st txid id;
        settle_list e st1 txid (id :: seen) ids'
    end.
  (** [CCDPInterestForceSettleTx], cdptx.cpp:878-968. *)
  Definition settle_interest (e : cenv) (st : cstate) (txid : N) (ids : list N) : outcome cstate :=
    do _ <- guard (negb (match ids with [] => true | _ => false end)
                   && (N.of_nat (List.length ids) <=? SETTLE_MAX));
    settle_list e st txid [] ids.

  (** Iterating over an index: the entries of one pair in the order of the keys. *)
  Definition key_leb (a b : list N) : bool :=
    (fix go (a b : list N) : bool :=
       match a, b with
       | [], _ => true
       | _, [] => false
       | x :: a', y :: b' => if x =? y then go a' b' else x <? y
       end) a b.
  Fixpoint insert_by {A} (key : A -> list N) (x : A) (l : list A) : list A :=
    match l with
    | [] => [x]
    | y :: l' => if key_leb (key x) (key y) then x :: l else y :: insert_by key x l'
    end.
  Definition sort_by {A} (key : A -> list N) (l : list A) : list A :=
    fold_right (insert_by key) [] l.
  Definition heights_of (st : cstate) (p : string * string) : list (N * N) :=
    sort_by (fun x => [fst x; snd x])
      (map (fun kv => snd (fst kv)) (filter (fun kv => cpair_eqb (fst (fst kv)) p) (c_heights st))).
  Definition ratios_of (st : cstate) (p : string * string) : list (N * (N * N) * cdp) :=
    sort_by (fun x => [fst (fst x); fst (snd (fst x)); snd (snd (fst x))])
      (map (fun kv => (snd (fst (fst kv)), snd (fst kv), snd kv))
         (filter (fun kv => cpair_eqb (fst (fst (fst kv))) p) (c_ratio st))).

  (** [GetSettledInterestCdps], cdptx.cpp:989-1021: the counter goes down before it is compared
      with zero, and is a [uint32_t] shared by all pairs (1023-1048). *)
  Fixpoint due_ids (e : cenv) (p : string * string) (count : N) (l : list (N * N))
    : list N * N :=
    match l with
    | [] => ([], count)
    | (h, id) :: l' =>
        if due e p h (e_height e) then
          let count' := (count + two32 - 1) mod two32 in
          if count' =? 0 then ([], count')
          else let '(ids, n) := due_ids e p count' l' in (id :: ids, n)
        else ([], count)
    end.
  (** A pair with the price of its collateral and whether it is recent. *)
  Notation detail := ((string * string) * (N * bool))%type (only parsing).
  Fixpoint due_pairs (e : cenv) (st : cstate) (count : N) (ps : list detail) : list N :=
    match ps with
    | [] => []
    | (p, (price, active)) :: ps' =>
        if active && negb (floor_reached e st p price) then
          let '(ids, n) := due_ids e p count (heights_of st p) in ids ++ due_pairs e st n ps'
        else due_pairs e st count ps'
    end.
  Definition settle_proposal (e : cenv) (st : cstate) (ps : list detail) : list N :=
    due_pairs e st SETTLE_MAX ps.

  (** ** Forced liquidation *)

  (** [GetCdpListByCollateralRatio], cdpdb.cpp:112-127. *)
  Fixpoint up_to (bound : N) (l : list (N * (N * N) * cdp)) : list cdp :=
    match l with
    | [] => []
    | (r, _, c) :: l' => if bound <? r then [] else c :: up_to bound l'
    end.
  Definition ratio_bound (ratio price : N) : double :=
    dmul (ddiv (ddiv (of_N ratio) (of_N RATIO_BOOST)) (ddiv (of_N price) (of_N PRICE_BOOST)))
      (of_N PRICE_BOOST).
  Definition list_by_ratio (st : cstate) (p : string * string) (ratio price : N)
    : outcome (list cdp) :=
    let b := cast (ratio_bound ratio price) in
    do _ <- asserted (b <? MAX64);
    Done (up_to b (ratios_of st p)).

  (** [SellAssetToRiskRevervePool], blockpricemediantx.cpp:430-456. *)
  Definition sell_asset (e : cenv) (st : cstate) (f : N) (coin asset : string) (amount id : N)
    : outcome cstate :=
    do st1 <- cop st f asset Freeze amount None;
    cplace e st1 id Sell coin asset amount.

  (** Closing one position, blockpricemediantx.cpp:343-419. *)
  Definition force_one (e : cenv) (st : cstate) (f : N) (p : string * string) (price fprice : N)
      (c : cdp) : outcome cstate :=
    do owner <- need (holder (c_dex st) (c_owner c));
    do st1 <- cop st f "WUSD" SubFree (c_owed c) None;
    do st2 <- cop st1 owner (c_bcoin c) Unpledge (c_staked c) None;
    do st3 <- cop st2 owner (c_bcoin c) SubFree (c_staked c) (Some f);
    do st4 <- sell_asset e st3 f (snd p) (fst p) (c_staked c) (sell_order (c_id c) (fst p));
    let value := cast (ddiv (dmul (of_N (c_staked c)) (of_N price)) (of_N PRICE_BOOST)) in
    do st5 <- (if value <? c_owed c then
                 do _ <- asserted (negb (fprice =? 0));
                 let x := cast (ddiv (dmul (of_N (c_owed c - value)) (of_N PRICE_BOOST))
                                  (of_N fprice)) in
                 do s <- cop st4 f "WGRT" AddFree x None;
                 sell_asset e s f (snd p) "WGRT" x (sell_order (c_id c) "WGRT")
               else Done st4);
    Done (erase_cdp st5 c c).
  (** The loop, blockpricemediantx.cpp:328-341: how many have been counted. *)
  Fixpoint force_list (e : cenv) (st : cstate) (f : N) (p : string * string) (price fprice : N)
      (count limit : N) (l : list cdp) : outcome (cstate * N) :=
    match l with
    | [] => Done (st, count)
    | c :: l' =>
        let count' := count + 1 in
        if limit <? count' then Done (st, count')
        else if free_of st f "WUSD" <? c_owed c then Done (st, count')
        else
          do st1 <- force_one e st f p price fprice c;
          force_list e st1 f p price fprice count' limit l'
    end.
  (** [CCdpForceLiquidator::Execute], blockpricemediantx.cpp:273-428. *)
  Definition force_pair (e : cenv) (st : cstate) (f : N) (p : string * string)
      (price fprice limit : N) : outcome (cstate * N) :=
    if floor_reached e st p price then Done (st, 0)
    else
      do l <- list_by_ratio st p (e_param e p PForce) price;
      force_list e st f p price fprice 0 limit l.
  (** [ForceLiquidateCdps], blockpricemediantx.cpp:163-220; [fprice] is the price of the fund
      coin, 0 also when it is missing or not recent (167-185). *)
  Fixpoint force_pairs (e : cenv) (st : cstate) (f : N) (fprice limit : N) (ps : list detail)
    : outcome cstate :=
    match ps with
    | [] => Done st
    | (p, (price, active)) :: ps' =>
        if e_r3 e && negb active then force_pairs e st f fprice limit ps'
        else
          do r <- force_pair e st f p price fprice limit;
          if limit <=? snd r then Done (fst r)
          else force_pairs e (fst r) f fprice (limit - snd r) ps'
    end.
  Definition force_liquidate (e : cenv) (st : cstate) (fprice : N) (ps : list detail)
    : outcome cstate :=
    if fprice =? 0 then Done st
    else do f <- reserve_of e st; force_pairs e st f fprice FORCE_MAX ps.

  (** What happens to positions. *)
  Inductive caction :=
  | CStake (e : cenv) (t : stake_tx)
  | CRedeem (e : cenv) (t : redeem_tx)
  | CLiquidate (e : cenv) (t : liquidate_tx)
  | CSettle (e : cenv) (txid : N) (ids : list N)
  | CForce (e : cenv) (fprice : N) (ps : list detail)
  | CElse (d : dstate).
  Definition cstep (st : cstate) (a : caction) : outcome cstate :=
    match a with
    | CStake e t => stake e st t
    | CRedeem e t => redeem e st t
    | CLiquidate e t => liquidate e st t
    | CSettle e txid ids => settle_interest e st txid ids
    | CForce e fprice ps => force_liquidate e st fprice ps
    | CElse d => Done (set_dex st d)
    end.
End Cdp.
