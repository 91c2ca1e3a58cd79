(** Model of the decentralised exchange: placing, cancelling and settling orders.

    Source: /repo/src/tx/dextx.cpp, /repo/src/entities/dexorder.h, dexorder.cpp,
    /repo/src/persistence/dexdb.cpp, /repo/src/entities/proposal.cpp (cancel proposal).

    Simplifications: caches are finite maps (c01_layered_cache_is_a_map); accounts are looked
    up and changed directly in the ledger (c50_transaction_acts_on_ledger). The fee paid by the
    sender, the minimum fee and the memo check are left out (part of [DElse]), so is the
    secondary index by block. Ids are numbers. *)
From Coq Require Import String List Bool NArith ZArith.
From Verif Require Import Prelude AccountModel.
Import ListNotations.
Open Scope N_scope.

(** Outcome of a step: done, refused, an assertion fails, or undefined behaviour. *)
Inductive outcome (A : Type) := Done (a : A) | Reject | Abort | Undefined.
Arguments Done {A}. Arguments Reject {A}. Arguments Abort {A}. Arguments Undefined {A}.

Definition bind {A B} (x : outcome A) (f : A -> outcome B) : outcome B :=
  match x with Done a => f a | Reject => Reject | Abort => Abort | Undefined => Undefined end.
Notation "'do' x <- a ; b" := (bind a (fun x => b))
  (at level 200, x pattern, a at level 100, b at level 200).
Definition need {A} (x : option A) : outcome A := match x with Some a => Done a | None => Reject end.
Definition guard (b : bool) : outcome unit := if b then Done tt else Reject.
Definition asserted (b : bool) : outcome unit := if b then Done tt else Abort.

(** [OrderType] and [OrderSide], dexorder.h:23-47. *)
Inductive otype := Limit | Market.
Inductive oside := Buy | Sell.
Definition is_market (t : otype) : bool := match t with Market => true | Limit => false end.
Definition is_buy (s : oside) : bool := match s with Buy => true | Sell => false end.

(** [COrderOperatorParams], dexorder.h:88-101; public or private. *)
Record oparams := mkParams { op_public : bool; op_maker : N; op_taker : N }.

(** [CDEXOrderDetail], dexorder.h:108-125. [o_user_made]: generate_type is USER_GEN_ORDER (else
    SYSTEM_GEN_ORDER). *)
Record order := mkOrder {
  o_user_made : bool; o_type : otype; o_side : oside; o_coin : string; o_asset : string;
  o_coin_amount : N; o_asset_amount : N; o_price : N; o_dex : N; o_params : option oparams;
  o_cord : N * N; o_owner : regid; o_deal_coin : N; o_deal_asset : N }.

(** [DexOperatorDetail], dexorder.h:181-193, the fields that matter here. *)
Record operator := mkOperator {
  p_receiver : regid; p_params : oparams; p_open_set : list N; p_active : bool }.

(** What the exchange works on. *)
Record dstate := mkD {
  d_ledger : list (N * account);
  d_reg : list (regid * N);
  d_orders : list (N * order);                 (* activeOrderCache *)
  d_ops : list (N * operator) }.               (* operator_detail_cache, with id 0 *)

(** Block height and position, whether the R3 rules apply, producer, the account of the reserve
    (GetFcoinGenesisRegId), the friction fee ratio, the settlement service. *)
Record denv := mkDenv {
  n_cord : N * N; n_r3 : bool; n_bp : regid; n_reserve : regid; n_friction : N; n_match : regid }.

Definition PRICE_BOOST : N := 100000000.       (* scoin.h:23 *)
Definition MIN_ORDER : N := 10000000.          (* scoin.h:41 *)
Definition FEE_RATIO_MAX : N := 50000000.      (* scoin.h:45 *)
Definition two63 : N := 9223372036854775808.

Definition set_ledger (st : dstate) (L : list (N * account)) : dstate :=
  mkD L (d_reg st) (d_orders st) (d_ops st).
Definition set_orders (st : dstate) (m : list (N * order)) : dstate :=
  mkD (d_ledger st) (d_reg st) m (d_ops st).

(** [CBaseTx::GetAccount] by registration id, tx.cpp:290-311. *)
Definition holder (st : dstate) (r : regid) : option N :=
  match fget regid_eqb (d_reg st) r with
  | Some k => match l_get (d_ledger st) k with Some _ => Some k | None => None end
  | None => None
  end.

(** One [OperateBalance]; a failing one ends the transaction. *)
Definition op (st : dstate) (who : N) (s : string) (o : balance_op) (v : N) (other : option N)
  : outcome dstate :=
  match l_operate (d_ledger st) who s o v other with
  | (true, L) => Done (set_ledger st L)
  | (false, _) => Reject
  end.

(** [CDEXOrderBaseTx::CalcCoinAmount], dextx.cpp:390-394, in 128-bit arithmetic. *)
Definition calc_coin_amount (asset price : N) : outcome N :=
  let x := asset * price / PRICE_BOOST in
  do _ <- asserted (x <? two64 - 1); Done x.

(** [CalcAmountByRatio], util.h:462-470. *)
Definition by_ratio (amount ratio boost : N) : outcome N :=
  let x := amount * ratio / boost in
  do _ <- guard (negb (two64 - 1 <? x)); Done x.

(** [CreateActiveOrder], [UpdateActiveOrder], [EraseActiveOrder], dexdb.cpp:75-93. *)
Definition create_order (st : dstate) (id : N) (o : order) : outcome dstate :=
  do _ <- guard (negb (fmem N.eqb (d_orders st) id));
  Done (set_orders st (fput N.eqb (d_orders st) id o)).
Definition update_order (st : dstate) (id : N) (o : order) : dstate :=
  set_orders st (fput N.eqb (d_orders st) id o).
Definition erase_order (st : dstate) (id : N) : dstate :=
  set_orders st (fdel N.eqb (d_orders st) id).

(** ** Placing an order *)

(** [CDEXOrderBaseTx], dextx.h:32-50; type and side are the received bytes. *)
Record order_tx := mkOrderTx {
  t_id : N; t_sender : N; t_type : N; t_side : N; t_coin : string; t_asset : string;
  t_coin_amount : N; t_asset_amount : N; t_price : N; t_dex : N;
  t_params : option oparams;                    (* has_operator_config with its fields *)
  t_operator : regid; t_operator_signed : bool; (* operator_uid; its signature is valid *)
  t_operator_fee : N; t_fee_symbol : string }.

Definition order_type (n : N) : option otype :=
  if n =? 1 then Some Limit else if n =? 2 then Some Market else None.
Definition order_side (n : N) : option oside :=
  if n =? 1 then Some Buy else if n =? 2 then Some Sell else None.

(** [CheckOrderAmount], dextx.cpp:290-304: the amount is converted to int64. [max] is the limit
    of [CheckCoinRange] for the symbol, if it has one (configuration.h:238-249). *)
Definition amount_ok (max : string -> option N) (s : string) (v : N) : bool :=
  (v <? two63) && (MIN_ORDER <=? v)
  && match max s with Some m => v <=? m | None => true end.

Section Dex.
  (** [CheckDexBaseSymbol], [CheckDexQuoteSymbol] (assetdb.cpp:73-94), the coin limits, and the
      id of the order bought for a friction fee (dextx.cpp:1016-1018). *)
  Variable base_ok quote_ok : string -> bool.
  Variable max_money : string -> option N.
  Variable order_hash : N -> N -> (N * N * N * N * N) -> string -> N.

  (** [GetOrderOperator], dextx.cpp:365-376. *)
  Definition order_operator (st : dstate) (dex : N) : outcome operator :=
    do p <- need (fget N.eqb (d_ops st) dex);
    do _ <- guard (p_active p);
    Done p.

  (** [CheckTx], dextx.cpp:93-122 with 253-363; the open mode is already one of the two
      values. *)
  Definition check_order (st : dstate) (t : order_tx) : outcome (otype * oside) :=
    do ty <- need (order_type (t_type t));
    do sd <- need (order_side (t_side t));
    do _ <- guard (negb (String.eqb (t_coin t) (t_asset t)));
    do _ <- guard (base_ok (t_asset t));
    do _ <- guard (quote_ok (t_coin t));
    do _ <- (if is_market ty && is_buy sd
             then guard ((t_asset_amount t =? 0) && amount_ok max_money (t_coin t) (t_coin_amount t))
             else guard ((t_coin_amount t =? 0) && amount_ok max_money (t_asset t) (t_asset_amount t)));
    do _ <- (if is_market ty then guard (t_price t =? 0) else guard (negb (t_price t =? 0)));
    do p <- order_operator st (t_dex t);
    do k <- need (holder st (p_receiver p));
    do _ <- match t_params t with
            | None => Done tt
            | Some c =>
                guard ((op_taker c <=? FEE_RATIO_MAX) && (op_maker c <=? FEE_RATIO_MAX)
                       && regid_eqb (t_operator t) (p_receiver p)
                       && negb (match l_get (d_ledger st) (t_sender t) with
                                | Some a => negb (regid_empty (a_regid a))
                                            && regid_eqb (a_regid a) (t_operator t)
                                | None => false
                                end)
                       && t_operator_signed t)
            end;
    Done (ty, sd).

  (** [ExecuteTx], dextx.cpp:125-186. *)
  Definition exec_order (e : denv) (st : dstate) (t : order_tx) (ty : otype) (sd : oside)
    : outcome dstate :=
    do st1 <- match t_params t with
              | Some _ =>
                  if 0 <? t_operator_fee t then
                    do p <- order_operator st (t_dex t);
                    do k <- need (holder st (p_receiver p));
                    op st k (t_fee_symbol t) SubFree (t_operator_fee t) None
                  else Done st
              | None => Done st
              end;
    do coins <- (if negb (is_market ty) && is_buy sd
                 then calc_coin_amount (t_asset_amount t) (t_price t)
                 else Done (t_coin_amount t));
    do st2 <- (if is_buy sd
               then op st1 (t_sender t) (t_coin t) Freeze coins None
               else op st1 (t_sender t) (t_asset t) Freeze (t_asset_amount t) None);
    do a <- need (l_get (d_ledger st2) (t_sender t));
    do _ <- asserted (negb (regid_empty (a_regid a)));
    create_order st2 (t_id t)
      (mkOrder true ty sd (t_coin t) (t_asset t) coins (t_asset_amount t) (t_price t) (t_dex t)
         (t_params t) (n_cord e) (a_regid a) 0 0).

  Definition place (e : denv) (st : dstate) (t : order_tx) : outcome dstate :=
    do c <- check_order st t; exec_order e st t (fst c) (snd c).

  (** ** System orders *)

  (** [CSysOrder::Create], dexorder.cpp:98-121. *)
  Definition sys_order (e : denv) (sd : oside) (coin asset : string) (amount : N) : order :=
    mkOrder false Market sd coin asset (if is_buy sd then amount else 0)
      (if is_buy sd then 0 else amount) 0 0 (Some (mkParams true 0 0)) (n_cord e) (n_reserve e) 0 0.

  (** How system orders come about, everywhere in the code: the reserve account freezes the
      amount, then the order is created (cdptx.cpp:95-109, 859-871, blockpricemediantx.cpp:438-449,
      cointransfertx.cpp:159-173, dextx.cpp:1011-1024). *)
  Definition sys_place (e : denv) (st : dstate) (id : N) (sd : oside) (coin asset : string)
      (amount : N) : outcome dstate :=
    do k <- need (holder st (n_reserve e));
    do st1 <- op st k (if is_buy sd then coin else asset) Freeze amount None;
    create_order st1 id (sys_order e sd coin asset amount).

  (** ** Cancelling *)

  (** The token and the amount an order still has frozen, dextx.cpp:490-505 (64-bit). *)
  Definition left_symbol (o : order) : string := if is_buy (o_side o) then o_coin o else o_asset o.
  Definition left_amount (o : order) : N :=
    if is_buy (o_side o) then sub64 (o_coin_amount o) (o_deal_coin o)
    else sub64 (o_asset_amount o) (o_deal_asset o).

  (** [CDEXCancelOrderTx], dextx.cpp:461-517. *)
  Definition cancel (st : dstate) (sender id : N) : outcome dstate :=
    do _ <- guard (negb (id =? 0));
    do o <- need (fget N.eqb (d_orders st) id);
    do _ <- guard (o_user_made o);
    do a <- need (l_get (d_ledger st) sender);
    do _ <- guard (negb (regid_empty (a_regid a)) && regid_eqb (a_regid a) (o_owner o));
    do st1 <- op st sender (left_symbol o) Unfreeze (left_amount o) None;
    Done (erase_order st1 id).

  (** [CGovCancelOrderProposal::ExecuteProposal], proposal.cpp:905-961. *)
  Definition gov_cancel (st : dstate) (id : N) : outcome dstate :=
    do _ <- guard (negb (id =? 0));
    do o <- need (fget N.eqb (d_orders st) id);
    do _ <- guard (o_user_made o);
    do k <- need (holder st (o_owner o));
    do st1 <- op st k (left_symbol o) Unfreeze (left_amount o) None;
    Done (erase_order st1 id).

  (** ** Settling *)

  (** [DealItem], dextx.h:494-499. *)
  Record deal := mkDeal { l_buy : N; l_sell : N; l_price : N; l_coin : N; l_asset : N }.

  (** [GetDealOrder], dextx.cpp:920-935. *)
  Definition deal_order (st : dstate) (id : N) (sd : oside) : outcome order :=
    do o <- need (fget N.eqb (d_orders st) id);
    do _ <- guard (Bool.eqb (is_buy (o_side o)) (is_buy sd));
    Done o.

  (** [GetOrderOperatorParams], lines 860-871. *)
  Definition order_params (o : order) (p : operator) : oparams :=
    match o_params o with Some c => c | None => p_params p end.

  (** [GetTakerOrderSide], lines 937-950; positions are registration ids (id.h:32, 73-79). *)
  Definition cord_ltb (a b : N * N) : bool :=
    if fst a =? fst b then snd a <? snd b else fst a <? fst b.
  Definition taker_side (b s : order) : oside :=
    match o_type b, o_type s with
    | Market, Limit => Buy
    | Limit, Market => Sell
    | _, _ => if cord_ltb (o_cord b) (o_cord s) then Sell else Buy
    end.

  (** Step 4, lines 637-662. *)
  Definition price_ok (b s : order) (price : N) : bool :=
    match o_type b, o_type s with
    | Limit, Limit => negb ((o_price b <? price) || (price <? o_price s))
    | Limit, Market => price =? o_price b
    | Market, Limit => price =? o_price s
    | Market, Market => true
    end.

  (** [CheckOrderOpenMode], lines 873-908. *)
  Definition open_ok (b s : order) (pb ps : operator) : bool :=
    if o_dex b =? o_dex s then true
    else
      let '(params, p, other) :=
        match taker_side b s with
        | Sell => (order_params b pb, pb, o_dex s)           (* the buy order is the maker *)
        | Buy => (order_params s ps, ps, o_dex b)
        end in
      op_public params
      && match p_open_set p with [] => true | l => existsb (N.eqb other) l end.

  (** Step 6, lines 668-675: a 64-bit signed difference; [abs] of the least value is undefined. *)
  Definition signed64 (z : Z) : Z :=
    let m := (z mod 18446744073709551616)%Z in
    if (m <? 9223372036854775808)%Z then m else (m - 18446744073709551616)%Z.
  Definition coins_match (ty : otype) (calc coins price : N) : outcome bool :=
    let d := signed64 (Z.of_N calc - Z.of_N coins) in
    if is_market ty then
      if (d =? -9223372036854775808)%Z then Undefined
      else Done (Z.abs d <=? Z.max 1 (Z.of_N (price / PRICE_BOOST)))%Z
    else Done (d =? 0)%Z.

  (** [CalcMatchFee], lines 952-978. *)
  Definition match_fee (o : order) (c : oparams) (taker : oside) (amount : N) : outcome N :=
    let ratio := if Bool.eqb (is_buy (o_side o)) (is_buy taker) then op_taker c else op_maker c in
    do _ <- guard (ratio <=? FEE_RATIO_MAX);
    by_ratio amount ratio PRICE_BOOST.

  (** [SubDealFee], lines 910-918. *)
  Definition sub_fee (amount fee : N) : outcome N :=
    do _ <- guard (negb (amount <=? fee)); Done (amount - fee).

  (** [ProcessCoinFrictionFee], lines 992-1028. *)
  Definition coin_friction (e : denv) (st : dstate) (from : N) (id : N) (s : string) (fee : N)
    : outcome dstate :=
    if 0 <? fee then
      do r <- need (holder st (n_reserve e));
      do st1 <- op st from s SubFree fee (Some r);
      do st2 <- op st1 r s Freeze fee None;
      create_order st2 id (sys_order e Buy s "WGRT" fee)
    else Done st.

  Definition dealt (o : order) (coins assets : N) : order :=
    mkOrder (o_user_made o) (o_type o) (o_side o) (o_coin o) (o_asset o) (o_coin_amount o)
      (o_asset_amount o) (o_price o) (o_dex o) (o_params o) (o_cord o) (o_owner o)
      (add64 (o_deal_coin o) coins) (add64 (o_deal_asset o) assets).

  (** [CDealItemExecuter::Execute], lines 585-858; the comments give its numbering. *)
  Definition exec_deal (e : denv) (txid idx : N) (st : dstate) (i : deal) : outcome dstate :=
    (* 1.1 - 1.5 *)
    do b0 <- deal_order st (l_buy i) Buy;
    do s0 <- deal_order st (l_sell i) Sell;
    do kb <- need (holder st (o_owner b0));
    do ks <- need (holder st (o_owner s0));
    do pb <- need (fget N.eqb (d_ops st) (o_dex b0));
    do kpb <- need (holder st (p_receiver pb));
    do ps <- need (fget N.eqb (d_ops st) (o_dex s0));
    do kps <- need (holder st (p_receiver ps));
    let taker := taker_side b0 s0 in
    do kbp <- need (holder st (n_bp e));
    (* 2, 3 *)
    do _ <- guard (String.eqb (o_coin b0) (o_coin s0));
    do _ <- guard (String.eqb (o_asset b0) (o_asset s0));
    (* 4, 5 *)
    do _ <- guard (price_ok b0 s0 (l_price i));
    do _ <- guard (open_ok b0 s0 pb ps);
    (* 6 *)
    do calc <- calc_coin_amount (l_asset i) (l_price i);
    do m <- coins_match (o_type b0) calc (l_coin i) (l_price i);
    do _ <- guard m;
    let b := dealt b0 (l_coin i) (l_asset i) in
    let s := dealt s0 (l_coin i) (l_asset i) in
    (* 7 *)
    do buy_left <- (if is_market (o_type b)
                    then do _ <- guard (negb (o_coin_amount b <? o_deal_coin b));
                         Done (o_coin_amount b - o_deal_coin b)
                    else do _ <- guard (negb (o_asset_amount b <? o_deal_asset b));
                         Done (o_asset_amount b - o_deal_asset b));
    do _ <- guard (negb (o_asset_amount s <? o_deal_asset s));
    let sell_left := o_asset_amount s - o_deal_asset s in
    (* 8 *)
    let fric := o_user_made s && o_user_made b && n_r3 e in
    do cf <- (if fric then by_ratio (l_coin i) (n_friction e) 10000 else Done 0);
    do coins1 <- (if fric then sub_fee (l_coin i) cf else Done (l_coin i));
    do af <- (if fric then by_ratio (l_asset i) (n_friction e) 10000 else Done 0);
    do assets1 <- (if fric then sub_fee (l_asset i) af else Done (l_asset i));
    (* 9 *)
    do am <- match_fee b (order_params b0 pb) taker assets1;
    do _ <- sub_fee assets1 am;
    do cm <- match_fee s (order_params s0 ps) taker coins1;
    do _ <- sub_fee coins1 cm;
    (* 10 *)
    do st1 <- op st kb (o_coin b) DexDeal (l_coin i) (Some ks);
    do st2 <- op st1 ks (o_asset s) DexDeal (l_asset i) (Some kb);
    (* 11 *)
    do st3 <- (if fric
               then do x <- coin_friction e st2 ks
                              (order_hash txid idx (l_buy i, l_sell i, l_price i, l_coin i, l_asset i)
                                 (o_coin s)) (o_coin s) cf;
                    op x kb (o_asset b) SubFree af (Some kbp)
               else Done st2);
    (* 12 *)
    do st4 <- op st3 ks (o_coin s) SubFree cm (Some kps);
    do st5 <- op st4 kb (o_asset b) SubFree am (Some kpb);
    (* 13.1 *)
    do st6 <- (if buy_left =? 0 then
                 do x <- (if is_market (o_type b) then Done st5
                          else if o_deal_coin b <? o_coin_amount b
                          then op st5 kb (o_coin b) Unfreeze (o_coin_amount b - o_deal_coin b) None
                          else do _ <- asserted (o_coin_amount b =? o_deal_coin b); Done st5);
                 Done (erase_order x (l_buy i))
               else Done (update_order st5 (l_buy i) b));
    (* 13.2 *)
    Done (if sell_left =? 0 then erase_order st6 (l_sell i) else update_order st6 (l_sell i) s).

  (** [CDEXSettleTx::CheckTx], lines 1071-1103; [sender] is the transaction's registration id
      (another kind of id makes the variant access throw: refused here). *)
  Definition deal_ok (i : deal) : bool :=
    negb ((l_buy i =? 0) || (l_sell i =? 0)) && negb (l_buy i =? l_sell i)
    && negb ((l_coin i =? 0) || (l_asset i =? 0) || (l_price i =? 0)).
  Definition check_settle (e : denv) (sender : regid) (items : list deal) : bool :=
    regid_eqb sender (n_match e)
    && negb (Nat.eqb (List.length items) 0) && (N.of_nat (List.length items) <=? 10000)
    && forallb deal_ok items.

  (** [CDEXSettleTx::ExecuteTx], lines 1105-1115. *)
  Fixpoint exec_deals (e : denv) (txid idx : N) (st : dstate) (items : list deal) : outcome dstate :=
    match items with
    | [] => Done st
    | i :: items' => do st1 <- exec_deal e txid idx st i; exec_deals e txid (idx + 1) st1 items'
    end.
  Definition settle (e : denv) (txid : N) (sender : regid) (st : dstate) (items : list deal)
    : outcome dstate :=
    do _ <- guard (check_settle e sender items); exec_deals e txid 0 st items.

  (** What can happen on a chain. [DElse] is everything else. *)
  Inductive daction :=
  | DPlace (e : denv) (t : order_tx)
  | DSystem (e : denv) (id : N) (sd : oside) (coin asset : string) (amount : N)
  | DCancel (sender id : N)
  | DGovCancel (id : N)
  | DSettle (e : denv) (txid : N) (sender : regid) (items : list deal)
  | DElse (st : dstate).

  Definition dstep (st : dstate) (a : daction) : outcome dstate :=
    match a with
    | DPlace e t => place e st t
    | DSystem e id sd coin asset amount => sys_place e st id sd coin asset amount
    | DCancel sender id => cancel st sender id
    | DGovCancel id => gov_cancel st id
    | DSettle e txid sender items => settle e txid sender st items
    | DElse st' => Done st'
    end.
End Dex.
