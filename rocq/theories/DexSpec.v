(** What the exchange should do (C11-C13, C40, C53). *)
From Coq Require Import String List Bool NArith ZArith.
From Verif Require Import Prelude AccountModel AccountSpec DexModel.
Import ListNotations.
Open Scope N_scope.

(** ** Escrow (C11) *)

(** The token an order pays with, how much of it the order was placed with and has paid. *)
Definition pays_with (o : order) : string :=
  match o_side o with Buy => o_coin o | Sell => o_asset o end.
Definition placed_with (o : order) : N :=
  match o_side o with Buy => o_coin_amount o | Sell => o_asset_amount o end.
Definition paid (o : order) : N :=
  match o_side o with Buy => o_deal_coin o | Sell => o_deal_asset o end.
Definition unspent (o : order) : N := placed_with o - paid o.

(** Whether the order is one of account [k]. *)
Definition owned_by (st : dstate) (k : N) (o : order) : bool :=
  match fget regid_eqb (d_reg st) (o_owner o) with Some k' => k =? k' | None => false end.

(** What the active orders of account [k] may still pay in token [s]. *)
Definition committed (st : dstate) (k : N) (s : string) : N :=
  msum (fun o => if owned_by st k o && String.eqb (pays_with o) s then unspent o else 0)
    (d_orders st).

(** A state in order: accounts are stored under their own keys, every registered account is
    the one its registration id leads to, no token has 2^63 units or more (the largest total
    an asset may have is 9 * 10^18, const.h:137). *)
Definition sound (st : dstate) : Prop :=
  ledger_wf (d_ledger st) /\
  (forall k a, l_get (d_ledger st) k = Some a -> regid_empty (a_regid a) = false ->
     fget regid_eqb (d_reg st) (a_regid a) = Some k) /\
  (forall s, supply (d_ledger st) s < two63).

(** What everything else on the chain does to a state: it ends in a state in order, touches
    neither orders nor frozen balances, removes no account and no registration. *)
Definition elsewhere (st st' : dstate) : Prop :=
  sound st' /\ d_orders st' = d_orders st /\
  (forall k s, lbal (d_ledger st') k s BFrozen = lbal (d_ledger st) k s BFrozen) /\
  (forall k, l_get (d_ledger st) k <> None -> l_get (d_ledger st') k <> None) /\
  (forall r k, fget regid_eqb (d_reg st) r = Some k -> fget regid_eqb (d_reg st') r = Some k).

Section Histories.
  Variable base_ok quote_ok : string -> bool.
  Variable max_money : string -> option N.
  Variable order_hash : N -> N -> (N * N * N * N * N) -> string -> N.

  (** Everything that can happen, from a state on: accepted actions in any order. *)
  Inductive reaches (st : dstate) : dstate -> Prop :=
  | reach_here : reaches st st
  | reach_next : forall st1 a st2,
      reaches st st1 ->
      (forall st', a = DElse st' -> elsewhere st1 st') ->
      dstep base_ok quote_ok max_money order_hash st1 a = Done st2 ->
      reaches st st2.
End Histories.

(** ** Movements of money (C11, C12) *)

(** An amount of a token that goes from a sub-balance of one account to one of another. *)
Record move := mkMove { m_from : N * bucket; m_to : N * bucket; m_token : string; m_amount : N }.

Definition is_place (p : N * bucket) (k : N) (b : bucket) : bool :=
  (k =? fst p) && bucket_eqb b (snd p).
Definition change (m : move) (k : N) (s : string) (b : bucket) : Z :=
  if String.eqb s (m_token m)
  then ((if is_place (m_to m) k b then Z.of_N (m_amount m) else 0)
        - (if is_place (m_from m) k b then Z.of_N (m_amount m) else 0))%Z
  else 0%Z.
Definition changes (ms : list move) (k : N) (s : string) (b : bucket) : Z :=
  fold_right (fun m z => (change m k s b + z)%Z) 0%Z ms.

(** The balances of [L'] are those of [L] after the movements [ms], and nothing else. *)
Definition moved (L : list (N * account)) (ms : list move) (L' : list (N * account)) : Prop :=
  forall k s b, Z.of_N (lbal L' k s b) = (Z.of_N (lbal L k s b) + changes ms k s b)%Z.

(** ** One deal (C12) *)

(** The taker is the market order when it meets a limit order, else the later one; of two at
    one position the buyer. *)
Definition earlier (a b : N * N) : Prop := fst a < fst b \/ (fst a = fst b /\ snd a < snd b).
Inductive taker_is : order -> order -> oside -> Prop :=
| taker_market_buy b s : o_type b = Market -> o_type s = Limit -> taker_is b s Buy
| taker_market_sell b s : o_type b = Limit -> o_type s = Market -> taker_is b s Sell
| taker_later_sell b s : o_type b = o_type s -> earlier (o_cord b) (o_cord s) -> taker_is b s Sell
| taker_later_buy b s : o_type b = o_type s -> ~ earlier (o_cord b) (o_cord s) -> taker_is b s Buy.

(** The prices a deal of two orders may have. *)
Definition fair_price (b s : order) (price : N) : Prop :=
  (o_type b = Limit -> price <= o_price b) /\
  (o_type s = Limit -> o_price s <= price) /\
  (o_type b = Limit -> o_type s = Market -> price = o_price b) /\
  (o_type b = Market -> o_type s = Limit -> price = o_price s).

(** Orders of two exchanges meet only if the maker's terms say public, and the maker's exchange
    names the other one among those it is open to, or names none. *)
Definition terms (o : order) (p : operator) : oparams :=
  match o_params o with Some c => c | None => p_params p end.
Definition may_meet (b s : order) (pb ps : operator) (taker : oside) : Prop :=
  o_dex b = o_dex s \/
  match taker with
  | Sell => op_public (terms b pb) = true /\ (p_open_set pb = [] \/ In (o_dex s) (p_open_set pb))
  | Buy => op_public (terms s ps) = true /\ (p_open_set ps = [] \/ In (o_dex b) (p_open_set ps))
  end.

(** The coins for an amount of assets at a price. *)
Definition value_at (assets price : N) : N := assets * price / 100000000.

(** The share an exchange takes, in units of 10^-8. *)
Definition share (o : order) (p : operator) (taker : oside) : N :=
  match o_side o, taker with
  | Buy, Buy | Sell, Sell => op_taker (terms o p)
  | _, _ => op_maker (terms o p)
  end.

(** The accounts that take part, the deductions, and the refund of a deal. *)
Record shares := mkShares {
  buyer : N; seller : N; reserve : N; producer : N; buy_exchange : N; sell_exchange : N;
  coin_tax : N; asset_tax : N; coin_fee : N; asset_fee : N; refund : N }.

Definition deal_moves (coin asset : string) (i : deal) (x : shares) : list move :=
  [ mkMove (buyer x, BFrozen) (seller x, BFree) coin (l_coin i);
    mkMove (seller x, BFrozen) (buyer x, BFree) asset (l_asset i);
    mkMove (seller x, BFree) (reserve x, BFrozen) coin (coin_tax x);
    mkMove (buyer x, BFree) (producer x, BFree) asset (asset_tax x);
    mkMove (seller x, BFree) (sell_exchange x, BFree) coin (coin_fee x);
    mkMove (buyer x, BFree) (buy_exchange x, BFree) asset (asset_fee x);
    mkMove (buyer x, BFrozen) (buyer x, BFree) coin (refund x) ].

(** The order after a deal: only the dealt amounts change, which are 64-bit numbers. *)
Definition after (o : order) (i : deal) : order :=
  mkOrder (o_user_made o) (o_type o) (o_side o) (o_coin o) (o_asset o) (o_coin_amount o)
    (o_asset_amount o) (o_price o) (o_dex o) (o_params o) (o_cord o) (o_owner o)
    ((o_deal_coin o + l_coin i) mod two64) ((o_deal_asset o + l_asset i) mod two64).

(** A buy at market is filled when its coins are spent, any other order when its assets are
    dealt. *)
Definition to_fill (o : order) : N :=
  match o_type o, o_side o with Market, Buy => o_coin_amount o | _, _ => o_asset_amount o end.
Definition filled (o : order) : N :=
  match o_type o, o_side o with Market, Buy => o_deal_coin o | _, _ => o_deal_asset o end.
Definition complete (o : order) : bool := to_fill o <=? filled o.

(** A deal the way it should be: [b] and [s] are the two orders, [pb] and [ps] the exchanges
    they belong to; [tax_id] is the id of the order that spends the reserve's coins. *)
Record proper_deal (e : denv) (tax_id : N) (st : dstate) (i : deal) (st' : dstate)
    (b s : order) (pb ps : operator) (taker : oside) (x : shares) : Prop := mkProper {
  pd_buy : fget N.eqb (d_orders st) (l_buy i) = Some b /\ o_side b = Buy;
  pd_sell : fget N.eqb (d_orders st) (l_sell i) = Some s /\ o_side s = Sell;
  pd_tokens : o_coin b = o_coin s /\ o_asset b = o_asset s;
  pd_exchanges : fget N.eqb (d_ops st) (o_dex b) = Some pb /\ fget N.eqb (d_ops st) (o_dex s) = Some ps;
  pd_taker : taker_is b s taker;
  pd_price : fair_price b s (l_price i);
  pd_meet : may_meet b s pb ps taker;
  (** Coins paid for the assets: exact for a limit buy; for a buy at market off by at most one
      unit, or the whole part of the price. *)
  pd_coins :
    (o_type b = Limit -> l_coin i = value_at (l_asset i) (l_price i)) /\
    (value_at (l_asset i) (l_price i) < two63 ->
     l_coin i <= value_at (l_asset i) (l_price i) + N.max 1 (l_price i / 100000000) /\
     value_at (l_asset i) (l_price i) <= l_coin i + N.max 1 (l_price i / 100000000));
  (** Neither order pays more than it was placed with, nor buys more than wanted. *)
  pd_limits :
    paid b + l_coin i <= placed_with b /\ paid s + l_asset i <= placed_with s /\
    (o_type b = Limit -> o_deal_asset b + l_asset i <= o_asset_amount b);
  pd_accounts :
    fget regid_eqb (d_reg st) (o_owner b) = Some (buyer x) /\
    fget regid_eqb (d_reg st) (o_owner s) = Some (seller x) /\
    fget regid_eqb (d_reg st) (n_bp e) = Some (producer x) /\
    fget regid_eqb (d_reg st) (p_receiver pb) = Some (buy_exchange x) /\
    fget regid_eqb (d_reg st) (p_receiver ps) = Some (sell_exchange x) /\
    (coin_tax x <> 0 -> fget regid_eqb (d_reg st) (n_reserve e) = Some (reserve x));
  pd_taxes :
    let rate := if o_user_made b && o_user_made s && n_r3 e then n_friction e else 0 in
    coin_tax x = l_coin i * rate / 10000 /\ asset_tax x = l_asset i * rate / 10000;
  pd_fees :
    share s ps taker <= 50000000 /\ share b pb taker <= 50000000 /\
    coin_fee x = (l_coin i - coin_tax x) * share s ps taker / 100000000 /\
    asset_fee x = (l_asset i - asset_tax x) * share b pb taker / 100000000;
  (** Both sides keep something. *)
  pd_net : coin_tax x + coin_fee x < l_coin i /\ asset_tax x + asset_fee x < l_asset i;
  (** A completed limit buy gets back what its deals left over. *)
  pd_refund :
    refund x = match o_type b with
               | Limit => if complete (after b i) then placed_with b - (paid b + l_coin i) else 0
               | Market => 0
               end;
  pd_moved : moved (d_ledger st) (deal_moves (o_coin b) (o_asset b) i x) (d_ledger st');
  pd_supply : forall t, supply (d_ledger st') t = supply (d_ledger st) t;
  pd_orders : forall id,
    fget N.eqb (d_orders st') id =
    if id =? l_buy i then if complete (after b i) then None else Some (after b i)
    else if id =? l_sell i then if complete (after s i) then None else Some (after s i)
    else if (0 <? coin_tax x) && (id =? tax_id)
    then Some (sys_order e Buy (o_coin s) "WGRT" (coin_tax x))
    else fget N.eqb (d_orders st) id;
  pd_tax_id : coin_tax x <> 0 -> fget N.eqb (d_orders st) tax_id = None;
  pd_rest : d_reg st' = d_reg st /\ d_ops st' = d_ops st }.

(** A whole settlement: one proper deal after the other. *)
Inductive settled (order_hash : N -> N -> (N * N * N * N * N) -> string -> N) (e : denv) (txid : N)
  : N -> dstate -> list deal -> dstate -> Prop :=
| settled_none idx st : settled order_hash e txid idx st [] st
| settled_next idx st i items st1 st' b s pb ps taker x :
    proper_deal e
      (order_hash txid idx (l_buy i, l_sell i, l_price i, l_coin i, l_asset i) (o_coin s))
      st i st1 b s pb ps taker x ->
    settled order_hash e txid (idx + 1) st1 items st' ->
    settled order_hash e txid idx st (i :: items) st'.

(** ** Verdicts (C40, C53) *)

(** No verdict: a failed assertion or undefined behaviour. *)
Definition stuck {A} (x : outcome A) : Prop := x = Abort \/ x = Undefined.

(** A deal whose coins, given and computed, are below 2^63. *)
Definition moderate (i : deal) : Prop :=
  l_coin i < two63 /\ value_at (l_asset i) (l_price i) < two63.
