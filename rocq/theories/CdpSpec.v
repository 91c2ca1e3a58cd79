(** What positions should do (C14, C15, C35, C36, C44, C56-C58). *)
From Coq Require Import String List Bool NArith ZArith.
From Verif Require Import Prelude AccountModel AccountSpec DexModel DexSpec DoubleModel CdpModel.
Import ListNotations.
Open Scope N_scope.

(** [c] is an open position. *)
Definition is_open (st : cstate) (c : cdp) : Prop := fget N.eqb (c_cdps st) (c_id c) = Some c.

(** Collateral and debt of the open positions of a pair. *)
Definition staked_total (st : cstate) (p : string * string) : N :=
  msum (fun c => if cpair_eqb (pair_of c) p then c_staked c else 0) (c_cdps st).
Definition owed_total (st : cstate) (p : string * string) : N :=
  msum (fun c => if cpair_eqb (pair_of c) p then c_owed c else 0) (c_cdps st).

(** All debt. *)
Definition debt (st : cstate) : N := msum c_owed (c_cdps st).

(** The account behind a registration id, and the collateral of an account's positions. *)
Definition account_of (st : cstate) (r : regid) : option N := fget regid_eqb (d_reg (c_dex st)) r.
Definition owns (st : cstate) (k : N) (c : cdp) : bool :=
  match account_of st (c_owner c) with Some k' => k =? k' | None => false end.
Definition collateral (st : cstate) (k : N) (s : string) : N :=
  msum (fun c => if owns st k c && String.eqb (c_bcoin c) s then c_staked c else 0) (c_cdps st).

Definition ledger_of (st : cstate) : list (N * account) := d_ledger (c_dex st).
Definition wusd (st : cstate) : N := supply (ledger_of st) "WUSD".

(** ** Liquidations (C44) *)

(** What a liquidation moves: the sender pays [s] stable coins and gets [b] of the collateral, the
    owner gets [o] back, [d] stable coins of debt are destroyed, the reserve [f] gets the rest,
    [x] of it frozen for an order. *)
Definition liquidation_change (sender owner f : N) (coin : string) (s b o d x : N)
    (k : N) (sy : string) (bk : bucket) : Z :=
  (let here w y (v : Z) := if (k =? w)%N && String.eqb sy y then v else 0 in
   match bk with
   | BFree => here sender "WUSD"%string (- Z.of_N s) + here sender coin (Z.of_N b)
              + here owner coin (Z.of_N o) + here f "WUSD"%string (Z.of_N (s - d - x))
   | BFrozen => here f "WUSD"%string (Z.of_N x)
   | BPledged => here owner coin (- Z.of_N (b + o))
   | _ => 0
   end)%Z.

(** ** Forced liquidation (C35) *)

(** [c] was open and is not any more. *)
Definition closed (st st' : cstate) (c : cdp) : Prop :=
  is_open st c /\ fget N.eqb (c_cdps st') (c_id c) = None.
Definition positions (st : cstate) : N := N.of_nat (List.length (c_cdps st)).

Section Spec.
  Variable junk : double -> N.
  Variable interest : (string * string) -> N -> N -> N -> N.

  (** ** Records and indexes agree (C14) *)
  Record in_step (st : cstate) : Prop := mkInStep {
    is_once : NoDup (keys (c_cdps st)) /\ NoDup (keys (c_user st)) /\ NoDup (keys (c_ratio st)) /\
              NoDup (keys (c_heights st));
    is_id : forall id c, fget N.eqb (c_cdps st) id = Some c -> c_id c = id /\ id <> 0;
    (* a position is found by its owner and pair, and there is nothing else to find *)
    is_user : forall r p id, fget user_eqb (c_user st) (r, p) = Some id <->
      exists c, fget N.eqb (c_cdps st) id = Some c /\ c_owner c = r /\ pair_of c = p;
    (* the index by ratio has the present record of every position, once, and nothing else *)
    is_ratio : forall k c, fget ratio_eqb (c_ratio st) k = Some c <->
      k = ((pair_of c, ratio_number junk c), (c_height c, c_id c)) /\ is_open st c;
    is_height : forall k c, fget height_eqb (c_heights st) k = Some c <->
      k = (pair_of c, (c_height c, c_id c)) /\ is_open st c;
    is_totals : forall p, totals st p = (staked_total st p mod two64, owed_total st p mod two64) }.

  (** ** Histories *)

  (** Records are well formed: the coins allowed, 64-bit amounts, an owner who has an account. *)
  Definition good_cdp (st : cstate) (c : cdp) : Prop :=
    c_scoin c = "WUSD"%string /\ c_bcoin c <> "WUSD"%string /\ c_bcoin c <> "WGRT"%string /\
    c_staked c < two64 /\ c_owed c < two64 /\
    exists k, account_of st (c_owner c) = Some k /\ l_get (ledger_of st) k <> None.

  (** Interest due on a position. *)
  Definition due_on (e : cenv) (st : cstate) (id : N) : N :=
    match fget N.eqb (c_cdps st) id with
    | Some c => interest_of interest (pair_of c) (c_owed c) (c_height c) (e_height e)
    | None => 0
    end.

  (** Fund coins issued when the collateral of [c] is worth less than its debt. *)
  Definition issue (price fprice : N) (c : cdp) : N :=
    let value := cast junk (ddiv (dmul (of_N (c_staked c)) (of_N price)) (of_N PRICE_BOOST)) in
    if value <? c_owed c then
      cast junk (ddiv (dmul (of_N (c_owed c - value)) (of_N PRICE_BOOST)) (of_N fprice))
    else 0.
  Definition issues (st : cstate) (fprice : N) (ps : list ((string * string) * (N * bool))) : N :=
    nsum (map (fun d => msum (fun c => if cpair_eqb (pair_of c) (fst d)
                                       then issue (fst (snd d)) fprice c else 0) (c_cdps st)) ps).

  (** Stable coins and fund coins an action may create. *)
  Definition creates (st : cstate) (a : caction) : N * N :=
    match a with
    | CStake e t => (s_mint t + due_on e st (s_cdp t), 0)
    | CSettle e _ ids => (nsum (map (due_on e st) ids), 0)
    | CForce _ fprice ps => (0, issues st fprice ps)
    | _ => (0, 0)
    end.

  (** The liquidator pays at least the debt that is taken off, see c44_price_covers_debt. *)
  Definition pays_debt (e : cenv) (st : cstate) (t : liquidate_tx) : Prop :=
    forall c price k, fget N.eqb (c_cdps st) (q_cdp t) = Some c ->
      price_of e (pair_of c) = Done price -> closing_terms junk e c price = Done k ->
      if k_scoins k <=? q_scoins t then c_owed c <= k_scoins k
      else part_of junk (c_owed c) (ddiv (of_N (q_scoins t)) (of_N (k_scoins k))) <= q_scoins t.

  (** What the rest of the chain does: accounts and registrations stay, pledged balances too
      (only positions use them). *)
  Definition celsewhere (st : cstate) (d : dstate) : Prop :=
    sound d /\
    (forall k s, lbal (d_ledger d) k s BPledged = lbal (ledger_of st) k s BPledged) /\
    (forall k, l_get (ledger_of st) k <> None -> l_get (d_ledger d) k <> None) /\
    (forall r k, fget regid_eqb (d_reg (c_dex st)) r = Some k -> fget regid_eqb (d_reg d) r = Some k).

  (** What may be asked of a state: amounts are 64-bit numbers, ids of transactions are not
      zero and not those of open positions, no token reaches 2^63 units. *)
  Definition allowed (st : cstate) (a : caction) : Prop :=
    wusd st + fst (creates st a) < two63 /\ supply (ledger_of st) "WGRT" + snd (creates st a) < two63 /\
    match a with
    | CStake e t => s_amount t < two64 /\ s_mint t < two64 /\
        (s_cdp t = 0 -> s_id t <> 0 /\ fget N.eqb (c_cdps st) (s_id t) = None)
    | CLiquidate e t => pays_debt e st t
    | CElse d => celsewhere st d
    | _ => True
    end.

  Variable interest_order : N -> N -> N.
  Variable sell_order : N -> string -> N.
  Notation cstep := (cstep junk interest interest_order sell_order).

  (** Everything that can happen: accepted actions in any order. *)
  Inductive creaches (st : cstate) : cstate -> Prop :=
  | creach_here : creaches st st
  | creach_next : forall st1 a st2,
      creaches st st1 -> allowed st1 a -> cstep st1 a = Done st2 -> creaches st st2.

  (** Before the first position. *)
  Definition no_positions (st : cstate) : Prop :=
    c_cdps st = [] /\ c_user st = [] /\ c_ratio st = [] /\ c_heights st = [] /\ c_totals st = [].

  (** ** Debt and stable coins (C57) *)

  (** The interest a further stake pays for the sender when the balance is not enough. *)
  Definition gift (st : cstate) (a : caction) : N :=
    match a with
    | CStake e t =>
        if e_r3 e && negb (s_cdp t =? 0)
        then due_on e st (s_cdp t) - lbal (ledger_of st) (s_sender t) "WUSD" BFree
        else 0
    | _ => 0
    end.
  Definition uncovered (st : cstate) : Z := (Z.of_N (wusd st) - Z.of_N (debt st))%Z.
End Spec.
