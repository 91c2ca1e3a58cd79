(** What is claimed about fuel: C71 (an executed transaction's fuel never costs more than its fee), C72
    (the block that a producer assembles passes the checks of fuel) and C73 (the rate follows the load
    and stays within bounds). *)
From Coq Require Import List Bool NArith ZArith.
From Verif Require Import Prelude DexModel FuelModel.
Import ListNotations.
Open Scope N_scope.

(** ** Rates *)

(** Chains as nodes accept them (main.cpp:1896): the newest block first, each block with the rate that
    follows from its ancestors, and with any fuel fee that a node can read from a header. *)
Inductive fuel_chain (n : N) : list entry -> Prop :=
| fc_genesis f : f < two32 -> fuel_chain n [mkEntry init_fuel_rate f]
| fc_next c r f : fuel_chain n c -> element_for_burn n c = Done r -> f < two32 ->
    fuel_chain n (mkEntry r f :: c).

(** The fuel that a block's fee stands for, and the average of it over the newest [n] blocks. *)
Fixpoint units (l : list entry) : N :=
  match l with [] => 0 | e :: l' => e_fee e / e_rate e * 100 + units l' end.
Definition load (n : N) (chain : list entry) : N := units (firstn (N.to_nat n) chain) / n.

(** The highest rate that a chain can reach with the usual window of 50 blocks. *)
Definition highest_rate : N := 21543.

(** ** Fees *)

(** The least fees that the code itself requires after the stable coin's release. *)
Definition usual_fee (k : kind) : N :=
  match k with
  | LuaDeploy | UniDeploy => 100000000
  | LuaCall | UniCall => 1000000
  | Uni => 100000
  | Plain => 0
  end.

Definition is_deploy (k : kind) : Prop := k = LuaDeploy \/ k = UniDeploy.

(** Governance has not set a fee below these. *)
Definition fees_kept {St} (gov : St -> kind -> symbol -> option N) : Prop :=
  forall st k s f, gov st k s = Some f -> usual_fee k <= f.

(** What is assumed about the rest of execution: a contract transaction does not change the fees that
    governance has set, a transaction whose fee is in another symbol than WICC or WUSD is refused, and so
    is a call whose fee exceeds all the WICC there is. *)
Record rest_ok {St} (gov : St -> kind -> symbol -> option N)
  (rest : N -> N -> St -> tx -> option (St * burn)) : Prop := {
  ro_gov : forall i l st t st' u, rest i l st t = Some (st', u) -> x_kind t <> Plain -> gov st' = gov st;
  ro_symbol : forall i l st t r, rest i l st t = Some r -> x_kind t = Plain -> x_symbol t <> Token;
  ro_fee : forall i l st t r, rest i l st t = Some r -> x_kind t = LuaCall -> x_fee t <= max_money }.

(** Objects as a node holds them: Lua transactions pay in WICC (they do not carry a symbol), transactions without fuel have none, and a deployment has either not been executed
    by this node or holds the size of its contract from an earlier execution. *)
Record held (t : tx) : Prop := {
  h_lua : x_kind t = LuaDeploy \/ x_kind t = LuaCall -> x_symbol t = Wicc;
  h_plain : x_kind t = Plain -> x_fuel t = 0;
  h_deploy : is_deploy (x_kind t) -> x_fuel t = 0 \/ x_fuel t = contract_size t }.

(** The same transaction, in whatever object. *)
Definition same_tx (t t' : tx) : Prop := with_fuel t 0 = with_fuel t' 0.

(** A universal transaction's fee leaves room for what rounding can add: two units of a hundred fuel,
    and one part in 2^24. *)
Definition roomy {St} (rest : N -> N -> St -> tx -> option (St * burn)) (rate : N) (t : tx) : Prop :=
  x_kind t = Uni -> forall i l st st' u, rest i l st (with_fuel t 0) = Some (st', u) ->
    (universal_fuel t u / 100 + 2) * rate * (2 ^ 24 + 1) <= x_fee t * 2 ^ 24.

(** Outcomes that do not stop the node. *)
Definition goes_on {A} (o : outcome A) : Prop := o = Reject \/ exists a, o = Done a.
