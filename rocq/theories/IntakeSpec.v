(** What is claimed of the intake of blocks: C74 and C75. *)
From Coq Require Import List Bool NArith ZArith.
From Verif Require Import Prelude DexModel SchedModel IntakeModel.
Import ListNotations.
Open Scope N_scope.

(** C74. The blocks that the node can bear: the block names a predecessor or is at height 0; the
    sender of its first transaction is a registration id; and at the height of the release of the
    stable coin it is made of a reward and the three transactions that create the coins. *)
Definition names_predecessor (b : blk) : Prop := k_prev b <> 0 \/ k_height b = 0.
Definition names_producer (b : blk) : Prop :=
  k_height b <> 0 -> exists t ts, k_txs b = t :: ts /\ x_regid t = true.
Definition releases (p : params) (b : blk) : Prop :=
  k_height b = p_mint_height p ->
  exists r x y z, k_txs b = [r; x; y; z] /\ map x_kind [x; y; z] = [KMint; KMint; KMint] /\
    (p_main p = true -> map x_id [x; y; z] = p_mints p).
Definition bearable (p : params) (b : blk) : Prop :=
  names_predecessor b /\ names_producer b /\ releases p b.

(** The node neither fails an assertion nor reads memory it does not own nor shuts down. *)
Definition goes_on (o : outcome node) : Prop :=
  exists n, o = Done n /\ c_stopping (n_chain n) = false.

(** C75. The blocks kept until their predecessors arrive, as they are found by their hashes
    ([AlreadyHave] and [ProcessBlock] look there, chainmessage.cpp:190, main.cpp:2116). *)
Definition kept (n : node) : list blk :=
  flat_map (fun e => match deref (n_pool n) (snd e) with Done o => [o_block o] | _ => [] end)
           (q_by_hash (n_pool n)).
Definition knows (n : node) (h : N) : Prop := exists b, In b (c_index (n_chain n)) /\ k_hash b = h.

(** The form of a block: a reward first and nowhere else, no transaction twice, the sizes, the
    version and the nonce within bounds, and one list of median prices from the release of the stable
    coin on. *)
Definition well_formed (p : params) (b : blk) : Prop :=
  (exists t ts, k_txs b = t :: ts /\ x_kind t = KReward /\
     (k_hash b <> p_genesis p -> forall x, In x ts -> x_kind x <> KReward)) /\
  NoDup (map x_id (k_txs b)) /\
  N.of_nat (length (k_txs b)) <= 4000000 /\ k_size b <= 4000000 /\ k_nonce b <= 1000 /\ k_root b = true /\
  (k_hash b <> p_genesis p -> k_version b = 1%Z) /\
  (k_height b < 2147483648 -> (r_ver2 (p_rules p) <= Z.of_N (k_height b))%Z ->
     exists l x r, k_txs b = l ++ x :: r /\ x_kind x = KMedian /\
       forall y, In y (l ++ r) -> x_kind y <> KMedian).
