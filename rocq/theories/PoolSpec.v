(** What it means that the transactions of a pool can be executed together. *)
From Coq Require Import List Bool NArith ZArith Sorting.Sorted.
From Verif Require Import PoolModel.
Import ListNotations.
Open Scope N_scope.

(** Two states hold the same. *)
Definition same (s s' : N -> N) : Prop := forall k, s k = s' k.
(** A state after some writes, of which the first in the list was made last. *)
Definition after (s : N -> N) (w : list (N * N)) : N -> N :=
  fold_right (fun e s k => if k =? fst e then snd e else s k) s w.

(** Transactions depend on a state only through what it holds. *)
Definition reads_state {A} (f : pctx -> ptx -> (N -> N) -> A) : Prop :=
  forall x t s s', same s s' -> f x t s = f x t s'.

(** Transactions, each with its index, are executed one after the other. *)
Inductive executes (ex : pctx -> ptx -> (N -> N) -> option (list (N * N))) (c : N -> pctx) :
  (N -> N) -> list (N * ptx) -> (N -> N) -> Prop :=
  | ex_end s s' : same s s' -> executes ex c s [] s'
  | ex_step s i t w r s' : ex (c i) t s = Some w -> executes ex c (after s w) r s' ->
      executes ex c s ((i, t) :: r) s'.

(** Of a list, each one is kept that may be and that can be executed after those kept before it. *)
Inductive sieve (may : ptx -> Prop) (ex : pctx -> ptx -> (N -> N) -> option (list (N * N))) (c : N -> pctx) :
  N -> (N -> N) -> list ptx -> list (N * ptx) -> (N -> N) -> Prop :=
  | sv_end i s s' : same s s' -> sieve may ex c i s [] [] s'
  | sv_keep i s t w r k s' : may t -> ex (c i) t s = Some w -> sieve may ex c (i + 1) (after s w) r k s' ->
      sieve may ex c i s (t :: r) ((i, t) :: k) s'
  | sv_drop i s t r k s' : ~ may t \/ ex (c i) t s = None -> sieve may ex c (i + 1) s r k s' ->
      sieve may ex c i s (t :: r) k s'.

(** The context in which the pool executes: the height of the next block and the fuel rate for it;
    time and producer are those of the tip, and the time before is that of the block before it. *)
Definition next_ctx (burn : list pblock -> N) (n : pnode) (i : N) : pctx :=
  let tip := match n_chain n with (b, _) :: _ => b | [] => n_first n end in
  let before := match n_chain n with _ :: (b, _) :: _ => b | _ => n_first n end in
  {| x_height := N.of_nat (length (n_chain n)) + 1; x_index := i;
     x_rate := burn (map fst (n_chain n) ++ [n_first n]);
     x_time := b_time tip; x_prev := b_time before; x_bp := b_bp tip |}.

(** The declared height is at most [H/2] away from a height. *)
Definition near (H cur : N) (t : ptx) : Prop :=
  p_always t = true \/ (Z.abs (p_valid t - Z.of_N cur) <= Z.of_N (H / 2))%Z.
(** The ids in the last [H] blocks after the first. *)
Definition recent (H : N) (n : pnode) (id : N) : Prop :=
  exists b u, In b (firstn (N.to_nat H) (map fst (n_chain n))) /\ In u (b_txs b) /\ p_id u = id.
(** Fit for the next block, as the pool sees it. *)
Definition fit (H : N) (n : pnode) (t : ptx) : Prop :=
  near H (n_height n + 1) t /\ ~ recent H n (p_id t).
Definition by_id : list ptx -> Prop := StronglySorted (fun a b => p_id a < p_id b).

Section Histories.
Variable H : N.
Variable burn : list pblock -> N.
Variable check : pctx -> ptx -> (N -> N) -> bool.
Variable exec : pctx -> ptx -> (N -> N) -> option (list (N * N)).
Variable check_reads exec_reads : pctx -> ptx -> (N -> N) -> list N.
Variable standard : ptx -> bool.
Variable joins : list pblock -> (N -> N) -> pblock -> option (list (N * N)).
Notation step := (pstep H burn check exec check_reads exec_reads standard joins).
Notation back := (go_back H burn check exec check_reads exec_reads standard).

(** A node at any time. *)
Inductive plives (g : pblock) (s : N -> N) : pnode -> Prop :=
  | pl_start : plives g s (pstart g s)
  | pl_step n e : plives g s n -> plives g s (step n e).

(** One or more blocks are connected and the next is refused. *)
Inductive breaks_off : pnode -> list pblock -> Prop :=
  | bo_now n b n1 b2 r : connect_tip joins n b = Some n1 -> connect_tip joins n1 b2 = None ->
      breaks_off n (b :: b2 :: r)
  | bo_later n b n1 b2 r : connect_tip joins n b = Some n1 -> breaks_off n1 (b2 :: r) ->
      breaks_off n (b :: b2 :: r).
Definition whole (n : pnode) (e : pevent) : Prop :=
  match e with Round k bs => ~ breaks_off (back k n) bs | _ => True end.
(** The pool is rescanned at the end of an event. *)
Definition mends (n : pnode) (e : pevent) : Prop :=
  match e with
  | Drop _ | Fin _ => True
  | Round k bs => ~ breaks_off (back k n) bs
      /\ (k <> O \/ exists b r n1, bs = b :: r /\ connect_tip joins n b = Some n1)
  | _ => False
  end.
(** A node whose last change of the chain did not break off. *)
Inductive calm (g : pblock) (s : N -> N) : pnode -> Prop :=
  | calm_start : calm g s (pstart g s)
  | calm_keep n e : calm g s n -> whole n e -> calm g s (step n e)
  | calm_mend n e : plives g s n -> mends n e -> calm g s (step n e).
End Histories.

(** The pool can be executed in some order; the layer shows the result. *)
Definition joint (ex : pctx -> ptx -> (N -> N) -> option (list (N * N))) (c : N -> pctx) (n : pnode) (l : list (N * ptx)) : Prop :=
  executes ex c (n_base n) l (upd (n_base n) (n_layer n)).
