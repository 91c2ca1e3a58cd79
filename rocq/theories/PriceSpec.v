(** The vocabulary of the claims on fed prices. *)
From Coq Require Import List Bool NArith Permutation.
From Verif Require Import Prelude DexModel PriceModel.
Import ListNotations.
Open Scope N_scope.

(** The prices a block feeds for a pair, with their senders, in order. *)
Definition points_of (p : N) (t : ptx) : list (N * N) :=
  match t with
  | TFeed r pps => map (fun x => (r, snd x)) (filter (fun x => fst x =? p) pps)
  | _ => []
  end.
Definition feeds_of (b : pblock) (p : N) : list (N * N) := concat (map (points_of p) (b_txs b)).

(** The prices fed for a pair in the block of a height. *)
Definition fed (c : list (pblock * list (N * (N * N)))) (p h : N) : list (N * N) :=
  match block_at c h with Some b => feeds_of b p | None => [] end.

(** The prices fed for a pair in the last [w] blocks of a chain, newest first. The first block is not
    looked at. *)
Fixpoint last_prices (c : list (pblock * list (N * (N * N)))) (p : N) (w : nat) : list N :=
  match w, c with
  | S w, (b, _) :: ((_ :: _) as c') => map snd (feeds_of b p) ++ last_prices c' p w
  | _, _ => []
  end.

(** A block as an honest producer makes it: the feeds come before all other transactions, and the
    window is [w]. *)
Definition is_feed (t : ptx) : bool := match t with TFeed _ _ => true | _ => false end.
Definition tidy (w : N) (b : pblock) : Prop :=
  (exists fs others, b_txs b = fs ++ others /\ forallb is_feed fs = true
     /\ forallb (fun t => negb (is_feed t)) others = true)
  /\ b_window_at b = w /\ b_window b = w.

(** A first block: no feeds. *)
Definition first_block (w : N) (b : pblock) : Prop := b_txs b = [] /\ b_window b = w.

(** The lives of a node: every history of events whose blocks satisfy [ok]. *)
Inductive plives (ok : pblock -> Prop) (g : pblock) : pworld -> Prop :=
| pl_start : plives ok g (pstart g)
| pl_step w e w' : plives ok g w ->
    (forall b, e = EConnect b -> ok b) -> (forall i bs b, e = EExtend i bs -> In b bs -> ok b) ->
    pstep w e = Done w' -> plives ok g w'.

(** A chain a node knows of, with the cache for it: its own, or a fork. *)
Definition held (w : pworld) (c : list (pblock * list (N * (N * N)))) (k : list (N * list (N * list (N * N)))) : Prop :=
  (c = w_chain w /\ k = w_book w) \/ In (c, k) (w_forks w).

(** The verdict on a further block: whether it is accepted, and the medians stored after it. *)
Definition verdict (c : list (pblock * list (N * (N * N)))) (k : list (N * list (N * list (N * N)))) (b : pblock)
  : outcome (list (N * (N * N))) :=
  match connect_tip c b k with
  | Done (c', _) => Done (stored c')
  | Reject => Reject | Abort => Abort | Undefined => Undefined
  end.

(** The detail to be stored for a pair after a block [b] on a chain [c]: the median of the prices of
    the last [w] blocks; where it is zero, the old detail. The height of the last feed is that of
    the block if it feeds the pair. *)
Definition due (w : N) (c : list (pblock * list (N * (N * N)))) (b : pblock) (p : N) : N * N :=
  let h := N.of_nat (length c) in
  let m := median (last_prices ((b, []) :: c) p (N.to_nat w)) in
  let fresh := negb (Nat.eqb (length (feeds_of b p)) 0) in
  match fget N.eqb (stored c) p with
  | None => (m, if fresh then h else 0)
  | Some old => if m =? 0 then old else (m, if fresh then h else snd old)
  end.
(** The details to be stored: those of the pairs that may be fed, without those that are zero. *)
Definition dues (w : N) (c : list (pblock * list (N * (N * N)))) (b : pblock) : list (N * (N * N)) :=
  filter (fun x => negb (fst (snd x) =? 0)) (map (fun p => (p, due w c b p)) (b_pairs b)).

(** What a further block has to satisfy: one median, each sender feeds a pair once, and the median's
    prices, zeros left out, are those due. *)
Definition senders (l : list (N * N)) : list N := map fst l.
Definition once (b : pblock) : Prop := forall p, NoDup (senders (feeds_of b p)).
Definition accept (w : N) (c : list (pblock * list (N * (N * N)))) (b : pblock) : Prop :=
  length (filter is_median (b_txs b)) = 1%nat /\ once b
  /\ exists claimed, In (TMedian claimed) (b_txs b)
     /\ filter (fun x => negb (snd x =? 0)) claimed = map (fun x => (fst x, fst (snd x))) (dues w c b).
