(** Theorems on the pool of transactions (C38), on transactions that come back from disconnected
    blocks (C76) and on what a producer has executed (C77). *)
From Coq Require Import List Bool NArith ZArith Lia Permutation.
From Verif Require Import Prelude PoolModel PoolSpec PoolProofs.
Import ListNotations.
Open Scope N_scope.

(** ** C38 *)

(** While no change of the chain breaks off, or after the next rescan if one did: the transactions of
    the pool can be executed in some order on the confirmed state, each with some index, and what is
    read through the pool's layer is the result. They are different, none may not be sent on, each is
    fit for the next block. *)
Theorem c38_joint H burn check exec check_reads exec_reads standard joins g s n :
  reads_state exec -> calm H burn check exec check_reads exec_reads standard joins g s n ->
  (exists l, joint exec (next_ctx burn n) n l /\ Permutation (map snd l) (n_pool n))
  /\ Forall (fit H n) (n_pool n) /\ by_id (n_pool n)
  /\ Forall (fun t => p_forbid t = false /\ standard t = true) (n_pool n).
Proof.
  intros RS C. destruct (calm_good _ _ _ _ _ _ _ _ RS _ _ _ C) as (l & J & P & F).
  destruct (lives_tidy _ _ _ _ _ _ _ _ _ _ _ (calm_lives _ _ _ _ _ _ _ _ _ _ _ C)) as [A B].
  split; [exists l; split; [exact (executes_ctx _ _ _ _ _ _ (ctx_next burn n) J)|exact P]|]. split; [exact F|]. split; [exact A|exact B].
Qed.
Print Assumptions c38_joint.

(** The answer to a transaction that arrives. *)
Theorem c38_verdict H burn check exec check_reads exec_reads standard n t spare :
  reads_state exec ->
  let s := upd (n_base n) (n_layer n) in
  (fst (accept H burn check exec check_reads exec_reads standard n t spare) = true <->
   (~ exists u, In u (n_pool n) /\ p_id u = p_id t) /\ p_forbid t = false /\ standard t = true /\ spare = true
   /\ check (next_ctx burn n 0) t s = true
   /\ fit H n t /\ exec (next_ctx burn n (N.of_nat (length (n_pool n)))) t s <> None).
Proof. intros RS s. rewrite <- !ctx_next. now apply accept_verdict. Qed.
Print Assumptions c38_verdict.

(** A request to drop a transaction: of the others each is kept, in the order of ids, that is fit and
    can be executed after those kept before it. So it is whatever happened before. *)
Theorem c38_drop H burn check exec check_reads exec_reads standard joins n id :
  reads_state exec ->
  let n' := pstep H burn check exec check_reads exec_reads standard joins n (Drop id) in
  n_base n' = n_base n /\ n_chain n' = n_chain n
  /\ exists k, sieve (fit H n) exec (next_ctx burn n) 0 (n_base n) (filter (fun u => negb (p_id u =? id)) (n_pool n)) k
                 (upd (n_base n) (n_layer n'))
     /\ n_pool n' = map snd k.
Proof.
  intros RS n'. do 2 (split; [reflexivity|]).
  destruct (rescan_sieve H burn exec exec_reads RS (set_pool n (remove_id id (n_pool n)) (n_layer n)) [] 0 (remove_id id (n_pool n))) as (k & A & B).
  exists k. split; [exact (sieve_ctx _ _ _ _ _ _ _ _ _ (ctx_next burn _) A)|]. now rewrite B.
Qed.
Print Assumptions c38_drop.

(** A block that is connected: the same on the state after it, for what is not in the block. *)
Theorem c38_block H burn check exec check_reads exec_reads standard joins n b w :
  reads_state exec -> joins (n_blocks n) (n_base n) b = Some w ->
  let n' := pstep H burn check exec check_reads exec_reads standard joins n (Round 0 [b]) in
  same (n_base n') (after (n_base n) w) /\ n_chain n' = (b, n_base n) :: n_chain n
  /\ exists l k, Permutation l (filter (fun u => negb (existsb (fun v => p_id v =? p_id u) (b_txs b))) (n_pool n))
     /\ (by_id (n_pool n) -> by_id l)
     /\ sieve (fit H n') exec (next_ctx burn n') 0 (n_base n') l k (upd (n_base n') (n_layer n'))
     /\ n_pool n' = map snd k.
Proof.
  intros RS J n'. set (n1 := mkNode (n_first n) ((b, n_base n) :: n_chain n) (upd (n_base n) w)
    (filter (fun u => negb (exists_in (p_id u) (b_txs b))) (n_pool n)) (n_layer n)).
  assert (E : n' = PoolModel.rescan H burn exec exec_reads n1).
  { unfold n'. cbn [pstep]. unfold round. cbn [go_back connect_on]. unfold connect_tip. now rewrite J. }
  rewrite E. split; [exact (upd_after (n_base n) w)|]. split; [reflexivity|].
  destruct (rescan_sieve H burn exec exec_reads RS n1 [] 0 (n_pool n1)) as (k & A & B).
  exists (n_pool n1), k. split; [easy|]. split; [apply filter_sorted|]. split; [exact (sieve_ctx _ _ _ _ _ _ _ _ _ (ctx_next burn _) A)|]. now rewrite B.
Qed.
Print Assumptions c38_block.

(** ** C76 *)

(** A transaction of a disconnected block is in the pool afterwards if every state accepts it, the
    heights around stay within its range, no id occurs twice and no new block holds it. *)
Theorem c76_return H burn check exec check_reads exec_reads standard joins g s n t j b s0 k bs :
  reads_state exec -> calm H burn check exec check_reads exec_reads standard joins g s n ->
  p_forbid t = false -> standard t = true -> (forall x s, check x t s = true) -> (forall x s, exec x t s <> None) ->
  nth_error (n_chain n) j = Some (b, s0) -> In t (b_txs b) -> (j < k <= length (n_chain n))%nat -> (j < N.to_nat H)%nat ->
  NoDup (concat (map (fun e => map p_id (b_txs (fst e))) (n_chain n))) ->
  (forall b' u, In b' bs -> In u (b_txs b') -> p_id u <> p_id t) ->
  (forall h, n_height n - N.of_nat k + 1 <= h <= N.max (n_height n) (n_height n - N.of_nat k + 1 + N.of_nat (length bs)) -> near H h t) ->
  In t (n_pool (pstep H burn check exec check_reads exec_reads standard joins n (Round k bs))).
Proof.
  intros RS C F Sd Ck Ex E I [L L2] LH ND D V.
  assert (NP : forall u, In u (n_pool n) -> p_id u <> p_id t).
  { intros u K Q. destruct (c38_joint _ _ _ _ _ _ _ _ _ _ _ RS C) as (_ & Ft & _). rewrite Forall_forall in Ft.
    destruct (Ft u K) as [_ NR]. apply NR. exists b, t. split; [|split; [easy|easy]].
    rewrite firstn_map. apply in_map_iff. exists (b, s0). split; [easy|]. eapply nth_firstn; eassumption. }
  assert (Hd : hardy exec check standard t) by (split; [easy|split; [easy|split; easy]]).
  cbn [pstep]. unfold round. assert (HT : n_height n = N.of_nat (length (n_chain n))) by reflexivity.
  assert (CH : n_chain (go_back H burn check exec check_reads exec_reads standard k n) = skipn k (n_chain n)).
  { destruct k; [lia|]. cbn [go_back]. change (n_chain (disconnect H burn check exec check_reads exec_reads standard (S k) n) = skipn (S k) (n_chain n)). apply dis_chain. }
  apply (connect_on_stays H burn exec exec_reads check check_reads standard joins t); [exact Hd| |exact D| |].
  - eapply go_back_returns; try eassumption; apply V; lia.
  - rewrite CH. intros J. rewrite <- (firstn_skipn k (n_chain n)), map_app, concat_app in ND.
    apply nodup_app in ND as (_ & _ & DJ). apply (DJ (p_id t)); [|exact J].
    refine (in_chain_ids _ b s0 t _ I). eapply nth_firstn; eassumption.
  - intros h Q. apply V. unfold n_height in Q at 1 2. rewrite CH, skipn_length in Q. lia.
Qed.
Print Assumptions c76_return.

(** ** C77 *)

(** What a producer has packed, from candidates that are not confirmed and whose heights the block
    allows, is executed when the block is connected to the same chain, with the same result. *)
Theorem c77_runs H check exec fuel_of check_reads exec_reads max_fuel cap n mk cs size :
  reads_state check -> reads_state exec -> reads_state fuel_of ->
  (forall t, In t (map fst cs) -> near H (n_height n) t /\ ~ recent H n (p_id t)) ->
  let r := pack check exec fuel_of check_reads exec_reads max_fuel cap mk (n_base n) [] 0 size 0 cs in
  exists l, run_block H check exec fuel_of check_reads exec_reads max_fuel n mk [] 1 0 (fst r) = Some l
    /\ same (upd (n_base n) l) (upd (n_base n) (snd r)).
Proof.
  intros RC RE RF A r. apply (pack_runs H check exec fuel_of check_reads exec_reads RC RE RF max_fuel cap n mk cs) with (i := 0); [|apply same_refl].
  apply Forall_forall. intros [t b] I. assert (J : In t (map fst cs)) by (apply in_map_iff; exists (t, b); easy).
  destruct (A t J) as [P Q]. cbn [fst]. split; [|now apply valid_near].
  destruct (n_known H n (p_id t)) eqn:K; [|easy]. destruct Q. now apply known_recent.
Qed.
Print Assumptions c77_runs.

(** From the pool of a node whose last change of the chain did not break off: only a declared height
    at the far end is in the way (C69). *)
Theorem c77_pool H burn check exec fuel_of check_reads exec_reads standard joins max_fuel cap g s n mk cs size :
  reads_state check -> reads_state exec -> reads_state fuel_of ->
  calm H burn check exec check_reads exec_reads standard joins g s n ->
  (forall t, In t (map fst cs) -> In t (n_pool n) /\ p_valid t <> (Z.of_N (n_height n) + 1 + Z.of_N (H / 2))%Z) ->
  let r := pack check exec fuel_of check_reads exec_reads max_fuel cap mk (n_base n) [] 0 size 0 cs in
  exists l, run_block H check exec fuel_of check_reads exec_reads max_fuel n mk [] 1 0 (fst r) = Some l
    /\ same (upd (n_base n) l) (upd (n_base n) (snd r)).
Proof.
  intros RC RE RF C A. apply c77_runs; try assumption. intros t I. destruct (A t I) as [J NE].
  destruct (c38_joint _ _ _ _ _ _ _ _ _ _ _ RE C) as (_ & F & _). rewrite Forall_forall in F. destruct (F t J) as [[P|P] Q]; (split; [|exact Q]).
  - now left.
  - right. set (h := Z.of_N (H / 2)) in *. clearbody h. lia.
Qed.
Print Assumptions c77_pool.

(** Nothing is left out without a reason: with time for all, candidates that every state accepts are
    all packed if their sizes and their fuel keep to the limits. *)
Theorem c77_all check exec fuel_of check_reads exec_reads max_fuel cap mk s cs size most :
  cap <= two64 -> max_fuel <= two64 ->
  (forall t x s', In t (map fst cs) -> check x t s' = true /\ exec x t s' <> None /\ fuel_of x t s' <= most t) ->
  (forall e, In e cs -> snd e = true) ->
  size + fold_right N.add 0 (map (fun e => p_size (fst e)) cs) < cap ->
  fold_right N.add 0 (map (fun e => most (fst e)) cs) < max_fuel ->
  fst (pack check exec fuel_of check_reads exec_reads max_fuel cap mk s [] 0 size 0 cs) = map fst cs.
Proof.
  intros C1 C2 A T SZ FU. apply (pack_all check exec fuel_of check_reads exec_reads max_fuel cap mk s most); try assumption.
  - now apply Forall_forall.
  - enough (Q : total p_size (map fst cs) = fold_right N.add 0 (map (fun e => p_size (fst e)) cs)) by (rewrite Q; exact SZ).
    clear. induction cs as [|e cs IH]; cbn; [easy|]. f_equal. exact IH.
  - enough (Q : total most (map fst cs) = fold_right N.add 0 (map (fun e => most (fst e)) cs)) by (rewrite Q; lia).
    clear. induction cs as [|e cs IH]; cbn; [easy|]. f_equal. exact IH.
Qed.
Print Assumptions c77_all.

(** What is packed keeps below the limit on sizes, with what the block holds already. *)
Theorem c77_size check exec fuel_of check_reads exec_reads max_fuel cap mk s cs size :
  cap <= two64 - 2 ^ 32 -> size < two64 - 2 ^ 32 -> (forall e, In e cs -> p_size (fst e) < 2 ^ 32) ->
  let ts := fst (pack check exec fuel_of check_reads exec_reads max_fuel cap mk s [] 0 size 0 cs) in
  ts <> [] -> size + fold_right N.add 0 (map p_size ts) < cap.
Proof.
  intros Hc Hs F ts N. enough (Q : fold_right N.add 0 (map p_size ts) = total p_size ts).
  - rewrite Q. apply pack_size; try assumption. now apply Forall_forall.
  - clearbody ts. clear. induction ts as [|t ts IH]; cbn; [easy|]. f_equal. exact IH.
Qed.
Print Assumptions c77_size.

(** ** Cases *)
Section Instance.
(** Keys 1 and 2; transactions by their ids:
    9 writes 1 to key 1; 5 needs a 1 in key 1; 8 needs it and writes nothing; 4 writes it;
    7 needs a 0 there and writes 1; 6 needs a 1 and writes 2; others write their index to the key of
    their id. *)
Let ex (x : pctx) (t : ptx) (s : N -> N) : option (list (N * N)) :=
  match p_id t with
  | 9 => Some [(1, 1)]
  | 5 => if s 1 =? 1 then Some [(2, 1)] else None
  | 8 => if s 1 =? 1 then Some [] else None
  | 4 => Some [(1, 1)]
  | 7 => if s 1 =? 0 then Some [(1, 1)] else None
  | 6 => if s 1 =? 1 then Some [(1, 2)] else None
  | id => Some [(id, x_index x + 100)]
  end.
Let rd (x : pctx) (t : ptx) (s : N -> N) : list N := [1; p_id t].
Let ok (x : pctx) (t : ptx) (s : N -> N) : bool := true.
Let fl (x : pctx) (t : ptx) (s : N -> N) : N := 10.
Let tx (id : N) : ptx := mkP id 3 false false 100.
Let blk (id : N) (l : list ptx) : pblock := mkPB id (10 * id) 7 1 l.
(** Block 66 is refused; 60 writes 0 to key 1; 61 writes 1 to it; others write nothing. *)
Let jn (c : list pblock) (s : N -> N) (b : pblock) : option (list (N * N)) :=
  match b_id b with 66 => None | 60 => Some [(1, 0)] | 61 => Some [(1, 1)] | _ => Some [] end.
Let bn (c : list pblock) : N := 1.
Let std (t : ptx) : bool := true.
Let g : pblock := blk 0 [].
Let s0 (v : N) : N -> N := fun k => if k =? 1 then v else 0.
Notation step := (pstep 500 bn ok ex rd rd std jn).
Notation run := (prun 500 bn ok ex rd rd std jn).

Lemma ex_reads : reads_state ex.
Proof.
  intros x t s s' E. unfold ex. rewrite (E 1). reflexivity.
Qed.
Lemma ok_reads : reads_state ok. Proof. intros x t s s' E. reflexivity. Qed.
Lemma fl_reads : reads_state fl. Proof. intros x t s s' E. reflexivity. Qed.

Lemma run_lives v es : plives 500 bn ok ex rd rd std jn g (s0 v) (run (pstart g (s0 v)) es).
Proof.
  assert (Q : forall n, plives 500 bn ok ex rd rd std jn g (s0 v) n -> plives 500 bn ok ex rd rd std jn g (s0 v) (run n es)).
  { induction es as [|e es IH]; intros n L; cbn [prun]; [easy|]. apply IH. now constructor. }
  apply Q. constructor.
Qed.
(** Submissions and single blocks. *)
Let simple (e : pevent) : bool :=
  match e with Submit _ _ | Look _ | Drop _ | Fin _ => true | Round 0 [_] => true | _ => false end.
Lemma run_calm v es : forallb simple es = true -> calm 500 bn ok ex rd rd std jn g (s0 v) (run (pstart g (s0 v)) es).
Proof.
  assert (Q : forall n, forallb simple es = true -> calm 500 bn ok ex rd rd std jn g (s0 v) n -> calm 500 bn ok ex rd rd std jn g (s0 v) (run n es)).
  { induction es as [|e es IH]; intros n S L; cbn [prun]; [easy|]. cbn in S. apply andb_true_iff in S as [S1 S2]. apply IH; [easy|].
    apply calm_keep; [easy|]. destruct e as [t sp|id|ks|[|k] [|b [|b2 r]]|b]; cbn in *; easy. }
  intros S. apply Q; [easy|]. constructor.
Qed.

(** Two transactions in the pool, one needs the other; a block that changes nothing else. *)
Example case_joint : let n := run (pstart g (s0 0)) [Submit (tx 4) true; Submit (tx 8) true; Look [1; 2]; Submit (tx 30) true] in
  calm 500 bn ok ex rd rd std jn g (s0 0) n /\ map p_id (n_pool n) = [4; 8; 30] /\ n_layer n <> []
  /\ upd (n_base n) (n_layer n) 1 = 1 /\ upd (n_base n) (n_layer n) 30 = 102.
Proof. cbv zeta. split; [now apply run_calm|]. split; [vm_compute; reflexivity|]. split; [vm_compute; discriminate|]. split; vm_compute; reflexivity. Qed.
Example case_joint_use : let n := run (pstart g (s0 0)) [Submit (tx 4) true; Submit (tx 8) true; Look [1; 2]; Submit (tx 30) true] in
  exists l, joint ex (next_ctx bn n) n l /\ Permutation (map snd l) (n_pool n).
Proof.
  cbv zeta. destruct (c38_joint 500 bn ok ex rd rd std jn g (s0 0) _ ex_reads (run_calm 0 [Submit (tx 4) true; Submit (tx 8) true; Look [1; 2]; Submit (tx 30) true] eq_refl)) as [A _].
  exact A.
Qed.
(** One that cannot be executed is refused, one whose range is past as well. *)
Example case_verdict :
  fst (accept 500 bn ok ex rd rd std (pstart g (s0 0)) (tx 8) true) = false
  /\ fst (accept 500 bn ok ex rd rd std (pstart g (s0 1)) (tx 8) true) = true
  /\ fst (accept 500 bn ok ex rd rd std (pstart g (s0 1)) (mkP 8 251 false false 100) true) = true
  /\ fst (accept 500 bn ok ex rd rd std (pstart g (s0 1)) (mkP 8 252 false false 100) true) = false.
Proof. vm_compute. repeat split. Qed.
(** A request to drop 4 takes 8 with it. *)
Example case_drop : let n := run (pstart g (s0 0)) [Submit (tx 4) true; Submit (tx 8) true; Submit (tx 30) true] in
  map p_id (n_pool (step n (Drop 4))) = [30].
Proof. vm_compute. reflexivity. Qed.
(** A block that holds 4 leaves 8 to be executed on the new state. *)
Example case_block : let n := run (pstart g (s0 0)) [Submit (tx 4) true; Submit (tx 8) true; Submit (tx 30) true] in
  jn (n_blocks n) (n_base n) (blk 61 [tx 4]) = Some [(1, 1)]
  /\ map p_id (n_pool (step n (Round 0 [blk 61 [tx 4]]))) = [8; 30]
  /\ map p_id (n_pool (step n (Round 0 [blk 60 [tx 4]]))) = [30].
Proof. vm_compute. repeat split. Qed.
(** A transaction that comes back: two blocks are replaced by three. *)
Let n3 := run (pstart g (s0 0)) [Submit (tx 30) true; Round 0 [blk 1 [tx 30; tx 31]]; Round 0 [blk 2 [tx 32]]].
Example case_return : In (tx 31) (n_pool (step n3 (Round 2 [blk 11 []; blk 12 [tx 30]; blk 13 []]))).
Proof.
  apply (c76_return 500 bn ok ex rd rd std jn g (s0 0) n3 (tx 31) 1 (blk 1 [tx 30; tx 31]) (s0 0)).
  - exact ex_reads.
  - now apply (run_calm 0).
  - reflexivity.
  - reflexivity.
  - reflexivity.
  - intros x s. unfold ex. cbn. discriminate.
  - reflexivity.
  - cbn. tauto.
  - cbn. lia.
  - lia.
  - repeat constructor; cbn; intuition discriminate.
  - intros b' u I J. cbn in I. destruct I as [<-|[<-|[<-|[]]]]; cbn in J; [easy| |easy]. destruct J as [<-|[]]. discriminate.
  - intros h Q. right. change (n_height n3) with 2 in Q. cbn [length] in Q. change (500 / 2) with 250. unfold tx. cbn [p_valid]. lia.
Qed.
(** A producer takes 4, then 8, which needs it; 5 does not fit into the size left. *)
Let mk (i : N) : pctx := mkX 1 i 1 100 0 7.
Let cands : list (ptx * bool) := [(tx 8, true); (tx 4, true); (mkP 5 3 false false 900, true); (tx 30, true); (tx 40, false); (tx 41, true)].
Example case_pack :
  map p_id (fst (pack ok ex fl rd rd 1000 1000 mk (s0 0) [] 0 200 0 cands)) = [4; 30]
  /\ exists l, run_block 500 ok ex fl rd rd 1000 (pstart g (s0 0)) mk [] 1 0 (fst (pack ok ex fl rd rd 1000 1000 mk (s0 0) [] 0 200 0 cands)) = Some l
     /\ upd (s0 0) l 1 = 1 /\ upd (s0 0) l 30 = 102.
Proof. split; [vm_compute; reflexivity|]. eexists. split; [vm_compute; reflexivity|]. vm_compute. split; reflexivity. Qed.
Example case_runs : exists l, run_block 500 ok ex fl rd rd 1000 (pstart g (s0 0)) mk [] 1 0 (fst (pack ok ex fl rd rd 1000 1000 mk (s0 0) [] 0 200 0 cands)) = Some l
  /\ same (upd (s0 0) l) (upd (s0 0) (snd (pack ok ex fl rd rd 1000 1000 mk (s0 0) [] 0 200 0 cands))).
Proof.
  apply (c77_runs 500 ok ex fl rd rd 1000 1000 (pstart g (s0 0)) mk cands 200 ok_reads ex_reads fl_reads).
  intros t I. split.
  - right. cbn in I. destruct I as [<-|[<-|[<-|[<-|[<-|[<-|[]]]]]]]; vm_compute; discriminate.
  - intros (b & u & J & _). cbn in J. now rewrite firstn_nil in J.
Qed.
Example case_all : map p_id (fst (pack ok ex fl rd rd 1000 1000 mk (s0 0) [] 0 200 0 [(tx 4, true); (tx 30, true)])) = [4; 30].
Proof.
  rewrite (c77_all ok ex fl rd rd 1000 1000 mk (s0 0) [(tx 4, true); (tx 30, true)] 200 (fun _ => 10)); [reflexivity|vm_compute; discriminate|vm_compute; discriminate| | |vm_compute; reflexivity|vm_compute; reflexivity].
  - intros t x s' I. cbn in I. destruct I as [<-|[<-|[]]]; (split; [reflexivity|split; [discriminate|vm_compute; discriminate]]).
  - intros e I. cbn in I. destruct I as [<-|[<-|[]]]; reflexivity.
Qed.
Example case_size : let ts := fst (pack ok ex fl rd rd 1000 1000 mk (s0 0) [] 0 200 0 cands) in
  map p_size ts = [100; 100] /\ 200 + fold_right N.add 0 (map p_size ts) < 1000.
Proof.
  split; [vm_compute; reflexivity|]. apply c77_size.
  - vm_compute. discriminate.
  - reflexivity.
  - intros e I. cbn in I. destruct I as [<-|[<-|[<-|[<-|[<-|[<-|[]]]]]]]; reflexivity.
  - vm_compute. discriminate.
Qed.

(** ** What does not hold *)

(** The order of acceptance: two transactions stay in the pool, but the first cannot be executed
    first any more. *)
Theorem c38_order_refuted : exists H burn check exec check_reads exec_reads standard joins g s t1 t2 b,
  reads_state exec
  /\ let n0 := pstart g s in
     let n1 := pstep H burn check exec check_reads exec_reads standard joins n0 (Submit t1 true) in
     let n2 := pstep H burn check exec check_reads exec_reads standard joins n1 (Submit t2 true) in
     let n3 := pstep H burn check exec check_reads exec_reads standard joins n2 (Round 0 [b]) in
     n_pool n1 = [t1] /\ In t1 (n_pool n2) /\ In t2 (n_pool n2) /\ In t1 (n_pool n3) /\ In t2 (n_pool n3)
     /\ forall i1 i2 s', ~ executes exec (next_ctx burn n3) (n_base n3) [(i1, t1); (i2, t2)] s'.
Proof.
  exists 500, bn, ok, ex, rd, rd, std, jn, g, (s0 1), (tx 8), (tx 4), (blk 60 []). split; [exact ex_reads|]. cbv zeta.
  split; [vm_compute; reflexivity|]. split; [vm_compute; tauto|]. split; [vm_compute; tauto|]. split; [vm_compute; tauto|].
  split; [vm_compute; tauto|]. intros i1 i2 s' X. inversion X as [|? ? ? w ? ? E]. vm_compute in E. discriminate.
Qed.
Print Assumptions c38_order_refuted.

(** A transaction that can be executed after another one of the pool is thrown out by a block that
    changes nothing, if its id is the smaller one. *)
Theorem c38_lost_refuted : exists H burn check exec check_reads exec_reads standard joins g s n t1 t2 b,
  reads_state exec /\ calm H burn check exec check_reads exec_reads standard joins g s n
  /\ n_pool n = [t2; t1]
  /\ b_txs b = [] /\ joins (n_blocks n) (n_base n) b = Some []
  /\ let n' := pstep H burn check exec check_reads exec_reads standard joins n (Round 0 [b]) in
     n_pool n' = [t1] /\ fit H n' t2
     /\ exists s', executes exec (next_ctx burn n') (n_base n') [(0, t1); (1, t2)] s'.
Proof.
  set (es := [Submit (tx 9) true; Submit (tx 5) true]).
  exists 500, bn, ok, ex, rd, rd, std, jn, g, (s0 0), (run (pstart g (s0 0)) es), (tx 9), (tx 5), (blk 1 []).
  split; [exact ex_reads|]. split; [now apply run_calm|]. split; [vm_compute; reflexivity|]. split; [reflexivity|]. split; [reflexivity|].
  cbv zeta. split; [vm_compute; reflexivity|]. split.
  - split; [right; vm_compute; discriminate|]. intros (b & u & I & J & _). vm_compute in I. destruct I as [<-|[]]. destruct J.
  - eexists. apply ex_step with [(1, 1)]; [reflexivity|]. apply ex_step with [(2, 1)]; [reflexivity|]. constructor. apply same_refl.
Qed.
Print Assumptions c38_lost_refuted.

(** After a change of the chain that breaks off the pool holds transactions that cannot be executed,
    not even alone. *)
Theorem c38_stale_refuted : exists H burn check exec check_reads exec_reads standard joins g s n t,
  reads_state exec /\ plives H burn check exec check_reads exec_reads standard joins g s n
  /\ In t (n_pool n) /\ forall i, exec (next_ctx burn n i) t (n_base n) = None.
Proof.
  set (es := [Submit (tx 8) true; Round 0 [blk 60 []; blk 66 []]]).
  exists 500, bn, ok, ex, rd, rd, std, jn, g, (s0 1), (run (pstart g (s0 1)) es), (tx 8).
  split; [exact ex_reads|]. split; [apply run_lives|]. split; [vm_compute; tauto|]. intros i. vm_compute. reflexivity.
Qed.
Print Assumptions c38_stale_refuted.

(** Two transactions of the pool are executed with the same index, as if they were at the same place
    of the next block. *)
Theorem c38_index_refuted : exists H burn check exec check_reads exec_reads standard joins g s n t1 t2,
  reads_state exec /\ calm H burn check exec check_reads exec_reads standard joins g s n
  /\ n_pool n = [t1; t2] /\ n_base n (p_id t1) = 0 /\ n_base n (p_id t2) = 0
  /\ (forall x s, exec x t1 s = Some [(p_id t1, x_index x + 100)]) /\ (forall x s, exec x t2 s = Some [(p_id t2, x_index x + 100)])
  /\ upd (n_base n) (n_layer n) (p_id t1) = 101 /\ upd (n_base n) (n_layer n) (p_id t2) = 101.
Proof.
  set (es := [Submit (tx 8) true; Submit (tx 30) true; Round 0 [blk 60 []]; Submit (tx 31) true]).
  exists 500, bn, ok, ex, rd, rd, std, jn, g, (s0 1), (run (pstart g (s0 1)) es), (tx 30), (tx 31).
  split; [exact ex_reads|]. split; [now apply run_calm|]. split; [vm_compute; reflexivity|]. do 4 (split; [reflexivity|]).
  split; vm_compute; reflexivity.
Qed.
Print Assumptions c38_index_refuted.

(** A transaction of a disconnected block is not taken back, although it is fit and can be executed
    on the confirmed state alone: it was offered on top of what the pool had executed after it. *)
Theorem c76_lost_refuted : exists H burn check exec check_reads exec_reads standard joins g s n b t bs,
  reads_state exec /\ calm H burn check exec check_reads exec_reads standard joins g s n
  /\ hd_error (map fst (n_chain n)) = Some b /\ b_txs b = [t] /\ p_forbid t = false
  /\ let n' := pstep H burn check exec check_reads exec_reads standard joins n (Round 1 bs) in
     n_pool n' = [] /\ fit H n' t /\ standard t = true
     /\ forall i, check (next_ctx burn n' i) t (n_base n') = true /\ exec (next_ctx burn n' i) t (n_base n') <> None.
Proof.
  set (es := [Round 0 [blk 61 [tx 7]]; Submit (tx 6) true]).
  exists 500, bn, ok, ex, rd, rd, std, jn, g, (s0 0), (run (pstart g (s0 0)) es), (blk 61 [tx 7]), (tx 7), [blk 2 []; blk 3 []].
  split; [exact ex_reads|]. split; [now apply run_calm|]. do 3 (split; [reflexivity|]). cbv zeta.
  split; [vm_compute; reflexivity|]. split; [|split; [reflexivity|]].
  - split; [right; vm_compute; discriminate|]. intros (b & u & I & J & _). vm_compute in I. destruct I as [<-|[<-|[]]]; destruct J.
  - intros i. split; [reflexivity|]. vm_compute. discriminate.
Qed.
Print Assumptions c76_lost_refuted.
End Instance.
