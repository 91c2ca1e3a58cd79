(** Model of governance proposals: requests, approvals and the execution of an approved
    proposal.

    Source: /repo/src/tx/proposaltx.cpp, /repo/src/persistence/sysgoverndb.h.

    Everything a proposal may read or change besides the proposal and approval tables (the
    rest of the state, in which also the governors and the delegates are kept) is a
    parameter [A]; what the different proposals check and do are arguments. Simplifications:
    the caches are finite maps (c01_layered_cache_is_a_map). A failed transaction returns
    [None]: its block is not accepted, so its writes are discarded (main.cpp:1150-1160,
    c04_block_undo_restores_state). An approval by a sender that is not given by a
    registration id ([txUid.get<CRegID>()] throws, proposaltx.cpp:126) is outside the model:
    such a transaction is stopped before by the check of its sender (tx.h:301-310). *)
From Coq Require Import String List Bool NArith.
From Verif Require Import Prelude AccountModel.
Import ListNotations.
Open Scope N_scope.

Section Gov.
  Context {A P : Type}.
  (** The three kinds of proposals that delegates approve, proposaltx.cpp:14-16,35-37, and the
      cross-chain kinds, proposaltx.cpp:80-81. *)
  Variable by_delegates : P -> bool.
  Variable is_axc : P -> bool.
  Variable is_axc_out : P -> bool.
  (** The active delegates ([None] when there are none stored), the stored governors, and the
      number of blocks after which a proposal expires (a parameter, a [uint64_t]). *)
  Variable delegates : A -> option (list regid).
  Variable stored_governors : A -> list regid.
  Variable expire_count : A -> N.
  (** [SysCfg().GetVer2GenesisHeight()]. *)
  Variable genesis_height : N.
  (** [CheckProposal] and [ExecuteProposal] of the kinds; the second argument is the height,
      the third the list of approvals. *)
  Variable check : P -> A -> N -> bool.
  Variable exec : P -> A -> N -> list regid -> option A.
  (** Appending a signature to an outgoing cross-chain proposal; saving the requester in it. *)
  Variable sign : P -> P.
  Variable own : P -> regid -> P.

  (** A stored proposal: its content, [expiry_block_height] ([uint32_t]) and
      [approval_min_count] ([uint8_t]), proposal.h:80-81. *)
  Record proposal := mkProp { pr_body : P; pr_expiry : N; pr_min : N }.

  Record gov := mkGov {
    v_props : list (N * proposal);        (* proposals_cache *)
    v_appr : list (N * list regid);       (* approvals_cache *)
    v_rest : A }.

  (** [CSysGovernDBCache::GetGovernors], sysgoverndb.h:114-120. *)
  Definition governors (a : A) : list regid :=
    match stored_governors a with
    | [] => [(genesis_height, 2)]
    | l => l
    end.

  (** [CheckIsGovernor], proposaltx.cpp:12-31. *)
  Definition electorate (p : P) (a : A) : list regid :=
    if by_delegates p then match delegates a with Some l => l | None => [] end
    else governors a.
  Definition is_governor (p : P) (a : A) (r : regid) : bool :=
    existsb (regid_eqb r) (electorate p a).

  (** [GetGovernorApprovalMinCount], proposaltx.cpp:33-48 and sysgoverndb.h:57-65; both
      convert to [uint8_t]. *)
  Definition majority (n : N) : N := (n - n / 3) mod two8.
  Definition min_count (p : P) (a : A) : N :=
    if by_delegates p then
      match delegates a with
      | Some l => majority (N.of_nat (List.length l))
      | None => 8
      end
    else majority (N.of_nat (List.length (governors a))).

  (** [expiry_block_height = context.height + expiryBlockCount], proposaltx.cpp:72-84. *)
  Definition expiry (p : P) (a : A) (height : N) : N :=
    (height + (if is_axc p then 7 * 24 * 1200 else expire_count a)) mod two32.

  Definition get_approvals (g : gov) (id : N) : list regid :=
    match fget N.eqb (v_appr g) id with Some l => l | None => [] end.

  (** [CProposalRequestTx], proposaltx.cpp:64-102. *)
  Definition request (g : gov) (id : N) (p : P) (who : regid) (height : N) : option gov :=
    if check p (v_rest g) height then
      let body := if is_axc_out p then own p who else p in
      Some (mkGov (fput N.eqb (v_props g) id
                     (mkProp body (expiry p (v_rest g) height) (min_count p (v_rest g))))
                  (v_appr g) (v_rest g))
    else None.

  (** [SetApproval], sysgoverndb.h:92-103. *)
  Definition set_approval (g : gov) (id : N) (who : regid) : option (list regid) :=
    let l := get_approvals g id in
    if existsb (regid_eqb who) l then None else Some (l ++ [who]).

  (** [CProposalApprovalTx::CheckTx] and [ExecuteTx], proposaltx.cpp:120-182. Also returns
      whether the proposal was executed. [signature_ok]: an outgoing cross-chain proposal
      needs a signature of at least 64 bytes. *)
  Definition approve (g : gov) (id : N) (who : regid) (height : N) (signature_ok : bool)
    : option (gov * bool) :=
    match fget N.eqb (v_props g) id with
    | None => None
    | Some pr =>
        if negb (is_governor (pr_body pr) (v_rest g) who) then None
        else if is_axc_out (pr_body pr) && negb signature_ok then None
        else
          let n := N.of_nat (List.length (get_approvals g id)) in
          if pr_min pr <=? n then None
          else if pr_expiry pr <? height then None
          else
            match set_approval g id who with
            | None => None
            | Some l =>
                let now := n + 1 =? pr_min pr in
                let rest :=
                  if now then
                    if check (pr_body pr) (v_rest g) height
                    then exec (pr_body pr) (v_rest g) height l
                    else None
                  else Some (v_rest g) in
                match rest with
                | None => None
                | Some a' =>
                    let props :=
                      if is_axc_out (pr_body pr)
                      then fput N.eqb (v_props g) id
                             (mkProp (sign (pr_body pr)) (pr_expiry pr) (pr_min pr))
                      else v_props g in
                    Some (mkGov props (fput N.eqb (v_appr g) id l) a', now)
                end
            end
    end.

  (** What may happen: a request, an approval, or anything else that changes the rest of
      the state (no other code writes the two tables). *)
  Inductive event :=
  | ERequest (id : N) (p : P) (who : regid) (height : N)
  | EApprove (id : N) (who : regid) (height : N) (signature_ok : bool)
  | EOther (a : A).
End Gov.
