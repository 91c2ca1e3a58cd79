(** What cross-chain swaps should do to balances and supplies. *)
From Coq Require Import String List Bool NArith ZArith.
From Verif Require Import Prelude AccountModel AccountSpec TxModel TxSpec AxcModel.
Import ListNotations.
Open Scope N_scope.

(** The recorded supply of an asset; zero if there is no such asset. *)
Definition recorded (x : axc) (s : string) : N :=
  match fget String.eqb (x_assets x) s with Some t => t | None => 0 end.

(** A history with what was accepted: the token and amount minted with the foreign
    transaction, or the token and amount burned. *)
Inductive swapped :=
| Minted (s : string) (chain : N) (txid : string) (amount : N)
| Burned (s : string) (amount : N).

Fixpoint minted (tr : list swapped) (s : string) : N :=
  match tr with
  | [] => 0
  | Minted s' _ _ v :: tr' => (if String.eqb s' s then v else 0) + minted tr' s
  | _ :: tr' => minted tr' s
  end.
Fixpoint burned (tr : list swapped) (s : string) : N :=
  match tr with
  | [] => 0
  | Burned s' v :: tr' => (if String.eqb s' s then v else 0) + burned tr' s
  | _ :: tr' => burned tr' s
  end.
Fixpoint used (tr : list swapped) : list (N * string) :=
  match tr with
  | [] => []
  | Minted _ c t _ :: tr' => (c, t) :: used tr'
  | _ :: tr' => used tr'
  end.

Section Run.
  Variable pk_keyid : N -> N.

  Definition entry (x : axc) (e : axc_event) : list swapped :=
    match e with
    | AIn p _ =>
        match fget String.eqb (x_by_peer x) (i_peer p) with
        | Some sp => [Minted (sp_self sp) (sp_chain sp) (i_txid p) (i_amount p)]
        | None => []
        end
    | AOut p => [Burned (o_self p) (o_amount p)]
    | AElse _ _ _ _ _ _ => []
    end.

  Fixpoint axc_run (x : axc) (es : list axc_event) : axc * list swapped :=
    match es with
    | [] => (x, [])
    | e :: es' =>
        match axc_step pk_keyid x e with
        | None => axc_run x es'
        | Some x1 => let '(x2, t) := axc_run x1 es' in (x2, entry x e ++ t)
        end
    end.

  (** Whatever else happens must keep the total of each token that is a recorded asset, and
      the fee ratio within its governed range. *)
  Fixpoint else_ok (x : axc) (es : list axc_event) : Prop :=
    match es with
    | [] => True
    | e :: es' =>
        (match e with
         | AElse L _ _ _ r _ =>
             ledger_wf L /\ r <= 1000 /\
             forall s, fget String.eqb (x_assets x) s <> None -> supply L s = supply (x_ledger x) s
         | _ => True
         end) /\
        else_ok (match axc_step pk_keyid x e with Some x1 => x1 | None => x end) es'
    end.

  (** What account [k] receives of a swap-in. *)
  Definition is (k : N) (o : option N) : N := match o with Some d => if k =? d then 1 else 0 | None => 0 end.
  Definition share (x : axc) (p : swap_in) (approvals : list regid) (fees : N) (k : N) : N :=
    let per := fees / (N.of_nat (List.length approvals) + 3) in
    per * nsum (map (fun r => is k (denotes pk_keyid (x_reg x) (UReg r))) approvals)
    + (fees - per * N.of_nat (List.length approvals)) * is k (denotes pk_keyid (x_reg x) (UReg (x_gateway x)))
    + (i_amount p - fees) * is k (denotes pk_keyid (x_reg x) (i_to p)).
End Run.
