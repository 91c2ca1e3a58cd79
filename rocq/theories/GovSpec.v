(** What governance should do, read off the list of accepted transactions alone. *)
From Coq Require Import String List Bool NArith.
From Verif Require Import Prelude AccountModel GovModel.
Import ListNotations.
Open Scope N_scope.

(** An accepted transaction: a request, with the number of approvals that was fixed and the
    last height for approvals; or an approval, with the accounts that were entitled to
    approve at that moment, and whether it made the proposal happen. *)
Inductive accepted :=
| Requested (id : N) (min last : N)
| Approved (id : N) (who : regid) (height : N) (entitled : list regid) (happened : bool).

(** The accounts that approved proposal [id], in order. *)
Fixpoint approvers (tr : list accepted) (id : N) : list regid :=
  match tr with
  | [] => []
  | Approved i w _ _ _ :: tr' => if i =? id then w :: approvers tr' id else approvers tr' id
  | _ :: tr' => approvers tr' id
  end.

(** How often proposal [id] happened. *)
Fixpoint happenings (tr : list accepted) (id : N) : nat :=
  match tr with
  | [] => 0
  | Approved i _ _ _ true :: tr' => (if (i =? id)%N then 1 else 0) + happenings tr' id
  | _ :: tr' => happenings tr' id
  end.

Fixpoint requested_ids (tr : list accepted) : list N :=
  match tr with
  | [] => []
  | Requested i _ _ :: tr' => i :: requested_ids tr'
  | _ :: tr' => requested_ids tr'
  end.

(** An entry is in order after the accepted transactions [before] if an approval comes from an
    account that is entitled and has not approved before, the proposal was requested, the
    approval is in time, there were not yet enough approvals, and the proposal happens with
    it exactly if it completes the fixed number. *)
Definition good_entry (before : list accepted) (x : accepted) : Prop :=
  match x with
  | Requested _ _ _ => True
  | Approved id who h ent now =>
      In who ent /\ ~ In who (approvers before id) /\
      exists m last, In (Requested id m last) before /\ h <= last /\
        (List.length (approvers before id) < N.to_nat m)%nat /\
        (now = true <-> S (List.length (approvers before id)) = N.to_nat m)
  end.

Section Run.
  Context {A P : Type}.
  Variable by_delegates : P -> bool.
  Variable is_axc : P -> bool.
  Variable is_axc_out : P -> bool.
  Variable delegates : A -> option (list (N * N)).
  Variable stored_governors : A -> list (N * N).
  Variable expire_count : A -> N.
  Variable genesis_height : N.
  Variable check : P -> A -> N -> bool.
  Variable exec : P -> A -> N -> list (N * N) -> option A.
  Variable sign : P -> P.
  Variable own : P -> (N * N) -> P.
  Notation gov := (@gov A P).
  Notation approve := (approve by_delegates is_axc_out delegates stored_governors genesis_height
                        check exec sign).
  Notation request := (request by_delegates is_axc is_axc_out delegates stored_governors
                         expire_count genesis_height check own).
  Notation electorate := (electorate by_delegates delegates stored_governors genesis_height).

  (** One event: the state afterwards and what was accepted. *)
  Definition step (g : gov) (e : @event A P) : gov * list accepted :=
    match e with
    | ERequest id p who h =>
        match request g id p who h with
        | Some g' =>
            match fget N.eqb (v_props g') id with
            | Some pr => (g', [Requested id (pr_min pr) (pr_expiry pr)])
            | None => (g', [])
            end
        | None => (g, [])
        end
    | EApprove id who h s =>
        match approve g id who h s with
        | Some (g', now) =>
            (g', [Approved id who h
                    (match fget N.eqb (v_props g) id with
                     | Some pr => electorate (pr_body pr) (v_rest g)
                     | None => []
                     end) now])
        | None => (g, [])
        end
    | EOther a => (mkGov (v_props g) (v_appr g) a, [])
    end.

  Fixpoint run (g : gov) (es : list event) : gov * list accepted :=
    match es with
    | [] => (g, [])
    | e :: es' =>
        let '(g1, t1) := step g e in
        let '(g2, t2) := run g1 es' in (g2, t1 ++ t2)
    end.
End Run.
