(** Vocabulary of the claims about fee distribution (C08). *)
From Coq Require Import String List Bool NArith ZArith.
From Verif Require Import Prelude AccountModel AccountSpec TxModel.
Import ListNotations.
Open Scope N_scope.

(** What account [k] is paid when each of the registered accounts [ds] gets its entry of
    [shares]; an account listed twice is paid twice. *)
Fixpoint paid_to (reg : list (regid * N)) (ds : list regid) (shares : list N) (k : N) : N :=
  match ds, shares with
  | d :: ds', v :: vs' =>
      (match fget regid_eqb reg d with Some j => if k =? j then v else 0 | None => 0 end)
      + paid_to reg ds' vs' k
  | _, _ => 0
  end.

(** A fair division: the parts add up to [total] and differ by less than their number. *)
Definition fair_shares (total : N) (shares : list N) : Prop :=
  nsum shares = total /\
  forall a b, In a shares -> In b shares -> a < b + N.of_nat (List.length shares).

(** The free WICC balance of every account changed by [gain - loss], nothing else did. *)
Definition wicc_moved (L L' : list (N * account)) (gain loss : N -> N) : Prop :=
  forall k s b, Z.of_N (lbal L' k s b) = (Z.of_N (lbal L k s b) +
    if String.eqb s "WICC" && bucket_eqb b BFree then Z.of_N (gain k) - Z.of_N (loss k) else 0)%Z.
