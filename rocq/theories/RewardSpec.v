(** What is claimed of block rewards: C37. *)
From Coq Require Import String List Bool NArith ZArith.
From Verif Require Import Prelude AccountModel AccountSpec TxModel RegidModel RegidSpec.
Import ListNotations.
Open Scope N_scope.

(** What a reward promises its producer in a token. *)
Definition promised (w : reward) (s : string) : N :=
  match w with
  | RPlain n => if String.eqb s WICC then n else 0
  | RCoins fs i =>
      fold_right (fun f t => (if String.eqb s (fst f) then snd f else 0) + t) 0 fs
      + (if String.eqb s WICC then i else 0)
  end.

(** What an account can spend of a token. *)
Definition free_of (st : txst) (k : N) (s : string) : N := lbal (t_acc st) k s BFree.

Section RewardSpec.
  Variable pk_keyid : N -> N.
  Variable address : regid -> N.
  Variable valid : N -> bool.
  Variable mint_height : N.
  Variable lenient : N -> bool.

  (** A block connected on a chain as if no reward were due. *)
  Definition undue (g : txst) (ch : list (block * txst)) (b : block) : option txst :=
    connect_at pk_keyid address valid mint_height lenient (height_of ch + 1) None b (tip g ch).

  (** What the blocks of a chain do to the balance of an account, rewards that become due left
      out. *)
  Fixpoint own (g : txst) (ch : list (block * txst)) (k : N) (s : string) : Z :=
    match ch with
    | [] => 0
    | (b, _) :: ch =>
        own g ch k s +
        match undue g ch b with
        | Some mid => Z.of_N (free_of mid k s) - Z.of_N (free_of (tip g ch) k s)
        | None => 0
        end
    end%Z.

  (** What the rewards of the blocks of a chain promise an account: each block to the account that
      had the id of its producer when the block came. *)
  Fixpoint earned (g : txst) (ch : list (block * txst)) (k : N) (s : string) : N :=
    match ch with
    | [] => 0
    | (b, _) :: ch =>
        earned g ch k s +
        match owner_of (tip g ch) (b_producer b) with
        | Some j => if j =? k then promised (b_amounts b) s else 0
        | None => 0
        end
    end.

  (** Balances have room for the rewards that become due. *)
  Definition roomy (g : txst) (ch : list (block * txst)) : Prop :=
    forall c1 b st c2 m mid, ch = c1 ++ (b, st) :: c2 -> due c2 = Some m -> undue g c2 b = Some mid ->
    forall k s, free_of mid k s + promised (b_amounts m) s < two64.
End RewardSpec.
