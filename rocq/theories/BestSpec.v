(** What it means that the verdicts on blocks do not change. *)
From Coq Require Import List NArith ZArith.
From Verif Require Import Prelude DexModel ChainModel ChainSpec SelectModel FinalModel FinalSpec.
Import ListNotations.

Section Verdicts.
  (** What the rules say about each block, given the blocks before it. *)
  Variable rules : N -> verdict.

  (** A block that passes, as all blocks before it do; and one that fails, or follows one that does
      (the first block does not). *)
  Definition passes (w : world) (b : N) : Prop := forall x, back (prev_of w) b x -> rules x = VOk.
  Definition fails (w : world) (b : N) : Prop :=
    prev_of w b <> None /\ exists x, back (prev_of w) b x /\ rules x = VInvalid.

  (** An attempt to connect a block has the verdict of the rules, if it does not end in a system
      error. The blocks of forks in the cache of forks pass. The marks on disk are on blocks that
      fail. Index entries have different addresses. *)
  Definition consistent (w : world) (e : event) : Prop :=
    match e with
    | EBlock addr a _ _ =>
        (forall x y, addr x = addr y -> x = y)
        /\ (forall k x, o_verdict a k x = rules x \/ o_verdict a k x = VError)
        /\ (forall x, o_fork a x = true -> rules x = VOk)
        /\ (forall x, o_cached a x = true -> passes w x)
    | ERestart addr _ disk _ _ v =>
        (forall x y, addr x = addr y -> x = y)
        /\ (forall k x, v k x = rules x \/ v k x = VError)
        /\ (forall x, disk x = true -> fails w x)
    | _ => True
    end.

  Inductive lives_by (g : N) : list event -> world -> Prop :=
  | by_start : rules g = VOk -> lives_by g [] (genesis_world g)
  | by_next es w e w' : lives_by g es w -> legal w e -> consistent w e -> next w e = Done w' ->
      lives_by g (e :: es) w'.
End Verdicts.
