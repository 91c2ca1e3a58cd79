(** What it means for blocks and undo data to be kept, independently of how places are given out. *)
From Coq Require Import List Bool NArith.
From Verif Require Import FilesModel.
Import ListNotations.
Open Scope N_scope.

(** The bytes of a file from a position on are [b], and what follows. *)
Definition reads (c : content) (pos : N) (b : list N) : Prop :=
  forall i x, nth_error b i = Some x -> c (pos + N.of_nat i) = Some x.

(** Everything that was placed can be read. *)
Definition all_readable (n : node) : Prop :=
  forall k f pos b, In (k, f, pos, b) (n_placed n) -> reads (d_file (n_disk n) k f) pos b.

(** The end of the last block that was placed in a file. *)
Fixpoint end_of (l : list entry) (f : N) : N :=
  match l with
  | [] => 0
  | (k, g, pos, b) :: l' =>
      if kind_eqb k Blk && (g =? f) then N.max (pos + N.of_nat (length b)) (end_of l' f) else end_of l' f
  end.

Definition deed_of (e : event) : option deed :=
  match e with Does x => Some x | Dies x _ => Some x | Saves => None end.

(** How much undo data there are for the blocks of a file, and how many bytes of blocks were found in
    it. *)
Fixpoint undo_total (l : list event) (f : N) : N :=
  match l with
  | [] => 0
  | e :: l' =>
      match deed_of e with
      | Some (WriteUndo g u c _) => if g =? f then N.of_nat (length u) + 40 else 0
      | _ => 0
      end + undo_total l' f
  end.
Fixpoint noted_total (l : list event) (f : N) : N :=
  match l with
  | [] => 0
  | e :: l' =>
      match deed_of e with
      | Some (NoteBlock g _ b) => if g =? f then N.of_nat (length b) + 8 else 0
      | _ => 0
      end + noted_total l' f
  end.

(** Blocks of at most 4,000,000 bytes, checksums of 32 bytes, blocks that are found are there. *)
Definition deed_ok (n : node) (x : deed) : Prop :=
  match x with
  | WriteBlock b _ => N.of_nat (length b) <= 4000000
  | NoteBlock f p b => N.of_nat (length b) <= 4000000 /\ reads (d_file (n_disk n) Blk f) p b
  | WriteUndo f u c _ => length c = 32%nat
  end.
Fixpoint history_ok (magic : list N) (n : node) (l : list event) : Prop :=
  match l with
  | [] => True
  | e :: l' =>
      match deed_of e with Some x => deed_ok n x | None => True end /\
      history_ok magic (happens magic n e) l'
  end.

(** Blocks that are found follow each other without gaps. *)
Fixpoint gapless (magic : list N) (n : node) (l : list event) : Prop :=
  match l with
  | [] => True
  | e :: l' =>
      match deed_of e with
      | Some (NoteBlock f p b) => p <= end_of (n_placed n) f + 8
      | _ => True
      end /\
      gapless magic (happens magic n e) l'
  end.

Definition within (l : list event) : Prop :=
  forall f, undo_total l f < 4294967296 /\ noted_total l f < 2147483648.
