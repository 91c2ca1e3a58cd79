(** C104: blocks and undo data that were written to their files stay there. *)
From Coq Require Import List Bool NArith Lia.
From Verif Require Import FilesModel FilesSpec FilesProofs.
Import ListNotations.
Open Scope N_scope.

(** Whatever was in the files at the start, through every history of writing blocks and undo data,
    of finding blocks in the files, of saving and of dying after any step: everything that was
    placed can be read, if the blocks that are found follow each other and no size reaches 2^32. *)
Theorem c104_kept magic files l : length magic = 4%nat ->
  history_ok magic (fresh files) l -> gapless magic (fresh files) l -> within l ->
  all_readable (run magic (fresh files) l).
Proof. intros M. now apply kept. Qed.
Print Assumptions c104_kept.

Definition start_bytes : list N := [255; 66; 29; 26].
Definition check32 : list N := repeat 7 32.
Definition some_events : list event :=
  [Does (WriteBlock [1; 2; 3] true); Does (WriteUndo 0 [5; 6] check32 true);
   Dies (WriteBlock [4; 4] true) 5; Does (WriteBlock [8; 9] true); Saves;
   Dies (WriteUndo 0 [3] check32 true) 1; Does (WriteUndo 0 [3; 2; 1] check32 true)].
Lemma some_within : within some_events.
Proof.
  intros f. cbn [undo_total noted_total some_events deed_of]. destruct (0 =? f); vm_compute; split; reflexivity.
Qed.
Example c104_kept_example :
  history_ok start_bytes (fresh (fun _ _ _ => None)) some_events /\
  gapless start_bytes (fresh (fun _ _ _ => None)) some_events /\ within some_events /\
  let n := run start_bytes (fresh (fun _ _ _ => None)) some_events in
  n_placed n = [(Rev, 0, 91, [3; 2; 1] ++ check32); (Blk, 0, 29, [8; 9]); (Rev, 0, 8, [5; 6] ++ check32);
                (Blk, 0, 8, [1; 2; 3])] /\
  d_file (n_disk n) Blk 0 30 = Some 9 /\ d_file (n_disk n) Rev 0 93 = Some 1 /\
  all_readable n.
Proof.
  assert (H : history_ok start_bytes (fresh (fun _ _ _ => None)) some_events).
  { cbn [history_ok some_events deed_of deed_ok]. repeat split; reflexivity || (vm_compute; discriminate). }
  assert (G : gapless start_bytes (fresh (fun _ _ _ => None)) some_events).
  { cbn [gapless some_events deed_of]. repeat split. }
  split; [exact H|]. split; [exact G|]. split; [exact some_within|].
  split; [vm_compute; reflexivity|]. split; [vm_compute; reflexivity|]. split; [vm_compute; reflexivity|].
  exact (c104_kept start_bytes _ some_events eq_refl H G some_within).
Qed.

(** A block of at most 4,000,000 bytes gets a place, from any state, if there is space: the search for
    a file with room ends. *)
Theorem c104_block_place magic d m b : N.of_nat (length b) <= 4000000 ->
  exists f pos, p_result (write_block magic d m b true) = Placed Blk f pos b.
Proof. apply block_place. Qed.
Print Assumptions c104_block_place.

Example c104_block_place_example :
  let full := {| f_size := 134217727; f_undo := 0 |} in
  let d := {| d_info := [(1, full); (0, full)]; d_last := 0; d_file := fun _ _ _ => None |} in
  let p := write_block start_bytes d (start d) [1; 2; 3] true in
  p_result p = Placed Blk 2 8 [1; 2; 3] /\
  firstn 4 (p_steps p) = [Truncate Blk 0 134217727; Truncate Rev 0 0; Truncate Blk 1 134217727; Truncate Rev 1 0].
Proof. vm_compute. split; reflexivity. Qed.

(** And so do the undo data of every block that was placed. *)
Theorem c104_undo_place magic files l f pos b u c : length magic = 4%nat ->
  history_ok magic (fresh files) l -> gapless magic (fresh files) l -> within l ->
  let n := run magic (fresh files) l in
  In (Blk, f, pos, b) (n_placed n) ->
  exists q, p_result (write_undo magic (n_disk n) (n_memory n) f u c true) = Placed Rev f q (u ++ c).
Proof. intros M. now apply undo_place. Qed.
Print Assumptions c104_undo_place.

Example c104_undo_place_example :
  let n := run start_bytes (fresh (fun _ _ _ => None)) some_events in
  In (Blk, 0, 29, [8; 9]) (n_placed n) /\
  p_result (write_undo start_bytes (n_disk n) (n_memory n) 0 [1] check32 true) = Placed Rev 0 134 ([1] ++ check32).
Proof. vm_compute. split; [right; left; reflexivity|reflexivity]. Qed.

(** Without the hypothesis that they follow each other, blocks are lost: a node that died in writing a
    block has a gap; the node indexes its files again, from blocks that it wrote, and the next block is
    written over the last of them. *)
Definition first_events : list event :=
  [Does (WriteBlock (repeat 1 80) true); Dies (WriteBlock (repeat 2 80) true) 1;
   Does (WriteBlock (repeat 3 80) true)].
Definition second_events : list event :=
  [Does (NoteBlock 0 8 (repeat 1 80)); Does (NoteBlock 0 184 (repeat 3 80));
   Does (WriteBlock (repeat 4 80) true)].
Lemma reads_check c pos b :
  forallb (fun i => match c (pos + N.of_nat i), nth_error b i with
                    | Some x, Some y => x =? y
                    | _, _ => false
                    end) (seq 0 (length b)) = true -> reads c pos b.
Proof.
  intros H i x E. rewrite forallb_forall in H. specialize (H i).
  assert (L : (i < length b)%nat) by (apply nth_error_Some; congruence).
  assert (I : In i (seq 0 (length b))) by (apply in_seq; lia). specialize (H I). rewrite E in H.
  destruct (c (pos + N.of_nat i)) as [y|]; [|discriminate]. apply N.eqb_eq in H. congruence.
Qed.
Theorem c104_gap_refuted :
  let n := run start_bytes (fresh (fun _ _ _ => None)) first_events in
  let files := d_file (n_disk n) in
  history_ok start_bytes (fresh (fun _ _ _ => None)) first_events /\
  gapless start_bytes (fresh (fun _ _ _ => None)) first_events /\ within first_events /\
  all_readable n /\
  (forall f p b, In (Does (NoteBlock f p b)) second_events -> In (Blk, f, p, b) (n_placed n)) /\
  history_ok start_bytes (fresh files) second_events /\ within second_events /\
  ~ all_readable (run start_bytes (fresh files) second_events).
Proof.
  assert (H : history_ok start_bytes (fresh (fun _ _ _ => None)) first_events).
  { cbn [history_ok first_events deed_of deed_ok]. repeat split; vm_compute; discriminate. }
  assert (G : gapless start_bytes (fresh (fun _ _ _ => None)) first_events).
  { cbn [gapless first_events deed_of]. repeat split. }
  assert (W : within first_events) by (intros f; split; reflexivity).
  cbv zeta. split; [exact H|]. split; [exact G|]. split; [exact W|].
  split; [exact (c104_kept start_bytes _ first_events eq_refl H G W)|].
  split; [|split; [|split]].
  - intros f p b [E|[E|[E|[]]]]; inversion E; subst; vm_compute; auto.
  - split; [|split; [|split; [vm_compute; discriminate|exact I]]].
    + split; [vm_compute; discriminate|].
      apply reads_check; vm_compute; reflexivity.
    + split; [vm_compute; discriminate|].
      apply reads_check; vm_compute; reflexivity.
  - intros f. cbn [undo_total noted_total second_events deed_of]. destruct (0 =? f); vm_compute; split; reflexivity.
  - intros R. specialize (R Blk 0 184 (repeat 3 80)).
    assert (I : In (Blk, 0, 184, repeat 3 80) (n_placed (run start_bytes
      (fresh (d_file (n_disk (run start_bytes (fresh (fun _ _ _ => None)) first_events)))) second_events))).
    { vm_compute. auto. }
    specialize (R I 0%nat 3 eq_refl). vm_compute in R. discriminate R.
Qed.
Print Assumptions c104_gap_refuted.

(** Without the bound on sizes, undo data are lost: the size of a file of undo data is kept in 32 bits
    and nothing else bounds it, so that after 2^32 bytes the file is written again from its start. *)
Definition big_undo : node :=
  let i := {| f_size := 100; f_undo := 4294967256 |} in
  {| n_disk := {| d_info := [(0, i)]; d_last := 0;
       d_file := fun k f j => match k, f with
                              | Rev, 0 => if j <? 4294967256 then Some 1 else None
                              | _, _ => None
                              end |};
     n_memory := {| m_last := 0; m_info := i; m_cached := None |};
     n_placed := [(Rev, 0, 8, [1; 1; 1])] |}.
Theorem c104_wrap_refuted :
  all_readable big_undo /\ n_memory big_undo = start (n_disk big_undo) /\
  let n := run start_bytes big_undo [Does (WriteUndo 0 [] check32 true); Does (WriteUndo 0 [9] check32 true)] in
  In (Rev, 0, 8, [9] ++ check32) (n_placed n) /\ ~ all_readable n.
Proof.
  split.
  { intros k f pos b [E|[]]. inversion E; subst. apply reads_check; vm_compute; reflexivity. }
  split; [reflexivity|]. cbv zeta. split; [vm_compute; auto|].
  intros R. specialize (R Rev 0 8 [1; 1; 1]).
  assert (I : In (Rev, 0, 8, [1; 1; 1]) (n_placed (run start_bytes big_undo
    [Does (WriteUndo 0 [] check32 true); Does (WriteUndo 0 [9] check32 true)]))) by (vm_compute; auto).
  specialize (R I 0%nat 1 eq_refl). vm_compute in R. discriminate R.
Qed.
Print Assumptions c104_wrap_refuted.
