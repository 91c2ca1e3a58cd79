(** Model of the files in which a node keeps blocks and undo data, of the places that are given out
    in them, and of processes that die.

    Source: /repo/src/main.cpp:689-748 (FlushBlockFile, FindUndoPos), 1648-1700 (FindBlockPos),
    1206-1229 (ConnectBlock: writing undo data), 1938-1951 (AcceptBlock: writing blocks), 2249-2253
    (LoadBlockIndexDB), 2489-2558 (LoadExternalBlockFile); /repo/src/persistence/block.cpp:136-177,
    /repo/src/persistence/blockundo.cpp:42-98, /repo/src/persistence/disk.cpp:39-64,
    /repo/src/persistence/disk.h:82-110, /repo/src/persistence/blockdb.cpp:77-82, 138-143,
    /repo/src/commons/util/util.cpp:751-757, 781-820, /repo/src/config/const.h:170-174.

    A process writes in single steps; when it dies, the first of them have been made and memory is
    lost.  What the operating system and LevelDB were given is not lost: failures of power are not
    modelled, nor failing disks.

    Simplifications: of the information about a file only the sizes are modelled; the heights and
    times in it are not used.  The number of a file is not bounded.  Preallocation is that of
    Linux.  The bytes of blocks and of undo data are any (WireModel.v, StoreModel.v). *)
From Coq Require Import List Bool NArith.
Import ListNotations.
Open Scope N_scope.

(** blk?????.dat and rev?????.dat. *)
Inductive kind := Blk | Rev.
Definition kind_eqb (a b : kind) : bool :=
  match a, b with Blk, Blk => true | Rev, Rev => true | _, _ => false end.

(** [CBlockFileInfo], disk.h:82-110. *)
Record finfo := { f_size : N; f_undo : N }.
Definition null_info : finfo := {| f_size := 0; f_undo := 0 |}.

(** The bytes of a file by their positions; nothing from its end on. *)
Definition content := N -> option N.

Record disk := {
  d_info : list (N * finfo);           (* the information about files, the latest first *)
  d_last : N;                          (* LAST_BLOCKFILE *)
  d_file : kind -> N -> content
}.
(** [nLastBlockFile], [infoLastBlockFile] and what is in the cache of LAST_BLOCKFILE. *)
Record memory := { m_last : N; m_info : finfo; m_cached : option N }.

Definition w32 (n : N) : N := n mod 4294967296.
Definition max_file : N := 134217728.          (* const.h:170 *)
Definition blk_chunk : N := 16777216.          (* const.h:172 *)
Definition rev_chunk : N := 1048576.           (* const.h:174 *)

(** [ReadBlockFileInfo], blockdb.cpp:80-82. *)
Fixpoint info_of (l : list (N * finfo)) (f : N) : option finfo :=
  match l with
  | [] => None
  | (g, i) :: l' => if f =? g then Some i else info_of l' f
  end.
(** The information about a file that is read into a variable that was set to null. *)
Definition info_or_null (l : list (N * finfo)) (f : N) : finfo :=
  match info_of l f with Some i => i | None => null_info end.

(** ** Steps *)

Inductive step :=
| Truncate (k : kind) (f len : N)
| Allocate (k : kind) (f len : N)
| Info (f : N) (i : finfo)
| Byte (k : kind) (f pos x : N).

Definition set_file (d : disk) (k : kind) (f : N) (c : content) : disk :=
  {| d_info := d_info d; d_last := d_last d;
     d_file := fun k' f' => if kind_eqb k' k && (f' =? f) then c else d_file d k' f' |}.

(** [ftruncate] (util.cpp:755), [posix_fallocate] (util.cpp:806-807), [WriteBlockFileInfo]
    (blockdb.cpp:77-79) and [fwrite] of a byte; a gap is filled with zeros. *)
Definition make (d : disk) (s : step) : disk :=
  match s with
  | Truncate k f len =>
      set_file d k f (fun i =>
        if i <? len then match d_file d k f i with Some x => Some x | None => Some 0 end else None)
  | Allocate k f len =>
      set_file d k f (fun i =>
        match d_file d k f i with Some x => Some x | None => if i <? len then Some 0 else None end)
  | Info f i => {| d_info := (f, i) :: d_info d; d_last := d_last d; d_file := d_file d |}
  | Byte k f pos x =>
      set_file d k f (fun i =>
        if i =? pos then Some x
        else match d_file d k f i with Some y => Some y | None => if i <? pos then Some 0 else None end)
  end.
Definition make_all (d : disk) (l : list step) : disk := fold_left make l d.

Fixpoint bytes_at (k : kind) (f pos : N) (b : list N) : list step :=
  match b with
  | [] => []
  | x :: b' => Byte k f pos x :: bytes_at k f (pos + 1) b'
  end.

(** ** What a process does *)

(** What comes of it: data that were written, at the position that is remembered for them; nothing,
    for lack of space or of information; a loop without end. *)
Inductive result :=
| Placed (k : kind) (f pos : N) (b : list N)
| Refused
| Endless.
Record plan := { p_steps : list step; p_memory : memory; p_result : result }.

Section Files.
  (** The start bytes of the network. *)
  Variable magic : list N.

  (** The header of an entry: the start bytes and the size, block.cpp:143-144, blockundo.cpp:49-50. *)
  Definition header (n : N) : list N :=
    magic ++ [n mod 256; n / 256 mod 256; n / 65536 mod 256; n / 16777216 mod 256].

  (** The loop of [FindBlockPos], main.cpp:1662-1669, with [FlushBlockFile(true)], main.cpp:689-709.
      The flag is [fUpdatedLast].  [None]: still in the loop. *)
  Fixpoint leave (turns : nat) (l : list (N * finfo)) (m : memory) (add : N) (updated : bool)
    : option (list step * memory * bool) :=
    match turns with
    | O => None
    | S t =>
        if w32 (f_size (m_info m) + add) <? max_file then Some ([], m, updated)
        else
          let next := m_last m + 1 in
          match leave t l {| m_last := next; m_info := info_or_null l next; m_cached := m_cached m |} add true with
          | None => None
          | Some (s, m', u) =>
              Some (Truncate Blk (m_last m) (f_size (m_info m)) ::
                    Truncate Rev (m_last m) (f_undo (m_info m)) :: s, m', u)
          end
    end.

  (** Preallocation, main.cpp:732-745 and 1678-1690: nothing to do, a length, or no space. *)
  Inductive room := Enough | Upto (len : N) | NoSpace.
  Definition preallocate (chunk pos size : N) (space : bool) : room :=
    let old := w32 (pos + chunk - 1) / chunk in
    let new := w32 (size + chunk - 1) / chunk in
    if old <? new then
      if space then Upto (pos + w32 (w32 (new * chunk) + 4294967296 - pos)) else NoSpace
    else Enough.

  (** [AcceptBlock] of a block that does not come from a block file, main.cpp:1940-1948: [FindBlockPos]
      with the size of the block and 8, [WriteBlockToDisk].  The loop is followed for more turns than
      there are files. *)
  Definition write_block (d : disk) (m : memory) (b : list N) (space : bool) : plan :=
    let add := w32 (N.of_nat (length b) + 8) in
    match leave (S (S (length (d_info d)))) (d_info d) m add false with
    | None => {| p_steps := []; p_memory := m; p_result := Endless |}
    | Some (gone, m1, updated) =>
        let pos := f_size (m_info m1) in
        let size := w32 (pos + add) in
        let i := {| f_size := size; f_undo := f_undo (m_info m1) |} in
        let m2 := {| m_last := m_last m1; m_info := i; m_cached := m_cached m1 |} in
        let m3 := {| m_last := m_last m1; m_info := i;
                     m_cached := if updated then Some (m_last m1) else m_cached m1 |} in
        let rest := Info (m_last m1) i ::
                    bytes_at Blk (m_last m1) pos (header (N.of_nat (length b)) ++ b) in
        let done := Placed Blk (m_last m1) (w32 (pos + 8)) b in
        match preallocate blk_chunk pos size space with
        | NoSpace => {| p_steps := gone; p_memory := m2; p_result := Refused |}
        | Enough => {| p_steps := gone ++ rest; p_memory := m3; p_result := done |}
        | Upto len => {| p_steps := gone ++ Allocate Blk (m_last m1) len :: rest; p_memory := m3;
                         p_result := done |}
        end
    end.

  (** [AcceptBlock] of a block found in a block file, at position [p] of file [f]: [FindBlockPos] with
      [fKnown]; nothing is written but the information. *)
  Definition note_block (d : disk) (m : memory) (f p : N) (b : list N) : plan :=
    let add := w32 (N.of_nat (length b) + 8) in
    let i0 := if m_last m =? f then m_info m else info_or_null (d_info d) f in
    let i := {| f_size := w32 (f_size i0 + add); f_undo := f_undo i0 |} in
    {| p_steps := [Info f i];
       p_memory := {| m_last := f; m_info := i;
                      m_cached := if m_last m =? f then m_cached m else Some f |};
       p_result := Placed Blk f p b |}.

  (** Writing the undo data [u], with the checksum [c], of a block that is in file [f]: main.cpp:1210-1229,
      [FindUndoPos] with the size of the data and 40, [CBlockUndo::WriteToDisk]. *)
  Definition write_undo (d : disk) (m : memory) (f : N) (u c : list N) (space : bool) : plan :=
    let add := w32 (N.of_nat (length u) + 40) in
    match (if f =? m_last m then Some (m_info m) else info_of (d_info d) f) with
    | None => {| p_steps := []; p_memory := m; p_result := Refused |}
    | Some i0 =>
        let pos := f_undo i0 in
        let size := w32 (pos + add) in
        let i := {| f_size := f_size i0; f_undo := size |} in
        let m2 := if f =? m_last m then {| m_last := m_last m; m_info := i; m_cached := m_cached m |}
                  else m in
        let bytes := bytes_at Rev f pos (header (N.of_nat (length u)) ++ u ++ c) in
        let done := Placed Rev f (w32 (pos + 8)) (u ++ c) in
        match preallocate rev_chunk pos size space with
        | NoSpace => {| p_steps := [Info f i]; p_memory := m2; p_result := Refused |}
        | Enough => {| p_steps := Info f i :: bytes; p_memory := m2; p_result := done |}
        | Upto len => {| p_steps := Info f i :: Allocate Rev f len :: bytes; p_memory := m2;
                         p_result := done |}
        end
    end.

  (** ** Histories *)

  Inductive deed :=
  | WriteBlock (b : list N) (space : bool)
  | NoteBlock (f p : N) (b : list N)
  | WriteUndo (f : N) (u c : list N) (space : bool).
  Definition plan_of (d : disk) (m : memory) (x : deed) : plan :=
    match x with
    | WriteBlock b space => write_block d m b space
    | NoteBlock f p b => note_block d m f p b
    | WriteUndo f u c space => write_undo d m f u c space
    end.

  (** Memory after a start: main.cpp:2249-2253. *)
  Definition start (d : disk) : memory :=
    {| m_last := d_last d; m_info := info_or_null (d_info d) (d_last d); m_cached := None |}.

  Inductive event :=
  | Does (x : deed)
  | Saves                        (* the caches are written: [WriteChainState] *)
  | Dies (x : deed) (n : nat).   (* after [n] steps of a deed; the node is started again *)

  Definition entry := (kind * N * N * list N)%type.
  Record node := { n_disk : disk; n_memory : memory; n_placed : list entry }.
  Definition happens (n : node) (e : event) : node :=
    let d := n_disk n in
    match e with
    | Does x =>
        let p := plan_of d (n_memory n) x in
        {| n_disk := make_all d (p_steps p); n_memory := p_memory p;
           n_placed := match p_result p with
                       | Placed k f pos b => (k, f, pos, b) :: n_placed n
                       | _ => n_placed n
                       end |}
    | Saves =>
        let l := match m_cached (n_memory n) with Some f => f | None => d_last d end in
        {| n_disk := {| d_info := d_info d; d_last := l; d_file := d_file d |};
           n_memory := {| m_last := m_last (n_memory n); m_info := m_info (n_memory n);
                          m_cached := None |};
           n_placed := n_placed n |}
    | Dies x k =>
        let d' := make_all d (firstn k (p_steps (plan_of d (n_memory n) x))) in
        {| n_disk := d'; n_memory := start d'; n_placed := n_placed n |}
    end.
  Definition run (n : node) (l : list event) : node := fold_left happens l n.
End Files.

(** A node that was started with no information about files, whatever is in the files: a new one, or
    one that is told to index its files again (-reindex). *)
Definition fresh (files : kind -> N -> content) : node :=
  let d := {| d_info := []; d_last := 0; d_file := files |} in
  {| n_disk := d; n_memory := start d; n_placed := [] |}.
