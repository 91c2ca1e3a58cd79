(** Model of the bounded containers and the Bloom filter.

    Source: /repo/src/commons/mruset.h, /repo/src/miner/pbftlimitmap.h,
    /repo/src/commons/limitedmap.h, /repo/src/commons/bloom.h, bloom.cpp.

    Simplifications: a [std::set] or [std::map] is a list of its elements, the order of which is
    never used; two elements are the same when [eqb] says so, which stands for "neither is below
    the other" under the order of the set (so that order must be a strict weak one). Iterators
    into a map are represented by the key they point at. The sizes that the constructor of the
    Bloom filter computes in floating point are parameters; MurmurHash3 is a parameter. *)
From Coq Require Import List Bool NArith ZArith.
From Verif Require Import Prelude AccountModel DexModel.
Import ListNotations.
Open Scope N_scope.

(** Number of elements. *)
Definition size {A} (l : list A) : N := N.of_nat (length l).

Section Mru.
  Context {T : Type}.
  Variable eqb : T -> T -> bool.

  (** [set::count] and [set::erase]. *)
  Definition mem (x : T) (l : list T) : bool := existsb (eqb x) l.
  Definition drop (x : T) (l : list T) : list T := filter (fun y => negb (eqb x y)) l.

  (** The members of [mruset], mruset.h:23-25. *)
  Record mru := mkMru { u_set : list T; u_queue : list T; u_max : N }.

  (** The constructor, mruset.h:28. *)
  Definition mru_new (n : N) : mru := mkMru [] [] n.

  (** [count], mruset.h:34. *)
  Definition mru_count (s : mru) (x : T) : bool := mem x (u_set s).

  (** [size], mruset.h:31. *)
  Definition mru_size (s : mru) : N := size (u_set s).

  (** [clear], mruset.h:35. *)
  Definition mru_clear (s : mru) : mru := mkMru [] [] (u_max s).

  (** [insert], mruset.h:39-52; also tells whether the element was new. [queue.front()] of an
      empty queue is undefined. *)
  Definition mru_insert (s : mru) (x : T) : outcome (mru * bool) :=
    if mem x (u_set s) then Done (s, false)
    else
      let set1 := x :: u_set s in
      if negb (u_max s =? 0) && (size (u_queue s) =? u_max s) then
        match u_queue s with
        | [] => Undefined
        | y :: q => Done (mkMru (drop y set1) (q ++ [x]) (u_max s), true)
        end
      else Done (mkMru set1 (u_queue s ++ [x]) (u_max s), true).

  (** The loop of [max_size(s)], mruset.h:57-61, over the queue. *)
  Fixpoint mru_shrink (n : N) (set queue : list T) : list T * list T :=
    match queue with
    | [] => (set, queue)
    | y :: q => if n <? size queue then mru_shrink n (drop y set) q else (set, queue)
    end.

  (** [max_size(s)], mruset.h:54-64. *)
  Definition mru_resize (s : mru) (n : N) : mru :=
    let r := if n =? 0 then (u_set s, u_queue s) else mru_shrink n (u_set s) (u_queue s) in
    mkMru (fst r) (snd r) n.
End Mru.
Arguments mkMru {T}.
Arguments u_set {T}.
Arguments u_queue {T}.
Arguments u_max {T}.
Arguments mru_new {T}.
Arguments mru_size {T}.
Arguments mru_clear {T}.

Section Fifo.
  Context {K V : Type}.
  Variable eqb : K -> K -> bool.

  (** The members of [CFIFOLimitmap], pbftlimitmap.h:23-26. The default constructor leaves
      [nMaxSize] without a value, pbftlimitmap.h:33. *)
  Record fifo := mkFifo { f_map : list (K * V); f_keys : list K; f_max : option N }.

  (** The two constructors, pbftlimitmap.h:29-33. *)
  Definition fifo_new : fifo := mkFifo [] [] None.
  Definition fifo_sized (n : N) : fifo := mkFifo [] [] (Some n).

  (** [find] with what it points at, pbftlimitmap.h:40. *)
  Definition fifo_find (s : fifo) (k : K) : option V := fget eqb (f_map s) k.

  (** [eraseFirst], pbftlimitmap.h:56-60. [vKeys[0]] of an empty vector is undefined. *)
  Definition erase_first (s : fifo) : outcome fifo :=
    match f_keys s with
    | [] => Undefined
    | k :: ks => Done (mkFifo (fdel eqb (f_map s) k) ks (f_max s))
    end.

  (** [insert], pbftlimitmap.h:43-54. *)
  Definition fifo_insert (s : fifo) (k : K) (v : V) : outcome fifo :=
    let s1 := if fmem eqb (f_map s) k then s
              else mkFifo (fput eqb (f_map s) k v) (f_keys s ++ [k]) (f_max s) in
    match f_max s with
    | None => Undefined
    | Some n => if n <? size (f_map s1) then erase_first s1 else Done s1
    end.

  (** [update] at the position of [k], pbftlimitmap.h:62-66; nothing at [end()]. *)
  Definition fifo_update (s : fifo) (k : K) (v : V) : fifo :=
    if fmem eqb (f_map s) k then mkFifo (fput eqb (f_map s) k v) (f_keys s) (f_max s) else s.

  (** [operator[]], pbftlimitmap.h:35: adds [d] when the key is missing. *)
  Definition fifo_at (d : V) (s : fifo) (k : K) : fifo * V :=
    match fget eqb (f_map s) k with
    | Some v => (s, v)
    | None => (mkFifo (fput eqb (f_map s) k d) (f_keys s) (f_max s), d)
    end.

  (** The loop of [max_size(s)], pbftlimitmap.h:72-74: at most one round for each element. *)
  Fixpoint fifo_shrink (fuel : nat) (n : N) (s : fifo) : outcome fifo :=
    if n <? size (f_map s) then
      match fuel with
      | O => Undefined
      | Datatypes.S fuel => do s1 <- erase_first s; fifo_shrink fuel n s1
      end
    else Done s.

  (** [max_size(s)], pbftlimitmap.h:70-77. *)
  Definition fifo_resize (s : fifo) (n : N) : outcome fifo :=
    do _ <- asserted (0 <? n);
    do s1 <- fifo_shrink (length (f_map s)) n s;
    Done (mkFifo (f_map s1) (f_keys s1) (Some n)).
End Fifo.
Arguments mkFifo {K V}.
Arguments f_map {K V}.
Arguments f_keys {K V}.
Arguments f_max {K V}.
Arguments fifo_new {K V}.
Arguments fifo_sized {K V}.

Section Limited.
  Context {K : Type}.
  Variable eqb : K -> K -> bool.

  (** The members of [limitedmap], limitedmap.h:24-28, with values [int64_t] (the only use,
      node.h:42). [rmap] is the multimap from values to positions, in its order. *)
  Record limited := mkLim { l_map : list (K * Z); l_rmap : list (Z * K); l_max : N }.

  (** The constructor, limitedmap.h:31-34. *)
  Definition lim_new (n : N) : outcome limited :=
    do _ <- asserted (0 <? n); Done (mkLim [] [] n).

  Definition lim_find (s : limited) (k : K) : option Z := fget eqb (l_map s) k.

  (** [multimap::insert]: after the entries that are not greater. *)
  Fixpoint rput (r : list (Z * K)) (v : Z) (k : K) : list (Z * K) :=
    match r with
    | [] => [(v, k)]
    | (v', k') :: r' => if (v <? v')%Z then (v, k) :: r else (v', k') :: rput r' v k
    end.

  (** Erase the first entry of the range of [v] that points at [k]: the loop of [erase] and
      [update], limitedmap.h:58-64, 75-83. *)
  Fixpoint rdel (r : list (Z * K)) (v : Z) (k : K) : option (list (Z * K)) :=
    match r with
    | [] => None
    | (v', k') :: r' =>
        if (v =? v')%Z && eqb k k' then Some r'
        else match rdel r' v k with Some q => Some ((v', k') :: q) | None => None end
    end.

  (** Erase what the first entry of [rmap] points at, limitedmap.h:49-50, 92-93;
      [begin()] of an empty map is undefined. *)
  Definition erase_least (s : limited) : outcome limited :=
    match l_rmap s with
    | [] => Undefined
    | (_, k) :: r => Done (mkLim (fdel eqb (l_map s) k) r (l_max s))
    end.

  (** [insert], limitedmap.h:45-54. *)
  Definition lim_insert (s : limited) (k : K) (v : Z) : outcome limited :=
    if fmem eqb (l_map s) k then Done s
    else
      let s1 := mkLim (fput eqb (l_map s) k v) (l_rmap s) (l_max s) in
      do s2 <- (if l_max s <? size (l_map s1) then erase_least s1 else Done s1);
      Done (mkLim (l_map s2) (rput (l_rmap s2) v k) (l_max s)).

  (** [erase], limitedmap.h:55-67. *)
  Definition lim_erase (s : limited) (k : K) : outcome limited :=
    match fget eqb (l_map s) k with
    | None => Done s
    | Some v => match rdel (l_rmap s) v k with
                | None => Abort
                | Some r => Done (mkLim (fdel eqb (l_map s) k) r (l_max s))
                end
    end.

  (** [update] at the position of [k], limitedmap.h:68-87. *)
  Definition lim_update (s : limited) (k : K) (v : Z) : outcome limited :=
    match fget eqb (l_map s) k with
    | None => Done s
    | Some v0 => match rdel (l_rmap s) v0 k with
                 | None => Abort
                 | Some r => Done (mkLim (fput eqb (l_map s) k v) (rput r v k) (l_max s))
                 end
    end.

  (** The loop of [max_size(s)], limitedmap.h:91-94. *)
  Fixpoint lim_shrink (fuel : nat) (n : N) (s : limited) : outcome limited :=
    if n <? size (l_map s) then
      match fuel with
      | O => Undefined
      | Datatypes.S fuel => do s1 <- erase_least s; lim_shrink fuel n s1
      end
    else Done s.

  (** [max_size(s)], limitedmap.h:89-97. *)
  Definition lim_resize (s : limited) (n : N) : outcome limited :=
    do _ <- asserted (0 <? n);
    do s1 <- lim_shrink (length (l_map s)) n s;
    Done (mkLim (l_map s1) (l_rmap s1) n).
End Limited.
Arguments mkLim {K}.
Arguments l_map {K}.
Arguments l_rmap {K}.
Arguments l_max {K}.
Arguments lim_new {K}.

Section Bloom.
  (** [MurmurHash3(seed, data)], a [uint32_t]. *)
  Variable murmur : N -> list N -> N.

  (** The members of [CBloomFilter], bloom.h:47-52, without the flags. *)
  Record bloom := mkBloom {
    b_data : list N; b_full : bool; b_empty : bool; b_funcs : N; b_tweak : N }.

  (** The constructor, bloom.cpp:14-26, for the sizes it computed. *)
  Definition bloom_new (bytes funcs tweak : N) : bloom :=
    mkBloom (repeat 0 (N.to_nat bytes)) false false funcs tweak.

  (** A filter just read from a peer: the default constructor, bloom.h:65, then the members
      that are serialised, bloom.h:67. [isEmpty] has no value yet ([junk]). *)
  Definition bloom_read (data : list N) (funcs tweak : N) (junk : bool) : bloom :=
    mkBloom data true junk funcs tweak.

  (** [Hash], bloom.cpp:28-31, for a filter of [n] bytes; a remainder by zero is undefined. *)
  Definition bloom_hash (n tweak i : N) (key : list N) : outcome N :=
    if n =? 0 then Undefined
    else Done (murmur ((i * 4221880213 + tweak) mod two32) key mod (n * 8)).

  (** Set or test bit [i] of the array, bloom.cpp:39, 57. *)
  Fixpoint upd (l : list N) (i : nat) (f : N -> N) : list N :=
    match l, i with
    | [], _ => []
    | x :: l', O => f x :: l'
    | x :: l', Datatypes.S i => x :: upd l' i f
    end.
  Definition set_bit (l : list N) (i : N) : list N :=
    upd l (N.to_nat (i / 8)) (fun b => N.lor b (2 ^ (i mod 8))).
  Definition get_bit (l : list N) (i : N) : bool :=
    negb (N.land (nth (N.to_nat (i / 8)) l 0) (2 ^ (i mod 8)) =? 0).

  (** The loop of [insert] over the numbers [is], bloom.cpp:36-40. *)
  Fixpoint insert_loop (tweak : N) (key : list N) (is : list N) (data : list N)
    : outcome (list N) :=
    match is with
    | [] => Done data
    | i :: is' => do x <- bloom_hash (size data) tweak i key;
                  insert_loop tweak key is' (set_bit data x)
    end.

  (** The numbers below [n], in order. *)
  Definition below (n : N) : list N := map N.of_nat (seq 0 (N.to_nat n)).

  (** [insert], bloom.cpp:33-42. *)
  Definition bloom_insert (f : bloom) (key : list N) : outcome bloom :=
    if b_full f then Done f
    else do data <- insert_loop (b_tweak f) key (below (b_funcs f)) (b_data f);
         Done (mkBloom data (b_full f) false (b_funcs f) (b_tweak f)).

  (** The loop of [contains], bloom.cpp:54-59. *)
  Fixpoint contains_loop (tweak : N) (key : list N) (is : list N) (data : list N)
    : outcome bool :=
    match is with
    | [] => Done true
    | i :: is' => do x <- bloom_hash (size data) tweak i key;
                  if get_bit data x then contains_loop tweak key is' data else Done false
    end.

  (** [contains], bloom.cpp:49-61. *)
  Definition bloom_contains (f : bloom) (key : list N) : outcome bool :=
    if b_full f then Done true
    else if b_empty f then Done false
    else contains_loop (b_tweak f) key (below (b_funcs f)) (b_data f).

  (** [IsRelevantAndUpdate], bloom.cpp:72-138: what is left of it. *)
  Definition bloom_relevant (f : bloom) (txid : list N) : bool :=
    if b_full f then true else if b_empty f then false else false.

  (** [UpdateEmptyFull], bloom.cpp:140-149. *)
  Definition bloom_update (f : bloom) : bloom :=
    mkBloom (b_data f) (forallb (fun b => b =? 255) (b_data f))
            (forallb (fun b => b =? 0) (b_data f)) (b_funcs f) (b_tweak f).

  (** [Clear], bloom.cpp:151-155. *)
  Definition bloom_clear (f : bloom) : bloom :=
    mkBloom (repeat 0 (length (b_data f))) false true (b_funcs f) (b_tweak f).
End Bloom.
