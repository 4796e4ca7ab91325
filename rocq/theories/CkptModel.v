(** Model of vmoe/checkpoints/partitioned.py (save / restore of partitioned arrays) and of
    the slices of vmoe/checkpoints/types.py.

    A multi-index is a [list nat].  The contents of an array or of an array shard are a
    function of the (local) multi-index together with a shape.  Files are keyed by their
    checkpoint shard number; that different shards have different file names is C23. *)
From Coq Require Import List Arith ZArith Bool.
From Verif Require Import Prim.
Import ListNotations.
Local Open Scope nat_scope.

Inductive err := ValueError | TypeError | IndexError | KeyError | NotFound | RuntimeError.
Inductive res (T : Type) := Ok (x : T) | Raise (e : err).
Arguments Ok {T}. Arguments Raise {T}.

Definition bind {T U} (x : res T) (f : T -> res U) : res U :=
  match x with Ok a => f a | Raise e => Raise e end.

(** mapM in program order. *)
Fixpoint rmap {T U} (f : T -> res U) (l : list T) : res (list U) :=
  match l with
  | [] => Ok []
  | x :: r => bind (f x) (fun y => bind (rmap f r) (fun ys => Ok (y :: ys)))
  end.

(** Fold with errors. *)
Fixpoint rfold {T U} (f : U -> T -> res U) (l : list T) (u : U) : res U :=
  match l with
  | [] => Ok u
  | x :: r => bind (f u x) (rfold f r)
  end.

(** vmoe/utils.py:126-165 [safe_zip]: raises SafeZipIteratorError, a RuntimeError, on different lengths. *)
Fixpoint safe_zip {T U} (a : list T) (b : list U) : res (list (T * U)) :=
  match a, b with
  | [], [] => Ok []
  | x :: a', y :: b' => bind (safe_zip a' b') (fun r => Ok ((x, y) :: r))
  | _, _ => Raise RuntimeError
  end.

(* ------------------------------------------------------------------ *)
(** ** Slices *)

(** vmoe/checkpoints/types.py:31-83 [Slice] / python slice with optional bounds; the
    step is always None here, bounds are non-negative. *)
Definition pyslice := (option nat * option nat)%type.

(** A slice with both bounds given. *)
Definition cslice := (nat * nat)%type.
(** vmoe/checkpoints/types.py:86-101 [SliceNd]. *)
Definition slicend := list cslice.

Definition of_c (s : cslice) : pyslice := (Some (fst s), Some (snd s)).

(** [x or 0] for an optional integer. *)
Definition or0 (o : option nat) : nat := match o with Some n => n | None => 0 end.

(** min of two optional stops, None = infinity. *)
Definition min_stop (a b : option nat) : option nat :=
  match a, b with
  | None, x | x, None => x
  | Some x, Some y => Some (Nat.min x y)
  end.

(** vmoe/checkpoints/partitioned.py:369-378 [_intersect_slicend].  [Ok None] is python's
    None.  The loop stops at the first empty axis, before safe_zip can notice that the
    remaining lengths differ. *)
Fixpoint intersect_slicend (a b : list pyslice) : res (option (list pyslice)) :=
  match a, b with
  | [], [] => Ok (Some [])
  | s_a :: a', s_b :: b' =>
      let start := Nat.max (or0 (fst s_a)) (or0 (fst s_b)) in
      let stop := min_stop (snd s_a) (snd s_b) in
      if match stop with Some t => t <=? start | None => false end then Ok None
      else bind (intersect_slicend a' b') (fun o =>
             Ok (match o with Some r => Some ((Some start, stop) :: r) | None => None end))
  | _, _ => Raise RuntimeError
  end.

(** vmoe/checkpoints/partitioned.py:542-546 [_shard_index_to_slicend]. *)
Definition shard_index_to_slicend (index : list pyslice) (global_shape : list nat) : res slicend :=
  bind (safe_zip index global_shape) (fun z =>
    Ok (map (fun p => (or0 (fst (fst p)),
                       match snd (fst p) with None => snd p | Some t => t end)) z)).

(** Equality of SliceNd (tuples of Slice), types.py:64-66. *)
Fixpoint slicend_eqb (a b : slicend) : bool :=
  match a, b with
  | [], [] => true
  | (x, y) :: a', (u, v) :: b' => (x =? u) && (y =? v) && slicend_eqb a' b'
  | _, _ => false
  end.

(** [a <= b] in the lexicographic order of SliceNd, types.py:68-70. *)
Fixpoint slicend_leb (a b : slicend) : bool :=
  match a, b with
  | [], _ => true
  | _ :: _, [] => false
  | (x, y) :: a', (u, v) :: b' =>
      if x <? u then true else if u <? x then false
      else if y <? v then true else if v <? y then false
      else slicend_leb a' b'
  end.

Fixpoint insert_slicend (x : slicend) (l : list slicend) : list slicend :=
  match l with
  | [] => [x]
  | y :: l' => if slicend_leb x y then x :: y :: l' else y :: insert_slicend x l'
  end.
(** sorted(...) on the keys of a dict of SliceNd (partitioned.py:316,394). *)
Definition sort_slicends (l : list slicend) : list slicend := fold_right insert_slicend [] l.

(* ------------------------------------------------------------------ *)
(** ** Dictionaries keyed by SliceNd, in insertion order *)

Fixpoint dict_get {T} (d : list (slicend * T)) (k : slicend) : option T :=
  match d with
  | [] => None
  | (k', v) :: r => if slicend_eqb k' k then Some v else dict_get r k
  end.
Fixpoint dict_set {T} (d : list (slicend * T)) (k : slicend) (v : T) : list (slicend * T) :=
  match d with
  | [] => [(k, v)]
  | (k', v') :: r => if slicend_eqb k' k then (k', v) :: r else (k', v') :: dict_set r k v
  end.
(** defaultdict(list)[k].append(v) *)
Fixpoint dict_append {T} (d : list (slicend * list T)) (k : slicend) (v : T)
  : list (slicend * list T) :=
  match d with
  | [] => [(k, [v])]
  | (k', l) :: r => if slicend_eqb k' k then (k', l ++ [v]) :: r else (k', l) :: dict_append r k v
  end.

(* ------------------------------------------------------------------ *)
(** ** Chunking *)

Definition prod (l : list nat) : nat := fold_right Nat.mul 1 l.
Definition slice_sizes (s : slicend) : list nat := map (fun p => snd p - fst p) s.

(** range(start, stop, step) for step >= 1. *)
Definition py_range (start stop step : nat) : list nat :=
  map (fun j => start + j * step) (seq 0 ((stop - start + step - 1) / step)).

(** chunk[:i] + (x,) + chunk[i+1:] *)
Definition set_nth (i : nat) (x : cslice) (chunk : slicend) : slicend :=
  firstn i chunk ++ [x] ++ skipn (S i) chunk.

(** vmoe/checkpoints/partitioned.py:566-572: number of splits of a dimension. *)
Definition choose_splits (size chunk_items max_items : nat) : nat :=
  match filter (fun s => (size mod s =? 0) && (chunk_items / s <=? max_items)) (seq 2 8) with
  | s :: _ => s
  | [] => size
  end.

(** vmoe/checkpoints/partitioned.py:563-578: the loop over dimensions, in the order
    [dims].  [chunk_items /= splits] is exact because splits divides size, which divides
    chunk_items (below 2^53 items the float division is exact too). *)
Fixpoint split_loop (sl : slicend) (shape : list nat) (max_items : nat) (dims : list nat)
  (chunks : list slicend) (chunk_items : nat) : list slicend :=
  match dims with
  | [] => chunks
  | i :: rest =>
      let size := nth i shape 0 in
      if size =? 1 then split_loop sl shape max_items rest chunks chunk_items else
      let splits := choose_splits size chunk_items max_items in
      let start := fst (nth i sl (0, 0)) in
      let stop := snd (nth i sl (0, 0)) in
      let step := size / splits in
      let chunks := flat_map (fun chunk =>
        map (fun j => set_nth i (j, j + step) chunk) (py_range start stop step)) chunks in
      let chunk_items := chunk_items / splits in
      if chunk_items <=? max_items then chunks
      else split_loop sl shape max_items rest chunks chunk_items
  end.

(** vmoe/checkpoints/partitioned.py:549-580 [_split_slicend].  The dimensions are sorted
    by (size, index): a stable sort of the indices by size.  [max_chunk_items = None] and
    [Some 0] mean no limit. *)
Definition split_slicend (sl : slicend) (max_chunk_items : option nat) : list slicend :=
  let shape := slice_sizes sl in
  let chunk_items := prod shape in
  match max_chunk_items with
  | None | Some 0 => [sl]
  | Some m =>
      if chunk_items <=? m then [sl] else
      let dims := sort_idx (fun i j => nth i shape 0 <=? nth j shape 0) (length shape) in
      split_loop sl shape m dims [sl] chunk_items
  end.

(** vmoe/checkpoints/partitioned.py:279-282: limit in items from the limit in bytes. *)
Definition max_items_of (max_chunk_bytes : option Z) (itemsize : nat) : option nat :=
  match max_chunk_bytes with
  | Some b => if (1 <=? b)%Z then Some (Nat.max (Z.to_nat b / itemsize) 1) else None
  | None => None
  end.

(* ------------------------------------------------------------------ *)
(** ** Arrays *)

Record shard := { sh_index : list pyslice;   (* Shard.index *)
                  sh_proc : nat }.           (* Shard.device.process_index *)

(** A jax.Array leaf: shape, item size, contents, and its global shards.  The data of the
    shard at global slice [s] is the restriction of the contents to [s]. *)
Record leaf (V : Type) := {
  lf_shape : list nat;
  lf_itemsize : nat;
  lf_value : list nat -> V;
  lf_shards : list shard }.
Arguments lf_shape {V}. Arguments lf_itemsize {V}. Arguments lf_value {V}. Arguments lf_shards {V}.

(** Pointwise sum / difference of multi-indices. *)
Definition idx_add (a b : list nat) : list nat := map (fun p => fst p + snd p) (combine a b).
Definition idx_sub (a b : list nat) : list nat := map (fun p => fst p - snd p) (combine a b).

(** array[slice] for a tuple of slices: local index [i] is index [start + i]. *)
Definition slice_array {V} (arr : list nat -> V) (s : slicend) : list nat -> V :=
  fun i => arr (idx_add (map fst s) i).

(** Shard.data of a shard: contents at the shard's start plus the local index. *)
Definition shard_data {V} (lf : leaf V) (sh : shard) : list nat -> V :=
  fun i => lf_value lf (idx_add (map (fun s => or0 (fst s)) (sh_index sh)) i).

(** vmoe/checkpoints/partitioned.py:259-289 [_create_map_slicend_to_array_shards]. *)
Definition create_map_slicend_to_array_shards {V} (lf : leaf V) (max_chunk_bytes : option Z)
  : res (list (slicend * list shard)) :=
  bind (rfold (fun d sh => bind (shard_index_to_slicend (sh_index sh) (lf_shape lf))
                             (fun s => Ok (dict_append d s sh)))
              (lf_shards lf) [])
       (fun groups =>
          let m := max_items_of max_chunk_bytes (lf_itemsize lf) in
          Ok (fold_left (fun d p =>
                fold_left (fun d sub => dict_set d sub (snd p)) (split_slicend (fst p) m) d)
              groups [])).

(** vmoe/checkpoints/partitioned.py:348-359 [_find_smallest_ckpt_shard]: sorting the pairs
    (bytes, i) is a stable sort of the shard numbers by bytes.  [P] is process_count. *)
Definition find_smallest_ckpt_shard (P : nat) (bytes : list nat) (processes : list nat)
  : option nat :=
  find (fun i => existsb (Nat.eqb (i mod P)) processes)
       (sort_idx (fun i j => nth i bytes 0 <=? nth j bytes 0) (length bytes)).

(** bytes[i] += n *)
Fixpoint add_nth (i n : nat) (l : list nat) : list nat :=
  match l, i with
  | [], _ => []
  | x :: r, 0 => x + n :: r
  | x :: r, S j => x :: add_nth j n r
  end.

(** vmoe/checkpoints/partitioned.py:292-330 [_create_map_slicend_to_checkpoint_shard]:
    the updated bytes per shard and the assignment, in insertion (sorted) order.
    IndexError: no checkpoint shard is handled by the processes holding the slice. *)
Definition create_map_slicend_to_ckpt_shard (P : nat) (d : list (slicend * list shard))
  (itemsize : nat) (bytes : list nat) : res (list nat * list (slicend * nat)) :=
  rfold (fun st sl =>
      let shards := match dict_get d sl with Some l => l | None => [] end in
      let processes := map sh_proc shards in
      match find_smallest_ckpt_shard P (fst st) processes with
      | None => Raise IndexError
      | Some ck => Ok (add_nth ck (prod (slice_sizes sl) * itemsize) (fst st),
                       snd st ++ [(sl, ck)])
      end)
    (sort_slicends (map fst d)) (bytes, []).

(** vmoe/checkpoints/types.py:181-194 [IndexInfo]. *)
Record index_info := { ii_shape : list nat; ii_slices : list slicend; ii_shards : list nat }.

(** vmoe/checkpoints/partitioned.py:389-398 [_make_index_info]. *)
Definition make_index_info (a : list (slicend * nat)) (shape : list nat) : index_info :=
  let global_slices := sort_slicends (map fst a) in
  {| ii_shape := shape; ii_slices := global_slices;
     ii_shards := map (fun s => match dict_get a s with Some k => k | None => 0 end) global_slices |}.

(** One chunk in a checkpoint shard file: leaf number, contents, global slice.  The
    LazyArrayChunks / ArrayChunks dictionaries group these by leaf number
    (types.py:133-178); leaves are added in increasing order, so the flat list lists the
    same chunks in the same order. *)
Record chunk (V : Type) := { ch_leaf : nat; ch_data : list nat -> V; ch_slice : slicend }.
Arguments ch_leaf {V}. Arguments ch_data {V}. Arguments ch_slice {V}.

(** vmoe/checkpoints/partitioned.py:605-609 [_global2local]. *)
Definition global2local (sh : shard) (s : slicend) : res slicend :=
  bind (safe_zip (sh_index sh) s) (fun z =>
    Ok (map (fun p => (fst (snd p) - or0 (fst (fst p)), snd (snd p) - or0 (fst (fst p)))) z)).

(** vmoe/checkpoints/partitioned.py:583-626 [_update_lazy_array_chunks_with_leaf] on
    process [p]: the chunks it adds, each with its checkpoint shard. *)
Definition update_chunks_with_leaf {V} (P p index : nat) (lf : leaf V)
  (d : list (slicend * list shard)) (a : list (slicend * nat)) : res (list (nat * chunk V)) :=
  rfold (fun acc sk =>
      let '(sl, ck) := sk in
      if ck mod P =? p then
        let shards := match dict_get d sl with Some l => l | None => [] end in
        match find (fun sh => sh_proc sh =? p) shards with
        | Some sh =>
            bind (global2local sh sl) (fun loc =>
              Ok (acc ++ [(ck, {| ch_leaf := index;
                                  ch_data := slice_array (shard_data lf sh) loc;
                                  ch_slice := sl |})]))
        | None => Raise ValueError
        end
      else Ok acc)
    a [].

(** vmoe/checkpoints/partitioned.py:171-177: effective number of shards. *)
Definition effective_num_shards (P : nat) (num_shards : option Z) : nat :=
  match num_shards with
  | None => P
  | Some n => if (n <? Z.of_nat P)%Z then P else Z.to_nat n
  end.

(** vmoe/checkpoints/partitioned.py:187-195: the loop over leaves on process [p]. State:
    bytes per shard, index leaves, chunks (with their checkpoint shard). *)
Definition save_step {V} (P p : nat) (max_chunk_bytes : option Z)
  (st : list nat * list index_info * list (nat * chunk V)) (il : nat * leaf V)
  : res (list nat * list index_info * list (nat * chunk V)) :=
  let '(bytes, idx, chunks) := st in
  let '(i, lf) := il in
  bind (create_map_slicend_to_array_shards lf max_chunk_bytes) (fun d =>
  bind (create_map_slicend_to_ckpt_shard P d (lf_itemsize lf) bytes) (fun ba =>
  bind (update_chunks_with_leaf P p i lf d (snd ba)) (fun new =>
    Ok (fst ba, idx ++ [make_index_info (snd ba) (lf_shape lf)], chunks ++ new)))).

(** What one process writes: its data files (one per checkpoint shard it handles), and the
    index contents (written by process 0 only; computed by all). *)
Record saved (V : Type) := {
  sv_files : list (nat * list (chunk V));
  sv_index : list index_info;
  sv_shard_count : nat }.
Arguments sv_files {V}. Arguments sv_index {V}. Arguments sv_shard_count {V}.

(** vmoe/checkpoints/partitioned.py:127-212,230-256 [save_checkpoint] on process [p] of
    [P]: the files it writes.  Device-to-host copies (_replace_jax_with_numpy...,
    401-414) preserve the values.  The pytree structure is represented by the list of
    leaves. *)
Definition save_checkpoint {V} (P p : nat) (leaves : list (leaf V)) (num_shards : option Z)
  (max_chunk_bytes : option Z) : res (saved V) :=
  let n := effective_num_shards P num_shards in
  bind (rfold (save_step P p max_chunk_bytes)
              (combine (seq 0 (length leaves)) leaves)
              (repeat 0 n, [], []))
    (fun st =>
      let '(_, idx, chunks) := st in
      Ok {| sv_files := map (fun k => (k, map snd (filter (fun c => fst c =? k) chunks)))
                            (filter (fun k => k mod P =? p) (seq 0 n));
            sv_index := idx;
            sv_shard_count := n |}).

(* ------------------------------------------------------------------ *)
(** ** Restore *)

(** The addressable shards of a leaf on the restoring process (the values of
    sharding.addressable_devices_indices_map). *)
Definition target := list (list pyslice).

(** vmoe/checkpoints/partitioned.py:215-227 [_create_local_buffers]: zero-filled buffers
    keyed by global slice. *)
Definition create_local_buffers {V} (zero : V) (t : target) (shape : list nat)
  : res (list (slicend * (list nat -> V))) :=
  rfold (fun d index => bind (shard_index_to_slicend index shape) (fun s =>
           Ok (match dict_get d s with
               | Some _ => d
               | None => dict_set d s (fun _ => zero)
               end))) t [].

(** Truthiness of an Optional[SliceNd]: None and the empty tuple are false. *)
Definition truthy (o : option (list pyslice)) : bool :=
  match o with Some (_ :: _) => true | _ => false end.

(** vmoe/checkpoints/partitioned.py:333-345 [_find_ckpt_shards_to_restore]; the or is
    short-circuiting. *)
Definition find_ckpt_shards_to_restore (t : target) (shape : list nat)
  (slices : list slicend) (shards : list nat) : res (list nat) :=
  rfold (fun acc index =>
    bind (shard_index_to_slicend index shape) (fun gs =>
    bind (safe_zip slices shards) (fun z =>
      rfold (fun acc ck =>
        let '(cs, k) := ck in
        if slicend_eqb gs cs then Ok (acc ++ [k]) else
        bind (intersect_slicend (map of_c gs) (map of_c cs)) (fun o =>
          Ok (if truthy o then acc ++ [k] else acc))) z acc))) t [].

(** Both bounds of an intersection of slices with bounds. *)
Definition to_c (s : pyslice) : cslice := (or0 (fst s), or0 (snd s)).

(** Is the local index inside the slice? *)
Definition in_slicend (i : list nat) (s : slicend) : bool :=
  (length i =? length s) &&
  forallb (fun p => (fst (snd p) <=? fst p) && (fst p <? snd (snd p))) (combine i s).

(** buffer[s] = values: write a region. *)
Definition write_region {V} (buffer : list nat -> V) (s : slicend) (values : list nat -> V)
  : list nat -> V :=
  fun i => if in_slicend i s then values (idx_sub i (map fst s)) else buffer i.

(** slice(a.start - b.start, a.stop - b.start) for a, b in safe_zip(inter, base)
    (partitioned.py:533-538). *)
Definition rel_slicend (inter : list pyslice) (base : slicend) : res slicend :=
  bind (safe_zip inter base) (fun z =>
    Ok (map (fun p => (fst (to_c (fst p)) - fst (snd p), snd (to_c (fst p)) - fst (snd p))) z)).

(** vmoe/checkpoints/partitioned.py:529-539: one checkpoint chunk against one local
    buffer.  When the slices are equal but the intersection is None (a zero-size axis),
    safe_zip(None, ...) raises TypeError. *)
Definition restore_one {V} (c : chunk V) (gb : slicend * (list nat -> V))
  : res (slicend * (list nat -> V)) :=
  let '(gs, buffer) := gb in
  bind (intersect_slicend (map of_c gs) (map of_c (ch_slice c))) (fun o =>
    if slicend_eqb gs (ch_slice c) || truthy o then
      match o with
      | None => Raise TypeError
      | Some inter =>
          bind (rel_slicend inter gs) (fun loc =>
          bind (rel_slicend inter (ch_slice c)) (fun cks =>
            Ok (gs, write_region buffer loc (slice_array (ch_data c) cks))))
      end
    else Ok gb).

Definition buffers V := list (list (slicend * (list nat -> V))).

(** Update the [i]-th element of a list with a fallible function. *)
Fixpoint update_nth {T} (i : nat) (f : T -> res T) (l : list T) : res (list T) :=
  match l, i with
  | [], _ => Raise IndexError
  | x :: r, 0 => bind (f x) (fun y => Ok (y :: r))
  | x :: r, S j => bind (update_nth j f r) (fun r' => Ok (x :: r'))
  end.

(** vmoe/checkpoints/partitioned.py:526-539 [_restore_local_buffers]: one chunk of a file
    written into the local buffers of its leaf. *)
Definition restore_chunk {V} (b : buffers V) (c : chunk V) : res (buffers V) :=
  update_nth (ch_leaf c) (rmap (restore_one c)) b.

Definition file_get {T} (files : list (nat * T)) (k : nat) : option T :=
  match find (fun f => fst f =? k) files with Some f => Some (snd f) | None => None end.

(** vmoe/checkpoints/serialization.py:230-248 [_array_chunks_decode] while a data file is
    read: a chunk without items was written as no subchunks, and np.concatenate of no arrays
    raises ValueError.  Other chunks are read as they were written (see SerModel.v). *)
Definition decode_file {V} (content : list (chunk V)) : res (list (chunk V)) :=
  if existsb (fun c => prod (slice_sizes (ch_slice c)) =? 0) content then Raise ValueError
  else Ok content.

(** vmoe/checkpoints/base.py:143-149 [restore_checkpoint] of the data file [k]. *)
Definition load_file {V} (files : list (nat * list (chunk V))) (k : nat) : res (list (chunk V)) :=
  match file_get files k with
  | None => Raise NotFound
  | Some content => decode_file content
  end.

(** vmoe/checkpoints/partitioned.py:442-447: checkpoint shards a process must read. *)
Definition shards_to_read (targets : list target) (index : list index_info) : res (list nat) :=
  bind (safe_zip targets index) (fun z =>
  bind (rmap (fun ti => find_ckpt_shards_to_restore (fst ti) (ii_shape (snd ti))
                          (ii_slices (snd ti)) (ii_shards (snd ti))) z)
       (fun ls => Ok (nodup Nat.eq_dec (concat ls)))).

(** vmoe/checkpoints/partitioned.py:471-474: the data of the addressable shard at [index]. *)
Definition shard_of_buffers {V} (b : list (slicend * (list nat -> V))) (shape : list nat)
  (index : list pyslice) : res (list nat -> V) :=
  bind (shard_index_to_slicend index shape) (fun s =>
    match dict_get b s with Some f => Ok f | None => Raise KeyError end).

(** vmoe/checkpoints/partitioned.py:417-478 [_restore_checkpoint_from_index] on one
    process.  The thread pool reads the needed files concurrently, in any order; [sched]
    is the interleaving of the writes of their chunks into the buffers.  The result gives
    for every leaf and every addressable shard its data.  max_concurrent_bytes only
    changes how many files are read at a time, i.e. [sched]. *)
Definition restore_from_index {V} (zero : V) (files : list (nat * list (chunk V)))
  (index : list index_info) (targets : list target)
  (sched : list (chunk V) -> list (chunk V)) : res (list (list (list nat -> V))) :=
  bind (safe_zip targets index) (fun z =>
  bind (rmap (fun ti => create_local_buffers zero (fst ti) (ii_shape (snd ti))) z) (fun b0 =>
  bind (shards_to_read targets index) (fun need =>
  bind (rmap (load_file files) need) (fun contents =>
  bind (rfold restore_chunk (sched (concat contents)) b0) (fun b =>
  bind (safe_zip z b) (fun zb =>
    rmap (fun tib => rmap (shard_of_buffers (snd tib) (ii_shape (snd (fst tib))))
                          (fst (fst tib))) zb)))))).
