(** Vocabulary for the statements about checkpoints (C12-C19), independent of the helpers
    of CkptModel.v. *)
From Coq Require Import List Arith ZArith Permutation.
From Verif Require Import CkptModel.
Import ListNotations.
Local Open Scope nat_scope.

(** [x] is a multi-index of an array of this shape. *)
Definition in_shape (x shape : list nat) : Prop := Forall2 lt x shape.

(** [x] is selected by the python slices. *)
Definition selected1 (x : nat) (s : pyslice) : Prop :=
  match fst s with Some a => a <= x | None => True end /\
  match snd s with Some b => x < b | None => True end.
Definition selected (x : list nat) (s : list pyslice) : Prop := Forall2 selected1 x s.

(** [x] is in the box with these bounds. *)
Definition within (x : list nat) (s : slicend) : Prop :=
  Forall2 (fun a p => fst p <= a < snd p) x s.

Definition disjoint (a b : slicend) : Prop := forall x, within x a -> within x b -> False.

(** The index of a shard of an array of the given shape: one non-empty slice per axis,
    within the axis. *)
Definition valid_slice (s : pyslice) (size : nat) : Prop :=
  match fst s with Some a => a | None => 0 end < match snd s with Some b => b | None => size end
  /\ match snd s with Some b => b | None => size end <= size.
Definition valid_index (shape : list nat) (index : list pyslice) : Prop :=
  Forall2 valid_slice index shape.

(** First selected index. *)
Definition origin (index : list pyslice) : list nat :=
  map (fun s => match fst s with Some a => a | None => 0 end) index.

(** Number of elements of a box. *)
Definition volume (s : slicend) : nat := fold_right (fun p n => (snd p - fst p) * n) 1 s.

(** A sharded array without zero-size axes, over [P] processes, as jax gives them: the
    shards cover the array, and shards that share an element are replicas of each other. *)
Record good_leaf {V} (P : nat) (lf : leaf V) : Prop := {
  gl_itemsize : 1 <= lf_itemsize lf;
  gl_valid : forall sh, In sh (lf_shards lf) -> valid_index (lf_shape lf) (sh_index sh);
  gl_proc : forall sh, In sh (lf_shards lf) -> sh_proc sh < P;
  gl_cover : forall x, in_shape x (lf_shape lf) ->
    exists sh, In sh (lf_shards lf) /\ selected x (sh_index sh);
  gl_replica : forall sh sh' x, In sh (lf_shards lf) -> In sh' (lf_shards lf) ->
    in_shape x (lf_shape lf) -> selected x (sh_index sh) -> selected x (sh_index sh') ->
    forall y, in_shape y (lf_shape lf) -> selected y (sh_index sh) -> selected y (sh_index sh') }.

(** Two processes' views of the same array: they may list its global shards in different
    orders. *)
Definition same_array {V} (a b : leaf V) : Prop :=
  lf_shape a = lf_shape b /\ lf_itemsize a = lf_itemsize b /\ lf_value a = lf_value b /\
  Permutation (lf_shards a) (lf_shards b).

(** The arrays [leaves], seen by process [p < P] as [views p], are saved by all processes
    with the given options; process [p] writes [s p]. *)
Definition all_saved {V} (P : nat) (leaves : list (leaf V)) (views : nat -> list (leaf V))
  (num_shards max_chunk_bytes : option Z) (s : nat -> saved V) : Prop :=
  0 < P /\ Forall (good_leaf P) leaves /\
  (forall p, p < P -> Forall2 same_array (views p) leaves) /\
  (forall p, p < P -> save_checkpoint P p (views p) num_shards max_chunk_bytes = Ok (s p)).

(** The data files on disk after all processes have saved, in any order. *)
Definition on_disk {V} (P : nat) (s : nat -> saved V) (files : list (nat * list (chunk V)))
  : Prop :=
  Permutation files (flat_map (fun p => sv_files (s p)) (seq 0 P)).

(** A file [k] holds a chunk of leaf [i] with this slice. *)
Definition holds {V} (files : list (nat * list (chunk V))) (k i : nat) (sl : slicend) : Prop :=
  exists content c, In (k, content) files /\ In c content /\ ch_leaf c = i /\ ch_slice c = sl.

(** Size in bytes of the array data in a file. *)
Definition file_bytes {V} (leaves : list (leaf V)) (content : list (chunk V)) : nat :=
  fold_right (fun c n => match nth_error leaves (ch_leaf c) with
                         | Some lf => volume (ch_slice c) * lf_itemsize lf
                         | None => 0
                         end + n) 0 content.

(** What a process asks to restore: shard indices for every leaf. *)
Definition good_targets {V} (leaves : list (leaf V)) (targets : list target) : Prop :=
  Forall2 (fun lf (t : target) => Forall (valid_index (lf_shape lf)) t) leaves targets.

(** Maximum number of elements per chunk allowed by the byte limit. *)
Definition item_limit (max_chunk_bytes : Z) (itemsize : nat) : Z :=
  Z.max (max_chunk_bytes / Z.of_nat itemsize) 1.

(** Bytes that an assignment of slices to checkpoint shards puts in shard [k]. *)
Definition placed (itemsize : nat) (a : list (slicend * nat)) (k : nat) : nat :=
  fold_right (fun p n => (if snd p =? k then volume (fst p) * itemsize else 0) + n) 0 a.

(** Process [p] has an array shard holding the slice. *)
Definition has_slice (d : list (slicend * list shard)) (sl : slicend) (p : nat) : Prop :=
  exists l sh, dict_get d sl = Some l /\ In sh l /\ sh_proc sh = p.
