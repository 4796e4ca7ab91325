(** C96: batches are as they are declared to the compiler. *)
From Coq Require Import String List Arith Bool Lia.
From Verif Require Import DataModel DataSpec SdsModel SdsSpec SdsProofs.
From Verif Require Import Py.
Import ListNotations.
Local Open Scope string_scope.
Local Open Scope list_scope.
Local Open Scope nat_scope.

(** Every array of a batch has the declared shape, sharding, number of rows over all processes, and the declared type
    as devices keep it.
    What is missing: leaves that are not numbers, for which it is false (C96_refuted). *)
Theorem C96_declared_partial : forall (D Row : Type) (number_or_bool : D -> bool) (device_dtype : D -> D) (p : nat) (m : mesh_t)
  (specs : list (leaf_spec D)) (xs : list (leaf D Row)) (sts : list (struct_t D)) (ys : list (placed D Row)),
  Forall2 (conforms p) specs xs -> Forall (fun s => sp_ragged D s = false /\ number_or_bool (sp_dtype D s) = true) specs ->
  get_dataset_shape_dtype_struct D p m specs = Ok sts -> batch_to_global D Row number_or_bool device_dtype p m xs = Ok ys ->
  Forall2 (as_declared device_dtype) sts ys.
Proof. intros D Row nb dd p m specs xs sts ys. exact (agree_batch nb dd p m specs xs sts ys). Qed.
Print Assumptions C96_declared_partial.

(** Structures can be declared exactly if the mesh is not empty and every leaf has a known number of rows. *)
Theorem C96_structs : forall (D : Type) (p : nat) (m : mesh_t) (specs : list (leaf_spec D)),
  (mesh_empty m = true -> get_dataset_shape_dtype_struct D p m specs = Raise AssertionError)
  /\ (mesh_empty m = false -> ((exists sts, get_dataset_shape_dtype_struct D p m specs = Ok sts) <-> forall s, In s specs -> exists n r, sp_shape D s = Some n :: r)).
Proof. intros D p m specs. exact (struct_errors p m specs). Qed.
Print Assumptions C96_structs.

(** If all processes have d devices of the mesh, the rows of a process can be placed exactly if d divides their number. *)
Theorem C96_placed : forall (D Row : Type) (number_or_bool : D -> bool) (device_dtype : D -> D) (p : nat) (m : mesh_t) (d : nat) (s : leaf_spec D) (x : leaf D Row),
  0 < d -> 0 < p -> same_devices (device_process m) p d -> conforms p s x -> sp_ragged D s = false -> number_or_bool (sp_dtype D s) = true ->
  forall n r, sp_shape D s = Some n :: r ->
  (n mod d = 0 -> exists y, to_global D Row number_or_bool device_dtype p m x = Ok y)
  /\ (n mod d <> 0 -> to_global D Row number_or_bool device_dtype p m x = Raise ValueError).
Proof. intros D Row nb dd p m d s x. exact (placed_ok nb dd p m d s x). Qed.
Print Assumptions C96_placed.

(** One compilation does for all batches of a dataset whose shape is known: their arrays have the same shape. *)
Theorem C96_compiled_once : forall (D Row : Type) (number_or_bool : D -> bool) (device_dtype : D -> D) (p : nat) (m : mesh_t)
  (s : leaf_spec D) (st : struct_t D) (x x' : leaf D Row) sh dt shd rows sh' dt' shd' rows',
  conforms p s x -> conforms p s x' -> sp_ragged D s = false -> number_or_bool (sp_dtype D s) = true ->
  Forall (fun o => o <> None) (sp_shape D s) -> struct_of D p m s = Ok st ->
  to_global D Row number_or_bool device_dtype p m x = Ok (Global D Row sh dt shd rows) ->
  to_global D Row number_or_bool device_dtype p m x' = Ok (Global D Row sh' dt' shd' rows') ->
  sh = sh' /\ dt = dt' /\ shd = shd' /\ length rows = length rows'.
Proof.
  intros D Row nb dd p m s st x x' sh dt shd rows sh' dt' shd' rows' C C' R B K S G G'.
  destruct (agree_leaf nb dd p m s x st _ C R B S G) as (A1 & A2 & A3 & r & A4). destruct (agree_leaf nb dd p m s x' st _ C' R B S G') as (B1 & B2 & B3 & r' & B4).
  assert (Ks : Forall (fun o => o <> None) (st_shape D st)).
  { apply struct_ok in S. destruct S as (n & t & S1 & S2 & _). rewrite S2. rewrite S1 in K. inversion K; subst. constructor; [discriminate|assumption]. }
  assert (E : sh = sh') by (exact (fits_known _ _ _ Ks A1 B1)). repeat split; try congruence.
Qed.
Print Assumptions C96_compiled_once.

(** Two types, numbers and strings; two processes with a device each *)
Definition mesh_ex : mesh_t := {| axis_names := ["expert"; "replica"]; device_process := [0; 1] |}.
Definition spec_ex (d : bool) : leaf_spec bool := {| sp_ragged := false; sp_shape := [Some 2; Some 3]; sp_dtype := d |}.
Definition leaf_ex (d : bool) : leaf bool nat := {| x_ragged := false; x_dtype := d; x_rows := Some [[1; 2]; [3; 4]]; x_rest := [3] |}.
Definition id_bool (b : bool) : bool := b.

(** Strings: an array over the mesh is declared, but the step gets the rows of its own process. *)
Theorem C96_refuted : exists (s : leaf_spec bool) (x : leaf bool nat) st y, conforms 2 s x /\ struct_of bool 2 mesh_ex s = Ok st
  /\ to_global bool nat id_bool id_bool 2 mesh_ex x = Ok y /\ ~ as_declared id_bool st y /\ y = Host bool nat x.
Proof.
  exists (spec_ex false), (leaf_ex false). eexists. eexists. split; [|split; [reflexivity|split; [reflexivity|split; [intros []|reflexivity]]]].
  split; [reflexivity|]. split; [reflexivity|]. cbn. split; [reflexivity|]. exists 2. split; repeat constructor.
Qed.
Print Assumptions C96_refuted.
Example C96_declared_ex : Forall2 (conforms 2) [spec_ex true] [leaf_ex true] /\ get_dataset_shape_dtype_struct bool 2 mesh_ex [spec_ex true] =
    Ok [{| st_shape := [Some 4; Some 3]; st_dtype := true; st_sharding := ["expert"; "replica"] |}]
  /\ batch_to_global bool nat id_bool id_bool 2 mesh_ex [leaf_ex true] = Ok [Global bool nat [4; 3] true ["expert"; "replica"] [1; 2; 3; 4]]
  /\ same_devices (device_process mesh_ex) 2 1.
Proof.
  split; [|split; [reflexivity|split; [reflexivity|]]].
  - repeat constructor. cbn. exists 2. split; repeat constructor.
  - split; [reflexivity|]. split; [intros q H; cbn in H; destruct q as [|[|q]]; cbn; lia|]. intros i H. destruct i as [|[|i]]; [reflexivity|reflexivity|lia].
Qed.
Example C96_structs_ex : get_dataset_shape_dtype_struct bool 2 mesh_ex [{| sp_ragged := false; sp_shape := [None; Some 3]; sp_dtype := true |}] = Raise TypeError
  /\ get_dataset_shape_dtype_struct bool 2 mesh_ex [{| sp_ragged := false; sp_shape := []; sp_dtype := true |}] = Raise IndexError.
Proof. split; reflexivity. Qed.
