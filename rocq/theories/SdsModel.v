(** Declared shapes of batches and the arrays of batches (vmoe/data/pjit_utils.py:31-51 and 77-102; C96). *)
From Coq Require Import String List Arith Bool.
From Verif Require Import DataModel.
From Verif Require Import Py.
Import ListNotations.
Local Open Scope list_scope.
Local Open Scope nat_scope.

Section Structs.
(** Data types: which are numbers or bool, and the type that a device keeps for each (jax.device_put may narrow it).
    Rows of arrays are opaque. *)
Variables (D Row : Type) (number_or_bool : D -> bool) (device_dtype : D -> D).
(** A mesh: names of its axes and the process of each of its devices; jax.process_count() *)
Record mesh_t := { axis_names : list string; device_process : list nat }.
Variable process_count : nat.

(** An element of element_spec: of dense or ragged tensors; unknown dimensions are None.  Tensors of unknown rank are
    not modelled. *)
Record leaf_spec := { sp_ragged : bool; sp_shape : list (option nat); sp_dtype : D }.
(** jax.ShapeDtypeStruct; the first axis is sharded over the given axes of the mesh. *)
Record struct_t := { st_shape : list (option nat); st_dtype : D; st_sharding : list string }.
(** 36-37 and 73-74: mesh.empty *)
Definition mesh_empty (m : mesh_t) : bool := match axis_names m with [] => true | _ => false end.
(** 42-49 [fn] *)
Definition struct_of (m : mesh_t) (s : leaf_spec) : res struct_t :=
  match sp_shape s with
  | [] => Raise IndexError
  | None :: _ => Raise TypeError
  | Some n :: r => Ok {| st_shape := Some (n * process_count) :: r; st_dtype := sp_dtype s; st_sharding := axis_names m |}
  end.
(** 31-51, for the leaves of the tree in order *)
Definition get_dataset_shape_dtype_struct (m : mesh_t) (specs : list leaf_spec) : res (list struct_t) :=
  if mesh_empty m then Raise AssertionError else rmap (struct_of m) specs.

(** A leaf of the batches of all processes: the rows of each process, or tensors without axes *)
Record leaf := { x_ragged : bool; x_dtype : D; x_rows : option (list (list Row)); x_rest : list nat }.
(** What the step gets: an array over the mesh, or the value as it was. *)
Inductive placed := Global (shape : list nat) (dtype : D) (sharding : list string) (rows : list Row) | Host (x : leaf).
(** 84-102 [_to_global]; np.split of an array without axes is an IndexError. *)
Definition to_global (m : mesh_t) (x : leaf) : res placed :=
  if x_ragged x then Ok (Host x) else
  if negb (number_or_bool (x_dtype x)) then Ok (Host x) else
  match x_rows x with
  | None => Raise IndexError
  | Some xs => bind (to_global_array (device_process m) xs) (fun g =>
      Ok (Global (length (nth 0 xs []) * process_count :: x_rest x) (device_dtype (x_dtype x)) (axis_names m) g))
  end.
(** The leaves of a batch *)
Definition batch_to_global (m : mesh_t) (xs : list leaf) : res (list placed) :=
  if mesh_empty m then Raise AssertionError else rmap (to_global m) xs.
End Structs.
