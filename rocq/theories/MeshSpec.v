(** Vocabulary for C25. *)
From Coq Require Import List Arith.
From Verif Require Import MeshModel.
Import ListNotations.

(** The hardware coordinates used for the devices: those of the platform of the first. *)
Definition coords_of (local_devices devices : list device) : device -> list nat :=
  match devices with
  | d :: _ => if d_tpu d then get_device_coords_tpu else get_device_coords_other local_devices
  | [] => fun _ => []
  end.
