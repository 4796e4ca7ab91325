(** C25: logical meshes use every device once. *)
From Coq Require Import List Arith Bool Lia Permutation.
From Verif Require Import Py NdArray MeshModel MeshSpec MeshProofs.
Import ListNotations.

(** A mesh that is returned has one row per partition and N / P columns, and its entries
    are the devices, each once. *)
Theorem C25_each_device_once :
  forall all_devices local_devices P devices m,
  devices <> [] -> NoDup (map (coords_of local_devices devices) devices) ->
  get_auto_logical_mesh all_devices local_devices P devices = Ok m ->
  let p := Nat.min P (length devices) in
  0 < p /\ (exists r, dims m = [p; r] /\ p * r = length devices) /\
  Permutation (flatten m) (map Some devices).
Proof. exact auto_mesh. Qed.
Print Assumptions C25_each_device_once.

Theorem C25_error_unless_divisor :
  forall all_devices local_devices P devices,
  devices <> [] -> NoDup (map (coords_of local_devices devices) devices) ->
  P = 0 \/ (P <= length devices /\ length devices mod P <> 0) ->
  exists e, get_auto_logical_mesh all_devices local_devices P devices = Raise e.
Proof. exact auto_mesh_error. Qed.
Print Assumptions C25_error_unless_divisor.

Definition gpu (i p : nat) : device :=
  {| d_id := i; d_process := p; d_tpu := false; d_core := 0; d_coords := (0, 0, 0) |}.
Definition gpus : list device := [gpu 0 0; gpu 1 0; gpu 2 0; gpu 3 0; gpu 4 1; gpu 5 1; gpu 6 1; gpu 7 1].
Definition tpu (x y c p : nat) : device :=
  {| d_id := 100 * x + 10 * y + c; d_process := p; d_tpu := true; d_core := c; d_coords := (x, y, 0) |}.
(** A TPU slice of nx * ny chips with two cores, where a process has 2 * 2 chips. *)
Definition pod (nx ny : nat) : list device :=
  flat_map (fun x => flat_map (fun y => map (fun c => tpu x y c (x / 2 + 10 * (y / 2))) [0; 1]) (seq 0 ny)) (seq 0 nx).
Definition ids (r : res (nda (option device))) : option (list nat * list (option nat)) :=
  match r with Ok m => Some (dims m, map (option_map d_id) (flatten m)) | Raise _ => None end.

Example C25_example :
  NoDup (map (coords_of (firstn 4 gpus) gpus) gpus) /\
  ids (get_auto_logical_mesh gpus (firstn 4 gpus) 2 gpus) =
    Some ([2; 4], map Some [0; 1; 4; 5; 2; 3; 6; 7]) /\
  ids (get_auto_logical_mesh gpus (firstn 4 gpus) 8 gpus) = Some ([8; 1], map Some [0; 1; 2; 3; 4; 5; 6; 7]) /\
  get_auto_logical_mesh gpus (firstn 4 gpus) 3 gpus = Raise ValueError /\
  NoDup (map (coords_of (pod 2 2) (pod 4 2)) (pod 4 2)) /\
  ids (get_auto_logical_mesh (pod 4 2) (pod 2 2) 8 (pod 4 2)) =
    Some ([8; 2], map Some [0; 1; 100; 101; 10; 11; 110; 111; 200; 201; 300; 301; 210; 211; 310; 311]) /\
  (** The default mesh does not keep processes together: tiled instead. *)
  ids (get_auto_logical_mesh (pod 4 4) (pod 2 2) 2 (pod 4 4)) =
    Some ([2; 16], map Some [0; 1; 100; 101; 10; 11; 110; 111; 20; 21; 120; 121; 30; 31; 130; 131;
                             200; 201; 300; 301; 210; 211; 310; 311; 220; 221; 320; 321; 230; 231; 330; 331]).
Proof.
  repeat split; try (vm_compute; reflexivity);
    match goal with |- NoDup ?l => let v := eval vm_compute in l in change l with v end;
    repeat constructor; simpl; intuition discriminate.
Qed.

(** With hosts of different sizes, coordinates computed from ids collide and a device is
    silently left out of the mesh. *)
Theorem C25_colliding_coords_lose_devices :
  exists local_devices devices m,
  NoDup (map d_id devices) /\
  get_auto_logical_mesh devices local_devices 1 devices = Ok m /\
  length devices = 5 /\ dims m = [1; 4] /\ ~ In (Some (gpu 2 1)) (flatten m) /\ In (gpu 2 1) devices.
Proof.
  exists [gpu 0 0; gpu 1 0], [gpu 0 0; gpu 1 0; gpu 2 1; gpu 3 1; gpu 4 1].
  eexists. split; [repeat constructor; simpl; intuition discriminate|].
  split; [vm_compute; reflexivity|]. repeat split; [|simpl; auto]. vm_compute. intuition discriminate.
Qed.
Print Assumptions C25_colliding_coords_lose_devices.
