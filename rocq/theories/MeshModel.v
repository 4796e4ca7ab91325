(** Model of the construction of device meshes, vmoe/partitioning.py:93-306 (C25). *)
From Coq Require Import List Arith Bool.
From Verif Require Import Py NdArray.
Import ListNotations.

(** jax.Device: id, process_index, platform == 'tpu', core_on_chip and coords (TPU only;
    always three coordinates). *)
Record device := { d_id : nat; d_process : nat; d_tpu : bool; d_core : nat; d_coords : nat * nat * nat }.

Section Mesh.
(** jax.devices() and jax.local_devices(). *)
Variable all_devices local_devices : list device.

(** 191-193 [get_device_coords_other]; jax.local_device_count() = len(jax.local_devices()) > 0 *)
Definition get_device_coords_other (d : device) : list nat :=
  [d_id d mod length local_devices; d_process d].

(** 196-203 [get_device_coords_tpu] *)
Definition get_device_coords_tpu (d : device) : list nat :=
  let '(x, y, z) := d_coords d in [d_core d; x; y; z].

(** 184-188 [get_device_coords] *)
Definition get_device_coords (d : device) : list nat :=
  if d_tpu d then get_device_coords_tpu d else get_device_coords_other d.

Definition idx_eqb (a b : list nat) : bool := if list_eq_dec Nat.eq_dec a b then true else false.

(** dict insertion: d[key] = value *)
Fixpoint dset (d : list (list nat * device)) (k : list nat) (v : device) : list (list nat * device) :=
  match d with
  | [] => [(k, v)]
  | (k', v') :: r => if idx_eqb k' k then (k', v) :: r else (k', v') :: dset r k v
  end.
Fixpoint dget (d : list (list nat * device)) (k : list nat) : option device :=
  match d with
  | [] => None
  | (k', v) :: r => if idx_eqb k' k then Some v else dget r k
  end.

(** Tuple comparison a <= b. *)
Fixpoint lex_leb (a b : list nat) : bool :=
  match a, b with
  | [], _ => true
  | _ :: _, [] => false
  | x :: a, y :: b => (x <? y) || ((x =? y) && lex_leb a b)
  end.
(** sorted(keys)[-1] *)
Definition last_key (keys : list (list nat)) : res (list nat) :=
  match keys with
  | [] => Raise IndexError
  | k :: r => Ok (fold_left (fun m k => if lex_leb m k then k else m) r k)
  end.

Fixpoint inside (idx ds : list nat) : bool :=
  match idx, ds with
  | [], [] => true
  | i :: idx, d :: ds => (i <? d) && inside idx ds
  | _, _ => false
  end.

(** 213-220 [get_hardware_mesh_other] and 223-230 [get_hardware_mesh_tpu], which differ in
    the coordinates only.  The entries of np.empty(dtype=object) are None. *)
Definition get_hardware_mesh (coords : device -> list nat) (devices : list device) : res (nda (option device)) :=
  let mesh_dict := fold_left (fun m d => dset m (coords d) d) devices [] in
  bind (last_key (map fst mesh_dict)) (fun last =>
    let shape := map S last in
    if forallb (fun kv => inside (fst kv) shape) mesh_dict
    then Ok {| dims := shape; at_ := dget mesh_dict |}
    else Raise IndexError).

(** device.process_index; None has no such attribute. *)
Definition process_index (d : option device) : res nat :=
  match d with Some d => Ok (d_process d) | None => Raise AttributeError end.

Definition is_local (p : nat) (d : option device) : bool :=
  match d with Some d => d_process d =? p | None => false end.

(** 93-106 [process_has_contiguous_device_slice]: the devices of the process fill the
    smallest box with all of them. *)
Definition process_has_contiguous_device_slice (a : nda (option device)) (p : nat) : bool :=
  let nonzero := filter (fun idx => is_local p (at_ a idx)) (indices (dims a)) in
  let axis k := map (fun idx => nth k idx 0) nonzero in
  let lo k := fold_left Nat.min (axis k) (hd 0 (axis k)) in
  let hi k := fold_left Nat.max (axis k) 0 in
  forallb (fun idx => is_local p (at_ a idx))
    (filter (fun idx => forallb (fun k => (lo k <=? nth k idx 0) && (nth k idx 0 <=? hi k))
                                (seq 0 (length (dims a)))) (indices (dims a))).

(** 109-114 [processes_have_contiguous_device_slices] *)
Definition processes_have_contiguous_device_slices (a : nda (option device)) : res bool :=
  bind (rmap process_index (flatten a)) (fun procs =>
    Ok (forallb (process_has_contiguous_device_slice a) (nodup Nat.eq_dec procs))).

(** 206-210 [get_hardware_mesh_local_shape], of jax.local_devices() *)
Definition get_hardware_mesh_local_shape : list nat :=
  let coords := map get_device_coords local_devices in
  match coords with
  | [] => []
  | c :: _ => map (fun k => length (nodup Nat.eq_dec (map (fun c => nth k c 0) coords))) (seq 0 (length c))
  end.

(** functools.reduce(lambda a, b: a + b, tuples): TypeError without tuples. *)
Definition reduce_concat (l : list (list nat)) : res (list nat) :=
  match l with [] => Raise TypeError | _ => Ok (concat l) end.

(** tuple(range(start, stop, step)) *)
Definition range_step (start n step : nat) : list nat := map (fun i => start + i * step) (seq 0 n).

(** 253-270 [get_logical_mesh_default] *)
Definition get_logical_mesh_default (partitions replicas : list nat) (hw : nda (option device))
  : res (nda (option device)) :=
  bind (reduce_concat (map (fun pr => [fst pr; snd pr]) (combine partitions replicas))) (fun shape =>
  bind (reshape shape hw) (fun devices =>
    let n := length (dims hw) in
    bind (transpose (range_step 0 n 2 ++ range_step 1 n 2) devices)
      (reshape [prod partitions; prod replicas]))).

(** 282-291 [fn] *)
Definition tile_shape (p r l : nat) : res (list nat) :=
  if l =? 0 then Raise ZeroDivisionError else
  if p mod l =? 0 then Ok [p / l; l; r; 1]
  else if r mod l =? 0 then Ok [1; p; r / l; l]
  else Raise ValueError.

(** 273-306 [get_logical_mesh_tile_by_process] *)
Definition get_logical_mesh_tile_by_process (partitions replicas : list nat) (hw : nda (option device))
  (local_shape : list nat) : res (nda (option device)) :=
  bind (rmap (fun prl => tile_shape (fst (fst prl)) (snd (fst prl)) (snd prl))
             (combine (combine partitions replicas) local_shape)) (fun shapes =>
  bind (reduce_concat shapes) (fun shape =>
  bind (reshape shape hw) (fun devices =>
    let n := length (dims hw) in
    bind (transpose (range_step 0 n 4 ++ range_step 1 n 4 ++ range_step 2 n 4 ++ range_step 3 n 4) devices)
      (reshape [prod partitions; prod replicas])))).

(** 233-250 [get_logical_mesh].  (If the lengths differ and a zero comes before the end of the
    shorter one, the code divides by zero first.) *)
Definition get_logical_mesh (partitions : list nat) (hw : nda (option device)) : res (nda (option device)) :=
  if negb (length partitions =? length (dims hw)) then Raise ValueError else
  if existsb (Nat.eqb 0) partitions then Raise ZeroDivisionError else
  let replicas := map (fun ps => snd ps / fst ps) (combine partitions (dims hw)) in
  let replicas := rev replicas in
  let partitions := rev partitions in
  bind (transpose (rev (seq 0 (length (dims hw)))) hw) (fun hw =>
  bind (get_logical_mesh_default partitions replicas hw) (fun logical_mesh =>
  bind (processes_have_contiguous_device_slices logical_mesh) (fun contiguous =>
    if contiguous then Ok logical_mesh else
    get_logical_mesh_tile_by_process partitions replicas hw (rev get_hardware_mesh_local_shape)))).

(** a // b *)
Definition floordiv (a b : nat) : res nat := if b =? 0 then Raise ZeroDivisionError else Ok (a / b).

Definition divides_all (ps ss : list nat) : bool := forallb (fun ps => snd ps mod fst ps =? 0) (combine ps ss).

(** 136-151 [get_auto_logical_mesh_other] *)
Definition get_auto_logical_mesh_other (num_partitions : nat) (hw : nda (option device)) : res (nda (option device)) :=
  match dims hw with
  | [s0; s1] =>
      let d := Nat.min num_partitions s0 in
      bind (floordiv num_partitions d) (fun q =>
      let h := Nat.min q s1 in
      if negb (d * h =? num_partitions) || negb (divides_all [d; h] [s0; s1]) then Raise ValueError
      else get_logical_mesh [d; h] hw)
  | _ => Raise AssertionError
  end.

(** 154-181 [get_auto_logical_mesh_tpu] *)
Definition get_auto_logical_mesh_tpu (num_partitions : nat) (hw : nda (option device)) : res (nda (option device)) :=
  match dims hw with
  | [s0; s1; s2; s3] =>
      bind (if s3 =? 1 then
              let x := Nat.min num_partitions s1 in
              bind (floordiv num_partitions x) (fun q =>
              let y := Nat.min q s2 in
              bind (floordiv num_partitions (x * y)) (fun q =>
              let c := Nat.min q s0 in Ok (c, x, y, 1)))
            else
              let z := Nat.min num_partitions s3 in
              bind (floordiv num_partitions z) (fun q =>
              let y := Nat.min q s2 in
              bind (floordiv num_partitions (z * y)) (fun q =>
              let x := Nat.min q s1 in
              bind (floordiv num_partitions (z * y * x)) (fun q =>
              let c := Nat.min q s0 in Ok (c, x, y, z)))))
        (fun cxyz => let '(c, x, y, z) := cxyz in
           if negb (c * x * y * z =? num_partitions) || negb (divides_all [c; x; y; z] [s0; s1; s2; s3])
           then Raise ValueError else get_logical_mesh [c; x; y; z] hw)
  | _ => Raise AssertionError
  end.

(** 117-133 [get_auto_logical_mesh] for num_partitions >= 0 *)
Definition get_auto_logical_mesh (num_partitions : nat) (devices : list device) : res (nda (option device)) :=
  let devices := match devices with [] => all_devices | _ => devices end in
  let num_partitions := Nat.min num_partitions (length devices) in
  match devices with
  | [] => Raise IndexError
  | d :: _ =>
      if d_tpu d
      then bind (get_hardware_mesh get_device_coords_tpu devices) (get_auto_logical_mesh_tpu num_partitions)
      else bind (get_hardware_mesh get_device_coords_other devices) (get_auto_logical_mesh_other num_partitions)
  end.
End Mesh.
