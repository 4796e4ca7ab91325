(** Datasets for evaluation with fake examples (vmoe/data/builder.py:106-116 and
    input_pipeline.py:55-151; C39), and prefetching to devices (vmoe/data/pjit_utils.py:54-136;
    C40). *)
From Coq Require Import List Arith ZArith Bool.
From Verif Require Import Py.
Import ListNotations.

(** ** Fake examples *)
(** builder.py:106-116 [_get_num_fake_examples]; (-n) % b in Python is between 0 and b. *)
Definition get_num_fake_examples (process_index : nat) (batch_size_per_process : Z) (num_examples_per_process : list Z) : res Z :=
  match nth_error num_examples_per_process process_index with
  | None => Raise AssertionError
  | Some num_examples_process =>
      if (batch_size_per_process =? 0)%Z then Raise ZeroDivisionError
      else
        let num_examples_max := fold_left Z.max num_examples_per_process num_examples_process in
        Ok (num_examples_max - num_examples_process + (- num_examples_max) mod batch_size_per_process)%Z
  end.

(** data.batch(n, drop_remainder=True) *)
Fixpoint batches_ {T} (fuel n : nat) (l : list T) : list (list T) :=
  match fuel with
  | O => []
  | S fuel => if length l <? n then [] else firstn n l :: batches_ fuel n (skipn n l)
  end.
Definition batches {T} (n : nat) (l : list T) : list (list T) := batches_ (S (length l)) n l.

Section Pipeline.
(** Loaded and processed examples; an example may get its own validity mark when it is
    processed. *)
Variable X Y : Type.
Variable process : X -> Y * option bool.
(** The example of zeros *)
Variable zeros : Y.
(** data.map(..., deterministic=False) gives its results in any order, in each process. *)
Variable shuffled : nat -> list (Y * bool) -> list (Y * bool).

(** input_pipeline.py:55-151 [get_dataset] for variants other than 'train', in the process
    [i] of [length parts], where [parts] are the examples read by each process
    (tfds.even_splits); the batches are those of one pass over the data.  Caching and
    prefetching on the host do not change the data, and no example is skipped by ignore_errors
    (builder.py:87-88). *)
Definition get_dataset (device_count batch_size : nat) (pre_filter_fn : option (X -> bool)) (parts : list (list X)) (i : nat)
  : res (list (list (Y * bool))) :=
  let process_count := length parts in
  if negb (batch_size mod process_count =? 0) || negb (batch_size mod device_count =? 0) then Raise ValueError
  else
    let batch_size_per_process := batch_size / process_count in
    let data := nth i parts [] in
    let data := match pre_filter_fn with Some f => filter f data | None => data end in
    let mask_fn := fun d => (fst d, match snd d with Some v => v | None => true end) in
    let data := shuffled i (map (fun x => mask_fn (process x)) data) in
    bind (get_num_fake_examples i (Z.of_nat batch_size_per_process) (map (fun p => Z.of_nat (length p)) parts)) (fun num_fake_examples =>
    let data := if (0 <? num_fake_examples)%Z then data ++ repeat (zeros, false) (Z.to_nat num_fake_examples) else data in
    Ok (batches batch_size_per_process data)).
End Pipeline.

(** ** Prefetching *)
Section Prefetch.
(** What a call of next() does on an iterator, by the number of items taken before *)
Inductive next_t (T : Type) := Item (x : T) | Stop | Fails.
Arguments Item {T}. Arguments Stop {T}. Arguments Fails {T}.
Variable T U : Type.
Variable to_global : T -> U.
Variable source : nat -> next_t T.

(** pjit_utils.py:108-110 [enqueue]: the number of items taken from the source, the queue, and
    whether the source failed *)
Fixpoint enqueue (n taken : nat) (queue : list U) : nat * list U * bool :=
  match n with
  | O => (taken, queue, false)
  | S n => match source taken with
           | Item x => enqueue n (S taken) (queue ++ [to_global x])
           | Stop => (taken, queue, false)
           | Fails => (taken, queue, true)
           end
  end.

(** The state of the generator: not started, stopped at the yield of the loop of lines
    113-115 or 119-120 (with what was taken from the source and the queue), or finished. *)
Inductive gen := NotStarted | Yielded (taken : nat) (queue : list U) | Finished (taken : nat).
Definition taken (g : gen) : nat := match g with NotStarted => 0 | Yielded n _ => n | Finished n => n end.

(** The test of the while loop, and the yield *)
Definition while_queue (r : nat * list U * bool) : gen * next_t U :=
  match r with
  | (n, _, true) => (Finished n, Fails)
  | (n, [], false) => (Finished n, Stop)
  | (n, x :: queue, false) => (Yielded n queue, Item x)
  end.
(** One call of next() on the generator *)
Definition prefetch_next (size : option Z) (g : gen) : gen * next_t U :=
  match size with
  | Some z =>
      if (0 <? z)%Z then
        match g with
        | NotStarted => while_queue (enqueue (Z.to_nat z) 0 [])
        | Yielded n queue => while_queue (enqueue 1 n queue)
        | Finished n => (Finished n, Stop)
        end
      else
        match g with
        | Finished n => (Finished n, Stop)
        | g => match source (taken g) with
               | Item x => (Yielded (S (taken g)) [], Item (to_global x))
               | Stop => (Finished (taken g), Stop)
               | Fails => (Finished (taken g), Fails)
               end
        end
  | None =>
      match g with
      | Finished n => (Finished n, Stop)
      | g => match source (taken g) with
             | Item x => (Yielded (S (taken g)) [], Item (to_global x))
             | Stop => (Finished (taken g), Stop)
             | Fails => (Finished (taken g), Fails)
             end
      end
  end.
(** [n] calls of next() *)
Fixpoint prefetch_run (size : option Z) (n : nat) : gen * list (next_t U) :=
  match n with
  | O => (NotStarted, [])
  | S n => let '(g, out) := prefetch_run size n in let '(g', x) := prefetch_next size g in (g', out ++ [x])
  end.
End Prefetch.
Arguments Item {T}. Arguments Stop {T}. Arguments Fails {T}.
Arguments NotStarted {U}. Arguments Yielded {U}. Arguments Finished {U}. Arguments taken {U}.

(** ** Arrays over several devices *)
(** The k-th of [n] equal parts *)
Definition part {T} (n k : nat) (l : list T) : list T := let s := length l / n in firstn s (skipn (k * s) l).
(** pjit_utils.py:123-136 [put_to_devices]: one part per device (np.split) *)
Definition put_to_devices {T} (x : list T) (local_device_count : nat) : res (list (list T)) :=
  if local_device_count =? 0 then Raise ZeroDivisionError
  else if length x mod local_device_count =? 0 then Ok (map (fun k => part local_device_count k x) (seq 0 local_device_count))
  else Raise ValueError.
(** mesh.local_devices, by process: the positions of its devices in the flattened mesh *)
Definition local_devices (mesh : list nat) (process : nat) : list nat :=
  filter (fun q => nth q mesh 0 =? process) (seq 0 (length mesh)).
(** The position of an element in a list *)
Fixpoint index_of (x : nat) (l : list nat) : nat := match l with [] => 0 | y :: r => if x =? y then 0 else S (index_of x r) end.
(** pjit_utils.py:84-102 [_to_global], for all processes together: [mesh] gives the process of
    each device and [xs] the rows of each process.  The device at each position of the
    flattened mesh holds that part of the first axis of the global array, and every device must
    have the same number of rows. *)
Definition to_global_array {T} (mesh : list nat) (xs : list (list T)) : res (list T) :=
  bind (rmap (fun i => put_to_devices (nth i xs []) (length (local_devices mesh i))) (seq 0 (length xs))) (fun buffers =>
  let device_rows := map (fun q => let i := nth q mesh 0 in nth (index_of q (local_devices mesh i)) (nth i buffers []) []) (seq 0 (length mesh)) in
  if forallb (fun r => length r * length mesh =? length (nth 0 xs []) * length xs) device_rows then Ok (concat device_rows)
  else Raise ValueError).
