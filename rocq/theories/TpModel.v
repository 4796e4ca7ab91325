(** Training data (vmoe/data/input_pipeline.py:41-163 and vmoe/data/builder.py:46-133; C84). *)
From Coq Require Import String List Arith ZArith Bool.
From Verif Require Import Py.
Import ListNotations.
Local Open Scope list_scope.
Local Open Scope nat_scope.

(** ** A window over a stream *)
Section Window.
Variable T : Type.
Definition replace_nth (i : nat) (x : T) (l : list T) : list T := firstn i l ++ x :: skipn (S i) l.
(** Dataset.shuffle(B) of an endless dataset: a buffer of B elements, from which a random one is given
    out and replaced by the next element of the input.  [choice k] is the k-th random number.
    Dataset.map(..., num_parallel_calls=B, deterministic=False) gives its results in the order in
    which they are ready; at most B calls run, so it is such a window too (runs with fewer calls at
    a time give results in an order that is also possible with B calls). *)
Fixpoint buffer (B : nat) (choice : nat -> nat) (s : nat -> T) (k : nat) : list T :=
  match k with
  | O => map s (seq 0 B)
  | S k => replace_nth (choice k mod B) (s (B + k)) (buffer B choice s k)
  end.
Definition window (B : nat) (choice : nat -> nat) (s : nat -> T) (k : nat) : T :=
  nth (choice k mod B) (buffer B choice s k) (s 0).
End Window.
Arguments replace_nth {T}. Arguments buffer {T}. Arguments window {T}.

Section Pipeline.
Variables X Y : Type.
(** The processing function; the random numbers of the t-th example taken are a function of t. *)
Variable process : nat -> X -> Y.
(** builder.py:80-91 with shuffle_files=True: the order of the examples in the e-th pass over the data of
    process i.  As [Dataset.ignore_errors] skips nothing here, each pass has all of them. *)
Variable order : nat -> nat -> list X -> list X.

(** input_pipeline.py:106-117: the endless dataset of process i, before shuffling; t is the number
    of examples taken.  With cache 'loaded', the later passes repeat the first one. *)
Definition source (loaded : bool) (i : nat) (data : list X) (x0 : X) (t : nat) : X :=
  let n := length data in
  nth (t mod n) (order i (if loaded then 0 else t / n) data) x0.

(** input_pipeline.py:55-151 [get_dataset] for the variant 'train' in process [i] of [length parts],
    where [parts] are the examples read by each process (tfds.even_splits): the batches, without end, or
    None if no example passes the filter (repeat() of an empty dataset is empty).  [choose] and
    [ready] give the random numbers of shuffle and the order in which parallel calls end.
    Prefetching, and caching after the batches, do not change the data. *)
Definition train_batches (choose ready : nat -> nat -> nat) (device_count batch_size : nat) (pre_filter_fn : option (X -> bool)) (loaded : bool)
    (num_parallel_calls : nat) (shuffle_buffer : option nat) (parts : list (list X)) (i : nat) : res (option (nat -> list Y)) :=
  let process_count := length parts in
  if negb (batch_size mod process_count =? 0) || negb (batch_size mod device_count =? 0) then Raise ValueError
  else
    let batch_size_per_process := batch_size / process_count in
    let data := nth i parts [] in
    let data := match pre_filter_fn with Some f => filter f data | None => data end in
    match shuffle_buffer, num_parallel_calls with
    | None, _ | Some O, _ | _, O => Raise ValueError
    | Some B, _ =>
        match data with
        | [] => Ok None
        | x0 :: _ =>
            let data := source loaded i data x0 in
            let data := window B (choose i) (fun t => (t, data t)) in
            let data := window num_parallel_calls (ready i) (fun k => process (fst (data k)) (snd (data k))) in
            Ok (Some (fun step => map (fun j => data (step * batch_size_per_process + j)) (seq 0 batch_size_per_process)))
        end
    end.

(** input_pipeline.py:154-163 [get_data_num_examples] with the default builder (builder.py:76-78): the
    examples of the split, all processes together; pre_filter_fn is not used *)
Definition get_data_num_examples (parts : list (list X)) : nat := length (concat parts).

(** vmoe/train/trainer.py:323-329, 690, 727-731 and 820: a run iterates its dataset from the beginning, also when it continues
    an earlier one (the iterator is not in the checkpoint, input_pipeline.py:148-151).  What is trained on in
    successive runs of the given numbers of steps, where [batches r] are the batches of run r. *)
Fixpoint trained_ (r : nat) (batches : nat -> nat -> list Y) (runs : list nat) : list Y :=
  match runs with
  | [] => []
  | n :: runs => concat (map (batches r) (seq 0 n)) ++ trained_ (S r) batches runs
  end.
Definition trained : (nat -> nat -> list Y) -> list nat -> list Y := trained_ 0.
End Pipeline.

(** ** Options *)
(** Binding keyword arguments to a function with the given required and optional parameters. *)
Definition binds (required optional : list string) (keys : list string) : bool :=
  forallb (fun k => existsb (String.eqb k) keys) required &&
  forallb (fun k => existsb (String.eqb k) (required ++ optional)) keys.
Definition without (l keys : list string) : list string := filter (fun k => negb (existsb (String.eqb k) l)) keys.

Local Open Scope string_scope.
(** builder.py:130-133 [get_dataset_builder] and 46-74 [TfdsBuilder] *)
Definition get_dataset_builder (keys : list string) : bool :=
  binds ["name"; "split"] ["data_dir"; "manual_dir"; "shuffle_files"; "shuffle_seed"; "try_gcs"; "ignore_errors"] keys.
(** input_pipeline.py:41-52 [get_datasets]: the variant is passed beside the options, and a key given twice
    is a TypeError; 55-69 and 98-103 [get_dataset]: the other keys go to the builder, beside name, split,
    shuffle_files and shuffle_seed.  [true]: no TypeError. *)
Definition get_dataset_accepts (keys : list string) : bool :=
  let keys := without ["prefetch_device"] keys in
  let own := ["name"; "split"; "batch_size"; "process"; "cache"; "num_parallel_calls"; "pre_filter_fn"; "prefetch"; "shuffle_buffer"; "shuffle_seed"] in
  let extra_builder_kwargs := without own keys in
  negb (existsb (String.eqb "variant") keys) &&
  forallb (fun k => existsb (String.eqb k) keys) ["name"; "split"; "batch_size"; "process"] &&
  negb (existsb (fun k => existsb (String.eqb k) extra_builder_kwargs) ["name"; "split"; "shuffle_files"; "shuffle_seed"]) &&
  get_dataset_builder (["name"; "split"; "shuffle_files"; "shuffle_seed"] ++ extra_builder_kwargs)%list.
(** 154-162 *)
Definition get_data_num_examples_accepts (keys : list string) : bool :=
  get_dataset_builder (without ["variant"; "batch_size"; "process"; "cache"; "num_parallel_calls"; "prefetch"; "prefetch_device"; "shuffle_buffer"; "pre_filter_fn"] keys).
