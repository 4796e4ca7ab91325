(** C84: which examples a model is trained on. *)
From Coq Require Import String List Arith ZArith Bool Lia Permutation.
From Verif Require Import Py TpModel TpSpec TpProofs.
Import ListNotations.
Local Open Scope list_scope.
Local Open Scope nat_scope.

(** The k-th example of a process is number [at_ k] of an endless sequence of passes over the examples of
    this process that pass the filter (with cache 'loaded', always in the same order).  After N steps
    the examples drawn, together with B + P that are not drawn yet, are the first N * b + B + P of
    this sequence, each exactly once; so, whatever the random numbers, examples with any property p
    (of a class, say, or equal to a given one) have been drawn as many times as full passes have them,
    up to B + P, and never more than in one more pass. *)
Theorem C84_drawn : forall X Y (process : nat -> X -> Y) order,
  (forall i e l, Permutation (order i e l) l) ->
  forall choose ready device_count batch_size f loaded P B parts i batch,
  train_batches X Y process order choose ready device_count batch_size f loaded P (Some B) parts i = Ok (Some batch) ->
  let b := batch_size / length parts in
  let data := match f with Some f => filter f (nth i parts []) | None => nth i parts [] end in
  exists src : nat -> X, exists at_ : nat -> nat,
    (forall e, Permutation (map src (seq (e * length data) (length data))) data) /\
    (loaded = true -> forall t, src (t + length data) = src t) /\
    forall N,
      concat (map batch (seq 0 N)) = map (fun k => process (at_ k) (src (at_ k))) (seq 0 (N * b)) /\
      (exists rest, Permutation (map at_ (seq 0 (N * b)) ++ rest) (seq 0 (N * b + B + P))) /\
      (forall p, let T := N * b + B + P in
         count p (map (fun k => src (at_ k)) (seq 0 (N * b))) <= ceil_div T (length data) * count p data /\
         T / length data * count p data <= count p (map (fun k => src (at_ k)) (seq 0 (N * b))) + (B + P)).
Proof. intros X Y process order PO. exact (drawn process order PO). Qed.
Print Assumptions C84_drawn.
Example C84_drawn_example : exists batch,
  train_batches nat (nat * nat) (fun t x => (t, x)) (fun _ e l => if Nat.even e then l else rev l) (fun _ k => k * k + 1) (fun _ k => k) 2 4 (Some (fun x => negb (x =? 9))) false 2 (Some 3) [[1; 2; 3; 9]; [4; 5]] 0 = Ok (Some batch) /\
  map batch (seq 0 4) = [[(1, 2); (2, 3)]; [(4, 2); (3, 3)]; [(5, 1); (7, 2)]; [(6, 1); (8, 3)]].
Proof. eexists. split; [reflexivity|]. vm_compute. reflexivity. Qed.

(** So every example of the data of a process is trained on within n (B + P + 1) examples, for data
    of n examples. *)
Theorem C84_all_seen : forall X Y (process : nat -> X -> Y) order,
  (forall i e l, Permutation (order i e l) l) ->
  forall choose ready device_count batch_size f loaded P B parts i batch N x,
  train_batches X Y process order choose ready device_count batch_size f loaded P (Some B) parts i = Ok (Some batch) ->
  let b := batch_size / length parts in
  let data := match f with Some f => filter f (nth i parts []) | None => nth i parts [] end in
  In x data -> length data * (B + P + 1) <= N * b + B + P -> (forall y z : X, {y = z} + {y <> z}) ->
  exists t, In (process t x) (concat (map batch (seq 0 N))).
Proof. intros X Y process order PO. exact (all_seen process order PO). Qed.
Print Assumptions C84_all_seen.

(** One epoch is less than that: the numbers of steps of one epoch may draw an example twice and another
    one not at all. *)
Theorem C84_epoch_refuted : exists choose batch,
  train_batches nat nat (fun _ x => x) (fun _ _ l => l) choose (fun _ _ => 0) 1 1 None false 1 (Some 3) [[1; 2; 3]] 0 = Ok (Some batch) /\
  get_data_num_examples nat [[1; 2; 3]] = 3 /\ concat (map batch (seq 0 3)) = [2; 3; 2].
Proof. exists (fun _ k => if k =? 0 then 1 else 2). eexists. split; [reflexivity|]. split; vm_compute; reflexivity. Qed.
Print Assumptions C84_epoch_refuted.

(** The least number of steps N for e epochs of all examples (C37) makes e passes over the data of each process,
    up to one example per epoch and one batch, if the processes have the same number of examples
    up to one (tfds.even_splits). *)
Theorem C84_epochs : forall X (parts : list (list X)) batch_size e N i,
  (forall i j, i < length parts -> j < length parts -> length (nth i parts []) <= length (nth j parts []) + 1) ->
  i < length parts -> batch_size mod length parts = 0 ->
  let b := batch_size / length parts in let n := length (nth i parts []) in
  (e * get_data_num_examples X parts <= N * batch_size -> e * n <= N * b + e) /\
  (N * batch_size < e * get_data_num_examples X parts + batch_size -> N * b < e * (n + 1) + b).
Proof. intros X. exact epochs. Qed.
Print Assumptions C84_epochs.
Example C84_epochs_example : get_data_num_examples nat [[1; 2; 3]; [4; 5]] = 5 /\ 4 mod 2 = 0 /\ 2 * 5 <= 3 * 4 < 2 * 5 + 4.
Proof. repeat split; cbn; lia. Qed.

(** Errors, and no data. *)
Theorem C84_errors : forall X Y (process : nat -> X -> Y) order choose ready device_count batch_size f loaded P B parts i,
  (batch_size mod length parts <> 0 \/ batch_size mod device_count <> 0 \/ B = None \/ B = Some 0 \/ P = 0 <->
   train_batches X Y process order choose ready device_count batch_size f loaded P B parts i = Raise ValueError).
Proof. intros X Y process order. exact (train_errors process order). Qed.
Print Assumptions C84_errors.
Theorem C84_empty : forall X Y (process : nat -> X -> Y) order choose ready device_count batch_size f loaded P B parts i,
  batch_size mod length parts = 0 -> batch_size mod device_count = 0 -> 1 <= B -> 1 <= P ->
  (train_batches X Y process order choose ready device_count batch_size f loaded P (Some B) parts i = Ok None <->
   match f with Some f => filter f (nth i parts []) | None => nth i parts [] end = []).
Proof. intros X Y process order. exact (train_empty process order). Qed.
Print Assumptions C84_empty.
Example C84_empty_example : train_batches nat nat (fun _ x => x) (fun _ _ l => l) (fun _ _ => 0) (fun _ _ => 0) 1 1 (Some (fun x => 5 <? x)) false 1 (Some 1) [[1; 2]] 0 = Ok None.
Proof. reflexivity. Qed.

(** The number of examples, from which the steps of an epoch are computed, ignores the filter: one epoch of
    four examples, of which one passes the filter, trains on this one four times. *)
Theorem C84_filtered_epoch_refuted : exists f batch,
  train_batches nat nat (fun _ x => x) (fun _ _ l => l) (fun _ _ => 0) (fun _ _ => 0) 1 1 (Some f) false 1 (Some 1) [[1; 2; 3; 4]] 0 = Ok (Some batch) /\
  get_data_num_examples nat [[1; 2; 3; 4]] = 4 /\ filter f [1; 2; 3; 4] = [2] /\ concat (map batch (seq 0 4)) = [2; 2; 2; 2].
Proof. exists (fun x => x =? 2). eexists. split; [reflexivity|]. repeat split; vm_compute; reflexivity. Qed.
Print Assumptions C84_filtered_epoch_refuted.

(** A run that is continued begins with the data again: with a seed, 4 steps in two runs train
    twice on the same two of four examples, while a single run trains on all. *)
Theorem C84_restart_refuted : exists batch,
  train_batches nat nat (fun _ x => x) (fun _ _ l => l) (fun _ k => k) (fun _ _ => 0) 1 1 None false 1 (Some 1) [[1; 2; 3; 4]] 0 = Ok (Some batch) /\
  trained nat (fun _ => batch) [4] = [1; 2; 3; 4] /\ trained nat (fun _ => batch) [2; 2] = [1; 2; 1; 2].
Proof. eexists. split; [reflexivity|]. split; vm_compute; reflexivity. Qed.
Print Assumptions C84_restart_refuted.

(** Options with which a dataset is created are accepted when its examples are counted. *)
Theorem C84_options : forall keys, get_dataset_accepts keys = true -> get_data_num_examples_accepts keys = true.
Proof. exact options. Qed.
Print Assumptions C84_options.
Local Open Scope string_scope.
Example C84_options_example :
  get_dataset_accepts ["name"; "split"; "process"; "batch_size"; "prefetch"; "prefetch_device"; "shuffle_buffer"; "data_dir"; "cache"] = true /\
  get_dataset_accepts ["name"; "split"; "process"; "batch_size"; "shuffle_files"] = false /\
  get_dataset_accepts ["name"; "split"; "process"; "batch_size"; "mixup"] = false /\
  get_data_num_examples_accepts ["name"; "split"; "process"; "batch_size"; "mixup"] = false.
Proof. repeat split. Qed.
