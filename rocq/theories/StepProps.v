(** C34 and C37. *)
From Coq Require Import List Arith ZArith Reals QArith Lra Lia Permutation.
From Verif Require Import Py StepModel StepSpec StepProofs.
Import ListNotations.
Local Open Scope nat_scope.

(** C34: with microsteps, the function is called that many times, on batches of the same size
    that together have each example (an image with its label) exactly once, each time with
    the generators returned before; gradients and metrics are the averages. *)
Theorem C34_each_example_once :
  forall X Y params_t rngs_t (fn : fn_t X Y params_t rngs_t) params device_count microsteps images labels rngs out,
  (0 < microsteps)%Z -> length images = length labels ->
  accumulate_gradients_and_metrics X Y params_t rngs_t device_count fn (Some microsteps) params images labels rngs = Ok out ->
  let m := Z.to_nat microsteps in
  exists batches gs ms, calls X Y params_t rngs_t fn params rngs batches gs ms (fst (snd out)) /\
    length batches = m /\
    Forall (fun b => length (fst b) = length images / m /\ length (snd b) = length images / m) batches /\
    length images = m * (length images / m) /\
    Permutation (flat_map (fun b => combine (fst b) (snd b)) batches) (combine images labels) /\
    average gs (fst out) /\ average ms (snd (snd out)).
Proof. exact accumulate_ok. Qed.
Print Assumptions C34_each_example_once.

(** If the gradients and metrics are means over the examples, then with or without
    microsteps they are those of the whole batch. *)
Theorem C34_full_batch :
  forall X Y params_t rngs_t (fn : fn_t X Y params_t rngs_t) params dg dm (g h : nat -> X * Y -> R)
    device_count microsteps images labels rngs out,
  (forall xs ys r, length xs = length ys -> xs <> [] ->
     exists r', fn params xs ys r = Ok (means dg g (combine xs ys), (r', means dm h (combine xs ys)))) ->
  length images = length labels -> images <> [] ->
  accumulate_gradients_and_metrics X Y params_t rngs_t device_count fn microsteps params images labels rngs = Ok out ->
  fst out = means dg g (combine images labels) /\ snd (snd out) = means dm h (combine images labels).
Proof. exact accumulate_mean. Qed.
Print Assumptions C34_full_batch.

(** It succeeds if the batch of each device is a multiple of the microsteps. *)
Theorem C34_no_error :
  forall X Y params_t rngs_t (fn : fn_t X Y params_t rngs_t) params dg dm device_count microsteps images labels rngs,
  (forall xs ys r, length xs = length ys ->
     exists g0 r' m0, fn params xs ys r = Ok (g0, (r', m0)) /\ length g0 = dg /\ length m0 = dm) ->
  0 < device_count -> length images = length labels ->
  (forall n, microsteps = Some n -> (0 < n)%Z -> exists q, length images = device_count * (Z.to_nat n * q)) ->
  exists out, accumulate_gradients_and_metrics X Y params_t rngs_t device_count fn microsteps params images labels rngs = Ok out.
Proof. exact accumulate_total. Qed.
Print Assumptions C34_no_error.

(** With the identity as parameters, 2 devices and 3 microsteps: the mean of 1, ..., 12. *)
Definition ex_fn : fn_t nat nat unit nat := fun _ xs ys r =>
  Ok (means 1 (fun _ xy => INR (fst xy)) (combine xs ys), (S r, means 1 (fun _ xy => INR (snd xy)) (combine xs ys))).
Example C34_example :
  (forall xs ys r, length xs = length ys -> xs <> [] -> exists r', ex_fn tt xs ys r =
     Ok (means 1 (fun _ xy => INR (fst xy)) (combine xs ys), (r', means 1 (fun _ xy => INR (snd xy)) (combine xs ys)))) /\
  (exists out, accumulate_gradients_and_metrics nat nat unit nat 2 ex_fn (Some 3%Z) tt (seq 1 12) (seq 5 12) 0 = Ok out /\
     fst out = [(78 / 12)%R]) /\
  take 3 (seq 1 12) 1 = [2; 5; 8; 11] /\
  accumulate_gradients_and_metrics nat nat unit nat 2 ex_fn (Some 5%Z) tt (seq 1 12) (seq 5 12) 0 = Raise AssertionError /\
  accumulate_gradients_and_metrics nat nat unit nat 2 ex_fn (Some 2%Z) tt (seq 1 5) (seq 5 5) 0 = Raise TypeError.
Proof.
  assert (M : forall xs ys r, length xs = length ys -> xs <> [] -> exists r', ex_fn tt xs ys r =
     Ok (means 1 (fun _ xy => INR (fst xy)) (combine xs ys), (r', means 1 (fun _ xy => INR (snd xy)) (combine xs ys)))).
  { intros xs ys r _ _. exists (S r). reflexivity. }
  split; [exact M|]. split; [|repeat split].
  destruct (C34_no_error nat nat unit nat ex_fn tt 1 1 2 (Some 3%Z) (seq 1 12) (seq 5 12) 0) as [out E].
  - intros. do 3 eexists. split; [reflexivity|]. split; reflexivity.
  - lia.
  - reflexivity.
  - intros n H _. injection H as <-. exists 2. reflexivity.
  - exists out. split; [exact E|].
    rewrite (proj1 (C34_full_batch nat nat unit nat ex_fn tt 1 1 _ _ 2 (Some 3%Z) (seq 1 12) (seq 5 12) 0 _ M eq_refl ltac:(discriminate) E)).
    unfold means. simpl. f_equal. lra.
Qed.

(** C37: it succeeds exactly when one of the two is given (and not zero), and raises a
    ValueError otherwise. *)
Theorem C37_exactly_one :
  forall batch examples steps epochs, (0 < batch)%Z -> (0 < examples)%Z ->
  ((exists r, get_train_steps_and_epochs batch examples steps epochs = Ok r) <->
   (exists z, steps = Some z /\ z <> 0%Z /\ epochs = None) \/ (exists q, epochs = Some q /\ ~ (q == 0)%Q /\ steps = None)) /\
  (forall x, get_train_steps_and_epochs batch examples steps epochs = Raise x -> x = ValueError).
Proof. exact steps_exactly_one. Qed.
Print Assumptions C37_exactly_one.

(** From epochs: the steps cover the examples of the epochs, and one step less would not. *)
Theorem C37_from_epochs :
  forall batch examples e steps epochs, (0 < batch)%Z ->
  get_train_steps_and_epochs batch examples None (Some e) = Ok (steps, epochs) ->
  (inject_Z ((steps - 1) * batch) < e * inject_Z examples)%Q /\ (e * inject_Z examples <= inject_Z (steps * batch))%Q /\
  (epochs * inject_Z examples == inject_Z (steps * batch))%Q.
Proof. exact steps_from_epochs. Qed.
Print Assumptions C37_from_epochs.

(** From steps: the same steps, and the epochs are in proportion. *)
Theorem C37_from_steps :
  forall batch examples s steps epochs,
  get_train_steps_and_epochs batch examples (Some s) None = Ok (steps, epochs) ->
  steps = s /\ (epochs * inject_Z examples == inject_Z (s * batch))%Q.
Proof. exact epochs_from_steps. Qed.
Print Assumptions C37_from_steps.

Example C37_example :
  (exists e, get_train_steps_and_epochs 32 1000 None (Some (5 # 2)%Q) = Ok (79%Z, e) /\ (e == 2528 # 1000)%Q) /\
  (exists e, get_train_steps_and_epochs 32 1000 (Some 125%Z) None = Ok (125%Z, e) /\ (e == 4)%Q) /\
  get_train_steps_and_epochs 32 1000 (Some 125%Z) (Some 4%Q) = Raise ValueError /\
  get_train_steps_and_epochs 32 1000 None None = Raise ValueError.
Proof. repeat split; eexists; split; reflexivity. Qed.
