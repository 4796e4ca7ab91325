(** Vocabulary for C36. *)
From Coq Require Import List Arith.
From Verif Require Import LoopModel.
Import ListNotations.

(** The state after [n] steps with the batches of one iterator, if it has that many: the
    uninterrupted run. *)
Fixpoint after {batch T} (step_fn : nat -> T -> batch -> T) (initial : tstate T) (data : nat -> option batch) (n : nat) : option (tstate T) :=
  match n with
  | O => Some initial
  | S n => match after step_fn initial data n, data n with
           | Some s, Some b => Some (TState (S (t_step s)) (step_fn (t_step s) (t_rest s) b))
           | _, _ => None
           end
  end.

(** An iterator that starts from the batch after the last seen example *)
Definition resumes {batch} (batch_size : nat) (data : nat -> option batch) (get_iterator : option nat -> nat -> option batch) : Prop :=
  (forall j, get_iterator None j = data j) /\ forall i j, get_iterator (Some (i * batch_size)) j = data (i + j).

(** The state comes from the initial one by [n] train steps with some batches. *)
Definition trained {batch T} (step_fn : nat -> T -> batch -> T) (initial : tstate T) (n : nat) (s : tstate T) : Prop :=
  exists bs, length bs = n /\ s = fold_left (train_step batch T step_fn) bs initial.

(** The process is not down, and no step of the system that stops it. *)
Inductive goes_on {batch T} (step_fn : nat -> T -> batch -> T) initial bs total get_iterator : sys batch T -> sys batch T -> Prop :=
| go_refl s : goes_on step_fn initial bs total get_iterator s s
| go_more s1 s2 s3 : goes_on step_fn initial bs total get_iterator s1 s2 ->
    step batch T step_fn initial bs total get_iterator s2 s3 -> p s3 <> Down ->
    goes_on step_fn initial bs total get_iterator s1 s3.
