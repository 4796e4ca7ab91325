(** Vocabulary for C35. *)
From Coq Require Import List Arith Reals.
From Verif Require Import Py NdArray NdLemmas MixModel StepSpec.
Import ListNotations.
Local Open Scope nat_scope.

(** The batch is made of [g] groups (one per device); the [i]-th partner of an example is
    [i] places after it in its group, going round. *)
Definition partner (g b n i : nat) : nat :=
  let size := b / g in n / size * size + (n mod size + i) mod size.

(** Weights for each example: nonnegative, decreasing and with sum 1. *)
Definition good_weights (b k : nat) (w : nat -> nat -> R) : Prop :=
  forall n, n < b ->
    (forall i, i < k -> (0 <= w n i)%R) /\ (forall i, S i < k -> (w n (S i) <= w n i)%R) /\
    sum (map (w n) (seq 0 k)) = 1%R.

(** Each example of [x'] is the combination of partners with these weights. *)
Definition mixed (g k : nat) (w : nat -> nat -> R) (x x' : nda R) : Prop :=
  dims x' = dims x /\
  forall n r, inb (dims x) (n :: r) ->
    at_ x' (n :: r) = sum (map (fun i => (w n i * at_ x (partner g (nth 0 (dims x) 0%nat) n i :: r))%R) (seq 0 k)).

(** Which examples have the same weights. *)
Definition as_granular (gran : granularity) (g b : nat) (w : nat -> nat -> R) : Prop :=
  match gran with
  | GBatch => forall n n' i, w n i = w n' i
  | GDevice => forall n n' i, n / (b / g) = n' / (b / g) -> w n i = w n' i
  | _ => True
  end.

(** Samples from a Dirichlet distribution are nonnegative weights with sum 1. *)
Definition dirichlet_samples {key} (dirichlet : key -> R -> list nat -> nda R) : Prop :=
  forall r c shape b, (0 < c)%R -> inb (removelast shape) b -> 0 < last shape 0 ->
    (forall i, i < last shape 0 -> (0 <= at_ (dirichlet r c shape) (b ++ [i]))%R) /\
    sum (map (fun i => at_ (dirichlet r c shape) (b ++ [i])) (seq 0 (last shape 0))) = 1%R.
