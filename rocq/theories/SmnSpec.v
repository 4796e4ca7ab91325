(** Vocabulary for C91. *)
From Coq Require Import List Arith Reals.
From Verif Require Import SoftModel SoftSpec.
Local Open Scope nat_scope.

(** The mean over all pairs of different elements of the same group *)
Definition pair_mean (G n : nat) (sim : nat -> nat -> nat -> R) : R :=
  (sum_to G (fun g => sum_to n (fun i => sum_to n (fun j => if i =? j then 0 else sim g i j))) / (INR G * (INR n * (INR n - 1))))%R.
