(** Vocabulary for C43 and C52. *)
From Coq Require Import List Arith Reals.
From Verif Require Import SoftModel.
Import ListNotations.
Local Open Scope nat_scope.

(** Sums *)
Definition sum_to (n : nat) (f : nat -> R) : R := fold_right Rplus 0%R (map f (seq 0 n)).
(** Weights of a convex combination, here all positive *)
Definition convex (n : nat) (w : nat -> R) : Prop := (forall i, i < n -> (0 < w i)%R) /\ sum_to n w = 1%R.
(** The slots of all experts in a row *)
Definition convex2 (n p : nat) (w : nat -> nat -> R) : Prop :=
  (forall i j, i < n -> j < p -> (0 < w i j)%R) /\ sum_to n (fun i => sum_to p (w i)) = 1%R.
(** [v] is the lowest (highest) value between two different elements of a group, over G groups
    of n elements. *)
Definition lowest_off_diagonal (G n : nat) (sim : nat -> nat -> nat -> R) (v : R) : Prop :=
  (exists g i j, g < G /\ i < n /\ j < n /\ i <> j /\ sim g i j = v) /\
  (forall g i j, g < G -> i < n -> j < n -> i <> j -> (v <= sim g i j)%R).
Definition highest_off_diagonal (G n : nat) (sim : nat -> nat -> nat -> R) (v : R) : Prop :=
  (exists g i j, g < G /\ i < n /\ j < n /\ i <> j /\ sim g i j = v) /\
  (forall g i j, g < G -> i < n -> j < n -> i <> j -> (sim g i j <= v)%R).
