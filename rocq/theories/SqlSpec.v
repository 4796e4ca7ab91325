(** Vocabulary for C93. *)
From Coq Require Import List Arith Reals.
From Verif Require Import SoftModel OtSpec.
Local Open Scope nat_scope.

(** Probabilities of 0, ..., n-1 *)
Definition simplex (n : nat) (p : nat -> R) : Prop := (forall i, i < n -> (0 <= p i)%R) /\ sumf n p = 1%R.
(** The documentation of projection_simplex: a nearest point *)
Definition simplex_projection (project : nat -> (nat -> R) -> nat -> R) : Prop :=
  forall n x, 1 <= n -> simplex n (project n x) /\ forall q, simplex n q -> (distance2 n (project n x) x <= distance2 n q x)%R.
(** A plan that gives b j to column j *)
Definition columns (M N : nat) (b : nat -> R) (P : nat -> nat -> R) : Prop :=
  forall j, j < N -> (forall i, i < M -> (0 <= P i j)%R) /\ sumf M (fun i => P i j) = b j.
(** The squared distance of two plans *)
Definition plan_distance2 (M N : nat) (P Q : nat -> nat -> R) : R := sumf M (fun i => sumf N (fun j => (P i j - Q i j) * (P i j - Q i j))%R).
(** alpha is a minimum up to delta *)
Definition almost_minimal (objective : (nat -> R) -> R) (delta : R) (alpha : nat -> R) : Prop := forall beta, (objective alpha <= objective beta + delta)%R.
