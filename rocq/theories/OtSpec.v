(** Vocabulary for C58 and C59. *)
From Coq Require Import List Arith Bool Reals.
From Verif Require Import MoeModel MoeSpec SoftModel.
Import ListNotations.
Local Open Scope nat_scope.

(** How many of the entries 0, ..., n-1 are not zero *)
Definition nonzeros (n : nat) (p : nat -> R) : nat := length (filter (fun i => if Req_EM_T (p i) 0 then false else true) (seq 0 n)).
(** Probabilities of 0, ..., n-1, at most k of which are not zero *)
Definition sparse_simplex (n k : nat) (p : nat -> R) : Prop :=
  (forall i, i < n -> (0 <= p i)%R) /\ sumf n p = 1%R /\ nonzeros n p <= k.
(** p is one of the nearest to x among these (the documentation of projection_sparse_simplex) *)
Definition distance2 (n : nat) (p x : nat -> R) : R := sumf n (fun i => ((p i - x i) * (p i - x i))%R).
Definition nearest (n k : nat) (x p : nat -> R) : Prop :=
  sparse_simplex n k p /\ forall q, sparse_simplex n k q -> (distance2 n p x <= distance2 n q x)%R.
Definition projection (project : nat -> nat -> (nat -> R) -> nat -> R) : Prop :=
  forall n k x, 1 <= k -> k <= n -> nearest n k x (project n k x).

(** A plan moves b j from column j, with at most k entries per column that are not zero *)
Definition sparse_columns (M N k : nat) (b : nat -> R) (T : nat -> nat -> R) : Prop :=
  forall j, j < N -> (forall i, i < M -> (0 <= T i j)%R) /\ sumf M (fun i => T i j) = b j /\ nonzeros M (fun i => T i j) <= k.
Definition row_sums (M N : nat) (a : nat -> R) (T : nat -> nat -> R) : Prop := forall i, i < M -> sumf N (T i) = a i.
(** The similarity of what is moved, less half the sum of squares *)
Definition regularized_value (M N : nat) (gamma : R) (sim T : nat -> nat -> R) : R :=
  sumf M (fun i => sumf N (fun j => T i j * sim i j - gamma / 2 * (T i j * T i j))%R).

(** The layer with other weights for the same choices: which choices there are, and which of them are
    dropped, depends on gates; the weights of the results are w. *)
Definition routed_output {A : alg} (bp : bool) (S E K C : nat) (gates w : nat -> nat -> sc A) (ch : nat -> nat -> nat)
    (f : nat -> vec A -> vec A) (x : nat -> vec A) (s : nat) : vec A :=
  sum_over K (fun k => if competitors bp S E K gates ch s k <? C then vscale A (w s (ch s k)) (f (ch s k) (x s)) else vzero A).
(** The sum of the outputs of all experts with these weights *)
Definition mixture {A : alg} (E : nat) (w : nat -> sc A) (f : nat -> vec A -> vec A) (x : vec A) : vec A :=
  sum_over E (fun e => vscale A (w e) (f e x)).
