(** Vocabulary for C89. *)
From Coq Require Import List Arith Reals.
From Verif Require Import MoeModel SoftModel GrdModel GrdSpec SdrModel.
Local Open Scope nat_scope.

(** A path of numbers, with its value and derivative at t0 *)
Definition follows (t0 : R) (f : R -> R) (d : R * R) : Prop := moves f t0 (fst d) (snd d).
(** The same for each coordinate of a path of vectors *)
Definition follows_vec (t0 : R) (f : R -> nat -> R) (v : (nat -> R) * (nat -> R)) : Prop :=
  forall d, moves (fun t => f t d) t0 (fst v d) (snd v d).
(** [fd] is a rule for the derivative of the functions [f t], along all paths *)
Definition jvp_of (t0 : R) (f : R -> (nat -> R) -> nat -> R) (fd : vec Dalg -> vec Dalg) : Prop :=
  forall x v, follows_vec t0 x v -> follows_vec t0 (fun t => f t (x t)) (fd v).
(** Euclidean norm of n numbers *)
Definition norm2 (n : nat) (x : nat -> R) : R := sqrt (sumf n (fun i => x i * x i)%R).
