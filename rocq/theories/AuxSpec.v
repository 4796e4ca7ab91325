(** Vocabulary for C44, C50, C53 and C54. *)
From Coq Require Import List Arith Reals.
From Verif Require Import Py EvalModel EvalSpec SoftSpec AuxModel.
Import ListNotations.
Local Open Scope nat_scope.

(** The entry of a loss for a group *)
Definition entry (a : arr) (g : nat) : fl := match a with Scalar x => x | Array l => nth g l None end.
(** [e] is the first of the largest entries of a row of length n. *)
Definition first_largest (n : nat) (row : nat -> R) (e : nat) : Prop :=
  e < n /\ forall i, i < n -> (row i <= row e)%R /\ (i < e -> (row i < row e)%R).
(** [t] is the K-th largest entry of a row of length n. *)
Definition how_many (n : nat) (P : nat -> bool) : nat := length (filter P (seq 0 n)).
Definition kth_largest (n K : nat) (row : nat -> R) (t : R) : Prop :=
  (exists i, i < n /\ row i = t) /\
  K <= how_many n (fun i => if Rle_dec t (row i) then true else false) /\
  how_many n (fun i => if Rlt_dec t (row i) then true else false) < K.
(** A finite loss with mean [v], either a number or with one entry for each of the G groups *)
Definition mean_loss (G : nat) (a : arr) (v : R) : Prop :=
  a = Scalar (Some v) \/ exists l, a = Array (map Some l) /\ length l = G /\ v = mean l.
(** Logistic loss of image m and text n: the positive pairs are those with the same index. *)
Definition pair_loss (logits : nat -> nat -> R) (m n : nat) : R := ln (1 + exp (if m =? n then - logits m n else logits m n)).
