(** Vocabulary for C47. *)
From Coq Require Import List Arith Reals.
From Verif Require Import SoftSpec ElmModel.
Local Open Scope nat_scope.

(** exp of a logit *)
Definition weight (x : ext) : R := match x with Fin r => exp r | _ => 0%R end.
(** Logits of masked classes may be -inf. *)
Definition masked (x : ext) : Prop := x = NInf \/ exists r, x = Fin r.
Definition usable (C : nat) (row : nat -> ext) : Prop :=
  (forall c, c < C -> masked (row c)) /\ exists c r, c < C /\ row c = Fin r.
(** The probability of a class for one member, with the softmax and with the sigmoid *)
Definition class_prob (C : nat) (row : nat -> ext) (c : nat) : R := (weight (row c) / sum_to C (fun c => weight (row c)))%R.
Definition yes_prob (x : R) : R := (1 / (1 + exp (- x)))%R.
(** The mean over the members *)
Definition mean (M : nat) (f : nat -> R) : R := (sum_to M f / INR M)%R.
Definition mean_prob (C M : nat) (logits : nat -> nat -> ext) (b c : nat) : R := mean M (fun m => class_prob C (logits (b * M + m)) c).
Definition mean_yes (M : nat) (x : nat -> nat -> R) (b c : nat) : R := mean M (fun m => yes_prob (x (b * M + m) c)).
(** Arrays of finite numbers *)
Definition finite (n : nat) (x : nat -> nat -> R) : rows := (n, fun r c => Fin (x r c)).
(** The first class where f is largest *)
Definition first_best (C : nat) (f : nat -> R) (c : nat) : Prop :=
  c < C /\ (forall c', c' < C -> (f c' <= f c)%R) /\ forall c', c' < c -> (f c' < f c)%R.
(** Cross entropies of labels l and probabilities p *)
Definition cross_entropy (C : nat) (l p : nat -> R) : R := (- sum_to C (fun c => if Req_EM_T (l c) 0 then 0 else l c * ln (p c)))%R.
Definition binary_cross_entropy (C : nat) (l p : nat -> R) : R := (- sum_to C (fun c => l c * ln (p c) + (1 - l c) * ln (1 - p c)))%R.
