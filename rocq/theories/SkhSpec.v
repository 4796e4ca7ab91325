(** Vocabulary for C92. *)
From Coq Require Import List Arith Reals.
From Verif Require Import SoftModel.
Local Open Scope nat_scope.

(** A plan with one unit for each of T tokens, and T / E for each of E experts *)
Definition tokens_sum (T E : nat) (P : nat -> nat -> R) : Prop := forall t, t < T -> sumf E (fun e => P t e) = 1%R.
Definition experts_sum (T E : nat) (P : nat -> nat -> R) : Prop := forall e, e < E -> sumf T (fun t => P t e) = (INR T / INR E)%R.
Definition nonnegative (T E : nat) (P : nat -> nat -> R) : Prop := forall t e, t < T -> e < E -> (0 <= P t e)%R.
(** The similarity of what is moved, plus its entropy *)
Definition entropic_value (T E : nat) (sim P : nat -> nat -> R) : R :=
  sumf T (fun t => sumf E (fun e => P t e * sim t e - P t e * (ln (P t e) - 1))%R).
(** By how much the loads of the experts differ from T / E, in total *)
Definition imbalance (T E : nat) (P : nat -> nat -> R) : R := sumf E (fun e => Rabs (sumf T (fun t => P t e) - INR T / INR E))%R.
