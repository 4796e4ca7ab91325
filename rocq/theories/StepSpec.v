(** Vocabulary for C34. *)
From Coq Require Import List Arith ZArith Reals Permutation.
From Verif Require Import Py StepModel.
Import ListNotations.
Local Open Scope nat_scope.

Definition sum (l : list R) : R := fold_right Rplus 0%R l.

(** The [d] means of the numbers that [g] computes from each example *)
Definition means {E} (d : nat) (g : nat -> E -> R) (l : list E) : list R :=
  map (fun j => (sum (map (g j) l) / INR (length l))%R) (seq 0 d).

Section Microsteps.
Variable X Y params_t rngs_t : Type.
(** Calls of a function one after the other, each with the generators that the one before
    returned; with their results *)
Inductive calls (fn : fn_t X Y params_t rngs_t) (params : params_t)
  : rngs_t -> list (list X * list Y) -> list (list R) -> list (list R) -> rngs_t -> Prop :=
| calls_nil r : calls fn params r [] [] [] r
| calls_cons r xs ys g r' m bs gs ms r'' : fn params xs ys r = Ok (g, (r', m)) -> calls fn params r' bs gs ms r'' ->
    calls fn params r ((xs, ys) :: bs) (g :: gs) (m :: ms) r''.
End Microsteps.

(** The average of lists of [d] numbers *)
Definition average (l : list (list R)) (a : list R) : Prop :=
  Forall (fun x => length x = length a) l /\
  forall j, j < length a -> nth j a 0%R = (sum (map (fun x => nth j x 0%R) l) / INR (length l))%R.
