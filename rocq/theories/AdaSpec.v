(** Specification for C99. *)
From Coq Require Import List Arith ZArith Bool Reals.
From Verif Require Import AdaModel.
Import ListNotations.
Local Open Scope R_scope.

(** A number of absolute value at most [b] *)
Definition within (b : R) (u : fl) : Prop := exists x, u = Num x /\ Rabs x <= b.
Definition integer (x : R) : Prop := exists k : Z, x = IZR k.
(** The second moments of the gradients [gs]: every one replaces a part of the last one *)
Definition averages (rate dm eps : R) (gs : list R) (v : nat -> R) : Prop :=
  v 0%nat = 0 /\ forall t, (t < length gs)%nat ->
    let kept := Rmin dm (1 - / Rpower (INR (S t)) rate) in
    v (S t) = kept * v t + (1 - kept) * (nth t gs 0 * nth t gs 0 + eps).
