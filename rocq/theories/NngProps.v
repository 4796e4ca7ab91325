(** C90: gradients of multiply_no_nan. *)
From Coq Require Import List Arith Bool Reals Lra.
From Verif Require Import Py ElmModel NngModel NngSpec NngProofs.
Local Open Scope nat_scope.

(** C90: where x is 0 both gradients are 0, whatever y and the cotangent, infinite or NaN too. *)
Theorem C90_zero : forall y ct, multiply_no_nan (Fin 0) y = Fin 0 /\ multiply_no_nan_vjp (Fin 0) y ct = (Fin 0, Fin 0).
Proof. exact at_zero. Qed.
Print Assumptions C90_zero.
Theorem C90_safe : forall x y ct, is_number x -> is_number ct -> (x <> Fin 0 -> is_number y) ->
  is_number (multiply_no_nan x y) /\ is_number (fst (multiply_no_nan_vjp x y ct)) /\ is_number (snd (multiply_no_nan_vjp x y ct)).
Proof. exact safe. Qed.
Print Assumptions C90_safe.
Example C90_safe_case : multiply_no_nan_vjp (Fin 0) NInf (Fin 2) = (Fin 0, Fin 0) /\ multiply_no_nan_vjp (Fin 3) (Fin 5) (Fin 2) = (Fin (2 * 5), Fin (2 * 3)).
Proof. split; [apply at_zero|]. apply (elsewhere (Fin 3) (Fin 5) (Fin 2)). apply nonzero_r. lra. Qed.

(** The gradients are the derivatives along all paths of numbers, except along those on which x
    passes through 0 with y not 0. *)
Theorem C90_derivative : forall (x y : R -> R) x' y' t0 c,
  derivable_pt_lim x t0 x' -> derivable_pt_lim y t0 y' -> x t0 <> 0%R \/ x' = 0%R \/ y t0 = 0%R ->
  exists f gx gy, (forall t, multiply_no_nan (Fin (x t)) (Fin (y t)) = Fin (f t)) /\ multiply_no_nan_vjp (Fin (x t0)) (Fin (y t0)) (Fin c) = (Fin gx, Fin gy) /\
    derivable_pt_lim (fun t => c * f t)%R t0 (gx * x' + gy * y')%R.
Proof. exact true_gradient. Qed.
Print Assumptions C90_derivative.
(** On those the gradient with respect to x is 0 but the derivative is y. *)
Theorem C90_derivative_refuted : exists (y : R) gx gy, multiply_no_nan_vjp (Fin 0) (Fin y) (Fin 1) = (Fin gx, Fin gy) /\
  exists f, (forall t, multiply_no_nan (Fin t) (Fin y) = Fin (f t)) /\ derivable_pt_lim f 0 y /\ gx <> y.
Proof. exact wrong_at_zero. Qed.
Print Assumptions C90_derivative_refuted.

(** The cross entropy of labels with log-probabilities: a class without label may have
    log-probability -inf (or NaN). *)
Theorem C90_xent : forall (labels : nat -> R) (log_p : nat -> ext) ct c, (labels c <> 0%R -> is_number (log_p c)) ->
  is_number (fst (xent_vjp (fun c => Fin (labels c)) log_p (Fin ct) c)) /\ snd (xent_vjp (fun c => Fin (labels c)) log_p (Fin ct) c) = Fin (- (ct * labels c)).
Proof. exact xent_cotangent. Qed.
Print Assumptions C90_xent.
Example C90_xent_case : snd (xent_vjp (fun c => Fin (if c =? 1 then 1 else 0)%R) (fun c => if c =? 1 then Fin (-2) else NInf) (Fin 1) 0) = Fin (- (1 * 0)).
Proof. apply (C90_xent (fun c => if c =? 1 then 1 else 0)%R). cbn. intros H. contradiction. Qed.

(** A single jnp.where has the same values, and the gradient NaN. *)
Theorem C90_plain : forall x y ct, plain_where x y = multiply_no_nan x y /\
  (x = Fin 0 -> ~ is_number y -> is_number ct -> fst (plain_where_vjp x y ct) = NaN).
Proof. exact plain. Qed.
Print Assumptions C90_plain.
