(** Gradients of multiply_no_nan (vmoe/utils.py:50-57 and vmoe/evaluate/ensemble.py:25-30; C90) in
    reverse mode, with infinities and NaN but without rounding. *)
From Coq Require Import List Arith Bool Reals.
From Verif Require Import Py ElmModel.
Local Open Scope nat_scope.

(** jnp.where passes the cotangent to the branch that was taken and zero to the other one. *)
Definition where_vjp (c : bool) (ct : ext) : ext * ext := (if c then ct else Fin 0, if c then Fin 0 else ct).
(** jax.lax.mul *)
Definition mul_vjp (x y ct : ext) : ext * ext := (emul ct y, emul ct x).

(** 53-57: the cotangents of x and y for a cotangent of the result.  The constants 1. and
    zeros_like(x), and x_ok, take no cotangent. *)
Definition multiply_no_nan_vjp (x y ct : ext) : ext * ext :=
  let x_ok := nonzero x in
  let safe_x := if x_ok then x else Fin 1 in
  let safe_y := if x_ok then y else Fin 1 in
  let ct_mul := fst (where_vjp x_ok ct) in
  let ct_safe := mul_vjp safe_x safe_y ct_mul in
  (fst (where_vjp x_ok (fst ct_safe)), fst (where_vjp x_ok (snd ct_safe))).

(** The sum over the classes of vmoe/evaluate/ensemble.py:111-112: the cotangents of the labels and of the
    log-probabilities of an example. *)
Definition xent_vjp (labels log_p : nat -> ext) (ct : ext) (c : nat) : ext * ext := multiply_no_nan_vjp (labels c) (log_p c) (eopp ct).

(** Not in the code, for comparison: jnp.where(x != 0., x * y, 0.), which has the same values. *)
Definition plain_where (x y : ext) : ext := if nonzero x then emul x y else Fin 0.
Definition plain_where_vjp (x y ct : ext) : ext * ext := mul_vjp x y (fst (where_vjp (nonzero x) ct)).
