(** Sinkhorn's algorithm as used by the routers with KL projections
    (vmoe/projects/sparsity_constrained_ot/kl_projection_routing.py:128-159 and 225-250; C92), over
    the real numbers. *)
From Coq Require Import List Arith Bool Reals.
From Verif Require Import Py SoftModel OtModel.
Local Open Scope nat_scope.

(** ott.geometry.Geometry(cost_matrix=-sim, epsilon=1.0): the kernel exp(-cost / epsilon) *)
Definition kernel (sim : nat -> nat -> R) (t e : nat) : R := exp (- (- sim t e) / 1).
(** Geometry.update_scaling: marginal / where(app > 0, app, 1) *)
Definition scaling (marginal app : R) : R := (marginal / (if Rlt_dec 0 app then app else 1))%R.
(** One iteration of ott's sinkhorn with lse_mode=False, T rows and E columns: the scaling of the
    columns, and then that of the rows (ott, kernel_step). *)
Definition sinkhorn_step (T E : nat) (sim : nat -> nat -> R) (a b : nat -> R) (uv : (nat -> R) * (nat -> R)) : (nat -> R) * (nat -> R) :=
  let v := fun e => scaling (b e) (sumf T (fun t => kernel sim t e * fst uv t)%R) in
  let u := fun t => scaling (a t) (sumf E (fun e => kernel sim t e * v e)%R) in
  (u, v).
Fixpoint sinkhorn (T E : nat) (sim : nat -> nat -> R) (a b : nat -> R) (n : nat) : (nat -> R) * (nat -> R) :=
  match n with
  | O => (fun _ => 1%R, fun _ => 1%R)
  | S k => sinkhorn_step T E sim a b (sinkhorn T E sim a b k)
  end.
Definition plan_of (sim : nat -> nat -> R) (uv : (nat -> R) * (nat -> R)) (t e : nat) : R := (fst uv t * kernel sim t e * snd uv e)%R.
(** 128-159 and 225-250: the plan of a group, for n iterations; use_lbfgs is not modelled.  n is maxiter,
    which ott rounds up to a multiple of its inner_iterations (10): min_iterations and max_iterations are
    equal, no other condition stops the iterations. *)
Definition kl_plan (T E n : nat) (sim : nat -> nat -> R) : nat -> nat -> R :=
  let required_sums_along_experts := fun _ : nat => 1%R in
  let required_sums_along_tokens := fun _ : nat => (INR T / INR E)%R in
  plan_of sim (sinkhorn T E sim required_sums_along_experts required_sums_along_tokens n).
