(** Routers based on optimal transport with squared 2-norm regularisation, without a limit on the number of
    entries (vmoe/projects/sparsity_constrained_ot/sparse_projection_routing.py; C93). *)
From Coq Require Import List Arith Bool Reals.
From Verif Require Import Prim MoeModel SoftModel AuxModel CwModel OtModel.
Local Open Scope nat_scope.

Section Plain.
(** jaxopt.projection.projection_simplex: the vector x of length n *)
Variable project : nat -> (nat -> R) -> nat -> R.
(** The result of a solver that is run on an objective: any vector (maxiter bounds its steps) *)
Variable solver : ((nat -> R) -> R) -> nat -> R.
(** jaxopt's _max_l2.  Its gradient in x is p: the derivative of p along its face is orthogonal to the
    remaining factor. *)
Definition max_l2 (n : nat) (x : nat -> R) (marginal_b gamma : R) : R :=
  let scale := (gamma * marginal_b)%R in
  let p := project n (fun i => x i / scale)%R in
  (dot n x p - / 2 * scale * dot n p p)%R.
Definition max_l2_grad (n : nat) (x : nat -> R) (marginal_b gamma : R) : nat -> R :=
  let scale := (gamma * marginal_b)%R in project n (fun i => x i / scale)%R.
(** jaxopt's _regularized_transport_semi_dual, for a cost matrix of shape (M, N): the objective in alpha,
    and the plan for the result of the solver *)
Definition semi_dual_l2 (M N : nat) (cost : nat -> nat -> R) (a b : nat -> R) (gamma : R) (alpha : nat -> R) : R :=
  let X := fun i j => (alpha i - cost i j)%R in
  (sumf N (fun j => b j * max_l2 M (fun i => X i j) (b j) gamma) - dot M alpha a)%R.
Definition transport_plan_l2 (M N : nat) (cost : nat -> nat -> R) (b : nat -> R) (gamma : R) (alpha : nat -> R) (i j : nat) : R :=
  let X := fun i j => (alpha i - cost i j)%R in
  (max_l2_grad M (fun i => X i j) (b j) gamma i * b j)%R.
(** jaxopt.projection.projection_transport, with use_semi_dual *)
Definition projection_transport (M N : nat) (sim : nat -> nat -> R) (a b : nat -> R) : nat -> nat -> R :=
  let cost := fun i j => (- sim i j)%R in
  transport_plan_l2 M N cost b 1 (solver (semi_dual_l2 M N cost a b 1)).
(** 98-124 [_get_squared_l2_ot_algorithm]: the plan (tokens, experts) *)
Definition squared_l2_plan (T E : nat) (sim : nat -> nat -> R) : nat -> nat -> R :=
  let required_sums_along_experts := fun _ : nat => 1%R in
  let expected_num_tokens_per_expert := (INR T / INR E)%R in
  let required_sums_along_tokens := fun _ : nat => expected_num_tokens_per_expert in
  projection_transport T E sim required_sums_along_experts required_sums_along_tokens.
(** 67-81 [_compute_gates], for given logits of shape (groups, items, experts) *)
Definition sparse_projection_gates (S E : nat) (logits : nat -> nat -> nat -> R) : (nat -> nat -> nat -> R) * (nat -> nat -> nat -> R) :=
  let gates_softmax := fun g s => softmax E (logits g s) in
  (fun g => squared_l2_plan S E (gates_softmax g), gates_softmax).
End Plain.
