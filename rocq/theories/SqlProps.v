(** C93: transport plans with squared 2-norm regularisation. *)
From Coq Require Import List Arith Bool Reals Lia Lra.
From Verif Require Import Prim MoeModel SoftModel AuxModel CwModel OtModel OtSpec OtProofs SqlModel SqlSpec SqlProofs SqlProofs2.
Local Open Scope nat_scope.

(** There are projections on the simplex. *)
Example C93_projection_example : simplex_projection (fun n => sparse_projection n n).
Proof. exact simplex_projection_exists. Qed.
(** C93: whatever the solver returns, the weights are nonnegative and each expert gets exactly T / E. *)
Theorem C93_columns : forall project, simplex_projection project -> forall solver T E sim, 1 <= T -> 1 <= E ->
  columns T E (fun _ => INR T / INR E)%R (squared_l2_plan project solver T E sim).
Proof. exact sql_columns. Qed.
Print Assumptions C93_columns.
(** C93: the weights of the tokens sum to one up to the error of the solver, ... *)
Theorem C93_rows_partial : forall project, simplex_projection project -> forall solver T E sim, 1 <= T -> 1 <= E ->
  let objective := semi_dual_l2 project T E (fun t e => - sim t e)%R (fun _ => 1%R) (fun _ => INR T / INR E)%R 1 in
  let P := squared_l2_plan project solver T E sim in
  forall delta, almost_minimal objective delta (solver objective) ->
  (sumf T (fun t => (sumf E (P t) - 1) * (sumf E (P t) - 1)) <= 2 * INR E * delta)%R.
Proof. exact sql_rows. Qed.
Print Assumptions C93_rows_partial.
(** ... exactly if and only if the solver returns a minimum (unlike for sparse plans, C58_balance_refuted). *)
Theorem C93_exact : forall project, simplex_projection project -> forall solver T E sim, 1 <= T -> 1 <= E ->
  let objective := semi_dual_l2 project T E (fun t e => - sim t e)%R (fun _ => 1%R) (fun _ => INR T / INR E)%R 1 in
  almost_minimal objective 0 (solver objective) <-> row_sums T E (fun _ => 1%R) (squared_l2_plan project solver T E sim).
Proof. exact sql_exact. Qed.
Print Assumptions C93_exact.
Example C93_exact_example : forall project, simplex_projection project ->
  squared_l2_plan project (fun _ _ => 0%R) 2 2 sim5 0 0 = (3 / 4)%R /\ row_sums 2 2 (fun _ => 1%R) (squared_l2_plan project (fun _ _ => 0%R) 2 2 sim5).
Proof. exact rows_right. Qed.
(** C93: then it is the only best plan with these sums; ... *)
Theorem C93_best_partial : forall project, simplex_projection project -> forall solver T E sim, 1 <= T -> 1 <= E ->
  let objective := semi_dual_l2 project T E (fun t e => - sim t e)%R (fun _ => 1%R) (fun _ => INR T / INR E)%R 1 in
  let P := squared_l2_plan project solver T E sim in
  forall Q, almost_minimal objective 0 (solver objective) -> columns T E (fun _ => INR T / INR E)%R Q -> row_sums T E (fun _ => 1%R) Q ->
  (regularized_value T E 1 sim Q + / 2 * plan_distance2 T E P Q <= regularized_value T E 1 sim P)%R.
Proof. exact sql_best. Qed.
Print Assumptions C93_best_partial.
(** ... in general up to the errors of the sums, with the weights returned by the solver. *)
Theorem C93_gap : forall project, simplex_projection project -> forall solver T E sim, 1 <= T -> 1 <= E ->
  let objective := semi_dual_l2 project T E (fun t e => - sim t e)%R (fun _ => 1%R) (fun _ => INR T / INR E)%R 1 in
  let P := squared_l2_plan project solver T E sim in
  forall Q, columns T E (fun _ => INR T / INR E)%R Q -> row_sums T E (fun _ => 1%R) Q ->
  (regularized_value T E 1 sim Q + / 2 * plan_distance2 T E P Q <= regularized_value T E 1 sim P + dot T (solver objective) (fun t => sumf E (P t) - 1))%R.
Proof. exact sql_gap. Qed.
Print Assumptions C93_gap.
(** C93: rows are not probability vectors for the initial vector of the solver (all zeros). *)
Theorem C93_rows_refuted : forall project, simplex_projection project -> exists sim, (forall t, simplex 4 (sim t)) /\
  sumf 4 (squared_l2_plan project (fun _ _ => 0%R) 2 4 sim 0) = (7 / 8)%R /\ sumf 4 (squared_l2_plan project (fun _ _ => 0%R) 2 4 sim 1) = (9 / 8)%R.
Proof. intros project proj. exists sim4. apply rows_wrong, proj. Qed.
Print Assumptions C93_rows_refuted.
(** C93: without preferences no entry is zero, for every result that is a minimum: ... *)
Theorem C93_dense : forall project, simplex_projection project -> forall solver T E sim, 1 <= T -> 1 <= E ->
  let objective := semi_dual_l2 project T E (fun t e => - sim t e)%R (fun _ => 1%R) (fun _ => INR T / INR E)%R 1 in
  forall c, (forall t e, sim t e = c) -> almost_minimal objective 0 (solver objective) ->
  forall t e, t < T -> e < E -> squared_l2_plan project solver T E sim t e = (/ INR E)%R.
Proof. exact sql_dense. Qed.
Print Assumptions C93_dense.
(** ... there is no bound on the number of entries, for the initial vector (a minimum). *)
Theorem C93_sparse_refuted : forall project, simplex_projection project -> forall T E c, 1 <= T -> 1 <= E ->
  let objective := semi_dual_l2 project T E (fun t e => - c)%R (fun _ => 1%R) (fun _ => INR T / INR E)%R 1 in
  almost_minimal objective 0 (fun _ => 0%R) /\ forall t e, t < T -> e < E -> squared_l2_plan project (fun _ _ => 0%R) T E (fun _ _ => c) t e = (/ INR E)%R.
Proof. exact sql_dense_case. Qed.
Print Assumptions C93_sparse_refuted.
(** C93: the gates are this plan for the softmax of the logits, and the softmax. *)
Theorem C93_gates : forall project, simplex_projection project -> forall solver S E logits, 1 <= S -> 1 <= E ->
  exists ot soft, sparse_projection_gates project solver S E logits = (ot, soft) /\
  (forall g, columns S E (fun _ => INR S / INR E)%R (ot g)) /\ (forall g s e, soft g s e = (exp (logits g s e) / sumf E (fun i => exp (logits g s i)))%R) /\
  (forall g, ot g = squared_l2_plan project solver S E (soft g)).
Proof. exact sql_gates. Qed.
Print Assumptions C93_gates.
