(** C92: the transport plans of the routers with KL projections, after any number of iterations. *)
From Coq Require Import List Arith Bool Reals Lia Lra.
From Verif Require Import Py SoftModel OtModel SkhModel SkhSpec SkhProofs SkhProofs2.
Local Open Scope nat_scope.

(** C92: every row is a probability vector with positive entries, exactly. *)
Theorem C92_rows : forall T E n sim, 1 <= T -> 1 <= E -> 1 <= n ->
  tokens_sum T E (kl_plan T E n sim) /\ (forall t e, (0 < kl_plan T E n sim t e)%R).
Proof. exact skh_rows. Qed.
Print Assumptions C92_rows.
(** The sums of the columns only approach T / E: the differences never grow, ... *)
Theorem C92_monotone_partial : forall T E k n sim, 1 <= T -> 1 <= E -> 1 <= k -> k <= n ->
  (imbalance T E (kl_plan T E n sim) <= imbalance T E (kl_plan T E k sim))%R.
Proof. exact skh_mono. Qed.
Print Assumptions C92_monotone_partial.
(** ... they are at most T times the square root of 8 (hi - lo) / n, ... *)
Theorem C92_rate_partial : forall T E n sim lo hi, 1 <= T -> 1 <= E -> 1 <= n -> (forall t e, t < T -> e < E -> (lo <= sim t e <= hi)%R) ->
  (INR n * (imbalance T E (kl_plan T E n sim) * imbalance T E (kl_plan T E n sim)) <= 8 * (INR T * INR T) * (hi - lo))%R.
Proof. exact skh_rate. Qed.
Print Assumptions C92_rate_partial.
(** ... and so converge to zero for all logits. *)
Theorem C92_balance_partial : forall T E sim eps, 1 <= T -> 1 <= E -> (0 < eps)%R ->
  exists N, 1 <= N /\ forall n, N <= n -> (imbalance T E (kl_plan T E n sim) <= eps)%R.
Proof. exact skh_converges. Qed.
Print Assumptions C92_balance_partial.
(** Two tokens and two experts whose loads differ after every number of iterations *)
Theorem C92_balance_refuted : exists sim, forall n, 1 <= n -> ~ experts_sum 2 2 (kl_plan 2 2 n sim).
Proof. exists sim2. exact never2. Qed.
Print Assumptions C92_balance_refuted.
Example C92_first : sumf 2 (fun t => kl_plan 2 2 1 sim2 t 0) = (16 / 15)%R.
Proof. exact first2. Qed.
Example C92_case : exists N, forall n, N <= n -> (imbalance 2 2 (kl_plan 2 2 n sim2) <= 1 / 100)%R.
Proof. destruct (C92_balance_partial 2 2 sim2 (1 / 100) ltac:(lia) ltac:(lia) ltac:(lra)) as (N & _ & H). eauto. Qed.
(** A plan that is balanced has the greatest entropic value of all plans with the required sums, ... *)
Theorem C92_best : forall T E n sim P, 1 <= T -> 1 <= E -> 1 <= n -> experts_sum T E (kl_plan T E n sim) ->
  nonnegative T E P -> tokens_sum T E P -> experts_sum T E P -> (entropic_value T E sim P <= entropic_value T E sim (kl_plan T E n sim))%R.
Proof. exact skh_best. Qed.
Print Assumptions C92_best.
Example C92_best_case : kl_plan 2 2 1 sim3 0 0 = (3 / 4)%R /\ experts_sum 2 2 (kl_plan 2 2 1 sim3).
Proof. exact first3. Qed.
(** ... any other falls short of them by at most (hi - lo) times its imbalance, ... *)
Theorem C92_near_best : forall T E n sim lo hi P, 1 <= T -> 1 <= E -> 1 <= n -> (forall t e, t < T -> e < E -> (lo <= sim t e <= hi)%R) ->
  nonnegative T E P -> tokens_sum T E P -> experts_sum T E P ->
  (entropic_value T E sim P <= entropic_value T E sim (kl_plan T E n sim) + (hi - lo) * imbalance T E (kl_plan T E n sim))%R.
Proof. exact skh_near. Qed.
Print Assumptions C92_near_best.
(** ... and so by as little as desired after enough iterations. *)
Theorem C92_limit_best : forall T E sim eps, 1 <= T -> 1 <= E -> (0 < eps)%R -> exists N, 1 <= N /\ forall n P, N <= n ->
  nonnegative T E P -> tokens_sum T E P -> experts_sum T E P -> (entropic_value T E sim P <= entropic_value T E sim (kl_plan T E n sim) + eps)%R.
Proof. exact skh_value_converges. Qed.
Print Assumptions C92_limit_best.
Example C92_near_best_case : (forall t e, t < 2 -> e < 2 -> (0 <= sim2 t e <= 2)%R) /\
  nonnegative 2 2 (fun _ _ => / 2)%R /\ tokens_sum 2 2 (fun _ _ => / 2)%R /\ experts_sum 2 2 (fun _ _ => / 2)%R.
Proof.
  repeat split; intros; unfold sim2; try (destruct (_ && _)%bool).
  all: try (pose proof (ln_le 3 ltac:(lra)); pose proof (ln_increasing 1 3 ltac:(lra) ltac:(lra)) as Q; rewrite ln_1 in Q; lra).
  all: try lra. all: try (intros t H; cbn; lra). all: cbn; lra.
Qed.
