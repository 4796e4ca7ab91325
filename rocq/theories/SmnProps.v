(** C91: the mean similarities reported by the soft router. *)
From Coq Require Import List Arith Bool Reals Lia Lra.
From Verif Require Import Py SoftModel SoftSpec ElmModel GrdModel SmnModel SmnSpec SmnProofs.
Local Open Scope nat_scope.

(** C91: for weights, the mean over all pairs of different items (slots) of a group, up to 1e-9
    times the number of slots (items) over the number of other items (slots). *)
Theorem C91_weights_partial : forall G M N P l, 1 <= G -> 1 <= M -> 1 <= N -> 1 <= P ->
  (2 <= M -> exists v, sim_mean G M (combine_sim N P l) = Fin v /\
     (pair_mean G M (combine_sim N P l) - eps9 * INR (N * P) / (INR M - 1) <= v <= pair_mean G M (combine_sim N P l))%R) /\
  (2 <= N * P -> exists v, sim_mean G (N * P) (dispatch_sim M P l) = Fin v /\
     (pair_mean G (N * P) (dispatch_sim M P l) - eps9 * INR M / (INR (N * P) - 1) <= v <= pair_mean G (N * P) (dispatch_sim M P l))%R).
Proof. exact weights_mean. Qed.
Print Assumptions C91_weights_partial.
Example C91_case : exists v, sim_mean 2 3 (combine_sim 2 2 (fun g m n p => INR (g * m + n * p))) = Fin v.
Proof.
  destruct (C91_weights_partial 2 3 2 2 (fun g m n p => INR (g * m + n * p)) ltac:(lia) ltac:(lia) ltac:(lia) ltac:(lia)) as [A _].
  destruct (A ltac:(lia)) as (v & E & _). eauto.
Qed.
(** That mean is in the range of the similarities. *)
Theorem C91_range : forall G n sim lo hi, 1 <= G -> 2 <= n ->
  (forall g i j, g < G -> i < n -> j < n -> i <> j -> (lo <= sim g i j <= hi)%R) -> (lo <= pair_mean G n sim <= hi)%R.
Proof. exact pair_mean_range. Qed.
Print Assumptions C91_range.
(** For mu the error can be as large as 1 over the number of other slots. *)
Theorem C91_mu_partial : forall D n P mu, 2 <= n -> exists v, sim_mean 1 n (mu_sim D P mu) = Fin v /\
  (pair_mean 1 n (mu_sim D P mu) - 1 / (INR n - 1) <= v <= pair_mean 1 n (mu_sim D P mu))%R.
Proof. exact mu_mean. Qed.
Print Assumptions C91_mu_partial.
Theorem C91_mu_refuted : exists (mu : nat -> nat -> nat -> R) scale, (forall n p, (0 < sumf 1 (fun d => mu d n p))%R) /\
  metrics_mu_mean 4 4 1 2 1 mu scale = Fin (-1) /\ pair_mean 1 2 (mu_sim 1 1 (metrics_mu 4 4 1 2 1 mu scale)) = 0%R.
Proof. exact mu_wrong. Qed.
Print Assumptions C91_mu_refuted.
(** With a single item, or a single slot, a division by zero: in exact arithmetic -inf. *)
Theorem C91_single_refuted : forall G M N P l, 1 <= G -> 1 <= N -> 1 <= P -> 1 <= M ->
  sim_mean G 1 (combine_sim N P l) = NInf /\ sim_mean G 1 (dispatch_sim M P l) = NInf.
Proof. exact single_weights. Qed.
Print Assumptions C91_single_refuted.
