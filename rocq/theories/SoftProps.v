(** C43 and C52: Soft MoE. *)
From Coq Require Import List Arith ZArith Bool Reals QArith Lia Lra Permutation.
From Verif Require Import Prim MoeModel SoftModel SoftSpec SoftProofs.
Import ListNotations.
Local Open Scope nat_scope.

(** C43.  Whatever the logits (inputs, parameters, scale and noise), there are dispatch weights,
    convex over the items of a group, and combine weights, convex over all slots of all experts,
    such that slot p of expert n for group g (at position [pos g * P + p] of the buffer of the
    expert) is the combination of the items of group g and of no other group, and every output is
    the combination of the outputs of the slots of its group. *)
Theorem C43_mixing : forall G M D N num_slots capacity_factor deterministic noise_std normal mu scale inputs P d,
  1 <= M -> 1 <= N ->
  soft_router G M D N num_slots capacity_factor deterministic noise_std normal mu scale inputs = Ok (P, d) ->
  (forall k, num_slots = Some k -> (1 <= k)%Z) ->
  exists dw cw,
    (forall g n p, convex M (fun m => dw g m n p)) /\
    (forall g m, convex2 N P (fun n p => cw g m n p)) /\
    (exists pos inv,
       (forall g, g < G -> pos g < G /\ inv (pos g) = g) /\
       (forall j, j < G -> inv j < G /\ pos (inv j) = j) /\
       (forall data g n p i, g < G -> n < N -> p < P ->
          @einsum_do_dispatch Ralg G M N P d data n (pos g * P + p) i = sum_to M (fun m => (dw g m n p * data g m i)%R)) /\
       (forall outs g m i, g < G ->
          @einsum_do_combine Ralg G M N P (G * P) d outs g m i =
          sum_to N (fun n => sum_to P (fun p => (cw g m n p * outs n (pos g * P + p)%nat i)%R)))) /\
    (forall f data g m i, (forall e x y, (forall j, x j = y j) -> forall j, f e x j = f e y j) -> g < G ->
       soft_layer G M N P d f data g m i =
       sum_to N (fun n => sum_to P (fun p => (cw g m n p * f n (fun j => sum_to M (fun m' => (dw g m' n p * data g m' j)%R)) i)%R))).
Proof. exact router_mixing. Qed.
Print Assumptions C43_mixing.

(** C43, consequence: outputs stay within the range of the experts on the box spanned by the items
    of the group. *)
Theorem C43_range : forall G M D N num_slots capacity_factor deterministic noise_std normal mu scale inputs P d f data g m i lo hi,
  1 <= M -> 1 <= N ->
  soft_router G M D N num_slots capacity_factor deterministic noise_std normal mu scale inputs = Ok (P, d) ->
  (forall k, num_slots = Some k -> (1 <= k)%Z) ->
  (forall e x y, (forall j, x j = y j) -> forall j, f e x j = f e y j) -> g < G ->
  (exists lo0 hi0 : nat -> R,
     (forall m j, m < M -> (lo0 j <= data g m j <= hi0 j)%R) /\
     (forall n x, n < N -> (forall j, (lo0 j <= x j <= hi0 j)%R) -> (lo <= f n x i <= hi)%R)) ->
  (lo <= soft_layer G M N P d f data g m i <= hi)%R.
Proof. exact router_range. Qed.
Print Assumptions C43_range.

(** C43: without noise no item is dropped.  Every slot takes every item of its group with a
    weight of at least exp(-2|scale|) / M. *)
Theorem C43_no_item_dropped : forall G M D N num_slots capacity_factor deterministic noise_std normal mu scale inputs P d g m n p,
  1 <= M -> 1 <= N ->
  soft_router G M D N num_slots capacity_factor deterministic noise_std normal mu scale inputs = Ok (P, d) ->
  (forall k, num_slots = Some k -> (1 <= k)%Z) ->
  deterministic = true \/ (noise_std <= 0)%R -> m < M ->
  exists w, ed_dispatch d = Some w /\ (exp (- 2 * Rabs scale) / INR M <= w g m n p)%R.
Proof. exact router_lower. Qed.
Print Assumptions C43_no_item_dropped.

(** C43: without noise the order of the items does not matter: permuting the items of a group
    permutes the outputs. *)
Theorem C43_order : forall G M D N num_slots capacity_factor deterministic noise_std normal mu scale inputs P d P' d' (pi : nat -> nat -> nat) f g m i,
  1 <= M -> 1 <= N -> deterministic = true \/ (noise_std <= 0)%R ->
  (forall k, num_slots = Some k -> (1 <= k)%Z) ->
  (forall e x y, (forall j, x j = y j) -> forall j, f e x j = f e y j) -> g < G ->
  Permutation (map (pi g) (seq 0 M)) (seq 0 M) ->
  soft_router G M D N num_slots capacity_factor deterministic noise_std normal mu scale inputs = Ok (P, d) ->
  soft_router G M D N num_slots capacity_factor deterministic noise_std normal mu scale (fun g m => inputs g (pi g m)) = Ok (P', d') ->
  P' = P /\ soft_layer G M N P d' f (fun g m => inputs g (pi g m)) g m i = soft_layer G M N P d f inputs g (pi g m) i.
Proof. exact router_perm. Qed.
Print Assumptions C43_order.

(** C43: when the router fails: only for a capacity that rounds to zero slots (ValueError) and
    when neither slots nor a capacity factor are given (TypeError). *)
Theorem C43_outcomes : forall G M D N num_slots capacity_factor deterministic noise_std normal mu scale inputs,
  1 <= M -> 1 <= N ->
  match num_slots, capacity_factor with
  | Some s, _ => exists d, soft_router G M D N num_slots capacity_factor deterministic noise_std normal mu scale inputs = Ok (Z.to_nat s, d)
  | None, None => soft_router G M D N num_slots capacity_factor deterministic noise_std normal mu scale inputs = Raise TypeError
  | None, Some q => let s := round_half_even (inject_Z (Z.of_nat M) * q / inject_Z (Z.of_nat N)) in
      if (s <? 1)%Z then soft_router G M D N num_slots capacity_factor deterministic noise_std normal mu scale inputs = Raise ValueError
      else exists d, soft_router G M D N num_slots capacity_factor deterministic noise_std normal mu scale inputs = Ok (Z.to_nat s, d)
  end.
Proof. exact router_outcomes. Qed.
Print Assumptions C43_outcomes.

(** Two groups of six items, three experts, capacity factor one: two slots per expert; with twice
    as many experts as items and a half capacity, none. *)
Example C43_case : exists d,
  soft_router 2 6 4 3 None (Some 1%Q) false 1%R (fun _ _ _ _ => 1%R) (fun _ _ _ _ => 1%R) 1%R (fun _ _ _ => 1%R) = Ok (2, d) /\
  (0 <= soft_layer 2 6 3 2 d (fun n x i => (x i + INR n)%R) (fun _ m _ => INR m) 0 1 0 <= 7)%R.
Proof.
  destruct (C43_outcomes 2 6 4 3 None (Some 1%Q) false 1%R (fun _ _ _ _ => 1%R) (fun _ _ _ _ => 1%R) 1%R (fun _ _ _ => 1%R) ltac:(lia) ltac:(lia)) as (d & E).
  exists d. split; [exact E|].
  apply (C43_range 2 6 4 3 _ _ _ _ _ _ _ _ _ _ (fun n x i => (x i + INR n)%R) (fun _ m _ => INR m) 0 1 0 0%R 7%R ltac:(lia) ltac:(lia) E ltac:(discriminate)).
  - intros e x y H j. rewrite H. auto.
  - lia.
  - assert (P : forall k b, k < b -> (0 <= INR k <= INR b - 1)%R).
    { intros k b H. split; [apply pos_INR|]. apply lt_le_S, le_INR in H. rewrite S_INR in H. lra. }
    exists (fun _ => 0%R), (fun _ => 5%R). split.
    + intros m j Hm. assert (A := P m 6 Hm). replace (INR 6) with 6%R in A by (simpl; lra). lra.
    + intros n x Hn H. assert (A := P n 3 Hn). replace (INR 3) with 3%R in A by (simpl; lra). assert (B := H 0). cbv beta in *. lra.
Qed.
Example C43_too_many_experts :
  soft_router 2 6 4 12 None (Some (1 # 2)%Q) false 1%R (fun _ _ _ _ => 1%R) (fun _ _ _ _ => 1%R) 1%R (fun _ _ _ => 1%R) = Raise ValueError.
Proof. reflexivity. Qed.

(** C52.  The lowest and highest similarity of the combine weights and of the dispatch weights
    are those of pairs of different items, respectively slots, of the same group. *)
Theorem C52_weights : forall G M N P logits, 1 <= G -> 1 <= M -> 1 <= N -> 1 <= P ->
  (2 <= M -> exists lo hi, sim_min_max G M (combine_sim N P logits) = Some (lo, hi) /\
     lowest_off_diagonal G M (combine_sim N P logits) lo /\ highest_off_diagonal G M (combine_sim N P logits) hi /\ (0 <= lo <= hi)%R /\ (hi <= 1)%R) /\
  (2 <= N * P -> exists lo hi, sim_min_max G (N * P) (dispatch_sim M P logits) = Some (lo, hi) /\
     lowest_off_diagonal G (N * P) (dispatch_sim M P logits) lo /\ highest_off_diagonal G (N * P) (dispatch_sim M P logits) hi /\ (0 <= lo <= hi)%R /\ (hi <= 1)%R).
Proof. exact weights_sim. Qed.
Print Assumptions C52_weights.

(** C52 for the parameters mu, in general: the lowest is right, and the highest is right unless
    all pairs have negative similarities, when zero is reported. *)
Theorem C52_mu_partial : forall D N P mu, 2 <= N * P ->
  exists lo hi, sim_min_max 1 (N * P) (mu_sim D P mu) = Some (lo, Rmax 0 hi) /\
    lowest_off_diagonal 1 (N * P) (mu_sim D P mu) lo /\ highest_off_diagonal 1 (N * P) (mu_sim D P mu) hi.
Proof. exact (fun D N P mu H => sim_general 1 (N * P) (mu_sim D P mu) Nat.lt_0_1 H). Qed.
Print Assumptions C52_mu_partial.

(** C52 does not hold for mu: two opposite vectors. *)
Theorem C52_mu_refuted : exists mu : nat -> nat -> nat -> R, exists lo hi,
  sim_min_max 1 2 (mu_sim 1 1 mu) = Some (lo, hi) /\ ~ highest_off_diagonal 1 2 (mu_sim 1 1 mu) hi.
Proof. exact mu_sim_refuted. Qed.
Print Assumptions C52_mu_refuted.

Example C52_case : exists lo hi, sim_min_max 2 6 (combine_sim 3 2 (fun g m n p => INR (g * m + n * p))) = Some (lo, hi) /\ (0 <= lo <= hi)%R.
Proof.
  destruct (C52_weights 2 6 3 2 (fun g m n p => INR (g * m + n * p)) ltac:(lia) ltac:(lia) ltac:(lia) ltac:(lia)) as [A _].
  destruct (A ltac:(lia)) as (lo & hi & E & _ & _ & B & _). exists lo, hi. auto.
Qed.
