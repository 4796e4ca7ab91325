(** C58 and C59: routers based on optimal transport. *)
From Coq Require Import List Arith Bool Reals ZArith Lia Lra.
From Verif Require Import MoeModel MoeSpec SoftModel AuxModel EnsProofs CwModel OtModel OtSpec OtProofs.
From Verif Require Import Py.
Import ListNotations.
Local Open Scope nat_scope.

(** There are projections: a threshold for the k largest entries *)
Example C58_projection_example : projection sparse_projection.
Proof. exact projection_exists. Qed.

(** C58: the maximum operator is an upper bound for all sparse probability vectors. *)
Theorem C58_maximum : forall (project : nat -> nat -> (nat -> R) -> nat -> R),
  projection project -> forall n k x b gamma q, 1 <= k -> k <= n -> (0 < gamma * b)%R -> sparse_simplex n k q ->
  (dot n q x - / 2 * (gamma * b) * dot n q (fun i => q i - 1) <= max_l2_top_k project n k x b gamma)%R.
Proof. exact max_above. Qed.
Print Assumptions C58_maximum.

(** C58: it is attained, by its gradient. *)
Theorem C58_attained : forall (project : nat -> nat -> (nat -> R) -> nat -> R),
  projection project -> forall n k x b gamma, 1 <= k -> k <= n -> sparse_simplex n k (max_grad project n k x b gamma) /\
  max_l2_top_k project n k x b gamma = (dot n (max_grad project n k x b gamma) x - / 2 * (gamma * b) * dot n (max_grad project n k x b gamma) (fun i => max_grad project n k x b gamma i - 1))%R.
Proof. exact max_attained. Qed.
Print Assumptions C58_attained.

(** C58: and its gradient is a subgradient. *)
Theorem C58_gradient : forall (project : nat -> nat -> (nat -> R) -> nat -> R),
  projection project -> forall n k x y b gamma, 1 <= k -> k <= n -> (0 < gamma * b)%R ->
  (max_l2_top_k project n k x b gamma + dot n (max_grad project n k x b gamma) (fun i => y i - x i) <= max_l2_top_k project n k y b gamma)%R.
Proof. exact max_subgradient. Qed.
Print Assumptions C58_gradient.
Example C58_gradient_example : 1 <= 2 /\ 2 <= 3 /\ (0 < 1 * (1 / 2))%R.
Proof. split; [lia|]. split; [lia|lra]. Qed.

(** C58: plans for tokens that select experts: whatever the solver returns, the weights of each token
    are probabilities, at most k of which are not zero. *)
Theorem C58_rows : forall (project : nat -> nat -> (nat -> R) -> nat -> R),
  projection project -> forall (solver : ((nat -> R) -> R) -> nat -> R) T E k sim t, 1 <= k -> k <= E -> t < T -> sparse_simplex E k (sparse_ot_plan project solver T E k true sim t).
Proof. exact rows_sparse. Qed.
Print Assumptions C58_rows.

(** C58: plans for experts that select tokens: whatever the solver returns, each expert gets T / E, of at
    most k tokens. *)
Theorem C58_columns : forall (project : nat -> nat -> (nat -> R) -> nat -> R),
  projection project -> forall (solver : ((nat -> R) -> R) -> nat -> R) T E k sim, 1 <= k -> k <= T -> 1 <= E -> sparse_columns T E k (fun _ => INR T / INR E)%R (sparse_ot_plan project solver T E k false sim).
Proof. exact columns_sparse. Qed.
Print Assumptions C58_columns.
Example C58_columns_example : 1 <= 2 /\ 2 <= 4 /\ 1 <= 3.
Proof. lia. Qed.

(** C58: if the experts are balanced, then no other sparse plan with balanced experts is better. *)
Theorem C58_best_rows_partial : forall (project : nat -> nat -> (nat -> R) -> nat -> R),
  projection project -> forall (solver : ((nat -> R) -> R) -> nat -> R) T E k sim P, 1 <= k -> k <= E ->
  (forall e, e < E -> sumf T (fun t => sparse_ot_plan project solver T E k true sim t e) = (INR T / INR E)%R) ->
  (forall t, t < T -> sparse_simplex E k (P t)) -> (forall e, e < E -> sumf T (fun t => P t e) = (INR T / INR E)%R) ->
  (regularized_value T E 1 sim P <= regularized_value T E 1 sim (sparse_ot_plan project solver T E k true sim))%R.
Proof. exact rows_best. Qed.
Print Assumptions C58_best_rows_partial.
Example C58_best_rows_example : forall e, e < 2 ->
  sumf 2 (fun t => sparse_ot_plan sparse_projection (fun _ _ => 0%R) 2 2 1 true (fun t e => if t =? e then 1%R else 0%R) t e) = (INR 2 / INR 2)%R.
Proof. exact (balanced_case sparse_projection projection_exists). Qed.

(** C58: the same for experts that select tokens: if the weights of each token sum to one. *)
Theorem C58_best_columns_partial : forall (project : nat -> nat -> (nat -> R) -> nat -> R),
  projection project -> forall (solver : ((nat -> R) -> R) -> nat -> R) T E k sim P, 1 <= k -> k <= T -> 1 <= E ->
  (forall t, t < T -> sumf E (sparse_ot_plan project solver T E k false sim t) = 1%R) ->
  sparse_columns T E k (fun _ => INR T / INR E)%R P -> (forall t, t < T -> sumf E (P t) = 1%R) ->
  (regularized_value T E 1 sim P <= regularized_value T E 1 sim (sparse_ot_plan project solver T E k false sim))%R.
Proof. exact columns_best. Qed.
Print Assumptions C58_best_columns_partial.

(** C58: in general, the value of any plan exceeds the value of the result at most by the inner product of
    the result of the solver and the error of the sums. *)
Theorem C58_gap_partial : forall (project : nat -> nat -> (nat -> R) -> nat -> R),
  projection project -> forall M N k cost b gamma alpha,
  1 <= k -> k <= M -> (0 < gamma)%R -> (forall j, j < N -> (0 < b j)%R) -> let T := transport_plan project M N k cost b gamma alpha in forall a T',
  sparse_columns M N k b T' -> row_sums M N a T' ->
  (regularized_value M N gamma (fun i j => - cost i j) T' <= regularized_value M N gamma (fun i j => - cost i j) T + dot M alpha (fun i => sumf N (T i) - a i))%R.
Proof. exact plan_gap. Qed.
Print Assumptions C58_gap_partial.

(** C58: the objective of the solver is always above the value of every sparse plan with the given sums. *)
Theorem C58_dual : forall (project : nat -> nat -> (nat -> R) -> nat -> R),
  projection project -> forall M N k cost b gamma alpha,
  1 <= k -> k <= M -> (0 < gamma)%R -> (forall j, j < N -> (0 < b j)%R) -> forall a T',
  sparse_columns M N k b T' -> row_sums M N a T' ->
  (regularized_value M N gamma (fun i j => - cost i j) T' + gamma / 2 * sumf N (fun j => b j * b j) <= semi_dual project M N k cost a b gamma alpha)%R.
Proof. exact dual_above. Qed.
Print Assumptions C58_dual.

(** C58: "columns sum to the same expected number of tokens" is not guaranteed, not even for exact
    solutions: two tokens without preferences go to the same expert. *)
Theorem C58_balance_refuted : forall (project : nat -> nat -> (nat -> R) -> nat -> R),
  projection project -> exists T E k sim solver e,
  let objective := semi_dual project E T k (fun e t => - sim t e)%R (fun _ => INR T / INR E)%R (fun _ => 1%R) 1%R in
  1 <= k /\ k <= E /\ (forall alpha, (objective (solver objective) <= objective alpha)%R) /\ e < E /\
  sumf T (fun t => sparse_ot_plan project solver T E k true sim t e) <> (INR T / INR E)%R.
Proof. exact balance_refuted. Qed.
Print Assumptions C58_balance_refuted.

(** C58: the gates of the router that selects items. *)
Theorem C58_items_gates : forall (project : nat -> nat -> (nat -> R) -> nat -> R),
  projection project -> forall (solver : ((nat -> R) -> R) -> nat -> R) S E k logits, 1 <= k -> k <= S -> 1 <= E -> exists ot soft, ksparse_items_gates project solver S E k logits = (ot, soft) /\
  (forall g, sparse_columns S E k (fun _ => INR S / INR E)%R (ot g)) /\ (forall g s e, soft g s e = (exp (logits g s e) / sumf E (fun i => exp (logits g s i)))%R) /\
  (forall g P, (forall s, s < S -> sumf E (ot g s) = 1%R) -> sparse_columns S E k (fun _ => INR S / INR E)%R P -> (forall s, s < S -> sumf E (P s) = 1%R) ->
     (regularized_value S E 1 (soft g) P <= regularized_value S E 1 (soft g) (ot g))%R).
Proof. exact items_gates. Qed.
Print Assumptions C58_items_gates.
Example C58_items_gates_example : 1 <= 2 /\ 2 <= 4 /\ 1 <= 3.
Proof. lia. Qed.

(** C58: the gates of the router that selects experts: the plan and the softmax of the logits; numbers of
    selected experts out of range are rejected. *)
Theorem C58_gates : forall (project : nat -> nat -> (nat -> R) -> nat -> R),
  projection project -> forall (solver : ((nat -> R) -> R) -> nat -> R) S E k logits, (1 <= k /\ k <= E -> exists ot soft, ksparse_experts_gates project solver S E k logits = Ok (ot, soft) /\
     (forall g s, s < S -> sparse_simplex E k (ot g s)) /\ (forall g s e, soft g s e = (exp (logits g s e) / sumf E (fun i => exp (logits g s i)))%R) /\
     (forall g P, (forall e, e < E -> sumf S (fun s => ot g s e) = (INR S / INR E)%R) ->
        (forall s, s < S -> sparse_simplex E k (P s)) -> (forall e, e < E -> sumf S (fun s => P s e) = (INR S / INR E)%R) ->
        (regularized_value S E 1 (soft g) P <= regularized_value S E 1 (soft g) (ot g))%R)) /\
  (~ (1 <= k /\ k <= E) -> ksparse_experts_gates project solver S E k logits = Raise ValueError).
Proof. exact experts_gates. Qed.
Print Assumptions C58_gates.
Example C58_gates_example : ksparse_experts_gates sparse_projection (fun _ _ => 0%R) 3 2 3 (fun _ _ _ => 0%R) = Raise ValueError.
Proof. reflexivity. Qed.

(** C59: the layer with replaced weights: the choices and the dropped choices are those of the plan, the
    weights are the others. *)
Theorem C59_experts_weights : forall (A : alg),
  alg_laws A -> forall G S E K C bp bf (gates w : nat -> nat -> nat -> sc A), 1 <= S -> 1 <= K -> K <= E ->
  exists d, experts_dispatcher G S E K C NameEinsum bp bf gates (Some w) = Ok d /\
  forall ch, (forall g s, s < S -> best_choices E K (gates g s) (ch g s)) ->
  forall f F, (forall e buf j, F e buf j = f e (buf j)) -> forall data g s, g < G -> s < S ->
    layer d F data g s = routed_output bp S E K C (gates g) (w g) (ch g) f (data g) s.
Proof. exact @replaced_experts. Qed.
Print Assumptions C59_experts_weights.
Example C59_experts_weights_example : exists d,
  experts_dispatcher (A := Zalg) 1 2 2 1 1 NameEinsum false true (fun _ s e => if e =? 0 then 3%Z else 1%Z) (Some (fun _ s e => if e =? 0 then 7%Z else 5%Z)) = Ok d /\
  layer d (fun e buf j => (buf j + 100)%Z) (fun _ s => Z.of_nat s) 0 0 = 700%Z /\ layer d (fun e buf j => (buf j + 100)%Z) (fun _ s => Z.of_nat s) 0 1 = 0%Z.
Proof. eexists. split; [reflexivity|]. split; reflexivity. Qed.

(** C59: the same for experts that select items. *)
Theorem C59_items_weights : forall (A : alg),
  alg_laws A -> forall G S E C bf (gates w : nat -> nat -> nat -> sc A), 1 <= E -> C <= S ->
  exists d, items_dispatcher G S E C NameEinsum bf gates (Some w) = Ok d /\
  forall ch, (forall g e, e < E -> best_choices S C (fun s => gates g s e) (ch g e)) ->
  forall f F, (forall e buf j, F e buf j = f e (buf j)) -> forall data g s, g < G -> s < S ->
    layer d F data g s = top_items_output E C (w g) (ch g) f (data g) s.
Proof. exact @replaced_items. Qed.
Print Assumptions C59_items_weights.
Example C59_items_weights_example : exists d,
  items_dispatcher (A := Zalg) 1 3 1 1 NameEinsum false (fun _ s e => if s =? 1 then 3%Z else 1%Z) (Some (fun _ s e => 7%Z)) = Ok d /\
  layer d (fun e buf j => (buf j + 100)%Z) (fun _ s => Z.of_nat s) 0 0 = 0%Z /\ layer d (fun e buf j => (buf j + 100)%Z) (fun _ s => Z.of_nat s) 0 1 = 707%Z.
Proof. eexists. split; [reflexivity|]. split; reflexivity. Qed.

(** C59: without replaced weights, the weights are those of the plan. *)
Theorem C59_experts_kept : forall (A : alg),
  alg_laws A -> forall G S E K C name bp bf (gates : nat -> nat -> nat -> sc A), 1 <= S -> 1 <= K -> K <= E -> name <> NameOther ->
  exists d, experts_dispatcher G S E K C name bp bf gates None = Ok d /\
  forall ch, (forall g s, s < S -> best_choices E K (gates g s) (ch g s)) ->
  forall f F, (forall e buf j, F e buf j = f e (buf j)) -> forall data g s, g < G -> s < S ->
    layer d F data g s = routed_output bp S E K C (gates g) (gates g) (ch g) f (data g) s.
Proof. exact @kept_experts. Qed.
Print Assumptions C59_experts_kept.

(** C59: the same for experts that select items. *)
Theorem C59_items_kept : forall (A : alg),
  alg_laws A -> forall G S E C bf (gates : nat -> nat -> nat -> sc A), 1 <= E -> C <= S ->
  exists d, items_dispatcher G S E C NameEinsum bf gates None = Ok d /\
  forall ch, (forall g e, e < E -> best_choices S C (fun s => gates g s e) (ch g e)) ->
  forall f F, (forall e buf j, F e buf j = f e (buf j)) -> forall data g s, g < G -> s < S ->
    layer d F data g s = top_items_output E C (gates g) (ch g) f (data g) s.
Proof. exact @kept_items. Qed.
Print Assumptions C59_items_kept.

(** C59: weights are replaced for einsum dispatchers only; other names, and more items than there are,
    are rejected. *)
Theorem C59_errors : forall (A : alg),
  alg_laws A -> forall G S E K C bp bf (gates w : nat -> nat -> nat -> sc A), 1 <= S -> 1 <= K -> K <= E ->
  experts_dispatcher G S E K C NameIndices bp bf gates (Some w) = Raise TypeError /\
  (forall o, experts_dispatcher G S E K C NameOther bp bf gates o = Raise ValueError) /\
  (forall name o, name <> NameEinsum -> items_dispatcher G S E C name bf gates o = Raise ValueError) /\
  (forall name o, S < C -> items_dispatcher G S E C name bf gates o = Raise ValueError).
Proof. exact @dispatcher_errors. Qed.
Print Assumptions C59_errors.
Example C59_errors_example : experts_dispatcher (A := Zalg) 1 2 2 1 1 NameIndices false false (fun _ _ _ => 1%Z) (Some (fun _ _ _ => 1%Z)) = Raise TypeError.
Proof. reflexivity. Qed.

(** C59: without softmax weights, and with capacity for all items, the layer of the sparse router is the
    mixture of all experts with the weights of the plan: nothing of the plan is lost. *)
Theorem C59_experts_mixture_partial : forall (project : nat -> nat -> (nat -> R) -> nat -> R),
  projection project -> forall (solver : ((nat -> R) -> R) -> nat -> R) G S E K C name bp bf logits, 1 <= S -> 1 <= K -> K <= E -> S <= C -> name <> NameOther ->
  exists ot soft d, ksparse_experts_gates project solver S E K logits = Ok (ot, soft) /\
    experts_dispatcher (A := Ralg) G S E K C name bp bf ot None = Ok d /\
    forall f F, (forall e buf j, F e buf j = f e (buf j)) -> forall data g s, g < G -> s < S ->
      layer d F data g s = mixture (A := Ralg) E (ot g s) f (data g s).
Proof. exact experts_layer. Qed.
Print Assumptions C59_experts_mixture_partial.
Example C59_experts_mixture_example : 1 <= 4 /\ 1 <= 2 /\ 2 <= 3 /\ 4 <= 4 /\ NameIndices <> NameOther.
Proof. repeat split; try lia. discriminate. Qed.

(** C59: for experts that select items this holds with the capacity that the router is given. *)
Theorem C59_items_mixture_partial : forall (project : nat -> nat -> (nat -> R) -> nat -> R),
  projection project -> forall (solver : ((nat -> R) -> R) -> nat -> R) G S E C bf logits, 1 <= E -> 1 <= C -> C <= S ->
  exists d, items_dispatcher (A := Ralg) G S E C NameEinsum bf (fst (ksparse_items_gates project solver S E C logits)) None = Ok d /\
    forall f F, (forall e buf j, F e buf j = f e (buf j)) -> forall data g s, g < G -> s < S ->
      layer d F data g s = mixture (A := Ralg) E (fst (ksparse_items_gates project solver S E C logits) g s) f (data g s).
Proof. exact items_layer. Qed.
Print Assumptions C59_items_mixture_partial.
Example C59_items_mixture_example : 1 <= 3 /\ 1 <= 2 /\ 2 <= 4.
Proof. lia. Qed.

(** C59: with softmax weights (the default), experts that have no weight in the plan contribute to the
    output. *)
Theorem C59_unplanned_refuted : forall (project : nat -> nat -> (nat -> R) -> nat -> R),
  projection project -> exists solver S E K C logits ot soft d e f f' data,
  1 <= K /\ K <= E /\ ksparse_experts_gates project solver S E K logits = Ok (ot, soft) /\
  experts_dispatcher (A := Ralg) 1 S E K C NameEinsum false false ot (Some soft) = Ok d /\
  e < E /\ ot 0 0 e = 0%R /\ (forall e' x, e' <> e -> f e' x = f' e' x) /\
  layer d (fun e buf j => f e (buf j)) data 0 0 <> layer d (fun e buf j => f' e (buf j)) data 0 0.
Proof. exact unplanned_refuted. Qed.
Print Assumptions C59_unplanned_refuted.

(** C59: KL projections, experts select items: plan and weights are for the same logits. *)
Theorem C59_kl_items : forall (plan : (nat -> nat -> R) -> nat -> nat -> R) E noise logits,
  kl_items_gates plan E noise logits = let used := fun g s e => match noise with Some n => (logits g s e + n g s e)%R | None => logits g s e end in
    (fun g => plan (used g), fun g s => softmax E (used g s)).
Proof. exact kl_items. Qed.
Print Assumptions C59_kl_items.

(** C59: KL projections, items select experts: the same without noise. *)
Theorem C59_kl_experts_partial : forall (plan : (nat -> nat -> R) -> nat -> nat -> R) E k logits,
  1 <= k -> k <= E -> kl_experts_gates plan E k None logits = Ok (fun g => plan (logits g), fun g s => softmax E (logits g s)).
Proof. exact kl_experts_quiet. Qed.
Print Assumptions C59_kl_experts_partial.
Example C59_kl_experts_example : 1 <= 2 /\ 2 <= 3.
Proof. lia. Qed.

(** C59: numbers of selected experts out of range are rejected. *)
Theorem C59_kl_errors : forall (plan : (nat -> nat -> R) -> nat -> nat -> R) E k noise logits,
  ~ (1 <= k /\ k <= E) -> kl_experts_gates plan E k noise logits = Raise ValueError.
Proof. exact kl_experts_fails. Qed.
Print Assumptions C59_kl_errors.
Example C59_kl_errors_example : ~ (1 <= 4 /\ 4 <= 3).
Proof. lia. Qed.

(** C59: with noise the plan is for the noisy logits, but the weights are for those without noise. *)
Theorem C59_kl_experts_refuted : exists E k noise logits, 1 <= k /\ k <= E /\ forall plan, exists ot soft,
  kl_experts_gates plan E k (Some noise) logits = Ok (ot, soft) /\ (forall g, ot g = plan (fun s e => logits g s e + noise g s e)%R) /\
  soft 0 0 0 <> softmax E (fun e => Rplus (logits 0 0 e) (noise 0 0 e)) 0.
Proof. exact kl_experts_noise_refuted. Qed.
Print Assumptions C59_kl_experts_refuted.

