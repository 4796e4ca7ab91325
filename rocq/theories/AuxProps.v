(** C44, C50, C53 and C54: auxiliary losses and the contrastive loss. *)
From Coq Require Import List Arith Bool Reals Lia Lra Permutation.
From Verif Require Import Prim SoftModel SoftSpec TreeModel EvalModel EvalSpec AuxModel AuxSpec AuxProofs.
From Verif Require Import Py.
Import ListNotations.
Local Open Scope nat_scope.

(** C50: the importance loss is the squared coefficient of variation of the sums of the gates of the
    experts; non-negative, zero iff all experts have the same importance, and at most E - 1. *)
Theorem C50_importance : forall Sz E gates,
  1 <= E -> (0 < sum_to Sz (fun s => sum_to E (gates s)))%R ->
  let importance := fun e => sum_to Sz (fun s => gates s e) in
  exists v, importance_auxiliary_loss Sz E gates = Some v /\
    v = (INR E * sum_to E (fun e => importance e * importance e) / (sum_to E importance * sum_to E importance) - 1)%R /\
    (0 <= v)%R /\ (v = 0%R <-> forall e e', e < E -> e' < E -> importance e = importance e') /\
    ((forall s e, s < Sz -> e < E -> (0 <= gates s e)%R) -> (v <= INR E - 1)%R).
Proof. exact importance_ok. Qed.
Print Assumptions C50_importance.
Example C50_importance_example : exists v, importance_auxiliary_loss 1 2 (fun _ e => if e =? 0 then 1%R else 0%R) = Some v /\ v = 1%R.
Proof.
  destruct (C50_importance 1 2 (fun _ e => if e =? 0 then 1%R else 0%R)) as (v & A & B & _); [lia|cbv [sum_to seq map fold_right Nat.eqb]; lra|].
  exists v. split; auto. rewrite B. cbv [sum_to seq map fold_right Nat.eqb INR]. field.
Qed.

(** C50: the GShard loss is E times the sum over the experts of the fraction of items with this expert
    first times its mean gate: within [0, E], and 1 when the items are spread evenly. *)
Theorem C50_gshard : forall Sz E gates top,
  1 <= Sz -> 1 <= E -> (forall s, s < Sz -> first_largest E (gates s) (top s)) ->
  let load := fun e => (sum_to Sz (fun s => if top s =? e then 1%R else 0%R) / INR Sz)%R in
  let gate := fun e => (sum_to Sz (fun s => gates s e) / INR Sz)%R in
  exists v, gshard_auxiliary_loss Sz E gates = Some v /\ v = (INR E * sum_to E (fun e => load e * gate e))%R /\
    ((forall s e, s < Sz -> e < E -> (0 <= gates s e)%R) -> (forall s, s < Sz -> sum_to E (gates s) = 1%R) ->
       (0 <= v <= INR E)%R /\ ((forall e, e < E -> load e = (/ INR E)%R) -> v = 1%R)).
Proof. exact gshard_ok. Qed.
Print Assumptions C50_gshard.
Example C50_gshard_example : exists v, gshard_auxiliary_loss 1 2 (fun _ e => if e =? 0 then 1%R else 0%R) = Some v /\ v = 2%R.
Proof.
  destruct (C50_gshard 1 2 (fun _ e => if e =? 0 then 1%R else 0%R) (fun _ => 0)) as (v & A & B & _); [lia|lia| |].
  - intros s _. split; [lia|]. intros i Hi. destruct i; simpl; split; try lra; lia.
  - exists v. split; auto. rewrite B. cbv [sum_to seq map fold_right Nat.eqb INR]. field.
Qed.

(** C50: the load loss is the squared coefficient of variation of the mean probabilities that an
    expert is above the K-th largest noisy logit of an item. *)
Theorem C50_load : forall cdf Sz E K std logits noisy,
  1 <= Sz -> 1 <= K -> K <= E -> (forall x, (0 <= cdf x < 1)%R) ->
  exists t, (forall s, s < Sz -> kth_largest E K (noisy s) (t s)) /\
  let p := fun s e => (1 - cdf ((t s - logits s e) / std))%R in
  let load := fun e => (sum_to Sz (fun s => p s e) / INR Sz)%R in
  exists v, load_auxiliary_loss cdf Sz E K std logits noisy = Some v /\
    v = (INR E * sum_to E (fun e => load e * load e) / (sum_to E load * sum_to E load) - 1)%R /\ (0 <= v)%R /\
    (v = 0%R <-> forall e e', e < E -> e' < E -> load e = load e').
Proof. exact load_ok. Qed.
Print Assumptions C50_load.
Example C50_load_example : load_auxiliary_loss (fun _ => (/ 2)%R) 1 2 1 1 (fun _ _ => 0%R) (fun _ _ => 0%R) = Some 0%R.
Proof.
  destruct (C50_load (fun _ => (/ 2)%R) 1 2 1 1%R (fun _ _ => 0%R) (fun _ _ => 0%R)) as (t & _ & v & A & _ & _ & Z); try lia; [intros; lra|].
  rewrite A. f_equal. apply Z. intros. reflexivity.
Qed.

(** C50: without noise the auxiliary loss of each group is the sum of the losses weighted by their
    positive weights; losses whose weight is not positive do not contribute. *)
Theorem C50_router : forall cdf G Sz E K det std gw iw lw logits normal,
  1 <= Sz -> 1 <= K -> K <= E -> det = true \/ std = 0%R ->
  exists gates m aux gl il, compute_gates_softmax_and_metrics cdf G Sz E K det std gw iw lw logits normal = Ok (gates, m) /\
    gates = (fun g s => softmax E (logits g s)) /\
    dget m k_aux = Some (Leaf aux) /\ dget m k_gshard = Some (Leaf gl) /\ dget m k_importance = Some (Leaf il) /\ dget m k_load = None /\
    forall g, g < G -> exists a b, entry gl g = Some a /\ gshard_auxiliary_loss Sz E (gates g) = Some a /\
      entry il g = Some b /\ importance_auxiliary_loss Sz E (fun s => softmax E (logits g s)) = Some b /\
      entry aux g = Some (Rmax 0 gw * a + Rmax 0 iw * b)%R.
Proof. exact router_values_det. Qed.
Print Assumptions C50_router.
Example C50_router_example : exists gates m aux, compute_gates_softmax_and_metrics (fun _ => 0%R) 2 3 2 1 true 1 0 (- 1) 1 (fun g s e => INR (g + s * e)) (fun _ _ _ => 0%R) = Ok (gates, m) /\
  dget m k_aux = Some (Leaf aux) /\ entry aux 1 = Some 0%R.
Proof.
  destruct (C50_router (fun _ => 0%R) 2 3 2 1 true 1%R 0%R (- 1)%R 1%R (fun g s e => INR (g + s * e)) (fun _ _ _ => 0%R)) as (gates & m & aux & gl & il & A & _ & B & _ & _ & _ & C); try lia; auto.
  exists gates, m, aux. split; auto. split; auto. destruct (C 1 ltac:(lia)) as (a & b & _ & _ & _ & _ & D). rewrite D.
  f_equal. rewrite !Rmax_left by lra. lra.
Qed.

(** C50 with noise: the load loss also counts, the gates and the GShard loss are from the noisy logits
    and the importance loss from the ones without noise. *)
Theorem C50_router_noisy : forall cdf G Sz E K std gw iw lw logits normal,
  1 <= Sz -> 1 <= K -> K <= E -> std <> 0%R ->
  let noisy := fun g s e => (logits g s e + std / INR E * normal g s e)%R in
  exists gates m aux gl il ll, compute_gates_softmax_and_metrics cdf G Sz E K false std gw iw lw logits normal = Ok (gates, m) /\
    (forall g s e, gates g s e = softmax E (noisy g s) e) /\
    dget m k_aux = Some (Leaf aux) /\ dget m k_gshard = Some (Leaf gl) /\ dget m k_importance = Some (Leaf il) /\ dget m k_load = Some (Leaf ll) /\
    forall g, g < G -> exists a b, entry gl g = Some a /\ gshard_auxiliary_loss Sz E (gates g) = Some a /\
      entry il g = Some b /\ importance_auxiliary_loss Sz E (fun s => softmax E (logits g s)) = Some b /\
      entry ll g = load_auxiliary_loss cdf Sz E K (std / INR E) (logits g) (noisy g) /\
      ((lw <= 0)%R -> entry aux g = Some (Rmax 0 gw * a + Rmax 0 iw * b)%R) /\
      (forall c, entry ll g = Some c -> entry aux g = Some (Rmax 0 gw * a + Rmax 0 iw * b + Rmax 0 lw * c)%R).
Proof. exact router_values_noisy. Qed.
Print Assumptions C50_router_noisy.

(** The router only fails when the number of selected experts is not between 1 and the number of
    experts. *)
Theorem C50_errors : forall cdf G Sz E K det std gw iw lw logits normal,
  compute_gates_softmax_and_metrics cdf G Sz E K det std gw iw lw logits normal = Raise ValueError <-> ~ (1 <= K <= E).
Proof. exact router_error. Qed.
Print Assumptions C50_errors.
Example C50_errors_example : compute_gates_softmax_and_metrics (fun _ => 0%R) 1 1 2 3 true 0 1 1 1 (fun _ _ _ => 0%R) (fun _ _ _ => 0%R) = Raise ValueError.
Proof. apply C50_errors. lia. Qed.

(** C53.  For any blocks that succeed (going through the states [xs] and reporting the metrics
    [ms]) the total loss is the mean of the losses of the examples plus the mean auxiliary loss of
    every MoE layer, each counted once; the metrics keep those of every layer. *)
Theorem C53_objective : forall (X : Type) (moe_block : nat -> X -> res (X * metrics_t)) (dense_block : nat -> X -> res X) L layers xs ms ,
  (forall i, i < L ->
     (In i layers -> moe_block i (xs i) = Ok (xs (S i), ms i)) /\ (~ In i layers -> dense_block i (xs i) = Ok (xs (S i)))) ->
  forall G (a : nat -> arr) (v : nat -> R) head ls, 1 <= G ->
  (forall i, i < L -> In i layers -> dget (ms i) k_aux = Some (Leaf (a i)) /\ mean_loss G (a i) (v i)) ->
  head (xs L) = map Some ls -> ls <> [] ->
  let aux := sum_to L (fun i => if existsb (Nat.eqb i) layers then v i else 0%R) in
  exists m, classification_objective moe_block dense_block L layers head (xs 0) = Ok (Some (mean ls + aux)%R, m) /\
    dget m k_main = Some (Leaf (Some (mean ls))) /\ dget m k_aux = Some (Leaf (Some aux)) /\ dget m k_total = Some (Leaf (Some (mean ls + aux)%R)) /\
    forall i, i < L -> In i layers -> dget m (block_key i) = Some (tree_mean (Node (ms i))).
Proof. exact classification_total. Qed.
Print Assumptions C53_objective.
Example C53_objective_example : exists m,
  classification_objective (fun i x => Ok (S x, [(k_aux, Leaf (Array [Some (INR i); Some 1%R]))])) (fun i x => Ok (S x)) 4 [1; 3] (fun x => [Some (INR x)]) 0
  = Ok (Some (4 + 3)%R, m).
Proof.
  destruct (C53_objective nat (fun i x => Ok (S x, [(k_aux, Leaf (Array [Some (INR i); Some 1%R]))])) (fun i x => Ok (S x)) 4 [1; 3] (fun i => i)
              (fun i => [(k_aux, Leaf (Array [Some (INR i); Some 1%R]))]) (fun i _ => conj (fun _ => eq_refl) (fun _ => eq_refl))
              2 (fun i => Array [Some (INR i); Some 1%R]) (fun i => mean [INR i; 1%R]) (fun x => [Some (INR x)]) [4%R]) as (m & E & _).
  - lia.
  - intros i _ _. split; [reflexivity|]. right. exists [INR i; 1%R]. auto.
  - simpl. do 2 f_equal. lra.
  - discriminate.
  - exists m. rewrite E. f_equal. f_equal. f_equal. cbv [sum_to seq map fold_right existsb Nat.eqb orb mean INR length]. field.
Qed.

(** C53: a MoE layer that does not report an auxiliary loss is an error, not silently skipped. *)
Theorem C53_missing : forall (X : Type) (moe_block : nat -> X -> res (X * metrics_t)) (dense_block : nat -> X -> res X) L layers xs ms ,
  (forall i, i < L ->
     (In i layers -> moe_block i (xs i) = Ok (xs (S i), ms i)) /\ (~ In i layers -> dense_block i (xs i) = Ok (xs (S i)))) ->
  forall i, i < L -> In i layers -> dget (ms i) k_aux = None ->
  (forall j, j < L -> In j layers -> j <> i -> exists a, dget (ms j) k_aux = Some (Leaf a)) ->
  encoder X moe_block dense_block L layers (xs 0) = Raise KeyError.
Proof. exact encoder_missing. Qed.
Print Assumptions C53_missing.
Example C53_missing_example : encoder nat (fun i x => Ok (S x, [])) (fun i x => Ok (S x)) 2 [1] 0 = Raise KeyError.
Proof. reflexivity. Qed.

(** C44, what holds: the objective of contrastive training is the mean sigmoid loss of the batch and
    the metrics of the towers are reported under their own keys.  Missing: the auxiliary losses of
    the towers in the objective, see [C44_refuted]. *)
Theorem C44_total_partial : forall {I T} (fi : I -> res ((nat -> nat -> R) * metrics_t)) (ft : T -> res ((nat -> nat -> R) * metrics_t)) D N s b x y zi mi zt mt,
  1 <= N ->
  fi x = Ok (zi, mi) -> ft y = Ok (zt, mt) ->
  let main := mean (map (fun m => sum_to N (fun n => pair_loss (logits_of D s b (unit_rows D zi) (unit_rows D zt)) m n)) (seq 0 N)) in
  exists m, contrastive_objective fi ft D N N s b x y = Ok (Some main, m) /\
    dget m k_main = Some (Leaf (Some main)) /\ dget m k_total = Some (Leaf (Some main)) /\
    dget m k_img = Some (tree_mean (Node mi)) /\ dget m k_txt = Some (tree_mean (Node mt)).
Proof. exact (@contrastive_ok). Qed.
Print Assumptions C44_total_partial.

(** C44 does not hold: the towers report auxiliary losses and the objective does not include them. *)
Theorem C44_refuted : exists (fi ft : unit -> res ((nat -> nat -> R) * metrics_t)) D N s b zi mi zt mt ai at_ main total m,
  1 <= N /\ fi tt = Ok (zi, mi) /\ ft tt = Ok (zt, mt) /\
  dget mi k_aux = Some (Leaf (Scalar (Some ai))) /\ dget mt k_aux = Some (Leaf (Scalar (Some at_))) /\
  contrastive_objective fi ft D N N s b tt tt = Ok (Some total, m) /\
  dget m k_main = Some (Leaf (Some main)) /\ total <> (main + ai + at_)%R.
Proof. exact contrastive_refuted. Qed.
Print Assumptions C44_refuted.

(** C54: the loss of image m is the sum over all texts of the logistic loss, with the text of the same
    index as only positive. *)
Theorem C54_loss : forall N logits,
  sigmoid_loss N N logits = Ok (map Some (map (fun m => sum_to N (fun n => pair_loss logits m n)) (seq 0 N))).
Proof. exact sigmoid_ok. Qed.
Print Assumptions C54_loss.
Example C54_loss_example : sigmoid_loss 1 1 (fun _ _ => 0%R) = Ok [Some (ln 2)].
Proof. rewrite C54_loss. cbv [sum_to seq map fold_right pair_loss Nat.eqb]. rewrite Ropp_0, exp_0, Rplus_0_r. reflexivity. Qed.

(** C54: batches with different numbers of images and texts are an error. *)
Theorem C54_error : forall M N logits,
  M <> N -> sigmoid_loss M N logits = Raise ValueError.
Proof. exact sigmoid_err. Qed.
Print Assumptions C54_error.

(** C54: every pair has a positive loss. *)
Theorem C54_positive : forall logits m n,
  (0 < pair_loss logits m n)%R.
Proof. exact pair_loss_pos. Qed.
Print Assumptions C54_positive.

(** C54: reordering the batch (images and texts together) reorders the losses. *)
Theorem C54_order : forall N logits p,
  Permutation (map p (seq 0 N)) (seq 0 N) -> forall m, m < N ->
  sum_to N (fun n => pair_loss (fun a b => logits (p a) (p b)) m n) = sum_to N (fun n => pair_loss logits (p m) n).
Proof. exact sigmoid_perm. Qed.
Print Assumptions C54_order.
Example C54_order_example : Permutation (map (fun i => 1 - i) (seq 0 2)) (seq 0 2).
Proof. simpl. apply perm_swap. Qed.

(** C54: exchanging the roles of images and texts does not change the total. *)
Theorem C54_symmetric : forall N logits,
  sum_to N (fun m => sum_to N (fun n => pair_loss (fun a b => logits b a) m n)) = sum_to N (fun m => sum_to N (fun n => pair_loss logits m n)).
Proof. exact sigmoid_transpose. Qed.
Print Assumptions C54_symmetric.

(** C54: the logits are the scaled cosine similarities (with the norms increased by 1e-8) plus the
    bias, hence within exp(s) of the bias whatever the embeddings. *)
Theorem C54_logits : forall {I T} (fi : I -> res ((nat -> nat -> R) * metrics_t)) (ft : T -> res ((nat -> nat -> R) * metrics_t)) D s b x y zi mi zt mt,
  fi x = Ok (zi, mi) -> ft y = Ok (zt, mt) ->
  exists logits metrics, two_tower I T fi ft D s b (Some x) (Some y) = Ok (logits, metrics) /\
    (forall m n, (Rabs (logits m n - match b with Some b => b | None => 0 end) <= exp s)%R) /\
    dget metrics k_img = Some (Node mi) /\ dget metrics k_txt = Some (Node mt) /\ dget metrics k_scale = Some (Leaf (Scalar (Some (exp s)))) /\
    forall m n (dot := sum_to D (fun d => zi m d * zt n d)%R) (norm := fun z : nat -> R => sqrt (sum_to D (fun d => z d * z d)%R)),
      logits m n = (exp s * (dot / ((norm (zi m) + eps8) * (norm (zt n) + eps8))) + match b with Some b => b | None => 0 end)%R.
Proof. exact (@two_tower_logits). Qed.
Print Assumptions C54_logits.
Example C54_logits_example : exists logits m,
  two_tower nat nat (fun x => Ok (fun _ _ => 0%R, [])) (fun x => Ok (fun _ _ => 1%R, [])) 3 0 (Some 5%R) (Some 0) (Some 0) = Ok (logits, m) /\ logits 1 2 = 5%R.
Proof.
  destruct (C54_logits (fun x : nat => Ok (fun _ _ => 0%R, [])) (fun x : nat => Ok (fun _ _ => 1%R, [])) 3 0%R (Some 5%R) 0 0 _ _ _ _ eq_refl eq_refl) as (l & m & E & _ & _ & _ & _ & L).
  exists l, m. split; auto. rewrite L. cbv [sum_to seq map fold_right]. rewrite !Rmult_0_l, !Rplus_0_l. unfold Rdiv. rewrite Rmult_0_l, Rmult_0_r. lra.
Qed.

(** C54: a tower alone gives its normalised embeddings; no input at all is an error. *)
Theorem C54_towers : forall {I T} (fi : I -> res ((nat -> nat -> R) * metrics_t)) (ft : T -> res ((nat -> nat -> R) * metrics_t)) D s b,
  two_tower I T fi ft D s b None None = Raise ValueError /\
  (forall x z m, fi x = Ok (z, m) -> exists u, two_tower I T fi ft D s b (Some x) None = Ok (u, [(k_img, Node m)]) /\
     forall i d, (u i d = z i d / (sqrt (sum_to D (fun k => z i k * z i k)) + eps8))%R) /\
  (forall y z m, ft y = Ok (z, m) -> exists u, two_tower I T fi ft D s b None (Some y) = Ok (u, [(k_txt, Node m)]) /\
     forall i d, (u i d = z i d / (sqrt (sum_to D (fun k => z i k * z i k)) + eps8))%R).
Proof. exact (@two_tower_alone). Qed.
Print Assumptions C54_towers.

