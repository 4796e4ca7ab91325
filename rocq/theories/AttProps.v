(** C41 and C42: adversarial attacks and their statistics; C51: routing changes.  Nothing but the
    theorems. *)
From Coq Require Import List Arith Reals Lra Lia Permutation.
From Verif Require Import Py EvalModel EvalSpec AttModel AttSpec AttProofs.
Import ListNotations.
Local Open Scope nat_scope.

(** ** C41 *)
(** Every pixel of the attacked images that is finite is within max_epsilon of the pixel at the
    same place of the given images, whatever the gradients. *)
Theorem C41_epsilon {label rng} grads split eps n images (labels : list label) (rngs : option rng) images' rngs' :
  stateless_attack_pgd label rng grads split eps n images labels rngs = Ok (images', rngs') -> Forall2 (Forall2 (within eps)) images images'.
Proof. exact (pgd_within label rng grads split eps n images labels rngs images' rngs'). Qed.
Print Assumptions C41_epsilon.
(** The bound is reached. *)
Example C41_epsilon_ex : stateless_attack_pgd unit unit (fun _ xs _ => Ok (map (map (fun _ => PInf)) xs)) (fun r n => repeat r n) 1 2 [[Some 0; Some 3]]%R [tt] (Some tt) =
  Ok ([[Some 1; Some 4]], Some tt)%R.
Proof. cbn. repeat f_equal; lra. Qed.

(** They are all finite if no gradient is NaN (and the given images are finite). *)
Theorem C41_finite {label rng} grads split eps n images (labels : list label) (rngs : option rng) images' rngs' :
  (forall l xs k g, grads l xs k = Ok g -> Forall (Forall (fun d => d <> GNaN)) g) -> Forall (Forall finite) images ->
  stateless_attack_pgd label rng grads split eps n images labels rngs = Ok (images', rngs') -> Forall (Forall finite) images'.
Proof. exact (pgd_finite label rng grads split eps n images labels rngs images' rngs'). Qed.
Print Assumptions C41_finite.

(** The keys returned were not given to the model during the attack: the result is the same for
    two models that agree on the other keys. *)
Theorem C41_fresh_keys {label rng} g1 g2 split eps n images (labels : list label) (r : rng) :
  (forall l x k, In k (firstn n (split r (n + 1))) -> g1 l x (Some k) = g2 l x (Some k)) ->
  stateless_attack_pgd label rng g1 split eps n images labels (Some r) = stateless_attack_pgd label rng g2 split eps n images labels (Some r) /\
  forall images' r', length (split r (n + 1)) = n + 1 -> stateless_attack_pgd label rng g1 split eps n images labels (Some r) = Ok (images', r') -> r' = nth_error (split r (n + 1)) n.
Proof. intros H. exact (conj (pgd_keys g1 g2 split eps n images labels r H) (fun x' r' => pgd_last g1 split eps n images labels r x' r')). Qed.
Print Assumptions C41_fresh_keys.

(** No updates are an error. *)
Theorem C41_no_updates {label rng} grads split eps images (labels : list label) (rngs : option rng) :
  stateless_attack_pgd label rng grads split eps 0 images labels rngs = Raise ZeroDivisionError.
Proof. exact eq_refl. Qed.
Print Assumptions C41_no_updates.

(** ** C42 *)
(** For every way to make batches, with fake images anywhere, the statistics are those of the
    real images, when the attack and the model treat each image by itself. *)
Theorem C42_stats {X Y rngs_t} attack_fn compute_fn keys (atk : X -> Y -> X) (inf : X -> Y -> info) tokens experts (r : rngs_t) bs :
  each_alone attack_fn compute_fn keys atk inf -> (forall x y, same_shape keys (i_cw (inf x y)) tokens experts) -> Forall well_marked bs ->
  let before e := inf (m_x e) (m_y e) in
  let after e := inf (atk (m_x e) (m_y e)) (m_y e) in
  let es := reals bs in
  exists r', run_pgd_attack X Y rngs_t attack_fn compute_fn (create rngs_t keys r) (map att_batch bs) = Ok (AttackState rngs_t
    (length es)
    (length (filter (fun e => negb (i_pred (after e) =? i_pred (before e))) es))
    (Some (total (map (fun e => i_correct (before e)) es)), Some (total (map (fun e => i_correct (after e)) es)))
    (Some (total (map (fun e => i_loss (before e)) es)), Some (total (map (fun e => i_loss (after e)) es)))
    (map (fun k => (k, Some (total (map (fun e => mean_iou (experts k) (i_cw (before e) k) (i_cw (after e) k)) es)))) keys)
    r').
Proof. intros A S W. exact (attack_run X Y rngs_t attack_fn compute_fn keys atk inf tokens experts A S bs [] r W). Qed.
Print Assumptions C42_stats.

(** So two ways to make batches of the same real images, in any order and with any fake images,
    give the same statistics. *)
Theorem C42_batching {X Y rngs_t} attack_fn compute_fn keys (atk : X -> Y -> X) (inf : X -> Y -> info) tokens experts (r : rngs_t) bs bs' :
  each_alone attack_fn compute_fn keys atk inf -> (forall x y, same_shape keys (i_cw (inf x y)) tokens experts) -> Forall well_marked bs -> Forall well_marked bs' ->
  Permutation (reals bs) (reals bs') ->
  exists s s', run_pgd_attack X Y rngs_t attack_fn compute_fn (create rngs_t keys r) (map att_batch bs) = Ok s /\
    run_pgd_attack X Y rngs_t attack_fn compute_fn (create rngs_t keys r) (map att_batch bs') = Ok s' /\
    num_images _ s = num_images _ s' /\ num_changes _ s = num_changes _ s' /\ num_correct _ s = num_correct _ s' /\ sum_loss _ s = sum_loss _ s' /\
    sum_iou_experts _ s = sum_iou_experts _ s'.
Proof. exact (attack_batching X Y rngs_t attack_fn compute_fn keys atk inf tokens experts r bs bs'). Qed.
Print Assumptions C42_batching.

(** The attack of C41 treats each image by itself if the gradient does. *)
Theorem C42_pgd_alone {label rng} grads split (grad : label -> image -> list gval) eps n es (rngs : option rng) :
  (forall y x, length (grad y x) = length x) ->
  (forall es r, grads (map snd es) (map fst es) r = Ok (map (fun e => grad (snd e) (fst e)) es)) ->
  (forall r k, length (split r k) = k) -> n <> 0 ->
  exists r', stateless_attack_pgd label rng grads split eps n (map fst es) (map snd es) rngs =
    Ok (map (fun e => attack_one grad (eps / INR n) (snd e) n (fst e)) es, r').
Proof. exact (pgd_alone label rng grads split grad eps n es rngs). Qed.
Print Assumptions C42_pgd_alone.

(** An attack and a model for which the conditions hold *)
Example C42_stats_ex :
  let attack_fn (xs ys : list nat) (r : unit) := Ok (map S xs, r) in
  let inf (x y : nat) := Info (INR x) x (INR y) (fun _ => [[INR x; 1%R]]) in
  let compute_fn (xs ys : list nat) (r : unit) := Ok (Outputs (map (fun e => Some (INR (fst e))) (combine xs ys)) (map fst (combine xs ys))
     (map (fun e => Some (INR (snd e))) (combine xs ys)) [(7, map (fun e => [[INR (fst e); 1%R]]) (combine xs ys))]) in
  each_alone attack_fn compute_fn [7] (fun x _ => S x) inf /\
  (forall x y, same_shape [7] (i_cw (inf x y)) (fun _ => 1) (fun _ => 2)) /\
  Forall well_marked [(true, [Img 3 4 true; Img 0 0 false]); (false, [Img 5 6 true])].
Proof.
  cbv zeta. assert (C : forall es : list (nat * nat), combine (map fst es) (map snd es) = es) by (induction es as [|[a b] es IH]; simpl; congruence).
  split; [split|split].
  - intros es r. exists r. rewrite map_map. auto.
  - intros es r. rewrite C. reflexivity.
  - intros x y k _. simpl. repeat split; auto.
  - constructor; [intros H; discriminate H|]. constructor; [intros _; repeat constructor|constructor].
Qed.

(** Without finite losses, the claim is false: a fake image with an infinite loss makes the sum
    of the losses NaN. *)
Theorem C42_infinite_fake_refuted :
  exists (compute_fn : list nat -> list unit -> unit -> res outputs) s1 s2,
    let run := run_pgd_attack nat unit unit (fun xs _ r => Ok (xs, r)) compute_fn (create unit [] tt) in
    run [([0], [tt], Some [true])] = Ok s1 /\ run [([0; 1], [tt; tt], Some [true; false])] = Ok s2 /\
    fst (sum_loss _ s1) <> None /\ fst (sum_loss _ s2) = None.
Proof.
  exists (fun xs _ _ => Ok (Outputs (map (fun x => match x with O => Some 0%R | _ => None end) xs) xs (map (fun _ => Some 0%R) xs) [])).
  eexists. eexists. cbv zeta. split; [reflexivity|]. split; [reflexivity|]. split; [simpl; discriminate|reflexivity].
Qed.
Print Assumptions C42_infinite_fake_refuted.

(** ** C51 *)
(** The sum of the intersections over unions of a batch is between zero and the number of images,
    so the routing changes that are reported are between 0 and 1. *)
Theorem C51_bounds n t (a b : list (list (list R))) : 0 < t -> length a = length b ->
  Forall (fun x => length x = t /\ Forall (fun r => length r = n) x) a -> Forall (fun x => length x = t /\ Forall (fun r => length r = n) x) b ->
  exists v, sum_intersection_over_union a b = Ok (Some v) /\ (0 <= v <= INR (length a))%R.
Proof. exact (iou_bounds n t a b). Qed.
Print Assumptions C51_bounds.

(** An attack that changes no weight gives the number of images (no routing changes) if every
    token has at least one expert. *)
Theorem C51_no_changes_partial n t (a : list (list (list R))) : 0 < t -> Forall (fun x => length x = t /\ Forall (fun r => length r = n) x) a ->
  Forall (Forall (fun row => exists w, In w row /\ (0 < w)%R)) a -> sum_intersection_over_union a a = Ok (Some (INR (length a))).
Proof. exact (iou_same n t a). Qed.
Print Assumptions C51_no_changes_partial.
Example C51_no_changes_ex : sum_intersection_over_union [[[0; 1]]; [[1; 1]]]%R [[[0; 1]]; [[1; 1]]]%R = Ok (Some (INR 2)).
Proof. apply (C51_no_changes_partial 2 1 [[[0; 1]]; [[1; 1]]]%R); [auto|repeat constructor|]. repeat constructor; exists 1%R; simpl; split; try lra; auto. Qed.

(** Without this condition the claim is false: for tokens that no expert takes, before and after
    the attack, the intersection over union is zero, and the routing counts as changed. *)
Theorem C51_no_changes_refuted : exists a : list (list (list R)), length a = 1 /\ sum_intersection_over_union a a = Ok (Some 0%R).
Proof.
  exists [[[0%R; 0%R]]]. split; [reflexivity|]. cbn. unfold positive. destruct (Rlt_dec 0 0) as [H|_]; [lra|]. 
  match goal with |- context[Rlt_dec 0 ?u] => destruct (Rlt_dec 0 u) as [H|_] end; [exfalso; lra|]. cbn. 
  destruct (Req_EM_T 1 0) as [H|_]; [lra|]. do 2 f_equal. lra.
Qed.
Print Assumptions C51_no_changes_refuted.
