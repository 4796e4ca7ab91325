(** C87: derivatives of sparse MoE layers.  C88: derivatives of the losses of the router. *)
From Coq Require Import List Arith ZArith Bool Reals Lia Lra.
From Verif Require Import Prim MoeModel MoeSpec SoftModel SoftSpec EvalModel AuxModel AuxSpec ElmModel GrdModel GrdSpec GrdProofs GrdProofs2 GrdProofs3 GrdProofs4 GrdProofs5.
Import ListNotations.
Local Open Scope nat_scope.

(** C87: what jax computes for a layer, whatever the gates, ties included: the same choices as for
    the values alone, and the product rule for the choices with room; both dispatchers agree. *)
Theorem C87_layer :
  forall G Sz E K C bp (gates : nat -> nat -> nat -> R * R) f F data,
  1 <= Sz -> 1 <= K -> K <= E -> (forall e buf j, F e buf j = f e (buf j)) ->
  exists o o', einsum_layer (A := Dalg) G Sz E K C bp gates F data = Some o /\ indices_layer (A := Dalg) G Sz E K C bp gates F data = Some o' /\
    forall ch, (forall g s, s < Sz -> best_choices (A := Ralg) E K (fun e => fst (gates g s e)) (ch g s)) ->
    forall g s d, g < G -> s < Sz ->
      (fst (o g s) d = kept_sum bp Sz E K C (fun s e => fst (gates g s e)) (ch g) s (fun e => fst (gates g s e) * fst (f e (data g s)) d)%R /\
       snd (o g s) d = kept_sum bp Sz E K C (fun s e => fst (gates g s e)) (ch g) s
         (fun e => snd (gates g s e) * fst (f e (data g s)) d + fst (gates g s e) * snd (f e (data g s)) d)%R) /\
      fst (o' g s) d = fst (o g s) d /\ snd (o' g s) d = snd (o g s) d.
Proof. exact jvp_layer. Qed.
Print Assumptions C87_layer.

Theorem C87_items :
  forall G Sz E C (gates : nat -> nat -> nat -> R * R) f F data,
  1 <= E -> C <= Sz -> (forall e buf j, F e buf j = f e (buf j)) ->
  exists o, items_layer (A := Dalg) G Sz E C gates F data = Some o /\
    forall ch, (forall g e, e < E -> best_choices (A := Ralg) Sz C (fun s => fst (gates g s e)) (ch g e)) ->
    forall g s d, g < G -> s < Sz ->
      fst (o g s) d = picked_sum E C (ch g) s (fun e => fst (gates g s e) * fst (f e (data g s)) d)%R /\
      snd (o g s) d = picked_sum E C (ch g) s (fun e => snd (gates g s e) * fst (f e (data g s)) d + fst (gates g s e) * snd (f e (data g s)) d)%R.
Proof. exact jvp_items. Qed.
Print Assumptions C87_items.

(** Gates and experts that do not process an item have no influence on its tangent. *)
Theorem C87_blocked :
  forall G Sz E K C bp (gates gates' : nat -> nat -> nat -> R * R) f f' F F' data ch g s d,
  1 <= Sz -> 1 <= K -> K <= E -> (forall e buf j, F e buf j = f e (buf j)) -> (forall e buf j, F' e buf j = f' e (buf j)) ->
  (forall g s, s < Sz -> best_choices (A := Ralg) E K (fun e => fst (gates g s e)) (ch g s)) ->
  g < G -> s < Sz ->
  (forall g s e, fst (gates' g s e) = fst (gates g s e)) ->
  (forall e, kept bp Sz E K C (fun s e => fst (gates g s e)) (ch g) s e -> snd (gates' g s e) = snd (gates g s e) /\ f' e (data g s) = f e (data g s)) ->
  exists o o', einsum_layer (A := Dalg) G Sz E K C bp gates F data = Some o /\ einsum_layer (A := Dalg) G Sz E K C bp gates' F' data = Some o' /\
    fst (o' g s) d = fst (o g s) d /\ snd (o' g s) d = snd (o g s) d.
Proof. exact jvp_blocked. Qed.
Print Assumptions C87_blocked.

(** Without ties this is the derivative of the layer along every path of gates, experts and items. *)
Theorem C87_derivative :
  forall G Sz E K C bp t0 (gates : R -> nat -> nat -> nat -> R) (gates' : nat -> nat -> nat -> R)
    (f : R -> nat -> (nat -> R) -> nat -> R) (F : R -> nat -> (nat -> nat -> R) -> nat -> nat -> R) (data : R -> nat -> nat -> nat -> R)
    (fd : nat -> vec Dalg -> vec Dalg) (Fd : nat -> (nat -> vec Dalg) -> nat -> vec Dalg) (dd : nat -> nat -> vec Dalg),
  (forall t e buf j, F t e buf j = f t e (buf j)) -> (forall e buf j, Fd e buf j = fd e (buf j)) ->
  (forall g s e, derivable_pt_lim (fun t => gates t g s e) t0 (gates' g s e)) ->
  (forall g s e d, g < G -> s < Sz -> e < E -> moves (fun t => f t e (data t g s) d) t0 (fst (fd e (dd g s)) d) (snd (fd e (dd g s)) d)) ->
  1 <= Sz -> 1 <= K -> K <= E ->
  (forall g s, g < G -> s < Sz -> no_ties E (gates t0 g s)) ->
  (bp = true -> forall g, g < G -> no_ties Sz (fun s => largest E (gates t0 g s))) ->
  exists o oi, (forall t, einsum_layer (A := Ralg) G Sz E K C bp (gates t) (F t) (data t) = Some (o t)) /\
    (forall t, indices_layer (A := Ralg) G Sz E K C bp (gates t) (F t) (data t) = Some (oi t)) /\
    exists od odi, einsum_layer (A := Dalg) G Sz E K C bp (fun g s e => (gates t0 g s e, gates' g s e)) Fd dd = Some od /\
      indices_layer (A := Dalg) G Sz E K C bp (fun g s e => (gates t0 g s e, gates' g s e)) Fd dd = Some odi /\
    forall g s d, g < G -> s < Sz ->
      moves (fun t => o t g s d) t0 (fst (od g s) d) (snd (od g s) d) /\ moves (fun t => oi t g s d) t0 (fst (odi g s) d) (snd (odi g s) d).
Proof. exact experts_true. Qed.
Print Assumptions C87_derivative.
(** A layer with two experts, x*x and x*x + 1, gates 2 + t and t, and the item 3 + t: the output is
    (2 + t) (3 + t)^2 near t = 0, with derivative 9 + 2 * 6. *)
Example C87_example : exists o, (forall t, einsum_layer (A := Ralg) 1 1 2 1 1 true (ex_g t) (fun e buf j => ex_f e (buf j)) (fun _ _ _ => (3 + t)%R) = Some (o t)) /\
  derivable_pt_lim (fun t => o t 0 0 0) 0%R 21%R.
Proof. exact ex_layer. Qed.

Theorem C87_items_derivative :
  forall G Sz E C t0 (gates : R -> nat -> nat -> nat -> R) (gates' : nat -> nat -> nat -> R)
    (f : R -> nat -> (nat -> R) -> nat -> R) (F : R -> nat -> (nat -> nat -> R) -> nat -> nat -> R) (data : R -> nat -> nat -> nat -> R)
    (fd : nat -> vec Dalg -> vec Dalg) (Fd : nat -> (nat -> vec Dalg) -> nat -> vec Dalg) (dd : nat -> nat -> vec Dalg),
  (forall t e buf j, F t e buf j = f t e (buf j)) -> (forall e buf j, Fd e buf j = fd e (buf j)) ->
  (forall g s e, derivable_pt_lim (fun t => gates t g s e) t0 (gates' g s e)) ->
  (forall g s e d, g < G -> s < Sz -> e < E -> moves (fun t => f t e (data t g s) d) t0 (fst (fd e (dd g s)) d) (snd (fd e (dd g s)) d)) ->
  1 <= E -> C <= Sz ->
  (forall g e, g < G -> e < E -> no_ties Sz (fun s => gates t0 g s e)) ->
  exists o, (forall t, items_layer (A := Ralg) G Sz E C (gates t) (F t) (data t) = Some (o t)) /\
    exists od, items_layer (A := Dalg) G Sz E C (fun g s e => (gates t0 g s e, gates' g s e)) Fd dd = Some od /\
    forall g s d, g < G -> s < Sz -> moves (fun t => o t g s d) t0 (fst (od g s) d) (snd (od g s) d).
Proof. exact items_true. Qed.
Print Assumptions C87_items_derivative.

(** At ties the layer need not even be continuous, and jax returns a tangent all the same. *)
Theorem C87_ties_refuted : exists (gates : R -> nat -> nat -> nat -> R) gates' f (fd : nat -> vec Dalg -> vec Dalg),
  (forall g s e, derivable_pt_lim (fun t => gates t g s e) 0 (gates' g s e)) /\
  (forall e x d, fst (fd e x) d = f e (fst x) d /\ snd (fd e x) d = 0%R /\ forall y, f e y d = f e (fst x) d) /\
  exists o, (forall t, einsum_layer (A := Ralg) 1 1 2 1 1 false (gates t) (fun e buf j => f e (buf j)) (fun _ _ _ => 0%R) = Some (o t)) /\
  (exists od, einsum_layer (A := Dalg) 1 1 2 1 1 false (fun g s e => (gates 0%R g s e, gates' g s e)) (fun e buf j => fd e (buf j)) (fun _ _ => (fun _ => 0%R, fun _ => 0%R)) = Some od) /\
  forall l, ~ derivable_pt_lim (fun t => o t 0 0 0) 0 l.
Proof. exact ties_bad. Qed.
Print Assumptions C87_ties_refuted.

(** The gates as functions of the logits; the logits of all experts matter, chosen or not. *)
Theorem C87_softmax :
  forall E (l : R -> nat -> R) l' t0 e, 1 <= E -> e < E -> (forall i, i < E -> derivable_pt_lim (fun t => l t i) t0 (l' i)) ->
  moves (fun t => softmax E (l t) e) t0 (fst (softmax_jvp E (fun i => (l t0 i, l' i)) e)) (snd (softmax_jvp E (fun i => (l t0 i, l' i)) e)).
Proof. exact softmax_true. Qed.
Print Assumptions C87_softmax.
Example C87_softmax_example : snd (softmax_jvp 2 (fun i => (0%R, if i =? 1 then 1%R else 0%R)) 0) = (- (1 / 4))%R.
Proof. unfold softmax_jvp. cbn [fst snd Nat.eqb sumf]. unfold softmax. cbn [sumf]. rewrite exp_0. field. Qed.

(** C88 *)
Theorem C88_gshard :
  forall Sz E (gates : R -> nat -> nat -> R) gates' t0, 1 <= Sz -> 1 <= E ->
  (forall s e, s < Sz -> e < E -> derivable_pt_lim (fun t => gates t s e) t0 (gates' s e)) ->
  exists loss, (forall t, gshard_auxiliary_loss Sz E (gates t) = Some (loss t)) /\
    ((forall s, s < Sz -> single_largest E (gates t0 s)) ->
      derivable_pt_lim loss t0 (sum2 Sz E (fun s e => gshard_grad Sz E (gates t0) 1 s e * gates' s e)%R)).
Proof. exact gshard_true. Qed.
Print Assumptions C88_gshard.
Example C88_gshard_example : single_largest 2 (fun e => if e =? 0 then (2 / 3)%R else (1 / 3)%R).
Proof. exists 0. split; [lia|]. intros i Hi N. replace i with 1 by lia. cbn [Nat.eqb]. lra. Qed.

Theorem C88_importance_partial :
  forall Sz E (gates : R -> nat -> nat -> R) gates' t0, 1 <= Sz -> 1 <= E -> (forall t s e, s < Sz -> e < E -> (0 < gates t s e)%R) ->
  (forall s e, s < Sz -> e < E -> derivable_pt_lim (fun t => gates t s e) t0 (gates' s e)) ->
  exists loss, (forall t, importance_auxiliary_loss Sz E (gates t) = Some (loss t)) /\
    (varied E (fun e => sum_to Sz (fun s => gates t0 s e)) -> exists grad,
       (forall ct s e, s < Sz -> e < E -> importance_grad Sz E (gates t0) (Fin ct) s e = Fin (ct * grad s e)) /\
       derivable_pt_lim loss t0 (sum2 Sz E (fun s e => grad s e * gates' s e)%R)) /\
    (~ varied E (fun e => sum_to Sz (fun s => gates t0 s e)) ->
       (forall ct s e, s < Sz -> e < E -> importance_grad Sz E (gates t0) (Fin ct) s e = NaN) /\ derivable_pt_lim loss t0 0%R).
Proof. exact importance_true. Qed.
Print Assumptions C88_importance_partial.
Example C88_importance_example : varied 2 (fun e => sum_to 1 (fun s => if e =? 0 then (2 / 3)%R else (1 / 3)%R)).
Proof. exists 0, 1. split; [lia|]. split; [lia|]. unfold sum_to. cbn. lra. Qed.

Theorem C88_load_partial :
  forall cdf pdf Sz E K sd t0 (l n : R -> nat -> nat -> R) l' n' thr, (forall z, (cdf z < 1)%R) -> (forall z, derivable_pt_lim cdf z (pdf z)) ->
  1 <= Sz -> 1 <= K -> K <= E -> (0 < sd)%R ->
  (forall s e, s < Sz -> e < E -> derivable_pt_lim (fun t => l t s e) t0 (l' s e)) ->
  (forall s e, s < Sz -> e < E -> derivable_pt_lim (fun t => n t s e) t0 (n' s e)) ->
  (forall s, s < Sz -> no_ties E (n t0 s)) ->
  (forall s, s < Sz -> kth_largest E K (n t0 s) (thr s)) ->
  exists loss, (forall t, load_auxiliary_loss cdf Sz E K sd (l t) (n t) = Some (loss t)) /\
  (varied E (chance cdf Sz sd thr (l t0)) -> exists gl gn,
     (forall ct s e, s < Sz -> e < E -> load_grad_logits cdf pdf Sz E K sd (l t0) (n t0) (Fin ct) s e = Fin (ct * gl s e) /\
        load_grad_noisy cdf pdf Sz E K sd (l t0) (n t0) (Fin ct) s e = Fin (ct * gn s e)) /\
     derivable_pt_lim loss t0 (sum2 Sz E (fun s e => gl s e * l' s e + gn s e * n' s e)%R)) /\
  (~ varied E (chance cdf Sz sd thr (l t0)) ->
     (forall ct s e, s < Sz -> e < E -> load_grad_logits cdf pdf Sz E K sd (l t0) (n t0) (Fin ct) s e = NaN /\
        load_grad_noisy cdf pdf Sz E K sd (l t0) (n t0) (Fin ct) s e = NaN) /\ derivable_pt_lim loss t0 0%R).
Proof. exact load_chance. Qed.
Print Assumptions C88_load_partial.
(** A distribution function with a derivative: any smooth one will do for the hypotheses. *)
Example C88_load_example : (forall z, (z / sqrt (1 + z * z) < 1)%R) /\ no_ties 2 (fun e => INR e) /\ kth_largest 2 1 (fun e => INR e) 1.
Proof.
  split; [|split].
  - intros z. assert (P : (0 < sqrt (1 + z * z))%R) by (apply sqrt_lt_R0; pose proof (Rle_0_sqr z) as Q; unfold Rsqr in Q; lra).
    apply (Rmult_lt_reg_r (sqrt (1 + z * z))); auto. unfold Rdiv. rewrite Rmult_assoc, Rinv_l, Rmult_1_r, Rmult_1_l by lra.
    destruct (Rlt_dec z 0); [lra|]. rewrite <- (sqrt_square z) at 1 by lra. apply sqrt_lt_1_alt. pose proof (Rle_0_sqr z) as Q. unfold Rsqr in Q. lra.
  - intros i j _ _ H. apply INR_eq. auto.
  - split; [exists 1; split; [lia|reflexivity]|]. unfold how_many. cbn [seq filter INR].
    destruct (Rle_dec 1 0); [lra|]. destruct (Rle_dec 1 1); [|lra]. destruct (Rlt_dec 1 0); [lra|]. destruct (Rlt_dec 1 1); [lra|]. cbn. lia.
Qed.

(** The sum of the losses: a loss whose weight is not positive contributes nothing, not even NaN. *)
Theorem C88_auxiliary_partial :
  forall Sz E wg wi gates s e, s < Sz -> e < E -> (forall s e, s < Sz -> e < E -> (0 < gates s e)%R) ->
  ((wi <= 0)%R -> auxiliary_grad Sz E wg wi gates s e = Fin (Rmax wg 0 * gshard_grad Sz E gates 1 s e)) /\
  ((0 < wi)%R -> varied E (fun e => sum_to Sz (fun s => gates s e)) -> exists gi, importance_grad Sz E gates (Fin 1) s e = Fin gi /\
     auxiliary_grad Sz E wg wi gates s e = Fin (Rmax wg 0 * gshard_grad Sz E gates 1 s e + wi * gi)) /\
  ((0 < wi)%R -> ~ varied E (fun e => sum_to Sz (fun s => gates s e)) -> auxiliary_grad Sz E wg wi gates s e = NaN).
Proof. exact auxiliary_ok. Qed.
Print Assumptions C88_auxiliary_partial.

(** With one expert every gradient of the auxiliary loss is NaN as soon as the importance loss has a
    weight, for every input: the gates are positive and add up to one per item, the loss is 0 on
    every path, and so is its derivative. *)
Theorem C88_single_expert :
  forall Sz wg wi (logits : nat -> nat -> R), 1 <= Sz -> (0 < wi)%R ->
  importance_auxiliary_loss Sz 1 (fun s => softmax 1 (logits s)) = Some 0%R /\
  forall s, s < Sz -> softmax 1 (logits s) 0 = 1%R /\ auxiliary_grad Sz 1 wg wi (fun s => softmax 1 (logits s)) s 0 = NaN.
Proof. exact single_nan. Qed.
Print Assumptions C88_single_expert.
(** The same for equal gates, for any number of experts *)
Theorem C88_balanced :
  forall Sz E wg wi, 1 <= Sz -> 1 <= E -> (0 < wi)%R -> forall s e, s < Sz -> e < E ->
  softmax E (fun _ => 0%R) e = (1 / INR E)%R /\ auxiliary_grad Sz E wg wi (fun s => softmax E (fun _ => 0%R)) s e = NaN.
Proof. exact balanced_nan. Qed.
Print Assumptions C88_balanced.
(** So a finite loss with a derivative does not always have a finite gradient. *)
Theorem C88_finite_refuted : exists Sz E wg wi (gates : nat -> nat -> R) s e, s < Sz /\ e < E /\ (0 < wi)%R /\
  (forall s, s < Sz -> (forall e, e < E -> (0 < gates s e)%R) /\ sum_to E (gates s) = 1%R) /\
  importance_auxiliary_loss Sz E gates = Some 0%R /\ auxiliary_grad Sz E wg wi gates s e = NaN.
Proof. exact finite_bad. Qed.
Print Assumptions C88_finite_refuted.
