(** C89: derivatives of Soft MoE layers. *)
From Coq Require Import List Arith ZArith Bool Reals QArith Lia Lra.
From Verif Require Import Prim MoeModel SoftModel SoftSpec GrdModel GrdSpec SdrModel SdrSpec SdrProofs SdrProofs2.
Import ListNotations.
Local Open Scope nat_scope.

(** C89: the outputs are differentiable everywhere, along every path of the inputs, the parameters
    and the experts, and jax computes the derivative; no condition on ties, sizes or zeros. *)
Theorem C89_derivative :
  forall G M D N ns cf det std normal t0 (mu : R -> nat -> nat -> nat -> nat -> R) mud (scale : R -> R) scaled (inputs : R -> nat -> nat -> nat -> R) inputsd f fd s,
  1 <= N -> soft_num_slots M N ns cf = Ok s ->
  (forall P d n p, follows t0 (fun t => mu t P d n p) (mud P d n p)) -> follows t0 scale scaled ->
  (forall g m d, follows t0 (fun t => inputs t g m d) (inputsd g m d)) ->
  (forall e, jvp_of t0 (fun t => f t e) (fd e)) ->
  exists P disp dispd,
    (forall t, soft_router G M D N ns cf det std normal (mu t) (scale t) (inputs t) = Ok (P, disp t)) /\
    soft_router_d G M D N ns cf det std normal mud scaled inputsd = Ok (P, dispd) /\
    forall g m, g < G -> m < M ->
      follows_vec t0 (fun t => soft_layer G M N P (disp t) (f t) (inputs t) g m) (soft_layer_d G M N P dispd fd (fun g m => item_of (inputsd g m)) g m).
Proof. exact soft_derivative. Qed.
Print Assumptions C89_derivative.

(** The tangents of the logits are bounded by those of the inputs and parameters, also at zero. *)
Theorem C89_logits : forall G M D N P inputs mu scale g m n p,
  (Rabs (snd (soft_logits_d G M D N P inputs mu scale g m n p)) <=
   Rabs (snd scale) + 1000 * Rabs (fst scale) * (norm2 D (fun d => snd (inputs g m d)) + norm2 D (fun d => snd (mu d n p))))%R.
Proof. exact logits_tangent_bound. Qed.
Print Assumptions C89_logits.
Example C89_zero_item : normalize_d 1 (fun _ => (0%R, 1%R)) 0 = (0%R, 1000%R).
Proof. exact zero_item. Qed.

(** And those of the weights: relative to the weight, at most twice the bound of the logits. *)
Theorem C89_weights : forall G M D N P det std normal inputs mu scale B g m n p,
  m < M -> n < N -> p < P ->
  (forall m n p, m < M -> n < N -> p < P -> (Rabs (snd scale) + 1000 * Rabs (fst scale) * (norm2 D (fun d => snd (inputs g m d)) + norm2 D (fun d => snd (mu d n p))) <= B)%R) ->
  let l := add_noise_d det std normal (soft_logits_d G M D N P inputs mu scale) in
  (Rabs (snd (soft_dispatch_d M l g m n p)) <= 2 * B * fst (soft_dispatch_d M l g m n p))%R /\
  (Rabs (snd (soft_combine_d N P l g m n p)) <= 2 * B * fst (soft_combine_d N P l g m n p))%R.
Proof. exact weights_move. Qed.
Print Assumptions C89_weights.

(** A layer of two experts, x and x + t, three equal items 1 + t and equal parameters: ties
    everywhere. *)
Example C89_case : exists P disp dispd,
  (forall t, soft_router 1 3 1 2 (Some 1%Z) None true 0 (fun _ _ _ _ => 0%R) (fun _ _ _ _ => 1%R) 1%R (fun _ _ _ => (1 + t)%R) = Ok (P, disp t)) /\
  soft_router_d 1 3 1 2 (Some 1%Z) None true 0 (fun _ _ _ _ => 0%R) (fun _ _ _ _ => (1%R, 0%R)) (1%R, 0%R) (fun _ _ _ => (1%R, 1%R)) = Ok (P, dispd) /\
  follows_vec 0%R (fun t => soft_layer 1 3 2 P (disp t) (fun e x d => (x d + INR e * t)%R) (fun _ _ _ => (1 + t)%R) 0 2)
    (soft_layer_d 1 3 2 P dispd (fun e x => (fst x, fun d => (snd x d + INR e)%R)) (fun _ _ => item_of (fun _ => (1%R, 1%R))) 0 2).
Proof.
  assert (I : follows 0 (fun t => (1 + t)%R) (1%R, 1%R)).
  { split; [cbn; lra|]. cbn [fst snd]. pose proof (derivable_pt_lim_plus (fun _ => 1%R) (fun t => t) 0%R _ _ (derivable_pt_lim_const 1 0) (derivable_pt_lim_id 0)) as Q.
    rewrite Rplus_0_l in Q. exact Q. }
  destruct (C89_derivative 1 3 1 2 (Some 1%Z) None true 0 (fun _ _ _ _ => 0%R) 0%R (fun _ _ _ _ _ => 1%R) (fun _ _ _ _ => (1%R, 0%R)) (fun _ => 1%R) (1%R, 0%R)
    (fun t _ _ _ => (1 + t)%R) (fun _ _ _ => (1%R, 1%R)) (fun t e x d => (x d + INR e * t)%R) (fun e x => (fst x, fun d => (snd x d + INR e)%R)) 1%Z)
    as (P & disp & dispd & A & B & C); auto.
  - intros. exact (follows_const 0 1%R).
  - exact (follows_const 0 1%R).
  - intros e x v H d. destruct (H d) as [E Dv]. split; [cbn [fst]; rewrite E; ring|]. cbn [snd].
    pose proof (derivable_pt_lim_plus (fun t => x t d) (fun t => INR e * t)%R 0%R _ _ Dv (derivable_pt_lim_scal (fun t => t) (INR e) 0 _ (derivable_pt_lim_id 0))) as Q.
    rewrite Rmult_1_r in Q. exact Q.
  - exists P, disp, dispd. split; [exact A|]. split; [exact B|]. apply (C 0 2); auto.
Qed.
