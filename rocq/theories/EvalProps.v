(** C38: the metrics of an evaluation.  Nothing but the theorems. *)
From Coq Require Import List Arith Reals Lra Permutation.
From Verif Require Import Py EvalModel EvalSpec EvalProofs.
Import ListNotations.
Local Open Scope nat_scope.

(** The precision and the loss of each dataset are the means over its real examples of the
    value of the label at the predicted class and of the loss, for every way to make batches,
    when the examples are treated one by one and all have a finite loss (without any real
    example, both are NaN). *)
Theorem C38_means {X L rngs_t} (split : rngs_t -> rngs_t * rngs_t) apply_fn loss_fn label_pred_fn (f : X -> L) lossf predf loss r0
    (datasets : list (nat * list (list (example X)))) :
  one_by_one apply_fn loss_fn label_pred_fn f lossf predf ->
  Forall (fun nd => Forall (Forall (fun e => fsum (lossf (f (e_image e)) (map Some (e_label e))) = Some (loss e))) (snd nd)) datasets ->
  evaluate X L rngs_t split apply_fn loss_fn label_pred_fn r0 (map (fun nd => (fst nd, map batch_of (snd nd))) datasets) =
  Ok (map (fun nd => (fst nd, match real_examples (snd nd) with
                              | [] => (None, None)
                              | es => (Some (mean (map (fun e => nth (predf (f (e_image e))) (e_label e) 0%R) es)), Some (mean (map loss es)))
                              end)) datasets).
Proof. intros O. exact (evaluate_mean X L rngs_t split apply_fn loss_fn label_pred_fn f lossf predf O loss r0 datasets). Qed.
Print Assumptions C38_means.

(** So the order of the examples does not matter. *)
Theorem C38_order {X} (b1 b2 : list (list (example X))) (g : example X -> R) :
  Permutation (real_examples b1) (real_examples b2) -> mean (map g (real_examples b1)) = mean (map g (real_examples b2)).
Proof. intros P. exact (mean_perm _ _ (Permutation_map g P)). Qed.
Print Assumptions C38_order.

(** Without the two conditions the claim is false.  A padding example with an infinite loss
    makes the loss of the dataset NaN. *)
Theorem C38_infinite_padding_refuted :
  exists (lossf : nat -> list fl -> list fl) (real pad : example nat), e_real real = true /\ e_real pad = false /\
    let run bs := evaluate nat nat unit (fun r => (r, r)) (fun _ xs => Ok xs)
                    (fun ls labs => Ok (map (fun e => lossf (fst e) (snd e)) (combine ls labs))) (fun ls => ls) tt [(0, map batch_of bs)] in
    run [[real]] = Ok [(0, (Some (1 / 1)%R, Some (1 / 1)%R))] /\
    run [[real; pad]] = Ok [(0, (Some (1 / 1)%R, None))].
Proof.
  exists (fun x _ => match x with O => [Some 1%R] | _ => [None] end), (Example_ 0 [1%R; 0%R] true), (Example_ 1 [0%R; 0%R] false).
  split; [reflexivity|]. split; [reflexivity|]. cbv zeta. split.
  - cbn. destruct (Req_EM_T _ _) as [H|_]; [lra|]. repeat f_equal; lra.
  - cbn. destruct (Req_EM_T _ _) as [H|_]; [lra|]. repeat f_equal; lra.
Qed.
Print Assumptions C38_infinite_padding_refuted.

(** With a model that mixes the examples of a batch, as MoE layers with a limited capacity
    do, padding changes the result. *)
Theorem C38_mixing_model_refuted :
  exists (apply_fn : unit -> list nat -> res (list nat)) (real pad : example nat), e_real real = true /\ e_real pad = false /\
    let run bs := evaluate nat nat unit (fun r => (r, r)) apply_fn
                    (fun ls labs => Ok (map (fun _ => [Some 1%R]) ls)) (fun ls => ls) tt [(0, map batch_of bs)] in
    run [[real]] = Ok [(0, (Some (1 / 1)%R, Some (1 / 1)%R))] /\
    run [[real; pad]] = Ok [(0, (Some (0 / 1)%R, Some (1 / 1)%R))].
Proof.
  exists (fun _ xs => Ok (map (fun x => x + length xs - 1) xs)), (Example_ 0 [1%R; 0%R] true), (Example_ 0 [0%R; 0%R] false).
  split; [reflexivity|]. split; [reflexivity|]. cbv zeta. split.
  - cbn. destruct (Req_EM_T _ _) as [H|_]; [lra|]. repeat f_equal; lra.
  - cbn. destruct (Req_EM_T _ _) as [H|_]; [lra|]. repeat f_equal; lra.
Qed.
Print Assumptions C38_mixing_model_refuted.

(** The loss is the first pixel plus one; a real example and padding in two batches. *)
Example ex_eval : evaluate (list R) (list R) unit (fun r => (r, r)) (fun _ xs => Ok (map (fun x => x) xs))
    (fun ls labs => Ok (map (fun x => [Some (nth 0 x 0 + 1)%R]) ls)) (fun ls => map (fun _ => 0) ls) tt
    (map (fun nd => (fst nd, map batch_of (snd nd))) [(7, [[Example_ [3%R] [1%R; 0%R] true; Example_ [5%R] [0%R; 1%R] true]; [Example_ [1%R] [0%R; 1%R] true; Example_ [9%R] [0%R; 0%R] false]])])
  = Ok [(7, (Some (mean [1; 0; 0]%R), Some (mean [3 + 1; 5 + 1; 1 + 1]%R)))].
Proof.
  rewrite (C38_means (fun r => (r, r)) _ _ _ (fun x => x) (fun l _ => [Some (nth 0 l 0 + 1)%R]) (fun _ => 0) (fun e => (nth 0 (e_image e) 0 + 1)%R)).
  - reflexivity.
  - split; [auto|]. split; [|auto]. intros es. rewrite !map_map. auto.
  - repeat constructor; cbn; f_equal; lra.
Qed.
