(** C47: losses and predictions of ensembles. *)
From Coq Require Import String List Arith Bool Reals Lia Lra.
From Verif Require Import SoftSpec ElmModel ElmSpec ElmProofs.
From Verif Require Import Py.
Import ListNotations.
Local Open Scope nat_scope.

(** C47: the logarithm of the mean of the probabilities of the members, which sum to one.  Logits may be
    -inf as long as each row has a finite one. *)
Theorem C47_log_mean : forall C BM M x,
  1 <= M -> BM mod M = 0 -> (forall r, r < BM -> usable C (x r)) ->
  exists lp, ensemble_log_mean C (BM, x) M (log_softmax C) = Ok (BM / M, lp) /\
    forall b, b < BM / M ->
      (forall c, c < C -> masked (lp b c) /\ weight (lp b c) = mean_prob C M x b c) /\ sum_to C (fun c => weight (lp b c)) = 1%R.
Proof. exact softmax_log_mean. Qed.
Print Assumptions C47_log_mean.
Example C47_usable_example : usable 3 (fun c => match c with 1 => NInf | _ => Fin 0 end).
Proof. split; [intros [|[|c]] _; [right|left|right]; eauto|]. exists 0, 0%R. auto. Qed.

(** The rows must be a multiple of the ensemble size. *)
Theorem C47_errors : forall C BM x M norm,
  ensemble_log_mean C (BM, x) M norm = Raise TypeError <-> M = 0 \/ BM mod M <> 0.
Proof. exact log_mean_errors. Qed.
Print Assumptions C47_errors.

(** C47: the evaluation loss is the cross entropy of the labels and the mean probabilities.  Classes
    without label do not matter, even if their probability is zero. *)
Theorem C47_eval_loss : forall C B M x l,
  1 <= M -> (forall r, r < B * M -> usable C (x r)) ->
  exists out, ensemble_softmax_xent_eval C M (B * M, x) (finite B l) = Ok (B, out) /\
    forall b, b < B -> (forall c, c < C -> l b c <> 0%R -> (0 < mean_prob C M x b c)%R) ->
      out b = Fin (cross_entropy C (l b) (mean_prob C M x b)).
Proof. exact softmax_eval. Qed.
Print Assumptions C47_eval_loss.
Example C47_eval_example : exists out,
  ensemble_softmax_xent_eval 2 2 (2 * 1, fun r c => match c with 0 => Fin (INR r) | _ => NInf end) (finite 1 (fun _ c => match c with 0 => 1%R | _ => 0%R end)) = Ok (1, out) /\ out 0 = Fin 0.
Proof.
  set (x := fun r c => match c with 0 => Fin (INR r) | _ => NInf end).
  assert (U : forall r, r < 1 * 2 -> usable 2 (x r)). { intros r _. split; [intros [|c] _; [right|left]; simpl; eauto|]. exists 0, (INR r). auto. }
  assert (P : mean_prob 2 2 x 0 0 = 1%R).
  { unfold mean_prob, mean, class_prob. cbv [sum_to seq map fold_right Nat.mul Nat.add x weight]. assert (A := exp_pos (INR 0)). assert (B := exp_pos (INR 1)). cbn [INR] in *. field. lra. }
  destruct (C47_eval_loss 2 1 2 x (fun _ c => match c with 0 => 1%R | _ => 0%R end) ltac:(lia) U) as (out & E & H).
  exists out. split; [exact E|]. rewrite H; [|lia|].
  - unfold cross_entropy. cbv [sum_to seq map fold_right]. destruct (Req_EM_T 1 0); [lra|]. destruct (Req_EM_T 0 0); [|lra]. rewrite P, ln_1. f_equal. lra.
  - intros [|[|c]] Hc N; [rewrite P; lra|lra|lia].
Qed.

(** The loss is infinite if a class with a label has probability zero for all members. *)
Theorem C47_eval_infinite : forall C B M x l,
  1 <= M -> (forall r, r < B * M -> usable C (x r)) ->
  exists out, ensemble_softmax_xent_eval C M (B * M, x) (finite B l) = Ok (B, out) /\
    forall b, b < B -> (forall c, c < C -> (0 <= l b c)%R) -> (exists c, c < C /\ l b c <> 0%R /\ mean_prob C M x b c = 0%R) -> out b = PInf.
Proof. exact softmax_eval_inf. Qed.
Print Assumptions C47_eval_infinite.

(** C47: in training, the loss of row b*M+m is the cross entropy of member m with the labels of image b. *)
Theorem C47_train_loss : forall C B M x l,
  1 <= C -> 1 <= M ->
  exists out, ensemble_softmax_xent_train C M (finite (B * M) x) (finite B l) = Ok (B * M, out) /\
    forall r, r < B * M -> out r = Fin (cross_entropy C (l (r / M)) (class_prob C (fun c => Fin (x r c)))).
Proof. exact softmax_train. Qed.
Print Assumptions C47_train_loss.

(** C47: the loss of the ensemble is never above the mean of the losses of its members. *)
Theorem C47_jensen : forall C B M x l,
  1 <= C -> 1 <= M -> (forall b c, b < B -> c < C -> (0 <= l b c)%R) ->
  exists ev tr ev' tr', ensemble_softmax_xent_eval C M (finite (B * M) x) (finite B l) = Ok (B, ev') /\
    ensemble_softmax_xent_train C M (finite (B * M) x) (finite B l) = Ok (B * M, tr') /\
    (forall b, b < B -> ev' b = Fin (ev b)) /\ (forall r, r < B * M -> tr' r = Fin (tr r)) /\
    forall b, b < B -> (ev b <= mean M (fun m => tr (b * M + m)%nat))%R.
Proof. exact softmax_jensen. Qed.
Print Assumptions C47_jensen.
Example C47_jensen_example : forall b c, b < 3 -> c < 4 -> (0 <= (if Nat.eqb b c then 1 else 0))%R.
Proof. intros b c _ _. destruct (Nat.eqb b c); lra. Qed.

(** C47: the predicted label is the first class with the highest mean probability. *)
Theorem C47_predictions : forall C B M x,
  1 <= C -> 1 <= M -> (forall r, r < B * M -> usable C (x r)) ->
  exists l, label_pred_ensemble_softmax C M (B * M, x) = Ok l /\ length l = B /\ forall b, b < B -> first_best C (mean_prob C M x b) (nth b l 0).
Proof. exact softmax_pred. Qed.
Print Assumptions C47_predictions.

(** C47 with the sigmoid: the loss is the binary cross entropy of the labels and the mean probabilities. *)
Theorem C47_sigmoid_loss : forall C B M x l,
  1 <= M ->
  exists out, ensemble_sigmoid_xent_eval C M (finite (B * M) x) (finite B l) = Ok (B, out) /\
    forall b, b < B -> out b = Fin (binary_cross_entropy C (l b) (mean_yes M x b)).
Proof. exact sigmoid_eval. Qed.
Print Assumptions C47_sigmoid_loss.

(** C47 with the sigmoid, in training. *)
Theorem C47_sigmoid_train : forall C B M x l,
  1 <= M ->
  exists out, ensemble_sigmoid_xent_train C M (finite (B * M) x) (finite B l) = Ok (B * M, out) /\
    forall r, r < B * M -> out r = Fin (binary_cross_entropy C (l (r / M)) (fun c => yes_prob (x r c))).
Proof. exact sigmoid_train. Qed.
Print Assumptions C47_sigmoid_train.

(** C47 with the sigmoid: the loss of the ensemble is never above the mean of those of the members. *)
Theorem C47_sigmoid_jensen : forall C B M x l,
  1 <= M -> (forall b c, b < B -> c < C -> (0 <= l b c <= 1)%R) ->
  exists ev tr ev' tr', ensemble_sigmoid_xent_eval C M (finite (B * M) x) (finite B l) = Ok (B, ev') /\
    ensemble_sigmoid_xent_train C M (finite (B * M) x) (finite B l) = Ok (B * M, tr') /\
    (forall b, b < B -> ev' b = Fin (ev b)) /\ (forall r, r < B * M -> tr' r = Fin (tr r)) /\
    forall b, b < B -> (ev b <= mean M (fun m => tr (b * M + m)%nat))%R.
Proof. exact sigmoid_jensen. Qed.
Print Assumptions C47_sigmoid_jensen.

(** C47 with the sigmoid: the predicted label. *)
Theorem C47_sigmoid_predictions : forall C B M x,
  1 <= C -> 1 <= M ->
  exists l, label_pred_ensemble_sigmoid C M (finite (B * M) x) = Ok l /\ length l = B /\ forall b, b < B -> first_best C (mean_yes M x b) (nth b l 0).
Proof. exact sigmoid_pred. Qed.
Print Assumptions C47_sigmoid_predictions.

(** Unlike the softmax loss, the sigmoid loss does not allow infinite logits for classes without label. *)
Theorem C47_sigmoid_masked_refuted : exists C M x l out, ensemble_sigmoid_xent_eval C M (M, x) (finite 1 l) = Ok (1, out) /\
  (forall r c, x r c = NInf) /\ (forall c, l 0 c = 0%R) /\ out 0 = NaN.
Proof. exact sigmoid_masked_refuted. Qed.
Print Assumptions C47_sigmoid_masked_refuted.

(** C47: with one member, the losses and predictions are the ones of the plain cross entropies. *)
Theorem C47_one_member : forall C B x l,
  1 <= C -> forall name, List.In name ["softmax_xent"; "sigmoid_xent"]%string ->
  exists tr ev pr tr' ev' pr', get_loss_fn C name None = Ok (tr, ev, pr) /\ get_loss_fn C (String.append "ensemble_" name) (Some 1) = Ok (tr', ev', pr') /\
    (exists o o', tr (finite B x) (finite B l) = Ok (B, o) /\ tr' (finite B x) (finite B l) = Ok (B, o') /\ forall b, b < B -> exists v, o b = Fin v /\ o' b = Fin v) /\
    (exists o o', ev (finite B x) (finite B l) = Ok (B, o) /\ ev' (finite B x) (finite B l) = Ok (B, o') /\ forall b, b < B -> exists v, o b = Fin v /\ o' b = Fin v) /\
    exists li, pr (finite B x) = Ok li /\ pr' (finite B x) = Ok li.
Proof. exact one_member. Qed.
Print Assumptions C47_one_member.
Example C47_one_member_example : exists f, get_loss_fn 10 "ensemble_sigmoid_xent" (Some 1) = Ok f.
Proof. eexists. reflexivity. Qed.

(** get_loss_fn only raises for names other than the four losses. *)
Theorem C47_unknown_loss : forall C name size,
  (exists e, get_loss_fn C name size = Raise e) <-> ~ List.In name ["softmax_xent"; "sigmoid_xent"; "ensemble_softmax_xent"; "ensemble_sigmoid_xent"]%string.
Proof. exact unknown_loss. Qed.
Print Assumptions C47_unknown_loss.

