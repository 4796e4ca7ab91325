(** C99: Adafactor makes numbers. *)
From Coq Require Import List Arith ZArith Bool Lia Reals Lra.
From Verif Require Import NdArray TreeModel OptModel SchedModel NumModel NumSpec NumProofs3 NumProps AdaModel AdaSpec AdaProofs Py.
Import ListNotations.
Local Open Scope R_scope.

(** C99: without decay_offset, the updates of an entry that is not factored are its gradients over the roots of averages of their
    squares, for every number of steps and all gradients. *)
Theorem C99_updates : forall rate dm eps gs, 0 <= dm < 1 -> 0 <= rate -> 0 < eps ->
  exists v, averages rate dm eps gs v /\ ada_run rate dm 0 eps gs ada_init = map (fun t => Num (nth t gs 0 / sqrt (v (S t)))) (seq 0 (length gs)).
Proof.
  intros rate dm eps gs D P E. destruct (run_averages rate dm eps D P E gs 0 0 (Rle_refl 0)) as (v & V0 & VS & R). exists v. split; [split; [exact V0|exact VS]|exact R].
Qed.
Print Assumptions C99_updates.
Example C99_updates_example : exists v, averages (8/10) (999/1000) 1 [2; 3] v /\ v 1%nat = 5.
Proof.
  destruct (C99_updates (8/10) (999/1000) 1 [2; 3]) as (v & V & _); [lra..|]. exists v. split; [exact V|]. destruct V as [V0 VS]. rewrite VS by (cbn; lia). rewrite V0.
  cbn [nth INR]. unfold Rpower. rewrite ln_1, !Rmult_0_r, exp_0, Rinv_1. unfold Rmin. destruct (Rle_dec (999 / 1000) (1 - 1)); lra.
Qed.

(** C99 in part: they are numbers of absolute value at most 1 / sqrt(1 - decay_rate_max) in all steps, from every state with as many
    updates as decay_offset.  Missing: states with fewer updates, and factored parameters (both false). *)
Theorem C99_bounded_partial : forall rate dm off eps gs count v, 0 <= dm < 1 -> 0 <= rate -> 0 < eps -> (off <= count)%nat -> 0 <= v ->
  Forall (within (/ sqrt (1 - dm))) (ada_run rate dm off eps gs (count, Num v)).
Proof. exact (fun rate dm off eps gs count v D P E L V => run_within rate dm off eps gs D P E count v L V). Qed.
Print Assumptions C99_bounded_partial.
Example C99_bounded_partial_example : (100 <= 100)%nat /\ Forall (within (/ sqrt (1 - 3/4))) (ada_run (8/10) (3/4) 100 1 [7; 0; -5] (100%nat, Num 2)).
Proof. split; [lia|]. apply C99_bounded_partial; try lra; lia. Qed.

(** C99 does not hold for a new state with decay_offset: no update is a number, in no step, whatever the gradients are. *)
Theorem C99_offset_never : forall rate dm off eps gs, 0 < rate -> (0 < off)%nat -> off = 1%nat \/ ~ integer rate ->
  Forall (eq NaN) (ada_run rate dm off eps gs ada_init) /\ length (ada_run rate dm off eps gs ada_init) = length gs.
Proof.
  intros rate dm off eps gs P O C. split; [apply fresh_nan; auto|]. generalize ada_init. induction gs as [|g gs IH]; intros [n v]; cbn [ada_run]; [reflexivity|].
  unfold ada_update. cbn [length]. rewrite IH. reflexivity.
Qed.
Print Assumptions C99_offset_never.
Lemma eight_tenths : ~ integer (8/10).
Proof. intros [k K]. assert (0 < IZR k < 1) as [A B] by lra. apply lt_IZR in A. apply lt_IZR in B. lia. Qed.
Example C99_offset_never_example : (0 < 100)%nat /\ ~ integer (8/10).
Proof. split; [lia|exact eight_tenths]. Qed.
Theorem C99_offset_refuted : exists rate dm off eps gs, 0 <= dm < 1 /\ 0 < rate /\ 0 < eps /\ gs <> [] /\
  forall b, ~ Exists (within b) (ada_run rate dm off eps gs ada_init).
Proof.
  exists (8/10), (999/1000), 100%nat, 1, [1; 1]. do 3 (split; [lra|]). split; [discriminate|]. intros b X.
  destruct (C99_offset_never (8/10) (999/1000) 100 1 [1; 1]) as [N _]; [lra|lia|right; exact eight_tenths|].
  rewrite Forall_forall in N. apply Exists_exists in X. destruct X as (u & U & x & -> & _). specialize (N _ U). discriminate.
Qed.
Print Assumptions C99_offset_refuted.

(** C99 does not hold for factored parameters: no number bounds what the first step adds to an entry whose gradient is 1,
    with learning rate 1 and without decay of the weights. *)
Theorem C99_factored_refuted : exists (argsort : list nat -> list nat) (c : config str) tx n i,
  let shapes := [(n, [2; 2]%nat)] in
  sorts argsort /\ create_optimizer str str_eqb argsort shapes c = Ok tx /\ (exists rate dm e, optimizer _ c = Adafactor rate dm 0 e 2 None /\ 0 <= dm < 1 /\ 0 < rate) /\
  weight_decay _ c = DNone _ _ /\ rate_is str c (fun _ => 1) /\
  forall b, exists g, g (n, i) = 1 /\ b < Rabs (params _ (train shapes tx [g] (create tx (fun _ => 0))) (n, i)).
Proof.
  eexists ex_argsort, sharp_config, _, one_param, [0; 0]%nat. cbv zeta. split; [exact ex_sorts|]. split; [reflexivity|].
  split; [do 3 eexists; split; [reflexivity|lra]|]. split; [reflexivity|]. split; [cbn; auto|]. intros b. exists (sharp_grad 0 (2 * (1 + Rabs b))).
  split; [reflexivity|]. pose proof (sharp_value ex_argsort eq_refl 0 (2 * (1 + Rabs b))) as Q. cbv zeta in Q. setoid_rewrite Q. clear Q.
  set (a := Rabs b). assert (A : 0 <= a) by apply Rabs_pos. assert (B : b <= a) by apply Rle_abs.
  rewrite Rabs_Ropp.
  set (m := (1 + (0 * 0 + 2 * (1 + a) * (2 * (1 + a))) / 2) / 2). assert (M : (1 + a) * (1 + a) < 2 * m) by (unfold m; nra).
  assert (M0 : 0 < m) by nra.
  rewrite <- Rinv_mult, <- sqrt_mult_alt by (apply Rlt_le; unfold Rdiv; rewrite Rmult_1_l; apply Rinv_0_lt_compat; exact M0).
  replace (1 / m * ((1 + 0 * 0) / 2)) with (/ (2 * m)) by (field; lra). rewrite sqrt_inv, Rinv_inv.
  rewrite Rabs_right by (apply Rle_ge, sqrt_pos). apply Rle_lt_trans with (sqrt ((1 + a) * (1 + a))); [rewrite sqrt_square by lra; lra|]. apply sqrt_lt_1_alt. split; [nra|exact M].
Qed.
Print Assumptions C99_factored_refuted.
