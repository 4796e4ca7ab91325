(** C74 to C77: what the optimizers compute. *)
From Coq Require Import List Arith ZArith Bool Lia Reals Lra Permutation.
From Verif Require Import NdArray TreeModel TreeProofs OptModel OptSpec SchedModel NumModel NumSpec NumProofs NumProofs2 NumProofs3 Py PyLemmas.
Import ListNotations.
Local Open Scope nat_scope.

(** Parameters a and b of two entries each; patterns are names. *)
Definition pa : str := [97]. Definition pb : str := [98].
Definition ex_shapes : list (str * list nat) := [(pa, [2]); (pb, [2])].
(** A sorting permutation *)
Fixpoint ins (s : list nat) (k : nat) (l : list nat) : list nat :=
  match l with [] => [k] | x :: r => if nth k s 0 <=? nth x s 0 then k :: x :: r else x :: ins s k r end.
Definition ex_argsort (s : list nat) : list nat := fold_right (ins s) [] (seq 0 (length s)).
Lemma ins_perm s k l : Permutation (ins s k l) (k :: l).
Proof. induction l as [|x l IH]; cbn; auto. destruct (nth k s 0 <=? nth x s 0); auto. rewrite IH. apply perm_swap. Qed.
Definition up (s l : list nat) : Prop := forall i j, i < j -> j < length l -> nth (nth i l 0) s 0 <= nth (nth j l 0) s 0.
Lemma up_cons s x l : up s (x :: l) <-> (forall y, In y l -> nth x s 0 <= nth y s 0) /\ up s l.
Proof.
  split.
  - intros U. split; [|intros i j I J; apply (U (S i) (S j)); cbn; lia]. intros y Y. destruct (In_nth _ _ 0 Y) as (j & J & <-). apply (U 0 (S j)); cbn; lia.
  - intros [A U] i j I J. destruct j as [|j]; [lia|]. destruct i as [|i]; cbn in *; [apply A; apply nth_In; lia|apply U; lia].
Qed.
Lemma ins_up s k l : up s l -> up s (ins s k l).
Proof.
  induction l as [|x l IH]; intros U; cbn [ins]; [apply up_cons; split; [intros y []|exact U]|].
  destruct (nth k s 0 <=? nth x s 0) eqn:C.
  - apply Nat.leb_le in C. apply up_cons. split; auto. intros y [->|Y]; auto. apply up_cons in U. destruct U as [A _]. specialize (A y Y). lia.
  - apply Nat.leb_gt in C. apply up_cons in U. destruct U as [A U]. apply up_cons. split; auto. intros y Y. apply (Permutation_in _ (ins_perm s k l)) in Y. destruct Y as [<-|Y]; auto. lia.
Qed.
Lemma ex_sorts : sorts ex_argsort.
Proof.
  intros s. unfold ex_argsort. assert (Q : forall l, Permutation (fold_right (ins s) [] l) l /\ up s (fold_right (ins s) [] l)).
  { induction l as [|k l [IH1 IH2]]; cbn [fold_right]; [split; [constructor|intros i j _ J; cbn in J; lia]|]. split; [rewrite ins_perm, IH1; reflexivity|apply ins_up; exact IH2]. }
  destruct (Q (seq 0 (length s))) as [P U]. split; auto. intros i j I J. apply U; auto. rewrite (Permutation_length P), seq_length. exact J.
Qed.
Definition ex_config (norm value : option R) (o : optim) (scales : list (str * R)) (frozen : list str) : config str :=
  {| gradient_scale := scales; clip_norm := norm; clip_value := value; optimizer := o; weight_decay := DNone _ _; learning_rate := inl 1%R;
     total_steps := 10%Z; frozen := frozen; trainable := [] |}.
Definition ex_created := create_optimizer str str_eqb ex_argsort ex_shapes.
Lemma ex_ok norm value o scales fr : off norm \/ off value -> o <> OtherOptim -> exists tx, ex_created (ex_config norm value o scales fr) = Ok tx.
Proof. intros N O. apply errors. split; [exact N|]. split; [exact O|]. split; [exists (fun _ => 1%R); cbn; auto|right; reflexivity]. Qed.
Lemma ex_rate norm value o scales fr : rate_is str (ex_config norm value o scales fr) (fun _ => 1%R).
Proof. cbn. auto. Qed.

(** C74: after any number of training steps, a step leaves frozen parameters as they are, and lowers every other parameter by
    the learning rate of this step times the sum of the weight decay and of the direction that the optimizer makes of the gradients so far:
    with factors of their names and clipped, but without weight decay.  The direction is the last gradient or the sum of all with momentum
    (SGD), the ratio of the bias-corrected moments (Adam), or the average of the gradients over the roots of their moments (Adafactor, for
    parameters that are not factored). *)
Theorem C74_step : forall regex (search : regex -> str -> bool) argsort shapes c tx lr p0 gs g,
  sorts argsort -> create_optimizer regex search argsort shapes c = Ok tx -> rate_is regex c lr ->
  let s := train shapes tx gs (create tx p0) in let s' := fst (apply_gradients shapes tx g s) in
  step _ s' = S (length gs) /\
  exists hs, Forall2 (seen regex search (entries shapes) c) (gs ++ [g]) hs /\
  forall n i, (frozen_param regex search c n -> params _ s' (n, i) = params _ s (n, i)) /\
    (~ frozen_param regex search c n -> (forall shape, dget shapes n = Some shape -> unfactored (optimizer _ c) shape) ->
     exists wd u, decay_is regex search c n wd /\ direction (optimizer _ c) (map (fun h => h (n, i)) hs) u /\
       params _ s' (n, i) = (params _ s (n, i) - lr (length gs) * (u + wd * params _ s (n, i)))%R).
Proof. exact step_formula. Qed.
Print Assumptions C74_step.
Example C74_step_example : exists tx, ex_created (ex_config (Some 1%R) None (Sgd (Some (9/10)%R) true) [(pa, 2%R)] [pb]) = Ok tx /\
  rate_is str (ex_config (Some 1%R) None (Sgd (Some (9/10)%R) true) [(pa, 2%R)] [pb]) (fun _ => 1%R) /\
  frozen_param str str_eqb (ex_config (Some 1%R) None (Sgd (Some (9/10)%R) true) [(pa, 2%R)] [pb]) pb.
Proof.
  destruct (ex_ok (Some 1%R) None (Sgd (Some (9/10)%R) true) [(pa, 2%R)] [pb]) as [tx E]; [right; left; reflexivity|discriminate|].
  exists tx. split; [exact E|]. split; [apply ex_rate|]. left. split; [discriminate|]. exists pb. split; [left; reflexivity|reflexivity].
Qed.

(** C74: norms count every entry of every parameter once. *)
Theorem C74_entries : forall  shapes,
  NoDup (map fst shapes) -> NoDup (entries shapes) /\
  forall n i, In (n, i) (entries shapes) <-> exists shape, In (n, shape) shapes /\ inside shape i.
Proof. exact entries_all. Qed.
Print Assumptions C74_entries.
Example C74_entries_example : NoDup (map fst ex_shapes) /\ length (entries ex_shapes) = 4.
Proof. split; [|reflexivity]. repeat constructor; cbn; intuition discriminate. Qed.

(** C74: the reported norms are those of the gradients as given (before scaling and clipping), of the change of the
    parameters, and of the new parameters. *)
Theorem C74_reports : forall shapes tx g s,
  let r := apply_gradients shapes tx g s in
  n_grads (snd r) = norm (entries shapes) g /\ n_params (snd r) = norm (entries shapes) (params _ (fst r)) /\
  n_updates (snd r) = norm (entries shapes) (fun k => (params _ (fst r) k - params _ s k)%R).
Proof. exact reports. Qed.
Print Assumptions C74_reports.
Example C74_reports_example : exists tx, ex_created (ex_config None None (Sgd None false) [] []) = Ok tx.
Proof. apply ex_ok; [left; left; reflexivity|discriminate]. Qed.

(** C74: an optimizer is created unless both kinds of clipping are given, the optimizer or the schedule is not known, or both
    patterns of names are given.  Zero and None mean that something is not given. *)
Theorem C74_errors : forall regex (search : regex -> str -> bool) argsort shapes c,
  (exists tx, create_optimizer regex search argsort shapes c = Ok tx) <->
  (off (clip_norm _ c) \/ off (clip_value _ c)) /\ optimizer _ c <> OtherOptim /\ (exists lr, rate_is regex c lr) /\ (frozen _ c = [] \/ trainable _ c = []).
Proof. exact errors. Qed.
Print Assumptions C74_errors.
Example C74_errors_example : ex_created (ex_config (Some 1%R) (Some 2%R) (Sgd None false) [] []) = Raise ValueError /\
  exists tx, ex_created (ex_config (Some 1%R) (Some 0%R) (Sgd None false) [] []) = Ok tx.
Proof.
  split; [|apply ex_ok; [right; right; reflexivity|discriminate]]. unfold ex_created, create_optimizer, gradient_clipping. cbn [ex_config clip_norm clip_value].
  rewrite (proj2 (truthy_some (Some 1%R) 1%R)), (proj2 (truthy_some (Some 2%R) 2%R)) by (split; [reflexivity|lra]). reflexivity.
Qed.

(** C74: with clipping by global norm and SGD with momentum, the change of the parameters in a step has a norm of at most the
    learning rate times (the clipping norm over one minus the momentum, plus the decay times the norm of the parameters), whatever the gradients
    were. *)
Theorem C74_norm_bound : forall regex (search : regex -> str -> bool) argsort shapes c tx lr W p0 gs g b m nest x,
  sorts argsort -> create_optimizer regex search argsort shapes c = Ok tx -> rate_is regex c lr -> (forall n wd, decay_is regex search c n wd -> (Rabs wd <= W)%R) ->
  on (clip_norm _ c) b -> (0 < b)%R -> optimizer _ c = Sgd m nest -> momentum_is m x -> (0 <= x < 1)%R ->
  (norm (entries shapes) (fun k => params _ (fst (apply_gradients shapes tx g (train shapes tx gs (create tx p0)))) k - params _ (train shapes tx gs (create tx p0)) k) <=
   Rabs (lr (length gs)) * (b / (1 - x) + W * norm (entries shapes) (params _ (train shapes tx gs (create tx p0)))))%R.
Proof. exact (fun regex search argsort shapes c tx lr W p0 gs g b m nest x AS => norm_bound regex search argsort AS shapes c tx lr W p0 gs g b m nest x). Qed.
Print Assumptions C74_norm_bound.
Example C74_norm_bound_example : exists tx, ex_created (ex_config (Some 1%R) None (Sgd (Some (1/2)%R) false) [] []) = Ok tx /\
  on (Some 1%R) 1%R /\ momentum_is (Some (1/2)%R) (1/2)%R.
Proof.
  destruct (ex_ok (Some 1%R) None (Sgd (Some (1/2)%R) false) [] []) as [tx E]; [right; left; reflexivity|discriminate|].
  exists tx. split; [exact E|]. split; [split; [reflexivity|lra]|right; split; [reflexivity|lra]].
Qed.

(** C74: with clipping by value, this holds for every entry. *)
Theorem C74_value_bound : forall regex (search : regex -> str -> bool) argsort shapes c tx lr wd p0 gs g n i a m nest x,
  sorts argsort -> create_optimizer regex search argsort shapes c = Ok tx -> rate_is regex c lr -> decay_is regex search c n wd ->
  on (clip_value _ c) a -> (0 < a)%R -> optimizer _ c = Sgd m nest -> momentum_is m x -> (0 <= x < 1)%R ->
  (Rabs (params _ (fst (apply_gradients shapes tx g (train shapes tx gs (create tx p0)))) (n, i) - params _ (train shapes tx gs (create tx p0)) (n, i)) <=
   Rabs (lr (length gs)) * (a / (1 - x) + Rabs wd * Rabs (params _ (train shapes tx gs (create tx p0)) (n, i))))%R.
Proof. exact (fun regex search argsort shapes c tx lr wd p0 gs g n i a m nest x AS => value_bound regex search argsort AS shapes c tx lr wd p0 gs g n i a m nest x). Qed.
Print Assumptions C74_value_bound.
Example C74_value_bound_example : exists tx, ex_created (ex_config None (Some 1%R) (Sgd None false) [] []) = Ok tx /\
  on (Some 1%R) 1%R /\ momentum_is None 0%R.
Proof.
  destruct (ex_ok None (Some 1%R) (Sgd None false) [] []) as [tx E]; [left; left; reflexivity|discriminate|].
  exists tx. split; [exact E|]. split; [split; [reflexivity|lra]|left; split; [left; reflexivity|reflexivity]].
Qed.

(** C75: with Adam, an entry changes in a step by at most the learning rate times (the root of (1 - b1) / (1 - b2), plus the decay
    times its size), for all gradients and with all clipping and scaling. *)
Theorem C75_adam_bound : forall regex (search : regex -> str -> bool) argsort shapes c tx lr wd p0 gs g n i b1 b2 e r,
  sorts argsort -> create_optimizer regex search argsort shapes c = Ok tx -> rate_is regex c lr -> decay_is regex search c n wd ->
  optimizer _ c = Adam b1 b2 e r -> (0 <= b1 <= b2)%R -> (b2 < 1)%R -> (0 <= e)%R -> (0 <= r)%R ->
  (Rabs (params _ (fst (apply_gradients shapes tx g (train shapes tx gs (create tx p0)))) (n, i) - params _ (train shapes tx gs (create tx p0)) (n, i)) <=
   Rabs (lr (length gs)) * (sqrt ((1 - b1) / (1 - b2)) + Rabs wd * Rabs (params _ (train shapes tx gs (create tx p0)) (n, i))))%R.
Proof. exact (fun regex search argsort shapes c tx lr wd p0 gs g n i b1 b2 e r AS => adam_bound regex search argsort AS shapes c tx lr wd p0 gs g n i b1 b2 e r). Qed.
Print Assumptions C75_adam_bound.
Example C75_adam_bound_example : (0 <= 9/10 <= 999/1000)%R /\ exists tx, ex_created (ex_config None None (Adam (9/10) (999/1000) (1/100000000) 0) [] []) = Ok tx.
Proof. split; [lra|]. apply ex_ok; [left; left; reflexivity|discriminate]. Qed.

(** C75: with Adam without the regularizers eps, positive factors of the gradients make no difference, if the gradients are not
    clipped. *)
Theorem C75_adam_scaling : forall regex (search : regex -> str -> bool) argsort shapes c tx tx0 p0 gs n i w b1 b2 lr,
  sorts argsort -> create_optimizer regex search argsort shapes c = Ok tx -> create_optimizer regex search argsort shapes (unscaled regex c) = Ok tx0 -> rate_is regex c lr ->
  optimizer _ c = Adam b1 b2 0 0 -> (0 <= b1 <= b2)%R -> (b2 < 1)%R -> off (clip_norm _ c) -> off (clip_value _ c) ->
  scale_is regex search c n w -> (0 < w)%R ->
  params _ (train shapes tx gs (create tx p0)) (n, i) = params _ (train shapes tx0 gs (create tx0 p0)) (n, i).
Proof. exact (fun regex search argsort shapes c tx tx0 p0 gs n i w b1 b2 lr AS => adam_scaling regex search argsort AS shapes c tx tx0 p0 gs n i w b1 b2 lr). Qed.
Print Assumptions C75_adam_scaling.
Example C75_adam_scaling_example : scale_is str str_eqb (ex_config None None (Adam (9/10) (999/1000) 0 0) [(pb, 8%R)] []) pb 8%R /\
  exists tx tx0, ex_created (ex_config None None (Adam (9/10) (999/1000) 0 0) [(pb, 8%R)] []) = Ok tx /\
    ex_created (unscaled str (ex_config None None (Adam (9/10) (999/1000) 0 0) [(pb, 8%R)] [])) = Ok tx0.
Proof.
  split; [left; exists [], pb, []; repeat split; constructor|].
  destruct (ex_ok None None (Adam (9/10) (999/1000) 0 0) [(pb, 8%R)] []) as [tx E]; [left; left; reflexivity|discriminate|].
  destruct (ex_ok None None (Adam (9/10) (999/1000) 0 0) [] []) as [tx0 E0]; [left; left; reflexivity|discriminate|].
  exists tx, tx0. split; [exact E|exact E0].
Qed.

(** C75: with SGD without weight decay, a factor of the gradients of a parameter multiplies all its changes, as a learning rate of
    its own would, if the gradients are not clipped. *)
Theorem C75_sgd_scaling : forall regex (search : regex -> str -> bool) argsort shapes c tx tx0 p0 gs n i w m nest lr,
  sorts argsort -> create_optimizer regex search argsort shapes c = Ok tx -> create_optimizer regex search argsort shapes (unscaled regex c) = Ok tx0 -> rate_is regex c lr ->
  optimizer _ c = Sgd m nest -> decay_is regex search c n 0%R -> off (clip_norm _ c) -> off (clip_value _ c) -> scale_is regex search c n w ->
  (params _ (train shapes tx gs (create tx p0)) (n, i) - p0 (n, i) = w * (params _ (train shapes tx0 gs (create tx0 p0)) (n, i) - p0 (n, i)))%R.
Proof. exact (fun regex search argsort shapes c tx tx0 p0 gs n i w m nest lr AS => sgd_scaling regex search argsort AS shapes c tx tx0 p0 gs n i w m nest lr). Qed.
Print Assumptions C75_sgd_scaling.
Example C75_sgd_scaling_example : decay_is str str_eqb (ex_config None None (Sgd (Some (1/2)%R) true) [(pb, 8%R)] []) pb 0%R.
Proof. reflexivity. Qed.

(** C76: without clipping by global norm, the values of an entry (of a parameter that is not factored) in a training depend
    only on its own initial value and its own gradients; so neither on other parameters nor on whether they are frozen. *)
Theorem C76_independent : forall regex (search : regex -> str -> bool) argsort shapes c tx p p' gs gs' n i shape,
  sorts argsort -> create_optimizer regex search argsort shapes c = Ok tx -> off (clip_norm _ c) ->
  dget shapes n = Some shape -> unfactored (optimizer _ c) shape ->
  Forall2 (fun g g' => g (n, i) = g' (n, i)) gs gs' -> p (n, i) = p' (n, i) ->
  params _ (train shapes tx gs (create tx p)) (n, i) = params _ (train shapes tx gs' (create tx p')) (n, i).
Proof. exact (fun regex search argsort shapes c tx p p' gs gs' n i shape AS => independent regex search argsort AS shapes c tx p p' gs gs' n i shape). Qed.
Print Assumptions C76_independent.
Example C76_independent_example : exists tx, ex_created (ex_config None (Some 1%R) (Adafactor (8/10) (999/1000) 0 0 32 (Some (9/10)%R)) [] [pa]) = Ok tx /\
  unfactored (Adafactor (8/10) (999/1000) 0 0 32 (Some (9/10)%R)) [2].
Proof.
  destruct (ex_ok None (Some 1%R) (Adafactor (8/10) (999/1000) 0 0 32 (Some (9/10)%R)) [] [pa]) as [tx E]; [left; left; reflexivity|discriminate|].
  exists tx. split; [exact E|]. intros i j I J. cbn in J. lia.
Qed.

Definition pb0 : coord := (pb, [0]).
(** The gradients of b are a quarter, those of a are [x]. *)
Definition ex_grad (x : R) : vec := fun k => if str_eqb (fst k) pa then x else (1 / 4)%R.
Lemma ex_norm x : norm (entries ex_shapes) (ex_grad x) = sqrt (2 * (x * x) + 1 / 8).
Proof. unfold norm. f_equal. cbn. unfold Rsqr, ex_grad. cbn. lra. Qed.
Lemma ex_clip x h : seen str str_eqb (entries ex_shapes) (ex_config (Some 1%R) None (Sgd None false) [] [pa]) (ex_grad x) h ->
  ((2 * (x * x) + 1 / 8 < 1)%R -> h pb0 = (1 / 4)%R) /\ ((1 < 2 * (x * x) + 1 / 8)%R -> (h pb0 < 1 / 4)%R).
Proof.
  intros (g' & S & C). assert (G : forall k, g' k = ex_grad x k).
  { intros [n i]. destruct (S n) as (w & W & Q). rewrite Q. destruct W as [(b & r & a & E & _)|[-> _]]; [destruct b; discriminate|]. lra. }
  destruct C as (C & _). destruct (C 1%R) as [C1 C2]; [split; [reflexivity|lra]|].
  rewrite (norm_ext _ _ _ (fun k _ => G k)), ex_norm in C1, C2.
  assert (HG : ex_grad x pb0 = (1 / 4)%R) by reflexivity. split; intros L.
  - rewrite C1, G; [exact HG|]. apply Rlt_le_trans with (sqrt 1); [|rewrite sqrt_1; lra]. apply sqrt_lt_1_alt. split; [|exact L]. pose proof (Rle_0_sqr x). unfold Rsqr in *. lra.
  - assert (Q : (1 < sqrt (2 * (x * x) + 1 / 8))%R) by (apply Rle_lt_trans with (sqrt 1); [rewrite sqrt_1; lra|apply sqrt_lt_1_alt; lra]).
    rewrite C2, G, HG by lra. rewrite Rmult_1_r. apply Rmult_lt_reg_r with (sqrt (2 * (x * x) + 1 / 8)); [lra|]. unfold Rdiv. rewrite Rmult_assoc, Rinv_l by lra. lra.
Qed.
(** C76: with clipping by global norm this is false: the gradients of frozen parameters count in the norm, so they change the training of
    the other parameters. *)
Theorem C76_frozen_refuted : exists (shapes : list (str * list nat)) (argsort : list nat -> list nat) (c : config str) tx g g' p n m i,
  sorts argsort /\ create_optimizer str str_eqb argsort shapes c = Ok tx /\ frozen_param str str_eqb c n /\ ~ frozen_param str str_eqb c m /\
  (forall k, fst k <> n -> g k = g' k) /\
  params _ (train shapes tx [g] (create tx p)) (m, i) <> params _ (train shapes tx [g'] (create tx p)) (m, i).
Proof.
  destruct (ex_ok (Some 1%R) None (Sgd None false) [] [pa]) as [tx E]; [right; left; reflexivity|discriminate|].
  exists ex_shapes, ex_argsort, (ex_config (Some 1%R) None (Sgd None false) [] [pa]), tx, (ex_grad 0), (ex_grad 1), (fun _ => 0%R), pa, pb, [0].
  split; [apply ex_sorts|]. split; [exact E|]. split; [left; split; [discriminate|exists pa; split; [left; reflexivity|reflexivity]]|].
  assert (NF : ~ frozen_param str str_eqb (ex_config (Some 1%R) None (Sgd None false) [] [pa]) pb).
  { intros [[_ (r & [<-|[]] & S)]|[N _]]; [discriminate|apply N; reflexivity]. }
  split; [exact NF|]. split; [intros [n i] N; unfold ex_grad; cbn [fst] in *; destruct (TreeProofs.str_eqb_spec n pa); [congruence|reflexivity]|].
  assert (ST : forall x, exists h, seen str str_eqb (entries ex_shapes) (ex_config (Some 1%R) None (Sgd None false) [] [pa]) (ex_grad x) h /\
    params _ (train ex_shapes tx [ex_grad x] (create tx (fun _ => 0%R))) pb0 = (- h pb0)%R).
  { intros x. destruct (C74_step str str_eqb ex_argsort ex_shapes _ tx (fun _ => 1%R) (fun _ => 0%R) [] (ex_grad x) ex_sorts E (ex_rate _ _ _ _ _)) as (_ & hs & F & Q).
    inversion F as [|? h ? hs' Sh F']; subst. inversion F'; subst. exists h. split; [exact Sh|]. destruct (Q pb [0%nat]) as [_ Q2]. destruct (Q2 NF) as (wd & u & D & [D1 _] & EQ); [intros; exact I|].
    eapply eq_trans; [exact EQ|]. rewrite (D1 (or_introl eq_refl)). cbn in D. subst wd. cbn [map last length train fold_left create params]. unfold pb0. lra. }
  change (pb, [0]) with pb0. destruct (ST 0%R) as (h0 & S0 & E0). destruct (ST 1%R) as (h1 & S1 & E1). intros Q. assert (Q' : (- h0 pb0 = - h1 pb0)%R) by (rewrite <- E0, <- E1; exact Q). clear Q. apply ex_clip in S0. apply ex_clip in S1.
  destruct S0 as [S0 _]. destruct S1 as [_ S1]. rewrite S0 in Q' by lra. specialize (S1 ltac:(lra)). lra.
Qed.
Print Assumptions C76_frozen_refuted.

(** C77: with Adafactor and min_dim_size_to_factor above the size of an axis (the number of experts), no parameter is factored over
    this axis: without clipping by global norm, the values of the entries at a place of the axis (of an expert) in a training depend only on
    their own initial values and gradients. *)
Theorem C77_experts : forall regex (search : regex -> str -> bool) argsort shapes c tx p p' gs gs' n shape a rate dm o e md m x,
  sorts argsort -> create_optimizer regex search argsort shapes c = Ok tx -> off (clip_norm _ c) ->
  optimizer _ c = Adafactor rate dm o e md m -> dget shapes n = Some shape -> a < length shape -> nth a shape 0 < md ->
  Forall2 (fun g g' => forall i, nth a i 0 = x -> g (n, i) = g' (n, i)) gs gs' -> (forall i, nth a i 0 = x -> p (n, i) = p' (n, i)) ->
  forall i, nth a i 0 = x -> params _ (train shapes tx gs (create tx p)) (n, i) = params _ (train shapes tx gs' (create tx p')) (n, i).
Proof. exact (fun regex search argsort shapes c tx p p' gs gs' n shape a rate dm o e md m x AS => experts regex search argsort AS shapes c tx p p' gs gs' n shape a rate dm o e md m x). Qed.
Print Assumptions C77_experts.
Example C77_experts_example : exists tx, create_optimizer str str_eqb ex_argsort [(pa, [2; 64; 64])] (ex_config None None (Adafactor (8/10) (999/1000) 0 0 3 None) [] []) = Ok tx /\
  factored_dims ex_argsort 3 [2; 64; 64] <> None.
Proof.
  split with (x := chain [gradient_scaling str str_eqb []; identity; scale_by_big_vision_adafactor ex_argsort [(pa, [2; 64; 64])] (8/10) (999/1000) 0 0 3 None; identity; scale_by_learning_rate (fun _ => 1%R); identity]).
  split; [reflexivity|]. cbn. discriminate.
Qed.

(** C77: with Adafactor, an entry of a parameter that is not factored changes in a step by at most the learning rate times (one over
    the root of one minus decay_rate_max, plus the decay times its size). *)
Theorem C77_adafactor_bound : forall regex (search : regex -> str -> bool) argsort shapes c tx lr wd p0 gs g n i rate dm e md m x,
  sorts argsort -> create_optimizer regex search argsort shapes c = Ok tx -> rate_is regex c lr -> decay_is regex search c n wd ->
  optimizer _ c = Adafactor rate dm 0 e md m -> (forall shape, dget shapes n = Some shape -> unfactored (optimizer _ c) shape) ->
  (0 <= dm < 1)%R -> (0 <= rate)%R -> (0 <= e)%R -> momentum_is m x -> (0 <= x < 1)%R ->
  (Rabs (params _ (fst (apply_gradients shapes tx g (train shapes tx gs (create tx p0)))) (n, i) - params _ (train shapes tx gs (create tx p0)) (n, i)) <=
   Rabs (lr (length gs)) * (/ sqrt (1 - dm) + Rabs wd * Rabs (params _ (train shapes tx gs (create tx p0)) (n, i))))%R.
Proof. exact (fun regex search argsort shapes c tx lr wd p0 gs g n i rate dm e md m x AS => factor_bound regex search argsort AS shapes c tx lr wd p0 gs g n i rate dm e md m x). Qed.
Print Assumptions C77_adafactor_bound.
Example C77_adafactor_bound_example : (0 <= 999/1000 < 1)%R /\ exists tx, ex_created (ex_config None None (Adafactor (8/10) (999/1000) 0 0 32 (Some (9/10)%R)) [] []) = Ok tx.
Proof. split; [lra|]. apply ex_ok; [left; left; reflexivity|discriminate]. Qed.

(** C77: the decay rate of the second moments is at least 0 and at most decay_rate_max, and 0 in the first step. *)
Theorem C77_decay_rate : forall dm rate, (0 <= dm < 1)%R -> (0 <= rate)%R ->
  decay_rate_pow dm 0 rate = 0%R /\ forall t : nat, (0 <= decay_rate_pow dm (Z.of_nat t) rate <= dm)%R.
Proof. exact (fun dm rate D P => decay_rates dm rate D P). Qed.
Print Assumptions C77_decay_rate.
Example C77_decay_rate_example : (0 <= 999/1000 < 1)%R /\ (0 <= 8/10)%R.
Proof. lra. Qed.


(** C77: the bound is sharp: with min_dim_size_to_factor equal to the number of experts, the gradients of an expert can change
    the training of another one. *)
Theorem C77_sharp : exists (argsort : list nat -> list nat) (c : config str) tx g g' p n i,
  let shapes := [(n, [2; 2])] in
  sorts argsort /\ create_optimizer str str_eqb argsort shapes c = Ok tx /\ (exists rate dm o e m, optimizer _ c = Adafactor rate dm o e 2 m) /\
  off (clip_norm _ c) /\ nth 0 i 0 = 0 /\ (forall i, nth 0 i 0 = 0 -> g (n, i) = g' (n, i)) /\
  params _ (train shapes tx [g] (create tx p)) (n, i) <> params _ (train shapes tx [g'] (create tx p)) (n, i).
Proof. exact (sharp ex_argsort ex_sorts eq_refl). Qed.
Print Assumptions C77_sharp.

