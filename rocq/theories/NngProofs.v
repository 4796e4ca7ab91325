(** Proofs for C90. *)
From Coq Require Import List Arith Bool Reals Lra.
From Verif Require Import Py ElmModel GrdSpec NngModel NngSpec.
Local Open Scope nat_scope.

Lemma nonzero_0 : nonzero (Fin 0) = false.
Proof. cbn. destruct (Req_EM_T 0 0) as [|N]; [reflexivity|elim N; reflexivity]. Qed.
Lemma nonzero_r r : r <> 0%R -> nonzero (Fin r) = true.
Proof. intros H. cbn. destruct (Req_EM_T r 0); [contradiction|reflexivity]. Qed.
Lemma at_zero y ct : multiply_no_nan (Fin 0) y = Fin 0 /\ multiply_no_nan_vjp (Fin 0) y ct = (Fin 0, Fin 0).
Proof. unfold multiply_no_nan, multiply_no_nan_vjp. rewrite nonzero_0. auto. Qed.
Lemma elsewhere x y ct : nonzero x = true -> multiply_no_nan x y = emul x y /\ multiply_no_nan_vjp x y ct = (emul ct y, emul ct x).
Proof. intros H. unfold multiply_no_nan, multiply_no_nan_vjp. rewrite H. auto. Qed.
Lemma safe x y ct : is_number x -> is_number ct -> (x <> Fin 0 -> is_number y) ->
  is_number (multiply_no_nan x y) /\ is_number (fst (multiply_no_nan_vjp x y ct)) /\ is_number (snd (multiply_no_nan_vjp x y ct)).
Proof.
  intros (r & ->) (c & ->) H. destruct (Req_dec r 0) as [->|N].
  - destruct (at_zero y (Fin c)) as [-> ->]. unfold is_number. cbn. repeat split; eexists; reflexivity.
  - destruct (elsewhere (Fin r) y (Fin c) (nonzero_r r N)) as [-> ->]. destruct H as (q & ->); [congruence|]. unfold is_number. cbn. repeat split; eexists; reflexivity.
Qed.
Lemma values a b : multiply_no_nan (Fin a) (Fin b) = Fin (a * b).
Proof.
  destruct (Req_dec a 0) as [->|N].
  - destruct (at_zero (Fin b) (Fin 0)) as [-> _]. f_equal. ring.
  - destruct (elsewhere (Fin a) (Fin b) (Fin 0) (nonzero_r a N)) as [-> _]. reflexivity.
Qed.
Lemma true_gradient (x y : R -> R) x' y' t0 c : derivable_pt_lim x t0 x' -> derivable_pt_lim y t0 y' -> x t0 <> 0%R \/ x' = 0%R \/ y t0 = 0%R ->
  exists f gx gy, (forall t, multiply_no_nan (Fin (x t)) (Fin (y t)) = Fin (f t)) /\ multiply_no_nan_vjp (Fin (x t0)) (Fin (y t0)) (Fin c) = (Fin gx, Fin gy) /\
    derivable_pt_lim (fun t => c * f t)%R t0 (gx * x' + gy * y')%R.
Proof.
  intros X Y H. exists (fun t => x t * y t)%R.
  assert (Q : derivable_pt_lim (fun t => c * (x t * y t))%R t0 (c * (x' * y t0 + x t0 * y'))%R) by exact (derivable_pt_lim_scal (fun t => x t * y t)%R c t0 _ (derivable_pt_lim_mult x y t0 _ _ X Y)).
  destruct (Req_dec (x t0) 0) as [Z|N].
  - exists 0%R, 0%R. split; [intros; apply values|]. split; [rewrite Z; apply at_zero|].
    match goal with |- derivable_pt_lim _ _ ?v => match type of Q with derivable_pt_lim _ _ ?w => replace v with w end end; [exact Q|].
    rewrite Z. destruct H as [H|[H|H]]; [contradiction| |]; rewrite H; ring.
  - exists (c * y t0)%R, (c * x t0)%R. split; [intros; apply values|]. split; [apply (elsewhere (Fin (x t0)) (Fin (y t0)) (Fin c)), nonzero_r; auto|].
    match goal with |- derivable_pt_lim _ _ ?v => match type of Q with derivable_pt_lim _ _ ?w => replace v with w end end; [exact Q|]. ring.
Qed.
Lemma wrong_at_zero : exists (y : R) gx gy, multiply_no_nan_vjp (Fin 0) (Fin y) (Fin 1) = (Fin gx, Fin gy) /\
  exists f, (forall t, multiply_no_nan (Fin t) (Fin y) = Fin (f t)) /\ derivable_pt_lim f 0 y /\ gx <> y.
Proof.
  exists 3%R, 0%R, 0%R. split; [apply at_zero|]. exists (fun t => t * 3)%R. split; [intros; apply values|]. split; [|lra].
  pose proof (derivable_pt_lim_mult (fun t => t) (fun _ => 3%R) 0%R _ _ (derivable_pt_lim_id 0) (derivable_pt_lim_const 3 0)) as Q. cbv beta in Q.
  replace (1 * 3 + 0 * 0)%R with 3%R in Q by ring. exact Q.
Qed.
Lemma plain x y ct : plain_where x y = multiply_no_nan x y /\
  (x = Fin 0 -> ~ is_number y -> is_number ct -> fst (plain_where_vjp x y ct) = NaN).
Proof.
  split.
  - unfold plain_where, multiply_no_nan. destruct (nonzero x); reflexivity.
  - intros -> Y (c & ->). unfold plain_where_vjp. rewrite nonzero_0. cbn [where_vjp fst mul_vjp].
    destruct y; [exfalso; apply Y; eexists; reflexivity| | |reflexivity]; cbn; unfold scale_inf; destruct (Req_EM_T 0 0); auto; contradiction.
Qed.
Lemma xent_cotangent (labels : nat -> R) (log_p : nat -> ext) ct c : (labels c <> 0%R -> is_number (log_p c)) ->
  is_number (fst (xent_vjp (fun c => Fin (labels c)) log_p (Fin ct) c)) /\ snd (xent_vjp (fun c => Fin (labels c)) log_p (Fin ct) c) = Fin (- (ct * labels c)).
Proof.
  intros H. unfold xent_vjp. cbn [eopp]. destruct (Req_dec (labels c) 0) as [->|N].
  - destruct (at_zero (log_p c) (Fin (- ct))) as [_ ->]. split; [eexists; reflexivity|]. cbn. f_equal. ring.
  - destruct (H N) as (q & ->). destruct (elsewhere (Fin (labels c)) (Fin q) (Fin (- ct)) (nonzero_r _ N)) as [_ ->]. split; [eexists; reflexivity|]. cbn. f_equal. ring.
Qed.
