(** Proofs for C87: softmax and the losses of the router. *)
From Coq Require Import List Arith ZArith Bool Reals Lia Lra FunctionalExtensionality.
From Verif Require Import Prim PrimLemmas MoeModel MoeSpec MoeProofs SoftModel SoftSpec SoftProofs EnsProofs EvalModel AuxModel ElmModel ElmProofs GrdModel GrdSpec GrdProofs GrdProofs2.
Import ListNotations.
Local Open Scope nat_scope.

Lemma sum_to_scale n a f : sum_to n (fun i => (a * f i)%R) = (a * sum_to n f)%R.
Proof. rewrite <- !sumf_to. apply sumf_scale. Qed.
Lemma sum_to_plus n f g : sum_to n (fun i => (f i + g i)%R) = (sum_to n f + sum_to n g)%R.
Proof. rewrite <- !sumf_to. apply sumf_plus. Qed.
Lemma sum_to_const n a : sum_to n (fun _ => a) = (INR n * a)%R.
Proof. rewrite <- !sumf_to. apply sumf_const. Qed.
Lemma sum_to_swap n m f : sum_to n (fun i => sum_to m (fun j => f i j)) = sum_to m (fun j => sum_to n (fun i => f i j)).
Proof.
  rewrite <- !sumf_to. induction n as [|n IH]; cbn [sumf].
  - rewrite (sumf_ext m _ (fun _ => 0%R)) by (intros; rewrite <- sumf_to; reflexivity). rewrite sumf_const. lra.
  - rewrite IH, <- sumf_to, <- sumf_plus. apply sumf_ext. intros j Hj. rewrite <- !sumf_to. reflexivity.
Qed.
Lemma pos_INR' n : 1 <= n -> INR n <> 0%R.
Proof. intros H. apply not_0_INR. lia. Qed.

Lemma softmax_true E (l : R -> nat -> R) l' t0 e : 1 <= E -> e < E -> (forall i, i < E -> derivable_pt_lim (fun t => l t i) t0 (l' i)) ->
  moves (fun t => softmax E (l t) e) t0 (fst (softmax_jvp E (fun i => (l t0 i, l' i)) e)) (snd (softmax_jvp E (fun i => (l t0 i, l' i)) e)).
Proof.
  intros HE He H. split; [reflexivity|]. unfold softmax_jvp. cbn [fst snd]. unfold softmax.
  set (Z := sumf E (fun i => exp (l t0 i))).
  assert (Zp : (0 < Z)%R) by (apply sumf_pos; [lia|intros; apply exp_pos]).
  assert (De : forall i, i < E -> derivable_pt_lim (fun t => exp (l t i)) t0 (exp (l t0 i) * l' i)%R).
  { intros i Hi. apply (derivable_pt_lim_comp (fun t => l t i) exp); auto. apply derivable_pt_lim_exp. }
  assert (DZ : derivable_pt_lim (fun t => sumf E (fun i => exp (l t i))) t0 (sum_to E (fun i => exp (l t0 i) * l' i)%R)).
  { apply (derivable_pt_lim_ext (fun t => sum_to E (fun i => exp (l t i)))); [intros; symmetry; apply sumf_to|]. apply (derivable_sum t0 E (fun i t => exp (l t i))). auto. }
  pose proof (derivable_pt_lim_div (fun t => exp (l t e)) (fun t => sumf E (fun i => exp (l t i))) t0 _ _ (De e He) DZ ltac:(cbn beta; fold Z; lra)) as D.
  match goal with |- derivable_pt_lim _ _ ?v => match type of D with derivable_pt_lim _ _ ?w => replace v with w end end; [exact D|].
  fold Z. rewrite (sumf_ext E (fun i => exp (l t0 i) / Z * l' i)%R (fun i => / Z * (exp (l t0 i) * l' i))%R) by (intros; unfold Rdiv; ring).
  rewrite sumf_scale, <- sumf_to. unfold Rsqr. field. lra.
Qed.

(** ** (std / mean)**2 *)
Definition cv_grad (n : nat) (x : nat -> R) (i : nat) : R :=
  (2 * (x i - mean_of n x) / (INR n * (mean_of n x * mean_of n x)) - 2 * var_of n x / (INR n * (mean_of n x * mean_of n x * mean_of n x)))%R.
Lemma centered_sum n x : 1 <= n -> sum_to n (fun i => x i - mean_of n x)%R = 0%R.
Proof.
  intros H. rewrite (sum_to_ext n _ (fun i => x i + - mean_of n x)%R) by (intros; lra). rewrite sum_to_plus, sum_to_const. unfold mean_of. field. apply pos_INR'. auto.
Qed.
Lemma var_nonneg n x : 1 <= n -> (0 <= var_of n x)%R.
Proof.
  intros H. unfold var_of. apply Rmult_le_pos; [|apply Rlt_le, Rinv_0_lt_compat, lt_0_INR; lia]. rewrite <- sumf_to. apply sumf_nonneg. intros. apply Rle_0_sqr.
Qed.
Lemma sumf_zero n f : (forall i, i < n -> (0 <= f i)%R) -> sumf n f = 0%R -> forall i, i < n -> f i = 0%R.
Proof.
  induction n as [|n IH]; intros P Q i Hi; [lia|]. cbn [sumf] in Q.
  assert (A : (0 <= sumf n f)%R) by (apply sumf_nonneg; auto). assert (B : (0 <= f n)%R) by auto.
  destruct (Nat.eq_dec i n) as [->|]; [lra|]. apply IH; auto; [lra|lia].
Qed.
Lemma var_zero n x : 1 <= n -> (var_of n x = 0%R <-> ~ varied n x).
Proof.
  intros H. split.
  - intros V (i & j & Hi & Hj & Hij). unfold var_of in V.
    assert (Q : sumf n (fun i => (x i - mean_of n x) * (x i - mean_of n x))%R = 0%R).
    { rewrite sumf_to. apply (Rmult_eq_reg_r (/ INR n)); [rewrite Rmult_0_l; exact V|]. apply Rinv_neq_0_compat, pos_INR'. auto. }
    assert (Z : forall i, i < n -> x i = mean_of n x).
    { intros k Hk. pose proof (sumf_zero n _ (fun i _ => Rle_0_sqr (x i - mean_of n x)) Q k Hk) as Y. cbn beta in Y. apply Rmult_integral in Y. lra. }
    apply Hij. rewrite (Z i), (Z j); auto.
  - intros V. assert (Q : forall i, i < n -> x i = x 0).
    { intros i Hi. destruct (Req_EM_T (x i) (x 0)); auto. exfalso. apply V. exists i, 0. repeat split; auto; lia. }
    assert (M : mean_of n x = x 0). { unfold mean_of. rewrite (sum_to_ext n _ (fun _ => x 0)) by auto. rewrite sum_to_const. field. apply pos_INR'. auto. }
    unfold var_of. rewrite (sum_to_ext n _ (fun _ => 0%R)) by (intros i Hi; rewrite M, (Q i Hi); ring). rewrite sum_to_const. unfold Rdiv. ring.
Qed.
Lemma fwd_mean_fin n (x : nat -> ext) r : 1 <= n -> (forall i, i < n -> x i = Fin (r i)) -> fwd_mean n x = Fin (mean_of n r).
Proof.
  intros H X. unfold fwd_mean, emean. rewrite (esum_fin n x r X). cbn [ediv]. destruct (Req_EM_T (INR n) 0) as [Q|Q]; [exfalso; apply (pos_INR' n H Q)|]. reflexivity.
Qed.
Lemma fwd_centered_fin n (x : nat -> ext) r i : 1 <= n -> (forall i, i < n -> x i = Fin (r i)) -> i < n -> fwd_centered n x i = Fin (r i - mean_of n r).
Proof. intros H X Hi. unfold fwd_centered. rewrite (fwd_mean_fin n x r H X), X by auto. reflexivity. Qed.
Lemma fwd_var_fin n (x : nat -> ext) r : 1 <= n -> (forall i, i < n -> x i = Fin (r i)) -> fwd_var n x = Fin (var_of n r).
Proof.
  intros H X. unfold fwd_var, emean. rewrite (esum_fin n _ (fun i => (r i - mean_of n r) * (r i - mean_of n r))%R).
  - cbn [ediv]. destruct (Req_EM_T (INR n) 0) as [Q|Q]; [exfalso; apply (pos_INR' n H Q)|]. reflexivity.
  - intros i Hi. rewrite (fwd_centered_fin n x r i H X Hi). reflexivity.
Qed.
Lemma fwd_std_fin n (x : nat -> ext) r : 1 <= n -> (forall i, i < n -> x i = Fin (r i)) -> fwd_std n x = Fin (sqrt (var_of n r)).
Proof. intros H X. unfold fwd_std. rewrite (fwd_var_fin n x r H X). cbn [esqrt]. destruct (Rle_dec 0 (var_of n r)) as [|Q]; auto. exfalso. apply Q. apply var_nonneg. auto. Qed.
Lemma ediv_fin a b : b <> 0%R -> ediv (Fin a) (Fin b) = Fin (a / b).
Proof. intros H. cbn [ediv]. destruct (Req_EM_T b 0); [congruence|auto]. Qed.

Lemma cv_vjp_varied n (x : nat -> ext) r ct i : (forall i, i < n -> x i = Fin (r i)) -> i < n -> mean_of n r <> 0%R -> varied n r -> cv_vjp n x (Fin ct) i = Fin (ct * cv_grad n r i).
Proof.
  intros X Hi M V. assert (H : 1 <= n) by lia. pose proof (pos_INR' n H) as NI.
  assert (VP : (0 < var_of n r)%R). { destruct (var_nonneg n r H) as [|Q]; auto. exfalso. apply (proj1 (var_zero n r H)); auto. }
  pose proof (sqrt_lt_R0 _ VP) as SP. pose proof (sqrt_sqrt _ (Rlt_le _ _ VP)) as SS.
  set (mu := mean_of n r) in *. set (v := var_of n r) in *. set (q := sqrt v) in *.
  unfold cv_vjp, fwd_ratio. rewrite (fwd_mean_fin n x r H X), (fwd_std_fin n x r H X). fold mu v q.
  rewrite !(ediv_fin q mu) by auto. cbn [emul eopp]. rewrite !ediv_fin by (auto; try lra; apply Rmult_integral_contrapositive_currified; auto). cbn [emul].
  rewrite !ediv_fin by auto.
  rewrite (esum_fin n _ (fun j => (2 * ct / (mu * mu * INR n)) * (r j - mu))%R).
  - unfold mu at 3. rewrite sum_to_scale, centered_sum by auto. rewrite (fwd_centered_fin n x r i H X Hi). fold mu. cbn [emul eadd eopp]. rewrite !ediv_fin by auto. cbn [eadd]. f_equal.
    unfold cv_grad. fold mu v. rewrite <- SS. fold q. field. repeat split; auto. lra.
  - intros j Hj. rewrite (fwd_centered_fin n x r j H X Hj). fold mu. cbn [emul]. f_equal. field. repeat split; auto. lra.
Qed.
Lemma emul_nan_l x : emul NaN x = NaN. Proof. destruct x; reflexivity. Qed.
Lemma emul_nan_r x : emul x NaN = NaN. Proof. destruct x; reflexivity. Qed.
Lemma ediv_nan_l x : ediv NaN x = NaN. Proof. destruct x; reflexivity. Qed.
Lemma eadd_nan_l x : eadd NaN x = NaN. Proof. destruct x; reflexivity. Qed.
Lemma eadd_nan_r x : eadd x NaN = NaN. Proof. destruct x; reflexivity. Qed.
Lemma cv_vjp_flat n (x : nat -> ext) r ct i : (forall i, i < n -> x i = Fin (r i)) -> i < n -> ~ varied n r -> cv_vjp n x (Fin ct) i = NaN.
Proof.
  intros X Hi V. assert (H : 1 <= n) by lia. apply (var_zero n r H) in V.
  assert (Q : emul (ediv (emul (Fin ct) (emul (Fin 2) (fwd_ratio n x))) (fwd_mean n x)) (ediv (Fin (1 / 2)) (fwd_std n x)) = NaN).
  { unfold fwd_ratio. rewrite (fwd_mean_fin n x r H X), (fwd_std_fin n x r H X), V, sqrt_0. set (mu := mean_of n r).
    replace (ediv (Fin (1 / 2)) (Fin 0)) with PInf by (cbn [ediv]; destruct (Req_EM_T 0 0); [|congruence]; destruct (Req_EM_T (1 / 2) 0); [lra|]; destruct (Rlt_dec 0 (1 / 2)); [auto|lra]).
    cbn [ediv]. destruct (Req_EM_T mu 0) as [Z|Z].
    - destruct (Req_EM_T 0 0); [|congruence]. rewrite !emul_nan_r, ediv_nan_l. apply emul_nan_l.
    - cbn [emul ediv]. destruct (Req_EM_T mu 0); [congruence|]. cbn [emul]. unfold scale_inf. destruct (Req_EM_T (ct * (2 * (0 / mu)) / mu) 0) as [|Y]; auto. exfalso. apply Y. field. auto. }
  unfold cv_vjp. rewrite Q. rewrite ediv_nan_l, emul_nan_l, !eadd_nan_l. reflexivity.
Qed.

Lemma cv2_true n (x : R -> nat -> R) x' t0 : 1 <= n -> mean_of n (x t0) <> 0%R -> (forall i, i < n -> derivable_pt_lim (fun t => x t i) t0 (x' i)) ->
  derivable_pt_lim (fun t => cv2 n (x t)) t0 (sum_to n (fun i => cv_grad n (x t0) i * x' i)%R).
Proof.
  intros H M D. pose proof (pos_INR' n H) as NI.
  assert (Dc : forall h h', derivable_pt_lim h t0 h' -> derivable_pt_lim (fun t => h t / INR n)%R t0 (h' / INR n)%R).
  { intros h h' Hh. unfold Rdiv. apply (derivable_pt_lim_ext (fun t => / INR n * h t)%R); [intros; ring|]. replace (h' * / INR n)%R with (/ INR n * h')%R by ring. apply (derivable_pt_lim_scal h). auto. }
  assert (Dm : derivable_pt_lim (fun t => mean_of n (x t)) t0 (mean_of n x')).
  { unfold mean_of. apply (Dc (fun t => sum_to n (x t))). apply (derivable_sum t0 n (fun i t => x t i)). auto. }
  set (mu := mean_of n (x t0)) in *. set (c := fun i => (x t0 i - mu)%R).
  assert (Dv : derivable_pt_lim (fun t => var_of n (x t)) t0 (2 / INR n * sum_to n (fun i => c i * x' i)%R)%R).
  { replace (2 / INR n * sum_to n (fun i => c i * x' i))%R with (sum_to n (fun i => (x' i - mean_of n x') * c i + c i * (x' i - mean_of n x'))%R / INR n)%R.
    - unfold var_of. apply (Dc (fun t => sum_to n (fun i => (x t i - mean_of n (x t)) * (x t i - mean_of n (x t)))%R)).
      apply (derivable_sum t0 n (fun i t => (x t i - mean_of n (x t)) * (x t i - mean_of n (x t)))%R). intros i Hi.
      apply (derivable_pt_lim_mult (fun t => x t i - mean_of n (x t))%R (fun t => x t i - mean_of n (x t))%R t0); apply (derivable_pt_lim_minus (fun t => x t i) (fun t => mean_of n (x t))); auto.
    - rewrite (sum_to_ext n _ (fun i => 2 * (c i * x' i) + - (2 * mean_of n x') * c i)%R) by (intros; ring). rewrite sum_to_plus, !sum_to_scale. unfold c. rewrite centered_sum by auto. field. auto. }
  assert (Dmm : derivable_pt_lim (fun t => mean_of n (x t) * mean_of n (x t))%R t0 (mean_of n x' * mu + mu * mean_of n x')%R) by (apply (derivable_pt_lim_mult (fun t => mean_of n (x t)) (fun t => mean_of n (x t)) t0); auto).
  assert (MM : (mu * mu)%R <> 0%R) by (apply Rmult_integral_contrapositive_currified; auto).
  pose proof (derivable_pt_lim_div (fun t => var_of n (x t)) (fun t => mean_of n (x t) * mean_of n (x t))%R t0 _ _ Dv Dmm MM) as DD.
  unfold cv2. match goal with |- derivable_pt_lim _ _ ?v => match type of DD with derivable_pt_lim _ _ ?w => replace v with w end end; [exact DD|].
  fold mu. rewrite (sum_to_ext n (fun i => cv_grad n (x t0) i * x' i)%R (fun i => 2 / (INR n * (mu * mu)) * (c i * x' i) + - (2 * var_of n (x t0) / (INR n * (mu * mu * mu))) * x' i)%R).
  - rewrite sum_to_plus, !sum_to_scale. unfold mean_of at 1 2. unfold Rsqr. field. auto.
  - intros i Hi. unfold cv_grad. fold mu. unfold c. field. auto.
Qed.
Lemma cv_grad_flat n x i : 1 <= n -> i < n -> ~ varied n x -> cv_grad n x i = 0%R.
Proof.
  intros H Hi V. pose proof V as V'. apply (var_zero n x H) in V'. unfold cv_grad. rewrite V'.
  assert (M : (x i - mean_of n x = 0)%R).
  { unfold mean_of. rewrite (sum_to_ext n _ (fun _ => x i)). - rewrite sum_to_const. field. apply pos_INR'. auto.
    - intros j Hj. destruct (Req_EM_T (x j) (x i)); auto. exfalso. apply V. exists j, i. auto. }
  rewrite M. unfold Rdiv. ring.
Qed.
