(** Proofs for C91. *)
From Coq Require Import List Arith Bool Reals Lia Lra.
From Verif Require Import Py SoftModel SoftSpec SoftProofs ElmModel GrdModel NngSpec SmnModel SmnSpec.
Local Open Scope nat_scope.

Lemma sumf_split n i (f : nat -> R) : i < n -> sumf n f = (f i + sumf n (fun j => if i =? j then 0 else f j))%R.
Proof.
  induction n as [|n IH]; intros H; [lia|]. cbn [sumf]. destruct (Nat.eq_dec i n) as [->|N].
  - rewrite Nat.eqb_refl. rewrite (sumf_ext n (fun j => if n =? j then 0 else f j)%R f); [ring|]. intros j Hj. destruct (Nat.eqb_spec n j); [lia|auto].
  - rewrite IH by lia. destruct (Nat.eqb_spec i n); [lia|]. ring.
Qed.
Definition diag_sum (G n : nat) (sim : nat -> nat -> nat -> R) : R := sumf G (fun g => sumf n (fun i => 1 - sim g i i))%R.
Definition off_sum (G n : nat) (sim : nat -> nat -> nat -> R) : R := sumf G (fun g => sumf n (fun i => sumf n (fun j => if i =? j then 0 else sim g i j)))%R.
Lemma sum_parts G n sim : (sim_sum G n sim - INR (G * n) = off_sum G n sim - diag_sum G n sim)%R.
Proof.
  assert (E : forall g, (sumf n (fun i => sumf n (fun j => sim g i j)) = sumf n (fun i => sumf n (fun j => if i =? j then 0 else sim g i j)) + (INR n + -1 * sumf n (fun i => 1 - sim g i i)))%R).
  { intros g. rewrite (sumf_ext n (fun i => sumf n (fun j => sim g i j)) (fun i => sumf n (fun j => if i =? j then 0 else sim g i j) + (1 + -1 * (1 - sim g i i)))%R).
    - rewrite sumf_plus, sumf_plus, sumf_scale, sumf_const. ring.
    - intros i Hi. rewrite (sumf_split n i (fun j => sim g i j) Hi). ring. }
  unfold sim_sum, off_sum, diag_sum. rewrite (sumf_ext G _ _ (fun g _ => E g)). rewrite sumf_plus, sumf_plus, sumf_scale, sumf_const, mult_INR. ring.
Qed.
Lemma den_pos G n : 1 <= G -> 2 <= n -> (0 < INR G * INR n * (INR n - 1))%R.
Proof.
  intros HG Hn. assert (0 < INR G)%R by (apply lt_0_INR; lia). assert (1 < INR n)%R by (apply (lt_INR 1); lia).
  repeat apply Rmult_lt_0_compat; lra.
Qed.
Lemma ediv_fin a b : (b <> 0)%R -> ediv (Fin a) (Fin b) = Fin (a / b).
Proof. intros H. cbn. destruct (Req_EM_T b 0); [contradiction|auto]. Qed.
Lemma pair_mean_off G n sim : pair_mean G n sim = (off_sum G n sim / (INR G * INR n * (INR n - 1)))%R.
Proof.
  unfold pair_mean, off_sum. rewrite <- Rmult_assoc. f_equal. rewrite <- sumf_to. apply sumf_ext. intros g _. rewrite <- sumf_to. apply sumf_ext. intros i _. symmetry. apply sumf_to.
Qed.
(** The reported mean is too low by what the diagonal misses. *)
Lemma mean_eq G n sim : 1 <= G -> 2 <= n ->
  sim_mean G n sim = Fin (pair_mean G n sim - diag_sum G n sim / (INR G * INR n * (INR n - 1))).
Proof.
  intros HG Hn. pose proof (den_pos G n HG Hn) as P. unfold sim_mean. rewrite ediv_fin by lra. rewrite sum_parts, pair_mean_off. f_equal. field.
  assert (0 < INR G)%R by (apply lt_0_INR; lia). assert (1 < INR n)%R by (apply (lt_INR 1); lia). lra.
Qed.
Lemma diag_bound G n sim e : 1 <= G -> 2 <= n -> (forall g i, g < G -> i < n -> (0 <= 1 - sim g i i <= e)%R) ->
  (0 <= diag_sum G n sim / (INR G * INR n * (INR n - 1)) <= e / (INR n - 1))%R.
Proof.
  intros HG Hn H. pose proof (den_pos G n HG Hn) as P.
  assert (0 < INR G)%R by (apply lt_0_INR; lia). assert (1 < INR n)%R by (apply (lt_INR 1); lia).
  assert (Lo : (0 <= diag_sum G n sim)%R).
  { unfold diag_sum. apply sumf_nonneg. intros g Hg. apply sumf_nonneg. intros i Hi. apply H; auto. }
  assert (Hi : (diag_sum G n sim <= INR G * (INR n * e))%R).
  { unfold diag_sum. rewrite <- sumf_const. apply sumf_le. intros g Hg. rewrite <- sumf_const. apply sumf_le. intros i Hi. apply H; auto. }
  split.
  - apply Rmult_le_pos; auto. apply Rlt_le, Rinv_0_lt_compat; auto.
  - apply Rmult_le_reg_r with (INR G * INR n * (INR n - 1))%R; auto.
    replace (diag_sum G n sim / (INR G * INR n * (INR n - 1)) * (INR G * INR n * (INR n - 1)))%R with (diag_sum G n sim) by (field; lra).
    replace (e / (INR n - 1) * (INR G * INR n * (INR n - 1)))%R with (INR G * (INR n * e))%R by (field; lra). auto.
Qed.
Lemma eps9_pos : (0 < eps9)%R.
Proof. unfold eps9. apply Rinv_0_lt_compat. lra. Qed.
Definition sq (L : nat) (x : nat -> nat -> R) (i : nat) : R := sumf L (fun d => x d i * x d i)%R.
Lemma sq_pos L x i : (0 <= sq L x i)%R.
Proof. apply sumf_nonneg. intros. apply Rle_0_sqr. Qed.
Lemma self_sim L x i : (1 - cosine_psim L x i i = eps9 / (sq L x i + eps9))%R.
Proof.
  unfold cosine_psim. fold (sq L x i). pose proof (sq_pos L x i) as P. pose proof eps9_pos as E.
  set (r := sqrt (sq L x i + eps9)). assert (R0 : (0 < r)%R) by (apply sqrt_lt_R0; lra). assert (R2 : (r * r = sq L x i + eps9)%R) by (apply sqrt_sqrt; lra).
  rewrite (sumf_ext L _ (fun d => (x d i * x d i) * (/ r * / r))%R) by (intros; ring). rewrite sumf_scale_r. fold (sq L x i). rewrite <- R2.
  replace eps9 with (r * r - sq L x i)%R at 1 by lra. field. lra.
Qed.
(** Weights with sum 1 have a square sum of at least 1 / n. *)
Lemma square_sum n w : 1 <= n -> sumf n w = 1%R -> (/ INR n <= sumf n (fun i => w i * w i))%R.
Proof.
  intros H S1. assert (P : (0 < INR n)%R) by (apply lt_0_INR; lia).
  assert (Q : (0 <= sumf n (fun i => (w i - / INR n) * (w i - / INR n)))%R) by (apply sumf_nonneg; intros; apply Rle_0_sqr).
  rewrite (sumf_ext n _ (fun i => w i * w i + (- (2 * / INR n) * w i + / INR n * / INR n))%R) in Q by (intros; ring).
  rewrite sumf_plus, sumf_plus, sumf_scale, sumf_const, S1 in Q.
  replace (INR n * (/ INR n * / INR n))%R with (/ INR n)%R in Q by (field; lra). lra.
Qed.
Lemma deficit L x i : 1 <= L -> sumf L (fun d => x d i) = 1%R -> (0 < 1 - cosine_psim L x i i <= eps9 * INR L)%R.
Proof.
  intros HL S1. rewrite self_sim. assert (Q : (/ INR L <= sq L x i)%R) by exact (square_sum L (fun d => x d i) HL S1). pose proof eps9_pos as E.
  assert (P : (0 < INR L)%R) by (apply lt_0_INR; lia). assert (P' := Rinv_0_lt_compat _ P). split.
  - apply Rdiv_lt_0_compat; lra.
  - unfold Rdiv. apply Rmult_le_compat_l; [lra|]. rewrite <- (Rinv_inv (INR L)). apply Rinv_le_contravar; lra.
Qed.
Lemma flat_sum N P (f : nat -> nat -> R) : 1 <= P -> sumf (N * P) (fun s => f (s / P) (s mod P)) = sumf N (fun n => sumf P (f n)).
Proof.
  intros HP. induction N as [|N IH]; [reflexivity|]. cbn [sumf]. rewrite <- IH. replace (S N * P) with (N * P + P) by lia.
  assert (A : forall k, k <= P -> sumf (N * P + k) (fun s => f (s / P) (s mod P)) = (sumf (N * P)%nat (fun s => f (s / P)%nat (s mod P)%nat) + sumf k (f N))%R).
  { induction k as [|k IHk]; intros Hk; [rewrite Nat.add_0_r; cbn [sumf]; ring|]. rewrite Nat.add_succ_r. cbn [sumf]. rewrite IHk by lia.
    rewrite (Nat.add_comm (N * P) k), Nat.div_add, Nat.mod_add, Nat.div_small, Nat.mod_small by lia. cbn [Nat.add]. ring. }
  apply A. lia.
Qed.
Lemma combine_deficit N P l g i : 1 <= N -> 1 <= P -> (0 < 1 - combine_sim N P l g i i <= eps9 * INR (N * P))%R.
Proof.
  intros HN HP. unfold combine_sim. apply deficit; [nia|]. rewrite (flat_sum N P (fun n p => soft_combine N P l g i n p) HP).
  destruct (combine_convex N P l g i HN HP) as [_ <-]. rewrite <- sumf_to. apply sumf_ext. intros. apply sumf_to.
Qed.
Lemma dispatch_deficit M P l g i : 1 <= M -> (0 < 1 - dispatch_sim M P l g i i <= eps9 * INR M)%R.
Proof.
  intros HM. unfold dispatch_sim. apply deficit; auto. destruct (dispatch_convex M l g (i / P) (i mod P) HM) as [_ <-]. apply sumf_to.
Qed.
Lemma weights_mean G M N P l : 1 <= G -> 1 <= M -> 1 <= N -> 1 <= P ->
  (2 <= M -> exists v, sim_mean G M (combine_sim N P l) = Fin v /\
     (pair_mean G M (combine_sim N P l) - eps9 * INR (N * P) / (INR M - 1) <= v <= pair_mean G M (combine_sim N P l))%R) /\
  (2 <= N * P -> exists v, sim_mean G (N * P) (dispatch_sim M P l) = Fin v /\
     (pair_mean G (N * P) (dispatch_sim M P l) - eps9 * INR M / (INR (N * P) - 1) <= v <= pair_mean G (N * P) (dispatch_sim M P l))%R).
Proof.
  intros HG HM HN HP. split; intros H2; eexists; (split; [apply mean_eq; auto|]).
  - assert (B := diag_bound G M (combine_sim N P l) (eps9 * INR (N * P)) HG H2). destruct B as [B1 B2].
    { intros g i _ _. pose proof (combine_deficit N P l g i HN HP). lra. } lra.
  - assert (B := diag_bound G (N * P) (dispatch_sim M P l) (eps9 * INR M) HG H2). destruct B as [B1 B2].
    { intros g i _ _. pose proof (dispatch_deficit M P l g i HM). lra. } lra.
Qed.
(** One element per group *)
Lemma single G (sim : nat -> nat -> nat -> R) : 1 <= G -> (forall g, g < G -> (sim g 0%nat 0%nat < 1)%R) -> sim_mean G 1 sim = NInf.
Proof.
  intros HG H. unfold sim_mean. rewrite sum_parts.
  assert (O : off_sum G 1 sim = 0%R). { unfold off_sum. rewrite (sumf_ext G _ (fun _ => 0%R)); [rewrite sumf_const; ring|]. intros. cbn. ring. }
  assert (Dg : (0 < diag_sum G 1 sim)%R). { unfold diag_sum. apply sumf_pos; [lia|]. intros g Hg. cbn [sumf]. specialize (H g Hg). lra. }
  rewrite O. cbn [INR]. replace (INR G * 1 * (1 - 1))%R with 0%R by ring. cbn [ediv].
  destruct (Req_EM_T 0 0) as [_|N]; [|elim N; reflexivity]. destruct (Req_EM_T (0 - diag_sum G 1 sim) 0); [lra|]. destruct (Rlt_dec 0 (0 - diag_sum G 1 sim)); [lra|reflexivity].
Qed.
Lemma single_weights G M N P l : 1 <= G -> 1 <= N -> 1 <= P -> 1 <= M ->
  sim_mean G 1 (combine_sim N P l) = NInf /\ sim_mean G 1 (dispatch_sim M P l) = NInf.
Proof.
  intros HG HN HP HM. split; apply single; auto; intros g _; [pose proof (combine_deficit N P l g 0 HN HP)|pose proof (dispatch_deficit M P l g 0 HM)]; lra.
Qed.
(** The mean of all pairs is between the lowest and the highest. *)
Lemma pair_mean_range G n sim lo hi : 1 <= G -> 2 <= n -> (forall g i j, g < G -> i < n -> j < n -> i <> j -> (lo <= sim g i j <= hi)%R) -> (lo <= pair_mean G n sim <= hi)%R.
Proof.
  intros HG Hn H. pose proof (den_pos G n HG Hn) as P. rewrite pair_mean_off.
  assert (C : forall c, off_sum G n (fun _ _ _ => c) = (c * (INR G * INR n * (INR n - 1)))%R).
  { intros c. unfold off_sum. rewrite (sumf_ext G _ (fun _ => INR n * ((INR n - 1) * c))%R); [rewrite sumf_const; ring|].
    intros g _. rewrite (sumf_ext n _ (fun _ => (INR n - 1) * c)%R); [apply sumf_const|]. intros i Hi. pose proof (sumf_split n i (fun _ => c) Hi) as Q. rewrite sumf_const in Q. lra. }
  assert (Q : (off_sum G n (fun _ _ _ => lo) <= off_sum G n sim <= off_sum G n (fun _ _ _ => hi))%R).
  { unfold off_sum. split; apply sumf_le; intros g Hg; apply sumf_le; intros i Hi; apply sumf_le; intros j Hj; destruct (Nat.eqb_spec i j); try lra; destruct (H g i j); auto. }
  rewrite !C in Q. set (den := (INR G * INR n * (INR n - 1))%R) in *. clearbody den. split.
  - apply Rmult_le_reg_r with den; auto. unfold Rdiv. rewrite Rmult_assoc, Rinv_l by lra. lra.
  - apply Rmult_le_reg_r with den; auto. unfold Rdiv. rewrite Rmult_assoc, Rinv_l by lra. lra.
Qed.
(** mu *)
Lemma mu_mean D n P mu : 2 <= n -> exists v, sim_mean 1 n (mu_sim D P mu) = Fin v /\
  (pair_mean 1 n (mu_sim D P mu) - 1 / (INR n - 1) <= v <= pair_mean 1 n (mu_sim D P mu))%R.
Proof.
  intros H. eexists. split; [apply mean_eq; auto|]. destruct (diag_bound 1 n (mu_sim D P mu) 1 ltac:(lia) H) as [A B]; [|lra].
  intros g i _ _. unfold mu_sim. rewrite self_sim. pose proof (sq_pos D (fun d s => mu d (s / P) (s mod P)) i). pose proof eps9_pos. split.
  - apply Rlt_le, Rdiv_lt_0_compat; lra.
  - apply Rmult_le_reg_r with (sq D (fun d s => mu d (s / P)%nat (s mod P)%nat) i + eps9)%R; [lra|]. unfold Rdiv. rewrite Rmult_assoc, Rinv_l by lra. lra.
Qed.
Lemma mu_wrong : exists (mu : nat -> nat -> nat -> R) scale, (forall n p, (0 < sumf 1 (fun d => mu d n p))%R) /\
  metrics_mu_mean 4 4 1 2 1 mu scale = Fin (-1) /\ pair_mean 1 2 (mu_sim 1 1 (metrics_mu 4 4 1 2 1 mu scale)) = 0%R.
Proof.
  exists (fun _ _ _ => 1%R), 0%R. split; [intros; cbn; lra|].
  assert (Z : forall g i j, mu_sim 1 1 (metrics_mu 4 4 1 2 1 (fun _ _ _ => 1%R) 0) g i j = 0%R).
  { intros. unfold mu_sim, cosine_psim. cbn [sumf]. unfold metrics_mu. cbn [Nat.mul Nat.add Nat.ltb Nat.leb]. ring. }
  assert (O : off_sum 1 2 (mu_sim 1 1 (metrics_mu 4 4 1 2 1 (fun _ _ _ => 1%R) 0)) = 0%R) by (unfold off_sum; cbn [sumf Nat.eqb]; rewrite !Z; ring).
  assert (Pm : pair_mean 1 2 (mu_sim 1 1 (metrics_mu 4 4 1 2 1 (fun _ _ _ => 1%R) 0)) = 0%R) by (rewrite pair_mean_off, O; unfold Rdiv; ring).
  split; auto. change (metrics_mu_mean 4 4 1 2 1 (fun _ _ _ => 1%R) 0) with (sim_mean 1 2 (mu_sim 1 1 (metrics_mu 4 4 1 2 1 (fun _ _ _ => 1%R) 0))). rewrite mean_eq by lia. rewrite Pm. f_equal. unfold diag_sum. cbn [sumf]. rewrite !Z. cbn [INR]. field.
Qed.
