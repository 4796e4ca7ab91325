(** Proofs for C92: limits and witnesses. *)
From Coq Require Import List Arith ZArith Bool Reals Lia Lra.
From Verif Require Import Py SoftModel SoftSpec SoftProofs OtModel SkhModel SkhSpec SkhProofs.
Local Open Scope nat_scope.

Lemma skh_rows T E n sim : 1 <= T -> 1 <= E -> 1 <= n -> tokens_sum T E (kl_plan T E n sim) /\ (forall t e, (0 < kl_plan T E n sim t e)%R).
Proof. intros HT HE Hn. destruct n as [|n]; [lia|]. split; [intros t _; exact (rows T E sim HT HE n t)|intros; exact (P_pos T E sim HT HE (S n) t e)]. Qed.
Lemma skh_mono T E k n sim : 1 <= T -> 1 <= E -> 1 <= k -> k <= n -> (imbalance T E (kl_plan T E n sim) <= imbalance T E (kl_plan T E k sim))%R.
Proof. intros HT HE Hk H. exact (err_mono T E sim HT HE k n Hk H). Qed.
Lemma skh_rate T E n sim lo hi : 1 <= T -> 1 <= E -> 1 <= n -> (forall t e, t < T -> e < E -> (lo <= sim t e <= hi)%R) ->
  (INR n * (imbalance T E (kl_plan T E n sim) * imbalance T E (kl_plan T E n sim)) <= 8 * (INR T * INR T) * (hi - lo))%R.
Proof. intros HT HE Hn R0. exact (rate T E sim HT HE lo hi R0 n Hn). Qed.
Lemma skh_best T E n sim P : 1 <= T -> 1 <= E -> 1 <= n -> experts_sum T E (kl_plan T E n sim) -> nonnegative T E P -> tokens_sum T E P -> experts_sum T E P ->
  (entropic_value T E sim P <= entropic_value T E sim (kl_plan T E n sim))%R.
Proof. intros HT HE Hn. destruct n as [|n]; [lia|]. exact (best T E sim HT HE n P). Qed.
Lemma skh_near T E n sim lo hi P : 1 <= T -> 1 <= E -> 1 <= n -> (forall t e, t < T -> e < E -> (lo <= sim t e <= hi)%R) ->
  nonnegative T E P -> tokens_sum T E P -> experts_sum T E P ->
  (entropic_value T E sim P <= entropic_value T E sim (kl_plan T E n sim) + (hi - lo) * imbalance T E (kl_plan T E n sim))%R.
Proof. intros HT HE Hn R0. destruct n as [|n]; [lia|]. exact (near_best T E sim HT HE lo hi R0 n P). Qed.

Lemma above (x : R) : exists n, (x < INR n)%R.
Proof.
  destruct (archimed x) as [H _]. exists (Z.to_nat (up x)). destruct (Z_le_gt_dec 0 (up x)) as [Z|Z].
  - rewrite INR_IZR_INZ, Z2Nat.id by exact Z. exact H.
  - apply Rlt_le_trans with (IZR (up x)); [exact H|]. apply Rle_trans with 0%R; [apply IZR_le; lia|apply pos_INR].
Qed.
Lemma abs_le_inv x b : (Rabs x <= b)%R -> (- b <= x <= b)%R.
Proof. intros H. pose proof (Rle_abs x). pose proof (Rle_abs (- x)) as Q. rewrite Rabs_Ropp in Q. lra. Qed.
(** Any matrix has a range. *)
Lemma bound1 n (f : nat -> R) : exists b, (0 <= b)%R /\ forall i, i < n -> (Rabs (f i) <= b)%R.
Proof.
  induction n as [|n [b [H0 H]]]; [exists 0%R; split; [lra|intros; lia]|]. exists (b + Rabs (f n))%R. pose proof (Rabs_pos (f n)). split; [lra|].
  intros i Hi. destruct (Nat.eq_dec i n) as [->|]; [lra|]. specialize (H i ltac:(lia)). lra.
Qed.
Lemma bound2 m n (f : nat -> nat -> R) : exists b, (0 <= b)%R /\ forall i j, i < m -> j < n -> (Rabs (f i j) <= b)%R.
Proof.
  induction m as [|m [b [H0 H]]]; [exists 0%R; split; [lra|intros; lia]|]. destruct (bound1 n (f m)) as [d [D0 D]]. exists (b + d)%R. split; [lra|].
  intros i j Hi Hj. destruct (Nat.eq_dec i m) as [->|]; [specialize (D j Hj); lra|]. specialize (H i j ltac:(lia) Hj). lra.
Qed.
Lemma imbalance_nonneg T E P : (0 <= imbalance T E P)%R.
Proof. apply sumf_nonneg. intros. apply Rabs_pos. Qed.
Lemma skh_converges T E sim eps : 1 <= T -> 1 <= E -> (0 < eps)%R -> exists N, 1 <= N /\ forall n, N <= n -> (imbalance T E (kl_plan T E n sim) <= eps)%R.
Proof.
  intros HT HE He. destruct (bound2 T E sim) as [b [b0 Hb]].
  set (D := (8 * (INR T * INR T) * (b - - b))%R).
  destruct (above (D / (eps * eps))) as [N HN]. exists (S N). split; [lia|]. intros n Hn.
  assert (Q : (INR n * (imbalance T E (kl_plan T E n sim) * imbalance T E (kl_plan T E n sim)) <= D)%R).
  { apply skh_rate; try lia. intros t e Ht Hee. specialize (Hb t e Ht Hee). apply abs_le_inv in Hb. lra. }
  apply Rnot_lt_le. intros L. set (x := imbalance T E (kl_plan T E n sim)) in *. clearbody x D.
  assert (NN : (INR N < INR n)%R) by (apply lt_INR; lia).
  assert (D1 : (D < INR n * (eps * eps))%R).
  { apply (Rmult_lt_reg_r (/ (eps * eps))); [apply Rinv_0_lt_compat; nra|]. rewrite Rmult_assoc, Rinv_r by nra. unfold Rdiv in HN. lra. }
  assert (X : (eps * eps <= x * x)%R) by (apply Rmult_le_compat; lra).
  assert (INR n * (eps * eps) <= INR n * (x * x))%R by (apply Rmult_le_compat_l; [apply pos_INR|exact X]). lra.
Qed.
(** Almost the best plan after enough iterations *)
Lemma skh_value_converges T E sim eps : 1 <= T -> 1 <= E -> (0 < eps)%R -> exists N, 1 <= N /\ forall n P, N <= n ->
  nonnegative T E P -> tokens_sum T E P -> experts_sum T E P -> (entropic_value T E sim P <= entropic_value T E sim (kl_plan T E n sim) + eps)%R.
Proof.
  intros HT HE He. destruct (bound2 T E sim) as [b [b0 Hb]].
  destruct (skh_converges T E sim (eps / (2 * b + 1)) HT HE) as [N [N1 HN]]; [apply Rdiv_lt_0_compat; lra|]. exists N. split; [auto|]. intros n P Hn A B C.
  assert (R0 : forall t e, t < T -> e < E -> (- b <= sim t e <= b)%R) by (intros t e Ht Hee; specialize (Hb t e Ht Hee); apply abs_le_inv in Hb; lra).
  pose proof (skh_near T E n sim (- b) b P HT HE ltac:(lia) R0 A B C) as Q. eapply Rle_trans; [exact Q|]. apply Rplus_le_compat_l.
  eapply Rle_trans; [apply Rmult_le_compat_l; [lra|apply HN; auto]|].
  replace eps with ((2 * b + 1) * (eps / (2 * b + 1)))%R at 2 by (field; lra). apply Rmult_le_compat_r; [apply Rlt_le, Rdiv_lt_0_compat; lra|lra].
Qed.

(** ** Two tokens and two experts that are never balanced *)
Definition sim2 (t e : nat) : R := if ((t =? 1) && (e =? 1))%bool then ln 3 else 0%R.
Lemma K2 t e : kernel sim2 t e = if ((t =? 1) && (e =? 1))%bool then 3%R else 1%R.
Proof.
  unfold kernel, sim2. destruct ((t =? 1) && (e =? 1))%bool.
  - replace (- - ln 3 / 1)%R with (ln 3) by field. apply exp_ln. lra.
  - replace (- - 0 / 1)%R with 0%R by field. apply exp_0.
Qed.
Local Notation z := 0%nat.
Local Notation o := 1%nat.
Lemma cross2 n : let P := kl_plan 2 2 n sim2 in (P z z * P o o = 3 * (P z o * P o z))%R.
Proof. intros P. unfold P, kl_plan, plan_of. rewrite !K2. cbn [Nat.eqb andb]. ring. Qed.
Lemma INR2 : INR 2 = 2%R. Proof. cbn. ring. Qed.
Lemma scaling_val m app x : (0 < app)%R -> (x * app = m)%R -> scaling m app = x.
Proof. intros H <-. rewrite scaling_pos by exact H. field. lra. Qed.
Lemma first2 : sumf 2 (fun t => kl_plan 2 2 1 sim2 t 0) = (16 / 15)%R.
Proof.
  unfold kl_plan, plan_of. cbn [sinkhorn sinkhorn_step fst snd sumf]. rewrite !K2. cbn [Nat.eqb andb]. rewrite INR2.
  rewrite (scaling_val (2 / 2) (0 + 1 * 1 + 1 * 1) (/ 2)) by lra. rewrite (scaling_val (2 / 2) (0 + 1 * 1 + 3 * 1) (/ 4)) by lra.
  rewrite (scaling_val 1 (0 + 1 * / 2 + 1 * / 4) (4 / 3)) by lra. rewrite (scaling_val 1 (0 + 1 * / 2 + 3 * / 4) (4 / 5)) by lra. field.
Qed.
Lemma solve2 p x y : (p * p = 3 * ((1 - p) * (1 - p)))%R -> (p * x + (1 - p) * y = 1)%R -> ((1 - p) * x + p * y = 1)%R -> x = 1%R /\ y = 1%R.
Proof.
  intros H A B. assert (D : ((2 * p - 1) * (x - y) = 0)%R) by lra. assert (S0 : (x + y = 2)%R) by lra.
  apply Rmult_integral in D. destruct D as [D|D]; [exfalso; assert (p = / 2)%R by lra; subst; lra|]. lra.
Qed.
Lemma back2 n : experts_sum 2 2 (kl_plan 2 2 (S (S n)) sim2) -> experts_sum 2 2 (kl_plan 2 2 (S n) sim2).
Proof.
  intros H. enough (G : (0 + kl_plan 2 2 (S n) sim2 0 0 + kl_plan 2 2 (S n) sim2 1 0 = 1 /\ 0 + kl_plan 2 2 (S n) sim2 0 1 + kl_plan 2 2 (S n) sim2 1 1 = 1)%R).
  { destruct G as [G0 G1]. intros e He. cbn [sumf]. rewrite INR2. destruct e as [|[|e]]; [rewrite G0; field|rewrite G1; field|lia]. }
  pose proof (P_next 2 2 sim2 ltac:(lia) ltac:(lia) (S n)) as Nx. pose proof (q_cols 2 2 sim2 ltac:(lia) ltac:(lia) (S n)) as Qc.
  pose proof (rq_pos 2 2 sim2 ltac:(lia) ltac:(lia) (S n)) as Rp. pose proof (c_pos 2 2 sim2 ltac:(lia) ltac:(lia) (S n)) as Cp. cbv zeta in Nx, Qc, Rp, Cp.
  pose proof (rows 2 2 sim2 ltac:(lia) ltac:(lia) (S n)) as R'. pose proof (rows 2 2 sim2 ltac:(lia) ltac:(lia) n) as R0. cbv zeta in R', R0.
  pose proof (cross2 (S (S n))) as X. cbv zeta in X.
  pose proof (H 0 ltac:(lia)) as C0. pose proof (H 1 ltac:(lia)) as C1.
  set (P' := kl_plan 2 2 (S (S n)) sim2) in *. set (P := kl_plan 2 2 (S n) sim2) in *.
  cbn [sumf] in *. rewrite INR2 in *. set (c := fun e => (0 + P z e + P o e)%R).
  pose proof (Nx 0 0) as N00. pose proof (Nx 0 1) as N01. pose proof (Nx 1 0) as N10. pose proof (Nx 1 1) as N11.
  pose proof (Qc 0) as Q0. pose proof (Qc 1) as Q1. pose proof (Rp 0) as r0p. pose proof (Rp 1) as r1p. pose proof (Cp 0) as c0p. pose proof (Cp 1) as c1p.
  pose proof (R' 0) as R'0. pose proof (R' 1) as R'1. pose proof (R0 0) as R00. pose proof (R0 1) as R01. clear Nx Qc Rp Cp R' R0 H c.
  fold P in N00, N01, N10, N11, Q0, Q1, r0p, r1p, c0p, c1p, R00, R01. clearbody P P'.
  set (c0 := (0 + P z z + P o z)%R) in *. set (c1 := (0 + P z o + P o o)%R) in *.
  set (q00 := (P z z * (2 / 2 / c0))%R) in *. set (q01 := (P z o * (2 / 2 / c1))%R) in *. set (q10 := (P o z * (2 / 2 / c0))%R) in *. set (q11 := (P o o * (2 / 2 / c1))%R) in *.
  set (r0 := (0 + q00 + q01)%R) in *. set (r1 := (0 + q10 + q11)%R) in *.
  assert (E00 : q00 = (P' z z * r0)%R) by (rewrite N00; field; lra). assert (E01 : q01 = (P' z o * r0)%R) by (rewrite N01; field; lra).
  assert (E10 : q10 = (P' o z * r1)%R) by (rewrite N10; field; lra). assert (E11 : q11 = (P' o o * r1)%R) by (rewrite N11; field; lra).
  assert (F00 : P z z = (q00 * c0)%R) by (unfold q00; field; lra). assert (F01 : P z o = (q01 * c1)%R) by (unfold q01; field; lra).
  assert (F10 : P o z = (q10 * c0)%R) by (unfold q10; field; lra). assert (F11 : P o o = (q11 * c1)%R) by (unfold q11; field; lra).
  clearbody q00 q01 q10 q11. clear N00 N01 N10 N11. set (p := P' z z) in *.
  assert (V01 : P' z o = (1 - p)%R) by lra. assert (V10 : P' o z = (1 - p)%R) by lra. assert (V11 : P' o o = p) by lra.
  rewrite V01, V10, V11 in *. 
  clearbody r0 r1.
  destruct (solve2 p r0 r1 X) as [-> ->]; [lra|lra|].
  apply (solve2 p c0 c1 X); [rewrite F00, F01, E00, E01 in R00; lra|rewrite F10, F11, E10, E11 in R01; lra].
Qed.
Lemma never2 n : 1 <= n -> ~ experts_sum 2 2 (kl_plan 2 2 n sim2).
Proof.
  intros Hn. destruct n as [|n]; [lia|]. clear Hn. induction n as [|n IH]; intros H.
  - specialize (H 0 ltac:(lia)). rewrite first2, INR2 in H. lra.
  - apply IH, back2, H.
Qed.
(** ** Two tokens and two experts that are balanced at once *)
Definition sim3 (t e : nat) : R := if t =? e then ln 3 else 0%R.
Lemma K3 t e : kernel sim3 t e = if t =? e then 3%R else 1%R.
Proof.
  unfold kernel, sim3. destruct (t =? e).
  - replace (- - ln 3 / 1)%R with (ln 3) by field. apply exp_ln. lra.
  - replace (- - 0 / 1)%R with 0%R by field. apply exp_0.
Qed.
Lemma first3 : kl_plan 2 2 1 sim3 0 0 = (3 / 4)%R /\ experts_sum 2 2 (kl_plan 2 2 1 sim3).
Proof.
  split; [|intros e He; destruct e as [|[|e]]; [| |lia]]; unfold kl_plan, plan_of; cbn [sinkhorn sinkhorn_step fst snd sumf]; rewrite !K3; cbn [Nat.eqb]; rewrite INR2.
  all: rewrite ?(scaling_val (2 / 2) (0 + 1 * 1 + 3 * 1) (/ 4)), ?(scaling_val (2 / 2) (0 + 3 * 1 + 1 * 1) (/ 4)) by lra.
  all: rewrite ?(scaling_val 1 (0 + 1 * / 4 + 3 * / 4) 1), ?(scaling_val 1 (0 + 3 * / 4 + 1 * / 4) 1) by lra. all: field.
Qed.
