(** Proofs for C92. *)
From Coq Require Import List Arith Bool Reals Lia Lra.
From Verif Require Import Py SoftModel SoftSpec SoftProofs OtModel SkhModel SkhSpec.
Local Open Scope nat_scope.

(** ** Sums *)
Lemma sum_swap m n (f : nat -> nat -> R) : sumf m (fun i => sumf n (fun j => f i j)) = sumf n (fun j => sumf m (fun i => f i j)).
Proof.
  induction m as [|m IH]; cbn [sumf].
  - rewrite sumf_const. ring.
  - rewrite IH, <- sumf_plus. reflexivity.
Qed.
Lemma sumf_minus n f g : sumf n (fun i => f i - g i)%R = (sumf n f - sumf n g)%R.
Proof. rewrite (sumf_ext n _ (fun i => f i + -1 * g i)%R) by (intros; ring). rewrite sumf_plus, sumf_scale. ring. Qed.
Lemma sum_r n f a s : sumf n f = s -> sumf n (fun i => f i * a)%R = (s * a)%R.
Proof. intros <-. apply sumf_scale_r. Qed.
Lemma cauchy_schwarz n x y : (sumf n (fun i => x i * y i) * sumf n (fun i => x i * y i) <= sumf n (fun i => x i * x i) * sumf n (fun i => y i * y i))%R.
Proof.
  set (X := sumf n (fun i => x i * x i)%R). set (Y := sumf n (fun i => y i * y i)%R). set (d := sumf n (fun i => x i * y i)%R).
  assert (Y0 : (0 <= Y)%R) by (apply sumf_nonneg; intros; apply Rle_0_sqr).
  assert (X0 : (0 <= X)%R) by (apply sumf_nonneg; intros; apply Rle_0_sqr).
  assert (Q : (0 <= sumf n (fun i => (x i * Y - y i * d) * (x i * Y - y i * d)))%R) by (apply sumf_nonneg; intros; apply Rle_0_sqr).
  rewrite (sumf_ext n _ (fun i => Y * Y * (x i * x i) + (- (2 * Y * d) * (x i * y i) + d * d * (y i * y i)))%R) in Q by (intros; ring).
  rewrite !sumf_plus, !sumf_scale in Q. fold X Y d in Q.
  replace (Y * Y * X + (- (2 * Y * d) * d + d * d * Y))%R with (Y * (X * Y - d * d))%R in Q by ring.
  destruct (Req_dec Y 0) as [Z|Z].
  - assert (D0 : d = 0%R).
    { unfold d. rewrite (sumf_ext n _ (fun _ => 0%R)); [rewrite sumf_const; ring|]. intros i Hi.
      assert (V : y i = 0%R); [|rewrite V; ring].
      assert (B : (y i * y i <= Y)%R).
      { unfold Y. clear -Hi. induction n as [|n IH]; [lia|]. cbn [sumf]. destruct (Nat.eq_dec i n) as [->|].
        - assert (0 <= sumf n (fun i => y i * y i))%R by (apply sumf_nonneg; intros; apply Rle_0_sqr). lra.
        - assert (H := IH ltac:(lia)). pose proof (Rle_0_sqr (y n)) as S1. unfold Rsqr in S1. lra. }
      apply Rsqr_0_uniq. pose proof (Rle_0_sqr (y i)). unfold Rsqr in *. lra. }
    rewrite D0, Z. lra.
  - assert (Yp : (0 < Y)%R) by lra. apply Rnot_lt_le. intros H.
    assert (Y * (X * Y - d * d) < Y * 0)%R by (apply Rmult_lt_compat_l; lra). lra.
Qed.
(** Scaling the columns moves the row sums by no more than the column sums. *)
Lemma scaling_contracts m n (X : nat -> nat -> R) (f : nat -> R) : (forall i j, i < m -> j < n -> (0 <= X i j)%R) ->
  (sumf m (fun i => Rabs (sumf n (fun j => X i j * f j) - sumf n (fun j => X i j))) <= sumf n (fun j => Rabs (sumf m (fun i => X i j) * f j - sumf m (fun i => X i j))))%R.
Proof.
  intros H. eapply Rle_trans; [apply (sumf_le m _ (fun i => sumf n (fun j => X i j * Rabs (f j - 1)))%R)|].
  - intros i Hi. rewrite <- sumf_minus. eapply Rle_trans; [apply sumf_abs|]. apply sumf_le. intros j Hj.
    replace (X i j * f j - X i j)%R with (X i j * (f j - 1))%R by ring. rewrite Rabs_mult, (Rabs_pos_eq (X i j)) by auto. apply Rle_refl.
  - rewrite sum_swap. apply sumf_le. intros j Hj. rewrite sumf_scale_r.
    replace (sumf m (fun i => X i j) * f j - sumf m (fun i => X i j))%R with (sumf m (fun i => X i j) * (f j - 1))%R by ring.
    rewrite Rabs_mult, (Rabs_pos_eq (sumf m _)); [apply Rle_refl|]. apply sumf_nonneg. auto.
Qed.
(** ** Entropy *)
Lemma ln_le x : (0 < x)%R -> (ln x <= x - 1)%R.
Proof. intros H. destruct (Req_dec x 1) as [->|N]; [rewrite ln_1; lra|]. pose proof (exp_ineq1 (ln x)) as Q.
  assert (ln x <> 0)%R by (intros Z; apply N; rewrite <- (exp_ln x H), Z; apply exp_0). rewrite exp_ln in Q by auto. specialize (Q H0). lra.
Qed.
Lemma relative p q : (0 <= p)%R -> (0 < q)%R -> (0 <= p * (ln p - ln q) - p + q)%R.
Proof.
  intros [Hp|<-] Hq; [|lra]. assert (L := ln_le (q / p) ltac:(apply Rdiv_lt_0_compat; lra)).
  unfold Rdiv in L. rewrite ln_mult, ln_Rinv in L by (auto; apply Rinv_0_lt_compat; auto).
  assert (M : (p * (ln q + - ln p) <= p * (q * / p - 1))%R) by (apply Rmult_le_compat_l; lra).
  replace (p * (q * / p - 1))%R with (q - p)%R in M by (field; lra). lra.
Qed.
Lemma ln_sqrt x : (0 < x)%R -> ln x = (2 * ln (sqrt x))%R.
Proof. intros H. rewrite <- (sqrt_sqrt x) at 1 by lra. assert (0 < sqrt x)%R by (apply sqrt_lt_R0; auto). rewrite ln_mult by auto. ring. Qed.
Lemma hellinger p q : (0 < p)%R -> (0 < q)%R -> (p - q + (sqrt p - sqrt q) * (sqrt p - sqrt q) <= p * (ln p - ln q))%R.
Proof.
  intros Hp Hq. assert (Sp := sqrt_lt_R0 p Hp). assert (Sq := sqrt_lt_R0 q Hq).
  assert (Ep : (sqrt p * sqrt p = p)%R) by (apply sqrt_sqrt; lra). assert (Eq : (sqrt q * sqrt q = q)%R) by (apply sqrt_sqrt; lra).
  assert (L := ln_le (sqrt q / sqrt p) ltac:(apply Rdiv_lt_0_compat; lra)).
  unfold Rdiv in L. rewrite ln_mult, ln_Rinv in L by (auto; apply Rinv_0_lt_compat; auto).
  rewrite (ln_sqrt p), (ln_sqrt q) by auto.
  assert (M : (2 * p * (ln (sqrt q) + - ln (sqrt p)) <= 2 * p * (sqrt q * / sqrt p - 1))%R) by (apply Rmult_le_compat_l; lra).
  replace (2 * p * (sqrt q * / sqrt p - 1))%R with (2 * (sqrt p * sqrt q) - 2 * p)%R in M.
  2:{ transitivity (2 * (sqrt p * sqrt p) * (sqrt q * / sqrt p - 1))%R; [rewrite <- Ep at 2; field; lra|rewrite Ep; reflexivity]. }
  set (x := sqrt p) in *. set (y := sqrt q) in *. replace ((x - y) * (x - y))%R with (x * x + y * y - 2 * (x * y))%R by ring. lra.
Qed.

(** ** Sinkhorn *)
Section Sinkhorn.
Variables (T E : nat) (sim : nat -> nat -> R).
Hypothesis HT : 1 <= T.
Hypothesis HE : 1 <= E.
Let B := (INR T / INR E)%R.
Let st := sinkhorn T E sim (fun _ => 1%R) (fun _ => B).
Let u n := fst (st n).
Let v n := snd (st n).
Let K := kernel sim.
Let Pn n := kl_plan T E n sim.
Let c n e := sumf T (fun t => Pn n t e).

Lemma T_pos : (0 < INR T)%R.
Proof. apply lt_0_INR. lia. Qed.
Lemma E_pos : (0 < INR E)%R.
Proof. apply lt_0_INR. lia. Qed.
Lemma B_pos : (0 < B)%R.
Proof. apply Rdiv_lt_0_compat; [apply T_pos|apply E_pos]. Qed.
Lemma BE : (INR E * B = INR T)%R.
Proof. pose proof E_pos. unfold B. field. lra. Qed.
Lemma K_eq t e : K t e = exp (sim t e).
Proof. unfold K, kernel. f_equal. field. Qed.
Lemma K_pos t e : (0 < K t e)%R.
Proof. apply exp_pos. Qed.
Lemma scaling_pos m app : (0 < app)%R -> scaling m app = (m / app)%R.
Proof. intros H. unfold scaling. destruct (Rlt_dec 0 app); [auto|contradiction]. Qed.
Lemma uv_pos n : (forall t, (0 < u n t)%R) /\ (forall e, (0 < v n e)%R).
Proof.
  induction n as [|n [IHu IHv]]; [split; intros; cbn; lra|].
  assert (A : forall e, (0 < sumf T (fun t => K t e * u n t))%R) by (intros; apply sumf_pos; [lia|intros; apply Rmult_lt_0_compat; [apply K_pos|apply IHu]]).
  assert (V : forall e, (0 < v (S n) e)%R).
  { intros e. change (v (S n) e) with (scaling B (sumf T (fun t => K t e * u n t)%R)). rewrite scaling_pos by auto. apply Rdiv_lt_0_compat; [apply B_pos|auto]. }
  split; auto. intros t. change (u (S n) t) with (scaling 1 (sumf E (fun e => K t e * v (S n) e)%R)). rewrite scaling_pos.
  - apply Rdiv_lt_0_compat; [lra|]. apply sumf_pos; [lia|intros; apply Rmult_lt_0_compat; [apply K_pos|apply V]].
  - apply sumf_pos; [lia|intros; apply Rmult_lt_0_compat; [apply K_pos|apply V]].
Qed.
Lemma u_pos n t : (0 < u n t)%R. Proof. apply uv_pos. Qed.
Lemma v_pos n e : (0 < v n e)%R. Proof. apply uv_pos. Qed.
Lemma Ku_pos n e : (0 < sumf T (fun t => K t e * u n t))%R.
Proof. apply sumf_pos; [lia|intros; apply Rmult_lt_0_compat; [apply K_pos|apply u_pos]]. Qed.
Lemma Kv_pos n t : (0 < sumf E (fun e => K t e * v n e))%R.
Proof. apply sumf_pos; [lia|intros; apply Rmult_lt_0_compat; [apply K_pos|apply v_pos]]. Qed.
Lemma v_step n e : v (S n) e = (B / sumf T (fun t => K t e * u n t))%R.
Proof. change (v (S n) e) with (scaling B (sumf T (fun t => K t e * u n t)%R)). apply scaling_pos, Ku_pos. Qed.
Lemma u_step n t : u (S n) t = (1 / sumf E (fun e => K t e * v (S n) e))%R.
Proof. change (u (S n) t) with (scaling 1 (sumf E (fun e => K t e * v (S n) e)%R)). apply scaling_pos, Kv_pos. Qed.
Lemma P_eq n t e : Pn n t e = (u n t * K t e * v n e)%R.
Proof. reflexivity. Qed.
Lemma P_pos n t e : (0 < Pn n t e)%R.
Proof. rewrite P_eq. apply Rmult_lt_0_compat; [apply Rmult_lt_0_compat; [apply u_pos|apply K_pos]|apply v_pos]. Qed.
Lemma ln_P n t e : ln (Pn n t e) = (ln (u n t) + sim t e + ln (v n e))%R.
Proof.
  assert (A := u_pos n t). assert (B0 := v_pos n e). rewrite P_eq. rewrite ln_mult; [|apply Rmult_lt_0_compat; [exact A|apply K_pos]|exact B0].
  rewrite ln_mult; [|exact A|apply K_pos]. rewrite K_eq, ln_exp. reflexivity.
Qed.
Lemma rows n t : sumf E (fun e => Pn (S n) t e) = 1%R.
Proof.
  rewrite (sumf_ext E _ (fun e => u (S n) t * (K t e * v (S n) e))%R) by (intros; rewrite P_eq; ring).
  rewrite sumf_scale, u_step. pose proof (Kv_pos (S n) t). field. lra.
Qed.
Lemma c_eq n e : c n e = (v n e * sumf T (fun t => K t e * u n t))%R.
Proof. unfold c. rewrite (sumf_ext T _ (fun t => v n e * (K t e * u n t))%R) by (intros; rewrite P_eq; ring). apply sumf_scale. Qed.
Lemma c_pos n e : (0 < c n e)%R.
Proof. rewrite c_eq. apply Rmult_lt_0_compat; [apply v_pos|apply Ku_pos]. Qed.
Lemma v_next n e : v (S n) e = (v n e * (B / c n e))%R.
Proof. rewrite v_step, c_eq. pose proof (v_pos n e). pose proof (Ku_pos n e). field. lra. Qed.
(** Between the two halves of an iteration *)
Let q n t e := (Pn n t e * (B / c n e))%R.
Let rq n t := sumf E (fun e => q n t e).
Lemma q_eq n t e : q n t e = (u n t * K t e * v (S n) e)%R.
Proof. unfold q. rewrite P_eq, v_next. ring. Qed.
Lemma q_pos n t e : (0 < q n t e)%R.
Proof. apply Rmult_lt_0_compat; [apply P_pos|]. apply Rdiv_lt_0_compat; [apply B_pos|apply c_pos]. Qed.
Lemma q_cols n e : sumf T (fun t => q n t e) = B.
Proof. unfold q. rewrite sumf_scale_r. fold (c n e). pose proof (c_pos n e). field. lra. Qed.
Lemma rq_eq n t : rq n t = (u n t * sumf E (fun e => K t e * v (S n) e))%R.
Proof. unfold rq. rewrite (sumf_ext E _ (fun e => u n t * (K t e * v (S n) e))%R) by (intros; rewrite q_eq; ring). apply sumf_scale. Qed.
Lemma rq_pos n t : (0 < rq n t)%R.
Proof. rewrite rq_eq. apply Rmult_lt_0_compat; [apply u_pos|apply Kv_pos]. Qed.
Lemma u_next n t : u (S n) t = (u n t * (1 / rq n t))%R.
Proof. rewrite u_step, rq_eq. pose proof (u_pos n t). pose proof (Kv_pos (S n) t). field. lra. Qed.
Lemma P_next n t e : Pn (S n) t e = (q n t e * (1 / rq n t))%R.
Proof. rewrite P_eq, q_eq, u_next. ring. Qed.
Lemma total n : sumf E (c (S n)) = INR T.
Proof.
  unfold c. rewrite <- (sum_swap T E (fun t e => Pn (S n) t e)). rewrite (sumf_ext T _ (fun _ => 1%R)) by (intros; apply rows). rewrite sumf_const. ring.
Qed.
Lemma total_rq n : sumf T (rq n) = INR T.
Proof.
  unfold rq. rewrite sum_swap. rewrite (sumf_ext E _ (fun _ => B)) by (intros; apply q_cols). rewrite sumf_const. apply BE.
Qed.

(** The imbalance never grows. *)
Let err n := sumf E (fun e => Rabs (c n e - B)).
Lemma err_eq n : err n = imbalance T E (Pn n).
Proof. reflexivity. Qed.
Lemma err_next n : (err (S (S n)) <= err (S n))%R.
Proof.
  apply Rle_trans with (sumf T (fun t => Rabs (rq (S n) t - 1))).
  - pose proof (scaling_contracts E T (fun e t => q (S n) t e) (fun t => 1 / rq (S n) t)%R ltac:(intros; apply Rlt_le, q_pos)) as Q. cbv beta in Q.
    eapply Rle_trans; [|eapply Rle_trans; [exact Q|]]; apply Req_le.
    + apply sumf_ext. intros e He. f_equal. rewrite q_cols. f_equal. unfold c. apply sumf_ext. intros t Ht. apply P_next.
    + apply sumf_ext. intros t Ht. fold (rq (S n) t). pose proof (rq_pos (S n) t). rewrite Rabs_minus_sym. f_equal. f_equal. field. lra.
  - pose proof (scaling_contracts T E (fun t e => Pn (S n) t e) (fun e => B / c (S n) e)%R ltac:(intros; apply Rlt_le, P_pos)) as Q. cbv beta in Q.
    eapply Rle_trans; [|eapply Rle_trans; [exact Q|]]; apply Req_le.
    + apply sumf_ext. intros t Ht. rewrite rows. reflexivity.
    + apply sumf_ext. intros e He. fold (c (S n) e). pose proof (c_pos (S n) e). rewrite Rabs_minus_sym. f_equal. f_equal. field. lra.
Qed.
Lemma err_mono k n : 1 <= k -> k <= n -> (err n <= err k)%R.
Proof.
  intros Hk H. induction H as [|n H IH]; [apply Rle_refl|]. destruct n as [|n]; [lia|]. eapply Rle_trans; [apply err_next|exact IH].
Qed.

(** ** The dual objective *)
Let phi n := (sumf T (fun t => ln (u n t)) + sumf E (fun e => B * ln (v n e)))%R.
Let hel n := sumf E (fun e => (sqrt B - sqrt (c n e)) * (sqrt B - sqrt (c n e)))%R.
Lemma ln_div x y : (0 < x)%R -> (0 < y)%R -> ln (x / y) = (ln x - ln y)%R.
Proof. intros P0 Q0. unfold Rdiv. rewrite ln_mult, ln_Rinv by (auto; apply Rinv_0_lt_compat; auto). ring. Qed.
Lemma phi_next n : (phi (S n) + hel (S n) <= phi (S (S n)))%R.
Proof.
  unfold phi.
  rewrite (sumf_ext T (fun t => ln (u (S (S n)) t)) (fun t => ln (u (S n) t) + (ln 1 - ln (rq (S n) t)))%R).
  2:{ intros t Ht. pose proof (rq_pos (S n) t) as R0. rewrite u_next, ln_mult, ln_div by first [apply u_pos|exact R0|exact Rlt_0_1|apply Rdiv_lt_0_compat; [exact Rlt_0_1|exact R0]]. reflexivity. }
  rewrite (sumf_ext E (fun e => B * ln (v (S (S n)) e))%R (fun e => B * ln (v (S n) e) + B * (ln B - ln (c (S n) e)))%R).
  2:{ intros e He. pose proof (c_pos (S n) e) as C0. pose proof B_pos as B0. rewrite v_next, ln_mult, ln_div by first [apply v_pos|exact C0|exact B0|apply Rdiv_lt_0_compat; assumption]. ring. }
  rewrite !sumf_plus.
  assert (H1 : (hel (S n) <= sumf E (fun e => B * (ln B - ln (c (S n) e))))%R).
  { apply Rle_trans with (sumf E (fun e => (B - c (S n) e) + (sqrt B - sqrt (c (S n) e)) * (sqrt B - sqrt (c (S n) e))))%R.
    - rewrite sumf_plus, sumf_minus, sumf_const, BE. change (fun e => c (S n) e) with (c (S n)). rewrite total. unfold hel. lra.
    - apply sumf_le. intros. apply hellinger; [apply B_pos|apply c_pos]. }
  assert (H2 : (0 <= sumf T (fun t => ln 1 - ln (rq (S n) t)))%R).
  { apply Rle_trans with (sumf T (fun t => 1 - rq (S n) t))%R.
    - rewrite sumf_minus, sumf_const. change (fun t => rq (S n) t) with (rq (S n)). rewrite total_rq. lra.
    - apply sumf_le. intros t Ht. pose proof (relative 1 (rq (S n) t) ltac:(lra) (rq_pos (S n) t)). lra. }
  lra.
Qed.
Lemma phi_sum n : (phi 1 + sumf n (fun k => hel (S k)) <= phi (S n))%R.
Proof. induction n as [|n IH]; [cbn [sumf]; lra|]. cbn [sumf]. pose proof (phi_next n). lra. Qed.
(** Weak duality *)
Lemma dual n P : nonnegative T E P -> tokens_sum T E P -> experts_sum T E P -> (entropic_value T E sim P <= INR T - phi (S n))%R.
Proof.
  intros N Rs Cs.
  assert (Q : (0 <= sumf T (fun t => sumf E (fun e => P t e * (ln (P t e) - ln (Pn (S n) t e)) - P t e + Pn (S n) t e)))%R).
  { apply sumf_nonneg. intros t Ht. apply sumf_nonneg. intros e He. apply relative; [auto|apply P_pos]. }
  assert (A : sumf T (fun t => sumf E (fun e => P t e * (ln (P t e) - ln (Pn (S n) t e)) - P t e + Pn (S n) t e))%R =
    (sumf T (fun t => ln (u (S n) t) * (-1)) + sumf T (fun t => sumf E (fun e => P t e * (- ln (v (S n) e)))) - entropic_value T E sim P + INR T)%R).
  { replace (INR T) with (sumf T (fun t => sumf E (fun e => Pn (S n) t e))) by (rewrite (sumf_ext T _ (fun _ => 1%R)) by (intros; apply rows); rewrite sumf_const; ring). unfold entropic_value. rewrite <- sumf_plus, <- sumf_minus, <- sumf_plus. apply sumf_ext. intros t Ht.
    replace (ln (u (S n) t) * -1)%R with (sumf E (fun e => P t e * (- ln (u (S n) t))))%R.
    2:{ etransitivity; [apply (sum_r E (P t)); exact (Rs t Ht)|ring]. }
    rewrite <- sumf_plus, <- sumf_minus, <- sumf_plus. apply sumf_ext. intros e He.
    rewrite ln_P. ring. }
  rewrite A in Q. rewrite sumf_scale_r in Q. rewrite sum_swap in Q.
  rewrite (sumf_ext E (fun j => sumf T (fun i => P i j * - ln (v (S n) j))%R) (fun e => (-1) * (B * ln (v (S n) e)))%R) in Q.
  2:{ intros e He. etransitivity; [apply (sum_r T (fun t => P t e)); exact (Cs e He)|fold B; ring]. }
  rewrite sumf_scale in Q. unfold phi. lra.
Qed.
Lemma value_n n : entropic_value T E sim (Pn (S n)) = (INR T - phi (S n) - sumf E (fun e => (c (S n) e - B) * ln (v (S n) e)))%R.
Proof.
  unfold entropic_value.
  rewrite (sumf_ext T _ (fun t => 1 + (-1) * ln (u (S n) t) - sumf E (fun e => Pn (S n) t e * ln (v (S n) e)))%R).
  2:{ intros t Ht. replace (1 + -1 * ln (u (S n) t))%R with (sumf E (fun e => Pn (S n) t e * (1 - ln (u (S n) t))))%R by (etransitivity; [apply (sum_r E (Pn (S n) t)); exact (rows n t)|ring]).
      rewrite <- sumf_minus. apply sumf_ext. intros e He.
      rewrite ln_P. ring. }
  rewrite sumf_minus, sumf_plus, sumf_scale, sumf_const, sum_swap.
  rewrite (sumf_ext E (fun j => sumf T (fun i => Pn (S n) i j * ln (v (S n) j))%R) (fun e => B * ln (v (S n) e) + (c (S n) e - B) * ln (v (S n) e))%R).
  2:{ intros e He. etransitivity; [apply (sum_r T (fun t => Pn (S n) t e) _ (c (S n) e)); reflexivity|ring]. }
  rewrite sumf_plus. unfold phi. lra.
Qed.
Lemma gap n P : nonnegative T E P -> tokens_sum T E P -> experts_sum T E P ->
  (entropic_value T E sim P <= entropic_value T E sim (Pn (S n)) + sumf E (fun e => (c (S n) e - B) * ln (v (S n) e)))%R.
Proof. intros A B0 C. pose proof (dual n P A B0 C). rewrite value_n. lra. Qed.
Lemma best n P : experts_sum T E (Pn (S n)) -> nonnegative T E P -> tokens_sum T E P -> experts_sum T E P ->
  (entropic_value T E sim P <= entropic_value T E sim (Pn (S n)))%R.
Proof.
  intros H A B0 C. pose proof (gap n P A B0 C) as G. rewrite (sumf_ext E _ (fun _ => 0%R)) in G; [rewrite sumf_const in G; lra|].
  intros e He. unfold c. rewrite (H e He). fold B. ring.
Qed.

(** ** Rate *)
Variables lo hi : R.
Hypothesis range : forall t e, t < T -> e < E -> (lo <= sim t e <= hi)%R.
Lemma range_le : (lo <= hi)%R.
Proof. destruct (range 0 0 ltac:(lia) ltac:(lia)). lra. Qed.
Lemma phi_above n : (phi (S n) <= INR T * (- lo - ln (INR E)))%R.
Proof.
  pose proof E_pos as Ep. pose proof T_pos as Tp.
  pose proof (dual n (fun _ _ => / INR E)%R) as D.
  assert (V : (INR T * (lo + ln (INR E) + 1) <= entropic_value T E sim (fun _ _ => / INR E))%R).
  { unfold entropic_value. rewrite <- sumf_const. apply sumf_le. intros t Ht.
    replace (lo + ln (INR E) + 1)%R with (INR E * (/ INR E * (lo + ln (INR E) + 1)))%R by (field; lra). rewrite <- sumf_const. apply sumf_le. intros e He.
    rewrite ln_Rinv by auto. destruct (range t e Ht He) as [R1 _]. assert (I := Rinv_0_lt_compat _ Ep).
    assert (/ INR E * lo <= / INR E * sim t e)%R by (apply Rmult_le_compat_l; lra). lra. }
  assert (D' := D). specialize (D' ltac:(intros t e _ _; apply Rlt_le, Rinv_0_lt_compat; auto)).
  specialize (D' ltac:(intros t _; rewrite sumf_const; field; lra)). specialize (D' ltac:(intros e _; rewrite sumf_const; reflexivity)). lra.
Qed.
Lemma phi_below : (INR T * (lo - hi) + INR T * (- hi - ln (INR E)) <= phi 1)%R.
Proof.
  pose proof E_pos as Ep. pose proof T_pos as Tp.
  assert (S1 : forall e, e < E -> (INR T * exp lo <= sumf T (fun t => K t e * u 0 t) <= INR T * exp hi)%R).
  { intros e He. rewrite <- !sumf_const. split; apply sumf_le; intros t Ht; change (u 0 t) with 1%R; rewrite Rmult_1_r, K_eq; destruct (range t e Ht He) as [[|] [|]];
      subst; auto using Rlt_le, exp_increasing, Rle_refl. all: try (apply Rlt_le, exp_increasing; lra). all: try (right; congruence). }
  assert (V : forall e, e < E -> (ln (v 1 e) >= - hi - ln (INR E))%R).
  { intros e He. rewrite v_step. destruct (S1 e He) as [S2 S3].
    assert (Sp : (0 < sumf T (fun t => K t e * u 0 t))%R) by apply Ku_pos.
    rewrite ln_div by (auto; apply B_pos). unfold B at 1. rewrite ln_div by auto.
    assert (Lh : (ln (sumf T (fun t => K t e * u 0 t)) <= ln (INR T) + hi)%R).
    { rewrite <- (ln_exp hi), <- ln_mult by (auto; apply exp_pos). destruct S3 as [S3|S3]; [apply Rlt_le, ln_increasing; auto|rewrite S3; apply Rle_refl]. }
    lra. }
  assert (U : forall t, t < T -> (ln (u 1 t) >= lo - hi)%R).
  { intros t Ht. rewrite u_step. assert (Sp : (0 < sumf E (fun e => K t e * v 1 e))%R) by apply Kv_pos.
    rewrite ln_div by (auto; lra). rewrite ln_1.
    assert (Q : (sumf E (fun e => K t e * v 1 e) <= exp (hi - lo))%R).
    { replace (exp (hi - lo)) with (INR E * (/ INR E * exp (hi - lo)))%R by (field; lra). rewrite <- sumf_const. apply sumf_le. intros e He.
      rewrite v_step. destruct (S1 e He) as [S2 S3]. destruct (range t e Ht He) as [R1 R2].
      assert (Lp : (0 < INR T * exp lo)%R) by (apply Rmult_lt_0_compat; [auto|apply exp_pos]).
      assert (Bd : (B / sumf T (fun t => K t e * u 0 t) <= B / (INR T * exp lo))%R).
      { unfold Rdiv. apply Rmult_le_compat_l; [apply Rlt_le, B_pos|]. apply Rinv_le_contravar; auto. }
      assert (Kh : (K t e <= exp hi)%R). { rewrite K_eq. destruct R2 as [R2|R2]; [apply Rlt_le, exp_increasing; auto|rewrite R2; apply Rle_refl]. }
      eapply Rle_trans; [apply Rmult_le_compat; [apply Rlt_le, K_pos| |exact Kh|exact Bd]|].
      - apply Rlt_le, Rdiv_lt_0_compat; [apply B_pos|apply Ku_pos].
      - right. unfold Rminus. rewrite exp_plus, exp_Ropp. unfold B. pose proof (exp_pos lo). field. lra. }
    assert (ln (sumf E (fun e => K t e * v 1 e)) <= hi - lo)%R.
    { rewrite <- (ln_exp (hi - lo)). destruct Q as [Q|Q]; [apply Rlt_le, ln_increasing; auto|rewrite Q; apply Rle_refl]. }
    lra. }
  unfold phi. apply Rplus_le_compat.
  - rewrite <- sumf_const. apply sumf_le. intros t Ht. specialize (U t Ht). lra.
  - replace (INR T * (- hi - ln (INR E)))%R with (INR E * (B * (- hi - ln (INR E))))%R by (rewrite <- Rmult_assoc, BE; reflexivity).
    rewrite <- sumf_const. apply sumf_le. intros e He. specialize (V e He). apply Rmult_le_compat_l; [apply Rlt_le, B_pos|lra].
Qed.
Lemma err_hel n : (err (S n) * err (S n) <= 4 * INR T * hel (S n))%R.
Proof.
  pose proof (cauchy_schwarz E (fun e => Rabs (sqrt B - sqrt (c (S n) e))) (fun e => sqrt B + sqrt (c (S n) e))%R) as Q. cbv beta in Q.
  assert (A1 : sumf E (fun e => Rabs (sqrt B - sqrt (c (S n) e)) * (sqrt B + sqrt (c (S n) e)))%R = err (S n)).
  { unfold err. apply sumf_ext. intros e He. rewrite <- (Rabs_pos_eq (sqrt B + sqrt (c (S n) e))) by (apply Rplus_le_le_0_compat; apply sqrt_pos).
    rewrite <- Rabs_mult. rewrite Rabs_minus_sym. f_equal. pose proof (c_pos (S n) e). pose proof B_pos.
    replace ((sqrt B - sqrt (c (S n) e)) * (sqrt B + sqrt (c (S n) e)))%R with (sqrt B * sqrt B - sqrt (c (S n) e) * sqrt (c (S n) e))%R by ring. rewrite !sqrt_sqrt by lra. reflexivity. }
  assert (A2 : sumf E (fun e => Rabs (sqrt B - sqrt (c (S n) e)) * Rabs (sqrt B - sqrt (c (S n) e)))%R = hel (S n)).
  { unfold hel. apply sumf_ext. intros e He. rewrite <- Rabs_mult. apply Rabs_pos_eq, Rle_0_sqr. }
  assert (A3 : (sumf E (fun e => (sqrt B + sqrt (c (S n) e)) * (sqrt B + sqrt (c (S n) e))) <= 4 * INR T)%R).
  { apply Rle_trans with (sumf E (fun e => 2 * B + 2 * c (S n) e)%R).
    - apply sumf_le. intros e He. pose proof (c_pos (S n) e). pose proof B_pos. pose proof (Rle_0_sqr (sqrt B - sqrt (c (S n) e))) as Z. unfold Rsqr in Z.
      assert (E1 : (sqrt B * sqrt B = B)%R) by (apply sqrt_sqrt; lra). assert (E2 : (sqrt (c (S n) e) * sqrt (c (S n) e) = c (S n) e)%R) by (apply sqrt_sqrt; lra).
      set (x := sqrt B) in *. set (y := sqrt (c (S n) e)) in *. rewrite <- E1, <- E2. lra.
    - rewrite sumf_plus, sumf_const, sumf_scale. change (fun e => c (S n) e) with (c (S n)). rewrite total. pose proof BE. lra. }
  rewrite A1, A2 in Q. assert (H0 : (0 <= hel (S n))%R) by (unfold hel; apply sumf_nonneg; intros; apply Rle_0_sqr).
  eapply Rle_trans; [exact Q|]. rewrite (Rmult_comm (4 * INR T)). apply Rmult_le_compat_l; auto.
Qed.
(** The scalings of the columns differ by a bounded factor. *)
Lemma v_close n e : e < E -> (Rabs (ln (v (S n) e) - ln (v (S n) 0)) <= hi - lo)%R.
Proof.
  assert (M : forall e e', e < E -> e' < E -> (ln (v (S n) e') - ln (v (S n) e) <= hi - lo)%R).
  { clear e. intros e e' He He'. rewrite !v_step, !ln_div; try apply B_pos; try apply Ku_pos.
    assert (A : (sumf T (fun t => K t e * u n t) <= exp (hi - lo) * sumf T (fun t => K t e' * u n t))%R).
    { rewrite <- sumf_scale. apply sumf_le. intros t Ht. rewrite <- Rmult_assoc. apply Rmult_le_compat_r; [apply Rlt_le, u_pos|].
      rewrite !K_eq, <- exp_plus. destruct (range t e Ht He). destruct (range t e' Ht He'). destruct (Rle_lt_or_eq_dec (sim t e) (hi - lo + sim t e')) as [L|L]; [lra| |].
      - apply Rlt_le, exp_increasing. exact L.
      - rewrite L. apply Rle_refl. }
    assert (A2 : (ln (sumf T (fun t => K t e * u n t)) <= (hi - lo) + ln (sumf T (fun t => K t e' * u n t)))%R).
    { rewrite <- (ln_exp (hi - lo)), <- ln_mult by (try apply Ku_pos; apply exp_pos).
      destruct A as [A|A]; [apply Rlt_le, ln_increasing; [apply Ku_pos|exact A]|rewrite A; apply Rle_refl]. }
    lra. }
  intros He. apply Rabs_le. pose proof (M e 0 He ltac:(lia)). pose proof (M 0 e ltac:(lia) He). lra.
Qed.
Lemma near_best n P : nonnegative T E P -> tokens_sum T E P -> experts_sum T E P ->
  (entropic_value T E sim P <= entropic_value T E sim (Pn (S n)) + (hi - lo) * err (S n))%R.
Proof.
  intros A B0 C. pose proof (gap n P A B0 C) as G. eapply Rle_trans; [exact G|]. apply Rplus_le_compat_l.
  apply Rle_trans with (sumf E (fun e => (c (S n) e - B) * (ln (v (S n) e) - ln (v (S n) 0))))%R.
  - right. rewrite (sumf_ext E (fun e => (c (S n) e - B) * (ln (v (S n) e) - ln (v (S n) 0)))%R (fun e => (c (S n) e - B) * ln (v (S n) e) - (c (S n) e - B) * ln (v (S n) 0))%R) by (intros; ring).
    rewrite sumf_minus, (sum_r E (fun e => c (S n) e - B)%R (ln (v (S n) 0)) 0%R); [ring|].
    rewrite sumf_minus, sumf_const, BE. change (fun e => c (S n) e) with (c (S n)). rewrite total. ring.
  - unfold err. rewrite <- sumf_scale. apply sumf_le. intros e He. eapply Rle_trans; [apply Rle_abs|]. rewrite Rabs_mult, Rmult_comm.
    apply Rmult_le_compat_r; [apply Rabs_pos|apply v_close; auto].
Qed.
Lemma rate n : 1 <= n -> (INR n * (err n * err n) <= 8 * (INR T * INR T) * (hi - lo))%R.
Proof.
  intros Hn. pose proof T_pos as Tp.
  assert (A : (INR n * (err n * err n) <= sumf n (fun k => 4 * INR T * hel (S k)))%R).
  { rewrite <- sumf_const. apply sumf_le. intros k Hk. eapply Rle_trans; [|apply err_hel].
    assert (M := err_mono (S k) n ltac:(lia) ltac:(lia)).
    assert (Z : (0 <= err n)%R) by (unfold err; apply sumf_nonneg; intros; apply Rabs_pos). apply Rmult_le_compat; auto. }
  rewrite sumf_scale in A. pose proof (phi_sum n) as S1. pose proof (phi_above n) as S2. pose proof phi_below as S3.
  assert (Q : (sumf n (fun k => hel (S k)) <= 2 * INR T * (hi - lo))%R) by lra.
  eapply Rle_trans; [exact A|]. replace (8 * (INR T * INR T) * (hi - lo))%R with (4 * INR T * (2 * INR T * (hi - lo)))%R by ring.
  apply Rmult_le_compat_l; [lra|exact Q].
Qed.
End Sinkhorn.
