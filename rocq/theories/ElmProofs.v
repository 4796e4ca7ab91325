(** Proofs for C47. *)
From Coq Require Import String List Arith Bool Reals Lia Lra.
From Verif Require Import Prim MoeModel SoftModel SoftSpec SoftProofs PyLemmas ElmModel ElmSpec.
From Verif Require Import Py.
Import ListNotations.
Local Open Scope nat_scope.

(** ** Sums and logarithms *)
Lemma to_ext n f g : (forall i, i < n -> f i = g i) -> sum_to n f = sum_to n g.
Proof. intros H. rewrite <- !sumf_to. apply sumf_ext, H. Qed.
Lemma to_scale_r n a f : sum_to n (fun i => (f i * a)%R) = (sum_to n f * a)%R.
Proof. rewrite <- !sumf_to. apply sumf_scale_r. Qed.
Lemma to_plus n f g : sum_to n (fun i => (f i + g i)%R) = (sum_to n f + sum_to n g)%R.
Proof. rewrite <- !sumf_to. apply sumf_plus. Qed.
Lemma to_le n f g : (forall i, i < n -> (f i <= g i)%R) -> (sum_to n f <= sum_to n g)%R.
Proof. rewrite <- !sumf_to. apply sumf_le. Qed.
Lemma to_nonneg n f : (forall i, i < n -> (0 <= f i)%R) -> (0 <= sum_to n f)%R.
Proof. rewrite <- !sumf_to. apply sumf_nonneg. Qed.
Lemma to_const n a : sum_to n (fun _ => a) = (INR n * a)%R.
Proof. rewrite <- !sumf_to. apply sumf_const. Qed.
Lemma sum_S n f : sum_to (S n) f = (sum_to n f + f n)%R.
Proof. rewrite <- !sumf_to. cbn [sumf]. lra. Qed.
Lemma to_swap n m f : sum_to n (fun i => sum_to m (f i)) = sum_to m (fun j => sum_to n (fun i => f i j)).
Proof.
  induction n as [|n IH].
  - replace (sum_to 0 (fun i => sum_to m (f i))) with 0%R by reflexivity. symmetry. rewrite (to_ext m _ (fun _ => 0%R)); [rewrite to_const; lra|reflexivity].
  - rewrite sum_S, IH. rewrite <- to_plus. apply to_ext. intros j Hj. rewrite sum_S. reflexivity.
Qed.
Lemma to_elem n f i : i < n -> (forall j, j < n -> (0 <= f j)%R) -> (f i <= sum_to n f)%R.
Proof.
  induction n as [|n IH]; intros Hi H; [lia|]. rewrite sum_S. assert (N := to_nonneg n f (fun j Hj => H j ltac:(lia))).
  destruct (Nat.eq_dec i n) as [->|Q]; [lra|]. assert (A := IH ltac:(lia) (fun j Hj => H j ltac:(lia))). assert (B := H n ltac:(lia)). lra.
Qed.
Lemma esum_fin n f g : (forall i, i < n -> f i = Fin (g i)) -> esum n f = Fin (sum_to n g).
Proof.
  unfold esum, sum_to. intros H. assert (K : forall l, (forall i, List.In i l -> i < n) -> fold_right eadd (Fin 0) (map f l) = Fin (fold_right Rplus 0%R (map g l))).
  { induction l as [|a l IH]; intros Q; auto. cbn [map fold_right]. rewrite IH by (intros; apply Q; right; auto). rewrite H by (apply Q; left; auto). reflexivity. }
  apply K. intros i Hi. apply in_seq in Hi. lia.
Qed.
Lemma weight_nonneg x : (0 <= weight x)%R.
Proof. destruct x; simpl; try lra. left. apply exp_pos. Qed.
Lemma weight_elog x : (0 <= x)%R -> weight (elog (Fin x)) = x.
Proof. intros H. simpl. destruct (Req_EM_T x 0) as [->|N]; auto. destruct (Rlt_dec 0 x); [|lra]. simpl. apply exp_ln. auto. Qed.
Lemma elog_masked x : (0 <= x)%R -> masked (elog (Fin x)).
Proof. intros H. simpl. destruct (Req_EM_T x 0) as [->|N]; [left; auto|]. destruct (Rlt_dec 0 x); [|lra]. right. eauto. Qed.
Lemma elog_pos x : (0 < x)%R -> elog (Fin x) = Fin (ln x).
Proof. intros H. simpl. destruct (Req_EM_T x 0); [lra|]. destruct (Rlt_dec 0 x); [|lra]. auto. Qed.
Lemma exp_shift x r : masked x -> eexp (esub x (Fin r)) = Fin (weight x * exp (- r)).
Proof. intros [->|[v ->]]; simpl; [f_equal; lra|]. f_equal. apply exp_plus. Qed.
Lemma emaximum_fin n f : (forall c, c < n -> masked (f c)) -> (exists c r, c < n /\ f c = Fin r) -> exists r, emaximum n f = Fin r.
Proof.
  intros H (c & r & Hc & E).
  assert (K : forall l, (forall i, List.In i l -> i < n) -> masked (fold_right emax NInf (map f l)) /\ (List.In c l -> exists r, fold_right emax NInf (map f l) = Fin r)).
  { induction l as [|a l IH]; intros Q; [split; [left; auto|intros []]|]. cbn [map fold_right]. destruct IH as (A & B); [intros; apply Q; right; auto|].
    assert (Ma := H a (Q a (or_introl eq_refl))). split.
    - destruct Ma as [->|[v ->]], A as [->|[w ->]]; simpl; unfold masked; eauto.
    - intros [->|I].
      + rewrite E. destruct A as [->|[w ->]]; simpl; eauto.
      + destruct (B I) as (w & ->). destruct Ma as [->|[v ->]]; simpl; eauto. }
  apply K; [intros i Hi; apply in_seq in Hi; lia|apply in_seq; lia].
Qed.
Lemma logsumexp_ok n f : (forall i, i < n -> masked (f i)) -> logsumexp n f = elog (Fin (sum_to n (fun i => weight (f i)))).
Proof.
  intros H. unfold logsumexp. assert (X : exists r, match emaximum n f with Fin r => Fin r | _ => Fin 0 end = Fin r) by (destruct (emaximum n f); eauto).
  destruct X as (r & ->). cbv zeta. rewrite (esum_fin n _ (fun i => weight (f i) * exp (- r))%R) by (intros; apply exp_shift; auto). rewrite to_scale_r.
  assert (N : (0 <= sum_to n (fun i => weight (f i)))%R) by (apply to_nonneg; intros; apply weight_nonneg). set (t := sum_to n _) in *. assert (P := exp_pos (- r)).
  destruct (Req_EM_T t 0) as [->|Q].
  - rewrite Rmult_0_l. simpl. destruct (Req_EM_T 0 0); [auto|lra].
  - rewrite !elog_pos by (try (apply Rmult_lt_0_compat); lra). cbn [eadd]. rewrite ln_mult by lra. rewrite ln_exp. f_equal. lra.
Qed.
Lemma total_pos C row : usable C row -> (0 < sum_to C (fun c => weight (row c)))%R.
Proof.
  intros (H & c & r & Hc & E). eapply Rlt_le_trans; [|apply (to_elem C (fun c => weight (row c)) c Hc); intros; apply weight_nonneg]. cbv beta. rewrite E. apply exp_pos.
Qed.
Lemma class_prob_nonneg C row c : usable C row -> (0 <= class_prob C row c)%R.
Proof. intros U. assert (P := total_pos C row U). unfold class_prob. apply Rmult_le_pos; [apply weight_nonneg|left; apply Rinv_0_lt_compat; auto]. Qed.
Lemma class_prob_sum C row : usable C row -> sum_to C (class_prob C row) = 1%R.
Proof. intros U. assert (P := total_pos C row U). unfold class_prob, Rdiv. rewrite to_scale_r. apply Rinv_r. lra. Qed.
Lemma log_softmax_ok C row c : usable C row -> c < C -> log_softmax C row c = elog (Fin (class_prob C row c)).
Proof.
  intros U Hc. assert (P := total_pos C row U). destruct U as (H & X). destruct (emaximum_fin C row H X) as (r & EM). unfold log_softmax. rewrite EM. cbv zeta.
  rewrite (esum_fin C _ (fun c => weight (row c) * exp (- r))%R) by (intros; apply exp_shift; auto). rewrite to_scale_r. assert (PE := exp_pos (- r)).
  rewrite elog_pos by (apply Rmult_lt_0_compat; lra). rewrite ln_mult, ln_exp by lra. unfold class_prob. set (t := sum_to C _) in *.
  destruct (H c Hc) as [->|[v ->]]; cbn [weight].
  - unfold Rdiv. rewrite Rmult_0_l. simpl. destruct (Req_EM_T 0 0); [auto|lra].
  - assert (PV := exp_pos v). rewrite elog_pos by (apply Rdiv_lt_0_compat; lra). cbn [esub eadd eopp]. unfold Rdiv. rewrite ln_mult, ln_exp, ln_Rinv by (try apply Rinv_0_lt_compat; lra). f_equal. lra.
Qed.

(** ** The mean over members *)
Lemma mean_nonneg M f : (forall m, m < M -> (0 <= f m)%R) -> (0 <= mean M f)%R.
Proof.
  intros H. unfold mean. destruct M as [|M]; [unfold Rdiv; simpl; rewrite Rinv_0; lra|]. apply Rmult_le_pos; [apply to_nonneg; auto|]. left. apply Rinv_0_lt_compat. apply lt_0_INR. lia.
Qed.
Lemma log_mean_ok C BM M norm (p : nat -> nat -> R) x : 1 <= M -> BM mod M = 0 ->
  (forall r c, r < BM -> c < C -> (0 <= p r c)%R /\ norm (x r) c = elog (Fin (p r c))) ->
  exists lp, ensemble_log_mean C (BM, x) M norm = Ok (BM / M, lp) /\
    forall b c, b < BM / M -> c < C -> lp b c = elog (Fin (mean M (fun m => p (b * M + m) c))) /\ (0 <= mean M (fun m => p (b * M + m)%nat c))%R.
Proof.
  intros HM DM H. unfold ensemble_log_mean. cbn [fst snd]. replace (M =? 0) with false by (symmetry; apply Nat.eqb_neq; lia). rewrite DM. cbn [Nat.eqb orb negb]. eexists. split; [reflexivity|].
  intros b c Hb Hc. cbv beta zeta.
  assert (R : forall m, m < M -> b * M + m < BM). { intros m Hm. assert (E := Nat.div_mod BM M ltac:(lia)). nia. }
  assert (N : (0 <= mean M (fun m => p (b * M + m)%nat c))%R) by (apply mean_nonneg; intros m Hm; apply H; auto).
  split; auto. rewrite logsumexp_ok by (intros m Hm; cbv beta; destruct (H _ c (R m Hm) Hc) as (A & ->); apply elog_masked; auto).
  rewrite (to_ext M _ (fun m => p (b * M + m) c)) by (intros m Hm; cbv beta; destruct (H _ c (R m Hm) Hc) as (A & ->); apply weight_elog; auto).
  assert (PM : (0 < INR M)%R) by (apply lt_0_INR; lia). unfold mean in *. rewrite (elog_pos (INR M)) by auto.
  assert (N2 : (0 <= sum_to M (fun m => p (b * M + m)%nat c))%R) by (apply to_nonneg; intros m Hm; apply H; auto). set (t := sum_to M _) in *.
  destruct (Req_EM_T t 0) as [->|Q].
  - unfold Rdiv. rewrite Rmult_0_l. simpl. destruct (Req_EM_T 0 0); [auto|lra].
  - rewrite !elog_pos by (try (apply Rdiv_lt_0_compat); lra). cbn [esub eadd eopp]. unfold Rdiv. rewrite ln_mult, ln_Rinv by (try apply Rinv_0_lt_compat; lra). f_equal.
Qed.
Lemma log_mean_softmax C BM M x : 1 <= M -> BM mod M = 0 -> (forall r, r < BM -> usable C (x r)) ->
  exists lp, ensemble_log_mean C (BM, x) M (log_softmax C) = Ok (BM / M, lp) /\
    forall b c, b < BM / M -> c < C -> lp b c = elog (Fin (mean_prob C M x b c)) /\ (0 <= mean_prob C M x b c)%R.
Proof.
  intros HM DM U. apply (log_mean_ok C BM M (log_softmax C) (fun r => class_prob C (x r))); auto. intros r c Hr Hc. split; [apply class_prob_nonneg; auto|]. apply log_softmax_ok; auto.
Qed.
Lemma mean_prob_sum C BM M x b : 1 <= M -> BM mod M = 0 -> (forall r, r < BM -> usable C (x r)) -> b < BM / M ->
  sum_to C (mean_prob C M x b) = 1%R.
Proof.
  intros HM DM U Hb. unfold mean_prob, mean, Rdiv. rewrite to_scale_r, to_swap.
  assert (R : forall m, m < M -> b * M + m < BM). { intros m Hm. assert (E := Nat.div_mod BM M ltac:(lia)). nia. }
  rewrite (to_ext M _ (fun _ => 1%R)) by (intros m Hm; apply class_prob_sum; auto). rewrite to_const, Rmult_1_r. apply Rinv_r. apply not_0_INR. lia.
Qed.
Theorem softmax_log_mean C BM M x : 1 <= M -> BM mod M = 0 -> (forall r, r < BM -> usable C (x r)) ->
  exists lp, ensemble_log_mean C (BM, x) M (log_softmax C) = Ok (BM / M, lp) /\
    forall b, b < BM / M ->
      (forall c, c < C -> masked (lp b c) /\ weight (lp b c) = mean_prob C M x b c) /\ sum_to C (fun c => weight (lp b c)) = 1%R.
Proof.
  intros HM DM U. destruct (log_mean_softmax C BM M x HM DM U) as (lp & E & H). exists lp. split; auto. intros b Hb. assert (A : forall c, c < C -> masked (lp b c) /\ weight (lp b c) = mean_prob C M x b c).
  { intros c Hc. destruct (H b c Hb Hc) as (-> & N). split; [apply elog_masked|apply weight_elog]; auto. }
  split; auto. rewrite (to_ext C _ (mean_prob C M x b)) by (intros; apply A; auto). apply (mean_prob_sum C BM); auto.
Qed.

(** ** Losses *)
Lemma no_nan l x : (0 <= x)%R -> (l <> 0%R -> 0 < x)%R -> multiply_no_nan (Fin l) (elog (Fin x)) = Fin (if Req_EM_T l 0 then 0 else l * ln x).
Proof. intros N H. unfold multiply_no_nan, nonzero. destruct (Req_EM_T l 0) as [->|Q]; auto. rewrite elog_pos by auto. reflexivity. Qed.
Lemma softmax_eval C B M x l : 1 <= M -> (forall r, r < B * M -> usable C (x r)) ->
  exists out, ensemble_softmax_xent_eval C M (B * M, x) (finite B l) = Ok (B, out) /\
    forall b, b < B -> (forall c, c < C -> l b c <> 0%R -> (0 < mean_prob C M x b c)%R) ->
      out b = Fin (cross_entropy C (l b) (mean_prob C M x b)).
Proof.
  intros HM U. unfold ensemble_softmax_xent_eval. destruct (log_mean_softmax C (B * M) M x HM (Nat.mod_mul B M ltac:(lia)) U) as (lp & -> & H). rewrite Nat.div_mul in * by lia.
  cbn [bind fst snd finite]. rewrite Nat.eqb_refl. cbn [negb]. eexists. split; [reflexivity|]. intros b Hb P. cbv beta.
  rewrite (esum_fin C _ (fun c => if Req_EM_T (l b c) 0 then 0 else l b c * ln (mean_prob C M x b c))%R).
  - reflexivity.
  - intros c Hc. destruct (H b c Hb Hc) as (-> & N). apply no_nan; auto.
Qed.
(** A class that has a positive label but is masked by all members makes the loss infinite. *)
Lemma softmax_eval_inf C B M x l : 1 <= M -> (forall r, r < B * M -> usable C (x r)) ->
  exists out, ensemble_softmax_xent_eval C M (B * M, x) (finite B l) = Ok (B, out) /\
    forall b, b < B -> (forall c, c < C -> (0 <= l b c)%R) -> (exists c, c < C /\ l b c <> 0%R /\ mean_prob C M x b c = 0%R) -> out b = PInf.
Proof.
  intros HM U. unfold ensemble_softmax_xent_eval. destruct (log_mean_softmax C (B * M) M x HM (Nat.mod_mul B M ltac:(lia)) U) as (lp & -> & H). rewrite Nat.div_mul in * by lia.
  cbn [bind fst snd finite]. rewrite Nat.eqb_refl. cbn [negb]. eexists. split; [reflexivity|]. intros b Hb LP (c & Hc & LN & Z). cbv beta.
  set (F := fun c => multiply_no_nan (Fin (l b c)) (lp b c)).
  assert (FM : forall c, c < C -> masked (F c)).
  { intros c' Hc'. unfold F. destruct (H b c' Hb Hc') as (-> & N). unfold multiply_no_nan, nonzero. destruct (Req_EM_T (l b c') 0) as [Q|Q]; [right; eauto|].
    destruct (elog_masked _ N) as [->|(v & ->)]; [|right; simpl; eauto]. left. assert (P := LP c' Hc'). simpl. unfold scale_inf. destruct (Req_EM_T (l b c') 0); [contradiction|]. destruct (Rlt_dec 0 (l b c')); auto. lra. }
  assert (FC : F c = NInf).
  { unfold F. destruct (H b c Hb Hc) as (-> & _). rewrite Z. assert (P := LP c Hc). unfold multiply_no_nan, nonzero. destruct (Req_EM_T (l b c) 0); [contradiction|]. simpl. destruct (Req_EM_T 0 0); [|lra]. simpl. unfold scale_inf. destruct (Req_EM_T (l b c) 0); [contradiction|]. destruct (Rlt_dec 0 (l b c)); auto. lra. }
  assert (K : forall li, (forall i, List.In i li -> i < C) -> masked (fold_right eadd (Fin 0) (map F li)) /\ (List.In c li -> fold_right eadd (Fin 0) (map F li) = NInf)).
  { clearbody F. induction li as [|a li IH]; intros Q; [split; [right; simpl; eauto|intros []]|]. cbn [map fold_right]. destruct IH as (A & B'); [intros; apply Q; right; auto|].
    assert (Ma := FM a (Q a (or_introl eq_refl))). split.
    - destruct Ma as [->|[v ->]], A as [->|[w ->]]; simpl; unfold masked; eauto.
    - intros [->|I]; [rewrite FC; destruct A as [->|[w ->]]; auto|]. rewrite (B' I). destruct Ma as [->|[v ->]]; auto. }
  unfold esum. rewrite (proj2 (K (seq 0 C) ltac:(intros i Hi; apply in_seq in Hi; lia)) ltac:(apply in_seq; lia)). reflexivity.
Qed.
Lemma finite_usable C (x : nat -> nat -> R) r : 1 <= C -> usable C (fun c => Fin (x r c)).
Proof. intros H. split; [intros c _; right; eauto|]. exists 0, (x r 0). auto. Qed.
Lemma finite_prob_pos C (x : nat -> nat -> R) r c : 1 <= C -> (0 < class_prob C (fun c => Fin (x r c)) c)%R.
Proof. intros H. unfold class_prob. apply Rdiv_lt_0_compat; [apply exp_pos|]. apply (total_pos C (fun c => Fin (x r c))), finite_usable. auto. Qed.
Lemma mean_pos M f : 1 <= M -> (forall m, m < M -> (0 < f m)%R) -> (0 < mean M f)%R.
Proof.
  intros HM H. unfold mean. apply Rdiv_lt_0_compat; [|apply lt_0_INR; lia]. eapply Rlt_le_trans; [apply (H 0); lia|]. apply (to_elem M f 0); [lia|]. intros j Hj. left. auto.
Qed.
Lemma ce_form C l p : (- sum_to C (fun c => l c * ln (p c)))%R = cross_entropy C l p.
Proof. unfold cross_entropy. f_equal. apply to_ext. intros c _. destruct (Req_EM_T (l c) 0) as [->|]; lra. Qed.
Lemma softmax_train C B M x l : 1 <= C -> 1 <= M ->
  exists out, ensemble_softmax_xent_train C M (finite (B * M) x) (finite B l) = Ok (B * M, out) /\
    forall r, r < B * M -> out r = Fin (cross_entropy C (l (r / M)) (class_prob C (fun c => Fin (x r c)))).
Proof.
  intros HC HM. unfold ensemble_softmax_xent_train, softmax_cross_entropy, repeat_labels. cbn [fst snd finite]. rewrite Nat.eqb_refl. cbn [negb]. eexists. split; [reflexivity|].
  intros r Hr. cbv beta. rewrite (esum_fin C _ (fun c => l (r / M)%nat c * ln (class_prob C (fun c => Fin (x r c)) c))%R).
  - cbn [eopp]. rewrite ce_form. reflexivity.
  - intros c Hc. rewrite log_softmax_ok by (auto; apply finite_usable; auto). rewrite elog_pos by (apply finite_prob_pos; auto). reflexivity.
Qed.
(** Jensen's inequality *)
Lemma ln_le_linear x : (0 < x)%R -> (ln x <= x - 1)%R.
Proof.
  intros H. assert (E := exp_ineq1_le (ln x)). rewrite exp_ln in E by auto. lra.
Qed.
Lemma ln_mean M f : 1 <= M -> (forall m, m < M -> (0 < f m)%R) -> (mean M (fun m => ln (f m)) <= ln (mean M f))%R.
Proof.
  intros HM H. assert (P := mean_pos M f HM H). set (a := mean M f) in *. assert (PM : (0 < INR M)%R) by (apply lt_0_INR; lia).
  assert (K : (sum_to M (fun m => ln (f m)) <= sum_to M (fun m => f m * / a + (ln a - 1)))%R).
  { apply to_le. intros m Hm. assert (Q := H m Hm). assert (L := ln_le_linear (f m * / a)%R (Rmult_lt_0_compat _ _ Q (Rinv_0_lt_compat _ P))). rewrite ln_mult, ln_Rinv in L by (auto using Rinv_0_lt_compat). lra. }
  rewrite to_plus, to_scale_r, to_const in K. unfold mean at 1. apply Rmult_le_reg_r with (INR M); auto. unfold Rdiv. rewrite Rmult_assoc, Rinv_l, Rmult_1_r by lra.
  replace (sum_to M f) with (a * INR M)%R in K by (unfold a, mean; field; lra). replace (a * INR M * / a)%R with (INR M) in K by (field; lra). lra.
Qed.
Lemma mean_swap M C f : mean M (fun m => sum_to C (f m)) = sum_to C (fun c => mean M (fun m => f m c)).
Proof. unfold mean, Rdiv. rewrite to_swap, <- to_scale_r. reflexivity. Qed.
Lemma mean_scale M a f : mean M (fun m => (a * f m)%R) = (a * mean M f)%R.
Proof. unfold mean, Rdiv. rewrite (to_ext M (fun m => a * f m)%R (fun m => f m * a)%R) by (intros; lra). rewrite to_scale_r. lra. Qed.
Lemma mean_opp M f : mean M (fun m => (- f m)%R) = (- mean M f)%R.
Proof. replace (- mean M f)%R with ((-1) * mean M f)%R by lra. rewrite <- mean_scale. unfold mean. f_equal. apply to_ext. intros. lra. Qed.
Lemma mean_ext M f g : (forall m, m < M -> f m = g m) -> mean M f = mean M g.
Proof. intros H. unfold mean. f_equal. apply to_ext, H. Qed.
Lemma jensen_ce C M l (p : nat -> nat -> R) : 1 <= M -> (forall m c, m < M -> c < C -> (0 < p m c)%R) -> (forall c, c < C -> (0 <= l c)%R) ->
  (cross_entropy C l (fun c => mean M (fun m => p m c)) <= mean M (fun m => cross_entropy C l (p m)))%R.
Proof.
  intros HM P L. rewrite <- ce_form. rewrite (mean_ext M _ (fun m => - sum_to C (fun c => l c * ln (p m c)))%R) by (intros; rewrite ce_form; reflexivity). rewrite mean_opp, mean_swap. apply Ropp_le_contravar. apply to_le.
  intros c Hc. rewrite mean_scale. apply Rmult_le_compat_l; auto. apply ln_mean; auto.
Qed.
Lemma softmax_jensen C B M x l : 1 <= C -> 1 <= M -> (forall b c, b < B -> c < C -> (0 <= l b c)%R) ->
  exists ev tr ev' tr', ensemble_softmax_xent_eval C M (finite (B * M) x) (finite B l) = Ok (B, ev') /\
    ensemble_softmax_xent_train C M (finite (B * M) x) (finite B l) = Ok (B * M, tr') /\
    (forall b, b < B -> ev' b = Fin (ev b)) /\ (forall r, r < B * M -> tr' r = Fin (tr r)) /\
    forall b, b < B -> (ev b <= mean M (fun m => tr (b * M + m)%nat))%R.
Proof.
  intros HC HM L. destruct (softmax_train C B M x l HC HM) as (tr' & ET & HT).
  destruct (softmax_eval C B M (fun r c => Fin (x r c)) l HM (fun r _ => finite_usable C x r HC)) as (ev' & EE & HE).
  do 2 eexists. exists ev', tr'. split; [exact EE|]. split; [exact ET|]. split; [|split; [exact HT|]].
  - intros b Hb. apply HE; auto. intros c Hc _. apply mean_pos; auto. intros m Hm. apply finite_prob_pos. auto.
  - intros b Hb. cbv beta. rewrite (mean_ext M _ (fun m => cross_entropy C (l b) (class_prob C (fun c => Fin (x (b * M + m)%nat c))))).
    + apply (jensen_ce C M (l b) (fun m => class_prob C (fun c => Fin (x (b * M + m)%nat c)))); auto. intros m c Hm Hc. apply finite_prob_pos. auto.
    + intros m Hm. replace ((b * M + m) / M) with b; auto. rewrite Nat.div_add_l, Nat.div_small; lia.
Qed.

(** ** Sigmoid *)
Lemma yes_pos x : (0 < yes_prob x < 1)%R.
Proof.
  unfold yes_prob. assert (P := exp_pos (- x)). split; [apply Rdiv_lt_0_compat; lra|]. apply Rmult_lt_reg_r with (1 + exp (- x))%R; [lra|]. unfold Rdiv. rewrite Rmult_assoc, Rinv_l; lra.
Qed.
Lemma yes_opp x : yes_prob (- x) = (1 - yes_prob x)%R.
Proof.
  unfold yes_prob. rewrite Ropp_involutive, exp_Ropp. assert (P := exp_pos x). field. lra.
Qed.
Lemma log_sigmoid_ok x : log_sigmoid (Fin x) = Fin (ln (yes_prob x)).
Proof.
  unfold log_sigmoid, yes_prob. cbn [eopp softplus]. f_equal. assert (P := exp_pos (- x)). unfold Rdiv. rewrite Rmult_1_l, ln_Rinv by lra. f_equal. f_equal. lra.
Qed.
Lemma log_sigmoid_elog x : log_sigmoid (Fin x) = elog (Fin (yes_prob x)).
Proof. rewrite log_sigmoid_ok, elog_pos; auto. apply yes_pos. Qed.
Lemma log_mean_sigmoid C BM M x : 1 <= M -> BM mod M = 0 ->
  exists lp, ensemble_log_mean C (finite BM x) M (fun x c => log_sigmoid (x c)) = Ok (BM / M, lp) /\
    forall b c, b < BM / M -> c < C -> lp b c = Fin (ln (mean_yes M x b c)) /\ (0 < mean_yes M x b c < 1)%R.
Proof.
  intros HM DM. destruct (log_mean_ok C BM M (fun x c => log_sigmoid (x c)) (fun r c => yes_prob (x r c)) (fun r c => Fin (x r c)) HM DM) as (lp & E & H).
  { intros r c _ _. split; [left; apply yes_pos|]. apply log_sigmoid_elog. }
  exists lp. split; [exact E|]. intros b c Hb Hc. destruct (H b c Hb Hc) as (-> & _). assert (P : (0 < mean_yes M x b c)%R) by (apply mean_pos; auto; intros; apply yes_pos).
  split; [apply elog_pos, P|]. split; auto. assert (Q : (0 < mean M (fun m => 1 - yes_prob (x (b * M + m)%nat c)))%R) by (apply mean_pos; auto; intros m _; assert (Y := yes_pos (x (b * M + m) c)); lra).
  assert (T : (mean M (fun m => 1 - yes_prob (x (b * M + m)%nat c)) = 1 - mean_yes M x b c)%R).
  { unfold mean_yes, mean. rewrite (to_ext M _ (fun m => 1 + - yes_prob (x (b * M + m)%nat c))%R) by (intros; lra). rewrite to_plus, to_const. rewrite (to_ext M (fun m => - yes_prob (x (b * M + m)%nat c))%R (fun m => yes_prob (x (b * M + m)%nat c) * (-1))%R) by (intros; lra). rewrite to_scale_r. field. apply not_0_INR. lia. }
  lra.
Qed.
Lemma mean_not M x b c : 1 <= M -> mean_yes M (fun r c => - x r c)%R b c = (1 - mean_yes M x b c)%R.
Proof.
  intros HM. unfold mean_yes, mean. rewrite (to_ext M _ (fun m => 1 + yes_prob (x (b * M + m)%nat c) * (-1))%R) by (intros; rewrite yes_opp; lra). rewrite to_plus, to_const, to_scale_r. field. apply not_0_INR. lia.
Qed.
Lemma sigmoid_eval C B M x l : 1 <= M ->
  exists out, ensemble_sigmoid_xent_eval C M (finite (B * M) x) (finite B l) = Ok (B, out) /\
    forall b, b < B -> out b = Fin (binary_cross_entropy C (l b) (mean_yes M x b)).
Proof.
  intros HM. unfold ensemble_sigmoid_xent_eval.
  destruct (log_mean_sigmoid C (B * M) M x HM (Nat.mod_mul B M ltac:(lia))) as (lp & -> & H). cbn [bind].
  destruct (log_mean_sigmoid C (B * M) M (fun r c => - x r c)%R HM (Nat.mod_mul B M ltac:(lia))) as (ln' & E' & H').
  replace (ensemble_log_mean C _ M _) with (Ok (B * M / M, ln')) by (symmetry; exact E'). rewrite Nat.div_mul in * by lia. cbn [bind fst snd finite]. rewrite Nat.eqb_refl. cbn [negb]. eexists. split; [reflexivity|].
  intros b Hb. cbv beta. rewrite (esum_fin C _ (fun c => l b c * ln (mean_yes M x b c) + (1 - l b c) * ln (1 - mean_yes M x b c))%R).
  - reflexivity.
  - intros c Hc. destruct (H b c Hb Hc) as (-> & _). destruct (H' b c Hb Hc) as (-> & _). rewrite mean_not by auto. cbn [emul esub eadd eopp]. f_equal.
Qed.
Lemma sigmoid_row C x l : esum C (fun c => esub (emul (eopp (Fin (l c))) (log_sigmoid (Fin (x c)))) (emul (esub (Fin 1) (Fin (l c))) (log_sigmoid (eopp (Fin (x c)))))) =
  Fin (binary_cross_entropy C l (fun c => yes_prob (x c))).
Proof.
  rewrite (esum_fin C _ (fun c => - (l c * ln (yes_prob (x c)) + (1 - l c) * ln (1 - yes_prob (x c))))%R).
  - unfold binary_cross_entropy. f_equal. rewrite (to_ext C _ (fun c => (l c * ln (yes_prob (x c)) + (1 - l c) * ln (1 - yes_prob (x c))) * (-1))%R) by (intros; lra). rewrite to_scale_r. lra.
  - intros c Hc. cbn [eopp]. rewrite !log_sigmoid_ok, yes_opp. cbn [emul esub eadd eopp]. f_equal. lra.
Qed.
Lemma sigmoid_train C B M x l : 1 <= M ->
  exists out, ensemble_sigmoid_xent_train C M (finite (B * M) x) (finite B l) = Ok (B * M, out) /\
    forall r, r < B * M -> out r = Fin (binary_cross_entropy C (l (r / M)) (fun c => yes_prob (x r c))).
Proof.
  intros HM. unfold ensemble_sigmoid_xent_train, sigmoid_binary_cross_entropy, repeat_labels. cbn [fst snd finite]. rewrite Nat.eqb_refl. cbn [negb bind fst snd]. eexists. split; [reflexivity|].
  intros r Hr. cbv beta zeta. apply sigmoid_row.
Qed.
Lemma mean_plus M f g : mean M (fun m => (f m + g m)%R) = (mean M f + mean M g)%R.
Proof. unfold mean. rewrite to_plus. unfold Rdiv. lra. Qed.
Lemma sigmoid_jensen C B M x l : 1 <= M -> (forall b c, b < B -> c < C -> (0 <= l b c <= 1)%R) ->
  exists ev tr ev' tr', ensemble_sigmoid_xent_eval C M (finite (B * M) x) (finite B l) = Ok (B, ev') /\
    ensemble_sigmoid_xent_train C M (finite (B * M) x) (finite B l) = Ok (B * M, tr') /\
    (forall b, b < B -> ev' b = Fin (ev b)) /\ (forall r, r < B * M -> tr' r = Fin (tr r)) /\
    forall b, b < B -> (ev b <= mean M (fun m => tr (b * M + m)%nat))%R.
Proof.
  intros HM L. destruct (sigmoid_train C B M x l HM) as (tr' & ET & HT). destruct (sigmoid_eval C B M x l HM) as (ev' & EE & HE).
  do 2 eexists. exists ev', tr'. split; [exact EE|]. split; [exact ET|]. split; [exact HE|split; [exact HT|]].
  intros b Hb. cbv beta. rewrite (mean_ext M _ (fun m => binary_cross_entropy C (l b) (fun c => yes_prob (x (b * M + m)%nat c)))) by (intros m Hm; replace ((b * M + m) / M) with b; auto; rewrite Nat.div_add_l, Nat.div_small; lia).
  unfold binary_cross_entropy. rewrite mean_opp, mean_swap. apply Ropp_le_contravar, to_le. intros c Hc. rewrite mean_plus, !mean_scale. destruct (L b c Hb Hc) as (L0 & L1).
  assert (A := ln_mean M (fun m => yes_prob (x (b * M + m)%nat c)) HM (fun m _ => proj1 (yes_pos _))).
  assert (B' := ln_mean M (fun m => 1 - yes_prob (x (b * M + m)%nat c))%R HM (fun m _ => ltac:(assert (Y := yes_pos (x (b * M + m) c)); lra))).
  rewrite (mean_ext M (fun m => 1 - yes_prob (x (b * M + m)%nat c))%R (fun m => yes_prob (- x (b * M + m)%nat c))) in B' by (intros; rewrite yes_opp; auto).
  change (mean M (fun m => yes_prob (- x (b * M + m)%nat c))) with (mean_yes M (fun r c => - x r c)%R b c) in B'. rewrite mean_not in B' by auto.
  apply Rplus_le_compat; apply Rmult_le_compat_l; auto. lra.
Qed.

(** ** Predictions *)
Lemma egt_weight x y : masked x -> masked y -> egt x y = true <-> (weight y < weight x)%R.
Proof.
  intros [->|[a ->]] [->|[b ->]]; simpl; split; intros H; try discriminate; try lra; auto.
  - exfalso. assert (P := exp_pos b). lra.
  - apply exp_pos.
  - destruct (Rlt_dec b a); [|discriminate]. apply exp_increasing. auto.
  - destruct (Rlt_dec b a); auto. exfalso. assert (Q := exp_lt_inv _ _ H). contradiction.
Qed.
Lemma argmax_ok n f : 1 <= n -> (forall i, i < n -> masked (f i)) -> exists c, argmax n f = Ok c /\ first_best n (fun i => weight (f i)) c.
Proof.
  intros Hn H. unfold argmax. replace (n =? 0) with false by (symmetry; apply Nat.eqb_neq; lia). eexists. split; [reflexivity|].
  set (g := fun best i => if egt (f i) (f best) then i else best).
  assert (K : forall k, 1 + k <= n -> first_best (1 + k) (fun i => weight (f i)) (fold_left g (seq 1 k) 0)).
  { induction k as [|k IH]; intros Hk.
    - cbn [seq fold_left]. split; [lia|]. split; [|intros; lia]. intros c Hc. replace c with 0 by lia. lra.
    - rewrite seq_S, fold_left_app. cbn [fold_left]. destruct (IH ltac:(lia)) as (A & B & D). set (best := fold_left g (seq 1 k) 0) in *. clearbody best. unfold g.
      assert (EW := egt_weight (f (1 + k)) (f best) (H (1 + k) ltac:(lia)) (H best ltac:(lia))).
      destruct (egt (f (1 + k)) (f best)).
      + assert (W := proj1 EW eq_refl). split; [lia|]. split.
        * intros c Hc. destruct (Nat.eq_dec c (1 + k)) as [->|]; [lra|]. assert (Q := B c ltac:(lia)). lra.
        * intros c Hc. assert (Q := B c ltac:(lia)). lra.
      + split; [lia|]. split; auto. intros c Hc. destruct (Nat.eq_dec c (1 + k)) as [->|]; [|apply B; lia]. apply Rnot_lt_le. intros W. apply EW in W. discriminate. }
  specialize (K (n - 1) ltac:(lia)). replace (1 + (n - 1)) with n in K by lia. exact K.
Qed.
Lemma rmap_pred (P : nat -> nat -> Prop) f n : (forall b, b < n -> exists c, f b = Ok c /\ P b c) ->
  exists l, rmap f (seq 0 n) = Ok l /\ length l = n /\ forall b, b < n -> P b (nth b l 0).
Proof.
  intros H. assert (K : forall l, (forall i, List.In i l -> i < n) -> exists r, rmap f l = Ok r /\ length r = length l /\ forall j, j < length l -> P (nth j l 0) (nth j r 0)).
  { induction l as [|a l IH]; intros Q; [exists []; repeat split; auto; simpl; lia|]. destruct (H a (Q a (or_introl eq_refl))) as (c & E & Pc). destruct IH as (r & Er & Lr & Pr); [intros; apply Q; right; auto|].
    exists (c :: r). cbn [rmap]. rewrite E. cbn [bind]. change ((fix go l := match l with [] => Ok [] | x :: r0 => bind (f x) (fun y => bind (go r0) (fun ys => Ok (y :: ys))) end) l) with (rmap f l). rewrite Er. split; auto. split; [simpl; auto|].
    intros [|j] Hj; simpl in *; auto. apply Pr. lia. }
  destruct (K (seq 0 n)) as (r & Er & Lr & Pr); [intros i Hi; apply in_seq in Hi; lia|]. rewrite seq_length in *. exists r. repeat split; auto. intros b Hb. specialize (Pr b Hb). rewrite seq_nth in Pr by auto. exact Pr.
Qed.
Lemma softmax_pred C B M x : 1 <= C -> 1 <= M -> (forall r, r < B * M -> usable C (x r)) ->
  exists l, label_pred_ensemble_softmax C M (B * M, x) = Ok l /\ length l = B /\ forall b, b < B -> first_best C (mean_prob C M x b) (nth b l 0).
Proof.
  intros HC HM U. unfold label_pred_ensemble_softmax. destruct (softmax_log_mean C (B * M) M x HM (Nat.mod_mul B M ltac:(lia)) U) as (lp & -> & H). rewrite Nat.div_mul in * by lia. cbn [bind]. unfold predictions. cbn [fst snd].
  apply (rmap_pred (fun b => first_best C (mean_prob C M x b))). intros b Hb. destruct (H b Hb) as (A & _). destruct (argmax_ok C (lp b) HC (fun c Hc => proj1 (A c Hc))) as (c & E & F). exists c. split; auto.
  destruct F as (F1 & F2 & F3). split; auto. split; intros c' Hc'; rewrite <- !(fun c Hc => proj2 (A c Hc)) by lia; [apply F2|apply F3]; auto.
Qed.
Lemma sigmoid_pred C B M x : 1 <= C -> 1 <= M ->
  exists l, label_pred_ensemble_sigmoid C M (finite (B * M) x) = Ok l /\ length l = B /\ forall b, b < B -> first_best C (mean_yes M x b) (nth b l 0).
Proof.
  intros HC HM. unfold label_pred_ensemble_sigmoid. destruct (log_mean_sigmoid C (B * M) M x HM (Nat.mod_mul B M ltac:(lia))) as (lp & -> & H). rewrite Nat.div_mul in * by lia. cbn [bind]. unfold predictions. cbn [fst snd].
  apply (rmap_pred (fun b => first_best C (mean_yes M x b))). intros b Hb.
  assert (A : forall c, c < C -> masked (lp b c) /\ weight (lp b c) = mean_yes M x b c). { intros c Hc. destruct (H b c Hb Hc) as (-> & P). split; [right; eauto|]. simpl. apply exp_ln. lra. }
  destruct (argmax_ok C (lp b) HC (fun c Hc => proj1 (A c Hc))) as (c & E & F). exists c. split; auto.
  destruct F as (F1 & F2 & F3). split; auto. split; intros c' Hc'; rewrite <- !(fun c Hc => proj2 (A c Hc)) by lia; [apply F2|apply F3]; auto.
Qed.

(** ** One member, and errors *)
Lemma first_best_unique C f g c c' : (forall a b, a < C -> b < C -> (f a < f b <-> g a < g b)%R) -> first_best C f c -> first_best C g c' -> c = c'.
Proof.
  intros M (A1 & A2 & A3) (B1 & B2 & B3). destruct (Nat.lt_trichotomy c c') as [L|[L|L]]; auto; exfalso.
  - assert (Q := B3 c L). apply M in Q; auto. assert (P := A2 c' B1). lra.
  - assert (Q := A3 c' L). apply M in Q; auto. assert (P := B2 c A1). lra.
Qed.
Lemma mean_one f : mean 1 f = f 0.
Proof. unfold mean. rewrite <- sumf_to. cbn [sumf INR]. field. Qed.
Lemma list_nth_eq (a b : list nat) n : length a = n -> length b = n -> (forall i, i < n -> nth i a 0 = nth i b 0) -> a = b.
Proof. intros A B H. apply nth_ext with 0 0; [lia|]. intros i Hi. apply H. lia. Qed.
Lemma plain_pred C B x : 1 <= C -> (forall r, r < B -> usable C (x r)) ->
  exists l, predictions C (B, x) = Ok l /\ length l = B /\ forall b, b < B -> first_best C (fun c => weight (x b c)) (nth b l 0).
Proof.
  intros HC U. unfold predictions. cbn [fst snd]. apply (rmap_pred (fun b => first_best C (fun c => weight (x b c)))). intros b Hb. apply argmax_ok; auto. apply U. auto.
Qed.
Lemma one_pred_softmax C B x : 1 <= C -> (forall r, r < B -> usable C (x r)) ->
  exists l, label_pred_ensemble_softmax C 1 (B, x) = Ok l /\ predictions C (B, x) = Ok l.
Proof.
  intros HC U. destruct (softmax_pred C B 1 x HC ltac:(lia)) as (l & E & L & P); [intros r Hr; apply U; lia|]. rewrite Nat.mul_1_r in E. destruct (plain_pred C B x HC U) as (l' & E' & L' & P').
  exists l. split; auto. rewrite E'. f_equal. apply (list_nth_eq _ _ B); auto. intros b Hb. apply (first_best_unique C (fun c => weight (x b c)) (mean_prob C 1 x b)); auto.
  intros a c Ha Hc. unfold mean_prob. rewrite !mean_one. replace (b * 1 + 0) with b by lia. unfold class_prob. assert (T := total_pos C (x b) (U b Hb)). assert (I := Rinv_0_lt_compat _ T). unfold Rdiv. split; intros Q.
  - apply Rmult_lt_compat_r; auto.
  - apply Rmult_lt_reg_r in Q; auto.
Qed.
Lemma yes_mono a b : (a < b <-> yes_prob a < yes_prob b)%R.
Proof.
  assert (K : forall a b, (a < b -> yes_prob a < yes_prob b)%R).
  { clear. intros a b H. unfold yes_prob. assert (E : (exp (- b) < exp (- a))%R) by (apply exp_increasing; lra). assert (P := exp_pos (- b)). unfold Rdiv. rewrite !Rmult_1_l. apply Rinv_lt_contravar; [|lra]. apply Rmult_lt_0_compat; lra. }
  split; auto. intros H. destruct (Rtotal_order a b) as [L|[->|L]]; auto; [lra|]. assert (Q := K _ _ L). lra.
Qed.
Lemma one_pred_sigmoid C B x : 1 <= C -> exists l, label_pred_ensemble_sigmoid C 1 (finite B x) = Ok l /\ predictions C (finite B x) = Ok l.
Proof.
  intros HC. destruct (sigmoid_pred C B 1 x HC ltac:(lia)) as (l & E & L & P). rewrite Nat.mul_1_r in E. destruct (plain_pred C B (fun r c => Fin (x r c)) HC (fun r _ => finite_usable C x r HC)) as (l' & E' & L' & P').
  exists l. split; auto. unfold finite at 1. rewrite E'. f_equal. apply (list_nth_eq _ _ B); auto. intros b Hb. apply (first_best_unique C (fun c => weight (Fin (x b c))) (mean_yes 1 x b)); auto.
  intros a c Ha Hc. unfold mean_yes. rewrite !mean_one. replace (b * 1 + 0) with b by lia. cbn [weight]. rewrite <- yes_mono. split; [apply exp_lt_inv|apply exp_increasing].
Qed.
Lemma one_member C B x l : 1 <= C -> forall name, List.In name ["softmax_xent"; "sigmoid_xent"]%string ->
  exists tr ev pr tr' ev' pr', get_loss_fn C name None = Ok (tr, ev, pr) /\ get_loss_fn C (String.append "ensemble_" name) (Some 1) = Ok (tr', ev', pr') /\
    (exists o o', tr (finite B x) (finite B l) = Ok (B, o) /\ tr' (finite B x) (finite B l) = Ok (B, o') /\ forall b, b < B -> exists v, o b = Fin v /\ o' b = Fin v) /\
    (exists o o', ev (finite B x) (finite B l) = Ok (B, o) /\ ev' (finite B x) (finite B l) = Ok (B, o') /\ forall b, b < B -> exists v, o b = Fin v /\ o' b = Fin v) /\
    exists li, pr (finite B x) = Ok li /\ pr' (finite B x) = Ok li.
Proof.
  intros HC name [<-|[<-|[]]]; do 6 eexists; (split; [reflexivity|]); (split; [reflexivity|]).
  - destruct (softmax_train C B 1 x l HC ltac:(lia)) as (o1 & E1 & H1). destruct (softmax_eval C B 1 (fun r c => Fin (x r c)) l ltac:(lia) (fun r _ => finite_usable C x r HC)) as (o2 & E2 & H2).
    assert (PE : exists o, softmax_cross_entropy C (finite B x) (finite B l) = Ok (B, o) /\ forall b, b < B -> o b = Fin (cross_entropy C (l b) (class_prob C (fun c => Fin (x b c))))).
    { unfold softmax_cross_entropy. cbn [fst snd finite]. rewrite Nat.eqb_refl. cbn [negb]. eexists. split; [reflexivity|]. intros r Hr. cbv beta. rewrite (esum_fin C _ (fun c => l r c * ln (class_prob C (fun c => Fin (x r c)) c))%R).
      - cbn [eopp]. rewrite ce_form. reflexivity.
      - intros c Hc. rewrite log_softmax_ok by (auto; apply finite_usable; auto). rewrite elog_pos by (apply finite_prob_pos; auto). reflexivity. }
    destruct PE as (o & EO & HO). rewrite Nat.mul_1_r in *. split; [|split].
    + exists o, o1. split; [exact EO|]. split; [exact E1|]. intros b Hb. eexists. split; [apply HO; auto|]. rewrite H1 by auto. rewrite Nat.div_1_r. reflexivity.
    + exists o, o2. split; [exact EO|]. split; [exact E2|]. intros b Hb. eexists. split; [apply HO; auto|]. rewrite H2; auto.
      * f_equal. unfold cross_entropy. f_equal. apply to_ext. intros c Hc. unfold mean_prob. rewrite mean_one. replace (b * 1 + 0) with b by lia. reflexivity.
      * intros c Hc _. apply mean_pos; auto. intros m Hm. apply finite_prob_pos. auto.
    + destruct (one_pred_softmax C B (fun r c => Fin (x r c)) HC (fun r _ => finite_usable C x r HC)) as (li & A & D). exists li. split; [exact D|exact A].
  - destruct (sigmoid_train C B 1 x l ltac:(lia)) as (o1 & E1 & H1). destruct (sigmoid_eval C B 1 x l ltac:(lia)) as (o2 & E2 & H2).
    assert (PE : exists o, default_sigmoid_xent C (finite B x) (finite B l) = Ok (B, o) /\ forall b, b < B -> o b = Fin (binary_cross_entropy C (l b) (fun c => yes_prob (x b c)))).
    { unfold default_sigmoid_xent, sigmoid_binary_cross_entropy. cbn [fst snd finite]. rewrite Nat.eqb_refl. cbn [negb bind fst snd]. eexists. split; [reflexivity|]. intros r Hr. cbv beta zeta. apply sigmoid_row. }
    destruct PE as (o & EO & HO). rewrite Nat.mul_1_r in *. split; [|split].
    + exists o, o1. split; [exact EO|]. split; [exact E1|]. intros b Hb. eexists. split; [apply HO; auto|]. rewrite H1 by auto. rewrite Nat.div_1_r. reflexivity.
    + exists o, o2. split; [exact EO|]. split; [exact E2|]. intros b Hb. eexists. split; [apply HO; auto|]. rewrite H2; auto.
      f_equal. unfold binary_cross_entropy. f_equal. apply to_ext. intros c Hc. unfold mean_yes. rewrite mean_one. replace (b * 1 + 0) with b by lia. reflexivity.
    + destruct (one_pred_sigmoid C B x HC) as (li & A & D). exists li. split; [exact D|exact A].
Qed.
Lemma log_mean_errors C BM x M norm : ensemble_log_mean C (BM, x) M norm = Raise TypeError <-> M = 0 \/ BM mod M <> 0.
Proof.
  unfold ensemble_log_mean. cbn [fst snd]. destruct (Nat.eqb_spec M 0) as [->|N]; cbn [orb]; [tauto|]. destruct (Nat.eqb_spec (BM mod M) 0) as [E|E]; cbn [negb]; split; intros H; try discriminate; auto. destruct H; contradiction.
Qed.
Lemma unknown_loss C name size : (exists e, get_loss_fn C name size = Raise e) <-> ~ List.In name ["softmax_xent"; "sigmoid_xent"; "ensemble_softmax_xent"; "ensemble_sigmoid_xent"]%string.
Proof.
  unfold get_loss_fn.
  destruct (String.eqb_spec name "softmax_xent") as [->|N1]; [split; [intros [e H]; discriminate|intros H; exfalso; apply H; simpl; auto]|].
  destruct (String.eqb_spec name "sigmoid_xent") as [->|N2]; [split; [intros [e H]; discriminate|intros H; exfalso; apply H; simpl; auto]|].
  destruct (String.eqb_spec name "ensemble_softmax_xent") as [->|N3]; [split; [intros [e H]; discriminate|intros H; exfalso; apply H; simpl; auto]|].
  destruct (String.eqb_spec name "ensemble_sigmoid_xent") as [->|N4]; [split; [intros [e H]; discriminate|intros H; exfalso; apply H; simpl; auto]|].
  split; eauto. intros _ [H|[H|[H|[H|[]]]]]; congruence.
Qed.
(** A masked class without label makes the sigmoid loss NaN. *)
Lemma sigmoid_masked_refuted : exists C M x l out, ensemble_sigmoid_xent_eval C M (M, x) (finite 1 l) = Ok (1, out) /\
  (forall r c, x r c = NInf) /\ (forall c, l 0 c = 0%R) /\ out 0 = NaN.
Proof.
  exists 1, 1, (fun _ _ => NInf), (fun _ _ => 0%R). eexists. split; [reflexivity|]. split; auto. split; auto.
  cbv [esum seq map fold_right Nat.mul Nat.add finite snd logsumexp emaximum log_sigmoid softplus eopp emax eexp esub eadd elog fst Nat.eqb].
  replace (0 + 0)%R with 0%R by lra. destruct (Req_EM_T 0 0) as [_|N]; [|lra]. cbn [INR]. destruct (Req_EM_T 1 0); [lra|]. destruct (Rlt_dec 0 1); [|lra].
  cbn [emul]. unfold scale_inf. destruct (Req_EM_T 0 0) as [_|N]; [|lra]. reflexivity.
Qed.
