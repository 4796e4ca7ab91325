(** Proofs for C89: the tangents are bounded. *)
From Coq Require Import List Arith ZArith Bool Reals QArith Lia Lra.
From Verif Require Import Prim PrimLemmas MoeModel MoeSpec MoeProofs SoftModel SoftSpec SoftProofs GrdModel GrdSpec GrdProofs2 GrdProofs3 SdrModel SdrSpec SdrProofs.
Import ListNotations.
Local Open Scope nat_scope.

Lemma fst_dsum n f : fst (dsum n f) = sumf n (fun i => fst (f i)).
Proof. induction n as [|n IH]; [reflexivity|]. cbn [dsum sumf dadd fst]. rewrite IH. reflexivity. Qed.
Lemma snd_dsum n f : snd (dsum n f) = sumf n (fun i => snd (f i)).
Proof. induction n as [|n IH]; [reflexivity|]. cbn [dsum sumf dadd snd]. rewrite IH. reflexivity. Qed.
Definition dot (D : nat) (x y : nat -> R) : R := sumf D (fun i => x i * y i)%R.
Lemma sum_sq_zero D x : sumf D (fun i => x i * x i)%R = 0%R -> forall i, i < D -> x i = 0%R.
Proof.
  induction D as [|D IH]; intros H i Hi; [lia|]. cbn [sumf] in H. pose proof (sq_nonneg D x). pose proof (Rle_0_sqr (x D)) as Q. unfold Rsqr in Q.
  destruct (Nat.eq_dec i D) as [->|]; [apply Rsqr_0_uniq; unfold Rsqr; lra|]. apply IH; [lra|lia].
Qed.
Lemma cauchy_one D x y : (sumf D (fun i => y i * y i) <= 1)%R -> (Rabs (dot D x y) <= norm2 D x)%R.
Proof.
  intros Y. unfold norm2, dot. set (s := sumf D (fun i => (x i * x i)%R)). assert (Hs : (0 <= s)%R) by apply sq_nonneg.
  destruct (Req_dec s 0) as [Z|Z].
  - rewrite (sumf_ext D _ (fun _ => 0%R)). { rewrite sumf_const, Rmult_0_r, Rabs_R0. apply sqrt_pos. }
    intros i Hi. rewrite (sum_sq_zero D x Z i Hi). ring.
  - assert (P : (0 < sqrt s)%R) by (apply sqrt_lt_R0; lra).
    pose proof (cauchy D (fun i => x i * / sqrt s)%R y) as C. cbv beta in C.
    rewrite (sumf_ext D (fun i => x i * / sqrt s * (x i * / sqrt s))%R (fun i => (x i * x i) * (/ sqrt s * / sqrt s))%R) in C by (intros; ring).
    rewrite sumf_scale_r, <- Rinv_mult, sqrt_sqrt in C by lra. fold s in C. rewrite Rinv_r in C by lra.
    rewrite (sumf_ext D (fun i => x i * / sqrt s * y i)%R (fun i => / sqrt s * (x i * y i))%R) in C by (intros; ring).
    rewrite sumf_scale, Rabs_mult, (Rabs_pos_eq (/ sqrt s)) in C by (apply Rlt_le, Rinv_0_lt_compat; auto).
    specialize (C (Rle_refl 1) Y). apply (Rmult_le_reg_l (/ sqrt s)); [apply Rinv_0_lt_compat; auto|]. rewrite Rinv_l by lra. exact C.
Qed.
Lemma norm2_nonneg D x : (0 <= norm2 D x)%R.
Proof. apply sqrt_pos. Qed.

Section Norm.
Variables (D : nat) (x : nat -> dual).
Let v := fun i => fst (x i).
Let v' := fun i => snd (x i).
Let r := sqrt (dot D v v + eps6).
Lemma r_low : (/ 1000 <= r)%R.
Proof.
  unfold r. rewrite <- (sqrt_square (/ 1000)) by lra. apply sqrt_le_1_alt. unfold dot. pose proof (sq_nonneg D v). unfold eps6. lra.
Qed.
Lemma r_pos : (0 < r)%R.
Proof. pose proof r_low. lra. Qed.
Lemma r_sq : (r * r = dot D v v + eps6)%R.
Proof. unfold r. apply sqrt_sqrt. apply Rlt_le. apply (sq_eps D v). Qed.
Lemma norm_value d : fst (normalize_d D x d) = normalize D v d.
Proof. unfold normalize_d, dmul, drsqrt, dadd, dconst. cbn [fst snd]. rewrite fst_dsum. reflexivity. Qed.
Lemma norm_tangent d : snd (normalize_d D x d) = ((v' d - normalize D v d * dot D (normalize D v) v') * / r)%R.
Proof.
  unfold normalize_d, dmul, drsqrt, dadd, dconst. cbn [fst snd]. rewrite fst_dsum, snd_dsum. cbn [fst snd].
  change (sumf D (fun i => fst (x i) * fst (x i))%R) with (dot D v v). fold r. fold (v d) (v' d).
  rewrite (sumf_ext D (fun i => snd (x i) * fst (x i) + fst (x i) * snd (x i))%R (fun i => 2 * (v i * v' i))%R) by (intros; unfold v, v'; ring).
  rewrite sumf_scale. fold (dot D v v'). rewrite <- r_sq. pose proof r_pos as P.
  assert (E : dot D (normalize D v) v' = (/ r * dot D v v')%R).
  { unfold dot at 1. rewrite (sumf_ext D (fun i => normalize D v i * v' i)%R (fun i => / r * (v i * v' i))%R); [apply sumf_scale|]. intros. unfold normalize. fold (dot D v v). fold r. ring. }
  rewrite E. unfold normalize. fold (dot D v v). fold r. field. lra.
Qed.
Lemma norm_bound : (norm2 D (fun d => snd (normalize_d D x d)) <= 1000 * norm2 D v')%R.
Proof.
  pose proof r_pos as P. pose proof r_low as Lo. set (n := normalize D v). set (q := dot D n v').
  assert (N1 : (dot D n n <= 1)%R) by apply normalize_norm.
  assert (E : sumf D (fun d => snd (normalize_d D x d) * snd (normalize_d D x d))%R = ((dot D v' v' - (2 - dot D n n) * (q * q)) * (/ r * / r))%R).
  { rewrite (sumf_ext D _ (fun d => (v' d * v' d + (- 2 * q * (n d * v' d) + q * q * (n d * n d))) * (/ r * / r))%R).
    2:{ intros d _. rewrite norm_tangent. fold n. fold q. ring. }
    rewrite sumf_scale_r, sumf_plus, sumf_plus, !sumf_scale. fold (dot D v' v') (dot D n v') (dot D n n). fold q. ring. }
  unfold norm2. rewrite E. fold (dot D v' v').
  assert (I : (0 < / r <= 1000)%R).
  { split; [apply Rinv_0_lt_compat; auto|]. rewrite <- (Rinv_inv 1000). apply Rinv_le_contravar; lra. }
  assert (V : (0 <= dot D v' v')%R) by apply sq_nonneg.
  rewrite <- (sqrt_square 1000) by lra. rewrite <- sqrt_mult by lra. apply sqrt_le_1_alt.
  pose proof (Rle_0_sqr q) as Q. unfold Rsqr in Q.
  apply Rle_trans with (dot D v' v' * (/ r * / r))%R.
  - apply Rmult_le_compat_r; [apply Rmult_le_pos; lra|]. assert (0 <= (2 - dot D n n) * (q * q))%R by (apply Rmult_le_pos; lra). lra.
  - rewrite (Rmult_comm (1000 * 1000)). apply Rmult_le_compat_l; auto. apply Rmult_le_compat; lra.
Qed.
End Norm.

Lemma logits_tangent G M D N P inputs mu scale g m n p :
  snd (soft_logits_d G M D N P inputs mu scale g m n p) =
  (snd scale * dot D (fun d => fst (normalize_d D (inputs g m) d)) (fun d => fst (normalize_d D (fun i => mu i n p) d)) +
   fst scale * (dot D (fun d => snd (normalize_d D (inputs g m) d)) (fun d => fst (normalize_d D (fun i => mu i n p) d)) +
                dot D (fun d => snd (normalize_d D (fun i => mu i n p) d)) (fun d => fst (normalize_d D (inputs g m) d))))%R.
Proof.
  unfold dot. rewrite <- sumf_plus, <- !sumf_scale, <- sumf_plus. unfold soft_logits_d.
  destruct (G * M * D <? D * N * P); rewrite snd_dsum; apply sumf_ext; intros d _; unfold dmul; cbn [fst snd]; ring.
Qed.
Lemma logits_tangent_bound G M D N P inputs mu scale g m n p :
  (Rabs (snd (soft_logits_d G M D N P inputs mu scale g m n p)) <=
   Rabs (snd scale) + 1000 * Rabs (fst scale) * (norm2 D (fun d => snd (inputs g m d)) + norm2 D (fun d => snd (mu d n p))))%R.
Proof.
  rewrite logits_tangent.
  assert (A : forall y : nat -> dual, (sumf D (fun d => fst (normalize_d D y d) * fst (normalize_d D y d)) <= 1)%R).
  { intros y. rewrite (sumf_ext D _ (fun d => normalize D (fun i => fst (y i)) d * normalize D (fun i => fst (y i)) d)%R); [apply normalize_norm|].
    intros. rewrite !norm_value. reflexivity. }
  pose proof (cauchy D _ _ (A (inputs g m)) (A (fun i => mu i n p))) as C1.
  pose proof (Rle_trans _ _ _ (cauchy_one D (fun d => snd (normalize_d D (inputs g m) d)) _ (A (fun i => mu i n p))) (norm_bound D (inputs g m))) as C2.
  pose proof (Rle_trans _ _ _ (cauchy_one D (fun d => snd (normalize_d D (fun i => mu i n p) d)) _ (A (inputs g m))) (norm_bound D (fun i => mu i n p))) as C3.
  cbv beta in C1. fold (dot D (fun d => fst (normalize_d D (inputs g m) d)) (fun d => fst (normalize_d D (fun i => mu i n p) d))) in C1.
  set (a := dot D _ _) in *. set (b := dot D _ _) in C2 |- *. set (c := dot D _ _) in C3 |- *.
  eapply Rle_trans; [apply Rabs_triang|]. rewrite !Rabs_mult. pose proof (Rabs_pos (snd scale)). pose proof (Rabs_pos (fst scale)).
  apply Rplus_le_compat.
  - rewrite <- (Rmult_1_r (Rabs (snd scale))) at 2. apply Rmult_le_compat_l; auto.
  - replace (1000 * Rabs (fst scale) * (norm2 D (fun d => snd (inputs g m d)) + norm2 D (fun d => snd (mu d n p))))%R
      with (Rabs (fst scale) * (1000 * norm2 D (fun d => snd (inputs g m d)) + 1000 * norm2 D (fun d => snd (mu d n p))))%R by ring.
    apply Rmult_le_compat_l; auto. eapply Rle_trans; [apply Rabs_triang|]. lra.
Qed.

(** The weights: a softmax moves at most twice as fast as its logits, relative to its value. *)
Lemma mix_bound n w x B : (forall i, i < n -> (0 <= w i)%R) -> (forall i, i < n -> (Rabs (x i) <= B)%R) -> (Rabs (sumf n (fun i => w i * x i)) <= sumf n w * B)%R.
Proof.
  intros W X. eapply Rle_trans; [apply sumf_abs|]. rewrite <- sumf_scale_r. apply sumf_le. intros i Hi. rewrite Rabs_mult, (Rabs_pos_eq (w i)) by auto.
  apply Rmult_le_compat_l; auto.
Qed.
Lemma softmax_move y l s B : (0 <= y)%R -> (Rabs l <= B)%R -> (Rabs s <= B)%R -> (Rabs (y * (l - s)) <= 2 * B * y)%R.
Proof.
  intros Y X Q. rewrite Rabs_mult, (Rabs_pos_eq y) by auto. rewrite (Rmult_comm (2 * B)). apply Rmult_le_compat_l; auto.
  unfold Rminus. eapply Rle_trans; [apply Rabs_triang|]. rewrite Rabs_Ropp. lra.
Qed.
Lemma weights_move G M D N P det std normal inputs mu scale B g m n p :
  m < M -> n < N -> p < P ->
  (forall m n p, m < M -> n < N -> p < P -> (Rabs (snd scale) + 1000 * Rabs (fst scale) * (norm2 D (fun d => snd (inputs g m d)) + norm2 D (fun d => snd (mu d n p))) <= B)%R) ->
  let l := add_noise_d det std normal (soft_logits_d G M D N P inputs mu scale) in
  (Rabs (snd (soft_dispatch_d M l g m n p)) <= 2 * B * fst (soft_dispatch_d M l g m n p))%R /\
  (Rabs (snd (soft_combine_d N P l g m n p)) <= 2 * B * fst (soft_combine_d N P l g m n p))%R.
Proof.
  intros Hm Hn Hp HB l.
  assert (LB : forall m n p, m < M -> n < N -> p < P -> (Rabs (snd (l g m n p)) <= B)%R).
  { intros m' n' p' Hm' Hn' Hp'. eapply Rle_trans; [|apply (HB m' n' p'); auto]. unfold l, add_noise_d. destruct (negb det && _); [unfold dadd, dconst; cbn [snd]; rewrite Rplus_0_r|]; apply logits_tangent_bound. }
  assert (HM : 0 < M) by lia. assert (HN : 0 < N) by lia. assert (HP : 0 < P) by lia. clearbody l.
  destruct (dispatch_convex M (vals l) g n p HM) as [Dp Ds]. destruct (combine_convex N P (vals l) g m HN HP) as [Cp Cs].
  split.
  - unfold soft_dispatch_d. cbn [fst snd]. apply softmax_move; auto.
    + apply Rlt_le, Dp. auto.
    + eapply Rle_trans; [apply (mix_bound M (fun i => soft_dispatch M (vals l) g i n p) (fun i => snd (l g i n p)) B); auto; intros; apply Rlt_le, Dp; auto|].
      rewrite sumf_to, Ds. lra.
  - unfold soft_combine_d. cbn [fst snd]. apply softmax_move; auto.
    + apply Rlt_le, Cp; auto.
    + eapply Rle_trans; [apply sumf_abs|].
      eapply Rle_trans; [apply (sumf_le N _ (fun i => sumf P (fun j => soft_combine N P (vals l) g m i j) * B)%R)|].
      * intros i Hi. apply (mix_bound P (fun j => soft_combine N P (vals l) g m i j) (fun j => snd (l g m i j)) B); auto. intros. apply Rlt_le, Cp; auto.
      * rewrite sumf_scale_r, (sumf_ext N (fun i => sumf P (fun j => soft_combine N P (vals l) g m i j)) (fun i => sum_to P (fun j => soft_combine N P (vals l) g m i j))) by (intros; apply sumf_to).
        rewrite sumf_to, Cs. lra.
Qed.

(** An item that is zero *)
Lemma zero_item : normalize_d 1 (fun _ => (0%R, 1%R)) 0 = (0%R, 1000%R).
Proof.
  apply injective_projections.
  - rewrite norm_value. unfold normalize. cbn [fst snd]. ring.
  - rewrite norm_tangent. unfold normalize, dot, eps6. cbn [fst snd sumf].
    replace (0 + 0 * 0 + / 1000000)%R with (/ 1000 * / 1000)%R by lra. rewrite sqrt_square by lra. field.
Qed.
