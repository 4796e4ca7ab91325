(** Proofs for C89. *)
From Coq Require Import List Arith ZArith Bool Reals QArith Lia Lra.
From Verif Require Import Prim PrimLemmas MoeModel MoeSpec MoeProofs SoftModel SoftSpec SoftProofs GrdModel GrdSpec GrdProofs2 GrdProofs3 SdrModel SdrSpec.
Import ListNotations.
Local Open Scope nat_scope.

(** ** The rules *)
Lemma follows_const t0 r : follows t0 (fun _ => r) (dconst r).
Proof. split; [reflexivity|]. apply derivable_pt_lim_const. Qed.
Lemma follows_add t0 f g a b : follows t0 f a -> follows t0 g b -> follows t0 (fun t => f t + g t)%R (dadd a b).
Proof. intros [E D] [E' D']. split; [cbn; rewrite E, E'; reflexivity|]. exact (derivable_pt_lim_plus f g t0 _ _ D D'). Qed.
Lemma follows_mul t0 f g a b : follows t0 f a -> follows t0 g b -> follows t0 (fun t => f t * g t)%R (dmul a b).
Proof.
  intros [E D] [E' D']. split; [cbn; rewrite E, E'; reflexivity|].
  pose proof (derivable_pt_lim_mult f g t0 _ _ D D') as Q. rewrite E, E' in Q. exact Q.
Qed.
Lemma follows_ext t0 f g a : (forall t, f t = g t) -> follows t0 f a -> follows t0 g a.
Proof. intros H [E D]. split; [rewrite <- H; auto|]. exact (derivable_pt_lim_ext f g t0 _ H D). Qed.
Lemma follows_rsqrt t0 f a : (0 < f t0)%R -> follows t0 f a -> follows t0 (fun t => / sqrt (f t))%R (drsqrt a).
Proof.
  intros P [E D]. split; [cbn; rewrite E; reflexivity|].
  pose proof (derivable_pt_lim_comp f sqrt t0 _ _ D (derivable_pt_lim_sqrt (f t0) P)) as Q.
  assert (S0 : (0 < sqrt (f t0))%R) by (apply sqrt_lt_R0; auto).
  pose proof (derivable_pt_lim_div (fun _ => 1%R) (fun t => sqrt (f t)) t0 _ _ (derivable_pt_lim_const 1 t0) Q ltac:(cbv beta; lra)) as R0.
  apply (derivable_pt_lim_ext (fun t => 1 / sqrt (f t))%R); [intros z; unfold Rdiv; ring|].
  unfold drsqrt. cbn [fst snd]. rewrite <- E.
  match goal with |- derivable_pt_lim _ _ ?v => match type of R0 with derivable_pt_lim _ _ ?w => replace v with w end end; [exact R0|].
  assert (S2 : (sqrt (f t0) * sqrt (f t0) = f t0)%R) by (apply sqrt_sqrt; lra).
  unfold Rsqr. rewrite S2. field. lra.
Qed.
Lemma follows_sum t0 n (f : nat -> R -> R) a : (forall i, i < n -> follows t0 (f i) (a i)) -> follows t0 (fun t => sumf n (fun i => f i t)) (dsum n a).
Proof.
  intros H. induction n as [|n IH]; [exact (follows_const t0 0%R)|]. cbn [sumf dsum]. apply (follows_add t0 (fun t => sumf n (fun i => f i t)) (f n)); auto.
Qed.
Lemma follows_exp t0 f a : follows t0 f a -> derivable_pt_lim (fun t => exp (f t)) t0 (exp (fst a) * snd a)%R.
Proof. intros [E D]. rewrite <- E. exact (derivable_pt_lim_comp f exp t0 _ _ D (derivable_pt_lim_exp (f t0))). Qed.

(** ** The router *)
Lemma sq_eps D x : (0 < sumf D (fun i => x i * x i) + eps6)%R.
Proof. pose proof (sq_nonneg D x). pose proof eps6_pos. lra. Qed.
Lemma follows_normalize t0 D (x : R -> nat -> R) xd d : (forall i, follows t0 (fun t => x t i) (xd i)) ->
  follows t0 (fun t => normalize D (x t) d) (normalize_d D xd d).
Proof.
  intros H. unfold normalize, normalize_d. apply (follows_mul t0 (fun t => x t d)); [apply H|].
  apply (follows_rsqrt t0 (fun t => sumf D (fun i => x t i * x t i) + eps6)%R); [apply sq_eps|].
  apply (follows_add t0 (fun t => sumf D (fun i => x t i * x t i)%R) (fun _ => eps6)); [|apply follows_const].
  apply (follows_sum t0 D (fun i t => x t i * x t i)%R). intros i _. apply (follows_mul t0 (fun t => x t i) (fun t => x t i)); apply H.
Qed.
Lemma follows_logits t0 G M D N P (inputs : R -> nat -> nat -> nat -> R) inputsd (mu : R -> nat -> nat -> nat -> R) mud scale scaled g m n p :
  (forall g m d, follows t0 (fun t => inputs t g m d) (inputsd g m d)) -> (forall d n p, follows t0 (fun t => mu t d n p) (mud d n p)) -> follows t0 scale scaled ->
  follows t0 (fun t => soft_logits G M D N P (inputs t) (mu t) (scale t) g m n p) (soft_logits_d G M D N P inputsd mud scaled g m n p).
Proof.
  intros Hi Hm Hs. unfold soft_logits, soft_logits_d.
  assert (A : forall d, follows t0 (fun t => normalize D (inputs t g m) d) (normalize_d D (inputsd g m) d)) by (intros; apply follows_normalize; intros; apply Hi).
  assert (B : forall d, follows t0 (fun t => normalize D (fun i => mu t i n p) d) (normalize_d D (fun i => mud i n p) d)) by (intros; apply (follows_normalize t0 D (fun t i => mu t i n p)); intros; apply Hm).
  destruct (G * M * D <? D * N * P).
  - apply (follows_sum t0 D (fun d t => normalize D (inputs t g m) d * scale t * normalize D (fun i => mu t i n p) d)%R). intros d _.
    apply (follows_mul t0 (fun t => normalize D (inputs t g m) d * scale t)%R (fun t => normalize D (fun i => mu t i n p) d)); [|apply B].
    apply (follows_mul t0 (fun t => normalize D (inputs t g m) d) scale); auto.
  - apply (follows_sum t0 D (fun d t => normalize D (inputs t g m) d * (normalize D (fun i => mu t i n p) d * scale t))%R). intros d _.
    apply (follows_mul t0 (fun t => normalize D (inputs t g m) d) (fun t => normalize D (fun i => mu t i n p) d * scale t)%R); [apply A|].
    apply (follows_mul t0 (fun t => normalize D (fun i => mu t i n p) d) scale); auto.
Qed.
Lemma follows_noise t0 det std normal (l : R -> nat -> nat -> nat -> nat -> R) ld g m n p :
  (forall g m n p, follows t0 (fun t => l t g m n p) (ld g m n p)) ->
  follows t0 (fun t => add_noise det std normal (l t) g m n p) (add_noise_d det std normal ld g m n p).
Proof.
  intros H. unfold add_noise, add_noise_d. destruct (negb det && _); [|apply H].
  apply (follows_add t0 (fun t => l t g m n p) (fun _ => std * normal g m n p)%R); [apply H|apply follows_const].
Qed.

Lemma follows_ratio t0 (num den : R -> R) n' d' v : (den t0 <> 0)%R -> derivable_pt_lim num t0 n' -> derivable_pt_lim den t0 d' ->
  v = ((n' * den t0 - d' * num t0) / (den t0 * den t0))%R -> derivable_pt_lim (fun t => num t / den t)%R t0 v.
Proof. intros Z A B ->. exact (derivable_pt_lim_div num den t0 n' d' A B Z). Qed.
Lemma derivable_sumf t0 n (h : nat -> R -> R) h' : (forall i, i < n -> derivable_pt_lim (h i) t0 (h' i)) -> derivable_pt_lim (fun t => sumf n (fun i => h i t)) t0 (sumf n h').
Proof.
  intros H. induction n as [|n IH]; [apply derivable_pt_lim_const|]. cbn [sumf].
  apply (derivable_pt_lim_plus (fun t => sumf n (fun i => h i t)) (h n)); auto.
Qed.

Section Weights.
Variables (t0 : R) (l : R -> nat -> nat -> nat -> nat -> R) (ld : nat -> nat -> nat -> nat -> dual).
Hypothesis HL : forall g m n p, follows t0 (fun t => l t g m n p) (ld g m n p).
Lemma vals_at g m n p : vals ld g m n p = l t0 g m n p.
Proof using HL. destruct (HL g m n p) as [E _]. symmetry. exact E. Qed.
Lemma dispatch_at0 M g m n p : soft_dispatch M (vals ld) g m n p = soft_dispatch M (l t0) g m n p.
Proof using HL. unfold soft_dispatch. rewrite vals_at. f_equal. apply sumf_ext. intros. rewrite vals_at. reflexivity. Qed.
Lemma combine_at0 N P g m n p : soft_combine N P (vals ld) g m n p = soft_combine N P (l t0) g m n p.
Proof using HL.
  unfold soft_combine. rewrite vals_at. f_equal. apply sumf_ext. intros. apply sumf_ext. intros. rewrite vals_at. reflexivity.
Qed.
Lemma follows_dispatch M g m n p : m < M -> follows t0 (fun t => soft_dispatch M (l t) g m n p) (soft_dispatch_d M ld g m n p).
Proof using HL.
  intros Hm. split; [symmetry; apply dispatch_at0|]. unfold soft_dispatch_d. cbn [snd].
  set (Z := sumf M (fun i => exp (l t0 g i n p))). assert (Zp : (0 < Z)%R) by (apply sumf_pos; [lia|intros; apply exp_pos]).
  unfold soft_dispatch at 1. eapply follows_ratio.
  - fold Z. lra.
  - apply (follows_exp t0 (fun t => l t g m n p)). apply HL.
  - apply (derivable_sumf t0 M (fun i t => exp (l t g i n p))). intros i _. apply (follows_exp t0 (fun t => l t g i n p)). apply HL.
  - fold Z. rewrite dispatch_at0. change (fst (ld g m n p)) with (vals ld g m n p). rewrite vals_at.
    rewrite (sumf_ext M (fun i => soft_dispatch M (vals ld) g i n p * snd (ld g i n p))%R (fun i => / Z * (exp (fst (ld g i n p)) * snd (ld g i n p)))%R).
    2:{ intros i Hi. rewrite dispatch_at0. unfold soft_dispatch. fold Z. change (fst (ld g i n p)) with (vals ld g i n p). rewrite vals_at. unfold Rdiv. ring. }
    rewrite sumf_scale. unfold soft_dispatch. fold Z. field. lra.
Qed.
Lemma follows_combine N P g m n p : n < N -> p < P -> follows t0 (fun t => soft_combine N P (l t) g m n p) (soft_combine_d N P ld g m n p).
Proof using HL.
  intros Hn Hp. split; [symmetry; apply combine_at0|]. unfold soft_combine_d. cbn [snd].
  set (Z := sumf N (fun i => sumf P (fun j => exp (l t0 g m i j)))).
  assert (Zp : (0 < Z)%R) by (apply sumf_pos; [lia|intros; apply sumf_pos; [lia|intros; apply exp_pos]]).
  unfold soft_combine at 1. eapply follows_ratio.
  - fold Z. lra.
  - apply (follows_exp t0 (fun t => l t g m n p)). apply HL.
  - apply (derivable_sumf t0 N (fun i t => sumf P (fun j => exp (l t g m i j)))). intros i _.
    apply (derivable_sumf t0 P (fun j t => exp (l t g m i j))). intros j _. apply (follows_exp t0 (fun t => l t g m i j)). apply HL.
  - fold Z. rewrite combine_at0. change (fst (ld g m n p)) with (vals ld g m n p). rewrite vals_at.
    rewrite (sumf_ext N (fun i => sumf P (fun j => soft_combine N P (vals ld) g m i j * snd (ld g m i j))%R)
              (fun i => / Z * sumf P (fun j => exp (fst (ld g m i j)) * snd (ld g m i j)))%R).
    2:{ intros i Hi. rewrite <- sumf_scale. apply sumf_ext. intros j Hj. rewrite combine_at0. unfold soft_combine. fold Z.
        change (fst (ld g m i j)) with (vals ld g m i j). rewrite vals_at. unfold Rdiv. ring. }
    rewrite sumf_scale. unfold soft_combine. fold Z. field. lra.
Qed.
End Weights.

(** ** The layer *)
Lemma follows_vscale t0 f a (x : R -> nat -> R) v : follows t0 f a -> follows_vec t0 x v -> follows_vec t0 (fun t => vscale Ralg (f t) (x t)) (vscale Dalg a v).
Proof. intros A B d. exact (follows_mul t0 f (fun t => x t d) a (fst v d, snd v d) A (B d)). Qed.
Lemma follows_vsum t0 n (f : nat -> R -> nat -> R) a : (forall i, i < n -> follows_vec t0 (f i) (a i)) -> follows_vec t0 (fun t => vsum Ralg n (fun i => f i t)) (vsum Dalg n a).
Proof.
  induction n as [|n IH]; intros H d; [exact (follows_const t0 0%R)|].
  cbn [vsum]. exact (follows_add t0 (fun t => vsum Ralg n (fun i => f i t) d) (fun t => f n t d)
    (fst (vsum Dalg n a) d, snd (vsum Dalg n a) d) (fst (a n) d, snd (a n) d) (IH (fun i Hi => H i (Nat.lt_lt_succ_r _ _ Hi)) d) (H n (Nat.lt_succ_diag_r n) d)).
Qed.
Lemma follows_vec_ext t0 f g a : (forall t d, f t d = g t d) -> follows_vec t0 f a -> follows_vec t0 g a.
Proof. intros H A d. apply (follows_ext t0 (fun t => f t d) (fun t => g t d) (fst a d, snd a d)); auto. apply A. Qed.

Lemma follows_layer t0 G M N P (cw dw : R -> nat -> nat -> nat -> nat -> R) (cwd dwd : nat -> nat -> nat -> nat -> dual) (f : R -> nat -> (nat -> R) -> nat -> R) fd data dd g m :
  1 <= N -> g < G -> m < M ->
  (forall g m n p, m < M -> n < N -> p < P -> follows t0 (fun t => cw t g m n p) (cwd g m n p)) ->
  (forall g m n p, m < M -> n < N -> p < P -> follows t0 (fun t => dw t g m n p) (dwd g m n p)) ->
  (forall e, jvp_of t0 (fun t => f t e) (fd e)) ->
  (forall g m, follows_vec t0 (fun t => data t g m) (dd g m)) ->
  follows_vec t0 (fun t => soft_layer G M N P (@Build_einsum_dispatcher Ralg (cw t) (Some (dw t))) (f t) (data t) g m)
    (soft_layer_d G M N P (@Build_einsum_dispatcher Dalg cwd (Some dwd)) fd dd g m).
Proof.
  intros HN Hg Hm Hc Hd Hf Hx. unfold soft_layer, soft_layer_d, sparse_moe, einsum_do_combine.
  apply (follows_vsum t0 N (fun e t => vsum Ralg P (fun c => vscale Ralg (cw t g m e c)
    (receive_a2a N G (G * P) (fun e j => f t e (einsum_do_dispatch G M N P (@Build_einsum_dispatcher Ralg (cw t) (Some (dw t))) (data t) e j)) g e c)))).
  intros n Hn.
  apply (follows_vsum t0 P (fun c t => vscale Ralg (cw t g m n c)
    (receive_a2a N G (G * P) (fun e j => f t e (einsum_do_dispatch G M N P (@Build_einsum_dispatcher Ralg (cw t) (Some (dw t))) (data t) e j)) g n c))).
  intros p Hp. apply follows_vscale; [apply Hc; auto|].
  rewrite receive_at by auto.
  apply (follows_vec_ext t0 (fun t => f t n (einsum_do_dispatch G M N P (@Build_einsum_dispatcher Ralg (cw t) (Some (dw t))) (data t) n (a2a_pos G N g * P + p)))).
  { intros t d. rewrite receive_at by auto. reflexivity. }
  apply (Hf n (fun t => einsum_do_dispatch G M N P (@Build_einsum_dispatcher Ralg (cw t) (Some (dw t))) (data t) n (a2a_pos G N g * P + p))).
  unfold einsum_do_dispatch. rewrite dispatch_at by auto.
  apply (follows_vec_ext t0 (fun t => vsum Ralg M (fun s => vscale Ralg (dw t g s n p) (data t g s)))).
  { intros t d. rewrite dispatch_at by auto. reflexivity. }
  cbn [ed_dispatch_weights ed_dispatch].
  apply (follows_vsum t0 M (fun s t => vscale Ralg (dw t g s n p) (data t g s))). intros s Hs. apply follows_vscale; [apply Hd; auto|apply Hx].
Qed.

Lemma soft_derivative G M D N ns cf det std normal t0 mu mud scale scaled inputs inputsd f fd s :
  1 <= N -> soft_num_slots M N ns cf = Ok s ->
  (forall P d n p, follows t0 (fun t => mu t P d n p) (mud P d n p)) -> follows t0 scale scaled ->
  (forall g m d, follows t0 (fun t => inputs t g m d) (inputsd g m d)) ->
  (forall e, jvp_of t0 (fun t => f t e) (fd e)) ->
  exists P disp dispd,
    (forall t, soft_router G M D N ns cf det std normal (mu t) (scale t) (inputs t) = Ok (P, disp t)) /\
    soft_router_d G M D N ns cf det std normal mud scaled inputsd = Ok (P, dispd) /\
    forall g m, g < G -> m < M ->
      follows_vec t0 (fun t => soft_layer G M N P (disp t) (f t) (inputs t) g m) (soft_layer_d G M N P dispd fd (fun g m => item_of (inputsd g m)) g m).
Proof.
  intros HN HS Hm Hs Hi Hf. unfold soft_router, soft_router_d. rewrite HS.
  eexists _, (fun t => _), _. split; [intros t; reflexivity|]. split; [reflexivity|].
  intros g m Hg Hmm. unfold soft_dispatcher.
  set (P := Z.to_nat s).
  set (l := fun t => add_noise det std normal (soft_logits G M D N P (inputs t) (mu t P) (scale t))).
  set (ld := add_noise_d det std normal (soft_logits_d G M D N P inputsd (mud P) scaled)).
  assert (HL : forall g m n p, follows t0 (fun t => l t g m n p) (ld g m n p)).
  { intros. apply follows_noise. intros. apply follows_logits; auto. }
  apply (follows_layer t0 G M N P (fun t => soft_combine N P (l t)) (fun t => soft_dispatch M (l t)) (soft_combine_d N P ld) (soft_dispatch_d M ld) f fd inputs); [assumption|assumption|assumption| | |assumption|].
  - intros. apply follows_combine; assumption.
  - intros. apply follows_dispatch; assumption.
  - intros g' m' d. apply Hi.
Qed.
