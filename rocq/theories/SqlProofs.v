(** Proofs for C93. *)
From Coq Require Import List Arith Bool Reals Lia Lra.
From Verif Require Import Py SoftModel SoftSpec SoftProofs OtModel OtSpec OtProofs SkhProofs SqlModel SqlSpec.
Local Open Scope nat_scope.

Lemma term_le n (f : nat -> R) i : (forall j, j < n -> (0 <= f j)%R) -> i < n -> (f i <= sumf n f)%R.
Proof.
  induction n as [|n IH]; intros H0 Hi; [lia|]. cbn [sumf]. pose proof (H0 n ltac:(lia)) as Fn. destruct (Nat.eq_dec i n) as [->|].
  - assert (0 <= sumf n f)%R by (apply sumf_nonneg; auto). lra.
  - assert (Q := IH ltac:(auto) ltac:(lia)). lra.
Qed.
Section Plain.
Variable project : nat -> (nat -> R) -> nat -> R.
Hypothesis proj : simplex_projection project.

Lemma simplex_between n p q th : simplex n p -> simplex n q -> (0 <= th <= 1)%R -> simplex n (fun i => p i + th * (q i - p i))%R.
Proof.
  intros [P0 P1] [Q0 Q1] Ht. split.
  - intros i Hi. specialize (P0 i Hi). specialize (Q0 i Hi). replace (p i + th * (q i - p i))%R with ((1 - th) * p i + th * q i)%R by ring.
    apply Rplus_le_le_0_compat; apply Rmult_le_pos; lra.
  - rewrite sumf_plus, sumf_scale, sumf_minus, P1, Q1. ring.
Qed.
Lemma variational n x q : 1 <= n -> simplex n q -> (0 <= sumf n (fun i => (project n x i - x i) * (q i - project n x i)))%R.
Proof.
  intros Hn Hq. destruct (proj n x Hn) as [Sp Near]. set (p := project n x) in *. clearbody p.
  set (A := sumf n (fun i => (p i - x i) * (q i - p i))%R). set (Q := sumf n (fun i => (q i - p i) * (q i - p i))%R).
  assert (Q0 : (0 <= Q)%R) by (apply sumf_nonneg; intros; apply Rle_0_sqr).
  apply Rnot_lt_le. intros HA. set (th := (- A / (Q - A))%R).
  assert (D : (0 < Q - A)%R) by lra.
  assert (T0 : (0 < th)%R) by (apply Rdiv_lt_0_compat; lra).
  assert (T1 : (th <= 1)%R) by (apply (Rmult_le_reg_r (Q - A)); [exact D|]; unfold th; unfold Rdiv; rewrite Rmult_assoc, Rinv_l by lra; lra).
  assert (TQ : (th * Q <= - A)%R).
  { apply (Rmult_le_reg_r (Q - A)); [exact D|]. replace (th * Q * (Q - A))%R with (- A * Q)%R by (unfold th; field; lra). nra. }
  specialize (Near _ (simplex_between n p q th Sp Hq ltac:(lra))).
  assert (X : distance2 n (fun i => p i + th * (q i - p i))%R x = (distance2 n p x + th * (2 * A) + th * th * Q)%R).
  { unfold distance2, A, Q. rewrite <- !sumf_scale, <- !sumf_plus. apply sumf_ext. intros. ring. }
  rewrite X in Near. assert (0 <= th * (2 * A + th * Q))%R by lra.
  assert (th * (2 * A + th * Q) < th * 0)%R by (apply Rmult_lt_compat_l; lra). lra.
Qed.
(** The objective of the maximum *)
Definition val (n : nat) (s : R) (x q : nat -> R) : R := (dot n x q - / 2 * s * dot n q q)%R.
Definition sq (n : nat) (p q : nat -> R) : R := sumf n (fun i => (q i - p i) * (q i - p i))%R.
Lemma strong n x b g q : 1 <= n -> (0 < g * b)%R -> simplex n q ->
  (val n (g * b) x q + g * b / 2 * sq n (max_l2_grad project n x b g) q <= max_l2 project n x b g)%R.
Proof.
  intros Hn Hs Hq. unfold max_l2. change (project n (fun i => x i / (g * b))%R) with (max_l2_grad project n x b g).
  pose proof (variational n (fun i => x i / (g * b))%R q Hn Hq) as V. cbv beta in V. change (project n (fun i => x i / (g * b))%R) with (max_l2_grad project n x b g) in V.
  set (p := max_l2_grad project n x b g) in *. set (s := (g * b)%R) in *. clearbody p s.
  apply (Rmult_le_compat_l s) in V; [|lra]. rewrite Rmult_0_r, <- sumf_scale in V.
  enough (X : (dot n x p - / 2 * s * dot n p p - (val n s x q + s / 2 * sq n p q))%R = sumf n (fun i => s * ((p i - x i / s) * (q i - p i)))%R) by lra.
  unfold val, sq, dot. rewrite <- !sumf_scale, <- !sumf_minus, <- !sumf_plus, <- !sumf_minus. apply sumf_ext. intros. field. lra.
Qed.
Lemma grad_simplex n x b g : 1 <= n -> simplex n (max_l2_grad project n x b g).
Proof. intros Hn. apply proj. exact Hn. Qed.
Lemma max_val n x b g : max_l2 project n x b g = val n (g * b) x (max_l2_grad project n x b g).
Proof. reflexivity. Qed.
Lemma smooth n x d b g : 1 <= n -> (0 < g * b)%R ->
  (max_l2 project n (fun i => x i + d i) b g <= max_l2 project n x b g + dot n (max_l2_grad project n x b g) d + / (2 * (g * b)) * dot n d d)%R.
Proof.
  intros Hn Hs. pose proof (strong n x b g (max_l2_grad project n (fun i => x i + d i)%R b g) Hn Hs (grad_simplex n _ b g Hn)) as S1.
  rewrite (max_val n (fun i => x i + d i)%R). set (q := max_l2_grad project n (fun i => x i + d i)%R b g) in *. set (p := max_l2_grad project n x b g) in *.
  set (s := (g * b)%R) in *. clearbody p q s.
  enough (X : (val n s (fun i => x i + d i) q <= val n s x q + s / 2 * sq n p q + dot n p d + / (2 * s) * dot n d d)%R) by lra.
  unfold val, sq, dot. rewrite <- !sumf_scale, <- !sumf_minus, <- !sumf_plus. apply sumf_le. intros i Hi.
  assert (Z : (0 <= s / 2 * ((q i - p i - d i / s) * (q i - p i - d i / s)))%R) by (apply Rmult_le_pos; [lra|apply Rle_0_sqr]).
  replace (s / 2 * ((q i - p i - d i / s) * (q i - p i - d i / s)))%R with (s / 2 * ((q i - p i) * (q i - p i)) - (q i - p i) * d i + / (2 * s) * (d i * d i))%R in Z by (field; lra).
  lra.
Qed.

(** ** Plans *)
Variables (M N : nat) (cost : nat -> nat -> R) (a b : nat -> R) (g : R).
Hypothesis HM : 1 <= M.
Hypothesis Hg : (0 < g)%R.
Hypothesis Hb : forall j, j < N -> (0 < b j)%R.
Let F := semi_dual_l2 project M N cost a b g.
Let P alpha := transport_plan_l2 project M N cost b g alpha.
Lemma gb j : j < N -> (0 < g * b j)%R.
Proof. intros Hj. apply Rmult_lt_0_compat; auto. Qed.
Lemma plan_columns alpha : columns M N b (P alpha).
Proof.
  intros j Hj. destruct (grad_simplex M (fun i => alpha i - cost i j)%R (b j) g HM) as [G0 G1]. split.
  - intros i Hi. apply Rmult_le_pos; [apply G0; exact Hi|apply Rlt_le, Hb, Hj].
  - unfold P, transport_plan_l2. rewrite sumf_scale_r, G1. ring.
Qed.
Let err alpha i := (sumf N (P alpha i) - a i)%R.
Lemma dual_smooth alpha d : (F (fun i => alpha i + d i) <= F alpha + dot M (err alpha) d + INR N / (2 * g) * dot M d d)%R.
Proof.
  unfold F, semi_dual_l2.
  assert (A : (sumf N (fun j => b j * max_l2 project M (fun i => alpha i + d i - cost i j) (b j) g) <=
     sumf N (fun j => b j * max_l2 project M (fun i => alpha i - cost i j) (b j) g) + sumf N (fun j => sumf M (fun i => P alpha i j * d i)) + INR N / (2 * g) * dot M d d)%R).
  { replace (INR N / (2 * g) * dot M d d)%R with (sumf N (fun _ => / (2 * g) * dot M d d)%R) by (rewrite sumf_const; field; lra).
    rewrite <- !sumf_plus. apply sumf_le. intros j Hj. pose proof (smooth M (fun i => alpha i - cost i j)%R d (b j) g HM (gb j Hj)) as S1.
    apply (Rmult_le_compat_l (b j)) in S1; [|apply Rlt_le, Hb, Hj]. pose proof (Hb j Hj) as B0.
    eapply Rle_trans; [|eapply Rle_trans; [exact S1|]]; apply Req_le.
    - f_equal. assert (E1 : forall i, (alpha i + d i - cost i j)%R = (alpha i - cost i j + d i)%R) by (intros; ring).
      assert (E2 : (fun i => alpha i + d i - cost i j)%R = (fun i => alpha i - cost i j + d i)%R) by (apply FunctionalExtensionality.functional_extensionality; exact E1).
      rewrite E2. reflexivity.
    - rewrite !Rmult_plus_distr_l. f_equal; [f_equal|].
      + unfold dot. rewrite <- sumf_scale. apply sumf_ext. intros i Hi. unfold P, transport_plan_l2. ring.
      + field. lra. }
  rewrite sum_swap in A. unfold dot at 1 2 3. cbv beta.
  assert (D : sumf M (fun i => sumf N (fun j => P alpha i j * d i))%R = (sumf M (fun i => err alpha i * d i) + sumf M (fun i => a i * d i))%R).
  { rewrite <- sumf_plus. apply sumf_ext. intros i Hi. rewrite sumf_scale_r. unfold err. change (fun j => P alpha i j) with (P alpha i). ring. }
  rewrite D in A.
  assert (D2 : sumf M (fun i => (alpha i + d i) * a i)%R = (sumf M (fun i => alpha i * a i) + sumf M (fun i => a i * d i))%R) by (rewrite <- sumf_plus; apply sumf_ext; intros; ring).
  rewrite D2. lra.
Qed.
Lemma rows_bound alpha delta : 1 <= N -> almost_minimal F delta alpha -> (dot M (err alpha) (err alpha) <= 2 * INR N / g * delta)%R.
Proof.
  intros HN Min. assert (N0 : (0 < INR N)%R) by (apply lt_0_INR; lia).
  pose proof (dual_smooth alpha (fun i => - (g / INR N) * err alpha i)%R) as S1. pose proof (Min (fun i => alpha i + - (g / INR N) * err alpha i)%R) as S2.
  set (G := dot M (err alpha) (err alpha)) in *.
  assert (E1 : dot M (err alpha) (fun i => - (g / INR N) * err alpha i)%R = (- (g / INR N) * G)%R) by (unfold G, dot; rewrite <- sumf_scale; apply sumf_ext; intros; ring).
  assert (E2 : dot M (fun i => - (g / INR N) * err alpha i)%R (fun i => - (g / INR N) * err alpha i)%R = (g / INR N * (g / INR N) * G)%R) by (unfold G, dot; rewrite <- sumf_scale; apply sumf_ext; intros; ring).
  rewrite E1, E2 in S1.
  replace (INR N / (2 * g) * (g / INR N * (g / INR N) * G))%R with (g / INR N * G / 2)%R in S1 by (field; lra).
  assert (X : (g / INR N * G / 2 <= delta)%R) by lra.
  apply (Rmult_le_compat_l (2 * INR N / g)) in X; [|apply Rlt_le, Rdiv_lt_0_compat; lra].
  replace (2 * INR N / g * (g / INR N * G / 2))%R with G in X by (field; lra). exact X.
Qed.
Lemma rows_exact alpha : 1 <= N -> almost_minimal F 0 alpha -> row_sums M N a (P alpha).
Proof.
  intros HN Min i Hi. pose proof (rows_bound alpha 0 HN Min) as B0. rewrite Rmult_0_r in B0.
  assert (Z : (err alpha i * err alpha i <= 0)%R).
  { eapply Rle_trans; [|exact B0]. exact (term_le M (fun i => err alpha i * err alpha i)%R i ltac:(intros; apply Rle_0_sqr) Hi). }
  assert (err alpha i = 0)%R; [|unfold err in *; lra]. apply Rsqr_0_uniq. pose proof (Rle_0_sqr (err alpha i)). unfold Rsqr in *. lra.
Qed.
(** Values of plans *)
Lemma value_split alpha Q : (forall j, j < N -> (b j <> 0)%R) ->
  regularized_value M N g (fun i j => - cost i j)%R Q =
  (sumf N (fun j => b j * val M (g * b j) (fun i => alpha i - cost i j) (fun i => Q i j / b j)) - dot M alpha (fun i => sumf N (Q i)))%R.
Proof.
  intros Hn. unfold regularized_value. rewrite sum_swap.
  assert (D : dot M alpha (fun i => sumf N (Q i)) = sumf N (fun j => sumf M (fun i => alpha i * Q i j))%R).
  { unfold dot. rewrite <- sum_swap. apply sumf_ext. intros i Hi. rewrite sumf_scale. reflexivity. }
  rewrite D, <- sumf_minus. apply sumf_ext. intros j Hj. unfold val, dot. rewrite <- !sumf_scale, <- sumf_minus, <- sumf_scale, <- sumf_minus. apply sumf_ext. intros i Hi. field. auto.
Qed.
Lemma near_best_l2 alpha Q : columns M N b Q -> row_sums M N a Q ->
  (regularized_value M N g (fun i j => - cost i j) Q + g / 2 * plan_distance2 M N (P alpha) Q <=
   regularized_value M N g (fun i j => - cost i j) (P alpha) + dot M alpha (err alpha))%R.
Proof.
  intros HQ HR. assert (Nz : forall j, j < N -> (b j <> 0)%R) by (intros j Hj; pose proof (Hb j Hj); lra).
  rewrite (value_split alpha Q Nz), (value_split alpha (P alpha) Nz).
  assert (D1 : dot M alpha (fun i => sumf N (Q i)) = dot M alpha a) by (unfold dot; apply sumf_ext; intros i Hi; rewrite (HR i Hi); reflexivity).
  assert (D2 : dot M alpha (err alpha) = (dot M alpha (fun i => sumf N (P alpha i)) - dot M alpha a)%R) by (unfold dot, err; rewrite <- sumf_minus; apply sumf_ext; intros; ring).
  rewrite D1, D2.
  assert (A : (sumf N (fun j => b j * val M (g * b j) (fun i => alpha i - cost i j) (fun i => Q i j / b j)) + g / 2 * plan_distance2 M N (P alpha) Q <=
     sumf N (fun j => b j * val M (g * b j) (fun i => alpha i - cost i j) (fun i => P alpha i j / b j)))%R); [|lra].
  unfold plan_distance2. rewrite sum_swap, <- sumf_scale, <- sumf_plus. apply sumf_le. intros j Hj. pose proof (Hb j Hj) as B0.
  assert (SQ : simplex M (fun i => Q i j / b j)%R).
  { destruct (HQ j Hj) as [Q0 Q1]. split; [intros i Hi; apply Rmult_le_pos; [auto|apply Rlt_le, Rinv_0_lt_compat, B0]|]. unfold Rdiv. rewrite sumf_scale_r, Q1. field. lra. }
  pose proof (strong M (fun i => alpha i - cost i j)%R (b j) g (fun i => Q i j / b j)%R HM (gb j Hj) SQ) as S1.
  apply (Rmult_le_compat_l (b j)) in S1; [|lra]. rewrite max_val in S1.
  assert (E1 : val M (g * b j) (fun i => alpha i - cost i j)%R (max_l2_grad project M (fun i => alpha i - cost i j)%R (b j) g) = val M (g * b j) (fun i => alpha i - cost i j)%R (fun i => P alpha i j / b j)%R).
  { unfold val, dot. f_equal; [|f_equal]; apply sumf_ext; intros i Hi; unfold P, transport_plan_l2; field; lra. }
  rewrite <- E1. eapply Rle_trans; [|exact S1]. rewrite Rmult_plus_distr_l. apply Rplus_le_compat_l. right.
  unfold sq. rewrite <- !sumf_scale. apply sumf_ext. intros i Hi. unfold P, transport_plan_l2. field. lra.
Qed.
(** Weak duality, and when it is strict *)
Lemma dual_value alpha : F alpha = (regularized_value M N g (fun i j => - cost i j) (P alpha) + dot M alpha (err alpha))%R.
Proof.
  assert (Nz : forall j, j < N -> (b j <> 0)%R) by (intros j Hj; pose proof (Hb j Hj); lra).
  rewrite (value_split alpha (P alpha) Nz).
  assert (D2 : dot M alpha (err alpha) = (dot M alpha (fun i => sumf N (P alpha i)) - dot M alpha a)%R) by (unfold dot, err; rewrite <- sumf_minus; apply sumf_ext; intros; ring).
  rewrite D2. unfold F, semi_dual_l2.
  rewrite (sumf_ext N (fun j => b j * max_l2 project M (fun i => alpha i - cost i j) (b j) g)%R (fun j => b j * val M (g * b j) (fun i => alpha i - cost i j) (fun i => P alpha i j / b j))%R); [ring|].
  intros j Hj. pose proof (Hb j Hj) as B0. rewrite max_val. f_equal. unfold val, dot. f_equal; [|f_equal]; apply sumf_ext; intros i Hi; unfold P, transport_plan_l2; field; lra.
Qed.
Lemma exact_iff alpha : 1 <= N -> (almost_minimal F 0 alpha <-> row_sums M N a (P alpha)).
Proof.
  intros HN. split; [apply rows_exact; exact HN|]. intros H beta. rewrite Rplus_0_r.
  assert (Z : dot M alpha (err alpha) = 0%R).
  { unfold dot, err. rewrite (sumf_ext M _ (fun _ => 0%R)); [rewrite sumf_const; ring|]. intros i Hi. rewrite (H i Hi). ring. }
  pose proof (near_best_l2 beta (P alpha) (plan_columns alpha) H) as W. rewrite (dual_value alpha), (dual_value beta), Z.
  assert (0 <= g / 2 * plan_distance2 M N (P beta) (P alpha))%R; [|lra].
  apply Rmult_le_pos; [lra|]. apply sumf_nonneg. intros. apply sumf_nonneg. intros. apply Rle_0_sqr.
Qed.
End Plain.
