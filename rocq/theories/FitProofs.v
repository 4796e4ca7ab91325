(** Proofs for C55. *)
From Coq Require Import List Arith Bool Reals Lia Lra Permutation FunctionalExtensionality.
From Verif Require Import SoftModel SoftSpec SoftProofs ElmSpec ElmProofs FewModel FewSpec FewProofs FitModel FitSpec PyLemmas.
From Verif Require Import Py.
Import ListNotations.
Local Open Scope nat_scope.

(** ** Sums *)
Lemma to_scale_l n a f : sum_to n (fun i => (a * f i)%R) = (a * sum_to n f)%R.
Proof. rewrite <- !sumf_to. apply sumf_scale. Qed.
Lemma to_delta n i f : i < n -> sum_to n (fun j => identity i j * f j)%R = f i.
Proof.
  induction n as [|n IH]; intros H; [lia|]. rewrite sum_S. unfold identity at 2. destruct (Nat.eqb_spec i n) as [->|Q].
  - rewrite (to_ext n _ (fun _ => 0%R)); [rewrite to_const; lra|]. intros j Hj. unfold identity. destruct (Nat.eqb_spec n j); [lia|lra].
  - rewrite IH by lia. lra.
Qed.
Lemma to_zero n f : (forall i, i < n -> (0 <= f i)%R) -> sum_to n f = 0%R -> forall i, i < n -> f i = 0%R.
Proof. intros H E i Hi. assert (A := to_elem n f i Hi H). assert (B := H i Hi). lra. Qed.

(** ** Solution with a decomposition *)
Lemma solve n a e q l2 r : decomposition n a e q -> (forall k, k < n -> (e k + l2)%R <> 0%R) ->
  let u := fun i => sum_to n (fun k => q i k * (1 / (e k + l2)) * sum_to n (fun j => q j k * r j))%R in
  forall i, i < n -> (sum_to n (fun j => a i j * u j) + l2 * u i)%R = r i.
Proof.
  intros (O1 & O2 & D) NZ u i Hi. set (s := fun k => sum_to n (fun j => q j k * r j)%R).
  assert (E1 : sum_to n (fun j => a i j * u j)%R = sum_to n (fun k => q i k * e k * (1 / (e k + l2)) * s k)%R).
  { rewrite (to_ext n _ (fun j => sum_to n (fun k => q i k * e k * (q j k * u j)))%R).
    2:{ intros j Hj. rewrite <- (D i j Hi Hj), <- to_scale_r. apply to_ext. intros k Hk. ring. }
    rewrite to_swap. apply to_ext. intros k Hk. rewrite to_scale_l.
    replace (q i k * e k * (1 / (e k + l2)) * s k)%R with (q i k * e k * (1 / (e k + l2) * s k))%R by ring. f_equal.
    unfold u. rewrite (to_ext n _ (fun j => sum_to n (fun m => q j k * q j m * (1 / (e m + l2) * s m)))%R).
    2:{ intros j Hj. rewrite <- to_scale_l. apply to_ext. intros m Hm. unfold s. ring. }
    rewrite to_swap. rewrite (to_ext n _ (fun m => identity k m * (1 / (e m + l2) * s m))%R).
    2:{ intros m Hm. rewrite to_scale_r, O1 by auto. reflexivity. }
    apply (to_delta n k (fun m => 1 / (e m + l2) * s m)%R Hk). }
  rewrite E1. unfold u. fold s. rewrite <- to_scale_l, <- to_plus.
  rewrite (to_ext n _ (fun k => sum_to n (fun j => q i k * q j k * r j)))%R.
  2:{ intros k Hk. fold (s k). replace (q i k * e k * (1 / (e k + l2)) * s k + l2 * (q i k * (1 / (e k + l2)) * s k))%R with (q i k * s k * ((e k + l2) / (e k + l2)))%R by (field; auto).
      unfold Rdiv. rewrite Rinv_r, Rmult_1_r by auto. unfold s. rewrite <- to_scale_l. apply to_ext. intros j Hj. ring. }
  rewrite to_swap. rewrite (to_ext n _ (fun j => identity i j * r j)%R). 2:{ intros j Hj. rewrite to_scale_r, O2 by auto. reflexivity. }
  apply to_delta; auto.
Qed.
(** The eigenvalues of products are not negative. *)
Lemma eigs_nonneg n m g a e q : decomposition n a e q -> (forall i j, i < n -> j < n -> a i j = sum_to m (fun k => g k i * g k j)%R) ->
  forall k, k < n -> (0 <= e k)%R.
Proof.
  intros (O1 & O2 & D) G k Hk.
  assert (E : e k = sum_to n (fun i => q i k * sum_to n (fun j => a i j * q j k))%R).
  { assert (I : forall i, i < n -> sum_to n (fun j => a i j * q j k)%R = (q i k * e k)%R).
    { intros i Hi. rewrite (to_ext n _ (fun j => sum_to n (fun t => q i t * e t * (q j t * q j k)))%R).
      2:{ intros j Hj. rewrite <- (D i j Hi Hj), <- to_scale_r. apply to_ext. intros t Ht. ring. }
      rewrite to_swap. rewrite (to_ext n _ (fun t => identity k t * (q i t * e t))%R).
      2:{ intros t Ht. rewrite to_scale_l, O1 by auto. unfold identity. rewrite (Nat.eqb_sym t k). ring. }
      apply (to_delta n k (fun t => q i t * e t)%R Hk). }
    rewrite (to_ext n _ (fun i => q i k * q i k * e k)%R). 2:{ intros i Hi. rewrite I by auto. ring. }
    rewrite to_scale_r, O1 by auto. unfold identity. rewrite Nat.eqb_refl. ring. }
  rewrite E. rewrite (to_ext n _ (fun i => sum_to m (fun t => (q i k * g t i) * sum_to n (fun j => g t j * q j k)))%R).
  - rewrite to_swap. apply to_nonneg. intros t Ht. rewrite to_scale_r. rewrite (to_ext n (fun i => q i k * g t i)%R (fun i => g t i * q i k)%R) by (intros; ring). apply Rle_0_sqr.
  - intros i Hi. rewrite (to_ext n _ (fun j => sum_to m (fun t => g t i * (g t j * q j k)))%R).
    2:{ intros j Hj. rewrite (G i j Hi Hj), <- to_scale_r. apply to_ext. intros; ring. }
    rewrite to_swap, <- to_scale_l. apply to_ext. intros t Ht. rewrite to_scale_l. ring.
Qed.

(** ** Minimum of the penalized squares, for one column *)
Definition ridge (N P : nat) (X : nat -> nat -> R) (y : nat -> R) (l2 : R) (w : nat -> R) : R :=
  (sum_to N (fun i => square (sum_to P (fun d => X i d * w d) - y i)) + l2 * sum_to P (fun d => square (w d)))%R.
Definition normal_equations (N P : nat) (X : nat -> nat -> R) (y : nat -> R) (l2 : R) (w : nat -> R) : Prop :=
  forall d, d < P -> (sum_to N (fun i => X i d * sum_to P (fun k => X i k * w k)) + l2 * w d)%R = sum_to N (fun i => X i d * y i)%R.
Lemma ridge_diff N P X y l2 w v : normal_equations N P X y l2 w ->
  ridge N P X y l2 v = (ridge N P X y l2 w + (sum_to N (fun i => square (sum_to P (fun d => X i d * (v d - w d)))) + l2 * sum_to P (fun d => square (v d - w d))))%R.
Proof.
  intros H. set (t := fun d => (v d - w d)%R).
  set (f := fun i => (sum_to P (fun d => X i d * w d) - y i)%R). set (g := fun i => sum_to P (fun d => X i d * t d)%R).
  assert (Z : (sum_to N (fun i => g i * f i) + l2 * sum_to P (fun d => t d * w d))%R = 0%R).
  { unfold f, g. rewrite (to_ext N _ (fun i => sum_to P (fun d => t d * (X i d * sum_to P (fun k => X i k * w k) + - (X i d * y i))))%R).
    2:{ intros i Hi. rewrite <- to_scale_r. apply to_ext. intros; ring. }
    rewrite to_swap, <- to_scale_l, <- to_plus. rewrite (to_ext P _ (fun _ => 0%R)); [rewrite to_const; ring|]. intros d Hd.
    rewrite to_scale_l, to_plus. assert (Q := H d Hd).
    replace (sum_to N (fun i => - (X i d * y i))%R) with (- sum_to N (fun i => (X i d * y i)))%R.
    2:{ replace (- sum_to N (fun i => X i d * y i))%R with (-1 * sum_to N (fun i => X i d * y i))%R by ring. rewrite <- to_scale_l. apply to_ext. intros; ring. }
    rewrite <- Q. ring. }
  unfold ridge.
  rewrite (to_ext N (fun i => square (sum_to P (fun d => X i d * v d) - y i))%R (fun i => square (f i) + (2 * (g i * f i) + square (g i)))%R).
  2:{ intros i Hi. replace (sum_to P (fun d => X i d * v d)%R) with (sum_to P (fun d => X i d * w d) + g i)%R; [unfold f, square; ring|].
      unfold g. rewrite <- to_plus. apply to_ext. intros d Hd. unfold t. ring. }
  rewrite (to_ext P (fun d => square (v d)) (fun d => square (w d) + (2 * (t d * w d) + square (t d)))%R).
  2:{ intros d Hd. unfold t, square. ring. }
  rewrite !to_plus, !to_scale_l.
  change (sum_to N (fun i => square (sum_to P (fun d => X i d * w d) - y i)))%R with (sum_to N (fun i => square (f i))).
  change (sum_to N (fun i => square (sum_to P (fun d => X i d * (v d - w d)))))%R with (sum_to N (fun i => square (g i))).
  change (sum_to P (fun d => square (v d - w d))) with (sum_to P (fun d => square (t d))).
  set (A := sum_to N (fun i => square (f i))). set (B := sum_to N (fun i => g i * f i)%R) in *. set (C := sum_to N (fun i => square (g i))).
  set (A' := sum_to P (fun d => square (w d))). set (B' := sum_to P (fun d => t d * w d)%R) in *. set (C' := sum_to P (fun d => square (t d))).
  assert (B = (- (l2 * B'))%R) as -> by lra. ring.
Qed.
Lemma ridge_min N P X y l2 w v : (0 < l2)%R -> normal_equations N P X y l2 w ->
  (ridge N P X y l2 w <= ridge N P X y l2 v)%R /\ (ridge N P X y l2 v = ridge N P X y l2 w -> forall d, d < P -> v d = w d).
Proof.
  intros L H. rewrite (ridge_diff _ _ _ _ _ _ v H). set (A := sum_to N _). set (B := sum_to P (fun d => square (v d - w d))).
  assert (HA : (0 <= A)%R) by (apply to_nonneg; intros; apply Rle_0_sqr). assert (HB : (0 <= B)%R) by (apply to_nonneg; intros; apply Rle_0_sqr).
  assert (HC : (0 <= l2 * B)%R) by (apply Rmult_le_pos; lra). split; [lra|]. intros E d Hd.
  assert (Z : B = 0%R). { destruct (Rmult_integral l2 B); [lra|lra|auto]. }
  assert (S0 := to_zero P _ (fun i _ => Rle_0_sqr (v i - w i)) Z d Hd). apply Rsqr_0_uniq in S0. lra.
Qed.

(** ** The weights of the model *)
Lemma sum_mean n f : mean n f = (sumf n f / INR n)%R.
Proof. unfold mean. rewrite sumf_to. reflexivity. Qed.
Lemma mean0_ok x d : mean0 x d = mean (m_rows x) (fun i => m_at x i d).
Proof. unfold mean0, mean. rewrite sumf_to. reflexivity. Qed.
Lemma std0_ok x d : std0 x d = deviation (m_rows x) (fun i => m_at x i d).
Proof. unfold std0, deviation. rewrite sum_mean, mean0_ok. reflexivity. Qed.
Lemma prepare_at x v i d : d < m_cols v -> m_at (prepare (mean0 x) (fun d => std0 x d + / 100000)%R v) i d = normalized (m_rows x) (fun i => m_at x i d) (m_at v i d).
Proof. intros H. cbn [prepare m_at]. destruct (Nat.ltb_spec d (m_cols v)); [|lia]. rewrite mean0_ok, std0_ok. reflexivity. Qed.
Lemma prepare_last mean std v i : m_at (prepare mean std v) i (m_cols v) = 100%R.
Proof. cbn [prepare m_at]. rewrite Nat.ltb_irrefl. reflexivity. Qed.
Lemma prepare_ok x : prepare (mean0 x) (fun d => std0 x d + / 100000)%R x = augmented x.
Proof.
  unfold prepare, augmented. f_equal. extensionality i. extensionality d. destruct (d <? m_cols x) eqn:E; [|reflexivity]. rewrite mean0_ok, std0_ok. reflexivity.
Qed.
Definition stacked (D : nat) (w : nat -> R) (b : R) (d : nat) : R := if d <? D then w d else (b / 100)%R.
Lemma stacked_score x w b v : score x w b v = sum_to (S (m_cols x)) (fun d => (if d <? m_cols x then normalized (m_rows x) (fun i => m_at x i d) (v d) else 100) * stacked (m_cols x) w b d)%R.
Proof.
  unfold score. rewrite sum_S, Nat.ltb_irrefl. f_equal.
  - apply to_ext. intros d Hd. unfold stacked. destruct (Nat.ltb_spec d (m_cols x)); [reflexivity|lia].
  - unfold stacked. rewrite Nat.ltb_irrefl. field.
Qed.
Lemma loss_ridge x y C l2 w b :
  loss x y C l2 w b = sum_to C (fun c => ridge (m_rows x) (S (m_cols x)) (m_at (augmented x)) (fun i => sign (y i) c) l2 (stacked (m_cols x) (w c) (b c))).
Proof.
  unfold loss. apply to_ext. intros c Hc. unfold ridge. f_equal.
  - apply to_ext. intros i Hi. rewrite stacked_score. reflexivity.
  - f_equal. rewrite sum_S. unfold stacked at 2. rewrite Nat.ltb_irrefl. f_equal. apply to_ext. intros d Hd. unfold stacked. destruct (Nat.ltb_spec d (m_cols x)); [reflexivity|lia].
Qed.
Lemma normal_ext N P X y l2 w w' : (forall d, d < P -> w d = w' d) -> normal_equations N P X y l2 w -> normal_equations N P X y l2 w'.
Proof.
  intros E H d Hd. rewrite <- (H d Hd), (E d Hd). f_equal. apply to_ext. intros i Hi. f_equal. apply to_ext. intros k Hk. rewrite (E k Hk). reflexivity.
Qed.
Lemma to_pos n f i : i < n -> (forall j, j < n -> (0 <= f j)%R) -> (0 < f i)%R -> (0 < sum_to n f)%R.
Proof. intros Hi H P. assert (A := to_elem n f i Hi H). lra. Qed.
Lemma normal_fitted x y C l2 w b : (0 < l2)%R ->
  (forall c, c < C -> normal_equations (m_rows x) (S (m_cols x)) (m_at (augmented x)) (fun i => sign (y i) c) l2 (stacked (m_cols x) (w c) (b c))) ->
  fitted x y C l2 w b.
Proof.
  intros L H w' b'. rewrite !loss_ridge. split.
  - apply to_le. intros c Hc. apply ridge_min; auto.
  - intros E c Hc. set (J := fun w b c => ridge (m_rows x) (S (m_cols x)) (m_at (augmented x)) (fun i => sign (y i) c) l2 (stacked (m_cols x) (w c) (b c))) in *.
    assert (Z : sum_to C (fun c => (J w' b' c + - J w b c)%R) = 0%R).
    { rewrite to_plus. replace (sum_to C (fun c => (- J w b c)%R)) with (- sum_to C (J w b))%R.
      - unfold J in *. rewrite E. ring.
      - replace (- sum_to C (J w b))%R with (-1 * sum_to C (J w b))%R by ring. rewrite <- to_scale_l. apply to_ext. intros; ring. }
    assert (NN : forall i, i < C -> (0 <= J w' b' i + - J w b i)%R).
    { intros i Hi. assert (A := proj1 (ridge_min _ _ _ _ _ _ (stacked (m_cols x) (w' i) (b' i)) L (H i Hi))). unfold J. lra. }
    assert (Q := to_zero C _ NN Z c Hc). cbv beta in Q.
    assert (U := proj2 (ridge_min _ _ _ _ _ _ (stacked (m_cols x) (w' c) (b' c)) L (H c Hc)) ltac:(unfold J in Q; lra)). split.
    + assert (V := U (m_cols x) ltac:(lia)). unfold stacked in V. rewrite Nat.ltb_irrefl in V. lra.
    + intros d Hd. assert (V := U d ltac:(lia)). unfold stacked in V. destruct (Nat.ltb_spec d (m_cols x)); [auto|lia].
Qed.

Section Weights.
Variable eigh : matrix -> (nat -> R) * matrix.
Variables (x : matrix) (y : nat -> nat) (C : nat) (l2 : R).
Hypothesis l2_pos : (0 < l2)%R.
Hypothesis dec : decomposes_products eigh (augmented x).
Let c := precompute_cache eigh x y C.
Let weights := matmul (mkMat (m_rows (c_lhs c)) (m_cols (c_lhs c)) (fun i k => m_at (c_lhs c) i k * (1 / (c_eigs c k + l2)))%R) (c_rhs c).
Lemma weights_normal k : k < C -> m_cols weights = C /\ normal_equations (m_rows x) (S (m_cols x)) (m_at (augmented x)) (fun i => sign (y i) k) l2 (fun d => m_at weights d k).
Proof using l2_pos dec.
  intros Hk. unfold weights, c, precompute_cache. rewrite prepare_ok. unfold decomposes_products in dec. set (X := augmented x) in *.
  assert (RX : m_rows X = m_rows x) by reflexivity. assert (CX : m_cols X = S (m_cols x)) by reflexivity. rewrite <- RX, <- CX. clearbody X.
  assert (TY : forall i, m_at (targets (m_rows X) y C) i k = sign (y i) k) by (intros i; cbn; unfold sign; destruct (y i =? k); lra).
  destruct (m_cols X <=? m_rows X).
  - destruct dec as (RQ & CQ & DQ). destruct (eigh (matmul (transpose X) X)) as [e q]. cbn [fst snd m_rows matmul transpose] in *.
    split; [reflexivity|]. cbn [c_lhs c_eigs c_rhs m_at m_rows m_cols matmul transpose]. rewrite RQ, CQ.
    assert (NN := eigs_nonneg (m_cols X) (m_rows X) (m_at X) _ e _ DQ ltac:(intros i j Hi Hj; cbn [m_at matmul transpose m_rows m_cols]; rewrite sumf_to; reflexivity)).
    intros d Hd. assert (S1 := solve _ _ _ _ l2 (fun d => sum_to (m_rows X) (fun i => m_at X i d * sign (y i) k)%R) DQ ltac:(intros t Ht; assert (A := NN t Ht); lra) d Hd).
    cbv beta zeta in S1. rewrite <- S1.
    set (u := fun i => sum_to (m_cols X) (fun t => m_at q i t * (1 / (e t + l2)) * sum_to (m_cols X) (fun j => m_at q j t * sum_to (m_rows X) (fun i0 => m_at X i0 j * sign (y i0) k)))%R).
    assert (EU : forall i, sumf (m_cols X) (fun t => m_at q i t * (1 / (e t + l2)) * sumf (m_cols X) (fun j => m_at q j t * sumf (m_rows X) (fun i0 => m_at X i0 j * m_at (targets (m_rows X) y C) i0 k)))%R = u i).
    { intros i. unfold u. rewrite sumf_to. apply to_ext. intros t Ht. f_equal. rewrite sumf_to. apply to_ext. intros j Hj. f_equal. rewrite sumf_to. apply to_ext. intros n Hn. rewrite TY. reflexivity. }
    rewrite EU. f_equal.
    rewrite (to_ext (m_rows X) _ (fun i => sum_to (m_cols X) (fun t => m_at X i d * m_at X i t * u t))%R).
    2:{ intros i Hi. rewrite <- to_scale_l. apply to_ext. intros t Ht. rewrite EU. ring. }
    rewrite to_swap. apply to_ext. intros t Ht. rewrite to_scale_r. cbn [m_at matmul transpose m_rows m_cols]. rewrite sumf_to. reflexivity.
  - destruct dec as (RQ & CQ & DQ). destruct (eigh (matmul X (transpose X))) as [e q]. cbn [fst snd m_rows matmul transpose] in *.
    split; [reflexivity|]. cbn [c_lhs c_eigs c_rhs m_at m_rows m_cols matmul transpose]. rewrite CQ.
    assert (NN := eigs_nonneg (m_rows X) (m_cols X) (fun a b => m_at X b a) _ e _ DQ ltac:(intros i j Hi Hj; cbn [m_at matmul transpose m_rows m_cols]; rewrite sumf_to; reflexivity)).
    assert (S1 := solve _ _ _ _ l2 (fun i => sign (y i) k) DQ ltac:(intros t Ht; assert (A := NN t Ht); lra)). cbv beta zeta in S1.
    set (u := fun i => sum_to (m_rows X) (fun t => m_at q i t * (1 / (e t + l2)) * sum_to (m_rows X) (fun j => m_at q j t * sign (y j) k))%R) in S1.
    assert (EU : forall d, sumf (m_rows X) (fun t => sumf (m_rows X) (fun i => m_at X i d * m_at q i t) * (1 / (e t + l2)) * sumf (m_rows q) (fun j => m_at q j t * m_at (targets (m_rows X) y C) j k))%R
                 = sum_to (m_rows X) (fun i => m_at X i d * u i)%R).
    { intros d. rewrite sumf_to. rewrite (to_ext (m_rows X) _ (fun t => sum_to (m_rows X) (fun i => m_at X i d * (m_at q i t * (1 / (e t + l2)) * sum_to (m_rows X) (fun j => m_at q j t * sign (y j) k))))%R).
      - rewrite to_swap. apply to_ext. intros i Hi. rewrite to_scale_l. reflexivity.
      - intros t Ht. rewrite RQ, !sumf_to. rewrite <- !to_scale_r. apply to_ext. intros i Hi.
        rewrite (to_ext (m_rows X) (fun j => m_at q j t * m_at (targets (m_rows X) y C) j k)%R (fun j => m_at q j t * sign (y j) k)%R) by (intros; rewrite TY; reflexivity). ring. }
    intros d Hd. rewrite EU, <- to_scale_l.
    rewrite (to_ext (m_rows X) (fun i => m_at X i d * sign (y i) k)%R (fun i => m_at X i d * (sum_to (m_rows X) (fun j => m_at (matmul X (transpose X)) i j * u j) + l2 * u i))%R).
    2:{ intros i Hi. f_equal. symmetry. apply S1; auto. }
    rewrite <- to_plus. apply to_ext. intros i Hi. rewrite Rmult_plus_distr_l. f_equal; [f_equal|ring].
    rewrite (to_ext (m_cols X) _ (fun t => sum_to (m_rows X) (fun j => m_at X i t * m_at X j t * u j))%R).
    2:{ intros t Ht. rewrite EU, <- to_scale_l. apply to_ext. intros; ring. }
    rewrite to_swap. apply to_ext. intros j Hj. rewrite to_scale_r. cbn [m_at matmul transpose m_rows m_cols]. rewrite sumf_to. reflexivity.
Qed.
End Weights.

(** ** Accuracy *)
Lemma count_sum n (f : nat -> bool) : sumf n (fun i => if f i then 1%R else 0%R) = INR (length (filter f (seq 0 n))).
Proof.
  induction n as [|n IH]; [reflexivity|]. cbn [sumf]. rewrite seq_S, filter_app, app_length, plus_INR, IH. cbn [filter Nat.add]. destruct (f n); cbn [length]; simpl INR; ring.
Qed.
Lemma first_best_ext C f g c : (forall k, k < C -> f k = g k) -> first_best C f c -> first_best C g c.
Proof.
  intros E (H1 & H2 & H3). split; [auto|]. split.
  - intros k Hk. rewrite <- !E by auto. auto.
  - intros k Hk. rewrite <- !E by (auto; lia). auto.
Qed.
Lemma first_best_unique C f c c' : first_best C f c -> first_best C f c' -> c = c'.
Proof.
  intros (H1 & H2 & H3) (K1 & K2 & K3). destruct (lt_eq_lt_dec c c') as [[H|H]|H]; auto.
  - assert (A := K3 c H). assert (B := H2 c' K1). lra.
  - assert (A := H3 c' H). assert (B := K2 c H1). lra.
Qed.
Lemma is_accuracy_unique T C s y a a' : is_accuracy T C s y a -> is_accuracy T C s y a' -> a = a'.
Proof.
  intros (p & P & ->) (p' & P' & ->). do 2 f_equal. f_equal. apply filter_ext_in. intros t Ht. apply in_seq in Ht. rewrite (first_best_unique _ _ _ _ (P t ltac:(lia)) (P' t ltac:(lia))). reflexivity.
Qed.
Lemma is_accuracy_ext T C s s' y a : (forall t c, t < T -> c < C -> s t c = s' t c) -> is_accuracy T C s y a -> is_accuracy T C s' y a.
Proof. intros E (p & P & ->). exists p. split; [|reflexivity]. intros t Ht. apply (first_best_ext C (s t)); auto. Qed.
Lemma argmax_rows T C (s : nat -> nat -> R) : 1 <= C ->
  exists p, rmap (fun i => argmax_list (map (s i) (seq 0 C))) (seq 0 T) = Ok (map p (seq 0 T)) /\ forall t, first_best C (s t) (p t).
Proof.
  intros HC. assert (A : forall t, exists i, argmax_list (map (s t) (seq 0 C)) = Ok i /\ first_best C (s t) i).
  { intros t. destruct (argmax_list_ok (map (s t) (seq 0 C))) as (i & E & F); [destruct C; [lia|discriminate]|]. exists i. split; [exact E|].
    rewrite map_length, seq_length in F. apply (first_best_ext C (fun i => nth i (map (s t) (seq 0 C)) 0%R)); auto. intros k Hk.
    rewrite (nth_indep _ 0%R (s t 0)) by (rewrite map_length, seq_length; auto). rewrite map_nth, seq_nth by auto. reflexivity. }
  exists (fun t => match argmax_list (map (s t) (seq 0 C)) with Ok i => i | _ => 0 end). split.
  - generalize (seq 0 T). induction l as [|t l IH]; [reflexivity|]. cbn [rmap map]. destruct (A t) as (i & -> & _). cbn [bind]. rewrite IH. reflexivity.
  - intros t. destruct (A t) as (i & E & F). rewrite E. exact F.
Qed.
Lemma nth_map_seq {B} (f : nat -> B) n i d : i < n -> nth i (map f (seq 0 n)) d = f i.
Proof. intros H. rewrite (nth_indep _ d (f 0)) by (rewrite map_length, seq_length; auto). rewrite map_nth, seq_nth by auto. reflexivity. Qed.

Lemma fit_ok eigh x y C x_test y_test l2 : (0 < l2)%R -> 1 <= m_rows x -> 1 <= m_rows x_test -> 1 <= C -> m_cols x_test = m_cols x ->
  decomposes_products eigh (augmented x) ->
  exists w b acc, fitted x y C l2 w b /\ regression_accuracy eigh x y C x_test y_test l2 = Ok acc /\
    is_accuracy (m_rows x_test) C (fun t c => score x (w c) (b c) (m_at x_test t)) y_test acc.
Proof.
  intros L HN HT HC HD dec. unfold regression_accuracy, eig_fewshot_acc_fn.
  assert (W := weights_normal eigh x y C l2 L dec). cbv zeta in W. cbv zeta.
  set (wm := matmul {| m_rows := m_rows (c_lhs (precompute_cache eigh x y C)) |} _) in *.
  assert (CW : m_cols wm = C) by (apply (W 0); lia).
  assert (M1 : c_mean (precompute_cache eigh x y C) = mean0 x).
  { unfold precompute_cache. destruct (_ <=? _); destruct (eigh _); reflexivity. }
  assert (M2 : c_std (precompute_cache eigh x y C) = fun d => (std0 x d + / 100000)%R).
  { unfold precompute_cache. destruct (_ <=? _); destruct (eigh _); reflexivity. }
  rewrite M1, M2. clearbody wm.
  set (w := fun c d => m_at wm d c). set (b := fun c => (100 * m_at wm (m_cols x) c)%R).
  assert (SC : forall t c, m_at (matmul (prepare (mean0 x) (fun d => (std0 x d + / 100000)%R) x_test) wm) t c = score x (w c) (b c) (m_at x_test t)).
  { intros t c. cbn [matmul m_at m_cols prepare]. rewrite sumf_to, stacked_score, HD. apply to_ext. intros d Hd. unfold stacked. destruct (Nat.ltb_spec d (m_cols x)).
    - rewrite mean0_ok, std0_ok. reflexivity.
    - unfold b. replace d with (m_cols x) by lia. unfold bias_constant. field. }
  destruct (argmax_rows (m_rows x_test) C (m_at (matmul (prepare (mean0 x) (fun d => (std0 x d + / 100000)%R) x_test) wm)) HC) as (p & EP & FP).
  exists w, b. eexists. split; [|split].
  - apply normal_fitted; auto. intros c Hc. apply (normal_ext _ _ _ _ _ (fun d => m_at wm d c)).
    + intros d Hd. unfold stacked, w, b. destruct (Nat.ltb_spec d (m_cols x)); [reflexivity|]. replace d with (m_cols x) by lia. field.
    + apply (W c Hc).
  - cbn [m_rows m_cols matmul prepare]. rewrite CW. cbn [m_rows m_cols matmul prepare] in EP. rewrite EP. cbn [bind]. reflexivity.
  - exists p. split.
    + intros t Ht. apply (first_best_ext C (m_at (matmul (prepare (mean0 x) (fun d => (std0 x d + / 100000)%R) x_test) wm) t)); auto.
    + rewrite <- count_sum. f_equal. apply sumf_ext. intros i Hi. rewrite nth_map_seq by auto. reflexivity.
Qed.

(** ** The minimum is not changed by the order of training examples. *)
Lemma mean_perm n p f : Permutation (map p (seq 0 n)) (seq 0 n) -> mean n (fun i => f (p i)) = mean n f.
Proof. intros P. unfold mean. rewrite sum_to_perm; auto. Qed.
Lemma normalized_perm n p f v : Permutation (map p (seq 0 n)) (seq 0 n) -> normalized n (fun i => f (p i)) v = normalized n f v.
Proof.
  intros P. unfold normalized, deviation. rewrite (mean_perm n p f P). rewrite (mean_perm n p (fun i => (f i - mean n f) * (f i - mean n f))%R P). reflexivity.
Qed.
Lemma score_perm x p w b v : Permutation (map p (seq 0 (m_rows x))) (seq 0 (m_rows x)) -> score (permuted p x) w b v = score x w b v.
Proof.
  intros P. unfold score. f_equal. cbn [permuted m_cols m_rows m_at]. apply to_ext. intros d Hd. f_equal. apply (normalized_perm _ p (fun i => m_at x i d)). auto.
Qed.
Lemma loss_perm x y p C l2 w b : Permutation (map p (seq 0 (m_rows x))) (seq 0 (m_rows x)) -> loss (permuted p x) (fun i => y (p i)) C l2 w b = loss x y C l2 w b.
Proof.
  intros P. unfold loss. apply to_ext. intros c Hc. f_equal. cbn [permuted m_rows m_at].
  rewrite (to_ext (m_rows x) _ (fun i => square (score x (w c) (b c) (m_at x (p i)) - sign (y (p i)) c))%R).
  2:{ intros i Hi. rewrite <- (score_perm x p) by auto. reflexivity. }
  apply (sum_to_perm (m_rows x) (fun i => square (score x (w c) (b c) (m_at x i) - sign (y i) c))%R). auto.
Qed.
Lemma order_ok eigh eigh' x y p C x_test y_test l2 : (0 < l2)%R -> 1 <= m_rows x -> 1 <= m_rows x_test -> 1 <= C -> m_cols x_test = m_cols x ->
  Permutation (map p (seq 0 (m_rows x))) (seq 0 (m_rows x)) ->
  decomposes_products eigh (augmented x) -> decomposes_products eigh' (augmented (permuted p x)) ->
  regression_accuracy eigh' (permuted p x) (fun i => y (p i)) C x_test y_test l2 = regression_accuracy eigh x y C x_test y_test l2.
Proof.
  intros L HN HT HC HD P D1 D2.
  destruct (fit_ok eigh x y C x_test y_test l2 L HN HT HC HD D1) as (w & b & acc & F & -> & A).
  destruct (fit_ok eigh' (permuted p x) (fun i => y (p i)) C x_test y_test l2 L HN HT HC HD D2) as (w' & b' & acc' & F' & -> & A').
  f_equal. apply (is_accuracy_unique (m_rows x_test) C (fun t c => score x (w c) (b c) (m_at x_test t)) y_test); [|exact A].
  assert (U : forall c, c < C -> b' c = b c /\ forall d, d < m_cols x -> w' c d = w c d).
  { apply F. destruct (F w' b') as [L1 _]. destruct (F' w b) as [L2 _]. rewrite !loss_perm in L2 by auto. lra. }
  apply (is_accuracy_ext _ _ (fun t c => score (permuted p x) (w' c) (b' c) (m_at x_test t))); [|exact A'].
  intros t c Ht Hc. rewrite score_perm by auto. destruct (U c Hc) as [-> EW]. unfold score. f_equal. apply to_ext. intros d Hd. rewrite EW by auto. reflexivity.
Qed.
(** ** Shift and normalization *)
Lemma mean_shift n f k : 1 <= n -> mean n (fun i => f i + k)%R = (mean n f + k)%R.
Proof. intros H. unfold mean. rewrite to_plus, to_const. field. apply not_0_INR. lia. Qed.
Lemma normalized_shift n f k v : 1 <= n -> normalized n (fun i => f i + k)%R (v + k)%R = normalized n f v.
Proof.
  intros H. unfold normalized, deviation. rewrite !mean_shift by auto. f_equal; [ring|]. do 3 f_equal. extensionality i. ring.
Qed.
Lemma shift_ok eigh x y C x_test y_test l2 k : 1 <= m_rows x ->
  regression_accuracy eigh (shifted k x) y C (shifted k x_test) y_test l2 = regression_accuracy eigh x y C x_test y_test l2.
Proof.
  intros HN.
  assert (PE : forall v, prepare (mean0 (shifted k x)) (fun d => (std0 (shifted k x) d + / 100000)%R) (shifted k v) = prepare (mean0 x) (fun d => (std0 x d + / 100000)%R) v).
  { intros v. unfold prepare. cbn [shifted m_rows m_cols]. f_equal. extensionality i. extensionality d. destruct (d <? m_cols v); [|reflexivity].
    rewrite !mean0_ok, !std0_ok. apply (normalized_shift (m_rows x) (fun i => m_at x i d) (k d) (m_at v i d) HN). }
  unfold regression_accuracy, precompute_cache, eig_fewshot_acc_fn. rewrite !PE. set (X := prepare (mean0 x) (fun d => (std0 x d + / 100000)%R) x).
  destruct (m_cols X <=? m_rows X); destruct (eigh _) as [e q]; cbn [c_mean c_std c_eigs c_lhs c_rhs]; rewrite PE; reflexivity.
Qed.
Lemma normalized_mean n f : 1 <= n -> mean n (fun i => normalized n f (f i)) = 0%R.
Proof.
  intros H. unfold normalized, Rdiv. unfold mean at 1. rewrite to_scale_r. rewrite (to_ext n _ (fun i => f i + - mean n f)%R) by (intros; ring).
  rewrite to_plus, to_const. unfold mean. unfold Rdiv. replace (sum_to n f + INR n * - (sum_to n f * / INR n))%R with 0%R by (field; apply not_0_INR; lia). ring.
Qed.
Lemma normalized_deviation n f : 1 <= n -> deviation n (fun i => normalized n f (f i)) = (deviation n f / (deviation n f + / 100000))%R.
Proof.
  intros H. unfold deviation at 1. rewrite normalized_mean by auto. set (s := (deviation n f + / 100000)%R).
  assert (DP : (0 <= deviation n f)%R) by apply sqrt_pos. assert (SP : (0 < s)%R) by (unfold s; lra).
  replace (mean n (fun i => (normalized n f (f i) - 0) * (normalized n f (f i) - 0))%R) with (mean n (fun i => (f i - mean n f) * (f i - mean n f)) * Rsqr (/ s))%R.
  - rewrite sqrt_mult_alt.
    + rewrite sqrt_Rsqr; [reflexivity|]. left. apply Rinv_0_lt_compat. auto.
    + unfold mean at 1. apply Rmult_le_pos; [apply to_nonneg; intros; apply Rle_0_sqr|]. left. apply Rinv_0_lt_compat. apply lt_0_INR. lia.
  - unfold mean at 1 4. unfold Rdiv. rewrite Rmult_assoc, (Rmult_comm (/ INR n)), <- Rmult_assoc. f_equal. rewrite <- to_scale_r. apply to_ext. intros i Hi.
    unfold normalized. fold s. unfold Rdiv, Rsqr. ring.
Qed.

Lemma no_classes eigh x y x_test y_test l2 : 1 <= m_rows x_test -> regression_accuracy eigh x y 0 x_test y_test l2 = Raise ValueError.
Proof.
  intros H. unfold regression_accuracy, eig_fewshot_acc_fn. cbv zeta. cbn [m_rows m_cols matmul prepare].
  replace (m_cols (c_rhs (precompute_cache eigh x y 0))) with 0 by (unfold precompute_cache; destruct (_ <=? _); destruct (eigh _); reflexivity).
  destruct (m_rows x_test) as [|n]; [lia|]. reflexivity.
Qed.

(** ** The seed has no effect if all examples are used. *)
Lemma list_order eigh D x y x' y' C xt yt l2 : (0 < l2)%R -> 1 <= length xt -> 1 <= C -> length x = length y -> length x' = length y' ->
  Permutation (combine x y) (combine x' y') -> decomposes_products eigh (augmented (rows_matrix D x)) -> decomposes_products eigh (augmented (rows_matrix D x')) ->
  fewshot_accuracy eigh D x' y' C xt yt l2 = fewshot_accuracy eigh D x y C xt yt l2.
Proof.
  intros L HT HC Q Q' P D1 D2. assert (LE := Permutation_length P). rewrite !combine_length, <- Q, <- Q', !Nat.min_id in LE.
  destruct (Nat.eq_dec (length x) 0) as [Z|NZ].
  { destruct x; [|discriminate]. destruct x'; [|discriminate]. destruct y; [|discriminate]. destruct y'; [|discriminate]. reflexivity. }
  apply (proj1 (Permutation_nth _ _ ((fun _ => 0%R) : nat -> R, 0))) in P. destruct P as (_ & f & B & I & H). rewrite combine_length, <- Q, Nat.min_id in *.
  set (p := fun i => if i <? length x then f i else i).
  assert (PP : Permutation (map p (seq 0 (length x))) (seq 0 (length x))).
  { apply NoDup_Permutation_bis.
    - assert (K : forall l, (forall i, List.In i l -> i < length x) -> NoDup l -> NoDup (map p l)).
      { intros l HL ND. induction ND as [|a l NI ND IH]; [constructor|]. cbn [map]. constructor; [|apply IH; intros; apply HL; right; auto]. intros K. apply in_map_iff in K. destruct K as (b & E & Kb).
        assert (A1 := HL a (or_introl eq_refl)). assert (A2 := HL b (or_intror Kb)). unfold p in E. destruct (Nat.ltb_spec b (length x)), (Nat.ltb_spec a (length x)); try lia. apply I in E; auto. subst. contradiction. }
      apply K; [|apply seq_NoDup]. intros i Hi. apply in_seq in Hi. lia.
    - rewrite map_length. lia.
    - intros i Hi. apply in_map_iff in Hi. destruct Hi as (j & <- & Hj). apply in_seq in Hj. apply in_seq. unfold p. destruct (Nat.ltb_spec j (length x)); [|lia]. assert (A := B j ltac:(lia)). lia. }
  assert (N1 : forall i, nth i x' (fun _ => 0%R) = nth (p i) x (fun _ => 0%R) /\ nth i y' 0 = nth (p i) y 0).
  { intros i. unfold p. destruct (Nat.ltb_spec i (length x)).
    - specialize (H i ltac:(lia)). rewrite !combine_nth in H by auto. injection H as H1 H2. auto.
    - rewrite !nth_overflow by lia. auto. }
  unfold fewshot_accuracy.
  replace (rows_matrix D x') with (permuted p (rows_matrix D x)) in *.
  2:{ unfold permuted, rows_matrix. cbn [m_rows m_cols m_at]. rewrite LE. f_equal. extensionality i. symmetry. apply N1. }
  replace (fun i => nth i y' 0) with (fun i => (fun i => nth i y 0) (p i)) by (extensionality i; symmetry; apply N1).
  refine (order_ok eigh eigh (rows_matrix D x) (fun i => nth i y 0) p C (rows_matrix D xt) (fun i => nth i yt 0) l2 L _ HT HC eq_refl PP D1 D2). cbn [rows_matrix m_rows]. lia.
Qed.
Lemma selected {A} (l : list A) idx r d : map (nth_error l) idx = map Some r -> r = map (fun i => nth i l d) idx.
Proof.
  revert r. induction idx as [|i idx IH]; intros [|a r] H; try discriminate; auto. cbn [map] in *. injection H as H1 H2. rewrite <- (IH r H2). f_equal. symmetry. apply nth_error_nth. auto.
Qed.
Lemma combine_maps {A B T} (f : T -> A) (g : T -> B) l : combine (map f l) (map g l) = map (fun t => (f t, g t)) l.
Proof. induction l as [|t l IH]; auto. cbn [map combine]. rewrite IH. reflexivity. Qed.
Lemma picked_all permutation (permutes : forall seed c l, Permutation (permutation seed c l) l) seed seed' shot labels C :
  (forall c, c < C -> count_label labels c <= shot) -> Permutation (picked permutation seed shot labels C) (picked permutation seed' shot labels C).
Proof.
  intros H. induction C as [|C IH]; [constructor|]. rewrite !picked_S. apply Permutation_app; [apply IH; intros; apply H; lia|]. unfold part.
  assert (Q := H C ltac:(lia)). rewrite <- where_count in Q.
  rewrite !firstn_all2 by (rewrite (Permutation_length (permutes _ _ _)); auto). rewrite (permutes seed C). symmetry. apply permutes.
Qed.
Lemma seed_ok {St Img} (step : St -> list Img -> St * list (nat -> R)) permutation eigh D shots l2_regs C s tr te seed seed' shot l2 :
  (forall s x, length (snd (step s x)) = length x) -> (forall seed c l, Permutation (permutation seed c l) l) ->
  (forall b, List.In b tr -> well_formed b) -> (forall b, List.In b te -> well_formed b) -> tr <> [] -> 1 <= length (valid_rows b_labels te) -> 1 <= C ->
  List.In shot shots -> List.In l2 l2_regs -> (0 < l2)%R -> (forall c, c < C -> count_label (valid_rows b_labels tr) c <= shot) ->
  (forall x, incl x (batch_features step s tr) -> decomposes_products eigh (augmented (rows_matrix D x))) ->
  exists r r' acc, compute_fewshot_metrics step permutation (fewshot_accuracy eigh D) shots l2_regs C s tr te seed = Ok r /\
    compute_fewshot_metrics step permutation (fewshot_accuracy eigh D) shots l2_regs C s tr te seed' = Ok r' /\
    result_of r shot l2 = Ok acc /\ result_of r' shot l2 = Ok acc.
Proof.
  intros SR PM W1 W2 N1 N2 HC I1 I2 L CNT DEC.
  assert (N2' : te <> []) by (intros ->; cbn in N2; lia).
  destruct (metrics_ok step SR permutation PM (fewshot_accuracy eigh D) shots l2_regs C s tr te seed W1 W2 N1 N2' HC) as (r & E1 & R1).
  destruct (metrics_ok step SR permutation PM (fewshot_accuracy eigh D) shots l2_regs C s tr te seed' W1 W2 N1 N2' HC) as (r' & E2 & R2).
  destruct (R1 shot l2 I1 I2) as (idx & x & y & J1 & X1 & Y1 & Z1). destruct (R2 shot l2 I1 I2) as (idx' & x' & y' & J2 & X2 & Y2 & Z2).
  exists r, r'. eexists. split; [exact E1|]. split; [exact E2|]. split; [exact Z1|]. rewrite Z2. f_equal.
  rewrite shot_indices_eq in J1, J2 by auto. apply Ok_inj in J1, J2. subst idx idx'.
  assert (IX : forall i (v : list (nat -> R)), map (nth_error (batch_features step s tr)) i = map Some v -> incl v (batch_features step s tr)).
  { intros i v E a Ha. assert (M : List.In (Some a) (map Some v)) by (apply in_map; auto). rewrite <- E in M. apply in_map_iff in M. destruct M as (j & Ej & _). eapply nth_error_In, Ej. }
  assert (D1 := DEC x (IX _ _ X1)). assert (D2 := DEC x' (IX _ _ X2)).
  apply (selected _ _ _ (fun _ => 0%R)) in X1, X2. apply (selected _ _ _ 0) in Y1, Y2.
  apply list_order; auto.
  - rewrite (features_length step SR) by auto. auto.
  - subst. rewrite !map_length. reflexivity.
  - subst. rewrite !map_length. reflexivity.
  - subst. rewrite !combine_maps. apply Permutation_map. apply picked_all; auto.
Qed.

(** ** Examples: a function that decomposes diagonal matrices *)
Definition diag_eigh (a : matrix) : (nat -> R) * matrix := (fun i => m_at a i i, mkMat (m_rows a) (m_rows a) identity).
Lemma diag_decomposes a : (forall i j, i < m_rows a -> j < m_rows a -> i <> j -> m_at a i j = 0%R) -> decomposes diag_eigh a.
Proof.
  intros H. split; [reflexivity|]. split; [reflexivity|]. unfold decomposition. cbn [diag_eigh fst snd m_at].
  assert (S : forall i j, identity i j = identity j i) by (intros; unfold identity; rewrite Nat.eqb_sym; reflexivity). split; [|split]; intros i j Hi Hj.
  - rewrite (to_ext _ _ (fun k => identity i k * identity k j)%R) by (intros k _; rewrite (S k i); reflexivity). apply (to_delta _ _ (fun k => identity k j) Hi).
  - rewrite (to_ext _ _ (fun k => identity i k * identity k j)%R) by (intros k _; rewrite (S k j); reflexivity). apply (to_delta _ _ (fun k => identity k j) Hi).
  - rewrite (to_ext _ _ (fun k => identity i k * (m_at a k k * identity k j))%R) by (intros k _; rewrite (S k j); ring). rewrite (to_delta _ _ (fun k => m_at a k k * identity k j)%R Hi).
    unfold identity. destruct (Nat.eqb_spec i j) as [->|N]; [ring|]. rewrite (H i j) by auto. ring.
Qed.
Lemma two_examples : decomposes_products diag_eigh (augmented (mkMat 2 1 (fun i _ => if i =? 0 then 0%R else 2%R))).
Proof.
  set (f := fun i : nat => if i =? 0 then 0%R else 2%R). assert (M : mean 2 f = 1%R) by (unfold mean, sum_to, f; simpl; lra).
  unfold decomposes_products. cbn [augmented m_rows m_cols Nat.leb]. apply diag_decomposes. cbn [matmul transpose m_rows m_cols augmented m_at].
  assert (E : forall v, normalized 2 (fun i => if i =? 0 then 0%R else 2%R) v = ((v - 1) * / (deviation 2 f + / 100000))%R) by (intros v; unfold normalized; fold f; rewrite M; reflexivity).
  intros [|[|i]] [|[|j]] Hi Hj N; try lia; cbn [sumf Nat.ltb Nat.leb Nat.eqb]; rewrite !E; ring.
Qed.
Lemma no_features l : decomposes_products diag_eigh (augmented (rows_matrix 0 l)).
Proof.
  unfold decomposes_products. cbn [augmented m_rows m_cols rows_matrix]. destruct (1 <=? length l) eqn:Q; apply diag_decomposes; cbn [matmul transpose m_rows m_cols augmented rows_matrix]; intros i j Hi Hj N; [lia|].
  apply Nat.leb_gt in Q. lia.
Qed.
