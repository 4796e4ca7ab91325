(** Proofs for C43 and C52. *)
From Coq Require Import List Arith ZArith Bool Reals QArith Lia Lra Permutation.
From Verif Require Import Prim MoeModel MoeProofs SoftModel SoftSpec.
Import ListNotations.
Local Open Scope nat_scope.

(** ** Sums *)
Lemma sumf_ext n f g : (forall i, i < n -> f i = g i) -> sumf n f = sumf n g.
Proof. induction n as [|n IH]; intros H; auto. cbn [sumf]. rewrite IH, H; auto. Qed.
Lemma rplus_fold l : forall a, fold_right Rplus a l = (fold_right Rplus 0 l + a)%R.
Proof. induction l as [|x l IH]; intros a; cbn [fold_right]; [lra|]. rewrite IH. lra. Qed.
Lemma sumf_to n f : sumf n f = sum_to n f.
Proof.
  induction n as [|n IH]; auto. cbn [sumf]. unfold sum_to in *. rewrite seq_S, map_app, fold_right_app, rplus_fold. cbn [map fold_right Nat.add]. rewrite IH. lra.
Qed.
Lemma sumf_scale n a f : sumf n (fun i => (a * f i)%R) = (a * sumf n f)%R.
Proof. induction n as [|n IH]; cbn [sumf]; [lra|]. rewrite IH. lra. Qed.
Lemma sumf_scale_r n a f : sumf n (fun i => (f i * a)%R) = (sumf n f * a)%R.
Proof. induction n as [|n IH]; cbn [sumf]; [lra|]. rewrite IH. lra. Qed.
Lemma sumf_plus n f g : sumf n (fun i => (f i + g i)%R) = (sumf n f + sumf n g)%R.
Proof. induction n as [|n IH]; cbn [sumf]; [lra|]. rewrite IH. lra. Qed.
Lemma sumf_le n f g : (forall i, i < n -> (f i <= g i)%R) -> (sumf n f <= sumf n g)%R.
Proof. induction n as [|n IH]; intros H; cbn [sumf]; [lra|]. assert (A := IH (fun i Hi => H i ltac:(lia))). assert (B := H n ltac:(lia)). lra. Qed.
Lemma sumf_const n a : sumf n (fun _ => a) = (INR n * a)%R.
Proof. induction n as [|n IH]; [simpl; lra|]. cbn [sumf]. rewrite IH, S_INR. lra. Qed.
Lemma sumf_nonneg n f : (forall i, i < n -> (0 <= f i)%R) -> (0 <= sumf n f)%R.
Proof. intros H. eapply Rle_trans; [|apply sumf_le, H]. rewrite sumf_const. lra. Qed.
Lemma sumf_pos n f : 0 < n -> (forall i, i < n -> (0 < f i)%R) -> (0 < sumf n f)%R.
Proof. destruct n as [|n]; [lia|]. intros _ H. cbn [sumf]. assert (A := sumf_nonneg n f (fun i Hi => Rlt_le _ _ (H i ltac:(lia)))). assert (B := H n ltac:(lia)). lra. Qed.
Lemma sumf_abs n f : (Rabs (sumf n f) <= sumf n (fun i => Rabs (f i)))%R.
Proof. induction n as [|n IH]; cbn [sumf]; [rewrite Rabs_R0; lra|]. eapply Rle_trans; [apply Rabs_triang|]. lra. Qed.
Lemma sum_to_perm n f p : Permutation (map p (seq 0 n)) (seq 0 n) -> sum_to n (fun i => f (p i)) = sum_to n f.
Proof.
  intros P. unfold sum_to. rewrite <- (map_map p f). assert (K : forall a b : list R, Permutation a b -> fold_right Rplus 0%R a = fold_right Rplus 0%R b) by (induction 1; simpl; lra).
  apply K, Permutation_map. auto.
Qed.
Lemma vsum_R n (f : nat -> nat -> R) i : vsum Ralg n f i = sumf n (fun k => f k i).
Proof. induction n as [|n IH]; auto. cbn [vsum sumf vadd Ralg]. cbn. rewrite <- IH. auto. Qed.

(** ** Weights *)
Lemma dispatch_convex M l g n p : 0 < M -> convex M (fun m => soft_dispatch M l g m n p).
Proof.
  intros HM. assert (P : (0 < sumf M (fun i => exp (l g i n p)))%R) by (apply sumf_pos; auto; intros; apply exp_pos). split.
  - intros m Hm. apply Rmult_lt_0_compat; [apply exp_pos|apply Rinv_0_lt_compat; auto].
  - rewrite <- sumf_to. unfold soft_dispatch, Rdiv. rewrite sumf_scale_r. apply Rinv_r. lra.
Qed.
Lemma combine_convex N P l g m : 0 < N -> 0 < P -> convex2 N P (fun n p => soft_combine N P l g m n p).
Proof.
  intros HN HP. assert (K : (0 < sumf N (fun i => sumf P (fun j => exp (l g m i j))))%R).
  { apply sumf_pos; auto. intros. apply sumf_pos; auto. intros. apply exp_pos. }
  split.
  - intros n p Hn Hp. apply Rmult_lt_0_compat; [apply exp_pos|apply Rinv_0_lt_compat; auto].
  - rewrite <- sumf_to. rewrite (sumf_ext N _ (fun i => sumf P (fun j => exp (l g m i j)) * / sumf N (fun i => sumf P (fun j => exp (l g m i j))))%R).
    + rewrite sumf_scale_r. apply Rinv_r. lra.
    + intros i Hi. rewrite <- sumf_to. unfold soft_combine, Rdiv. apply sumf_scale_r.
Qed.

Section Layer.
Variables G M N P : nat.
Variable l : nat -> nat -> nat -> nat -> R.
Hypothesis HN : 0 < N.
Let d := soft_dispatcher M N P l.
Lemma slot_input data g n p i : g < G -> n < N -> p < P ->
  @einsum_do_dispatch Ralg G M N P d data n (a2a_pos G N g * P + p) i = sum_to M (fun m => (soft_dispatch M l g m n p * data g m i)%R).
Proof using HN.
  intros Hg Hn Hp. unfold einsum_do_dispatch. rewrite dispatch_at by (auto; lia). rewrite vsum_R, sumf_to. reflexivity.
Qed.
Lemma slot_output outs g m i : g < G ->
  @einsum_do_combine Ralg G M N P (G * P) d outs g m i =
  sum_to N (fun n => sum_to P (fun p => (soft_combine N P l g m n p * outs n (a2a_pos G N g * P + p)%nat i)%R)).
Proof using HN.
  intros Hg. unfold einsum_do_combine. rewrite vsum_R, <- sumf_to. apply sumf_ext. intros n Hn. rewrite vsum_R, <- sumf_to. apply sumf_ext. intros p Hp.
  cbn [Ralg vscale]. rewrite receive_at by (auto; lia). reflexivity.
Qed.
Lemma layer_output f data g m i : (forall e x y, (forall j, x j = y j) -> forall j, f e x j = f e y j) -> g < G ->
  soft_layer G M N P d f data g m i =
  sum_to N (fun n => sum_to P (fun p => (soft_combine N P l g m n p * f n (fun j => sum_to M (fun m' => (soft_dispatch M l g m' n p * data g m' j)%R)) i)%R)).
Proof using HN.
  intros F Hg. unfold soft_layer, sparse_moe. rewrite slot_output by auto. rewrite <- !sumf_to. apply sumf_ext. intros n Hn. rewrite <- !sumf_to. apply sumf_ext. intros p Hp.
  f_equal. apply F. intros j. apply slot_input; auto.
Qed.
End Layer.

Lemma convex_range n w x lo hi : convex n w -> (forall i, i < n -> (lo <= x i <= hi)%R) -> (lo <= sum_to n (fun i => (w i * x i)%R) <= hi)%R.
Proof.
  intros [P S] H. rewrite <- sumf_to in *. assert (E : forall a, sumf n (fun i => (w i * a)%R) = a) by (intros a; rewrite sumf_scale_r, S; lra).
  split; [rewrite <- (E lo)|rewrite <- (E hi)]; apply sumf_le; intros i Hi; apply Rmult_le_compat_l; try (apply Rlt_le, P; auto); apply H; auto.
Qed.
Lemma convex2_range n p w x lo hi : convex2 n p w -> (forall i j, i < n -> j < p -> (lo <= x i j <= hi)%R) ->
  (lo <= sum_to n (fun i => sum_to p (fun j => (w i j * x i j)%R)) <= hi)%R.
Proof.
  intros [P S] H. rewrite <- sumf_to in *.
  assert (E : forall a, sumf n (fun i => sum_to p (fun j => (w i j * a)%R)) = a).
  { intros a. rewrite (sumf_ext n _ (fun i => sum_to p (w i) * a)%R) by (intros; rewrite <- !sumf_to; apply sumf_scale_r). rewrite sumf_scale_r, S. lra. }
  split; [rewrite <- (E lo)|rewrite <- (E hi)]; apply sumf_le; intros i Hi; rewrite <- !sumf_to; apply sumf_le; intros j Hj; apply Rmult_le_compat_l; try (apply Rlt_le, P; auto); apply H; auto.
Qed.

(** ** Logits *)
Lemma eps6_pos : (0 < eps6)%R.
Proof. unfold eps6. apply Rinv_0_lt_compat. lra. Qed.
Lemma sq_nonneg D x : (0 <= sumf D (fun i => (x i * x i)%R))%R.
Proof. apply sumf_nonneg. intros. apply Rle_0_sqr. Qed.
Lemma normalize_norm D x : (sumf D (fun i => (normalize D x i * normalize D x i)%R) <= 1)%R.
Proof.
  unfold normalize. set (s := sumf D (fun i => (x i * x i)%R)). assert (Hs : (0 <= s)%R) by apply sq_nonneg. assert (He := eps6_pos).
  assert (Q : (0 < sqrt (s + eps6))%R) by (apply sqrt_lt_R0; lra).
  rewrite (sumf_ext D _ (fun i => (x i * x i) * (/ sqrt (s + eps6) * / sqrt (s + eps6)))%R) by (intros; ring).
  rewrite sumf_scale_r. fold s. rewrite <- Rinv_mult. rewrite sqrt_sqrt by lra.
  apply Rmult_le_reg_r with (s + eps6)%R; [lra|]. rewrite Rmult_assoc, Rinv_l by lra. lra.
Qed.
Lemma cauchy D x y : (sumf D (fun i => (x i * x i)%R) <= 1)%R -> (sumf D (fun i => (y i * y i)%R) <= 1)%R -> (Rabs (sumf D (fun i => (x i * y i)%R)) <= 1)%R.
Proof.
  intros X Y. eapply Rle_trans; [apply sumf_abs|]. eapply Rle_trans; [apply (sumf_le D _ (fun i => (/2 * (x i * x i) + /2 * (y i * y i))%R))|].
  - intros i _. rewrite Rabs_mult. assert (A := Rle_0_sqr (Rabs (x i) - Rabs (y i))). unfold Rsqr in A.
    assert (B : forall a, (Rabs a * Rabs a = a * a)%R) by (intros a; rewrite <- Rabs_mult; apply Rabs_right; apply Rle_ge, Rle_0_sqr).
    rewrite <- (B (x i)), <- (B (y i)). lra.
  - rewrite sumf_plus, !sumf_scale. lra.
Qed.
Lemma logits_eq G M D N P inputs mu scale g m n p :
  soft_logits G M D N P inputs mu scale g m n p = (scale * sumf D (fun d => normalize D (inputs g m) d * normalize D (fun i => mu i n p) d))%R.
Proof. unfold soft_logits. destruct (G * M * D <? D * N * P); rewrite <- sumf_scale; apply sumf_ext; intros; ring. Qed.
Lemma logits_bound G M D N P inputs mu scale g m n p : (Rabs (soft_logits G M D N P inputs mu scale g m n p) <= Rabs scale)%R.
Proof.
  rewrite logits_eq, Rabs_mult. rewrite <- (Rmult_1_r (Rabs scale)) at 2. apply Rmult_le_compat_l; [apply Rabs_pos|]. apply cauchy; apply normalize_norm.
Qed.
Lemma dispatch_lower M l g n p m s : 0 < M -> m < M -> (forall i, i < M -> (Rabs (l g i n p) <= s)%R) -> (exp (- 2 * s) / INR M <= soft_dispatch M l g m n p)%R.
Proof.
  intros HM Hm B. unfold soft_dispatch. assert (PM : (0 < INR M)%R) by (apply lt_0_INR; lia).
  assert (Q : (0 < sumf M (fun i => exp (l g i n p)))%R) by (apply sumf_pos; auto; intros; apply exp_pos).
  assert (U : (sumf M (fun i => exp (l g i n p)) <= INR M * exp s)%R).
  { rewrite <- sumf_const. apply sumf_le. intros i Hi. assert (A := B i Hi). assert (X : (l g i n p <= s)%R) by (eapply Rle_trans; [apply Rle_abs|auto]).
    destruct X as [X| ->]; [apply Rlt_le, exp_increasing; auto|lra]. }
  assert (L : (exp (- s) <= exp (l g m n p))%R).
  { assert (A := B m Hm). assert (X : (- s <= l g m n p)%R). { rewrite <- Rabs_Ropp in A. assert (Y := Rle_abs (- l g m n p)). lra. }
    destruct X as [X|X]; [apply Rlt_le, exp_increasing; auto|rewrite X; lra]. }
  replace (- 2 * s)%R with (- s + - s)%R by lra. rewrite exp_plus. unfold Rdiv.
  apply Rmult_le_reg_r with (sumf M (fun i => exp (l g i n p))); auto. rewrite (Rmult_assoc (exp (l g m n p))), Rinv_l by lra. rewrite Rmult_1_r.
  eapply Rle_trans; [apply Rmult_le_compat_l; [|exact U]|].
  - apply Rlt_le. repeat apply Rmult_lt_0_compat; try apply exp_pos. apply Rinv_0_lt_compat. auto.
  - replace (exp (- s) * exp (- s) * / INR M * (INR M * exp s))%R with (exp (- s) * (exp (- s) * exp s) * (/ INR M * INR M))%R by ring.
    rewrite <- exp_plus, Rinv_l by lra. replace (- s + s)%R with 0%R by lra. rewrite exp_0. lra.
Qed.

(** ** Order of the items *)
Lemma layer_perm G M D N P inputs mu scale (f : nat -> (nat -> R) -> nat -> R) (pi : nat -> nat -> nat) g m i :
  0 < N -> (forall e x y, (forall j, x j = y j) -> forall j, f e x j = f e y j) -> g < G ->
  Permutation (map (pi g) (seq 0 M)) (seq 0 M) ->
  let permuted := fun g m => inputs g (pi g m) in
  soft_layer G M N P (soft_dispatcher M N P (soft_logits G M D N P permuted mu scale)) f permuted g m i =
  soft_layer G M N P (soft_dispatcher M N P (soft_logits G M D N P inputs mu scale)) f inputs g (pi g m) i.
Proof.
  intros HN F Hg Pm permuted. rewrite !layer_output by auto. rewrite <- !sumf_to. apply sumf_ext. intros n Hn. rewrite <- !sumf_to. apply sumf_ext. intros p Hp.
  assert (L : forall m n p, soft_logits G M D N P permuted mu scale g m n p = soft_logits G M D N P inputs mu scale g (pi g m) n p) by (intros; rewrite !logits_eq; reflexivity).
  assert (C : soft_combine N P (soft_logits G M D N P permuted mu scale) g m n p = soft_combine N P (soft_logits G M D N P inputs mu scale) g (pi g m) n p).
  { unfold soft_combine. rewrite L. f_equal. apply sumf_ext. intros. apply sumf_ext. intros. rewrite L. auto. }
  rewrite C. f_equal. apply F. intros j.
  rewrite <- (sum_to_perm M (fun m' => (soft_dispatch M (soft_logits G M D N P inputs mu scale) g m' n p * inputs g m' j)%R) (pi g) Pm).
  rewrite <- !sumf_to. apply sumf_ext. intros m' _. unfold soft_dispatch. rewrite L. unfold permuted. f_equal. f_equal.
  rewrite (sumf_ext M _ (fun i0 => exp (soft_logits G M D N P inputs mu scale g (pi g i0) n p))) by (intros; rewrite L; auto).
  rewrite !sumf_to. apply (sum_to_perm M (fun i0 => exp (soft_logits G M D N P inputs mu scale g i0 n p)) (pi g) Pm).
Qed.

(** ** Similarities *)
Lemma fold_max_spec l : forall x, (In (fold_left Rmax l x) (x :: l)) /\ forall y, In y (x :: l) -> (y <= fold_left Rmax l x)%R.
Proof.
  induction l as [|a l IH]; intros x; simpl.
  - split; auto. intros y [->|[]]. lra.
  - destruct (IH (Rmax x a)) as [I B]. split.
    + destruct I as [I|I]; auto. rewrite <- I. unfold Rmax. destruct (Rle_dec x a); auto.
    + intros y H. assert (A := B (Rmax x a) (or_introl eq_refl)). assert (X := Rmax_l x a). assert (Y := Rmax_r x a).
      destruct H as [->|[->|H]]; [lra|lra|]. apply B. right. auto.
Qed.
Lemma fold_min_spec l : forall x, (In (fold_left Rmin l x) (x :: l)) /\ forall y, In y (x :: l) -> (fold_left Rmin l x <= y)%R.
Proof.
  induction l as [|a l IH]; intros x; simpl.
  - split; auto. intros y [->|[]]. lra.
  - destruct (IH (Rmin x a)) as [I B]. split.
    + destruct I as [I|I]; auto. rewrite <- I. unfold Rmin. destruct (Rle_dec x a); auto.
    + intros y H. assert (A := B (Rmin x a) (or_introl eq_refl)). assert (X := Rmin_l x a). assert (Y := Rmin_r x a).
      destruct H as [->|[->|H]]; [lra|lra|]. apply B. right. auto.
Qed.
Lemma maxr_spec l : l <> [] -> exists m, maxr l = Some m /\ In m l /\ forall y, In y l -> (y <= m)%R.
Proof. destruct l as [|x l]; [congruence|]. intros _. destruct (fold_max_spec l x). simpl maxr. eauto. Qed.
Lemma minr_spec l : l <> [] -> exists m, minr l = Some m /\ In m l /\ forall y, In y l -> (m <= y)%R.
Proof. destruct l as [|x l]; [congruence|]. intros _. destruct (fold_min_spec l x). simpl minr. eauto. Qed.
Lemma in_entries G n f y : In y (entries G n f) <-> exists g i j, g < G /\ i < n /\ j < n /\ f g i j = y.
Proof.
  unfold entries. split.
  - intros H. apply in_flat_map in H. destruct H as (g & Hg & H). apply in_flat_map in H. destruct H as (i & Hi & H). apply in_map_iff in H. destruct H as (j & E & Hj).
    rewrite in_seq in *. exists g, i, j. repeat split; auto; lia.
  - intros (g & i & j & Hg & Hi & Hj & E). apply in_flat_map. exists g. split; [apply in_seq; lia|]. apply in_flat_map. exists i. split; [apply in_seq; lia|]. apply in_map_iff. exists j. split; auto. apply in_seq; lia.
Qed.
Lemma entries_ne G n f : 0 < G -> 0 < n -> entries G n f <> [].
Proof. intros HG H E. assert (I : In (f 0 0 0) (entries G n f)) by (apply in_entries; exists 0, 0, 0; auto). rewrite E in I. destruct I. Qed.

Section Sim.
Variables G n : nat.
Variable sim : nat -> nat -> nat -> R.
Hypothesis HG : 0 < G.
Hypothesis Hn : 2 <= n.
Let id := fun (_ i j : nat) => if i =? j then 1%R else 0%R.
Let mk := fun g i j => ((1 - id g i j) * sim g i j)%R.
Lemma sim_gen : exists mx lo hi, maxr (entries G n mk) = Some mx /\ sim_min_max G n sim = Some (lo, hi) /\
  ((exists h, highest_off_diagonal G n sim h /\ mx = Rmax 0 h) /\
   hi = mx /\ exists l, lowest_off_diagonal G n sim l /\ lo = Rmin l mx).
Proof using HG Hn.
  assert (MKD : forall g i, mk g i i = 0%R) by (intros g i; unfold mk, id; rewrite Nat.eqb_refl; lra).
  assert (MKO : forall g i j, i <> j -> mk g i j = sim g i j) by (intros g i j H; unfold mk, id; destruct (Nat.eqb_spec i j); [contradiction|lra]).
  assert (HI : exists h, highest_off_diagonal G n sim h).
  { set (w := map (fun e => sim (fst e) (fst (snd e)) (snd (snd e))) (filter (fun e => negb (fst (snd e) =? snd (snd e))) (list_prod (seq 0 G) (list_prod (seq 0 n) (seq 0 n))))).
    assert (IW : forall y, In y w <-> exists g i j, g < G /\ i < n /\ j < n /\ i <> j /\ sim g i j = y).
    { intros y. unfold w. rewrite in_map_iff. split.
      - intros ([g [i j]] & E & I). apply filter_In in I. cbn [fst snd] in *. destruct I as [I B]. rewrite !in_prod_iff, !in_seq in I. apply negb_true_iff, Nat.eqb_neq in B. exists g, i, j. repeat split; auto; lia.
      - intros (g & i & j & A1 & A2 & A3 & A4 & E). exists (g, (i, j)). split; auto. apply filter_In. cbn [fst snd]. rewrite !in_prod_iff, !in_seq. split; [lia|]. apply negb_true_iff, Nat.eqb_neq; auto. }
    destruct (maxr_spec w) as (m & _ & I & B).
    - intros E. assert (I : In (sim 0 0 1) w) by (apply IW; exists 0, 0, 1; repeat split; auto; lia). rewrite E in I. destruct I.
    - exists m. split.
      + apply IW in I. destruct I as (g & i & j & I). exists g, i, j. tauto.
      + intros g i j Hg Hi Hj D. apply B, IW. exists g, i, j. auto. }
  assert (LO : exists h, lowest_off_diagonal G n sim h).
  { set (w := map (fun e => sim (fst e) (fst (snd e)) (snd (snd e))) (filter (fun e => negb (fst (snd e) =? snd (snd e))) (list_prod (seq 0 G) (list_prod (seq 0 n) (seq 0 n))))).
    assert (IW : forall y, In y w <-> exists g i j, g < G /\ i < n /\ j < n /\ i <> j /\ sim g i j = y).
    { intros y. unfold w. rewrite in_map_iff. split.
      - intros ([g [i j]] & E & I). apply filter_In in I. cbn [fst snd] in *. destruct I as [I B]. rewrite !in_prod_iff, !in_seq in I. apply negb_true_iff, Nat.eqb_neq in B. exists g, i, j. repeat split; auto; lia.
      - intros (g & i & j & A1 & A2 & A3 & A4 & E). exists (g, (i, j)). split; auto. apply filter_In. cbn [fst snd]. rewrite !in_prod_iff, !in_seq. split; [lia|]. apply negb_true_iff, Nat.eqb_neq; auto. }
    destruct (minr_spec w) as (m & _ & I & B).
    - intros E. assert (I : In (sim 0 0 1) w) by (apply IW; exists 0, 0, 1; repeat split; auto; lia). rewrite E in I. destruct I.
    - exists m. split.
      + apply IW in I. destruct I as (g & i & j & I). exists g, i, j. tauto.
      + intros g i j Hg Hi Hj D. apply B, IW. exists g, i, j. auto. }
  destruct HI as (h & (a & b & c & Ha & Hb & Hc & D & E) & U). destruct LO as (l & (a' & b' & c' & Ha' & Hb' & Hc' & D' & E') & U').
  destruct (maxr_spec (entries G n mk) (entries_ne G n mk HG ltac:(lia))) as (mx & EM & I & B).
  assert (MX : mx = Rmax 0 h).
  { apply Rle_antisym.
    - apply in_entries in I. destruct I as (g & i & j & Hg & Hi & Hj & X). destruct (Nat.eq_dec i j) as [->|N].
      + rewrite MKD in X. rewrite <- X. apply Rmax_l.
      + rewrite MKO in X by auto. rewrite <- X. eapply Rle_trans; [apply U; auto|apply Rmax_r].
    - apply Rmax_lub.
      + rewrite <- (MKD 0 0). apply B, in_entries. exists 0, 0, 0. repeat split; auto; lia.
      + rewrite <- E, <- MKO by auto. apply B, in_entries. exists a, b, c. auto. }
  set (mk2 := fun g i j => (mk g i j + id g i j * mx)%R).
  assert (M2D : forall g i, mk2 g i i = mx) by (intros g i; unfold mk2; rewrite MKD; unfold id; rewrite Nat.eqb_refl; lra).
  assert (M2O : forall g i j, i <> j -> mk2 g i j = sim g i j) by (intros g i j H; unfold mk2; rewrite MKO by auto; unfold id; destruct (Nat.eqb_spec i j); [contradiction|lra]).
  destruct (minr_spec (entries G n mk2) (entries_ne G n mk2 HG ltac:(lia))) as (lo & E1 & I1 & B1).
  destruct (maxr_spec (entries G n mk2) (entries_ne G n mk2 HG ltac:(lia))) as (hi & E2 & I2 & B2).
  exists mx, lo, hi. split; auto. split.
  { unfold sim_min_max. cbv zeta. change (maxr (entries G n _)) with (maxr (entries G n mk)) at 1. rewrite EM. change (minr (entries G n _)) with (minr (entries G n mk2)). rewrite E1. change (maxr (entries G n _)) with (maxr (entries G n mk2)). rewrite E2. auto. }
  split; [exists h; split; auto; split; eauto 10|]. split.
  - apply Rle_antisym.
    + apply in_entries in I2. destruct I2 as (g & i & j & Hg & Hi & Hj & X). destruct (Nat.eq_dec i j) as [->|N].
      * rewrite M2D in X. lra.
      * rewrite M2O in X by auto. rewrite <- X. subst mx. eapply Rle_trans; [apply U; auto|apply Rmax_r].
    + rewrite <- (M2D 0 0). apply B2, in_entries. exists 0, 0, 0. repeat split; auto; lia.
  - exists l. split; [split; eauto 10|]. apply Rle_antisym.
    + apply Rmin_glb.
      * rewrite <- E', <- M2O by auto. apply B1, in_entries. exists a', b', c'. auto.
      * rewrite <- (M2D 0 0). apply B1, in_entries. exists 0, 0, 0. repeat split; auto; lia.
    + apply in_entries in I1. destruct I1 as (g & i & j & Hg & Hi & Hj & X). destruct (Nat.eq_dec i j) as [->|N].
      * rewrite M2D in X. rewrite <- X. apply Rmin_r.
      * rewrite M2O in X by auto. rewrite <- X. eapply Rle_trans; [apply Rmin_l|apply U'; auto].
Qed.
End Sim.
Lemma sim_general G n sim : 0 < G -> 2 <= n -> exists lo hi, sim_min_max G n sim = Some (lo, Rmax 0 hi) /\ lowest_off_diagonal G n sim lo /\ highest_off_diagonal G n sim hi.
Proof.
  intros HG Hn. destruct (sim_gen G n sim HG Hn) as (mx & lo & hi & _ & E & (h & Hh & M) & -> & l & Hl & ->). exists l, h. rewrite E. subst mx.
  assert (X : (l <= h)%R). { destruct Hh as [_ U]. destruct Hl as [(g & i & j & A & B & C & D & <-) _]. apply U; auto. }
  repeat split; try apply Hh; try apply Hl. do 2 f_equal. apply Rmin_left. eapply Rle_trans; [exact X|apply Rmax_r].
Qed.
Lemma sim_ok G n sim : 0 < G -> 2 <= n -> (exists g i j, g < G /\ i < n /\ j < n /\ i <> j /\ (0 <= sim g i j)%R) ->
  exists lo hi, sim_min_max G n sim = Some (lo, hi) /\ lowest_off_diagonal G n sim lo /\ highest_off_diagonal G n sim hi.
Proof.
  intros HG Hn (g & i & j & Hg & Hi & Hj & D & NN). destruct (sim_general G n sim HG Hn) as (lo & hi & E & L & H). exists lo, hi. rewrite E. split; auto. do 2 f_equal. apply Rmax_right.
  destruct H as [_ U]. eapply Rle_trans; [exact NN|apply U; auto].
Qed.
Lemma psim_nonneg L x i j : (forall d, (0 <= x d i)%R) -> (forall d, (0 <= x d j)%R) -> (0 <= cosine_psim L x i j)%R.
Proof.
  intros A B. apply sumf_nonneg. intros d _. assert (P : forall k, (0 < / sqrt (sumf L (fun d => x d k * x d k) + eps9))%R).
  { intros k. apply Rinv_0_lt_compat, sqrt_lt_R0. assert (S := sq_nonneg L (fun d => x d k)). unfold eps9. assert (0 < / 1000000000)%R by (apply Rinv_0_lt_compat; lra). lra. }
  assert (Pi := P i). assert (Pj := P j). assert (Ai := A d). assert (Bj := B d). repeat apply Rmult_le_pos; first [apply Rlt_le; assumption | assumption].
Qed.
Lemma psim_le_one L x i j : (Rabs (cosine_psim L x i j) <= 1)%R.
Proof.
  unfold cosine_psim. apply cauchy; [set (k := i)|set (k := j)]; clearbody k;
  (set (s := sumf L (fun i => (x i k * x i k)%R)); assert (Hs : (0 <= s)%R) by (apply (sq_nonneg L (fun d => x d k))); assert (He : (0 < eps9)%R) by (unfold eps9; apply Rinv_0_lt_compat; lra);
   assert (Q : (0 < sqrt (s + eps9))%R) by (apply sqrt_lt_R0; lra);
   rewrite (sumf_ext L _ (fun d => (x d k * x d k) * (/ sqrt (s + eps9) * / sqrt (s + eps9)))%R) by (intros; ring);
   rewrite sumf_scale_r; fold s; rewrite <- Rinv_mult; rewrite sqrt_sqrt by lra;
   apply Rmult_le_reg_r with (s + eps9)%R; [lra|]; rewrite Rmult_assoc, Rinv_l by lra; lra).
Qed.

(** ** The router *)
Lemma num_slots_pos M N ns cf s : soft_num_slots M N ns cf = Ok s -> (forall k, ns = Some k -> (1 <= k)%Z) -> (1 <= s)%Z.
Proof.
  unfold soft_num_slots. destruct ns as [k|].
  - destruct (M =? 0); intros [=]; subst. intros H. apply (H s). auto.
  - destruct cf as [q|]; [|discriminate]. unfold compute_capacity. destruct (Z.of_nat N =? 0)%Z; [discriminate|]. intros H _.
    set (c := round_half_even _) in H. destruct (c <? 1)%Z eqn:B; [discriminate|]. apply Z.ltb_ge in B. replace (0 <? 1)%Z with true in H by auto. destruct (Z.of_nat M =? 0)%Z; [discriminate|]. injection H as <-.
    rewrite Z.mod_1_r. lia.
Qed.
Lemma router_inv G M D N ns cf det std normal mu scale inputs P d :
  soft_router G M D N ns cf det std normal mu scale inputs = Ok (P, d) -> (forall k, ns = Some k -> (1 <= k)%Z) ->
  1 <= P /\ soft_num_slots M N ns cf = Ok (Z.of_nat P) /\ d = soft_dispatcher M N P (add_noise det std normal (soft_logits G M D N P inputs (mu P) scale)).
Proof.
  unfold soft_router. destruct (soft_num_slots M N ns cf) as [s|e] eqn:E; [|discriminate]. intros H K. injection H as <- <-. assert (A := num_slots_pos _ _ _ _ _ E K).
  rewrite Z2Nat.id by lia. repeat split. lia.
Qed.
Lemma router_mixing G M D N ns cf det std normal mu scale inputs P d :
  1 <= M -> 1 <= N -> soft_router G M D N ns cf det std normal mu scale inputs = Ok (P, d) -> (forall k, ns = Some k -> (1 <= k)%Z) ->
  exists dw cw,
    (forall g n p, convex M (fun m => dw g m n p)) /\
    (forall g m, convex2 N P (fun n p => cw g m n p)) /\
    (exists pos inv, (forall g, g < G -> pos g < G /\ inv (pos g) = g) /\ (forall j, j < G -> inv j < G /\ pos (inv j) = j) /\
       (forall data g n p i, g < G -> n < N -> p < P ->
          @einsum_do_dispatch Ralg G M N P d data n (pos g * P + p) i = sum_to M (fun m => (dw g m n p * data g m i)%R)) /\
       (forall outs g m i, g < G -> @einsum_do_combine Ralg G M N P (G * P) d outs g m i = sum_to N (fun n => sum_to P (fun p => (cw g m n p * outs n (pos g * P + p)%nat i)%R)))) /\
    (forall f data g m i, (forall e x y, (forall j, x j = y j) -> forall j, f e x j = f e y j) -> g < G ->
       soft_layer G M N P d f data g m i = sum_to N (fun n => sum_to P (fun p => (cw g m n p * f n (fun j => sum_to M (fun m' => (dw g m' n p * data g m' j)%R)) i)%R))).
Proof.
  intros HM HN E K. destruct (router_inv _ _ _ _ _ _ _ _ _ _ _ _ _ _ E K) as (HP & _ & ->). set (l := add_noise _ _ _ _). clearbody l.
  exists (soft_dispatch M l), (soft_combine N P l). split; [|split; [|split]].
  - intros. apply dispatch_convex. lia.
  - intros. apply combine_convex; lia.
  - exists (a2a_pos G N), (a2a_inv G N). repeat split; try (apply a2a_pos_inv; auto); try (apply a2a_inv_pos; auto).
    + intros. apply slot_input; auto.
    + intros. apply slot_output; auto.
  - intros. apply layer_output; auto.
Qed.
Lemma router_range G M D N ns cf det std normal mu scale inputs P d f data g m i lo hi :
  1 <= M -> 1 <= N -> soft_router G M D N ns cf det std normal mu scale inputs = Ok (P, d) -> (forall k, ns = Some k -> (1 <= k)%Z) ->
  (forall e x y, (forall j, x j = y j) -> forall j, f e x j = f e y j) -> g < G ->
  (exists lo0 hi0 : nat -> R,
     (forall m j, m < M -> (lo0 j <= data g m j <= hi0 j)%R) /\
     (forall n x, n < N -> (forall j, (lo0 j <= x j <= hi0 j)%R) -> (lo <= f n x i <= hi)%R)) ->
  (lo <= soft_layer G M N P d f data g m i <= hi)%R.
Proof.
  intros HM HN E K F Hg (lo0 & hi0 & B & B2). destruct (router_mixing _ _ _ _ _ _ _ _ _ _ _ _ _ _ HM HN E K) as (dw & cw & CD & CC & _ & L).
  rewrite L by auto. apply (convex2_range N P (fun n p => cw g m n p)); auto. intros n p Hn Hp. apply B2; auto. intros j. apply (convex_range M (fun m' => dw g m' n p)); auto.
Qed.
Lemma router_lower G M D N ns cf det std normal mu scale inputs P d g m n p :
  1 <= M -> 1 <= N -> soft_router G M D N ns cf det std normal mu scale inputs = Ok (P, d) -> (forall k, ns = Some k -> (1 <= k)%Z) ->
  det = true \/ (std <= 0)%R -> m < M ->
  exists w, ed_dispatch d = Some w /\ (exp (- 2 * Rabs scale) / INR M <= w g m n p)%R.
Proof.
  intros HM HN E K DT Hm. destruct (router_inv _ _ _ _ _ _ _ _ _ _ _ _ _ _ E K) as (HP & _ & ->). unfold add_noise.
  replace (negb det && _) with false.
  2:{ destruct DT as [->|H]; auto. destruct (Rlt_dec 0 std); [lra|]. destruct det; auto. }
  eexists. split; [reflexivity|]. apply dispatch_lower; auto. intros. apply logits_bound.
Qed.
Lemma router_perm G M D N ns cf det std normal mu scale inputs P d P' d' (pi : nat -> nat -> nat) f g m i :
  1 <= M -> 1 <= N -> det = true \/ (std <= 0)%R ->
  (forall k, ns = Some k -> (1 <= k)%Z) ->
  (forall e x y, (forall j, x j = y j) -> forall j, f e x j = f e y j) -> g < G ->
  Permutation (map (pi g) (seq 0 M)) (seq 0 M) ->
  soft_router G M D N ns cf det std normal mu scale inputs = Ok (P, d) ->
  soft_router G M D N ns cf det std normal mu scale (fun g m => inputs g (pi g m)) = Ok (P', d') ->
  P' = P /\ soft_layer G M N P d' f (fun g m => inputs g (pi g m)) g m i = soft_layer G M N P d f inputs g (pi g m) i.
Proof.
  intros HM HN DT K F Hg Pm E E'. destruct (router_inv _ _ _ _ _ _ _ _ _ _ _ _ _ _ E K) as (HP & A & ->). destruct (router_inv _ _ _ _ _ _ _ _ _ _ _ _ _ _ E' K) as (_ & A' & ->).
  rewrite A in A'. injection A' as A'. apply Nat2Z.inj in A'. subst P'. split; auto. unfold add_noise.
  replace (negb det && _) with false.
  2:{ destruct DT as [->|H]; auto. destruct (Rlt_dec 0 std); [lra|]. destruct det; auto. }
  apply layer_perm; auto.
Qed.
Lemma router_outcomes G M D N ns cf det std normal mu scale inputs :
  1 <= M -> 1 <= N ->
  match ns, cf with
  | Some s, _ => exists d, soft_router G M D N ns cf det std normal mu scale inputs = Ok (Z.to_nat s, d)
  | None, None => soft_router G M D N ns cf det std normal mu scale inputs = Raise TypeError
  | None, Some q => let s := round_half_even (inject_Z (Z.of_nat M) * q / inject_Z (Z.of_nat N)) in
      if (s <? 1)%Z then soft_router G M D N ns cf det std normal mu scale inputs = Raise ValueError
      else exists d, soft_router G M D N ns cf det std normal mu scale inputs = Ok (Z.to_nat s, d)
  end.
Proof.
  intros HM HN. unfold soft_router, soft_num_slots. destruct ns as [s|].
  - destruct (Nat.eqb_spec M 0); [lia|]. eauto.
  - destruct cf as [q|]; auto. unfold compute_capacity. destruct (Z.eqb_spec (Z.of_nat N) 0); [lia|]. cbv zeta. set (c := round_half_even _).
    destruct (c <? 1)%Z eqn:B; auto. destruct (Z.eqb_spec (Z.of_nat M) 0); [lia|]. replace (0 <? 1)%Z with true by auto. rewrite Z.mod_1_r. replace (c + 0)%Z with c by lia. eauto.
Qed.

(** ** Similarities of the weights *)
Lemma combine_sim_nonneg N P l g i j : 1 <= N -> 1 <= P -> (0 <= combine_sim N P l g i j <= 1)%R.
Proof.
  intros HN HP. split.
  - apply psim_nonneg; intros d; unfold soft_combine, Rdiv; apply Rlt_le, Rmult_lt_0_compat; try apply exp_pos; apply Rinv_0_lt_compat; apply sumf_pos; try lia; intros; apply sumf_pos; try lia; intros; apply exp_pos.
  - eapply Rle_trans; [apply Rle_abs|apply psim_le_one].
Qed.
Lemma dispatch_sim_nonneg M P l g i j : 1 <= M -> (0 <= dispatch_sim M P l g i j <= 1)%R.
Proof.
  intros HM. split.
  - apply psim_nonneg; intros d; unfold soft_dispatch, Rdiv; apply Rlt_le, Rmult_lt_0_compat; try apply exp_pos; apply Rinv_0_lt_compat; apply sumf_pos; try lia; intros; apply exp_pos.
  - eapply Rle_trans; [apply Rle_abs|apply psim_le_one].
Qed.
Lemma mu_sim_refuted : exists mu : nat -> nat -> nat -> R, exists lo hi,
  sim_min_max 1 2 (mu_sim 1 1 mu) = Some (lo, hi) /\ ~ highest_off_diagonal 1 2 (mu_sim 1 1 mu) hi.
Proof.
  exists (fun _ n _ => if n =? 0 then 1%R else (-1)%R).
  set (sim := mu_sim 1 1 _). destruct (sim_general 1 2 sim ltac:(lia) ltac:(lia)) as (lo & hi & E & L & H). exists lo, (Rmax 0 hi). split; auto.
  intros [(g & i & j & Hg & Hi & Hj & D & X) _]. assert (Z := Rmax_l 0 hi). rewrite <- X in Z.
  assert (NEG : forall a b, (a = 0 /\ b = 1) \/ (a = 1 /\ b = 0) -> (sim g a b < 0)%R).
  { intros a b C. unfold sim, mu_sim, cosine_psim. cbn [sumf].
    assert (P : forall v, (0 < / sqrt (0 + v * v + eps9))%R).
    { intros v. apply Rinv_0_lt_compat, sqrt_lt_R0. unfold eps9. assert (0 < / 1000000000)%R by (apply Rinv_0_lt_compat; lra). assert (S := Rle_0_sqr v). unfold Rsqr in S. lra. }
    assert (Y := Rmult_lt_0_compat _ _ (P 1%R) (P (-1)%R)). clear P.
    destruct C as [[-> ->]|[-> ->]]; change (0 / 1 =? 0) with true; change (1 / 1 =? 0) with false; cbn iota; lra. }
  assert (N := NEG i j ltac:(lia)). lra.
Qed.
Lemma weights_sim G M N P logits : 1 <= G -> 1 <= M -> 1 <= N -> 1 <= P ->
  (2 <= M -> exists lo hi, sim_min_max G M (combine_sim N P logits) = Some (lo, hi) /\
     lowest_off_diagonal G M (combine_sim N P logits) lo /\ highest_off_diagonal G M (combine_sim N P logits) hi /\ (0 <= lo <= hi)%R /\ (hi <= 1)%R) /\
  (2 <= N * P -> exists lo hi, sim_min_max G (N * P) (dispatch_sim M P logits) = Some (lo, hi) /\
     lowest_off_diagonal G (N * P) (dispatch_sim M P logits) lo /\ highest_off_diagonal G (N * P) (dispatch_sim M P logits) hi /\ (0 <= lo <= hi)%R /\ (hi <= 1)%R).
Proof.
  intros HG HM HN HP.
  assert (K : forall n sim, 2 <= n -> (forall g i j, (0 <= sim g i j <= 1)%R) -> exists lo hi, sim_min_max G n sim = Some (lo, hi) /\
     lowest_off_diagonal G n sim lo /\ highest_off_diagonal G n sim hi /\ (0 <= lo <= hi)%R /\ (hi <= 1)%R).
  { intros n sim Hn B. destruct (sim_ok G n sim) as (lo & hi & E & L & H); auto.
    { exists 0, 0, 1. repeat split; try lia. apply B. }
    exists lo, hi. split; auto. split; auto. split; auto. destruct L as [(g & i & j & Hg & Hi & Hj & D & <-) U]. destruct H as [(g' & i' & j' & _ & _ & _ & _ & <-) V].
    repeat split; try apply B. apply V; auto. }
  split; intros H; apply K; auto; intros.
  - apply combine_sim_nonneg; auto.
  - apply dispatch_sim_nonneg; auto.
Qed.
