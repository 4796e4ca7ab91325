(** Proofs for C58 and C59. *)
From Coq Require Import List Arith ZArith Bool Reals Lra Lia.
From Verif Require Import Prim PrimLemmas MoeModel MoeSpec MoeProofs SoftModel SoftProofs AuxModel AuxProofs EnsProofs CwModel CwSpec CwProofs OtModel OtSpec.
From Verif Require Import NdLemmas.
From Verif Require Import Py PyLemmas.
Import ListNotations.
Local Open Scope nat_scope.

(** *** Counting *)
Definition ind (b : bool) : R := if b then 1%R else 0%R.
Lemma sumf_ind n (P : nat -> bool) : sumf n (fun i => ind (P i)) = INR (length (filter P (seq 0 n))).
Proof.
  induction n; [reflexivity|]. cbn [sumf]. rewrite IHn, seq_S, filter_app, app_length, plus_INR. cbn [Nat.add filter]. f_equal.
  destruct (P n); cbn [length ind INR]; reflexivity.
Qed.
Lemma sumf_minus n f g : sumf n (fun i => (f i - g i)%R) = (sumf n f - sumf n g)%R.
Proof. induction n; simpl; [lra|]. rewrite IHn. lra. Qed.
Definition nzb (x : R) : bool := if Req_EM_T x 0 then false else true.
Lemma nonzeros_ext n p q : (forall i, i < n -> p i = 0%R <-> q i = 0%R) -> nonzeros n p = nonzeros n q.
Proof.
  intros H. unfold nonzeros. f_equal. apply filter_ext_in. intros i Hi. apply in_seq in Hi. destruct (H i ltac:(lia)) as [A B].
  destruct (Req_EM_T (p i) 0), (Req_EM_T (q i) 0); auto; exfalso; auto.
Qed.
Lemma nonzeros_le n p (l : list nat) : (forall i, i < n -> p i <> 0%R -> In i l) -> nonzeros n p <= length l.
Proof.
  intros H. unfold nonzeros. apply NoDup_incl_length; [apply NoDup_filter, seq_NoDup|]. intros i Hi. apply filter_In in Hi. destruct Hi as [Hi B]. apply in_seq in Hi.
  destruct (Req_EM_T (p i) 0); [discriminate|]. apply H; auto; lia.
Qed.
Lemma nonzeros_ge n p (l : list nat) : NoDup l -> (forall i, In i l -> i < n /\ p i <> 0%R) -> length l <= nonzeros n p.
Proof.
  intros ND H. unfold nonzeros. apply NoDup_incl_length; auto. intros i Hi. destruct (H i Hi) as [A B]. apply filter_In. split; [apply in_seq; lia|].
  destruct (Req_EM_T (p i) 0); auto; contradiction.
Qed.

(** *** A projection on the sparse simplex *)
Lemma preferred_le (val : nat -> R) i j : preferred (A := Ralg) val i j = true -> (val j <= val i)%R.
Proof.
  unfold preferred. cbn [sleb Ralg]. intros H. destruct (Rle_dec (val i) (val j)) as [A|A], (Rle_dec (val j) (val i)) as [B|B]; first [lra | discriminate H].
Qed.
Section Proj.
Variables (n k : nat) (x : nat -> R).
Hypotheses (Hk : 1 <= k) (Hn : k <= n).
Definition chosen (i : nat) : nat := nth i (top_k (sleb Ralg) n k x) 0.
Definition inT (i : nat) : bool := existsb (fun c => chosen c =? i) (seq 0 k).
Definition cut (tau : R) (i : nat) : R := if inT i then Rmax (x i - tau) 0 else 0%R.
Lemma chosen_best : best_choices (A := Ralg) n k x chosen.
Proof using Hn. clear Hk. apply (best_choices_top_k Ralg_laws); auto. Qed.
Lemma inT_spec i : inT i = true <-> exists c, c < k /\ chosen c = i.
Proof using.
  clear Hk Hn. unfold inT. rewrite existsb_exists. split.
  - intros (c & Hc & E). apply in_seq in Hc. apply Nat.eqb_eq in E. exists c. split; [lia|auto].
  - intros (c & Hc & E). exists c. split; [apply in_seq; lia|apply Nat.eqb_eq; auto].
Qed.
Lemma inT_count : (INR k <= sumf n (fun i => ind (inT i)))%R.
Proof using Hn.
  clear Hk. rewrite sumf_ind. apply le_INR. destruct chosen_best as (R1 & R2 & R3).
  replace k with (length (map chosen (seq 0 k))) at 1 by (rewrite map_length, seq_length; auto).
  apply NoDup_incl_length.
  - apply NoDup_nth with (d := chosen 0). intros i j Hi Hj. rewrite map_length, seq_length in *. rewrite !map_nth, !seq_nth by auto. cbn [Nat.add].
    intros E. apply (best_choices_inj Ralg_laws x n k chosen chosen_best); auto.
  - intros i Hi. apply in_map_iff in Hi. destruct Hi as (c & <- & Hc). apply in_seq in Hc. apply filter_In. split; [apply in_seq; split; [lia|]; apply R1; lia|]. apply inT_spec. exists c. split; [lia|auto].
Qed.
Lemma above_T i c : i < n -> c < k -> inT i = false -> (x i <= x (chosen c))%R.
Proof using Hn.
  clear Hk. intros Hi Hc E. destruct chosen_best as (R1 & R2 & R3). apply preferred_le. apply R3; auto. intros c' Hc' Q. apply Bool.not_true_iff_false in E. apply E. apply inT_spec. exists c'. auto.
Qed.
Lemma chosen_down c c' : c <= c' -> c' < k -> (x (chosen c') <= x (chosen c))%R.
Proof using Hn.
  clear Hk. intros L Hc. destruct chosen_best as (R1 & R2 & R3). destruct (Nat.eq_dec c c') as [->|N]; [lra|]. apply preferred_le. apply R2; lia.
Qed.
Lemma cut_nonneg tau i : (0 <= cut tau i)%R.
Proof using. clear Hk Hn. unfold cut. destruct (inT i); [apply Rmax_r|lra]. Qed.
Lemma cut_continuous m : continuity (fun tau => sumf m (cut tau)).
Proof using.
  clear Hk Hn. induction m; cbn [sumf]; [apply continuity_const; intros a b; reflexivity|].
  apply (continuity_plus (fun tau => sumf m (cut tau)) (fun tau => cut tau m)); auto. unfold cut. destruct (inT m); [|apply continuity_const; intros a b; reflexivity].
  intros t eps He. exists eps. split; auto. intros y [_ Hy]. cbn in *. unfold R_dist in *. unfold Rmax, Rabs in *.
  repeat destruct (Rle_dec _ _); repeat destruct (Rcase_abs _); lra.
Qed.
Lemma threshold : {tau | sumf n (cut tau) = 1%R}.
Proof using Hk Hn.
  destruct chosen_best as (R1 & R2 & R3). set (m := x (chosen 0)).
  destruct (IVT_cor (fun tau => (sumf n (cut tau) - 1)%R) (m - 1) m) as (tau & _ & E).
  - apply (continuity_minus (fun tau => sumf n (cut tau)) (fun _ => 1%R)); [apply cut_continuous|apply continuity_const; intros a b; reflexivity].
  - lra.
  - assert (A : (1 <= sumf n (cut (m - 1)))%R).
    { apply Rle_trans with (cut (m - 1) (chosen 0)); [|apply (sumf_le_one n (cut (m - 1))); [intros; apply cut_nonneg|apply R1; lia]].
      unfold cut. replace (inT (chosen 0)) with true; [|symmetry; apply inT_spec; exists 0; split; [lia|auto]]. fold m. unfold Rmax. destruct (Rle_dec _ _); lra. }
    assert (B : sumf n (cut m) = 0%R).
    { rewrite (sumf_ext n _ (fun _ => 0%R)); [rewrite sumf_const; lra|]. intros i Hi. unfold cut. destruct (inT i) eqn:T; auto. apply inT_spec in T. destruct T as (c & Hc & <-).
      assert (Q := chosen_down 0 c ltac:(lia) Hc). fold m in Q. unfold Rmax. destruct (Rle_dec _ _); lra. }
    rewrite B. nra.
  - exists tau. lra.
Qed.
Lemma cut_nearest tau : sumf n (cut tau) = 1%R -> nearest n k x (cut tau).
Proof using Hk Hn.
  intros Htau. split.
  - split; [intros; apply cut_nonneg|]. split; [auto|]. replace k with (length (map chosen (seq 0 k))) by (rewrite map_length, seq_length; auto). apply nonzeros_le. intros i Hi NZ.
    unfold cut in NZ. destruct (inT i) eqn:T; [|lra]. apply inT_spec in T. destruct T as (c & Hc & <-). apply in_map. apply in_seq. lia.
  - intros q (Q0 & Q1 & Q2). unfold distance2.
    set (d := fun i => ((q i - x i) * (q i - x i) - (cut tau i - x i) * (cut tau i - x i) + 2 * tau * (q i - cut tau i))%R).
    assert (D : sumf n d = (sumf n (fun i => (q i - x i) * (q i - x i)) - sumf n (fun i => (cut tau i - x i) * (cut tau i - x i)))%R).
    { unfold d. rewrite (sumf_plus n (fun i => (q i - x i) * (q i - x i) - (cut tau i - x i) * (cut tau i - x i))%R (fun i => 2 * tau * (q i - cut tau i))%R).
      rewrite sumf_minus, sumf_scale, sumf_minus, Q1, Htau. lra. }
    enough (0 <= sumf n d)%R by lra. clear D.
    assert (CASES : (forall i, i < n -> inT i = false -> (x i <= tau)%R) \/ (exists i, i < n /\ inT i = false /\ (tau < x i)%R)).
    { clear -tau. induction n as [|m IH]; [left; intros; lia|]. destruct IH as [IH|(i & Hi & R)]; [|right; exists i; split; [lia|auto]].
      destruct (inT m) eqn:T; [left; intros i Hi T'; destruct (Nat.eq_dec i m) as [->|]; [congruence|apply IH; auto; lia]|].
      destruct (Rle_dec (x m) tau) as [L|L]; [left; intros i Hi T'; destruct (Nat.eq_dec i m) as [->|]; [auto|apply IH; auto; lia]|].
      right. exists m. split; [lia|]. split; [auto|lra]. }
    destruct CASES as [LOW|(i0 & Hi0 & T0 & X0)].
    + apply sumf_nonneg. intros i Hi. unfold d. specialize (Q0 i Hi). unfold cut. destruct (inT i) eqn:T.
      * unfold Rmax. destruct (Rle_dec _ _) as [B|B]; [assert (P := Rmult_le_pos (q i) (tau - x i) Q0 ltac:(lra)); nra|].
        assert (S0 := Rle_0_sqr (q i - x i + tau)). unfold Rsqr in S0. nra.
      * specialize (LOW i Hi T). assert (P := Rmult_le_pos (q i) (tau - x i) Q0 ltac:(lra)). nra.
    + set (m := (x (chosen (k - 1)) - tau)%R).
      assert (M : (0 < m)%R). { assert (Q := above_T i0 (k - 1) Hi0 ltac:(lia) T0). unfold m. lra. }
      apply Rle_trans with (sumf n (fun i => (m * m) * (ind (inT i) - ind (nzb (q i))))%R).
      * rewrite sumf_scale, sumf_minus. assert (C := inT_count). rewrite (sumf_ind n (fun i => nzb (q i))).
        change (filter (fun i => nzb (q i)) (seq 0 n)) with (filter (fun i => if Req_EM_T (q i) 0 then false else true) (seq 0 n)). fold (nonzeros n q). apply le_INR in Q2. nra.
      * apply sumf_le. intros i Hi. unfold d. specialize (Q0 i Hi). unfold cut, nzb. destruct (inT i) eqn:T.
        -- assert (Y : (m <= x i - tau)%R). { apply inT_spec in T. destruct T as (c & Hc & <-). assert (Q := chosen_down c (k - 1) ltac:(lia) ltac:(lia)). unfold m. lra. }
           replace (Rmax (x i - tau) 0) with (x i - tau)%R by (unfold Rmax; destruct (Rle_dec _ _); lra).
           destruct (Req_EM_T (q i) 0) as [Z|Z]; cbn [ind]; [rewrite Z; nra|].
           assert (S0 := Rle_0_sqr (q i - (x i - tau))). unfold Rsqr in S0. nra.
        -- assert (Y : (x i - tau <= m)%R) by (assert (Q := above_T i (k - 1) Hi ltac:(lia) T); unfold m; lra).
           destruct (Req_EM_T (q i) 0) as [Z|Z]; cbn [ind]; [rewrite Z; lra|].
           assert (S0 := Rle_0_sqr (q i - m)). unfold Rsqr in S0. nra.
Qed.
End Proj.

Definition sparse_projection (n k : nat) (x : nat -> R) : nat -> R :=
  match le_lt_dec 1 k, le_lt_dec k n with
  | left H1, left H2 => cut n k x (proj1_sig (threshold n k x H1 H2))
  | _, _ => x
  end.
Lemma projection_exists : projection sparse_projection.
Proof.
  intros n k x H1 H2. unfold sparse_projection. destruct (le_lt_dec 1 k) as [A|A]; [|lia]. destruct (le_lt_dec k n) as [B|B]; [|lia].
  apply cut_nearest; auto. exact (proj2_sig (threshold n k x A B)).
Qed.

(** *** Plans *)
Section Plan.
Variable project : nat -> nat -> (nat -> R) -> nat -> R.
Hypothesis HP : projection project.
Lemma dot_self n p : dot n p (fun i => p i - 1)%R = (sumf n (fun i => p i * p i) - sumf n p)%R.
Proof using. unfold dot. rewrite <- sumf_minus. apply sumf_ext. intros. lra. Qed.
Lemma distance2_expand n p x : distance2 n p x = (sumf n (fun i => p i * p i) - 2 * dot n p x + sumf n (fun i => x i * x i))%R.
Proof using. unfold distance2, dot. rewrite <- sumf_scale, <- sumf_minus, <- sumf_plus. apply sumf_ext. intros. ring. Qed.
Lemma dot_div n p x c : (c <> 0)%R -> dot n p (fun i => x i / c)%R = (dot n p x / c)%R.
Proof using. intros H. unfold dot, Rdiv. rewrite <- sumf_scale_r. apply sumf_ext. intros. ring. Qed.
Lemma max_above n k x b gamma q : 1 <= k -> k <= n -> (0 < gamma * b)%R -> sparse_simplex n k q ->
  (dot n q x - / 2 * (gamma * b) * dot n q (fun i => q i - 1) <= max_l2_top_k project n k x b gamma)%R.
Proof using HP.
  intros H1 H2 Hs Hq. unfold max_l2_top_k. set (s := (gamma * b)%R) in *. set (p := project n k (fun i => (x i / s)%R)).
  destruct (HP n k (fun i => x i / s)%R H1 H2) as ((P0 & P1 & P2) & Pmin). fold p in P0, P1, P2, Pmin. specialize (Pmin q Hq). destruct Hq as (Q0 & Q1 & Q2).
  rewrite !distance2_expand, !dot_div in Pmin by lra. rewrite !dot_self, P1, Q1.
  set (pp := sumf n (fun i => (p i * p i)%R)) in *. set (qq := sumf n (fun i => (q i * q i)%R)) in *. set (px := dot n p x) in *. set (qx := dot n q x) in *. clearbody pp qq px qx.
  assert (I : (s * (pp - 2 * (px / s)) <= s * (qq - 2 * (qx / s)))%R) by (apply Rmult_le_compat_l; lra).
  replace (s * (pp - 2 * (px / s)))%R with (s * pp - 2 * px)%R in I by (field; lra). replace (s * (qq - 2 * (qx / s)))%R with (s * qq - 2 * qx)%R in I by (field; lra). lra.
Qed.
Lemma max_attained n k x b gamma : 1 <= k -> k <= n -> sparse_simplex n k (max_grad project n k x b gamma) /\
  max_l2_top_k project n k x b gamma = (dot n (max_grad project n k x b gamma) x - / 2 * (gamma * b) * dot n (max_grad project n k x b gamma) (fun i => max_grad project n k x b gamma i - 1))%R.
Proof using HP. intros H1 H2. destruct (HP n k (fun i => x i / (gamma * b))%R H1 H2) as (HS & _). split; [exact HS|reflexivity]. Qed.
Lemma max_subgradient n k x y b gamma : 1 <= k -> k <= n -> (0 < gamma * b)%R ->
  (max_l2_top_k project n k x b gamma + dot n (max_grad project n k x b gamma) (fun i => y i - x i) <= max_l2_top_k project n k y b gamma)%R.
Proof using HP.
  intros H1 H2 Hs. destruct (max_attained n k x b gamma H1 H2) as (HS & E). assert (I := max_above n k y b gamma _ H1 H2 Hs HS). rewrite E. set (p := max_grad project n k x b gamma) in *.
  assert (D : dot n p (fun i => y i - x i)%R = (dot n p y - dot n p x)%R) by (unfold dot; rewrite <- sumf_minus; apply sumf_ext; intros; lra). rewrite D. lra.
Qed.
(** The result for a column: what is moved, without the constant *)
Definition column_value (M : nat) (gamma : R) (X T : nat -> R) : R := sumf M (fun i => T i * X i - gamma / 2 * (T i * T i))%R.
Lemma column_scaled M gamma b X p : sumf M p = 1%R ->
  (b * (dot M p X - / 2 * (gamma * b) * dot M p (fun i => p i - 1)))%R = (column_value M gamma X (fun i => p i * b) + gamma / 2 * (b * b))%R.
Proof using.
  intros P1. rewrite dot_self, P1. unfold column_value. rewrite (sumf_minus M (fun i => p i * b * X i)%R (fun i => gamma / 2 * (p i * b * (p i * b)))%R). rewrite sumf_scale.
  rewrite (sumf_ext M (fun i => p i * b * X i)%R (fun i => b * (p i * X i))%R) by (intros; ring). rewrite sumf_scale. fold (dot M p X).
  rewrite (sumf_ext M (fun i => p i * b * (p i * b))%R (fun i => (b * b) * (p i * p i))%R) by (intros; ring). rewrite sumf_scale. field.
Qed.
Section Shape.
Variables (M N k : nat) (cost : nat -> nat -> R) (b : nat -> R) (gamma : R) (alpha : nat -> R).
Hypotheses (H1 : 1 <= k) (H2 : k <= M) (Hg : (0 < gamma)%R) (Hb : forall j, j < N -> (0 < b j)%R).
Let T := transport_plan project M N k cost b gamma alpha.
Lemma plan_columns : sparse_columns M N k b T.
Proof using HP H1 H2 Hb.
  clear Hg. intros j Hj. destruct (HP M k (fun i => (alpha i - cost i j) / (gamma * b j))%R H1 H2) as ((P0 & P1 & P2) & _). specialize (Hb j Hj). unfold T, transport_plan, max_grad. split; [|split].
  - intros i Hi. apply Rmult_le_pos; [apply P0; auto|lra].
  - rewrite sumf_scale_r, P1. lra.
  - rewrite (nonzeros_ext M _ (project M k (fun i => ((alpha i - cost i j) / (gamma * b j))%R))); auto. intros i Hi. split; intros E; [|rewrite E; lra]. apply Rmult_integral in E. destruct E; [auto|lra].
Qed.
Lemma column_best T' j : sparse_columns M N k b T' -> j < N ->
  (column_value M gamma (fun i => alpha i - cost i j) (fun i => T' i j) <= column_value M gamma (fun i => alpha i - cost i j) (fun i => T i j))%R.
Proof using HP H1 H2 Hg Hb.
  intros HT Hj. specialize (Hb j Hj). destruct (HT j Hj) as (N0 & N1 & N2). set (X := fun i => (alpha i - cost i j)%R). set (q := fun i => (T' i j / b j)%R).
  assert (Hq : sparse_simplex M k q).
  { split; [|split].
    - intros i Hi. unfold q, Rdiv. apply Rmult_le_pos; [auto|]. left. apply Rinv_0_lt_compat. auto.
    - unfold q, Rdiv. rewrite sumf_scale_r, N1. apply Rinv_r. lra.
    - rewrite (nonzeros_ext M q (fun i => T' i j)); auto. intros i Hi. unfold q, Rdiv. split; intros E; [|rewrite E; lra]. apply Rmult_integral in E. destruct E as [E|E]; auto. exfalso. apply Rinv_neq_0_compat in E; [auto|lra]. }
  assert (Hs : (0 < gamma * b j)%R) by (apply Rmult_lt_0_compat; auto).
  assert (I := max_above M k X (b j) gamma q H1 H2 Hs Hq). destruct (max_attained M k X (b j) gamma H1 H2) as ((P0 & P1 & P2) & E). rewrite E in I. apply (Rmult_le_compat_l (b j)) in I; [|lra].
  rewrite !column_scaled in I by (auto; apply Hq).
  replace (column_value M gamma X (fun i => q i * b j)%R) with (column_value M gamma X (fun i => T' i j)) in I; [|apply sumf_ext; intros i Hi; unfold q; assert (Q : (T' i j / b j * b j)%R = T' i j) by (field; lra); rewrite Q; auto].
  unfold T, transport_plan. fold X. lra.
Qed.
Lemma columns_total T0 : sumf N (fun j => column_value M gamma (fun i => alpha i - cost i j)%R (fun i => T0 i j)) =
  (regularized_value M N gamma (fun i j => - cost i j) T0 + dot M alpha (fun i => sumf N (T0 i)))%R.
Proof using.
  unfold column_value, regularized_value, dot. rewrite (sumf_swap N M). rewrite <- sumf_plus. apply sumf_ext. intros i _. rewrite <- sumf_scale, <- sumf_plus. apply sumf_ext. intros. ring.
Qed.
Lemma plan_gap a T' : sparse_columns M N k b T' -> row_sums M N a T' ->
  (regularized_value M N gamma (fun i j => - cost i j) T' <= regularized_value M N gamma (fun i j => - cost i j) T + dot M alpha (fun i => sumf N (T i) - a i))%R.
Proof using HP H1 H2 Hg Hb.
  intros HT HR. assert (I : (sumf N (fun j => column_value M gamma (fun i => alpha i - cost i j) (fun i => T' i j)) <= sumf N (fun j => column_value M gamma (fun i => alpha i - cost i j) (fun i => T i j)))%R)
    by (apply sumf_le; intros j Hj; apply column_best; auto).
  rewrite !columns_total in I. replace (dot M alpha (fun i => sumf N (T' i))) with (dot M alpha a) in I by (apply sumf_ext; intros i Hi; rewrite HR by auto; auto).
  assert (D : dot M alpha (fun i => sumf N (T i) - a i)%R = (dot M alpha (fun i => sumf N (T i)) - dot M alpha a)%R) by (unfold dot; rewrite <- sumf_minus; apply sumf_ext; intros; ring). lra.
Qed.
Lemma plan_best a T' : row_sums M N a T -> sparse_columns M N k b T' -> row_sums M N a T' ->
  (regularized_value M N gamma (fun i j => - cost i j) T' <= regularized_value M N gamma (fun i j => - cost i j) T)%R.
Proof using HP H1 H2 Hg Hb.
  intros HR HT HR'. assert (I := plan_gap a T' HT HR'). replace (dot M alpha (fun i => sumf N (T i) - a i)%R) with 0%R in I; [lra|]. unfold dot. rewrite (sumf_ext M _ (fun _ => 0%R)); [rewrite sumf_const; ring|].
  intros i Hi. rewrite HR by auto. ring.
Qed.
Lemma dual_above a T' : sparse_columns M N k b T' -> row_sums M N a T' ->
  (regularized_value M N gamma (fun i j => - cost i j) T' + gamma / 2 * sumf N (fun j => b j * b j) <= semi_dual project M N k cost a b gamma alpha)%R.
Proof using HP H1 H2 Hg Hb.
  intros HT HR. unfold semi_dual.
  rewrite (sumf_ext N (fun j => b j * max_l2_top_k project M k (fun i => alpha i - cost i j) (b j) gamma)%R (fun j => column_value M gamma (fun i => alpha i - cost i j)%R (fun i => T i j) + gamma / 2 * (b j * b j))%R).
  - rewrite sumf_plus, sumf_scale, columns_total. assert (I := plan_gap a T' HT HR).
    assert (D : dot M alpha (fun i => sumf N (T i) - a i)%R = (dot M alpha (fun i => sumf N (T i)) - dot M alpha a)%R) by (unfold dot; rewrite <- sumf_minus; apply sumf_ext; intros; ring). lra.
  - intros j Hj. destruct (max_attained M k (fun i => alpha i - cost i j)%R (b j) gamma H1 H2) as ((P0 & P1 & P2) & E). rewrite E. apply column_scaled. auto.
Qed.
End Shape.
End Plan.

Lemma one_sparse n p : sparse_simplex n 1 p -> forall i, i < n -> p i = 0%R \/ p i = 1%R.
Proof.
  intros (P0 & P1 & P2) i Hi. destruct (Req_EM_T (p i) 0) as [Z|Z]; [left; auto|right].
  assert (O : forall j, j < n -> j <> i -> p j = 0%R).
  { intros j Hj N. destruct (Req_EM_T (p j) 0) as [Z'|Z']; auto. exfalso. assert (Q := nonzeros_ge n p [i; j] ltac:(constructor; [intros [|[]]; congruence|constructor; [intros []|constructor]]) ltac:(intros m [<-|[<-|[]]]; auto)). simpl in Q. lia. }
  rewrite <- P1. rewrite (sumf_ext n p (fun e => (if e =? i then 1 else 0) * p e)%R); [rewrite sumf_one_hot; auto|]. intros j Hj. destruct (Nat.eqb_spec j i) as [->|N]; [lra|]. rewrite O by auto. lra.
Qed.

(** *** The gates of the sparse routers *)
Section Routers.
Variable project : nat -> nat -> (nat -> R) -> nat -> R.
Hypothesis HP : projection project.
Variable solver : ((nat -> R) -> R) -> nat -> R.
Lemma rows_sparse T E k sim t : 1 <= k -> k <= E -> t < T -> sparse_simplex E k (sparse_ot_plan project solver T E k true sim t).
Proof using HP.
  intros H1 H2 Ht. unfold sparse_ot_plan, regularized_transport.
  destruct (plan_columns project HP E T k (fun e t => - sim t e)%R (fun _ => 1%R) 1%R (solver (semi_dual project E T k (fun e t => - sim t e)%R (fun _ => INR T / INR E)%R (fun _ => 1%R) 1%R)) H1 H2 ltac:(intros; lra) t Ht) as (A & B & C).
  split; [exact A|]. split; [exact B|exact C].
Qed.
Lemma columns_sparse T E k sim : 1 <= k -> k <= T -> 1 <= E -> sparse_columns T E k (fun _ => INR T / INR E)%R (sparse_ot_plan project solver T E k false sim).
Proof using HP.
  intros H1 H2 HE. unfold sparse_ot_plan, regularized_transport. apply (plan_columns project HP); auto. intros. apply Rdiv_lt_0_compat; apply lt_0_INR; lia.
Qed.
Lemma regularized_swap M N sim T : regularized_value M N 1 sim T = regularized_value N M 1 (fun j i => sim i j) (fun j i => T i j).
Proof using. unfold regularized_value. apply sumf_swap. Qed.
Lemma rows_best T E k sim P : 1 <= k -> k <= E ->
  (forall e, e < E -> sumf T (fun t => sparse_ot_plan project solver T E k true sim t e) = (INR T / INR E)%R) ->
  (forall t, t < T -> sparse_simplex E k (P t)) -> (forall e, e < E -> sumf T (fun t => P t e) = (INR T / INR E)%R) ->
  (regularized_value T E 1 sim P <= regularized_value T E 1 sim (sparse_ot_plan project solver T E k true sim))%R.
Proof using HP.
  intros H1 H2 B HPr HPc. rewrite !(regularized_swap T E). unfold sparse_ot_plan, regularized_transport in *.
  set (alpha := solver _) in *.
  assert (I := plan_best project HP E T k (fun e t => - sim t e)%R (fun _ => 1%R) 1%R alpha H1 H2 ltac:(lra) ltac:(intros; lra) (fun _ => INR T / INR E)%R (fun e t => P t e) B HPr HPc).
  unfold regularized_value in *. 
  rewrite (sumf_ext E _ (fun i => sumf T (fun j => P j i * sim j i - 1 / 2 * (P j i * P j i)))%R) in I by (intros; apply sumf_ext; intros; ring).
  eapply Rle_trans; [exact I|]. right. apply sumf_ext. intros e He. apply sumf_ext. intros t Ht. ring.
Qed.
Lemma columns_best T E k sim P : 1 <= k -> k <= T -> 1 <= E ->
  (forall t, t < T -> sumf E (sparse_ot_plan project solver T E k false sim t) = 1%R) ->
  sparse_columns T E k (fun _ => INR T / INR E)%R P -> (forall t, t < T -> sumf E (P t) = 1%R) ->
  (regularized_value T E 1 sim P <= regularized_value T E 1 sim (sparse_ot_plan project solver T E k false sim))%R.
Proof using HP.
  intros H1 H2 HE B HPc HPr. unfold sparse_ot_plan, regularized_transport in *. set (alpha := solver _) in *.
  assert (I := plan_best project HP T E k (fun t e => - sim t e)%R (fun _ => INR T / INR E)%R 1%R alpha H1 H2 ltac:(lra) ltac:(intros; apply Rdiv_lt_0_compat; apply lt_0_INR; lia) (fun _ => 1%R) P B HPc HPr).
  unfold regularized_value in *.
  rewrite (sumf_ext T _ (fun i => sumf E (fun j => P i j * sim i j - 1 / 2 * (P i j * P i j)))%R) in I by (intros; apply sumf_ext; intros; ring).
  eapply Rle_trans; [exact I|]. right. apply sumf_ext. intros e He. apply sumf_ext. intros t Ht. ring.
Qed.
Lemma experts_gates S E k logits :
  (1 <= k /\ k <= E -> exists ot soft, ksparse_experts_gates project solver S E k logits = Ok (ot, soft) /\
     (forall g s, s < S -> sparse_simplex E k (ot g s)) /\ (forall g s e, soft g s e = (exp (logits g s e) / sumf E (fun i => exp (logits g s i)))%R) /\
     (forall g P, (forall e, e < E -> sumf S (fun s => ot g s e) = (INR S / INR E)%R) ->
        (forall s, s < S -> sparse_simplex E k (P s)) -> (forall e, e < E -> sumf S (fun s => P s e) = (INR S / INR E)%R) ->
        (regularized_value S E 1 (soft g) P <= regularized_value S E 1 (soft g) (ot g))%R)) /\
  (~ (1 <= k /\ k <= E) -> ksparse_experts_gates project solver S E k logits = Raise ValueError).
Proof using HP.
  unfold ksparse_experts_gates. split.
  - intros [H1 H2]. replace (k <=? E) with true by lia. replace (1 <=? k) with true by lia. do 2 eexists. split; [reflexivity|]. split; [|split; [reflexivity|]].
    + intros g s Hs. apply rows_sparse; auto.
    + intros g P. apply rows_best; auto.
  - intros N. destruct (k <=? E) eqn:A, (1 <=? k) eqn:B; auto. exfalso. apply N. lia.
Qed.
Lemma items_gates S E k logits : 1 <= k -> k <= S -> 1 <= E -> exists ot soft, ksparse_items_gates project solver S E k logits = (ot, soft) /\
  (forall g, sparse_columns S E k (fun _ => INR S / INR E)%R (ot g)) /\ (forall g s e, soft g s e = (exp (logits g s e) / sumf E (fun i => exp (logits g s i)))%R) /\
  (forall g P, (forall s, s < S -> sumf E (ot g s) = 1%R) -> sparse_columns S E k (fun _ => INR S / INR E)%R P -> (forall s, s < S -> sumf E (P s) = 1%R) ->
     (regularized_value S E 1 (soft g) P <= regularized_value S E 1 (soft g) (ot g))%R).
Proof using HP.
  intros H1 H2 HE. unfold ksparse_items_gates. do 2 eexists. split; [reflexivity|]. split; [|split; [reflexivity|]].
  - intros g. apply columns_sparse; auto.
  - intros g P. apply columns_best; auto.
Qed.
End Routers.
(** Even the best result of the solver need not give balanced experts *)
Lemma balance_refuted project : projection project -> exists T E k sim solver e,
  let objective := semi_dual project E T k (fun e t => - sim t e)%R (fun _ => INR T / INR E)%R (fun _ => 1%R) 1%R in
  1 <= k /\ k <= E /\ (forall alpha, (objective (solver objective) <= objective alpha)%R) /\ e < E /\
  sumf T (fun t => sparse_ot_plan project solver T E k true sim t e) <> (INR T / INR E)%R.
Proof.
  intros HP. exists 2, 2, 1, (fun _ _ => 0%R), (fun _ _ => 0%R), 0. intros objective. split; [lia|]. split; [lia|]. split; [|split; [lia|]].
  - intros alpha. unfold objective, semi_dual. cbn [sumf]. unfold dot. cbn [sumf]. change (INR 2) with 2%R.
    destruct (max_attained project HP 2 1 (fun i => 0 - - 0)%R 1 1 ltac:(lia) ltac:(lia)) as (HS & E). rewrite E. set (p := max_grad project 2 1 (fun i => (0 - - 0)%R) 1 1) in *.
    rewrite dot_self. unfold dot. cbn [sumf]. assert (O0 := one_sparse 2 p HS 0 ltac:(lia)). assert (O1 := one_sparse 2 p HS 1 ltac:(lia)).
    assert (M := fun q => max_above project HP 2 1 (fun i => alpha i - - 0)%R 1 1 q ltac:(lia) ltac:(lia) ltac:(lra)).
    assert (M0 := M (fun i => if i =? 0 then 1%R else 0%R)). assert (M1 := M (fun i => if i =? 1 then 1%R else 0%R)). clear M. rewrite dot_self in M0, M1. unfold dot in M0, M1. cbn [sumf Nat.eqb] in M0, M1.
    assert (S0 : sparse_simplex 2 1 (fun i => if i =? 0 then 1%R else 0%R)).
    { split; [intros i _; destruct (i =? 0); lra|]. split; [cbn; lra|]. apply (nonzeros_le 2 _ [0]). intros i Hi. destruct (Nat.eqb_spec i 0); [left; auto|lra]. }
    assert (S1 : sparse_simplex 2 1 (fun i => if i =? 1 then 1%R else 0%R)).
    { split; [intros i _; destruct (i =? 1); lra|]. split; [cbn; lra|]. apply (nonzeros_le 2 _ [1]). intros i Hi. destruct (Nat.eqb_spec i 1); [left; auto|lra]. }
    specialize (M0 S0). specialize (M1 S1). set (v := max_l2_top_k project 2 1 (fun i => (alpha i - - 0)%R) 1 1) in *. clearbody v.
    destruct O0 as [->| ->], O1 as [->| ->]; lra.
  - unfold sparse_ot_plan, regularized_transport, transport_plan. cbn [sumf]. change (INR 2) with 2%R.
    destruct (max_attained project HP 2 1 (fun i => 0 - - 0)%R 1 1 ltac:(lia) ltac:(lia)) as (HS & _). destruct (one_sparse 2 _ HS 0 ltac:(lia)) as [->| ->]; lra.
Qed.

(** *** Replaced weights *)
Section Replace.
Context {A : alg} (L : alg_laws A).
Lemma replaced_experts G S E K C bp bf (gates w : nat -> nat -> nat -> sc A) : 1 <= S -> 1 <= K -> K <= E ->
  exists d, experts_dispatcher G S E K C NameEinsum bp bf gates (Some w) = Ok d /\
  forall ch, (forall g s, s < S -> best_choices E K (gates g s) (ch g s)) ->
  forall f F, (forall e buf j, F e buf j = f e (buf j)) -> forall data g s, g < G -> s < S ->
    layer d F data g s = routed_output bp S E K C (gates g) (w g) (ch g) f (data g) s.
Proof using L.
  intros HS HK HE. unfold experts_dispatcher, finish.
  destruct (einsum_dispatcher_spec L S E K C gates bp HS HK HE) as (d & Hd & dw & Hdw & Hsp).
  rewrite Hd. cbn [option_map replace_combine_weights bind]. eexists. split; [reflexivity|]. intros ch Hch f F HF data g s Hg Hs.
  set (d' := {| ed_combine := _; ed_dispatch := _ |}).
  transitivity (layer (DEinsum G S E C d') F data g s); [destruct bf; reflexivity|]. cbn [layer]. unfold sparse_moe.
  assert (DW : ed_dispatch_weights d = dw) by (unfold ed_dispatch_weights; rewrite Hdw; auto).
  assert (DW' : ed_dispatch_weights d' = dw) by (unfold d', ed_dispatch_weights; cbn [ed_dispatch]; exact DW).
  unfold einsum_do_combine, routed_output. rewrite (sum_over_vsum L).
  rewrite (vsum_ext K _ (fun k => if slot_of S E K gates bp ch g s k <? C then vscale A (w g s (ch g s k)) (f (ch g s k) (cell S E K gates bp ch data g (ch g s k) (slot_of S E K gates bp ch g s k))) else vzero A)).
  - rewrite <- (cells_sum L E C K (ch g s) (slot_of S E K gates bp ch g s) (fun e c => vscale A (w g s e) (f e (cell S E K gates bp ch data g e c)))).
    + apply vsum_ext; intros e He. apply vsum_ext; intros c Hc. destruct (Hsp ch Hch g s e c Hs) as [H1 H2].
      cbn [d' ed_combine]. rewrite DW, H1, (b2s_mul L). rewrite receive_at by lia. destruct (existsb _ _); auto. rewrite HF. do 2 f_equal.
      rewrite <- (einsum_dispatch_cell L G S E K C gates bp HS HK HE ch Hch d data g e c Hd Hg He Hc). unfold einsum_do_dispatch. rewrite DW, DW'. auto.
    + intros k Hk. apply (ch_lt S E K gates ch Hch); auto.
    + intros k k' Hk Hk'. apply (ch_inj L S E K gates ch Hch); auto.
  - intros k Hk. unfold slot_of at 1. destruct (_ <? C); auto. rewrite (cell_at L S E K gates bp HS HK HE ch Hch data g s k Hs Hk). auto.
Qed.
Lemma replaced_items G S E C bf (gates w : nat -> nat -> nat -> sc A) : 1 <= E -> C <= S ->
  exists d, items_dispatcher G S E C NameEinsum bf gates (Some w) = Ok d /\
  forall ch, (forall g e, e < E -> best_choices S C (fun s => gates g s e) (ch g e)) ->
  forall f F, (forall e buf j, F e buf j = f e (buf j)) -> forall data g s, g < G -> s < S ->
    layer d F data g s = top_items_output E C (w g) (ch g) f (data g) s.
Proof using L.
  intros HE HC. unfold items_dispatcher, finish. destruct (top_items_choices_exist L S E C HC gates) as (ch0 & Hch0).
  destruct (top_items_dispatcher_spec L S E C HC gates ch0 Hch0) as (d & Hd & _).
  rewrite Hd. cbn [option_map replace_combine_weights bind]. eexists. split; [reflexivity|]. intros ch Hch f F HF data g s Hg Hs.
  set (d' := {| ed_combine := _; ed_dispatch := _ |}).
  transitivity (layer (DEinsum G S E C d') F data g s); [destruct bf; reflexivity|]. cbn [layer]. unfold sparse_moe.
  destruct (top_items_dispatcher_spec L S E C HC gates ch Hch) as (d2 & Hd2 & dw & Hdw & Hsp). rewrite Hd in Hd2. inversion Hd2; subst d2. clear Hd2.
  assert (DW : ed_dispatch_weights d = dw) by (unfold ed_dispatch_weights; rewrite Hdw; auto).
  assert (DW' : ed_dispatch_weights d' = dw) by (unfold d', ed_dispatch_weights; cbn [ed_dispatch]; exact DW).
  unfold einsum_do_combine, top_items_output. rewrite (sum_over_vsum L). apply vsum_ext; intros e He.
  assert (Hcell : forall c, c < C ->
      vscale A (ed_combine d' g s e c) (receive_a2a E G (G * C) (fun e0 => F e0 (einsum_do_dispatch G S E C d' data e0)) g e c)
      = if ch g e c =? s then vscale A (w g s e) (f e (data g s)) else vzero A).
  { intros c Hc. destruct (Hsp g s e c He Hc) as [H1 _]. cbn [d' ed_combine]. rewrite DW, H1, (b2s_mul L).
    destruct (ch g e c =? s) eqn:Es; auto. rewrite receive_at by lia. rewrite HF. do 2 f_equal.
    transitivity (einsum_do_dispatch G S E C d data e (a2a_pos G E g * C + c)); [unfold einsum_do_dispatch; rewrite DW, DW'; auto|].
    rewrite (top_items_dispatch_at L S E C HC G gates ch HE Hch f F HF d data g e c Hd Hg He Hc). apply Nat.eqb_eq in Es. rewrite Es. auto. }
  rewrite (vsum_ext C _ _ Hcell).
  destruct (existsb _ _) eqn:Ex.
  - apply existsb_exists in Ex. destruct Ex as (c & Hc & Hb). apply in_seq in Hc.
    rewrite (vsum_single L C _ c); [now rewrite Hb|lia|].
    intros i Hi Hne. destruct (ch g e i =? s) eqn:Ei; auto.
    exfalso. apply Hne. apply (best_choices_inj L _ S C (ch g e) (Hch g e He)); try lia.
  - apply (vsum_zero L). intros c Hc. destruct (ch g e c =? s) eqn:Ei; auto.
    assert (existsb (fun c => ch g e c =? s) (seq 0 C) = true) by (apply existsb_exists; exists c; split; auto; apply in_seq; lia).
    congruence.
Qed.
End Replace.
Section Kept.
Context {A : alg} (L : alg_laws A).
Lemma kept_experts G S E K C name bp bf (gates : nat -> nat -> nat -> sc A) : 1 <= S -> 1 <= K -> K <= E -> name <> NameOther ->
  exists d, experts_dispatcher G S E K C name bp bf gates None = Ok d /\
  forall ch, (forall g s, s < S -> best_choices E K (gates g s) (ch g s)) ->
  forall f F, (forall e buf j, F e buf j = f e (buf j)) -> forall data g s, g < G -> s < S ->
    layer d F data g s = routed_output bp S E K C (gates g) (gates g) (ch g) f (data g) s.
Proof using L.
  intros HS HK HE N. unfold experts_dispatcher, finish. destruct name; [| |contradiction].
  - destruct (einsum_dispatcher_spec L S E K C gates bp HS HK HE) as (d & Hd & _). rewrite Hd. cbn [option_map bind]. eexists. split; [reflexivity|]. intros ch Hch f F HF data g s Hg Hs.
    transitivity (layer (DEinsum G S E C d) F data g s); [destruct bf; reflexivity|]. exact (einsum_layer L G S E K C gates bp HS HK HE ch Hch f F HF d data g s Hd Hg Hs).
  - destruct (indices_dispatcher_spec L S E K gates bp HS HK HE) as (d & Hd & _). rewrite Hd. cbn [option_map bind]. eexists. split; [reflexivity|]. intros ch Hch f F HF data g s Hg Hs.
    transitivity (layer (DIndices G S K E C d) F data g s); [destruct bf; reflexivity|]. exact (indices_layer L G S E K C gates bp HS HK HE ch Hch f F HF d data g s Hd Hg Hs).
Qed.
Lemma kept_items G S E C bf (gates : nat -> nat -> nat -> sc A) : 1 <= E -> C <= S ->
  exists d, items_dispatcher G S E C NameEinsum bf gates None = Ok d /\
  forall ch, (forall g e, e < E -> best_choices S C (fun s => gates g s e) (ch g e)) ->
  forall f F, (forall e buf j, F e buf j = f e (buf j)) -> forall data g s, g < G -> s < S ->
    layer d F data g s = top_items_output E C (gates g) (ch g) f (data g) s.
Proof using L.
  intros HE HC. unfold items_dispatcher, finish. destruct (top_items_choices_exist L S E C HC gates) as (ch0 & Hch0).
  destruct (top_items_dispatcher_spec L S E C HC gates ch0 Hch0) as (d & Hd & _). rewrite Hd. cbn [option_map bind]. eexists. split; [reflexivity|]. intros ch Hch f F HF data g s Hg Hs.
  transitivity (layer (DEinsum G S E C d) F data g s); [destruct bf; reflexivity|]. exact (top_items_layer L S E C HC G gates ch HE Hch f F HF d data g s Hd Hg Hs).
Qed.
Lemma dispatcher_errors G S E K C bp bf (gates w : nat -> nat -> nat -> sc A) : 1 <= S -> 1 <= K -> K <= E ->
  experts_dispatcher G S E K C NameIndices bp bf gates (Some w) = Raise TypeError /\
  (forall o, experts_dispatcher G S E K C NameOther bp bf gates o = Raise ValueError) /\
  (forall name o, name <> NameEinsum -> items_dispatcher G S E C name bf gates o = Raise ValueError) /\
  (forall name o, S < C -> items_dispatcher G S E C name bf gates o = Raise ValueError).
Proof using L.
  intros HS HK HE. split; [|split; [|split]].
  - unfold experts_dispatcher, finish. destruct (indices_dispatcher_spec L S E K gates bp HS HK HE) as (d & Hd & _). rewrite Hd. reflexivity.
  - reflexivity.
  - intros [] o N; [contradiction|reflexivity|reflexivity].
  - intros name o H. destruct name; try reflexivity. unfold items_dispatcher, top_items_dispatcher_of. rewrite top_items_fails by auto. reflexivity.
Qed.
Lemma nodup_map_on {T U} (f : T -> U) l : NoDup l -> (forall x y, In x l -> In y l -> f x = f y -> x = y) -> NoDup (map f l).
Proof using.
  induction 1 as [|a l N ND IH]; intros I; cbn [map]; constructor.
  - intros H. apply in_map_iff in H. destruct H as (b & E & Hb). assert (b = a) by (apply I; [right; auto|left; auto|auto]). congruence.
  - apply IH. intros x y Hx Hy. apply I; right; auto.
Qed.
Lemma nodup_pairs n m : NoDup (list_prod (seq 0 n) (seq 0 m)).
Proof using.
  assert (G : forall (l : list nat) (l' : list nat), NoDup l -> NoDup l' -> NoDup (list_prod l l')).
  { induction 1 as [|a l N ND IH]; intros ND'; cbn [list_prod]; [constructor|]. apply NoDup_app_intro; auto.
    - apply nodup_map_on; auto. intros x y _ _ E. congruence.
    - intros [u v] H1 H2. apply in_map_iff in H1. destruct H1 as (z & E & _). apply in_prod_iff in H2. inversion E; subst. destruct H2; contradiction. }
  apply G; apply seq_NoDup.
Qed.
Lemma competitors_room bp S E K (gates : nat -> nat -> sc A) ch s k : (forall s, s < S -> best_choices E K (gates s) (ch s)) -> s < S -> k < K ->
  competitors bp S E K gates ch s k < S.
Proof using L.
  intros Hch Hs Hk. unfold competitors. set (l := filter _ _). rewrite <- (map_length fst l).
  assert (M : forall p, In p l -> fst p < S /\ snd p < K /\ ch (fst p) (snd p) = ch s k /\ fst p <> s).
  { intros [s' k'] H. apply filter_In in H. destruct H as [H B]. apply in_prod_iff in H. destruct H as [H1 H2]. apply in_seq in H1. apply in_seq in H2. apply andb_true_iff in B. destruct B as [B1 B2]. cbn [fst snd] in *. apply Nat.eqb_eq in B1.
    repeat split; auto; try lia. intros ->. assert (k' = k) by (apply (best_choices_inj L _ E K (ch s) (Hch s Hs)); auto; lia). subst k'. rewrite (priority_irrefl L) in B2. discriminate. }
  assert (ND : NoDup (s :: map fst l)).
  { constructor.
    - intros H. apply in_map_iff in H. destruct H as (p & E0 & H). apply M in H. destruct H as (_ & _ & _ & H). auto.
    - apply nodup_map_on; [apply NoDup_filter, nodup_pairs|]. intros [a1 b1] [a2 b2] H1 H2 E0. cbn [fst] in E0. subst a2. apply M in H1. apply M in H2. cbn [fst snd] in *. destruct H1 as (X1 & X2 & X3 & _), H2 as (_ & Y2 & Y3 & _).
      f_equal. apply (best_choices_inj L _ E K (ch a1) (Hch a1 X1)); auto. congruence. }
  apply NoDup_incl_length with (l' := seq 0 S) in ND.
  - rewrite seq_length in ND. cbn [length] in ND. lia.
  - intros x [<-|H]; [apply in_seq; lia|]. apply in_map_iff in H. destruct H as (p & <- & H). apply M in H. apply in_seq. lia.
Qed.
End Kept.

(** *** Sparse gates: all experts that are not zero are chosen *)
Lemma all_chosen n K p ch : best_choices (A := Ralg) n K p ch -> (forall i, i < n -> (0 <= p i)%R) -> nonzeros n p <= K ->
  forall i, i < n -> p i <> 0%R -> exists k, k < K /\ ch k = i.
Proof.
  intros HB P0 P2 i Hi NZ. destruct (existsb (fun k => ch k =? i) (seq 0 K)) eqn:Ex.
  - apply existsb_exists in Ex. destruct Ex as (k & Hk & E). apply in_seq in Hk. apply Nat.eqb_eq in E. exists k. split; [lia|auto].
  - exfalso. assert (NC : forall k, k < K -> ch k <> i). { intros k Hk E. apply Bool.not_true_iff_false in Ex. apply Ex. apply existsb_exists. exists k. split; [apply in_seq; lia|apply Nat.eqb_eq; auto]. }
    assert (INJ := best_choices_inj Ralg_laws p n K ch HB). destruct HB as (R1 & R2 & R3).
    assert (Q := nonzeros_ge n p (i :: map ch (seq 0 K))). cbn [length] in Q. rewrite map_length, seq_length in Q.
    enough (S K <= nonzeros n p) by lia. apply Q.
    + constructor.
      * intros H. apply in_map_iff in H. destruct H as (k & E & Hk). apply in_seq in Hk. apply (NC k); auto; lia.
      * apply nodup_map_on; [apply seq_NoDup|]. intros x y Hx Hy. apply in_seq in Hx. apply in_seq in Hy. apply INJ; lia.
    + intros j [<-|H]; [auto|]. apply in_map_iff in H. destruct H as (k & <- & Hk). apply in_seq in Hk. split; [apply R1; lia|].
      assert (B := preferred_le p (ch k) i (R3 i Hi NC k ltac:(lia))). specialize (P0 i Hi). lra.
Qed.
Lemma experts_mixture S E K C bp gates ch f x s : 1 <= K -> K <= E -> S <= C -> (forall s, s < S -> sparse_simplex E K (gates s)) ->
  (forall s, s < S -> best_choices (A := Ralg) E K (gates s) (ch s)) -> s < S ->
  routed_output (A := Ralg) bp S E K C gates gates ch f x s = mixture (A := Ralg) E (gates s) f (x s).
Proof.
  intros HK HE HC HG Hch Hs. unfold mixture. change (routed_output (A := Ralg) bp S E K C gates gates ch f x s) with (top_experts_output (A := Ralg) bp S E K C ((fun _ => gates) 0) ((fun _ => ch) 0) f x s).
  apply (kept_by_expert Ralg_laws S E K C (fun _ => gates) bp HK HE (fun _ => ch)); auto. intros e He.
  destruct (existsb _ _) eqn:Ex; auto. destruct (Req_EM_T (gates s e) 0) as [Z|Z]; [exact Z|]. exfalso. destruct (HG s Hs) as (P0 & _ & P2).
  destruct (all_chosen E K (gates s) (ch s) (Hch s Hs) P0 P2 e He Z) as (k & Hk & E0).
  apply Bool.not_true_iff_false in Ex. apply Ex. apply existsb_exists. exists k. split; [apply in_seq; lia|]. rewrite E0, Nat.eqb_refl. cbn [andb]. apply Nat.ltb_lt.
  assert (Q := competitors_room Ralg_laws bp S E K gates ch s k Hch Hs Hk). lia.
Qed.
Lemma items_mixture S E C gates ch f x s : sparse_columns S E C (fun _ => INR S / INR E)%R gates ->
  (forall e, e < E -> best_choices (A := Ralg) S C (fun s => gates s e) (ch e)) -> s < S ->
  top_items_output (A := Ralg) E C gates ch f x s = mixture (A := Ralg) E (gates s) f (x s).
Proof.
  intros HG Hch Hs. unfold top_items_output, mixture. rewrite !(sum_over_vsum Ralg_laws). apply vsum_ext. intros e He. destruct (existsb _ _) eqn:Ex; auto.
  destruct (Req_EM_T (gates s e) 0) as [Z|Z]; [rewrite Z; symmetry; apply (scale_zero _ Ralg_laws)|]. exfalso. destruct (HG e He) as (P0 & _ & P2).
  destruct (all_chosen S C (fun s => gates s e) (ch e) (Hch e He) P0 P2 s Hs Z) as (c & Hc & E0).
  apply Bool.not_true_iff_false in Ex. apply Ex. apply existsb_exists. exists c. split; [apply in_seq; lia|]. apply Nat.eqb_eq. auto.
Qed.
Section Final.
Variable project : nat -> nat -> (nat -> R) -> nat -> R.
Hypothesis HP : projection project.
Variable solver : ((nat -> R) -> R) -> nat -> R.
(** Without softmax weights the layer is the mixture given by the plan *)
Lemma experts_layer G S E K C name bp bf logits : 1 <= S -> 1 <= K -> K <= E -> S <= C -> name <> NameOther ->
  exists ot soft d, ksparse_experts_gates project solver S E K logits = Ok (ot, soft) /\
    experts_dispatcher (A := Ralg) G S E K C name bp bf ot None = Ok d /\
    forall f F, (forall e buf j, F e buf j = f e (buf j)) -> forall data g s, g < G -> s < S ->
      layer d F data g s = mixture (A := Ralg) E (ot g s) f (data g s).
Proof using HP.
  intros HS HK HE HC N. destruct (proj1 (experts_gates project HP solver S E K logits) (conj HK HE)) as (ot & soft & E0 & HG & _).
  destruct (kept_experts Ralg_laws G S E K C name bp bf ot HS HK HE N) as (d & Hd & Hl). exists ot, soft, d. split; [auto|]. split; [auto|]. intros f F HF data g s Hg Hs.
  destruct (choices_exist Ralg_laws S E K ot HE) as (ch & Hch). rewrite (Hl ch Hch f F HF data g s Hg Hs). apply (experts_mixture S); auto.
Qed.
Lemma items_layer G S E C bf logits : 1 <= E -> 1 <= C -> C <= S ->
  exists d, items_dispatcher (A := Ralg) G S E C NameEinsum bf (fst (ksparse_items_gates project solver S E C logits)) None = Ok d /\
    forall f F, (forall e buf j, F e buf j = f e (buf j)) -> forall data g s, g < G -> s < S ->
      layer d F data g s = mixture (A := Ralg) E (fst (ksparse_items_gates project solver S E C logits) g s) f (data g s).
Proof using HP.
  intros HE H1 H2. set (ot := fst (ksparse_items_gates project solver S E C logits)). destruct (kept_items Ralg_laws G S E C bf ot HE H2) as (d & Hd & Hl). exists d. split; [auto|]. intros f F HF data g s Hg Hs.
  destruct (top_items_choices_exist Ralg_laws S E C H2 ot) as (ch & Hch). rewrite (Hl ch Hch f F HF data g s Hg Hs). apply (items_mixture S); auto. apply (columns_sparse project HP); auto.
Qed.
End Final.

(** With softmax weights, experts without weight in the plan contribute *)
Lemma unplanned_refuted project : projection project -> exists solver S E K C logits ot soft d e f f' data,
  1 <= K /\ K <= E /\ ksparse_experts_gates project solver S E K logits = Ok (ot, soft) /\
  experts_dispatcher (A := Ralg) 1 S E K C NameEinsum false false ot (Some soft) = Ok d /\
  e < E /\ ot 0 0 e = 0%R /\ (forall e' x, e' <> e -> f e' x = f' e' x) /\
  layer d (fun e buf j => f e (buf j)) data 0 0 <> layer d (fun e buf j => f' e (buf j)) data 0 0.
Proof.
  intros HP. set (solver := fun (_ : (nat -> R) -> R) (i : nat) => if i =? 0 then 2%R else 0%R). set (logits := fun _ _ _ : nat => 0%R).
  assert (HZ : exists ot soft, ksparse_experts_gates project solver 1 2 2 logits = Ok (ot, soft) /\ ot 0 0 1 = 0%R /\ (forall e, soft 0 0 e = (/ 2)%R)).
  { do 2 eexists. split; [reflexivity|]. assert (SM : forall s e, softmax 2 (logits 0 s) e = (/ 2)%R) by (intros s e; unfold softmax, logits; cbn [sumf]; rewrite exp_0; lra). split; [|intros; apply SM].
    unfold sparse_ot_plan, regularized_transport, transport_plan, max_grad. set (x := fun i : nat => _).
    destruct (HP 2 2 x ltac:(lia) ltac:(lia)) as ((P0 & P1 & _) & MIN). set (p := project 2 2 x) in *.
    assert (X0 : x 0 = (5 / 2)%R) by (unfold x; cbn [solver Nat.eqb]; rewrite SM; lra). assert (X1 : x 1 = (/ 2)%R) by (unfold x; cbn [solver Nat.eqb]; rewrite SM; lra).
    specialize (MIN (fun i => if i =? 0 then 1%R else 0%R)). unfold distance2 in MIN. cbn [sumf Nat.eqb] in MIN. rewrite X0, X1 in MIN.
    assert (Q := P0 1 ltac:(lia)). cbn [sumf] in P1.
    assert (H : p 1 = 0%R); [|rewrite H; lra].
    assert (I : p 0 = (1 - p 1%nat)%R) by lra. rewrite I in MIN.
    assert (J : sparse_simplex 2 2 (fun i => if i =? 0 then 1%R else 0%R)).
    { split; [intros i _; destruct (i =? 0); lra|]. split; [cbn; lra|]. apply (nonzeros_le 2 _ [0; 1]). intros i Hi _. simpl. lia. }
    specialize (MIN J). nra. }
  destruct HZ as (ot & soft & E0 & Z1 & SM). destruct (replaced_experts Ralg_laws 1 1 2 2 1 false false ot soft ltac:(lia) ltac:(lia) ltac:(lia)) as (d & Hd & Hl).
  exists solver, 1, 2, 2, 1, logits, ot, soft, d, 1, (fun e _ _ => if e =? 1 then 1%R else 0%R), (fun _ _ _ => 0%R), (fun _ _ _ => 0%R).
  split; [lia|]. split; [lia|]. split; [auto|]. split; [auto|]. split; [lia|]. split; [auto|]. split; [intros e' x N; replace (e' =? 1) with false by lia; auto|].
  destruct (choices_exist Ralg_laws 1 2 2 ot ltac:(lia)) as (ch & Hch).
  rewrite (Hl ch Hch (fun e _ _ => if e =? 1 then 1%R else 0%R) _ ltac:(reflexivity) _ 0 0 ltac:(lia) ltac:(lia)).
  rewrite (Hl ch Hch (fun _ _ _ => 0%R) _ ltac:(reflexivity) _ 0 0 ltac:(lia) ltac:(lia)).
  unfold routed_output. rewrite !(sum_over_vsum Ralg_laws). cbn [vsum].
  assert (R0 := competitors_room Ralg_laws false 1 2 2 (ot 0) (ch 0) 0 0 (fun s => Hch 0 s) ltac:(lia) ltac:(lia)). assert (R1 := competitors_room Ralg_laws false 1 2 2 (ot 0) (ch 0) 0 1 (fun s => Hch 0 s) ltac:(lia) ltac:(lia)).
  replace (competitors (A := Ralg) false 1 2 2 (ot 0) (ch 0) 0 0 <? 1) with true by (symmetry; apply Nat.ltb_lt; auto). replace (competitors (A := Ralg) false 1 2 2 (ot 0) (ch 0) 0 1 <? 1) with true by (symmetry; apply Nat.ltb_lt; auto).
  intros Q. apply (f_equal (fun v : nat -> R => v 0)) in Q. cbn [vadd vzero vscale Ralg] in Q. rewrite !SM in Q.
  assert (INJ := best_choices_inj Ralg_laws _ 2 2 (ch 0 0) (Hch 0 0 ltac:(lia)) 0 1 ltac:(lia) ltac:(lia)). destruct (Hch 0 0 ltac:(lia)) as (B & _). assert (B0 := B 0 ltac:(lia)). assert (B1 := B 1 ltac:(lia)).
  destruct (Nat.eqb_spec (ch 0 0 0) 1), (Nat.eqb_spec (ch 0 0 1) 1); try lra; lia.
Qed.

(** *** KL projections *)
Lemma kl_items plan E noise logits :
  kl_items_gates plan E noise logits = let used := fun g s e => match noise with Some n => (logits g s e + n g s e)%R | None => logits g s e end in
    (fun g => plan (used g), fun g s => softmax E (used g s)).
Proof. destruct noise; reflexivity. Qed.
Lemma kl_experts_quiet plan E k logits : 1 <= k -> k <= E -> kl_experts_gates plan E k None logits = Ok (fun g => plan (logits g), fun g s => softmax E (logits g s)).
Proof. intros H1 H2. unfold kl_experts_gates. replace (k <=? E) with true by lia. replace (1 <=? k) with true by lia. reflexivity. Qed.
Lemma kl_experts_fails plan E k noise logits : ~ (1 <= k /\ k <= E) -> kl_experts_gates plan E k noise logits = Raise ValueError.
Proof. intros N. unfold kl_experts_gates. destruct (k <=? E) eqn:A, (1 <=? k) eqn:B; auto. exfalso. apply N. lia. Qed.
Lemma kl_experts_noise_refuted : exists E k noise logits, 1 <= k /\ k <= E /\ forall plan, exists ot soft,
  kl_experts_gates plan E k (Some noise) logits = Ok (ot, soft) /\ (forall g, ot g = plan (fun s e => logits g s e + noise g s e)%R) /\
  soft 0 0 0 <> softmax E (fun e => Rplus (logits 0 0 e) (noise 0 0 e)) 0.
Proof.
  exists 2, 1, (fun _ _ e => if e =? 0 then 1%R else 0%R), (fun _ _ _ => 0%R). split; [lia|]. split; [lia|]. intros plan. do 2 eexists. split; [reflexivity|]. split; [reflexivity|].
  unfold softmax. cbn [sumf Nat.eqb]. rewrite !Rplus_0_l, exp_0. replace (1 / (1 + 1))%R with (/ 2)%R by lra. intros Q.
  assert (X : (1 < exp 1)%R) by (rewrite <- exp_0 at 1; apply exp_increasing; lra). assert (Y : (/ 2 * (exp 1 + 1) = exp 1)%R) by (rewrite Q; field; lra). lra.
Qed.
Lemma balanced_case project : projection project -> forall e, e < 2 ->
  sumf 2 (fun t => sparse_ot_plan project (fun _ _ => 0%R) 2 2 1 true (fun t e => if t =? e then 1%R else 0%R) t e) = (INR 2 / INR 2)%R.
Proof.
  intros HP. unfold sparse_ot_plan, regularized_transport, transport_plan, max_grad.
  assert (H : forall t, t < 2 -> forall e, e < 2 -> project 2 1 (fun i => (0 - - (if t =? i then 1 else 0)) / (1 * 1))%R e = if t =? e then 1%R else 0%R).
  { intros t Ht. set (x := fun i : nat => _). assert (X : forall i, x i = if t =? i then 1%R else 0%R) by (intros i; unfold x; lra). destruct (HP 2 1 x ltac:(lia) ltac:(lia)) as (_ & MIN). specialize (MIN (fun i => if t =? i then 1%R else 0%R)).
    assert (J : sparse_simplex 2 1 (fun i => if t =? i then 1%R else 0%R)).
    { split; [intros i _; destruct (t =? i); lra|]. split; [destruct t as [|[|]]; [cbn; lra|cbn; lra|lia]|]. apply (nonzeros_le 2 _ [t]). intros i Hi. destruct (Nat.eqb_spec t i); [left; auto|lra]. }
    specialize (MIN J). assert (Z : distance2 2 (fun i => if t =? i then 1%R else 0%R) x = 0%R) by (unfold distance2; cbn [sumf]; rewrite !X; destruct t as [|[|]]; cbn [Nat.eqb]; [lra|lra|lia]). rewrite Z in MIN.
    assert (Z' : distance2 2 (project 2 1 x) x = 0%R) by (apply Rle_antisym; auto; apply sumf_nonneg; intros; apply Rle_0_sqr).
    assert (SQ := sumf_sq_zero 2 (fun i => Rmult (project 2 1 x i - x i) (project 2 1 x i - x i)) ltac:(intros; apply Rle_0_sqr) Z').
    intros e He. specialize (SQ e He). cbv beta in SQ. apply Rmult_integral in SQ. rewrite <- X. destruct SQ; lra. }
  intros e He. cbn [sumf]. change (INR 2) with 2%R. rewrite (H 0 ltac:(lia) e He), (H 1 ltac:(lia) e He). destruct e as [|[|]]; cbn [Nat.eqb]; [lra|lra|lia].
Qed.
