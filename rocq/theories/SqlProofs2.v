(** Proofs for C93: the router, and witnesses. *)
From Coq Require Import List Arith Bool Reals Lia Lra.
From Verif Require Import Prim MoeModel SoftModel SoftSpec SoftProofs AuxModel CwModel OtModel OtSpec OtProofs SkhProofs SqlModel SqlSpec SqlProofs.
Local Open Scope nat_scope.

Section Router.
Variable project : nat -> (nat -> R) -> nat -> R.
Hypothesis proj : simplex_projection project.
Variable solver : ((nat -> R) -> R) -> nat -> R.
Variables (T E : nat) (sim : nat -> nat -> R).
Hypothesis HT : 1 <= T.
Hypothesis HE : 1 <= E.
Let obj := semi_dual_l2 project T E (fun t e => - sim t e)%R (fun _ => 1%R) (fun _ => INR T / INR E)%R 1.
Let P := squared_l2_plan project solver T E sim.
Lemma TE_pos : (0 < INR T / INR E)%R.
Proof. apply Rdiv_lt_0_compat; apply lt_0_INR; lia. Qed.
Lemma sql_columns : columns T E (fun _ => INR T / INR E)%R P.
Proof. exact (plan_columns project proj T E (fun t e => - sim t e)%R (fun _ => INR T / INR E)%R 1 HT (fun _ _ => TE_pos) (solver obj)). Qed.
Lemma sql_rows delta : almost_minimal obj delta (solver obj) -> (sumf T (fun t => (sumf E (P t) - 1) * (sumf E (P t) - 1)) <= 2 * INR E * delta)%R.
Proof.
  intros H. pose proof (rows_bound project proj T E (fun t e => - sim t e)%R (fun _ => 1%R) (fun _ => INR T / INR E)%R 1 HT Rlt_0_1 (fun _ _ => TE_pos) (solver obj) delta HE H) as Q.
  cbv zeta in Q. replace (2 * INR E * delta)%R with (2 * INR E / 1 * delta)%R by field. exact Q.
Qed.
Lemma sql_exact : almost_minimal obj 0 (solver obj) <-> row_sums T E (fun _ => 1%R) P.
Proof. exact (exact_iff project proj T E (fun t e => - sim t e)%R (fun _ => 1%R) (fun _ => INR T / INR E)%R 1 HT Rlt_0_1 (fun _ _ => TE_pos) (solver obj) HE). Qed.
Lemma value_neg Q : regularized_value T E 1 (fun t e => - (- sim t e))%R Q = regularized_value T E 1 sim Q.
Proof. unfold regularized_value. apply sumf_ext. intros t Ht. apply sumf_ext. intros e He. ring. Qed.
Lemma sql_gap Q : columns T E (fun _ => INR T / INR E)%R Q -> row_sums T E (fun _ => 1%R) Q ->
  (regularized_value T E 1 sim Q + / 2 * plan_distance2 T E P Q <= regularized_value T E 1 sim P + dot T (solver obj) (fun t => sumf E (P t) - 1))%R.
Proof.
  intros HQ HR. pose proof (near_best_l2 project proj T E (fun t e => - sim t e)%R (fun _ => 1%R) (fun _ => INR T / INR E)%R 1 HT Rlt_0_1 (fun _ _ => TE_pos) (solver obj) Q HQ HR) as X.
  cbv beta zeta in X. rewrite !value_neg in X. replace (/ 2)%R with (1 / 2)%R by field. exact X.
Qed.
Lemma sql_best Q : almost_minimal obj 0 (solver obj) -> columns T E (fun _ => INR T / INR E)%R Q -> row_sums T E (fun _ => 1%R) Q ->
  (regularized_value T E 1 sim Q + / 2 * plan_distance2 T E P Q <= regularized_value T E 1 sim P)%R.
Proof.
  intros H HQ HR. apply sql_exact in H. pose proof (sql_gap Q HQ HR) as G.
  assert (Z : dot T (solver obj) (fun t => sumf E (P t) - 1)%R = 0%R); [|lra].
  unfold dot. rewrite (sumf_ext T _ (fun _ => 0%R)); [rewrite sumf_const; ring|]. intros t Ht. rewrite (H t Ht). ring.
Qed.
(** Without preferences, no entry is zero. *)
Lemma sql_dense c : (forall t e, sim t e = c) -> almost_minimal obj 0 (solver obj) -> forall t e, t < T -> e < E -> P t e = (/ INR E)%R.
Proof.
  intros Hc H. pose proof (lt_0_INR T ltac:(lia)) as T0. pose proof (lt_0_INR E ltac:(lia)) as E0.
  assert (G := sql_best (fun _ _ => / INR E)%R H). specialize (G ltac:(intros e He; split; [intros; apply Rlt_le, Rinv_0_lt_compat; exact E0|rewrite sumf_const; reflexivity])).
  specialize (G ltac:(intros t Ht; rewrite sumf_const; field; lra)). apply sql_exact in H.
  set (D := plan_distance2 T E P (fun _ _ => / INR E)%R) in *.
  assert (X : (regularized_value T E 1 sim (fun _ _ => / INR E) - regularized_value T E 1 sim P)%R = (/ 2 * D)%R).
  { unfold regularized_value, D, plan_distance2. rewrite <- sumf_scale, <- sumf_minus. apply sumf_ext. intros t Ht. rewrite <- sumf_scale, <- sumf_minus.
    transitivity (sumf E (fun e => / 2 * ((P t e - / INR E) * (P t e - / INR E)) + (/ INR E * (c - / INR E) - P t e * (c - / INR E))))%R.
    - apply sumf_ext. intros e He. rewrite Hc. field. lra.
    - rewrite sumf_plus, sumf_minus, sumf_const. pose proof (H t Ht) as Ht1. rewrite (sum_r E (P t) (c - / INR E)%R 1%R Ht1). field. lra. }
  assert (D0 : (D <= 0)%R) by lra. intros t e Ht He.
  assert (Q : ((P t e - / INR E) * (P t e - / INR E) <= 0)%R).
  { eapply Rle_trans; [|exact D0]. unfold D, plan_distance2.
    eapply Rle_trans; [|apply (term_le T (fun t => sumf E (fun e => (P t e - / INR E) * (P t e - / INR E)))%R t); [intros; apply sumf_nonneg; intros; apply Rle_0_sqr|exact Ht]].
    apply (term_le E (fun e => (P t e - / INR E) * (P t e - / INR E))%R e); [intros; apply Rle_0_sqr|exact He]. }
  assert (P t e - / INR E = 0)%R; [|lra]. apply Rsqr_0_uniq. pose proof (Rle_0_sqr (P t e - / INR E)). unfold Rsqr in *. lra.
Qed.
End Router.

(** ** Projections *)
Lemma simplex_sparse n p : simplex n p <-> sparse_simplex n n p.
Proof.
  split; [|intros [A [B _]]; split; auto]. intros [A B]. split; [exact A|]. split; [exact B|]. unfold nonzeros.
  assert (F : forall (f : nat -> bool) l, length (filter f l) <= length l) by (intros f l; induction l as [|y l IH]; cbn; [lia|destruct (f y); cbn; lia]).
  eapply Nat.le_trans; [apply F|]. rewrite seq_length. apply Nat.le_refl.
Qed.
Lemma simplex_projection_exists : simplex_projection (fun n => sparse_projection n n).
Proof.
  intros n x Hn. destruct (projection_exists n n x Hn (Nat.le_refl n)) as [A B]. split; [apply simplex_sparse; exact A|].
  intros q Hq. apply B, simplex_sparse, Hq.
Qed.
Lemma nearest_unique project n x q : simplex_projection project -> 1 <= n -> simplex n q ->
  (forall r, simplex n r -> (0 <= sumf n (fun i => (q i - x i) * (r i - q i)))%R) -> forall i, i < n -> project n x i = q i.
Proof.
  intros proj Hn Sq V i Hi. destruct (proj n x Hn) as [Sp _]. pose proof (variational project proj n x q Hn Sq) as V1. pose proof (V _ Sp) as V2.
  set (p := project n x) in *. clearbody p.
  assert (X : (sumf n (fun i => (p i - x i) * (q i - p i)) + sumf n (fun i => (q i - x i) * (p i - q i)))%R = (-1 * sumf n (fun i => (p i - q i) * (p i - q i)))%R).
  { rewrite <- sumf_plus, <- sumf_scale. apply sumf_ext. intros. ring. }
  assert (Q := term_le n (fun i => (p i - q i) * (p i - q i))%R i ltac:(intros; apply Rle_0_sqr) Hi). cbv beta in Q.
  assert (p i - q i = 0)%R; [|lra]. apply Rsqr_0_uniq. pose proof (Rle_0_sqr (p i - q i)). unfold Rsqr in *. lra.
Qed.
Lemma two project (x : nat -> R) q0 q1 : simplex_projection project -> (0 <= q0)%R -> (0 <= q1)%R -> (q0 + q1 = 1)%R ->
  (q0 = 1 /\ x 0%nat - 1 >= x 1%nat \/ q1 = 1 /\ x 1%nat - 1 >= x 0%nat \/ x 0%nat - q0 = x 1%nat - q1)%R -> project 2 x 0 = q0 /\ project 2 x 1 = q1.
Proof.
  intros proj H0 H1 Hs Hc. set (q := fun i => match i with O => q0 | _ => q1 end).
  assert (A : forall i, i < 2 -> project 2 x i = q i).
  { apply nearest_unique; [exact proj|lia| |].
    - split; [intros [|i] _; cbn; assumption|cbn; lra].
    - intros r [R0 R1]. pose proof (R0 0 ltac:(lia)). pose proof (R0 1 ltac:(lia)). cbn [sumf q] in *. 
      assert (Er : r 1%nat = (1 - r 0%nat)%R) by lra. rewrite Er in *. assert (Eq : q1 = (1 - q0)%R) by lra. subst q1.
      replace (0 + (q0 - x 0%nat) * (r 0%nat - q0) + (1 - q0 - x 1%nat) * (1 - r 0%nat - (1 - q0)))%R with ((r 0%nat - q0) * (q0 - x 0%nat - (1 - q0 - x 1%nat)))%R by ring.
      destruct Hc as [[C1 C2]|[[C1 C2]|C]].
      + rewrite C1. replace ((r 0%nat - 1) * (1 - x 0%nat - (1 - 1 - x 1%nat)))%R with ((1 - r 0%nat) * (x 0%nat - 1 - x 1%nat))%R by ring. apply Rmult_le_pos; lra.
      + replace q0 with 0%R by lra. apply Rmult_le_pos; lra.
      + replace (q0 - x 0%nat - (1 - q0 - x 1%nat))%R with 0%R by lra. lra. }
  split; [apply (A 0)|apply (A 1)]; lia.
Qed.
(** Two tokens, four experts; the first token only wants the first expert. *)
Definition sim4 (t e : nat) : R := match t with O => match e with O => 1%R | _ => 0%R end | _ => (/ 4)%R end.
Lemma rows_wrong project : simplex_projection project ->
  (forall t, simplex 4 (sim4 t)) /\ sumf 4 (squared_l2_plan project (fun _ _ => 0%R) 2 4 sim4 0) = (7 / 8)%R /\ sumf 4 (squared_l2_plan project (fun _ _ => 0%R) 2 4 sim4 1) = (9 / 8)%R.
Proof.
  intros proj. split.
  { intros t. split; [intros e _; destruct t as [|t]; [destruct e|]; cbn; lra|destruct t; cbn; lra]. }
  assert (I4 : INR 4 = 4%R) by (cbn; ring). assert (I2 : INR 2 = 2%R) by (cbn; ring).
  assert (V : forall t e, squared_l2_plan project (fun _ _ => 0%R) 2 4 sim4 t e = (project 2%nat (fun i => (0 - - sim4 i e) / (1 * (2 / 4))) t * (2 / 4))%R).
  { intros t e. unfold squared_l2_plan, projection_transport, transport_plan_l2, max_l2_grad. rewrite I2, I4. reflexivity. }
  destruct (two project (fun i => (0 - - sim4 i 0) / (1 * (2 / 4)))%R 1 0 proj) as [A0 A1]; [lra|lra|lra|left; cbn [sim4]; split; lra|].
  assert (B : forall e, project 2 (fun i => (0 - - sim4 i (S e)) / (1 * (2 / 4)))%R 0 = (/ 4)%R /\ project 2 (fun i => (0 - - sim4 i (S e)) / (1 * (2 / 4)))%R 1 = (3 / 4)%R).
  { intros e. apply two; [exact proj|lra|lra|lra|right; right; cbn [sim4]; lra]. }
  cbn [sumf]. rewrite !V, A0, A1. destruct (B 0) as [B0 B1]. destruct (B 1) as [B2 B3]. destruct (B 2) as [B4 B5]. rewrite B0, B1, B2, B3, B4, B5. split; field.
Qed.
(** Two tokens and two experts, balanced at once *)
Definition sim5 (t e : nat) : R := if t =? e then (3 / 4)%R else (1 / 4)%R.
Lemma rows_right project : simplex_projection project -> squared_l2_plan project (fun _ _ => 0%R) 2 2 sim5 0 0 = (3 / 4)%R /\ row_sums 2 2 (fun _ => 1%R) (squared_l2_plan project (fun _ _ => 0%R) 2 2 sim5).
Proof.
  intros proj. assert (I2 : INR 2 = 2%R) by (cbn; ring).
  assert (V : forall t e, squared_l2_plan project (fun _ _ => 0%R) 2 2 sim5 t e = (project 2%nat (fun i => (0 - - sim5 i e) / (1 * (2 / 2))) t * (2 / 2))%R).
  { intros t e. unfold squared_l2_plan, projection_transport, transport_plan_l2, max_l2_grad. rewrite I2. reflexivity. }
  destruct (two project (fun i => (0 - - sim5 i 0) / (1 * (2 / 2)))%R (3 / 4) (1 / 4) proj) as [A0 A1]; [lra|lra|lra|right; right; cbn [sim5 Nat.eqb]; lra|].
  destruct (two project (fun i => (0 - - sim5 i 1) / (1 * (2 / 2)))%R (1 / 4) (3 / 4) proj) as [B0 B1]; [lra|lra|lra|right; right; cbn [sim5 Nat.eqb]; lra|].
  split; [rewrite V, A0; field|]. intros t Ht. cbn [sumf]. rewrite !V. destruct t as [|[|t]]; [rewrite A0, B0; field|rewrite A1, B1; field|lia].
Qed.
Lemma sql_gates project : simplex_projection project -> forall solver S E logits, 1 <= S -> 1 <= E -> exists ot soft, sparse_projection_gates project solver S E logits = (ot, soft) /\
  (forall g, columns S E (fun _ => INR S / INR E)%R (ot g)) /\ (forall g s e, soft g s e = (exp (logits g s e) / sumf E (fun i => exp (logits g s i)))%R) /\
  (forall g, ot g = squared_l2_plan project solver S E (soft g)).
Proof.
  intros proj solver S E logits HS HE. do 2 eexists. split; [reflexivity|]. split; [|split]; [|reflexivity|reflexivity].
  intros g. apply sql_columns; assumption.
Qed.
Lemma uniform project n k : simplex_projection project -> 1 <= n -> forall i, i < n -> project n (fun _ => k) i = (/ INR n)%R.
Proof.
  intros proj Hn. pose proof (lt_0_INR n ltac:(lia)) as N0. apply (nearest_unique project n (fun _ => k) (fun _ => / INR n)%R proj Hn).
  - split; [intros; apply Rlt_le, Rinv_0_lt_compat, N0|rewrite sumf_const; field; lra].
  - intros r [R0 R1]. rewrite (sumf_scale n (/ INR n - k)%R (fun i => r i - / INR n)%R), sumf_minus, sumf_const, R1. right. field. lra.
Qed.
Lemma sql_dense_case project : simplex_projection project -> forall T E c, 1 <= T -> 1 <= E ->
  let objective := semi_dual_l2 project T E (fun t e => - c)%R (fun _ => 1%R) (fun _ => INR T / INR E)%R 1 in
  almost_minimal objective 0 (fun _ => 0%R) /\ forall t e, t < T -> e < E -> squared_l2_plan project (fun _ _ => 0%R) T E (fun _ _ => c) t e = (/ INR E)%R.
Proof.
  intros proj T E c HT HE objective. pose proof (lt_0_INR T ltac:(lia)) as T0. pose proof (lt_0_INR E ltac:(lia)) as E0.
  assert (V : forall t e, t < T -> e < E -> squared_l2_plan project (fun _ _ => 0%R) T E (fun _ _ => c) t e = (/ INR E)%R).
  { intros t e Ht He. unfold squared_l2_plan, projection_transport, transport_plan_l2, max_l2_grad. rewrite uniform by assumption. field. lra. }
  split; [|exact V]. apply (sql_exact project proj (fun _ _ => 0%R) T E (fun _ _ => c) HT HE). intros t Ht.
  rewrite (sumf_ext E _ (fun _ => / INR E)%R) by (intros e He; apply V; assumption). rewrite sumf_const. field. lra.
Qed.
