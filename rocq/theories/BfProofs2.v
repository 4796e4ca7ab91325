(** Proofs for C83: layers with bfloat16 dispatchers. *)
From Coq Require Import List Arith ZArith Bool Reals Lia Lra FunctionalExtensionality.
From Verif Require Import Prim MoeModel MoeSpec MoeProofs SoftModel SoftSpec SoftProofs CwModel EnsProofs BfModel BfSpec BfProofs.
From Verif Require MoeProps SoftProps.
Import ListNotations.
Local Open Scope nat_scope.

Lemma sum_over_coord n f i : @sum_over Ralg n f i = sum_R n (fun k => f k i).
Proof. unfold sum_over, sum_R. induction (seq 0 n) as [|a l IH]; [reflexivity|]. cbn [fold_right]. rewrite <- IH. reflexivity. Qed.
Lemma sum_list_ext (l : list nat) f g : (forall k, In k l -> f k = g k) -> fold_right (fun i acc => (f i + acc)%R) 0%R l = fold_right (fun i acc => (g i + acc)%R) 0%R l.
Proof. induction l; simpl; intros H; auto. rewrite IHl by (intros; apply H; auto). rewrite H by auto. auto. Qed.
Lemma sum_R_ext n f g : (forall k, k < n -> f k = g k) -> sum_R n f = sum_R n g.
Proof. intros H. apply sum_list_ext. intros k K. apply in_seq in K. apply H. lia. Qed.
Lemma sum_list_diff (l : list nat) f g h : (forall k, In k l -> (Rabs (f k - g k) <= h k)%R) ->
  (Rabs (fold_right (fun i acc => (f i + acc)) 0 l - fold_right (fun i acc => (g i + acc)) 0 l) <= fold_right (fun i acc => (h i + acc)) 0 l)%R.
Proof.
  induction l; simpl; intros H.
  - rewrite Rminus_0_r, Rabs_R0. lra.
  - pose proof (H a (or_introl eq_refl)) as A. specialize (IHl (fun k K => H k (or_intror K))).
    eapply Rle_trans; [|apply Rplus_le_compat; [exact A|exact IHl]]. eapply Rle_trans; [|apply Rabs_triang]. apply Req_le. f_equal. ring.
Qed.
Lemma sum_R_diff n f g h : (forall k, k < n -> (Rabs (f k - g k) <= h k)%R) -> (Rabs (sum_R n f - sum_R n g) <= sum_R n h)%R.
Proof. intros H. apply sum_list_diff. intros k K. apply in_seq in K. apply H. lia. Qed.
Lemma sum_to_R n f : sum_to n f = sum_R n f.
Proof. unfold sum_to, sum_R. induction (seq 0 n); simpl; auto. rewrite IHl. auto. Qed.
Lemma sum_R_scale n f a : sum_R n (fun k => (f k * a)%R) = (sum_R n f * a)%R.
Proof. unfold sum_R. induction (seq 0 n); simpl; [ring|]. rewrite IHl. ring. Qed.
Lemma sum_R_le n f g : (forall k, k < n -> (f k <= g k)%R) -> (sum_R n f <= sum_R n g)%R.
Proof.
  intros H. unfold sum_R. assert (K : forall k, In k (seq 0 n) -> (f k <= g k)%R) by (intros k K; apply in_seq in K; apply H; lia). clear H.
  induction (seq 0 n); simpl; [lra|]. pose proof (K a (or_introl eq_refl)). assert (forall k, In k l -> (f k <= g k)%R) by (intros; apply K; simpl; auto). specialize (IHl H0). lra.
Qed.

(** ** One dispatcher *)
Lemma plain_layer d tin tout F data : match d with DBfloat16 _ => False | _ => True end ->
  moe_layer d tin tout F data = @layer Ralg d F data.
Proof. destruct d; simpl; tauto || reflexivity. Qed.
Lemma wrapped_layer d F data : moe_layer (wrap true d) Floating Floating F data =
  moe_layer d Floating Floating (fun e buf j i => cast (F e buf j i)) (fun g s i => cast (data g s i)).
Proof. reflexivity. Qed.
Lemma exact_layer d F data : (forall g s i, bf16 (data g s i)) -> (forall e buf j i, bf16 (F e buf j i)) ->
  moe_layer (wrap true d) Floating Floating F data = moe_layer d Floating Floating F data.
Proof.
  intros D O. rewrite wrapped_layer. f_equal; repeat (apply functional_extensionality; intros); apply cast_exact; auto.
Qed.
Lemma integer_combine d h g s i : exists z, do_combine (wrap true d) Integer h g s i = IZR z /\ towards_zero (do_combine d Integer h g s i) z.
Proof. apply astype_spec. Qed.
Lemma twice_layer d F data : moe_layer (wrap true (wrap true d)) Floating Floating F data = moe_layer (wrap true d) Floating Floating F data.
Proof.
  rewrite (wrapped_layer (wrap true d)). rewrite !wrapped_layer.
  f_equal; repeat (apply functional_extensionality; intros); apply cast_exact; apply cast_bf16.
Qed.

Section Experts.
Variables (f : nat -> (nat -> R) -> nat -> R).
Let F : nat -> (nat -> nat -> R) -> nat -> nat -> R := fun e buf j => f e (buf j).
Let f' : nat -> (nat -> R) -> nat -> R := fun e v i => cast (f e v i).

Lemma term_error (w : R) E D c B e x i : e < E -> lipschitz E D c f -> (forall j, j < D -> (Rabs (x j) <= B)%R) ->
  (Rabs (w * cast (f e (fun j => cast (x j)) i) - w * f e x i) <= Rabs w * (c * eta B + eta (Rabs (f e (fun j => cast (x j)) i))))%R.
Proof.
  intros He L X. rewrite <- Rmult_minus_distr_l, Rabs_mult. apply Rmult_le_compat_l; [apply Rabs_pos|].
  pose proof (L e (fun j => cast (x j)) x (eta B) i He (fun j J => cast_error_le (x j) B (X j J))) as A.
  pose proof (cast_error (f e (fun j => cast (x j)) i)) as Q.
  eapply Rle_trans; [|apply Rplus_le_compat; [exact A|exact Q]]. eapply Rle_trans; [|apply Rabs_triang]. apply Req_le. f_equal. ring.
Qed.

Lemma top_experts_layers G S E K C gates bp : 1 <= S -> 1 <= K -> K <= E ->
  exists d i, @einsum_dispatcher_of Ralg S E K C gates bp = Some d /\ @indices_dispatcher_of Ralg S E K gates bp = Some i /\
  forall ch, (forall g s, s < S -> @best_choices Ralg E K (gates g s) (ch g s)) ->
  forall dsp data g s c, (dsp = DEinsum G S E C d \/ dsp = DIndices G S K E C i) -> g < G -> s < S ->
  moe_layer (wrap true dsp) Floating Floating F data g s c =
    sum_R K (fun k => (kept_gate bp S E K C (gates g) (ch g) s k * cast (f (ch g s k) (fun j => cast (data g s j)) c))%R) /\
  moe_layer (wrap false dsp) Floating Floating F data g s c =
    sum_R K (fun k => (kept_gate bp S E K C (gates g) (ch g) s k * f (ch g s k) (data g s) c)%R) /\
  (forall D L B, lipschitz E D L f -> (forall j, j < D -> (Rabs (data g s j) <= B)%R) ->
   (Rabs (moe_layer (wrap true dsp) Floating Floating F data g s c - moe_layer (wrap false dsp) Floating Floating F data g s c) <=
    sum_R K (fun k => Rabs (kept_gate bp S E K C (gates g) (ch g) s k) * (L * eta B + eta (Rabs (f (ch g s k) (fun j => cast (data g s j)) c)))))%R).
Proof.
  intros HS HK HE. destruct (MoeProps.C06_layer_semantics Ralg Ralg_laws G S E K C gates bp HS HK HE) as (d & i & Ed & Ei & H).
  exists d, i. split; [exact Ed|]. split; [exact Ei|]. intros ch Hch dsp data g s c Hd Hg Hs.
  assert (A : forall h (x : nat -> nat -> nat -> R), moe_layer dsp Floating Floating (fun e buf j => h e (buf j)) x g s c = sum_R K (fun k => (kept_gate bp S E K C (gates g) (ch g) s k * h (ch g s k) (x g s) c)%R)).
  { intros h x. transitivity (@top_experts_output Ralg bp S E K C (gates g) (ch g) h (x g) s c).
    - destruct (H ch Hch h (fun e buf j => h e (buf j)) (fun _ _ _ => eq_refl) x g s Hg Hs) as [H1 H2].
      destruct Hd as [-> | ->]; [exact (f_equal (fun v => v c) H1)|exact (f_equal (fun v => v c) H2)].
    - unfold top_experts_output. rewrite sum_over_coord. apply sum_R_ext. intros k _. unfold kept_gate. destruct (competitors _ _ _ _ _ _ _ _ <? C); [reflexivity|]. symmetry. apply Rmult_0_l. }
  assert (W1 : moe_layer (wrap true dsp) Floating Floating F data g s c = sum_R K (fun k => (kept_gate bp S E K C (gates g) (ch g) s k * cast (f (ch g s k) (fun j => cast (data g s j)) c))%R)).
  { rewrite wrapped_layer. exact (A f' (fun g s i => cast (data g s i))). }
  assert (W0 : moe_layer (wrap false dsp) Floating Floating F data g s c = sum_R K (fun k => (kept_gate bp S E K C (gates g) (ch g) s k * f (ch g s k) (data g s) c)%R)) by exact (A f data).
  split; [exact W1|]. split; [exact W0|]. intros D L B LL HB. rewrite W1, W0. apply sum_R_diff. intros k Hk. apply term_error with E D; auto.
  exact (proj1 (Hch g s Hs) k Hk).
Qed.

Lemma top_items_layers G S E C gates : 1 <= E -> C <= S ->
  exists d, @top_items_dispatcher_of Ralg S E C gates = Some d /\
  forall ch, (forall g e, e < E -> @best_choices Ralg S C (fun s => gates g s e) (ch g e)) ->
  forall data g s c, g < G -> s < S ->
  moe_layer (wrap true (DEinsum G S E C d)) Floating Floating F data g s c =
    sum_R E (fun e => (item_gate C (gates g) (ch g) s e * cast (f e (fun j => cast (data g s j)) c))%R) /\
  moe_layer (wrap false (DEinsum G S E C d)) Floating Floating F data g s c =
    sum_R E (fun e => (item_gate C (gates g) (ch g) s e * f e (data g s) c)%R) /\
  (forall D L B, lipschitz E D L f -> (forall j, j < D -> (Rabs (data g s j) <= B)%R) ->
   (Rabs (moe_layer (wrap true (DEinsum G S E C d)) Floating Floating F data g s c - moe_layer (wrap false (DEinsum G S E C d)) Floating Floating F data g s c) <=
    sum_R E (fun e => Rabs (item_gate C (gates g) (ch g) s e) * (L * eta B + eta (Rabs (f e (fun j => cast (data g s j)) c)))))%R).
Proof.
  intros HE HC. destruct (proj2 (MoeProps.C07_top_items Ralg Ralg_laws G S E C gates HE) HC) as (_ & d & dw & Ed & _ & H).
  exists d. split; [exact Ed|]. intros ch Hch data g s c Hg Hs. destruct (H ch Hch) as (_ & _ & H').
  assert (A : forall h (x : nat -> nat -> nat -> R), moe_layer (DEinsum G S E C d) Floating Floating (fun e buf j => h e (buf j)) x g s c = sum_R E (fun e => (item_gate C (gates g) (ch g) s e * h e (x g s) c)%R)).
  { intros h x. transitivity (@top_items_output Ralg E C (gates g) (ch g) h (x g) s c).
    - exact (f_equal (fun v => v c) (H' h (fun e buf j => h e (buf j)) (fun _ _ _ => eq_refl) x g s Hg Hs)).
    - unfold top_items_output. rewrite sum_over_coord. apply sum_R_ext. intros k _. unfold item_gate. destruct (existsb _ _); [reflexivity|]. symmetry. apply Rmult_0_l. }
  assert (W1 : moe_layer (wrap true (DEinsum G S E C d)) Floating Floating F data g s c = sum_R E (fun e => (item_gate C (gates g) (ch g) s e * cast (f e (fun j => cast (data g s j)) c))%R)).
  { rewrite wrapped_layer. exact (A f' (fun g s i => cast (data g s i))). }
  assert (W0 : moe_layer (wrap false (DEinsum G S E C d)) Floating Floating F data g s c = sum_R E (fun e => (item_gate C (gates g) (ch g) s e * f e (data g s) c)%R)) by exact (A f data).
  split; [exact W1|]. split; [exact W0|]. intros D L B LL HB. rewrite W1, W0. apply sum_R_diff. intros k Hk. apply term_error with E D; auto.
Qed.

(** ** Soft MoE *)
Lemma convex_close M w x y b : convex M w -> (forall m, m < M -> (Rabs (x m - y m) <= b)%R) ->
  (Rabs (sum_to M (fun m => w m * x m) - sum_to M (fun m => w m * y m)) <= b)%R.
Proof.
  intros [P Q] H. rewrite sum_to_R in Q. rewrite !sum_to_R. replace b with (sum_R M w * b)%R by (rewrite Q; ring). rewrite <- sum_R_scale.
  apply sum_R_diff. intros m Hm. rewrite <- Rmult_minus_distr_l, Rabs_mult, (Rabs_right (w m)) by (apply Rle_ge; left; auto). specialize (P m Hm). apply Rmult_le_compat_l; [lra|auto].
Qed.
Lemma convex2_close N P w x y b : convex2 N P w -> (forall n p, n < N -> p < P -> (Rabs (x n p - y n p) <= b)%R) ->
  (Rabs (sum_to N (fun n => sum_to P (fun p => w n p * x n p)) - sum_to N (fun n => sum_to P (fun p => w n p * y n p))) <= b)%R.
Proof.
  intros [W Q] H. rewrite sum_to_R in Q. rewrite !sum_to_R.
  replace b with (sum_R N (fun n => sum_R P (w n)) * b)%R.
  2:{ replace (sum_R N (fun n => sum_R P (w n))) with 1%R; [ring|]. rewrite <- Q. apply sum_R_ext. intros. first [apply sum_to_R | symmetry; apply sum_to_R]. }
  rewrite <- sum_R_scale. apply sum_R_diff. intros n Hn. rewrite <- sum_R_scale. rewrite !sum_to_R. apply sum_R_diff. intros p Hp.
  rewrite <- Rmult_minus_distr_l, Rabs_mult, (Rabs_right (w n p)) by (apply Rle_ge; left; auto). specialize (W n p Hn Hp). apply Rmult_le_compat_l; [lra|auto].
Qed.

Lemma soft_layers G M D N num_slots capacity_factor deterministic noise_std normal mu scale inputs P d :
  1 <= M -> 1 <= N ->
  soft_router G M D N num_slots capacity_factor deterministic noise_std normal mu scale inputs = Ok (P, d) ->
  (forall k, num_slots = Some k -> (1 <= k)%Z) ->
  exists dw cw,
    (forall g n p, convex M (fun m => dw g m n p)) /\ (forall g m, convex2 N P (fun n p => cw g m n p)) /\
    forall data g m i, g < G ->
    moe_layer (wrap true (DEinsum G M N P d)) Floating Floating F data g m i =
      sum_to N (fun n => sum_to P (fun p => (cw g m n p * cast (f n (fun j => sum_to M (fun m' => (dw g m' n p * cast (data g m' j))%R)) i))%R)) /\
    moe_layer (wrap false (DEinsum G M N P d)) Floating Floating F data g m i =
      sum_to N (fun n => sum_to P (fun p => (cw g m n p * f n (fun j => sum_to M (fun m' => (dw g m' n p * data g m' j)%R)) i)%R)) /\
    (forall L B H, lipschitz N D L f -> (forall m j, m < M -> j < D -> (Rabs (data g m j) <= B)%R) ->
     (forall n v, n < N -> (forall j, j < D -> (Rabs (v j) <= B + eta B)%R) -> (Rabs (f n v i) <= H)%R) ->
     (Rabs (moe_layer (wrap true (DEinsum G M N P d)) Floating Floating F data g m i - moe_layer (wrap false (DEinsum G M N P d)) Floating Floating F data g m i)
      <= L * eta B + eta H)%R).
Proof.
  intros HM HN HR HK. destruct (SoftProps.C43_mixing _ _ _ _ _ _ _ _ _ _ _ _ _ _ HM HN HR HK) as (dw & cw & DW & CW & _ & H).
  exists dw, cw. split; [exact DW|]. split; [exact CW|]. intros data g m i Hg.
  assert (A : forall h (x : nat -> nat -> nat -> R), moe_layer (DEinsum G M N P d) Floating Floating (fun e buf j => h e (buf j)) x g m i =
    sum_to N (fun n => sum_to P (fun p => (cw g m n p * h n (fun j => sum_to M (fun m' => (dw g m' n p * x g m' j)%R)) i)%R))).
  { intros h x. apply H; auto. intros e u v UV j. replace v with u; auto. apply functional_extensionality. auto. }
  assert (W1 := A f' (fun g s i => cast (data g s i))). assert (W0 := A f data).
  split; [exact W1|]. split; [exact W0|]. intros L B HH LL HB FB.
  change (moe_layer (wrap true (DEinsum G M N P d)) Floating Floating F data g m i) with (moe_layer (DEinsum G M N P d) Floating Floating (fun e buf j => f' e (buf j)) (fun g s i => cast (data g s i)) g m i).
  change (moe_layer (wrap false (DEinsum G M N P d)) Floating Floating F data g m i) with (moe_layer (DEinsum G M N P d) Floating Floating (fun e buf j => f e (buf j)) data g m i).
  rewrite W1, W0. apply (convex2_close N P (cw g m)); [apply CW|]. intros n p Hn Hp.
  set (u := fun j => sum_to M (fun m' => (dw g m' n p * cast (data g m' j))%R)). set (v := fun j => sum_to M (fun m' => (dw g m' n p * data g m' j)%R)).
  assert (UV : forall j, j < D -> (Rabs (u j - v j) <= eta B)%R).
  { intros j Hj. apply (convex_close M (fun m => dw g m n p)); [apply DW|]. intros m' Hm. apply cast_error_le. auto. }
  assert (VB : forall j, j < D -> (Rabs (v j) <= B)%R).
  { intros j Hj. replace (v j) with (v j - sum_to M (fun m' => dw g m' n p * 0))%R.
    - apply (convex_close M (fun m => dw g m n p)); [apply DW|]. intros m' Hm. rewrite Rminus_0_r. auto.
    - replace (sum_to M (fun m' => (dw g m' n p * 0)%R)) with 0%R; [ring|]. rewrite sum_to_R, sum_R_scale. ring. }
  pose proof (LL n u v (eta B) i Hn UV) as A1. pose proof (cast_error_le (f n u i) HH) as A2.
  assert (UB : (Rabs (f n u i) <= HH)%R).
  { apply FB; auto. intros j Hj. specialize (UV j Hj). specialize (VB j Hj). revert UV VB. unfold Rabs. repeat destruct (Rcase_abs _); lra. }
  specialize (A2 UB). unfold f'. eapply Rle_trans; [|apply Rplus_le_compat; [exact A1|exact A2]]. eapply Rle_trans; [|apply Rabs_triang]. apply Req_le. f_equal. fold u. ring.
Qed.
End Experts.
