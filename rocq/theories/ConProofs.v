(** Proofs for C71, C72 and C73. *)
From Coq Require Import String List Arith ZArith Bool Reals Lia Lra Permutation FunctionalExtensionality.
From Verif Require SumProofs.
From Verif Require Import Prim PrimLemmas MoeModel MoeSpec SoftModel SoftSpec SoftProofs TreeModel TreeProofs EvalModel EvalSpec AuxModel AuxSpec AuxProofs.
From Verif Require Import StepModel StepSpec StepProofs VitModel VitSpec VitProofs ConModel ConSpec.
From Verif Require Import Py PyLemmas.
Import ListNotations.
Local Open Scope list_scope.
Local Open Scope nat_scope.

(** ** Sums *)
Lemma sum_to_list n f : sum_to n f = StepSpec.sum (map f (seq 0 n)).
Proof. reflexivity. Qed.
Lemma sum_map_ext {A} (f g : A -> R) l : (forall x, In x l -> f x = g x) -> StepSpec.sum (map f l) = StepSpec.sum (map g l).
Proof. intros H. f_equal. apply map_ext_in. auto. Qed.
Lemma sum_to_ext' n f g : (forall i, i < n -> f i = g i) -> sum_to n f = sum_to n g.
Proof. intros H. apply sum_map_ext. intros i Hi. apply in_seq in Hi. apply H. lia. Qed.
Lemma sum_zero {A} (f : A -> R) l : (forall x, In x l -> f x = 0%R) -> StepSpec.sum (map f l) = 0%R.
Proof. induction l as [|a l IH]; intros H; simpl; auto. rewrite H by (simpl; auto). rewrite IH; [lra|]. intros; apply H; simpl; auto. Qed.
Lemma sum_single (f : nat -> R) l i : NoDup l -> In i l -> (forall j, In j l -> j <> i -> f j = 0%R) -> StepSpec.sum (map f l) = f i.
Proof.
  induction l as [|a l IH]; intros N I H; [destruct I|]. inversion N as [|? ? Na Nl]; subst. simpl. destruct I as [->|I].
  - rewrite sum_zero; [lra|]. intros j Hj. apply H; [simpl; auto|]. intros ->. auto.
  - rewrite IH; auto; [|intros; apply H; simpl; auto]. rewrite (H a); [lra|simpl; auto|]. intros ->. auto.
Qed.
Lemma sum_to_grid m k f : sum_to (k * m) f = sum_to m (fun i => sum_to k (fun a => f (a * m + i))).
Proof.
  rewrite sum_to_list. rewrite <- (sum_perm _ _ (Permutation_map f (seq_grid m k))).
  rewrite flat_map_concat_map, concat_map, map_map, <- flat_map_concat_map. rewrite sum_flat_map. apply sum_map_ext. intros i _. rewrite map_map. auto.
Qed.
Lemma mod_grid m a i : i < m -> (a * m + i) mod m = i.
Proof. intros H. rewrite Nat.add_comm, Nat.mod_add by lia. apply Nat.mod_small. auto. Qed.

(** The loss of the pairs within microbatches is the mean of the losses of the microbatches. *)
Lemma loss_grid m k l : 0 < m -> 0 < k ->
  loss_over (k * m) (same_microbatch m) l =
  (sum_to m (fun i => loss_over k all_pairs (fun a c => l (a * m + i)%nat (c * m + i)%nat)) / INR m)%R.
Proof.
  intros Hm Hk. unfold loss_over. rewrite sum_to_grid.
  assert (Nk : INR k <> 0%R) by (apply not_0_INR; lia). assert (Nm : INR m <> 0%R) by (apply not_0_INR; lia).
  assert (E : sum_to m (fun i => (sum_to k (fun a => sum_to k (fun c => if all_pairs a c then logistic (a =? c)%nat (l (a * m + i)%nat (c * m + i)%nat) else 0)) / INR k)%R) =
              (sum_to m (fun i => sum_to k (fun a => sum_to k (fun c => logistic (a =? c)%nat (l (a * m + i)%nat (c * m + i)%nat)))) / INR k)%R).
  { rewrite !sum_to_list. rewrite <- (sum_div (map _ (seq 0 m))). rewrite map_map. apply sum_map_ext. auto. }
  rewrite E, mult_INR. replace (sum_to m (fun i => sum_to k (fun a => sum_to (k * m) (fun j => if same_microbatch m (a * m + i)%nat j then logistic (a * m + i =? j)%nat (l (a * m + i)%nat j) else 0%R))))
    with (sum_to m (fun i => sum_to k (fun a => sum_to k (fun c => logistic (a =? c)%nat (l (a * m + i)%nat (c * m + i)%nat))))); [field; auto|].
  apply sum_to_ext'. intros i Hi. apply sum_to_ext'. intros a Ha. rewrite sum_to_grid. rewrite (sum_to_list m). rewrite (sum_single _ _ i).
  - apply sum_to_ext'. intros c Hc. unfold same_microbatch. rewrite !mod_grid by auto. rewrite Nat.eqb_refl. f_equal.
    destruct (Nat.eqb_spec a c), (Nat.eqb_spec (a * m + i) (c * m + i)); subst; auto; nia.
  - apply seq_NoDup.
  - apply in_seq. lia.
  - intros j Hj Ne. apply in_seq in Hj. apply sum_zero. intros c _. unfold same_microbatch. rewrite !mod_grid by lia. destruct (Nat.eqb_spec i j); congruence.
Qed.

(** ** Microsteps *)
Section Micro.
Variable X Y params_t rngs_t : Type.
Variable fn : fn_t X Y params_t rngs_t.
Variable prm : params_t.
Lemma accumulate_batches dc z xs ys r out : (0 < z)%Z -> length xs = length ys ->
  accumulate_gradients_and_metrics X Y params_t rngs_t dc fn (Some z) prm xs ys r = Ok out ->
  let m := Z.to_nat z in
  length xs mod m = 0 /\
  exists gs ms, calls X Y params_t rngs_t fn prm r (map (fun i => (take m xs i, take m ys i)) (seq 0 m)) gs ms (fst (snd out)) /\
    average gs (fst out) /\ average ms (snd (snd out)).
Proof.
  intros Hz E H m. unfold accumulate_gradients_and_metrics in H. destruct (Z.leb_spec z 0); [lia|].
  fold m in H. assert (Hm : 0 < m) by (unfold m; lia). clearbody m. cbv zeta in H.
  destruct (negb _) eqn:Q0; [discriminate|]. clear Q0.
  destruct (negb (length xs mod m =? 0)) eqn:Q1; [discriminate|]. apply negb_false_iff, Nat.eqb_eq in Q1.
  destruct (negb (length ys mod m =? 0)) eqn:Q2; [discriminate|]. clear Q2. split; auto.
  apply bind_ok in H. destruct H as ([g0 [r0 m0]] & F & H). apply bind_ok in H. destruct H as ([g [r1 mm]] & L & H). simpl in H. apply Ok_inj in H. subst out. simpl.
  destruct (loop_calls _ _ _ _ _ _ _ _ _ _ _ _ _ _ _ _ L) as (gs & ms & C & F1 & F2 & L1 & L2 & S1 & S2).
  assert (SQ : seq 0 m = 0 :: seq 1 (m - 1)) by (destruct m; [lia|simpl; rewrite Nat.sub_0_r; auto]).
  exists (g0 :: gs), (m0 :: ms).
  assert (CL := calls_lengths _ _ _ _ _ _ _ _ _ _ _ C). rewrite map_length, seq_length in CL. destruct CL as [CL1 CL2].
  split; [|split].
  - rewrite SQ. simpl. econstructor; eauto.
  - split.
    + rewrite map_length, L1. constructor; auto.
    + intros j _. rewrite nth_div, S1. simpl map. simpl StepSpec.sum. f_equal. f_equal. simpl length. rewrite CL1. lia.
  - split.
    + rewrite map_length, L2. constructor; auto.
    + intros j _. rewrite nth_div, S2. simpl map. simpl StepSpec.sum. f_equal. f_equal. simpl length. rewrite CL2. lia.
Qed.
(** The results of calls of a function that does not fail and whose results do not depend on the generators *)
Lemma calls_results G M r bs gs ms r' : (forall b, In b bs -> forall r, exists r', fn prm (fst b) (snd b) r = Ok (G b, (r', M b))) ->
  calls X Y params_t rngs_t fn prm r bs gs ms r' -> gs = map G bs /\ ms = map M bs.
Proof.
  intros H C. induction C as [|r xs ys g r' m bs gs ms r'' F C IH]; auto. destruct (H (xs, ys) (or_introl eq_refl) r) as (r1 & E). cbn [fst snd] in E. rewrite E in F. injection F as <- <- <-.
  destruct IH as [-> ->]; [intros; apply H; simpl; auto|]. auto.
Qed.
End Micro.

(** ** C72 *)
Lemma tiny_eps : tiny = eps8.
Proof. unfold tiny, eps8. lra. Qed.
Lemma sum_to_mult_r n f (c : R) : sum_to n (fun i => f i * c)%R = (sum_to n f * c)%R.
Proof. unfold sum_to. induction (seq 0 n) as [|a l IH]; simpl; [ring|]. rewrite IH. ring. Qed.
Lemma logits_logit D s b zi zt m n : logits_of D s b (unit_rows D zi) (unit_rows D zt) m n = logit D s b (zi m) (zt n).
Proof.
  unfold logits_of, logit, length_of. rewrite tiny_eps, sumf_to.
  assert (E : sum_to D (fun d => (unit_rows D zi m d * unit_rows D zt n d)%R) = (dot D (zi m) (zt n) / ((sqrt (dot D (zi m) (zi m)) + eps8) * (sqrt (dot D (zt n) (zt n)) + eps8)))%R).
  { unfold dot at 1. unfold Rdiv at 1. rewrite <- sum_to_mult_r. apply sum_to_ext'. intros d _. unfold unit_rows, dot. rewrite !sumf_to. unfold Rdiv. rewrite Rinv_mult. ring. }
  rewrite E. unfold bias. destruct b; ring.
Qed.

Section Step.
Variables X Y rngs_t : Type.
Variables (dx : X) (dy : Y).
Variable D P : nat.
Variable img : params -> X -> V.
Variable txt : params -> Y -> V.
Variable s : params -> R.
Variable b : params -> option R.
Variable grad : list X -> list Y -> params -> list R.
Variable split : rngs_t -> rngs_t.
Notation batch_logits := (batch_logits X Y dx dy D img txt s b).
Notation fn := (compute_grads_and_metrics X Y params rngs_t D img txt s b grad split).

Lemma step_fn_ok p xs ys r : length xs = length ys -> xs <> [] ->
  fn p xs ys r = Ok (grad xs ys p, (split r, [loss_over (length xs) all_pairs (batch_logits xs ys p); loss_over (length xs) all_pairs (batch_logits xs ys p)])).
Proof.
  intros E N. unfold compute_grads_and_metrics. rewrite <- E.
  destruct (contrastive_ok (tower (fun xs => Ok (map (img p) xs))) (tower (fun ys => Ok (map (txt p) ys))) D (length xs) (s p) (b p) xs ys
    (rows_of (map (img p) xs)) [] (rows_of (map (txt p) ys)) []) as (m & -> & M1 & M2 & _); auto.
  { destruct xs; [congruence|simpl; lia]. }
  cbn [bind snd]. unfold scalar_metric. rewrite M1, M2. cbn [bind].
  set (L := mean _). assert (EL : L = loss_over (length xs) all_pairs (batch_logits xs ys p)); [|rewrite EL; auto].
  unfold L, loss_over, mean. rewrite map_length, seq_length. f_equal. apply sum_to_ext'. intros i Hi. apply sum_to_ext'. intros j Hj.
  unfold all_pairs, pair_loss, logistic. rewrite logits_logit. unfold ConSpec.batch_logits, rows_of.
  rewrite (nth_indep _ (vzero Ralg) (img p dx)) by (rewrite map_length; auto). rewrite (nth_indep (map (txt p) ys) (vzero Ralg) (txt p dy)) by (rewrite map_length; lia). rewrite !map_nth. auto.
Qed.

Lemma gradient_sum f p G l : (forall i, In i l -> is_gradient P (f i) p (G i)) -> forall k, k < P ->
  derivable_pt_lim (fun t => StepSpec.sum (map (fun i : nat => f i (shift p k t)) l)) 0 (StepSpec.sum (map (fun i => nth k (G i) 0%R) l)).
Proof.
  induction l as [|i l IH]; intros H k Hk; simpl.
  - apply derivable_pt_lim_const.
  - apply (derivable_pt_lim_plus (fun t => f i (shift p k t)) (fun t => StepSpec.sum (map (fun i => f i (shift p k t)) l))).
    + apply H; simpl; auto.
    + apply IH; auto. intros; apply H; simpl; auto.
Qed.

Lemma micro_objective dc z p images texts r out :
  (0 < z)%Z -> length images = length texts -> images <> [] ->
  (forall xs ys, length xs = length ys -> xs <> [] -> is_gradient P (fun q => loss_over (length xs) all_pairs (batch_logits xs ys q)) p (grad xs ys p)) ->
  contrastive_step X Y params rngs_t D img txt s b grad split dc (Some z) p images texts r = Ok out ->
  let loss q := loss_over (length images) (same_microbatch (Z.to_nat z)) (batch_logits images texts q) in
  snd (snd out) = [loss p; loss p] /\ is_gradient P loss p (fst out).
Proof.
  intros Hz E N HG H loss. destruct (accumulate_batches _ _ _ _ _ _ _ _ _ _ _ _ Hz E H) as (Q & gs & ms & C & A1 & A2). set (m := Z.to_nat z) in *.
  assert (Hm : 0 < m) by (unfold m; lia). set (n := length images) in *. set (k := n / m).
  assert (En : n = k * m) by (unfold k; assert (DM := Nat.div_mod n m ltac:(lia)); lia).
  assert (Hn : 0 < n) by (unfold n; destruct images; [congruence|simpl; lia]). assert (Hk : 0 < k) by (destruct k; lia).
  assert (TL : forall i, i < m -> length (take m images i) = k /\ length (take m texts i) = k).
  { intros i Hi. rewrite !take_length by (auto; rewrite <- E; auto). rewrite <- E. auto. }
  assert (TN : forall i, i < m -> length (take m images i) = length (take m texts i) /\ take m images i <> []).
  { intros i Hi. destruct (TL i Hi) as [L1 L2]. split; [congruence|]. intros Z0. rewrite Z0 in L1. simpl in L1. lia. }
  set (Li := fun i q => loss_over k all_pairs (batch_logits (take m images i) (take m texts i) q)).
  assert (EL : forall q, loss q = (sum_to m (fun i => Li i q) / INR m)%R).
  { intros q. unfold loss. rewrite En at 1. rewrite loss_grid by auto. f_equal. apply sum_to_ext'. intros i Hi. unfold Li, loss_over. f_equal. apply sum_to_ext'. intros a Ha. apply sum_to_ext'. intros c Hc.
    unfold all_pairs. f_equal. unfold ConSpec.batch_logits.
    rewrite (take_map m images i dx), (take_map m texts i dy) by (auto; rewrite <- E; auto). rewrite <- E. fold n k.
    rewrite (nth_indep (map _ (seq 0 k)) dx (nth (0 * m + i) images dx)) by (rewrite map_length, seq_length; auto).
    rewrite (nth_indep (map (fun j => nth (j * m + i) texts dy) (seq 0 k)) dy (nth (0 * m + i) texts dy)) by (rewrite map_length, seq_length; auto).
    rewrite (map_nth (fun j => nth (j * m + i) images dx) (seq 0 k) 0 a), (map_nth (fun j => nth (j * m + i) texts dy) (seq 0 k) 0 c). rewrite !seq_nth by auto. auto. }
  destruct (fun HH => calls_results X Y params rngs_t fn p (fun b => grad (fst b) (snd b) p) (fun b => [loss_over (length (fst b)) all_pairs (batch_logits (fst b) (snd b) p); loss_over (length (fst b)) all_pairs (batch_logits (fst b) (snd b) p)]) _ _ _ _ _ HH C) as [EG EM].
  { intros bt Hb r1. apply in_map_iff in Hb. destruct Hb as (i & <- & Hi). apply in_seq in Hi. cbn [fst snd]. destruct (TN i ltac:(lia)). exists (split r1). apply step_fn_ok; auto. }
  rewrite map_map in EG, EM. cbn [fst snd] in EG, EM.
  assert (EM' : ms = map (fun i => [Li i p; Li i p]) (seq 0 m)).
  { rewrite EM. apply map_ext_in. intros i Hi. apply in_seq in Hi. unfold Li. destruct (TL i ltac:(lia)) as [-> _]. auto. }
  destruct A1 as [F1 A1]. destruct A2 as [F2 A2].
  split.
  - assert (L2 : length (snd (snd out)) = 2).
    { rewrite EM' in F2. destruct m; [lia|]. simpl in F2. inversion F2; subst. auto. }
    rewrite L2 in A2. assert (V : forall j, j < 2 -> nth j (snd (snd out)) 0%R = loss p).
    { intros j Hj. rewrite A2 by auto. rewrite EM', map_length, seq_length, map_map, EL. f_equal. apply sum_map_ext. intros i _. destruct j as [|[|]]; auto. lia. }
    destruct (snd (snd out)) as [|x [|y [|]]]; try discriminate. assert (V0 := V 0 ltac:(lia)). assert (V1 := V 1 ltac:(lia)). simpl in V0, V1. congruence.
  - assert (GI : forall i, In i (seq 0 m) -> is_gradient P (Li i) p (grad (take m images i) (take m texts i) p)).
    { intros i Hi. apply in_seq in Hi. destruct (TN i ltac:(lia)) as [T1 T2]. assert (G := HG _ _ T1 T2). destruct (TL i ltac:(lia)) as [L1 _]. rewrite L1 in G. exact G. }
    assert (LG : length (fst out) = P).
    { rewrite EG in F1. destruct m as [|m']; [lia|]. simpl in F1. inversion F1 as [|? ? G1 _]; subst. rewrite <- G1. apply (GI 0). simpl. auto. }
    split; auto. intros j Hj. rewrite A1 by (rewrite LG; auto). rewrite EG, map_length, seq_length, map_map.
    apply (derivable_pt_lim_ext (fun t => (StepSpec.sum (map (fun i => Li i (shift p j t)) (seq 0 m)) * / INR m)%R)); [intros t; rewrite EL; auto|].
    replace (StepSpec.sum (map (fun x => nth j (grad (take m images x) (take m texts x) p) 0%R) (seq 0 m)) / INR m)%R
      with (StepSpec.sum (map (fun x => nth j (grad (take m images x) (take m texts x) p) 0%R) (seq 0 m)) * / INR m + StepSpec.sum (map (fun i => Li i (shift p j 0)) (seq 0 m)) * 0)%R by (unfold Rdiv; ring).
    apply (derivable_pt_lim_mult (fun t => StepSpec.sum (map (fun i => Li i (shift p j t)) (seq 0 m))) (fun _ => / INR m)%R); [|apply derivable_pt_lim_const].
    apply gradient_sum; auto.
Qed.
End Step.

Lemma full_objective X Y rngs_t dx dy D img txt s b grad split dc z p (images : list X) (texts : list Y) (r : rngs_t) :
  z = None \/ (exists n, z = Some n /\ (n <= 0)%Z) -> length images = length texts -> images <> [] ->
  let loss q := loss_over (length images) all_pairs (batch_logits X Y dx dy D img txt s b images texts q) in
  contrastive_step X Y params rngs_t D img txt s b grad split dc z p images texts r = Ok (grad images texts p, (split r, [loss p; loss p])).
Proof.
  intros Hz E N loss. unfold contrastive_step, accumulate_gradients_and_metrics.
  assert (G := step_fn_ok X Y rngs_t dx dy D img txt s b grad split p images texts r E N).
  destruct Hz as [->|(n & -> & Hn)]; [exact G|]. destruct (Z.leb_spec n 0); [exact G|lia].
Qed.

Lemma logistic_pos c l : (0 < logistic c l)%R.
Proof. unfold logistic. rewrite <- ln_1. apply ln_increasing; [lra|]. assert (H := exp_pos (if c then - l else l)%R). lra. Qed.
Lemma sum_le {A} (f g : A -> R) l : (forall x, In x l -> (f x <= g x)%R) -> (StepSpec.sum (map f l) <= StepSpec.sum (map g l))%R.
Proof. induction l as [|a l IH]; intros H; simpl; [lra|]. assert (H1 := H a (or_introl eq_refl)). assert (H2 : forall x, In x l -> (f x <= g x)%R) by (intros; apply H; simpl; auto). specialize (IH H2). lra. Qed.
Lemma sum_lt {A} (f g : A -> R) l a : In a l -> (forall x, In x l -> (f x <= g x)%R) -> (f a < g a)%R -> (StepSpec.sum (map f l) < StepSpec.sum (map g l))%R.
Proof.
  induction l as [|c l IH]; intros I H L; [destruct I|]. assert (H1 := H c (or_introl eq_refl)). assert (H2 : forall x, In x l -> (f x <= g x)%R) by (intros; apply H; simpl; auto). simpl. destruct I as [->|I].
  - assert (G := sum_le f g l H2). lra.
  - specialize (IH I H2 L). lra.
Qed.
Lemma micro_less m n l : 2 <= m -> 2 <= n -> (loss_over n (same_microbatch m) l < loss_over n all_pairs l)%R.
Proof.
  intros Hm Hn. unfold loss_over. apply Rmult_lt_compat_r. { apply Rinv_0_lt_compat. apply lt_0_INR. lia. }
  assert (LE : forall i j, ((if same_microbatch m i j then logistic (i =? j) (l i j) else 0) <= (if all_pairs i j then logistic (i =? j) (l i j) else 0))%R).
  { intros i j. unfold all_pairs. assert (G := logistic_pos (i =? j) (l i j)). destruct (same_microbatch m i j); lra. }
  apply (sum_lt _ _ _ 0); [apply in_seq; lia| |].
  - intros i _. apply sum_le. intros j _. apply LE.
  - apply (sum_lt _ _ _ 1); [apply in_seq; lia| |].
    + intros j _. apply LE.
    + unfold same_microbatch, all_pairs. rewrite Nat.mod_0_l, Nat.mod_1_l by lia. apply logistic_pos.
Qed.
Lemma micro_at_least m n l : 1 <= n -> (sum_to n (fun i => logistic true (l i i)) / INR n <= loss_over n (same_microbatch m) l)%R.
Proof.
  intros Hn. unfold loss_over. apply Rmult_le_compat_r. { left. apply Rinv_0_lt_compat. apply lt_0_INR. lia. }
  apply sum_le. intros i Hi. apply in_seq in Hi.
  replace (logistic true (l i i)) with (sum_to n (fun j => if i =? j then logistic true (l i i) else 0%R)).
  - apply sum_le. intros j _. unfold same_microbatch. destruct (Nat.eqb_spec i j) as [<-|]; [rewrite Nat.eqb_refl; lra|]. assert (G := logistic_pos false (l i j)). destruct (i mod m =? j mod m); lra.
  - rewrite sum_to_list. rewrite (sum_single _ _ i); [rewrite Nat.eqb_refl; auto|apply seq_NoDup|apply in_seq; lia|]. intros j _ Ne. destruct (Nat.eqb_spec i j); congruence.
Qed.

(** *** A model with the bias as its only parameter *)
Definition bias_img (p : params) (x : unit) : V := fun _ => 0%R.
Definition bias_grad (xs ys : list unit) (p : params) : list R :=
  [(- (exp (- p 0%nat) / (1 + exp (- p 0%nat))) + (INR (length xs) - 1) * (exp (p 0%nat) / (1 + exp (p 0%nat))))%R].
Lemma bias_logits xs ys q i j : batch_logits unit unit tt tt 1 bias_img bias_img (fun _ => 0%R) (fun p => Some (p 0%nat)) xs ys q i j = q 0%nat.
Proof. unfold ConSpec.batch_logits, logit, dot, bias_img, sum_to, bias. simpl. unfold Rdiv. ring. Qed.
Lemma const_loss n q : 1 <= n -> loss_over n all_pairs (fun _ _ => q) = (ln (1 + exp (- q)) + (INR n - 1) * ln (1 + exp q))%R.
Proof.
  intros Hn. unfold loss_over. assert (N : INR n <> 0%R) by (apply not_0_INR; lia).
  set (A := ln (1 + exp (- q))). set (B := ln (1 + exp q)).
  assert (C : forall c l, StepSpec.sum (map (fun _ : nat => c) l) = (INR (length l) * c)%R).
  { intros c l. induction l as [|a l IH]; [simpl; ring|]. cbn [map StepSpec.sum fold_right length] in *. unfold StepSpec.sum in IH. rewrite IH, S_INR. ring. }
  assert (E : forall i, i < n -> sum_to n (fun j => if all_pairs i j then logistic (i =? j) q else 0%R) = (A - B + INR n * B)%R).
  { intros i Hi. assert (E1 : sum_to n (fun j => if all_pairs i j then logistic (i =? j) q else 0%R) = (sum_to n (fun j => if i =? j then A - B else 0) + sum_to n (fun _ => B))%R).
    { unfold sum_to. induction (seq 0 n) as [|j l IH]; cbn [map fold_right]; [ring|]. rewrite IH. unfold all_pairs, logistic, A, B. destruct (i =? j); ring. }
    rewrite E1. rewrite !sum_to_list, C, seq_length. rewrite (sum_single _ _ i); [rewrite Nat.eqb_refl; auto|apply seq_NoDup|apply in_seq; lia|]. intros j _ Ne. destruct (Nat.eqb_spec i j); congruence. }
  rewrite (sum_to_ext' _ _ _ E). rewrite sum_to_list, C, seq_length. field. auto.
Qed.
Lemma softplus_deriv (c x : R) : derivable_pt_lim (fun t => ln (1 + exp (c * (x + t)))) 0 (c * (exp (c * x) / (1 + exp (c * x))))%R.
Proof.
  assert (P := exp_pos (c * x)).
  assert (L : derivable_pt_lim (fun t => c * (x + t))%R 0 c).
  { apply (derivable_pt_lim_ext (fun t => c * x + c * t)%R); [intros; ring|].
    assert (L0 : derivable_pt_lim (fun t => c * x + c * t)%R 0 (0 + c * 1)%R).
    { apply (derivable_pt_lim_plus (fun _ => c * x)%R (fun t => c * t)%R); [apply derivable_pt_lim_const|]. apply (derivable_pt_lim_scal (fun t => t) c). apply derivable_pt_lim_id. }
    rewrite Rplus_0_l, Rmult_1_r in L0. exact L0. }
  assert (E : derivable_pt_lim (fun t => exp (c * (x + t))) 0 (exp (c * (x + 0)) * c)%R).
  { apply (derivable_pt_lim_comp (fun t => c * (x + t))%R exp); auto. apply derivable_pt_lim_exp. }
  assert (E1 : derivable_pt_lim (fun t => 1 + exp (c * (x + t)))%R 0 (0 + exp (c * (x + 0)) * c)%R).
  { apply (derivable_pt_lim_plus (fun _ => 1%R) (fun t => exp (c * (x + t)))); auto. apply derivable_pt_lim_const. }
  rewrite Rplus_0_r in *. replace (c * (exp (c * x) / (1 + exp (c * x))))%R with (/ (1 + exp (c * (x + 0))) * (0 + exp (c * x) * c))%R.
  - apply (derivable_pt_lim_comp (fun t => 1 + exp (c * (x + t)))%R ln); auto. apply derivable_pt_lim_ln. rewrite Rplus_0_r. lra.
  - rewrite Rplus_0_r. field. lra.
Qed.
Lemma const_loss_deriv n x : 1 <= n -> derivable_pt_lim (fun t => loss_over n all_pairs (fun _ _ => x + t)%R) 0 (- (exp (- x) / (1 + exp (- x))) + (INR n - 1) * (exp x / (1 + exp x)))%R.
Proof.
  intros Hn. apply (derivable_pt_lim_ext (fun t => ln (1 + exp (-1 * (x + t))) + (INR n - 1) * ln (1 + exp (1 * (x + t))))%R).
  { intros t. rewrite const_loss by auto. replace (-1 * (x + t))%R with (- (x + t))%R by ring. rewrite Rmult_1_l. auto. }
  assert (A := softplus_deriv (-1) x). assert (B := softplus_deriv 1 x). replace (-1 * x)%R with (- x)%R in A by ring. rewrite Rmult_1_l in B.
  replace (- (exp (- x) / (1 + exp (- x))))%R with (-1 * (exp (- x) / (1 + exp (- x))))%R by ring.
  apply (derivable_pt_lim_plus (fun t => ln (1 + exp (-1 * (x + t)))) (fun t => (INR n - 1) * ln (1 + exp (1 * (x + t))))%R); auto.
  apply (derivable_pt_lim_scal (fun t => ln (1 + exp (1 * (x + t))))). replace (exp x / (1 + exp x))%R with (exp (1 * x) / (1 + exp (1 * x)))%R; [exact B|rewrite !Rmult_1_l; auto].
Qed.
Lemma bias_gradient p xs ys : length xs = length ys -> xs <> [] ->
  is_gradient 1 (fun q => loss_over (length xs) all_pairs (batch_logits unit unit tt tt 1 bias_img bias_img (fun _ => 0%R) (fun p => Some (p 0%nat)) xs ys q)) p (bias_grad xs ys p).
Proof.
  intros _ N. split; [reflexivity|]. intros k Hk. assert (k = 0) by lia. subst k. unfold bias_grad, nth.
  apply (derivable_pt_lim_ext (fun t => loss_over (length xs) all_pairs (fun _ _ => p 0%nat + t)%R)).
  { intros t. unfold loss_over. f_equal. apply sum_to_ext'. intros i _. apply sum_to_ext'. intros j _. rewrite bias_logits. reflexivity. }
  apply const_loss_deriv. destruct xs; [congruence|simpl; lia].
Qed.
Definition bias_step (microsteps : option Z) : fn_t unit unit params unit :=
  contrastive_step unit unit params unit 1 bias_img bias_img (fun _ => 0%R) (fun p => Some (p 0%nat)) bias_grad (fun r => r) 1 microsteps.
Lemma bias_step_ok : exists ms, bias_step (Some 2%Z) (fun _ => 0%R) [tt; tt] [tt; tt] tt = Ok ([(-1 / 2)%R], (tt, ms)).
Proof.
  unfold bias_step, contrastive_step, accumulate_gradients_and_metrics. change (2 <=? 0)%Z with false. cbv iota zeta. change (Z.to_nat 2) with 2.
  change (take 2 [tt; tt] 0) with [tt]. change (seq 1 (2 - 1)) with [1]. cbn [rfold]. change (take 2 [tt; tt] 1) with [tt].
  change (length [tt; tt]) with 2. change (negb ((2 / 1) mod 2 =? 0)) with false. change (negb (2 mod 2 =? 0)) with false. cbv iota.
  rewrite (step_fn_ok unit unit unit tt tt) by (auto; discriminate). cbn [bind]. rewrite (step_fn_ok unit unit unit tt tt) by (auto; discriminate). cbn [bind fst snd add_all].
  unfold bias_grad. cbn [add_all bind map]. change (take 2 [tt; tt] 0) with [tt]. change (INR (length [tt])) with 1%R. rewrite Ropp_0, exp_0. change (INR 2) with (1 + 1)%R.
  match goal with |- exists ms, Ok ([?a], _) = Ok ([?c], _) => replace a with c by field end. eexists. reflexivity.
Qed.
Lemma micro_refuted : exists (X Y : Type) (dx : X) (dy : Y) D img txt s b grad (p : params) images texts out,
  (forall xs ys, length xs = length ys -> xs <> [] -> is_gradient 1 (fun q => loss_over (length xs) all_pairs (batch_logits X Y dx dy D img txt s b xs ys q)) p (grad xs ys p)) /\
  length images = length texts /\
  contrastive_step X Y params unit D img txt s b grad (fun r => r) 1 (Some 2%Z) p images texts tt = Ok out /\
  is_gradient 1 (fun q => loss_over (length images) all_pairs (batch_logits X Y dx dy D img txt s b images texts q)) p [0%R] /\
  ~ is_gradient 1 (fun q => loss_over (length images) all_pairs (batch_logits X Y dx dy D img txt s b images texts q)) p (fst out).
Proof.
  destruct bias_step_ok as [ms H].
  exists unit, unit, tt, tt, 1, bias_img, bias_img, (fun _ => 0%R), (fun p => Some (p 0%nat)), bias_grad, (fun _ => 0%R), [tt; tt], [tt; tt]. eexists.
  split; [intros xs ys; apply bias_gradient|]. split; [reflexivity|]. split; [exact H|].
  assert (G := bias_gradient (fun _ => 0%R) [tt; tt] [tt; tt] eq_refl ltac:(discriminate)).
  assert (G0 : bias_grad [tt; tt] [tt; tt] (fun _ => 0%R) = [0%R]).
  { unfold bias_grad. f_equal. change (INR (length [tt; tt])) with (1 + 1)%R. rewrite Ropp_0, exp_0. field. }
  rewrite G0 in G. split; [exact G|]. cbn [fst]. intros [_ K]. destruct G as [_ G]. specialize (G 0 ltac:(lia)). specialize (K 0 ltac:(lia)). cbn [nth] in G, K.
  assert (U := uniqueness_limite _ _ _ _ G K). lra.
Qed.

(** ** C71 *)
Lemma splits_each {A B} (ok : list A -> Prop) (good : A -> Prop) (F : list A -> res (list B)) (oky : list B -> Prop) :
  splits ok oky F -> (forall l, l <> [] -> Forall good l -> ok l) -> forall l out, l <> [] -> Forall good l ->
  (F l = Ok out <-> Forall2 (fun i o => F [i] = Ok [o]) l out).
Proof.
  intros S OK.
  assert (L1 : forall i o, good i -> F [i] = Ok o -> exists v, o = [v]).
  { intros i o G Q. destruct S as [(e & E)|(H & H1 & _)].
    - rewrite E in Q; [discriminate|]. apply OK; [discriminate|auto].
    - destruct (H1 [i]) as (Q' & _ & L); [apply OK; [discriminate|auto]|]. rewrite Q in Q'. apply Ok_inj in Q'. subst o. destruct (H [i]) as [|v [|? ?]]; try discriminate. eauto. }
  induction l as [|i l IH]; [contradiction|]. intros out _ G. inversion G as [|? ? Gi Gl]; subst. destruct l as [|j l].
  - split.
    + intros Q. destruct (L1 i out Gi Q) as (v & ->). constructor; auto.
    + intros Q. inversion Q as [|? ? ? ? Q1 Q2]; subst. inversion Q2; subst. exact Q1.
  - assert (SP : F ([i] ++ j :: l) = bind (F [i]) (fun x => bind (F (j :: l)) (fun y => Ok (x ++ y)))).
    { apply (splits_spec _ _ _ [i] (j :: l) S); apply OK; try discriminate; auto. }
    cbn [app] in SP. rewrite SP. split.
    + intros Q. apply bind_ok in Q. destruct Q as (x & Q1 & Q). apply bind_ok in Q. destruct Q as (y & Q2 & Q). apply Ok_inj in Q. subst out. destruct (L1 i x Gi Q1) as (v & ->). cbn [app]. constructor; auto. apply IH; auto. discriminate.
    + intros Q. inversion Q as [|? v ? o Q1 Q2]; subst. apply IH in Q2; auto; [|discriminate]. rewrite Q1, Q2. auto.
Qed.
Lemma text_splits D c pe pool nc p L : 1 <= mc_group_size (ec_moe c) -> 1 <= mc_num_experts (ec_moe c) ->
  splits (fun x => (x <> [] /\ Forall (fun t => length t = L) x) /\ (length x * L) mod mc_group_size (ec_moe c) = 0) (fun _ => True) (text_transformer D c pe pool nc p).
Proof.
  intros HS HE. unfold text_transformer. set (pe' := match pe with None => Ok None | Some None => Raise AttributeError | Some (Some e) => _ end). destruct pe' as [q|e]; cbn [bind]; [|left; exists e; auto].
  set (Sz := mc_group_size (ec_moe c)) in *.
  apply (splits_ext _ _ (fun texts => bind (Ok (map (map (tp_embed p)) texts)) (fun x => bind (encoder_moe D c q (tp_encoder p) x) (fun x => bind (apply_pooling pool p x) (fun x => Ok (match nc with Some (S _) => map (tp_head p) x | _ => x end)))))); [auto|].
  apply (splits_bind _ (whole Sz L)).
  - apply splits_map. intros x [[N F] M]. split; [split|].
    + destruct x; [contradiction|discriminate].
    + intros s Hs. apply in_map_iff in Hs. destruct Hs as (t & <- & Ht). rewrite map_length. rewrite Forall_forall in F. auto.
    + rewrite map_length. auto.
  - apply (splits_bind _ (whole Sz L)); [apply encoder_splits; auto|]. apply (splits_bind _ (fun _ => True)).
    + unfold apply_pooling. destruct pool; try (apply splits_map; auto). left. exists NotImplementedError. auto.
    + apply (splits_ext _ _ (fun x => Ok (map (fun v => match nc with Some (S _) => tp_head p v | _ => v end) x))).
      * intros x _. destruct nc as [[|n]|]; auto; rewrite map_id; auto.
      * apply splits_map. auto.
Qed.
Lemma text_each D c pe pool nc p L texts out : 1 <= mc_group_size (ec_moe c) -> 1 <= mc_num_experts (ec_moe c) ->
  L mod mc_group_size (ec_moe c) = 0 -> texts <> [] -> Forall (fun t => length t = L) texts ->
  (text_transformer D c pe pool nc p texts = Ok out <-> Forall2 (fun t o => text_transformer D c pe pool nc p [t] = Ok [o]) texts out).
Proof.
  intros HS HE HL N F. apply (splits_each _ (fun t => length t = L) _ _ (text_splits D c pe pool nc p L HS HE)); auto.
  intros l Nl Fl. split; auto. rewrite Nat.mul_mod, HL, Nat.mul_0_r by lia. apply Nat.mod_0_l. lia.
Qed.
Lemma Forall2_nth_error {A B} (R : A -> B -> Prop) l m i x : Forall2 R l m -> nth_error l i = Some x -> exists y, nth_error m i = Some y /\ R x y.
Proof. intros F. revert i. induction F as [|a b l m H F IH]; intros [|i] E; try discriminate; simpl in *; [injection E as ->; eauto|auto]. Qed.

Section Pairs.
Variable I : Type.
Variables (Di Dt D : nat) (ci ct : encoder_config) (pei pet : option (option position_emb)) (cls : classifier) (pool : pool_type) (nci nct : option nat).
Variables (pi : vit_params I) (pt : text_params) (h w : nat) (s : R) (b : option R).
Notation both := (both I Di Dt D ci ct pei pet cls pool nci nct pi pt h w s b).
Lemma both_pairs L images texts logits mt i j x t :
  1 <= mc_group_size (ec_moe ci) -> 1 <= mc_num_experts (ec_moe ci) -> 1 <= mc_group_size (ec_moe ct) -> 1 <= mc_num_experts (ec_moe ct) ->
  tokens_per_image cls h w mod mc_group_size (ec_moe ci) = 0 -> L mod mc_group_size (ec_moe ct) = 0 -> Forall (fun t => length t = L) texts ->
  both (Some images) (Some texts) = Ok (logits, mt) -> nth_error images i = Some x -> nth_error texts j = Some t ->
  exists l1 mt1, both (Some [x]) (Some [t]) = Ok (l1, mt1) /\ l1 0 0 = logits i j.
Proof.
  intros A1 A2 A3 A4 B1 B2 F H Hx Ht. unfold ConModel.both, two_tower in H.
  apply bind_ok in H. destruct H as (ri & Hi & H). apply bind_ok in H. destruct H as (rt & Hr & H). apply Ok_inj in H. injection H as H _.
  apply bind_ok in Hi. destruct Hi as (ri' & Hi & E). apply Ok_inj in E. subst ri. apply bind_ok in Hi. destruct Hi as (zi & Hi & E). apply Ok_inj in E. subst ri'.
  apply bind_ok in Hr. destruct Hr as (rt' & Hr & E). apply Ok_inj in E. subst rt. apply bind_ok in Hr. destruct Hr as (zt & Hr & E). apply Ok_inj in E. subst rt'.
  cbn [fst snd] in H.
  apply (vit_images Di ci pei cls nci pi h w images zi A1 A2 B1) in Hi; [|intros ->; destruct i; discriminate].
  apply (text_each Dt ct pet pool nct pt L texts zt A3 A4 B2) in Hr; auto; [|intros ->; destruct j; discriminate].
  destruct (Forall2_nth_error _ _ _ _ _ Hi Hx) as (u & U1 & U2). destruct (Forall2_nth_error _ _ _ _ _ Hr Ht) as (v & V1 & V2).
  unfold ConModel.both, two_tower, tower. rewrite U2. cbn [bind]. rewrite V2. cbn [bind fst snd]. do 2 eexists. split; [reflexivity|].
  rewrite <- H. rewrite !logits_logit. unfold rows_of. rewrite (nth_error_nth _ _ _ U1), (nth_error_nth _ _ _ V1). reflexivity.
Qed.
End Pairs.

Lemma eval_rank {I T} (fi : I -> res ((nat -> nat -> R) * metrics_t)) (ft : T -> res ((nat -> nat -> R) * metrics_t)) D s b x y logits mt :
  two_tower I T fi ft D s b (Some x) (Some y) = Ok (logits, mt) ->
  exists zi zt, apply_fn I T (two_tower I T fi ft D s b) (Some x) None = Ok (Some zi, None) /\
    apply_fn I T (two_tower I T fi ft D s b) None (Some y) = Ok (None, Some zt) /\
    fewshot_apply_fn I T (two_tower I T fi ft D s b) x = Ok zi /\
    (forall m n, logits m n = (exp s * dot D (zi m) (zt n) + bias b)%R) /\
    (forall m n m' n', (logits m n <= logits m' n')%R <-> (dot D (zi m) (zt n) <= dot D (zi m') (zt n'))%R).
Proof.
  intros H. unfold two_tower in H. apply bind_ok in H. destruct H as (ri & Hi & H). apply bind_ok in H. destruct H as (rt & Hr & H). apply Ok_inj in H. injection H as H _.
  exists (fst ri), (fst rt).
  assert (L : forall m n, logits m n = (exp s * dot D (fst ri m) (fst rt n) + bias b)%R).
  { intros m n. rewrite <- H. unfold logits_of, dot, bias. rewrite sumf_to. destruct b; ring. }
  split; [|split; [|split; [|split]]]; auto.
  - unfold apply_fn. cbn [is_none Bool.eqb]. unfold two_tower. rewrite Hi. reflexivity.
  - unfold apply_fn. cbn [is_none Bool.eqb]. unfold two_tower. rewrite Hr. reflexivity.
  - unfold fewshot_apply_fn, two_tower. rewrite Hi. reflexivity.
  - intros m n m' n'. rewrite !L. assert (P := exp_pos s). split; intros Q.
    + apply (Rmult_le_reg_l (exp s)); auto. lra.
    + apply (Rmult_le_compat_l (exp s)) in Q; lra.
Qed.
Lemma apply_errors {I T} (model : option I -> option T -> res ((nat -> nat -> R) * metrics_t)) x y :
  (x = None /\ y = None) \/ (exists a c, x = Some a /\ y = Some c) -> apply_fn I T model x y = Raise ValueError.
Proof. intros [[-> ->]|(a & c & -> & ->)]; reflexivity. Qed.

Lemma max_tokens_ok s : s <> [] -> forall d, (exists x, In x s /\ max_tokens s d = (x : V) d) /\ forall x, In x s -> (x d <= max_tokens s d)%R.
Proof.
  destruct s as [|x s]; [congruence|]. intros _ d. cbn [max_tokens].
  assert (G : forall s m, (fold_left (fun m (v : V) => Rmax m (v d)) s m = m \/ exists x, In x s /\ fold_left (fun m (v : V) => Rmax m (v d)) s m = x d) /\ (m <= fold_left (fun m (v : V) => Rmax m (v d)) s m)%R /\
     forall x, In x s -> (x d <= fold_left (fun m (v : V) => Rmax m (v d)) s m)%R).
  { clear. induction s as [|a s IH]; intros m; cbn [fold_left].
    - split; auto. split; [lra|]. intros x [].
    - destruct (IH (Rmax m (a d))) as (A & B & C). assert (M1 := Rmax_l m (a d)). assert (M2 := Rmax_r m (a d)). split; [|split; [lra|]].
      + destruct A as [A|(x & I & A)]; [|right; exists x; simpl; auto]. rewrite A. destruct (Rmax_case_strong m (a d) (fun r => r = m \/ exists x, In x (a :: s) /\ r = x d)) as [K|K]; auto. intros _. right. exists a. simpl. auto.
      + intros x [->|I]; [lra|auto]. }
  destruct (G s (x d)) as (A & B & C). split.
  - destruct A as [A|(y & I & A)]; [exists x; simpl; auto|exists y; simpl; auto].
  - intros y [<-|I]; auto.
Qed.
Lemma mean_tokens_ok s d : s <> [] -> (INR (length s) * mean_tokens s d = fold_right Rplus 0 (map (fun x : V => x d) s))%R.
Proof.
  intros N. assert (NZ : INR (length s) <> 0%R) by (apply not_0_INR; destruct s; [congruence|simpl; lia]). unfold mean_tokens.
  replace (fold_right Rplus 0%R (map (fun x : V => x d) s)) with (sumf (length s) (fun t => nth t s (vzero Ralg) d)); [field; auto|].
  rewrite sumf_to. unfold sum_to. rewrite <- (map_map (fun t => nth t s (vzero Ralg)) (fun x : V => x d)). rewrite nth_all. auto.
Qed.
Lemma pooling_ok pool p x out : Forall (fun s => s <> []) x -> (apply_pooling pool p x = Ok out -> Forall2 (pooled pool p) x out) /\ ((exists out, apply_pooling pool p x = Ok out) <-> pool <> PoolOther).
Proof.
  intros F. split.
  - intros H. unfold apply_pooling in H. destruct pool; try discriminate; apply Ok_inj in H; subst out; induction x as [|s x IH]; try constructor; inversion F; subst; auto; cbn [pooled]; clear IH.
    + destruct (exists_last H1) as (s' & a & ->). exists s', a. split; auto. rewrite app_length. cbn [length]. rewrite app_nth2 by lia. replace (length s' + 1 - 1 - length s') with 0 by lia. auto.
    + destruct s as [|a s]; [congruence|]. exists s, a. auto.
    + intros d. apply mean_tokens_ok; auto.
    + apply max_tokens_ok; auto.
    + reflexivity.
  - unfold apply_pooling. destruct pool; split; try (intros; discriminate); eauto.
    + intros [o Q]. discriminate.
    + congruence.
Qed.
Lemma text_position D c e pool nc p texts : 
  (pe_name e = Some PosSincos2d -> text_transformer D c (Some (Some e)) pool nc p texts = Raise ValueError) /\
  text_transformer D c (Some None) pool nc p texts = Raise AttributeError.
Proof. split; [intros H; unfold text_transformer; rewrite H|]; reflexivity. Qed.
Lemma text_network D c pe pool nc p texts out : text_transformer D c pe pool nc p texts = Ok out ->
  exists pe' y z, (pe = None /\ pe' = None \/ exists e, pe = Some (Some e) /\ pe' = Some e /\ pe_name e <> Some PosSincos2d) /\
    encoder_moe D c pe' (tp_encoder p) (map (map (tp_embed p)) texts) = Ok y /\ apply_pooling pool p y = Ok z /\
    out = map (fun v => match nc with Some (S _) => tp_head p v | _ => v end) z.
Proof.
  intros H. unfold text_transformer in H. apply bind_ok in H. destruct H as (pe' & H0 & H). apply bind_ok in H. destruct H as (y & H1 & H). apply bind_ok in H. destruct H as (z & H2 & H). apply Ok_inj in H.
  exists pe', y, z. split; [|split; [exact H1|split; [exact H2|]]].
  - destruct pe as [[e|]|]; [|discriminate|apply Ok_inj in H0; auto]. right. exists e. destruct (pe_name e) as [[]|] eqn:E; try discriminate; apply Ok_inj in H0; repeat split; auto; discriminate.
  - subst out. destruct nc as [[|n]|]; auto; rewrite map_id; auto.
Qed.

(** ** C73 *)
Local Notation str := TreeModel.str.
Lemma last_differs (a b : str) x y : x <> y -> a ++ [x] <> b ++ [y].
Proof. intros N E. apply app_inj_tail in E. destruct E; auto. Qed.
Lemma acc_dur (a b : str) : a ++ chars "/accuracy" <> b ++ chars "/duration_secs".
Proof.
  change (chars "/accuracy") with (chars "/accurac" ++ [121]). change (chars "/duration_secs") with (chars "/duration_sec" ++ [115]). rewrite !app_assoc. apply last_differs. discriminate.
Qed.
Lemma given_in {val} (kwargs : list (str * option val)) k v : In (k, v) (given val kwargs) <-> In (k, Some v) kwargs.
Proof.
  unfold given. rewrite in_flat_map. split.
  - intros ([k0 [v0|]] & I & H); simpl in H; [|destruct H]. destruct H as [H|[]]. injection H as -> ->. auto.
  - intros I. exists (k, Some v). simpl. auto.
Qed.
Lemma given_keys {val} (kwargs : list (str * option val)) : NoDup (map fst kwargs) -> NoDup (map fst (given val kwargs)).
Proof.
  induction kwargs as [|[k [v|]] l IH]; intros N; cbn in *; auto; [|inversion N; auto]. inversion N as [|? ? H1 H2]; subst. constructor; auto.
  intros I. apply H1. apply in_map_iff in I. destruct I as ([k' v'] & E & I). simpl in E. subst k'. apply given_in in I. apply in_map_iff. exists (k, Some v'). auto.
Qed.

Section Zeroshot.
Variable val : Type.
Variable secs : R -> val.
Variable clock : nat -> R.
Variable name : str.
Definition acc_key (task : str) : str := name ++ slash ++ task ++ chars "/accuracy".
Definition dur_key (task : str) : str := name ++ slash ++ task ++ chars "/duration_secs".
Fixpoint entries (calls : nat) (l : list (str * val)) : list (str * val) :=
  match l with [] => [] | (task, acc) :: l => (acc_key task, acc) :: (dur_key task, secs (clock calls - clock 0%nat)%R) :: entries (S calls) l end.
Lemma entries_keys calls l k : In k (map fst (entries calls l)) <-> exists task, In task (map fst l) /\ (k = acc_key task \/ k = dur_key task).
Proof.
  revert calls. induction l as [|[t a] l IH]; intros calls; cbn [entries map fst In].
  - split; [intros []|intros (t & [] & _)].
  - rewrite IH. split.
    + intros [E|[E|(t' & I & H)]]; [exists t; auto|exists t; auto|exists t'; auto].
    + intros (t' & [->|I] & [->|H]); auto; right; right; eauto.
Qed.
Lemma acc_key_inj a b : acc_key a = acc_key b -> a = b.
Proof. unfold acc_key. intros E. apply app_inv_head, app_inv_head, app_inv_tail in E. auto. Qed.
Lemma dur_key_inj a b : dur_key a = dur_key b -> a = b.
Proof. unfold dur_key. intros E. apply app_inv_head, app_inv_head, app_inv_tail in E. auto. Qed.
Lemma acc_dur_key a b : acc_key a <> dur_key b.
Proof. unfold acc_key, dur_key. intros E. apply app_inv_head, app_inv_head in E. revert E. apply acc_dur. Qed.
Lemma entries_nodup calls l : NoDup (map fst l) -> NoDup (map fst (entries calls l)).
Proof.
  revert calls. induction l as [|[t a] l IH]; intros calls N; cbn [entries map fst]; [constructor|]. cbn [map fst] in N. inversion N as [|? ? N1 N2]; subst. apply NoDup_cons; [|apply NoDup_cons; auto].
  - intros [E|I]; [symmetry in E; revert E; apply acc_dur_key|]. apply entries_keys in I. destruct I as (t' & I & [E|E]).
    + apply acc_key_inj in E. subst. auto.
    + revert E. apply acc_dur_key.
  - intros I. apply entries_keys in I. destruct I as (t' & I & [E|E]).
    + symmetry in E. revert E. apply acc_dur_key.
    + apply dur_key_inj in E. subst. auto.
Qed.
Lemma zeroshot_loop evaluate datasets : forall calls m st, NoDup datasets -> (forall t, In t datasets -> ~ In (acc_key t) (map fst m) /\ ~ In (dur_key t) (map fst m)) ->
  rfold (fun (st : nat * list (str * val)) task =>
          let '(calls, metrics) := st in
          bind (evaluate task) (fun acc =>
          let t1 := clock calls in
          let metrics := dset metrics (name ++ slash ++ task ++ chars "/accuracy") acc in
          let metrics := dset metrics (name ++ slash ++ task ++ chars "/duration_secs") (secs (t1 - clock 0%nat)%R) in
          Ok (S calls, metrics))) datasets (calls, m) = Ok st ->
  exists accs, Forall2 (fun t a => evaluate t = Ok a) datasets accs /\ snd st = m ++ entries calls (combine datasets accs).
Proof.
  induction datasets as [|t l IH]; intros calls m st N F H; cbn [rfold] in H.
  - apply Ok_inj in H. subst st. exists []. split; auto. cbn. rewrite app_nil_r. auto.
  - apply bind_ok in H. destruct H as (st1 & H & K). apply bind_ok in H. destruct H as (a & A & H). cbv zeta in H. apply Ok_inj in H. subst st1.
    inversion N as [|? ? N1 N2]; subst. destruct (F t (or_introl eq_refl)) as [F1 F2].
    fold (acc_key t) (dur_key t) in K. rewrite (dset_new m) in K by auto. rewrite dset_new in K.
    2:{ rewrite map_app. intros I. apply in_app_or in I. destruct I as [I|[I|[]]]; auto. revert I. apply acc_dur_key. }
    apply IH in K; auto.
    + destruct K as (accs & F' & E). exists (a :: accs). split; [constructor; auto|]. rewrite E. cbn [combine entries]. rewrite <- !app_assoc. auto.
    + intros t' I. destruct (F t' (or_intror I)) as [G1 G2]. rewrite !map_app. cbn [map fst]. split; intros J; apply in_app_or in J; destruct J as [J|[J|[]]].
      * apply in_app_or in J. destruct J as [J|[J|[]]]; auto. apply acc_key_inj in J. subst. auto.
      * symmetry in J. revert J. apply acc_dur_key.
      * apply in_app_or in J. destruct J as [J|[J|[]]]; auto. revert J. apply acc_dur_key.
      * apply dur_key_inj in J. subst. auto.
Qed.
Lemma dget_in {A} (l : list (str * A)) k v : NoDup (map fst l) -> In (k, v) l -> dget l k = Some v.
Proof. intros N I. rewrite <- (SumProofs.dupdate_in l [] k v N I). rewrite dupdate_new by auto. auto. Qed.
Lemma entries_in calls l i t a : nth_error l i = Some (t, a) -> In (acc_key t, a) (entries calls l) /\ In (dur_key t, secs (clock (calls + i) - clock 0%nat)%R) (entries calls l).
Proof.
  revert calls i. induction l as [|[t0 a0] l IH]; intros calls [|i] H; try discriminate; cbn [entries nth_error] in *.
  - injection H as -> ->. rewrite Nat.add_0_r. split; [left; auto|right; left; auto].
  - destruct (IH (S calls) i H) as [A B]. replace (S calls + i) with (calls + S i) in B by lia. split; right; right; auto.
Qed.
Lemma combine_fst {A B} (l : list A) (m : list B) : length l = length m -> map fst (combine l m) = l.
Proof. revert m. induction l; intros [|? ?] H; simpl in *; auto; try lia. f_equal. apply IHl. lia. Qed.
Lemma zeroshot_ok datasets evaluate kwargs written : NoDup datasets ->
  zeroshot_callback val secs clock name datasets evaluate kwargs = Ok written ->
  (forall i task, nth_error datasets i = Some task ->
     exists acc, evaluate task = Ok acc /\
     ((forall v, ~ override kwargs (name ++ chars "/" ++ task ++ chars "/accuracy") v) -> dget written (name ++ chars "/" ++ task ++ chars "/accuracy") = Some acc) /\
     ((forall v, ~ override kwargs (name ++ chars "/" ++ task ++ chars "/duration_secs") v) ->
      dget written (name ++ chars "/" ++ task ++ chars "/duration_secs") = Some (secs (clock (S i) - clock 0%nat)%R))) /\
  (NoDup (map fst kwargs) -> forall k v, override kwargs k v -> dget written k = Some v) /\
  (forall k v, dget written k = Some v -> override kwargs k v \/ exists task, In task datasets /\
     (k = name ++ chars "/" ++ task ++ chars "/accuracy" \/ k = name ++ chars "/" ++ task ++ chars "/duration_secs")).
Proof.
  intros N H. unfold zeroshot_callback in H. cbv zeta in H. apply bind_ok in H. destruct H as (st & H & K). apply Ok_inj in K. subst written.
  apply zeroshot_loop in H; auto. destruct H as (accs & F & E). cbn [app] in E. rewrite E. assert (L := Forall2_len _ _ _ F).
  assert (ND : NoDup (map fst (combine datasets accs))) by (rewrite combine_fst by auto; auto).
  assert (NE := entries_nodup 1 _ ND).
  assert (NG : forall k, (forall v, ~ override kwargs k v) -> ~ In k (map fst (given val kwargs))).
  { intros k H I. apply in_map_iff in I. destruct I as ([k' v] & <- & I). apply given_in in I. apply (H v). exact I. }
  split; [|split].
  - intros i task T. destruct (Forall2_nth_error _ _ _ _ _ F T) as (acc & A1 & A2). exists acc. split; auto.
    assert (C : nth_error (combine datasets accs) i = Some (task, acc)).
    { clear -T A1. revert accs i T A1. induction datasets as [|t l IH]; intros [|a accs] [|i] T A1; try discriminate; simpl in *; [congruence|auto]. }
    destruct (entries_in 1 _ _ _ _ C) as [E1 E2]. split; intros H.
    + rewrite SumProofs.dupdate_get by (apply NG; auto). apply dget_in; auto.
    + rewrite SumProofs.dupdate_get by (apply NG; auto). apply dget_in; auto.
  - intros NK k v O. apply SumProofs.dupdate_in; [apply given_keys; auto|]. apply given_in. exact O.
  - intros k v G. destruct (in_dec (list_eq_dec Nat.eq_dec) k (map fst (given val kwargs))) as [I|I].
    + left. assert (Q : forall (e d : list (str * val)), dget (dupdate d e) k = Some v -> In k (map fst e) -> In (k, v) e).
      { clear. induction e as [|[k0 v0] e IH]; intros d G I; [destruct I|]. unfold dupdate in G. cbn [fold_left fst snd] in G. fold (dupdate (dset d k0 v0) e) in G.
        destruct (in_dec (list_eq_dec Nat.eq_dec) k (map fst e)) as [J|J]; [right; eapply IH; eauto|]. rewrite SumProofs.dupdate_get in G by auto. rewrite SumProofs.dget_dset in G.
        destruct I as [<-|I]; [|contradiction]. cbn [fst] in *. unfold TreeModel.str_eqb in G. destruct (list_eq_dec Nat.eq_dec k0 k0); [|congruence]. injection G as ->. left. auto. }
      apply given_in. eapply Q; eauto.
    + right. rewrite SumProofs.dupdate_get in G by auto.
      assert (J : In k (map fst (entries 1 (combine datasets accs)))).
      { clear -G. induction (entries 1 (combine datasets accs)) as [|[k0 v0] l IH]; [discriminate|]. cbn [dget] in G. unfold str_eqb in G. destruct (list_eq_dec Nat.eq_dec k0 k); [left; auto|right; auto]. }
      apply entries_keys in J. rewrite combine_fst in J by auto. exact J.
Qed.
Lemma zeroshot_error datasets evaluate kwargs e : zeroshot_callback val secs clock name datasets evaluate kwargs = Raise e -> exists task, In task datasets /\ evaluate task = Raise e.
Proof.
  unfold zeroshot_callback. cbv zeta. intros H.
  match type of H with bind ?x _ = _ => destruct x as [st|e0] eqn:E; cbn [bind] in H; [discriminate|] end. injection H as ->.
  revert E. generalize (1, @nil (str * val)). induction datasets as [|t l IH]; intros st E; cbn [rfold] in E; [discriminate|]. destruct st as [c m].
  destruct (evaluate t) as [a|e1] eqn:Ev; cbn [bind] in E.
  - destruct (IH _ E) as (t' & I & H). exists t'. simpl. auto.
  - injection E as ->. exists t. simpl. auto.
Qed.
End Zeroshot.

Section Retrieval.
Variable val : Type.
Variable secs : R -> val.
Variable clock : nat -> R.
Lemma retrieval_ok name task bv kwargs written : NoDup (map fst (fst bv)) -> NoDup (map fst (snd bv)) ->
  retrieval_callback val secs clock name task (Ok bv) kwargs = Ok written ->
  (forall k v, In (k, v) (fst bv) -> (forall v, ~ override kwargs (name ++ chars "/" ++ task ++ chars "/txt2img/" ++ k) v) ->
     dget written (name ++ chars "/" ++ task ++ chars "/txt2img/" ++ k) = Some v) /\
  (forall k v, In (k, v) (snd bv) -> (forall v, ~ override kwargs (name ++ chars "/" ++ task ++ chars "/img2txt/" ++ k) v) ->
     dget written (name ++ chars "/" ++ task ++ chars "/img2txt/" ++ k) = Some v) /\
  ((forall v, ~ override kwargs (name ++ chars "/" ++ task ++ chars "/duration_secs") v) ->
     dget written (name ++ chars "/" ++ task ++ chars "/duration_secs") = Some (secs (clock 1%nat - clock 0%nat)%R)) /\
  (NoDup (map fst kwargs) -> forall k v, override kwargs k v -> dget written k = Some v).
Proof.
  intros N1 N2 H. unfold retrieval_callback in H. cbn [bind] in H. cbv zeta in H. apply Ok_inj in H. subst written.
  assert (NG : forall k, (forall v, ~ override kwargs k v) -> ~ In k (map fst (given val kwargs))).
  { intros k H I. apply in_map_iff in I. destruct I as ([k' v] & <- & I). apply given_in in I. apply (H v). exact I. }
  assert (IJ : forall dir (l : list (str * val)), NoDup (map fst l) -> NoDup (map fst (map (fun kv => (name ++ slash ++ task ++ dir ++ fst kv, snd kv)) l))).
  { intros dir l N. rewrite map_map. cbn [fst]. rewrite <- (map_map fst (fun k => name ++ slash ++ task ++ dir ++ k)). apply FinFun.Injective_map_NoDup; auto. intros a b E. repeat apply app_inv_head in E. auto. }
  assert (DG : forall (d : list (str * val)) k v k', k <> k' -> dget (dset d k v) k' = dget d k').
  { intros d k v k' Ne. rewrite SumProofs.dget_dset. unfold str_eqb. destruct (list_eq_dec Nat.eq_dec k k'); [contradiction|auto]. }
  split; [|split; [|split]].
  - intros k v I O. rewrite SumProofs.dupdate_get by (apply NG; auto). rewrite DG.
    2:{ intros E. repeat apply app_inv_head in E. apply (f_equal (fun l => nth 1 l 0)) in E. discriminate. }
    rewrite SumProofs.dupdate_get.
    2:{ intros J. rewrite map_map in J. apply in_map_iff in J. destruct J as ([k' v'] & E & _). cbn [fst] in E. repeat apply app_inv_head in E. apply (f_equal (fun l => nth 1 l 0)) in E. discriminate. }
    apply SumProofs.dupdate_in; [apply IJ; auto|]. apply in_map_iff. exists (k, v). auto.
  - intros k v I O. rewrite SumProofs.dupdate_get by (apply NG; auto). rewrite DG.
    2:{ intros E. repeat apply app_inv_head in E. apply (f_equal (fun l => nth 1 l 0)) in E. discriminate. }
    apply SumProofs.dupdate_in; [apply IJ; auto|]. apply in_map_iff. exists (k, v). auto.
  - intros O. rewrite SumProofs.dupdate_get by (apply NG; auto). rewrite SumProofs.dget_dset. unfold str_eqb, slash. destruct (list_eq_dec Nat.eq_dec _ _); [auto|contradiction].
  - intros NK k v O. apply SumProofs.dupdate_in; [apply given_keys; auto|]. apply given_in. exact O.
Qed.
End Retrieval.

Lemma hooks_ok installed has_mesh datasets :
  let l := match datasets with Some l => l | None => [] end in
  create_retrieval_hook installed has_mesh datasets = create_zeroshot_hook installed has_mesh datasets /\
  (installed = true -> has_mesh = true -> create_zeroshot_hook installed has_mesh datasets = Ok l) /\
  (installed = false -> create_zeroshot_hook installed has_mesh datasets = Ok []) /\
  (installed = true -> has_mesh = false -> create_zeroshot_hook installed has_mesh datasets = if length l =? 0 then Ok [] else Raise ValueError).
Proof.
  intros l. assert (E : create_retrieval_hook installed has_mesh datasets = create_zeroshot_hook installed has_mesh datasets).
  { unfold create_retrieval_hook, create_zeroshot_hook. fold l. destruct l as [|t l']; auto. destruct installed, has_mesh; cbn [new_action negb]; try (cbn; reflexivity).
    assert (R : forall l : list str, rmap (fun task => bind (new_action true true) (fun _ => Ok task)) l = Ok l) by (induction l as [|a l0 IH]; [auto|cbn [rmap]; rewrite IH; auto]). rewrite R. auto. }
  split; auto. split; [|split]; unfold create_zeroshot_hook; fold l; intros; subst; destruct l; auto.
Qed.

Lemma durations_refuted : exists (clock : nat -> R) (name : str) (datasets : list str) (evaluate : str -> res R) written i task,
  NoDup datasets /\ (forall i j, i < j -> (clock i < clock j)%R) /\
  zeroshot_callback R (fun x => x) clock name datasets evaluate [] = Ok written /\ nth_error datasets i = Some task /\
  exists d, dget written (name ++ chars "/" ++ task ++ chars "/duration_secs") = Some d /\ (d > clock (S i) - clock i)%R.
Proof.
  exists INR, (chars "zeroshot"), [chars "a"; chars "b"], (fun _ => Ok 0%R). eexists. exists 1, (chars "b"). split; [|split; [|split; [|split]]].
  - constructor; [intros [E|[]]; discriminate|constructor; [intros []|constructor]].
  - intros i j H. apply lt_INR. auto.
  - reflexivity.
  - reflexivity.
  - eexists. split; [reflexivity|]. simpl. lra.
Qed.
