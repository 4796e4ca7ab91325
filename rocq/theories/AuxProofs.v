(** Proofs for C44, C50, C53 and C54. *)
From Coq Require Import List Arith ZArith NArith Bool Reals Lia Lra Permutation.
From Verif Require Import Prim PrimLemmas SoftModel SoftSpec SoftProofs TreeModel TreeProofs EvalModel EvalSpec AuxModel AuxSpec.
From Verif Require Import Py PyLemmas.
Import ListNotations.
Local Open Scope nat_scope.

Lemma fmean_ok n f : 1 <= n -> fmean n f = Some (sumf n f / INR n)%R.
Proof. intros H. unfold fmean, fdiv. destruct (Req_EM_T (INR n) 0) as [E|E]; auto. assert (0 < INR n)%R by (apply lt_0_INR; lia). lra. Qed.
Lemma INR_pos n : 1 <= n -> (0 < INR n)%R.
Proof. intros. apply lt_0_INR. lia. Qed.
Lemma sumf_sq_zero n f : (forall i, i < n -> (0 <= f i)%R) -> sumf n f = 0%R -> forall i, i < n -> f i = 0%R.
Proof.
  induction n as [|n IH]; intros P E i Hi; [lia|]. cbn [sumf] in E. assert (A := sumf_nonneg n f (fun i H => P i ltac:(lia))). assert (B := P n ltac:(lia)).
  destruct (Nat.eq_dec i n) as [->|]; [lra|]. apply IH; [intros; apply P; lia|lra|lia].
Qed.

(** ** Coefficients of variation *)
Lemma cv_ok n f : 1 <= n -> (0 < sumf n f)%R ->
  exists v, cv_squared n f = Some v /\
    v = (INR n * sumf n (fun i => f i * f i) / (sumf n f * sumf n f) - 1)%R /\
    (0 <= v)%R /\ (v = 0%R <-> forall i j, i < n -> j < n -> f i = f j).
Proof.
  intros Hn P. assert (Pn := INR_pos n Hn). unfold cv_squared. rewrite fmean_ok by auto. set (mu := (sumf n f / INR n)%R). rewrite fmean_ok by auto.
  assert (Pmu : (0 < mu)%R) by (apply Rdiv_lt_0_compat; auto).
  set (d := sumf n (fun i => (f i - mu) * (f i - mu))%R). assert (D0 : (0 <= d)%R) by (apply sumf_nonneg; intros; apply Rle_0_sqr).
  unfold fdiv. destruct (Req_EM_T mu 0) as [E|_]; [lra|]. cbn [fmul].
  assert (V0 : (0 <= d / INR n)%R) by (apply Rmult_le_pos; auto; apply Rlt_le, Rinv_0_lt_compat; auto).
  assert (EV : (sqrt (d / INR n) / mu * (sqrt (d / INR n) / mu) = (d / INR n) / (mu * mu))%R).
  { rewrite <- (sqrt_sqrt (d / INR n)) at 3 by auto. field. lra. }
  rewrite EV. eexists. split; [reflexivity|].
  assert (DD : (d = sumf n (fun i => f i * f i) - INR n * (mu * mu))%R).
  { unfold d. rewrite (sumf_ext n _ (fun i => f i * f i + (- (2 * mu) * f i + mu * mu))%R) by (intros; ring).
    rewrite sumf_plus, sumf_plus, sumf_scale, sumf_const. unfold mu. field. lra. }
  split; [|split].
  - rewrite DD. unfold mu. field. split; lra.
  - apply Rmult_le_pos; auto. apply Rlt_le, Rinv_0_lt_compat, Rmult_lt_0_compat; auto.
  - split.
    + intros Z. assert (D : d = 0%R).
      { apply (f_equal (fun r => r * (mu * mu) * INR n)%R) in Z. replace (d / INR n / (mu * mu) * (mu * mu) * INR n)%R with d in Z by (field; lra). lra. }
      assert (Q := sumf_sq_zero n _ (fun i _ => Rle_0_sqr (f i - mu)) D). unfold Rsqr in Q.
      assert (Q2 : forall i, i < n -> f i = mu) by (intros i Hi; assert (A := Q i Hi); apply Rsqr_0_uniq in A; lra).
      intros i j Hi Hj. rewrite !Q2; auto.
    + intros A. assert (Q : forall i, i < n -> f i = mu).
      { intros i Hi. unfold mu. rewrite (sumf_ext n f (fun _ => f i)) by (intros; apply A; auto). rewrite sumf_const. field. lra. }
      replace d with 0%R; [unfold Rdiv; lra|]. unfold d. rewrite (sumf_ext n _ (fun _ => 0%R)) by (intros i Hi; rewrite Q by auto; ring). rewrite sumf_const. lra.
Qed.
Lemma sumf_swap n m (f : nat -> nat -> R) : sumf n (fun i => sumf m (fun j => f i j)) = sumf m (fun j => sumf n (fun i => f i j)).
Proof.
  induction n as [|n IH]; cbn [sumf].
  - rewrite sumf_const. lra.
  - rewrite IH, <- sumf_plus. auto.
Qed.
Lemma sumf_le_one n f : (forall i, i < n -> (0 <= f i)%R) -> forall i, i < n -> (f i <= sumf n f)%R.
Proof.
  induction n as [|n IH]; intros P i Hi; [lia|]. cbn [sumf]. assert (A := sumf_nonneg n f (fun i H => P i ltac:(lia))). assert (B := P n ltac:(lia)).
  destruct (Nat.eq_dec i n) as [->|]; [lra|]. assert (C := IH (fun i H => P i ltac:(lia)) i ltac:(lia)). lra.
Qed.
Lemma sumf_sq_le n f : (forall i, i < n -> (0 <= f i)%R) -> (sumf n (fun i => f i * f i) <= sumf n f * sumf n f)%R.
Proof.
  intros P. rewrite <- sumf_scale_r. apply sumf_le. intros i Hi. apply Rmult_le_compat_l; auto. apply sumf_le_one; auto.
Qed.
Lemma importance_ok Sz E gates : 1 <= E -> (0 < sum_to Sz (fun s => sum_to E (gates s)))%R ->
  let importance := fun e => sum_to Sz (fun s => gates s e) in
  exists v, importance_auxiliary_loss Sz E gates = Some v /\
    v = (INR E * sum_to E (fun e => importance e * importance e) / (sum_to E importance * sum_to E importance) - 1)%R /\
    (0 <= v)%R /\ (v = 0%R <-> forall e e', e < E -> e' < E -> importance e = importance e') /\
    ((forall s e, s < Sz -> e < E -> (0 <= gates s e)%R) -> (v <= INR E - 1)%R).
Proof.
  intros HE P importance. set (im := fun e => sumf Sz (fun s => gates s e)).
  assert (EQ : forall e, importance e = im e) by (intros e; unfold importance, im; rewrite sumf_to; auto).
  assert (PT : (0 < sumf E im)%R).
  { unfold im. rewrite sumf_swap. rewrite sumf_to. rewrite (fun f g H => eq_trans (eq_sym (sumf_to Sz f)) (eq_trans (sumf_ext Sz f g H) (sumf_to Sz g))) with (g := fun s => sum_to E (gates s)); auto. intros; apply sumf_to. }
  destruct (cv_ok E im HE PT) as (v & V & F & N & Z). exists v. split; [exact V|].
  assert (S1 : sum_to E importance = sumf E im) by (rewrite <- sumf_to; apply sumf_ext; auto).
  assert (S2 : sum_to E (fun e => (importance e * importance e)%R) = sumf E (fun e => (im e * im e)%R)) by (rewrite <- sumf_to; apply sumf_ext; intros; rewrite EQ; auto).
  rewrite S1, S2. split; [auto|]. split; [auto|]. split.
  - rewrite Z. split; intros H e e' He He'; specialize (H e e' He He'); rewrite ?EQ in *; auto.
  - intros NN. assert (Q := sumf_sq_le E im (fun e He => sumf_nonneg Sz _ (fun s Hs => NN s e Hs He))). rewrite F.
    assert (PP := Rmult_lt_0_compat _ _ PT PT). apply Rplus_le_compat_r. unfold Rdiv. rewrite Rmult_assoc. rewrite <- (Rmult_1_r (INR E)) at 2. apply Rmult_le_compat_l; [apply Rlt_le, INR_pos; auto|].
    apply Rmult_le_reg_r with (sumf E im * sumf E im)%R; auto. rewrite Rmult_assoc, Rinv_l by lra. lra.
Qed.

(** ** argmax and thresholds *)
Lemma argmax_ok n row : 1 <= n -> first_largest n row (argmax n row).
Proof.
  intros Hn. unfold argmax, first_largest.
  assert (K : forall k b, b < k + 0 -> k <= n -> (forall i, i < k -> (row i <= row b)%R /\ (i < b -> (row i < row b)%R)) ->
     let r := fold_left (fun b i => if Rlt_dec (row b) (row i) then i else b) (seq k (n - k)) b in
     r < n /\ forall i, i < n -> (row i <= row r)%R /\ (i < r -> (row i < row r)%R)).
  { intros k b Hb Hk. revert b Hb. remember (n - k) as m eqn:M. revert k Hk M. induction m as [|m IH]; intros k Hk M b Hb I; cbn [seq fold_left].
    - split; [lia|]. intros i Hi. apply I. lia.
    - apply IH; try lia.
      + destruct (Rlt_dec (row b) (row k)); lia.
      + intros i Hi. destruct (Rlt_dec (row b) (row k)) as [L|L].
        * destruct (Nat.eq_dec i k) as [->|]; [split; [lra|lia]|]. destruct (I i ltac:(lia)) as [I1 _]. split; intros; lra.
        * destruct (Nat.eq_dec i k) as [->|]; [split; [lra|lia]|]. apply I. lia. }
  apply (K 1 0); try lia. intros i Hi. replace i with 0 by lia. split; [lra|lia].
Qed.
Lemma first_largest_unique n row a b : first_largest n row a -> first_largest n row b -> a = b.
Proof.
  intros [Ha A] [Hb B]. destruct (lt_eq_lt_dec a b) as [[H|H]|H]; auto; exfalso.
  - assert (X := proj2 (B a Ha) H). assert (Y := proj1 (A b Hb)). lra.
  - assert (X := proj2 (A b Hb) H). assert (Y := proj1 (B a Ha)). lra.
Qed.
Lemma sumf_one_hot n k f : k < n -> sumf n (fun e => ((if e =? k then 1 else 0) * f e)%R) = f k.
Proof.
  induction n as [|n IH]; intros Hk; [lia|]. cbn [sumf]. destruct (Nat.eq_dec k n) as [->|N].
  - rewrite Nat.eqb_refl. rewrite (sumf_ext n _ (fun _ => 0%R)). { rewrite sumf_const. lra. } intros i Hi. destruct (Nat.eqb_spec i n); [lia|lra].
  - rewrite IH by lia. destruct (Nat.eqb_spec n k); [lia|lra].
Qed.
Lemma how_many_le n P l : NoDup l -> (forall i, In i l -> i < n /\ P i = true) -> length l <= how_many n P.
Proof.
  intros N H. apply NoDup_incl_length; auto. intros i Hi. destruct (H i Hi). apply filter_In. split; auto. apply in_seq. lia.
Qed.
Lemma threshold_ok E K row : 1 <= K -> K <= E -> kth_largest E K row (threshold E K row).
Proof.
  intros HK HE. unfold threshold. set (cmp := fun i j => rleb (row j) (row i)).
  assert (CT : forall i j, cmp i j = true \/ cmp j i = true) by (intros i j; unfold cmp, rleb; destruct (Rle_dec (row j) (row i)); auto; destruct (Rle_dec (row i) (row j)); auto; lra).
  assert (CTR : forall i j k, cmp i j = true -> cmp j k = true -> cmp i k = true).
  { unfold cmp, rleb. intros i j k. destruct (Rle_dec (row j) (row i)); [|discriminate]. destruct (Rle_dec (row k) (row j)); [|discriminate]. destruct (Rle_dec (row k) (row i)); auto. lra. }
  destruct (sort_firstn cmp CT CTR E K HE) as (H1 & H2 & H3 & H4 & H5).
  change (top_k rleb E K row) with (firstn K (sort_idx cmp E)). set (l := firstn K (sort_idx cmp E)) in *.
  assert (NE : l <> []) by (intros X; rewrite X in H1; simpl in H1; lia).
  destruct (exists_last NE) as (l0 & k & EL). rewrite EL, last_last.
  assert (Ik : In k l) by (rewrite EL; apply in_or_app; right; left; auto). assert (Hk : k < E) by (apply H3; auto).
  rewrite sumf_one_hot by auto. split; [eauto|].
  assert (BEF : forall i, In i l0 -> (row k <= row i)%R).
  { intros i Hi. rewrite EL in H4. apply (ssorted_app cmp) in H4. destruct H4 as (_ & _ & H4). specialize (H4 i k Hi (or_introl eq_refl)).
    destruct H4 as [H4 _]. unfold cmp, rleb in H4. destruct (Rle_dec (row k) (row i)); auto. discriminate. }
  split.
  - rewrite <- H1. apply how_many_le; auto. intros i Hi. split; [apply H3; auto|]. destruct (Rle_dec (row k) (row i)) as [|X]; auto. exfalso. apply X. rewrite EL in Hi. apply in_app_iff in Hi. destruct Hi as [Hi|[->|[]]]; auto. lra.
  - apply Nat.lt_le_trans with (S (length l0)); [|rewrite <- H1, EL, app_length; simpl; lia]. apply le_n_S. unfold how_many. apply NoDup_incl_length; [apply NoDup_filter, seq_NoDup|].
    intros i Hi. apply filter_In in Hi. destruct Hi as [Hi B]. apply in_seq in Hi. destruct (Rlt_dec (row k) (row i)) as [L|]; [|discriminate].
    destruct (in_dec Nat.eq_dec i l) as [I|I].
    + rewrite EL in I. apply in_app_iff in I. destruct I as [I|[->|[]]]; auto. lra.
    + specialize (H5 k i Ik ltac:(lia) I). destruct H5 as [H5 _]. unfold cmp, rleb in H5. destruct (Rle_dec (row i) (row k)); [lra|discriminate].
Qed.

(** ** GShard loss *)
Lemma sumf_to_ext n f g : (forall i, i < n -> f i = g i) -> sum_to n f = sum_to n g.
Proof. intros. rewrite <- !sumf_to. apply sumf_ext; auto. Qed.
Lemma fsum_some l : fsum (map Some l) = Some (fold_right Rplus 0%R l).
Proof.
  unfold fsum. assert (K : forall l a, fold_left fadd (map Some l) (Some a) = Some (a + fold_right Rplus 0 l)%R).
  { clear l. induction l as [|x l IH]; intros a; simpl; [f_equal; lra|]. rewrite IH. f_equal. lra. }
  rewrite K. f_equal. lra.
Qed.
Lemma fsum_seq n (f : nat -> fl) g : (forall i, i < n -> f i = Some (g i)) -> fsum (map f (seq 0 n)) = Some (sum_to n g).
Proof.
  intros H. unfold sum_to. rewrite <- fsum_some, map_map. f_equal. apply map_ext_in. intros i Hi. apply in_seq in Hi. apply H. lia.
Qed.
Lemma fdiv_ok x n : 1 <= n -> fdiv (Some x) (Some (INR n)) = Some (x / INR n)%R.
Proof. intros H. assert (P := INR_pos n H). unfold fdiv. destruct (Req_EM_T (INR n) 0); auto. lra. Qed.
Lemma gshard_ok Sz E gates top : 1 <= Sz -> 1 <= E -> (forall s, s < Sz -> first_largest E (gates s) (top s)) ->
  let load := fun e => (sum_to Sz (fun s => if top s =? e then 1%R else 0%R) / INR Sz)%R in
  let gate := fun e => (sum_to Sz (fun s => gates s e) / INR Sz)%R in
  exists v, gshard_auxiliary_loss Sz E gates = Some v /\ v = (INR E * sum_to E (fun e => load e * gate e))%R /\
    ((forall s e, s < Sz -> e < E -> (0 <= gates s e)%R) -> (forall s, s < Sz -> sum_to E (gates s) = 1%R) ->
       (0 <= v <= INR E)%R /\ ((forall e, e < E -> load e = (/ INR E)%R) -> v = 1%R)).
Proof.
  intros HS HE T load gate. assert (PS := INR_pos Sz HS). assert (PE := INR_pos E HE). unfold gshard_auxiliary_loss. cbv zeta.
  rewrite (fsum_seq E _ (fun e => load e * gate e)%R).
  2:{ intros e He. rewrite !fmean_ok by auto. cbn [fmul]. f_equal. unfold load, gate. rewrite <- !sumf_to. f_equal. f_equal. apply sumf_ext. intros s Hs.
      rewrite (first_largest_unique E (gates s) (argmax E (gates s)) (top s)); auto. apply argmax_ok; auto. }
  rewrite fdiv_ok by auto. cbn [fmul]. eexists. split; [reflexivity|]. set (q := sum_to E _). split; [field; lra|]. replace (q / INR E * (INR E * INR E))%R with (INR E * q)%R by (field; lra).
  intros NN ONE.
  assert (G1 : sumf E gate = 1%R).
  { unfold gate. rewrite (sumf_ext E _ (fun e => sumf Sz (fun s => gates s e) * / INR Sz)%R) by (intros; rewrite <- sumf_to; auto).
    rewrite sumf_scale_r, sumf_swap. rewrite (sumf_ext Sz _ (fun _ => 1%R)) by (intros; rewrite sumf_to; auto). rewrite sumf_const. field. lra. }
  assert (G0 : forall e, e < E -> (0 <= gate e)%R).
  { intros e He. unfold gate. rewrite <- sumf_to. apply Rmult_le_pos; [apply sumf_nonneg; auto|apply Rlt_le, Rinv_0_lt_compat; auto]. }
  assert (L01 : forall e, (0 <= load e <= 1)%R).
  { intros e. unfold load. rewrite <- sumf_to. split.
    - apply Rmult_le_pos; [|apply Rlt_le, Rinv_0_lt_compat; auto]. apply sumf_nonneg. intros s _. destruct (top s =? e); lra.
    - apply Rmult_le_reg_r with (INR Sz); auto. unfold Rdiv. rewrite Rmult_assoc, Rinv_l by lra. rewrite Rmult_1_r, Rmult_1_l. rewrite <- (Rmult_1_r (INR Sz)), <- sumf_const. apply sumf_le. intros s _. destruct (top s =? e); lra. }
  split; [split|].
  - apply Rmult_le_pos; [lra|]. unfold q. rewrite <- sumf_to. apply sumf_nonneg. intros e He. apply Rmult_le_pos; [apply L01|auto].
  - rewrite <- (Rmult_1_r (INR E)) at 2. apply Rmult_le_compat_l; [lra|]. rewrite <- G1. unfold q. rewrite <- sumf_to. apply sumf_le. intros e He. rewrite <- (Rmult_1_l (gate e)) at 2. apply Rmult_le_compat_r; auto. apply L01.
  - intros B. unfold q. rewrite (sumf_to_ext E _ (fun e => (/ INR E) * gate e)%R) by (intros e He; rewrite B by auto; auto). rewrite <- sumf_to, sumf_scale, G1. field. lra.
Qed.

(** ** Load loss *)
Lemma load_ok cdf Sz E K std logits noisy : 1 <= Sz -> 1 <= K -> K <= E -> (forall x, (0 <= cdf x < 1)%R) ->
  exists t, (forall s, s < Sz -> kth_largest E K (noisy s) (t s)) /\
  let p := fun s e => (1 - cdf ((t s - logits s e) / std))%R in
  let load := fun e => (sum_to Sz (fun s => p s e) / INR Sz)%R in
  exists v, load_auxiliary_loss cdf Sz E K std logits noisy = Some v /\
    v = (INR E * sum_to E (fun e => load e * load e) / (sum_to E load * sum_to E load) - 1)%R /\ (0 <= v)%R /\
    (v = 0%R <-> forall e e', e < E -> e' < E -> load e = load e').
Proof.
  intros HS HK HE C. exists (fun s => threshold E K (noisy s)). split; [intros; apply threshold_ok; auto|]. intros p load.
  assert (PS := INR_pos Sz HS). unfold load_auxiliary_loss. rewrite fmean_ok by auto. fold p.
  set (ld := fun e => (sumf Sz (fun s => p s e) / INR Sz)%R). assert (EQ : forall e, load e = ld e) by (intros; unfold load, ld; rewrite sumf_to; auto).
  assert (P : (0 < sumf E ld)%R).
  { apply sumf_pos; [lia|]. intros e He. apply Rdiv_lt_0_compat; auto. apply sumf_pos; auto. intros s Hs. unfold p. destruct (C ((threshold E K (noisy s) - logits s e) / std)%R). lra. }
  destruct (cv_ok E ld ltac:(lia) P) as (v & V & F & N & Z). exists v. split; [exact V|].
  rewrite (sumf_to_ext E load ld) by auto. rewrite (sumf_to_ext E (fun e => load e * load e)%R (fun e => ld e * ld e)%R) by (intros; rewrite EQ; auto).
  rewrite <- !sumf_to. split; [exact F|]. split; [exact N|]. rewrite Z. split; intros H e e' He He'; specialize (H e e' He He'); rewrite ?EQ in *; auto.
Qed.

(** ** Arrays by group *)
Definition shaped (G : nat) (a : arr) : Prop := match a with Scalar _ => True | Array l => length l = G end.
Lemma zip_fl_ok f : forall a b, length a = length b -> exists r, zip_fl f a b = Ok r /\ length r = length a /\ forall g, g < length a -> nth g r None = f (nth g a None) (nth g b None).
Proof.
  induction a as [|x a IH]; destruct b as [|y b]; simpl; intros H; try discriminate.
  - exists []. repeat split; auto. intros; lia.
  - destruct (IH b ltac:(lia)) as (r & E & L & N). rewrite E. cbn [bind]. exists (f x y :: r). simpl. repeat split; auto. intros [|g] Hg; simpl; auto. apply N. lia.
Qed.
Lemma nth_map_in {A B} (f : A -> B) l d d' g : g < length l -> nth g (map f l) d = f (nth g l d').
Proof. intros H. rewrite nth_indep with (d' := f d') by (rewrite map_length; auto). apply map_nth. Qed.
Lemma op_shaped f G a b : shaped G a -> shaped G b -> exists r, arr_op f a b = Ok r /\ shaped G r /\ forall g, g < G -> entry r g = f (entry a g) (entry b g).
Proof.
  destruct a as [x|l], b as [y|m]; simpl; intros Ha Hb.
  - eexists. repeat split; auto.
  - eexists. split; [reflexivity|]. cbn [shaped]. rewrite map_length. split; auto. intros g Hg. cbn [entry]. apply nth_map_in. lia.
  - assert (E : arr_op f (Array l) (Scalar y) = Ok (Array (map (fun x => f x y) l))) by (destruct l as [|? [|? ?]]; auto). cbn [arr_op] in E. rewrite E. eexists. split; [reflexivity|]. cbn [shaped]. rewrite map_length. split; auto. intros g Hg. cbn [entry]. apply (nth_map_in (fun x => f x y)). lia.
  - destruct l as [|x [|x' l]].
    + destruct m as [|y m]; simpl in *; [|lia]. eexists. split; [reflexivity|]. split; auto. intros; lia.
    + eexists. split; [reflexivity|]. cbn [shaped]. rewrite map_length. split; auto. intros g Hg. simpl in Ha. subst G. replace g with 0 by lia. destruct m; simpl in *; [lia|auto].
    + destruct m as [|y [|y' m]]; simpl in Ha, Hb; try lia. destruct (zip_fl_ok f (x :: x' :: l) (y :: y' :: m) ltac:(simpl; lia)) as (r & E & L & N). rewrite E. cbn [bind]. eexists. split; [reflexivity|]. cbn [shaped].
      split; [simpl in L; lia|]. intros g Hg. apply N. simpl. lia.
Qed.
Lemma sum_shaped G : forall l a, shaped G a -> Forall (shaped G) l -> exists r, rfold (arr_op fadd) l a = Ok r /\ shaped G r /\
  (forall g, g < G -> entry r g = fold_left fadd (map (fun x => entry x g) l) (entry a g)) /\
  ((exists x, a = Scalar x) -> Forall (fun y => exists x, y = Scalar x) l -> exists x, r = Scalar x).
Proof.
  induction l as [|x l IH]; intros a Ha F; cbn [rfold map fold_left].
  - exists a. repeat split; auto.
  - inversion F; subst. destruct (op_shaped fadd G a x Ha H1) as (r & E & Sr & N). rewrite E. cbn [bind]. destruct (IH r Sr H2) as (r' & E' & S' & N' & SC). exists r'. repeat split; auto.
    + intros g Hg. rewrite N', N by auto. auto.
    + intros [y ->] FS. inversion FS as [|? ? [z ->] FS']; subst. simpl in E. apply Ok_inj in E. subst r. apply SC; eauto.
Qed.
Lemma weighted_shaped G args : Forall (fun wx => shaped G (snd wx)) args -> exists r, weighted_sum args = Ok r /\ shaped G r /\
  forall g, g < G -> entry r g = fold_left fadd (map (fun wx => fmul (entry (snd wx) g) (Some (fst wx))) (filter (fun wx => if Rlt_dec 0 (fst wx) then true else false) args)) (Some 0%R).
Proof.
  intros F. unfold weighted_sum. set (l := filter _ args). assert (Fl : Forall (fun wx => shaped G (snd wx)) l).
  { rewrite Forall_forall in *. intros x H. apply filter_In in H. apply F. tauto. }
  clearbody l. clear F args.
  assert (K : exists l', rmap (fun wx => arr_op fmul (snd wx) (Scalar (Some (fst wx)))) l = Ok l' /\ Forall (shaped G) l' /\ forall g, g < G -> map (fun x => entry x g) l' = map (fun wx => fmul (entry (snd wx) g) (Some (fst wx))) l).
  { induction l as [|wx l IH]; [exists []; repeat split; auto; constructor|]. inversion Fl; subst. destruct (IH H2) as (l' & E & Fl' & N). destruct (op_shaped fmul G (snd wx) (Scalar (Some (fst wx))) H1 Logic.I) as (r & Er & Sr & Nr).
    exists (r :: l'). split; [|split].
    - apply rmap_ok. constructor; auto. apply rmap_ok. auto.
    - constructor; auto.
    - intros g Hg. cbn [map]. rewrite N, Nr by auto. auto. }
  destruct K as (l' & E & Fl' & N). rewrite E. cbn [bind]. unfold py_sum. destruct (sum_shaped G l' (Scalar (Some 0%R)) Logic.I Fl') as (r & Er & Sr & Nr & _). exists r. repeat split; auto.
  intros g Hg. rewrite Nr, N by auto. auto.
Qed.
Lemma groups_shaped G f : shaped G (groups G f).
Proof. cbn. rewrite map_length, seq_length. auto. Qed.
Lemma groups_entry G f g : g < G -> entry (groups G f) g = f g.
Proof. intros H. cbn [entry groups]. rewrite (nth_map_in f _ _ 0) by (rewrite seq_length; auto). rewrite seq_nth; auto. Qed.
Lemma weight_pos w x : fmul (Some x) (Some w) = Some (x * w)%R.
Proof. auto. Qed.
Lemma filter_pos w : (if Rlt_dec 0 w then true else false) = true -> Rmax 0 w = w.
Proof. destruct (Rlt_dec 0 w); [|discriminate]. intros _. apply Rmax_right. lra. Qed.
Lemma filter_neg w : (if Rlt_dec 0 w then true else false) = false -> Rmax 0 w = 0%R.
Proof. destruct (Rlt_dec 0 w); [discriminate|]. intros _. apply Rmax_left. lra. Qed.

(** ** The router *)
Lemma softmax_row E row : 1 <= E -> (forall e, (0 < softmax E row e)%R) /\ sum_to E (softmax E row) = 1%R.
Proof.
  intros HE. assert (P : (0 < sumf E (fun i => exp (row i)))%R) by (apply sumf_pos; auto; intros; apply exp_pos). split.
  - intros e. apply Rdiv_lt_0_compat; auto. apply exp_pos.
  - rewrite <- sumf_to. unfold softmax, Rdiv. rewrite sumf_scale_r. apply Rinv_r. lra.
Qed.
Lemma softmax_total Sz E (rows : nat -> nat -> R) : 1 <= Sz -> 1 <= E -> (0 < sum_to Sz (fun s => sum_to E (softmax E (rows s))))%R.
Proof. intros HS HE. rewrite <- sumf_to. apply sumf_pos; auto. intros. destruct (softmax_row E (rows i) HE) as [_ ->]. lra. Qed.
Lemma get1 {V} (k : str) (v : V) r : dget ((k, v) :: r) k = Some v.
Proof. simpl. unfold str_eqb. destruct (list_eq_dec Nat.eq_dec k k); [auto|congruence]. Qed.

Lemma router_values_det cdf G Sz E K det std gw iw lw logits normal : 1 <= Sz -> 1 <= K -> K <= E -> det = true \/ std = 0%R ->
  exists gates m aux gl il, compute_gates_softmax_and_metrics cdf G Sz E K det std gw iw lw logits normal = Ok (gates, m) /\
    gates = (fun g s => softmax E (logits g s)) /\
    dget m k_aux = Some (Leaf aux) /\ dget m k_gshard = Some (Leaf gl) /\ dget m k_importance = Some (Leaf il) /\ dget m k_load = None /\
    forall g, g < G -> exists a b, entry gl g = Some a /\ gshard_auxiliary_loss Sz E (gates g) = Some a /\
      entry il g = Some b /\ importance_auxiliary_loss Sz E (fun s => softmax E (logits g s)) = Some b /\
      entry aux g = Some (Rmax 0 gw * a + Rmax 0 iw * b)%R.
Proof.
  intros HS HK HE D. unfold compute_gates_softmax_and_metrics. replace (K <=? E) with true by (symmetry; apply Nat.leb_le; auto). replace (1 <=? K) with true by (symmetry; apply Nat.leb_le; auto).
  cbn [andb negb]. replace (det || _) with true. 2:{ destruct D as [->| ->]; auto. destruct (Req_EM_T 0 0); [destruct det; auto|congruence]. }
  cbv zeta. set (gl := groups G (fun g => gshard_auxiliary_loss _ _ _)). set (il := groups G (fun g => importance_auxiliary_loss _ _ _)).
  destruct (weighted_shaped G [(gw, gl); (iw, il)]) as (aux & EA & SA & NA).
  { repeat constructor; apply groups_shaped. }
  rewrite EA. cbn [bind]. do 5 eexists. split; [reflexivity|]. split; [reflexivity|]. split; [reflexivity|]. split; [reflexivity|]. split; [reflexivity|]. split; [reflexivity|].
  intros g Hg. destruct (gshard_ok Sz E (fun s => softmax E (logits g s)) (fun s => argmax E (softmax E (logits g s))) HS ltac:(lia)) as (a & A & _). { intros. apply argmax_ok. lia. }
  destruct (importance_ok Sz E (fun s => softmax E (logits g s)) ltac:(lia)) as (b & B & _). { apply softmax_total; lia. }
  assert (EG : entry gl g = Some a) by (unfold gl; rewrite groups_entry by auto; exact A). assert (EI : entry il g = Some b) by (unfold il; rewrite groups_entry by auto; exact B).
  exists a, b. split; [exact EG|]. split; [exact A|]. split; [exact EI|]. split; [exact B|]. rewrite NA by auto. cbn [filter fst].
  destruct (if Rlt_dec 0 gw then true else false) eqn:F1; destruct (if Rlt_dec 0 iw then true else false) eqn:F2; cbn [map fold_left fst snd]; rewrite ?EG, ?EI; cbn [fmul fadd];
    first [rewrite (filter_pos gw) by assumption | rewrite (filter_neg gw) by assumption]; first [rewrite (filter_pos iw) by assumption | rewrite (filter_neg iw) by assumption]; f_equal; lra.
Qed.
Lemma router_values_noisy cdf G Sz E K std gw iw lw logits normal : 1 <= Sz -> 1 <= K -> K <= E -> std <> 0%R ->
  let noisy := fun g s e => (logits g s e + std / INR E * normal g s e)%R in
  exists gates m aux gl il ll, compute_gates_softmax_and_metrics cdf G Sz E K false std gw iw lw logits normal = Ok (gates, m) /\
    (forall g s e, gates g s e = softmax E (noisy g s) e) /\
    dget m k_aux = Some (Leaf aux) /\ dget m k_gshard = Some (Leaf gl) /\ dget m k_importance = Some (Leaf il) /\ dget m k_load = Some (Leaf ll) /\
    forall g, g < G -> exists a b, entry gl g = Some a /\ gshard_auxiliary_loss Sz E (gates g) = Some a /\
      entry il g = Some b /\ importance_auxiliary_loss Sz E (fun s => softmax E (logits g s)) = Some b /\
      entry ll g = load_auxiliary_loss cdf Sz E K (std / INR E) (logits g) (noisy g) /\
      ((lw <= 0)%R -> entry aux g = Some (Rmax 0 gw * a + Rmax 0 iw * b)%R) /\
      (forall c, entry ll g = Some c -> entry aux g = Some (Rmax 0 gw * a + Rmax 0 iw * b + Rmax 0 lw * c)%R).
Proof.
  intros HS HK HE D noisy. unfold compute_gates_softmax_and_metrics. replace (K <=? E) with true by (symmetry; apply Nat.leb_le; auto). replace (1 <=? K) with true by (symmetry; apply Nat.leb_le; auto).
  cbn [andb negb]. replace (false || _) with false. 2:{ destruct (Req_EM_T std 0); [contradiction|auto]. }
  cbv zeta. replace (1 / INR E * std)%R with (std / INR E)%R by (unfold Rdiv; ring). fold noisy.
  set (gl := groups G (fun g => gshard_auxiliary_loss _ _ _)). set (il := groups G (fun g => importance_auxiliary_loss _ _ _)). set (ll := groups G (fun g => load_auxiliary_loss _ _ _ _ _ _ _)).
  destruct (weighted_shaped G [(gw, gl); (iw, il); (lw, ll)]) as (aux & EA & SA & NA).
  { repeat constructor; apply groups_shaped. }
  rewrite EA. cbn [bind]. do 6 eexists. split; [reflexivity|]. split; [reflexivity|]. split; [reflexivity|]. split; [reflexivity|]. split; [reflexivity|]. split; [reflexivity|].
  intros g Hg. destruct (gshard_ok Sz E (fun s => softmax E (noisy g s)) (fun s => argmax E (softmax E (noisy g s))) HS ltac:(lia)) as (a & A & _). { intros. apply argmax_ok. lia. }
  destruct (importance_ok Sz E (fun s => softmax E (logits g s)) ltac:(lia)) as (b & B & _). { apply softmax_total; lia. }
  assert (EG : entry gl g = Some a) by (unfold gl; rewrite groups_entry by auto; exact A). assert (EI : entry il g = Some b) by (unfold il; rewrite groups_entry by auto; exact B).
  exists a, b. split; [exact EG|]. split; [exact A|]. split; [exact EI|]. split; [exact B|]. split; [|split].
  - unfold ll. rewrite groups_entry; auto.
  - intros L. rewrite NA by auto. cbn [filter fst]. replace (if Rlt_dec 0 lw then true else false) with false by (destruct (Rlt_dec 0 lw); [lra|auto]).
    destruct (if Rlt_dec 0 gw then true else false) eqn:F1; destruct (if Rlt_dec 0 iw then true else false) eqn:F2; cbn [map fold_left fst snd]; rewrite ?EG, ?EI; cbn [fmul fadd];
    first [rewrite (filter_pos gw) by assumption | rewrite (filter_neg gw) by assumption]; first [rewrite (filter_pos iw) by assumption | rewrite (filter_neg iw) by assumption]; f_equal; lra.
  - intros c C. rewrite NA by auto. cbn [filter fst].
    destruct (if Rlt_dec 0 gw then true else false) eqn:F1; destruct (if Rlt_dec 0 iw then true else false) eqn:F2; destruct (if Rlt_dec 0 lw then true else false) eqn:F3; cbn [map fold_left fst snd]; rewrite ?C; rewrite ?EG, ?EI; cbn [fmul fadd];
    first [rewrite (filter_pos gw) by assumption | rewrite (filter_neg gw) by assumption]; first [rewrite (filter_pos iw) by assumption | rewrite (filter_neg iw) by assumption]; first [rewrite (filter_pos lw) by assumption | rewrite (filter_neg lw) by assumption]; f_equal; lra.
Qed.
Lemma router_error cdf G Sz E K det std gw iw lw logits normal :
  compute_gates_softmax_and_metrics cdf G Sz E K det std gw iw lw logits normal = Raise ValueError <-> ~ (1 <= K <= E).
Proof.
  split.
  - intros H [A B]. unfold compute_gates_softmax_and_metrics in H. replace (K <=? E) with true in H by (symmetry; apply Nat.leb_le; auto). replace (1 <=? K) with true in H by (symmetry; apply Nat.leb_le; auto). cbn [andb negb] in H. cbv zeta in H.
    destruct (det || _).
    + match goal with H : bind (weighted_sum ?l) _ = _ |- _ => destruct (weighted_shaped G l) as (aux & EA & _) end. { repeat constructor; apply groups_shaped. } rewrite EA in H. discriminate.
    + match goal with H : bind (weighted_sum ?l) _ = _ |- _ => destruct (weighted_shaped G l) as (aux & EA & _) end. { repeat constructor; apply groups_shaped. } rewrite EA in H. discriminate.
  - intros H. unfold compute_gates_softmax_and_metrics. destruct (Nat.leb_spec K E); destruct (Nat.leb_spec 1 K); auto. lia.
Qed.

(** ** Sums of losses of the layers *)
Fixpoint zadd (a b : list R) : list R := match a, b with x :: a, y :: b => (x + y)%R :: zadd a b | _, _ => [] end.
Lemma zip_fl_some : forall a b, length a = length b -> zip_fl fadd (map Some a) (map Some b) = Ok (map Some (zadd a b)).
Proof. induction a as [|x a IH]; destruct b as [|y b]; simpl; intros H; try discriminate; auto. rewrite IH by lia. auto. Qed.
Lemma zadd_len : forall a b, length a = length b -> length (zadd a b) = length a.
Proof. induction a as [|x a IH]; destruct b as [|y b]; simpl; intros H; try discriminate; auto. Qed.
Lemma zadd_sum : forall a b, length a = length b -> fold_right Rplus 0%R (zadd a b) = (fold_right Rplus 0 a + fold_right Rplus 0 b)%R.
Proof. induction a as [|x a IH]; destruct b as [|y b]; simpl; intros H; try discriminate; [lra|]. rewrite IH by lia. lra. Qed.
Lemma fold_shift x l : fold_right Rplus 0%R (map (Rplus x) l) = (INR (length l) * x + fold_right Rplus 0 l)%R.
Proof. induction l as [|y l IH]; [simpl; lra|]. cbn [map fold_right length]. rewrite IH, S_INR. lra. Qed.
Lemma mean_shift x l : l <> [] -> mean (map (Rplus x) l) = (x + mean l)%R.
Proof.
  intros N. unfold mean. rewrite fold_shift, map_length. assert (P : (0 < INR (length l))%R) by (apply INR_pos; destruct l; [congruence|simpl; lia]). field. lra.
Qed.
Lemma mean_zadd a b : length a = length b -> mean (zadd a b) = (mean a + mean b)%R.
Proof. intros L. unfold mean. rewrite zadd_sum, zadd_len by auto. rewrite <- L. unfold Rdiv. ring. Qed.
Lemma mean_loss_add G a b u v : 1 <= G -> mean_loss G a u -> mean_loss G b v -> exists r, arr_op fadd a b = Ok r /\ mean_loss G r (u + v).
Proof.
  intros HG [-> | (l & -> & L & ->)] [-> | (m & -> & L' & ->)].
  - eexists. split; [reflexivity|]. left. auto.
  - eexists. split; [reflexivity|]. right. exists (map (Rplus u) m). rewrite !map_map. split; auto. rewrite map_length. split; auto. symmetry. apply mean_shift. destruct m; simpl in *; [lia|congruence].
  - exists (Array (map Some (map (Rplus v) l))). split.
    + transitivity (Ok (Array (map (fun x => fadd x (Some v)) (map Some l)))); [destruct l as [|? [|? ?]]; auto|]. do 2 f_equal. rewrite !map_map. apply map_ext. intros. simpl. f_equal. lra.
    + right. exists (map (Rplus v) l). split; auto. rewrite map_length. split; auto. rewrite mean_shift; [lra|]. destruct l; simpl in *; [lia|congruence].
  - exists (Array (map Some (zadd l m))). split.
    + destruct l as [|x [|x' l]]; [simpl in L; lia| |].
      * destruct m as [|y [|]]; simpl in L, L'; try lia. auto.
      * destruct m as [|y [|y' m]]; simpl in L, L'; try lia.
        change (arr_op fadd (Array (map Some (x :: x' :: l))) (Array (map Some (y :: y' :: m)))) with (bind (zip_fl fadd (map Some (x :: x' :: l)) (map Some (y :: y' :: m))) (fun r => Ok (Array r))).
        rewrite zip_fl_some by (simpl; lia). auto.
    + right. exists (zadd l m). split; auto. split; [rewrite zadd_len by lia; auto|]. symmetry. apply mean_zadd. lia.
Qed.
Lemma mean_loss_sum G : 1 <= G -> forall l vs a u, mean_loss G a u -> Forall2 (mean_loss G) l vs -> exists r, rfold (arr_op fadd) l a = Ok r /\ mean_loss G r (u + fold_right Rplus 0 vs)%R.
Proof.
  intros HG. induction l as [|x l IH]; intros vs a u Ha F; inversion F; subst; cbn [rfold fold_right].
  - exists a. split; auto. replace (u + 0)%R with u by lra. auto.
  - destruct (mean_loss_add G a x u y HG Ha H1) as (r & E & Hr). rewrite E. cbn [bind]. destruct (IH _ _ _ Hr H3) as (r' & E' & Hr'). exists r'. split; auto. replace (u + (y + fold_right Rplus 0 l'))%R with (u + y + fold_right Rplus 0 l')%R by lra. auto.
Qed.
Lemma mean_arr_some l : l <> [] -> mean_arr (Array (map Some l)) = Some (mean l).
Proof.
  intros N. unfold mean_arr. rewrite fsum_some, map_length. unfold mean. apply fdiv_ok. destruct l; [congruence|simpl; lia].
Qed.
Lemma mean_loss_mean G a v : 1 <= G -> mean_loss G a v -> mean_arr a = Some v.
Proof. intros HG [-> | (l & -> & L & ->)]; auto. apply mean_arr_some. destruct l; simpl in *; [lia|congruence]. Qed.

(** ** Keys *)
From Verif Require BaseModel BaseProofs2.
Lemma block_key_inj i j : block_key i = block_key j -> i = j.
Proof.
  unfold block_key. intros H. apply app_inv_head in H.
  assert (E : BaseModel.str_of_N (N.of_nat i) = BaseModel.str_of_N (N.of_nat j)).
  { revert H. generalize (BaseModel.str_of_N (N.of_nat i)) (BaseModel.str_of_N (N.of_nat j)). intros l. induction l as [|x l IH]; intros [|y l0]; simpl; intros H; try discriminate; auto. injection H as H1 H2. apply N2Nat.inj in H1. subst. f_equal. auto. }
  assert (K := BaseProofs2.int_of_str 0 (N.of_nat i)). simpl in K. rewrite E in K. assert (K' := BaseProofs2.int_of_str 0 (N.of_nat j)). simpl in K'. rewrite K in K'. apply Nat2N.inj in K'. auto.
Qed.
Lemma key_ne_aux i : block_key i <> k_aux.
Proof. unfold block_key, k_aux. simpl. discriminate. Qed.
Lemma key_ne_main i : block_key i <> k_main.
Proof. unfold block_key, k_main. simpl. discriminate. Qed.
Lemma key_ne_total i : block_key i <> k_total.
Proof. unfold block_key, k_total. simpl. discriminate. Qed.
Lemma dget_other {V} (d : list (str * V)) k v k' : k <> k' -> dget (d ++ [(k, v)]) k' = dget d k'.
Proof.
  intros N. induction d as [|[a b] d IH]; simpl.
  - unfold str_eqb. destruct (list_eq_dec Nat.eq_dec k k'); congruence.
  - rewrite IH. auto.
Qed.
Lemma dget_dset_same {V} (d : list (str * V)) k v : dget (dset d k v) k = Some v.
Proof.
  induction d as [|[a b] d IH]; simpl; unfold str_eqb in *.
  - destruct (list_eq_dec Nat.eq_dec k k); congruence.
  - destruct (list_eq_dec Nat.eq_dec a k) eqn:E; simpl; unfold str_eqb; rewrite E; auto.
Qed.
Lemma dget_dset_other {V} (d : list (str * V)) k v k' : k <> k' -> dget (dset d k v) k' = dget d k'.
Proof.
  intros N. induction d as [|[a b] d IH]; simpl; unfold str_eqb in *.
  - destruct (list_eq_dec Nat.eq_dec k k'); congruence.
  - destruct (list_eq_dec Nat.eq_dec a k); simpl; unfold str_eqb.
    + destruct (list_eq_dec Nat.eq_dec a k'); congruence.
    + destruct (list_eq_dec Nat.eq_dec a k'); auto.
Qed.
Lemma dget_map {V W} (f : V -> W) d k : dget (map (fun kc => (fst kc, f (snd kc))) d) k = option_map f (dget d k).
Proof. induction d as [|[a b] d IH]; simpl; auto. destruct (TreeModel.str_eqb a k); auto. Qed.

(** ** Objectives *)
Lemma objective_total metrics losses aux :
  (forall t, dget metrics k_aux = Some t -> exists a, t = Leaf a) ->
  match dget metrics k_aux with None => Some 0%R | Some (Leaf a) => mean_arr a | Some (Node _) => None end = aux ->
  exists m, objective metrics losses = Ok (fadd (mean_arr (Array losses)) aux, m) /\
    dget m k_main = Some (Leaf (mean_arr (Array losses))) /\ dget m k_total = Some (Leaf (fadd (mean_arr (Array losses)) aux)) /\
    forall k, k <> k_main -> k <> k_total -> dget m k = option_map tree_mean (dget metrics k).
Proof.
  intros W E. unfold objective. cbv zeta. rewrite dget_map, dget_dset_same. cbn [option_map tree_mean mean_arr bind]. rewrite dget_map, dget_dset_other by discriminate.
  destruct (dget metrics k_aux) as [t|] eqn:D; cbn [option_map].
  - destruct (W t eq_refl) as (a & ->). cbn [tree_mean bind]. subst aux. eexists. split; [reflexivity|]. split; [|split].
    + rewrite dget_dset_other by discriminate. rewrite dget_map, dget_dset_same. auto.
    + apply dget_dset_same.
    + intros k N1 N2. rewrite dget_dset_other by auto. rewrite dget_map, dget_dset_other by auto. auto.
  - cbn [bind]. subst aux. eexists. split; [reflexivity|]. split; [|split].
    + rewrite dget_dset_other by discriminate. rewrite dget_map, dget_dset_same. auto.
    + apply dget_dset_same.
    + intros k N1 N2. rewrite dget_dset_other by auto. rewrite dget_map, dget_dset_other by auto. auto.
Qed.

Section Enc.
Variable X : Type.
Variable moe_block : nat -> X -> res (X * metrics_t).
Variable dense_block : nat -> X -> res X.
Variable L : nat.
Variable layers : list nat.
Variable xs : nat -> X.
Variable ms : nat -> metrics_t.
Hypothesis chain : forall i, i < L ->
  (In i layers -> moe_block i (xs i) = Ok (xs (S i), ms i)) /\ (~ In i layers -> dense_block i (xs i) = Ok (xs (S i))).
Let is_moe := fun i => existsb (Nat.eqb i) layers.
Lemma is_moe_in i : is_moe i = true <-> In i layers.
Proof using. clear chain X moe_block dense_block xs L. unfold is_moe. rewrite existsb_exists. split; [intros (x & H & E); apply Nat.eqb_eq in E; subst; auto|intros H; exists i; rewrite Nat.eqb_refl; auto]. Qed.
Definition collected (k : nat) : metrics_t := map (fun i => (block_key i, Node (ms i))) (filter (fun i => existsb (Nat.eqb i) layers) (seq 0 k)).
Lemma collected_new k i : k <= i -> ~ In (block_key i) (map fst (collected k)).
Proof using.
  clear chain X moe_block dense_block xs L. unfold collected. rewrite map_map. intros H I. apply in_map_iff in I. destruct I as (j & E & I). cbn [fst] in E. apply block_key_inj in E. apply filter_In in I. destruct I as [I _]. apply in_seq in I. lia.
Qed.
Lemma encoder_loop k : k <= L ->
  rfold (fun st block =>
          let '(x, metrics) := st in
          if existsb (Nat.eqb block) layers
          then bind (moe_block block x) (fun r => Ok (fst r, dset metrics (block_key block) (Node (snd r))))
          else bind (dense_block block x) (fun x => Ok (x, metrics)))
        (seq 0 k) (xs 0, []) = Ok (xs k, collected k).
Proof using chain.
  induction k as [|k IH]; intros Hk; auto. rewrite seq_S, rfold_app, IH by lia. cbn [bind rfold Nat.add]. destruct (chain k ltac:(lia)) as [C1 C2].
  unfold collected. rewrite seq_S, filter_app, map_app. cbn [filter Nat.add]. destruct (existsb (Nat.eqb k) layers) eqn:E.
  - rewrite C1 by (apply is_moe_in; auto). cbn [bind fst snd map]. rewrite dset_new by (apply collected_new; auto). auto.
  - rewrite C2 by (intros I; apply is_moe_in in I; unfold is_moe in I; congruence). cbn [bind map]. rewrite app_nil_r. auto.
Qed.
Lemma encoder_ok G (a : nat -> arr) (v : nat -> R) : 1 <= G ->
  (forall i, i < L -> In i layers -> dget (ms i) k_aux = Some (Leaf (a i)) /\ mean_loss G (a i) (v i)) ->
  exists aux, encoder X moe_block dense_block L layers (xs 0) = Ok (xs L, collected L ++ [(k_aux, Leaf aux)]) /\
    mean_loss G aux (sum_to L (fun i => if existsb (Nat.eqb i) layers then v i else 0%R)).
Proof using chain.
  intros HG A. unfold encoder. rewrite encoder_loop by auto. cbn [bind].
  set (idx := filter (fun i => existsb (Nat.eqb i) layers) (seq 0 L)).
  assert (IX : forall i, In i idx -> i < L /\ In i layers) by (intros i H; apply filter_In in H; destruct H as [H1 H2]; apply in_seq in H1; split; [lia|apply is_moe_in; auto]).
  assert (R : rmap (fun kv : str * tree arr => get_aux (snd kv)) (collected L) = Ok (map a idx)).
  { apply rmap_ok. unfold collected. fold idx. clear - A IX. induction idx as [|i l IH]; cbn [map]; constructor; auto.
    - cbn [snd get_aux]. destruct (IX i (or_introl eq_refl)) as [H1 H2]. destruct (A i H1 H2) as [-> _]. auto.
    - apply IH. intros; apply IX; right; auto. }
  replace (rmap _ (collected L)) with (Ok (map a idx)) by (symmetry; exact R). cbn [bind]. unfold py_sum. destruct (mean_loss_sum G HG (map a idx) (map v idx) (Scalar (Some 0%R)) 0%R) as (r & E & M).
  - left. auto.
  - clear - A IX. induction idx as [|i l IH]; cbn [map]; constructor; auto.
    + destruct (IX i (or_introl eq_refl)) as [H1 H2]. apply A; auto.
    + apply IH. intros; apply IX; right; auto.
  - rewrite E. cbn [bind]. exists r. split.
    + rewrite dset_new; auto. unfold collected. rewrite map_map. intros I. apply in_map_iff in I. destruct I as (i & E1 & _). exact (key_ne_aux i E1).
    + replace (sum_to L _) with (0 + fold_right Rplus 0 (map v idx))%R; auto. rewrite Rplus_0_l. unfold sum_to, idx. clear. induction (seq 0 L) as [|i l IH]; simpl; auto. destruct (existsb (Nat.eqb i) layers); simpl; rewrite IH; lra.
Qed.
Lemma encoder_missing i : i < L -> In i layers -> dget (ms i) k_aux = None ->
  (forall j, j < L -> In j layers -> j <> i -> exists a, dget (ms j) k_aux = Some (Leaf a)) ->
  encoder X moe_block dense_block L layers (xs 0) = Raise KeyError.
Proof using chain.
  intros Hi I D O. unfold encoder. rewrite encoder_loop by auto. cbn [bind].
  assert (R : rmap (fun kv : str * tree arr => get_aux (snd kv)) (collected L) = Raise KeyError).
  { unfold collected. set (idx := filter _ (seq 0 L)).
    assert (IX : forall i, In i idx -> i < L /\ In i layers) by (intros j H; apply filter_In in H; destruct H as [H1 H2]; apply in_seq in H1; split; [lia|apply is_moe_in; auto]).
    assert (Ii : In i idx) by (apply filter_In; split; [apply in_seq; lia|apply is_moe_in; auto]).
    clearbody idx. induction idx as [|j l IH]; [destruct Ii|]. cbn [map rmap snd get_aux]. destruct (Nat.eq_dec j i) as [->|N].
    - simpl. rewrite D. auto.
    - destruct (IX j (or_introl eq_refl)) as [H1 H2]. destruct (O j H1 H2 N) as (b & Db). simpl. rewrite Db. cbn [bind]. destruct Ii as [Ii|Ii]; [congruence|].
      assert (Q := IH ltac:(intros; apply IX; right; auto) Ii). simpl in Q. rewrite Q. auto. }
  replace (rmap _ (collected L)) with (@Raise (list arr) KeyError) by (symmetry; exact R). auto.
Qed.
Lemma classification_total G (a : nat -> arr) (v : nat -> R) head ls : 1 <= G ->
  (forall i, i < L -> In i layers -> dget (ms i) k_aux = Some (Leaf (a i)) /\ mean_loss G (a i) (v i)) ->
  head (xs L) = map Some ls -> ls <> [] ->
  let aux := sum_to L (fun i => if existsb (Nat.eqb i) layers then v i else 0%R) in
  exists m, classification_objective moe_block dense_block L layers head (xs 0) = Ok (Some (mean ls + aux)%R, m) /\
    dget m k_main = Some (Leaf (Some (mean ls))) /\ dget m k_aux = Some (Leaf (Some aux)) /\ dget m k_total = Some (Leaf (Some (mean ls + aux)%R)) /\
    forall i, i < L -> In i layers -> dget m (block_key i) = Some (tree_mean (Node (ms i))).
Proof using chain.
  intros HG A H NE aux. destruct (encoder_ok G a v HG A) as (r & E & M). unfold classification_objective. rewrite E. cbn [bind fst snd]. rewrite H.
  assert (DA : dget (collected L ++ [(k_aux, Leaf r)]) k_aux = Some (Leaf r)).
  { rewrite <- dset_new; [apply dget_dset_same|]. unfold collected. rewrite map_map. intros I. apply in_map_iff in I. destruct I as (i & E1 & _). exact (key_ne_aux i E1). }
  destruct (objective_total (collected L ++ [(k_aux, Leaf r)]) (map Some ls) (Some aux)) as (m & O & M1 & M2 & M3).
  - intros t Ht. rewrite DA in Ht. injection Ht as <-. eauto.
  - rewrite DA. apply (mean_loss_mean G); auto.
  - rewrite mean_arr_some in * by auto. cbn [fadd] in *. exists m. split; [exact O|]. split; [exact M1|]. split; [|split; [exact M2|]].
    + rewrite M3 by discriminate. rewrite DA. cbn [option_map tree_mean]. rewrite (mean_loss_mean G r aux); auto.
    + intros i Hi I. rewrite M3 by (apply key_ne_main || apply key_ne_total). rewrite dget_other by (intros Q; symmetry in Q; exact (key_ne_aux i Q)).
      replace (dget (collected L) (block_key i)) with (Some (Node (ms i))); auto. symmetry. unfold collected.
      set (idx := filter _ (seq 0 L)). assert (Ii : In i idx) by (apply filter_In; split; [apply in_seq; lia|apply is_moe_in; auto]). clearbody idx. clear - Ii.
      induction idx as [|j l IH]; [destruct Ii|]. cbn [map dget]. unfold TreeModel.str_eqb. destruct (list_eq_dec Nat.eq_dec (block_key j) (block_key i)) as [Q|Q].
      * apply block_key_inj in Q. subst. auto.
      * apply IH. destruct Ii as [->|]; [congruence|auto].
Qed.
End Enc.

(** ** Contrastive objective *)
Lemma log_sigmoid_eq x : (- log_sigmoid x = ln (1 + exp (- x)))%R.
Proof. unfold log_sigmoid. assert (P := exp_pos (- x)). rewrite ln_Rinv by lra. lra. Qed.
Lemma sumf_opp n f : (- sumf n f)%R = sumf n (fun i => - f i)%R.
Proof. induction n as [|n IH]; cbn [sumf]; [lra|]. rewrite <- IH. lra. Qed.
Lemma sigmoid_ok N logits : sigmoid_loss N N logits = Ok (map Some (map (fun m => sum_to N (fun n => pair_loss logits m n)) (seq 0 N))).
Proof.
  unfold sigmoid_loss. rewrite Nat.eqb_refl. cbn [negb]. rewrite map_map. f_equal. apply map_ext. intros m. f_equal. rewrite sumf_opp, <- sumf_to. apply sumf_ext. intros n _. rewrite log_sigmoid_eq. unfold pair_loss. do 3 f_equal.
  destruct (m =? n); lra.
Qed.
Lemma sigmoid_err M N logits : M <> N -> sigmoid_loss M N logits = Raise ValueError.
Proof. intros H. unfold sigmoid_loss. destruct (Nat.eqb_spec M N); [contradiction|auto]. Qed.
Lemma pair_loss_pos logits m n : (0 < pair_loss logits m n)%R.
Proof. unfold pair_loss. rewrite <- ln_1. apply ln_increasing; [lra|]. set (x := exp _). assert (0 < x)%R by apply exp_pos. lra. Qed.
Lemma sigmoid_perm N logits p : Permutation (map p (seq 0 N)) (seq 0 N) -> forall m, m < N ->
  sum_to N (fun n => pair_loss (fun a b => logits (p a) (p b)) m n) = sum_to N (fun n => pair_loss logits (p m) n).
Proof.
  intros P m Hm. rewrite <- (sum_to_perm N (fun n => pair_loss logits (p m) n) p P). apply sumf_to_ext. intros n Hn. unfold pair_loss.
  replace (p m =? p n) with (m =? n); auto. destruct (Nat.eqb_spec m n) as [->|D]; [rewrite Nat.eqb_refl; auto|].
  symmetry. apply Nat.eqb_neq. intros E. apply D.
  assert (ND : NoDup (map p (seq 0 N))) by (eapply Permutation_NoDup; [apply Permutation_sym; exact P|apply seq_NoDup]).
  apply (proj1 (NoDup_nth (map p (seq 0 N)) 0) ND); rewrite ?map_length, ?seq_length; auto.
  rewrite !(nth_map_in p _ _ 0) by (rewrite seq_length; auto). rewrite !seq_nth by auto. auto.
Qed.
Lemma sigmoid_transpose N logits : sum_to N (fun m => sum_to N (fun n => pair_loss (fun a b => logits b a) m n)) = sum_to N (fun m => sum_to N (fun n => pair_loss logits m n)).
Proof.
  rewrite <- !sumf_to. rewrite (sumf_ext N _ (fun m => sumf N (fun n => pair_loss logits n m))).
  - rewrite sumf_swap. apply sumf_ext. intros. rewrite sumf_to. auto.
  - intros m _. rewrite <- sumf_to. apply sumf_ext. intros n _. unfold pair_loss. rewrite (Nat.eqb_sym m n). auto.
Qed.
Lemma unit_norm D z i : (sumf D (fun d => (unit_rows D z i d * unit_rows D z i d)%R) <= 1)%R.
Proof.
  unfold unit_rows. set (s := sumf D (fun k => (z i k * z i k)%R)). assert (Hs : (0 <= s)%R) by (apply (sq_nonneg D (z i))).
  assert (He : (0 < eps8)%R) by (unfold eps8; apply Rinv_0_lt_compat; lra). assert (Q := sqrt_pos s). set (t := (sqrt s + eps8)%R). assert (T : (0 < t)%R) by (unfold t; lra).
  rewrite (sumf_ext D _ (fun d => (z i d * z i d) * (/ t * / t))%R) by (intros; unfold Rdiv; ring). rewrite sumf_scale_r. fold s.
  assert (ST : (s <= t * t)%R). { rewrite <- (sqrt_sqrt s) at 1 by auto. apply Rmult_le_compat; unfold t; lra. }
  rewrite <- Rinv_mult. apply Rmult_le_reg_r with (t * t)%R; [apply Rmult_lt_0_compat; auto|]. rewrite Rmult_assoc, Rinv_l. { lra. } assert (P := Rmult_lt_0_compat _ _ T T). lra.
Qed.
Lemma logits_range D s b zi zt m n : (Rabs (logits_of D s b (unit_rows D zi) (unit_rows D zt) m n - match b with Some b => b | None => 0 end) <= exp s)%R.
Proof.
  assert (C := cauchy D (unit_rows D zi m) (unit_rows D zt n) (unit_norm D zi m) (unit_norm D zt n)). assert (P := exp_pos s).
  replace (logits_of D s b (unit_rows D zi) (unit_rows D zt) m n - match b with Some b => b | None => 0 end)%R with (sumf D (fun d => unit_rows D zi m d * unit_rows D zt n d) * exp s)%R.
  - rewrite Rabs_mult, (Rabs_right (exp s)) by lra. rewrite <- (Rmult_1_l (exp s)) at 2. apply Rmult_le_compat_r; lra.
  - unfold logits_of. destruct b; lra.
Qed.
Lemma two_tower_ok {I T} (fi : I -> res ((nat -> nat -> R) * metrics_t)) (ft : T -> res ((nat -> nat -> R) * metrics_t)) D s b x y zi mi zt mt :
  fi x = Ok (zi, mi) -> ft y = Ok (zt, mt) ->
  two_tower I T fi ft D s b (Some x) (Some y) = Ok (logits_of D s b (unit_rows D zi) (unit_rows D zt), [(k_img, Node mi); (k_txt, Node mt); (k_scale, Leaf (Scalar (Some (exp s))))]).
Proof. intros Hi Ht. unfold two_tower. rewrite Hi. cbn [bind]. rewrite Ht. auto. Qed.
Lemma contrastive_ok {I T} (fi : I -> res ((nat -> nat -> R) * metrics_t)) (ft : T -> res ((nat -> nat -> R) * metrics_t)) D N s b x y zi mi zt mt : 1 <= N ->
  fi x = Ok (zi, mi) -> ft y = Ok (zt, mt) ->
  let main := mean (map (fun m => sum_to N (fun n => pair_loss (logits_of D s b (unit_rows D zi) (unit_rows D zt)) m n)) (seq 0 N)) in
  exists m, contrastive_objective fi ft D N N s b x y = Ok (Some main, m) /\
    dget m k_main = Some (Leaf (Some main)) /\ dget m k_total = Some (Leaf (Some main)) /\
    dget m k_img = Some (tree_mean (Node mi)) /\ dget m k_txt = Some (tree_mean (Node mt)).
Proof.
  intros HN Hi Ht main. unfold contrastive_objective. rewrite (two_tower_ok fi ft D s b x y zi mi zt mt Hi Ht). cbn [bind fst snd]. rewrite sigmoid_ok. cbn [bind].
  set (ls := map _ (seq 0 N)) in *. set (metrics := [(k_img, Node mi); (k_txt, Node mt); (k_scale, Leaf (Scalar (Some (exp s))))]).
  assert (NE : ls <> []) by (intros E; apply (f_equal (@length R)) in E; unfold ls in E; rewrite map_length, seq_length in E; simpl in E; lia).
  destruct (objective_total metrics (map Some ls) (Some 0%R)) as (m & O & M1 & M2 & M3).
  - intros t Q. vm_compute in Q. discriminate.
  - reflexivity.
  - rewrite mean_arr_some in * by auto. cbn [fadd] in *. replace (mean ls + 0)%R with main in * by (unfold main; fold ls; lra). exists m. split; [exact O|]. split; [exact M1|]. split; [exact M2|].
    split; rewrite M3 by discriminate; reflexivity.
Qed.
Definition tower_with (a : R) (x : unit) : res ((nat -> nat -> R) * metrics_t) := Ok (fun _ _ => 0%R, [(k_aux, Leaf (Scalar (Some a)))]).
Lemma contrastive_refuted : exists (fi ft : unit -> res ((nat -> nat -> R) * metrics_t)) D N s b zi mi zt mt ai at_ main total m,
  1 <= N /\ fi tt = Ok (zi, mi) /\ ft tt = Ok (zt, mt) /\
  dget mi k_aux = Some (Leaf (Scalar (Some ai))) /\ dget mt k_aux = Some (Leaf (Scalar (Some at_))) /\
  contrastive_objective fi ft D N N s b tt tt = Ok (Some total, m) /\
  dget m k_main = Some (Leaf (Some main)) /\ total <> (main + ai + at_)%R.
Proof.
  exists (tower_with 1), (tower_with 1), 1, 1, 0%R, None. do 4 eexists. exists 1%R, 1%R.
  destruct (contrastive_ok (tower_with 1) (tower_with 1) 1 1 0%R None tt tt _ _ _ _ ltac:(lia) eq_refl eq_refl) as (m & E & M & _).
  do 3 eexists. split; [lia|]. split; [reflexivity|]. split; [reflexivity|]. split; [reflexivity|]. split; [reflexivity|]. split; [exact E|]. split; [exact M|]. lra.
Qed.
Lemma two_tower_logits {I T} (fi : I -> res ((nat -> nat -> R) * metrics_t)) (ft : T -> res ((nat -> nat -> R) * metrics_t)) D s b x y zi mi zt mt :
  fi x = Ok (zi, mi) -> ft y = Ok (zt, mt) ->
  exists logits metrics, two_tower I T fi ft D s b (Some x) (Some y) = Ok (logits, metrics) /\
    (forall m n, (Rabs (logits m n - match b with Some b => b | None => 0 end) <= exp s)%R) /\
    dget metrics k_img = Some (Node mi) /\ dget metrics k_txt = Some (Node mt) /\ dget metrics k_scale = Some (Leaf (Scalar (Some (exp s)))) /\
    forall m n (dot := sum_to D (fun d => zi m d * zt n d)%R) (norm := fun z : nat -> R => sqrt (sum_to D (fun d => z d * z d)%R)),
      logits m n = (exp s * (dot / ((norm (zi m) + eps8) * (norm (zt n) + eps8))) + match b with Some b => b | None => 0 end)%R.
Proof.
  intros Hi Ht. rewrite (two_tower_ok fi ft D s b x y zi mi zt mt Hi Ht). do 2 eexists. split; [reflexivity|]. split; [intros; apply logits_range|]. do 3 (split; [reflexivity|]).
  intros m n dot norm. unfold logits_of. unfold dot, norm. rewrite <- !sumf_to.
  assert (E : sumf D (fun d => (unit_rows D zi m d * unit_rows D zt n d)%R) =
              (sumf D (fun d => zi m d * zt n d) / ((sqrt (sumf D (fun d => (zi m d * zi m d)%R)) + eps8) * (sqrt (sumf D (fun d => (zt n d * zt n d)%R)) + eps8)))%R).
  { unfold Rdiv at 1. rewrite <- sumf_scale_r. apply sumf_ext. intros d _. unfold unit_rows, Rdiv. rewrite Rinv_mult. ring. }
  rewrite E. destruct b; ring.
Qed.
Lemma two_tower_alone {I T} (fi : I -> res ((nat -> nat -> R) * metrics_t)) (ft : T -> res ((nat -> nat -> R) * metrics_t)) D s b :
  two_tower I T fi ft D s b None None = Raise ValueError /\
  (forall x z m, fi x = Ok (z, m) -> exists u, two_tower I T fi ft D s b (Some x) None = Ok (u, [(k_img, Node m)]) /\
     forall i d, (u i d = z i d / (sqrt (sum_to D (fun k => z i k * z i k)) + eps8))%R) /\
  (forall y z m, ft y = Ok (z, m) -> exists u, two_tower I T fi ft D s b None (Some y) = Ok (u, [(k_txt, Node m)]) /\
     forall i d, (u i d = z i d / (sqrt (sum_to D (fun k => z i k * z i k)) + eps8))%R).
Proof.
  split; [reflexivity|]. split; intros x z m E; unfold two_tower; rewrite E; cbn [bind fst snd]; eexists; (split; [reflexivity|]); intros; unfold unit_rows; rewrite sumf_to; auto.
Qed.
