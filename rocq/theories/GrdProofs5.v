(** Proofs for C87 and C88: ties, the sum of the losses, examples. *)
From Coq Require Import List Arith ZArith Bool Reals Lia Lra FunctionalExtensionality.
From Verif Require Import Prim PrimLemmas MoeModel MoeSpec MoeProofs SoftModel SoftSpec SoftProofs EvalModel AuxModel AuxSpec AuxProofs EnsProofs ElmModel ElmProofs GrdModel GrdSpec GrdProofs GrdProofs2 GrdProofs3 GrdProofs4.
Import ListNotations.
Local Open Scope nat_scope.

(** ** Thresholds *)
Lemma how_many_mono n P Q : (forall i, i < n -> P i = true -> Q i = true) -> how_many n P <= how_many n Q.
Proof.
  intros H. unfold how_many. apply NoDup_incl_length; [apply NoDup_filter, seq_NoDup|]. intros i Hi. apply filter_In in Hi. destruct Hi as [Hi B]. apply filter_In. split; auto. apply in_seq in Hi. apply H; auto. lia.
Qed.
Lemma kth_unique n K row a b : kth_largest n K row a -> kth_largest n K row b -> a = b.
Proof.
  assert (W : forall a b, kth_largest n K row a -> kth_largest n K row b -> ~ (a < b)%R).
  { intros a' b' (_ & _ & A) (_ & B & _) L. assert (Q : how_many n (fun i => if Rle_dec b' (row i) then true else false) <= how_many n (fun i => if Rlt_dec a' (row i) then true else false)); [|lia].
    apply how_many_mono. intros i Hi. destruct (Rle_dec b' (row i)), (Rlt_dec a' (row i)); auto; intros; lra. }
  intros A B. pose proof (W a b A B). pose proof (W b a B A). lra.
Qed.
Lemma p_mean_chance cdf Sz E K sd l n thr t e : 1 <= K -> K <= E -> (forall s, s < Sz -> kth_largest E K (n t s) (thr s)) ->
  p_mean cdf Sz E K sd l n t e = chance cdf Sz sd thr (l t) e.
Proof.
  intros HK HE T. unfold p_mean, chance. f_equal. apply sum_to_ext. intros s Hs. unfold load_z. rewrite (kth_unique E K (n t s) (threshold E K (n t s)) (thr s)); auto. apply threshold_ok; auto.
Qed.
Lemma varied_ext n x y : (forall i, x i = y i) -> varied n x -> varied n y.
Proof. intros H (i & j & Hi & Hj & N). exists i, j. rewrite <- !H. auto. Qed.
Lemma load_chance cdf pdf Sz E K sd t0 l n l' n' thr : (forall z, (cdf z < 1)%R) -> (forall z, derivable_pt_lim cdf z (pdf z)) ->
  1 <= Sz -> 1 <= K -> K <= E -> (0 < sd)%R ->
  (forall s e, s < Sz -> e < E -> derivable_pt_lim (fun t => l t s e) t0 (l' s e)) ->
  (forall s e, s < Sz -> e < E -> derivable_pt_lim (fun t => n t s e) t0 (n' s e)) ->
  (forall s, s < Sz -> no_ties E (n t0 s)) ->
  (forall s, s < Sz -> kth_largest E K (n t0 s) (thr s)) ->
  exists loss, (forall t, load_auxiliary_loss cdf Sz E K sd (l t) (n t) = Some (loss t)) /\
  (varied E (chance cdf Sz sd thr (l t0)) -> exists gl gn,
     (forall ct s e, s < Sz -> e < E -> load_grad_logits cdf pdf Sz E K sd (l t0) (n t0) (Fin ct) s e = Fin (ct * gl s e) /\
        load_grad_noisy cdf pdf Sz E K sd (l t0) (n t0) (Fin ct) s e = Fin (ct * gn s e)) /\
     derivable_pt_lim loss t0 (sum2 Sz E (fun s e => gl s e * l' s e + gn s e * n' s e)%R)) /\
  (~ varied E (chance cdf Sz sd thr (l t0)) ->
     (forall ct s e, s < Sz -> e < E -> load_grad_logits cdf pdf Sz E K sd (l t0) (n t0) (Fin ct) s e = NaN /\
        load_grad_noisy cdf pdf Sz E K sd (l t0) (n t0) (Fin ct) s e = NaN) /\ derivable_pt_lim loss t0 0%R).
Proof.
  intros C1 C2 HS HK HE Hsd Dl Dn NT T. destruct (load_true cdf pdf C1 C2 Sz E K sd t0 l n l' n' HS HK HE Hsd Dl Dn NT) as (loss & A & B & D).
  assert (Q : forall e, chance cdf Sz sd thr (l t0) e = p_mean cdf Sz E K sd l n t0 e) by (intros; symmetry; apply p_mean_chance; auto).
  exists loss. split; auto. split.
  - intros V. apply B. eapply varied_ext; [exact Q|auto].
  - intros V. apply D. intros X. apply V. eapply varied_ext; [intros; symmetry; apply Q|auto].
Qed.

(** ** The sum of the losses *)
Lemma gshard_scale Sz E gates ct s e : gshard_grad Sz E gates ct s e = (ct * gshard_grad Sz E gates 1 s e)%R.
Proof. unfold gshard_grad, Rdiv. ring. Qed.
Lemma auxiliary_ok Sz E wg wi gates s e : s < Sz -> e < E -> (forall s e, s < Sz -> e < E -> (0 < gates s e)%R) ->
  ((wi <= 0)%R -> auxiliary_grad Sz E wg wi gates s e = Fin (Rmax wg 0 * gshard_grad Sz E gates 1 s e)) /\
  ((0 < wi)%R -> varied E (fun e => sum_to Sz (fun s => gates s e)) -> exists gi, importance_grad Sz E gates (Fin 1) s e = Fin gi /\
     auxiliary_grad Sz E wg wi gates s e = Fin (Rmax wg 0 * gshard_grad Sz E gates 1 s e + wi * gi)) /\
  ((0 < wi)%R -> ~ varied E (fun e => sum_to Sz (fun s => gates s e)) -> auxiliary_grad Sz E wg wi gates s e = NaN).
Proof.
  intros Hs He P. set (imp := fun e => sum_to Sz (fun s => gates s e)).
  assert (X : forall i, i < E -> Fin (sumf Sz (fun s => gates s i)) = Fin (imp i)) by (intros; f_equal; apply sumf_to).
  assert (M : mean_of E imp <> 0%R) by (apply mean_pos; [lia|]; intros i Hi; unfold imp; rewrite <- sumf_to; apply sumf_pos; auto; lia).
  assert (GS : (0 < wg)%R -> Rmax wg 0 = wg) by (intros; apply Rmax_left; lra).
  assert (GN : ~ (0 < wg)%R -> Rmax wg 0 = 0%R) by (intros; apply Rmax_right; lra).
  unfold auxiliary_grad, weighted_grad. cbn [filter fst].
  split; [|split].
  - intros W. destruct (Rlt_dec 0 wi); [lra|]. destruct (Rlt_dec 0 wg) as [L|L]; cbn [map fold_right fst snd emul eadd].
    + rewrite (GS L), gshard_scale. f_equal. ring.
    + rewrite (GN L). f_equal. ring.
  - intros W V. destruct (Rlt_dec 0 wi); [|lra]. exists (cv_grad E imp e). unfold importance_grad.
    split; [rewrite (cv_vjp_varied E _ imp 1 e X He M V); f_equal; ring|].
    destruct (Rlt_dec 0 wg) as [L|L]; cbn [map fold_right fst snd emul]; rewrite (cv_vjp_varied E _ imp _ e X He M V); cbn [eadd].
    + rewrite (GS L), gshard_scale. f_equal. ring.
    + rewrite (GN L). f_equal. ring.
  - intros W V. destruct (Rlt_dec 0 wi); [|lra]. unfold importance_grad.
    destruct (Rlt_dec 0 wg) as [L|L]; cbn [map fold_right fst snd emul]; rewrite (cv_vjp_flat E _ imp _ e X He V); reflexivity.
Qed.
Lemma single_flat x : ~ varied 1 x.
Proof. intros (i & j & Hi & Hj & N). apply N. replace i with 0 by lia. replace j with 0 by lia. auto. Qed.

(** ** Ties *)
Definition tie_gates (t : R) (g s e : nat) : R := if e =? 0 then (1 + t)%R else (1 - t)%R.
Definition tie_f (e : nat) (x : nat -> R) : nat -> R := fun _ => if e =? 0 then 0%R else 1%R.
Lemma tie_out t : forall o, einsum_layer (A := Ralg) 1 1 2 1 1 false (tie_gates t) (fun e buf j => tie_f e (buf j)) (fun _ _ _ => 0%R) = Some o ->
  o 0 0 0 = if Rlt_dec t 0 then (1 - t)%R else 0%R.
Proof.
  intros o Eo. destruct (layer_some Ralg Ralg_laws 1 1 2 1 1 false (tie_gates t) tie_f (fun e buf j => tie_f e (buf j)) (fun _ _ _ => 0%R) (le_n _) (le_n _) ltac:(lia) ltac:(reflexivity)) as (o1 & o2 & E1 & _ & H).
  rewrite E1 in Eo. injection Eo as <-.
  set (c := if Rlt_dec t 0 then 1 else 0).
  destruct (H (fun _ _ _ => c)) with (g := 0) (s := 0) as [-> _]; auto.
  - intros g s _. unfold best_choices. split; [|split].
    + intros k _. unfold c. destruct (Rlt_dec t 0); lia.
    + intros k k' A B. lia.
    + intros i Hi N k Hk. specialize (N 0 ltac:(lia)). cbn beta in N. unfold preferred. cbn [sleb Ralg]. unfold tie_gates. unfold c in *. destruct (Rlt_dec t 0).
      * replace i with 0 by lia. cbn [Nat.eqb]. destruct (Rle_dec (1 - t) (1 + t)); [lra|reflexivity].
      * replace i with 1 by lia. cbn [Nat.eqb]. destruct (Rle_dec (1 + t) (1 - t)) as [L|]; [|reflexivity]. destruct (Rle_dec (1 - t) (1 + t)); [reflexivity|lra].
  - unfold top_experts_output. rewrite sum_over_R. unfold sum_to. cbn [seq map fold_right].
    replace (competitors (A := Ralg) false 1 2 1 (tie_gates t 0) (fun _ _ => c) 0 0) with 0.
    + cbn [Nat.ltb Nat.leb vscale Ralg]. unfold tie_gates, tie_f, c. destruct (Rlt_dec t 0); cbn [Nat.eqb]; lra.
    + unfold competitors. cbn [seq list_prod map app filter fst snd]. unfold priority, item_first. cbn [Nat.ltb Nat.leb Nat.eqb]. rewrite andb_false_r. reflexivity.
Qed.
Lemma ties_bad : exists (gates : R -> nat -> nat -> nat -> R) gates' f (fd : nat -> vec Dalg -> vec Dalg),
  (forall g s e, derivable_pt_lim (fun t => gates t g s e) 0 (gates' g s e)) /\
  (forall e x d, fst (fd e x) d = f e (fst x) d /\ snd (fd e x) d = 0%R /\ forall y, f e y d = f e (fst x) d) /\
  exists o, (forall t, einsum_layer (A := Ralg) 1 1 2 1 1 false (gates t) (fun e buf j => f e (buf j)) (fun _ _ _ => 0%R) = Some (o t)) /\
  (exists od, einsum_layer (A := Dalg) 1 1 2 1 1 false (fun g s e => (gates 0%R g s e, gates' g s e)) (fun e buf j => fd e (buf j)) (fun _ _ => (fun _ => 0%R, fun _ => 0%R)) = Some od) /\
  forall l, ~ derivable_pt_lim (fun t => o t 0 0 0) 0 l.
Proof.
  exists tie_gates, (fun _ _ e => if e =? 0 then 1%R else (-1)%R), tie_f, (fun e x => (tie_f e (fst x), fun _ => 0%R)).
  split; [|split].
  - intros g s e. unfold tie_gates. destruct (e =? 0).
    + pose proof (derivable_pt_lim_plus (fun _ => 1%R) (fun t => t) 0%R _ _ (derivable_pt_lim_const 1 0) (derivable_pt_lim_id 0)) as Q. rewrite Rplus_0_l in Q. exact Q.
    + replace (-1)%R with (0 - 1)%R by lra. apply (derivable_pt_lim_minus (fun _ => 1%R) (fun t => t)); [apply derivable_pt_lim_const|apply derivable_pt_lim_id].
  - intros e x d. cbn [fst snd]. auto.
  - assert (X : exists o, forall t, einsum_layer (A := Ralg) 1 1 2 1 1 false (tie_gates t) (fun e buf j => tie_f e (buf j)) (fun _ _ _ => 0%R) = Some (o t)).
    { exists (fun t => of_opt (einsum_layer (A := Ralg) 1 1 2 1 1 false (tie_gates t) (fun e buf j => tie_f e (buf j)) (fun _ _ _ => 0%R))). intros t.
      destruct (layer_some Ralg Ralg_laws 1 1 2 1 1 false (tie_gates t) tie_f (fun e buf j => tie_f e (buf j)) (fun _ _ _ => 0%R) (le_n _) (le_n _) ltac:(lia) ltac:(reflexivity)) as (o1 & o2 & -> & _). reflexivity. }
    destruct X as (o & EQ).
    exists o. split; [exact EQ|]. split.
    + destruct (jvp_layer 1 1 2 1 1 false (fun g s e => (tie_gates 0 g s e, if e =? 0 then 1%R else (-1)%R)) (fun e x => (tie_f e (fst x), fun _ => 0%R)) (fun e buf j => (tie_f e (fst (buf j)), fun _ => 0%R))
        (fun _ _ => (fun _ => 0%R, fun _ => 0%R)) (le_n _) (le_n _) ltac:(lia) ltac:(reflexivity)) as (od & _ & Q & _). exists od. exact Q.
    + intros l D. apply derivable_cont in D. destruct (D (1 / 2)%R ltac:(lra)) as (h & Hh & Q). cbn in Q. unfold R_dist in Q.
      specialize (Q (- (h / 2))%R). cbv beta in Q. rewrite (tie_out _ _ (EQ (- (h / 2))%R)), (tie_out _ _ (EQ 0%R)) in Q.
      destruct (Rlt_dec 0 0); [lra|]. destruct (Rlt_dec (- (h / 2)) 0); [|lra].
      assert (A : (Rabs (1 - - (h / 2) - 0) < 1 / 2)%R). { apply Q. split; [split; [exact I|lra]|]. rewrite Rabs_left; lra. }
      rewrite Rabs_right in A by lra. lra.
Qed.

(** ** An example of a layer *)
Definition ex_g (t : R) (g s e : nat) : R := if e =? 0 then (2 + t)%R else t.
Definition ex_f (e : nat) (x : nat -> R) : nat -> R := fun d => (x d * x d + INR e)%R.
Definition ex_fd (e : nat) (x : vec Dalg) : vec Dalg := (ex_f e (fst x), fun d => (snd x d * fst x d + fst x d * snd x d)%R).
Lemma ex_layer : exists o, (forall t, einsum_layer (A := Ralg) 1 1 2 1 1 true (ex_g t) (fun e buf j => ex_f e (buf j)) (fun _ _ _ => (3 + t)%R) = Some (o t)) /\ derivable_pt_lim (fun t => o t 0 0 0) 0%R 21%R.
Proof.
  assert (D1 : forall c : R, derivable_pt_lim (fun t => c + t)%R 0 1%R).
  { intros c. pose proof (derivable_pt_lim_plus (fun _ => c) (fun t => t) 0%R _ _ (derivable_pt_lim_const c 0) (derivable_pt_lim_id 0)) as Q. rewrite Rplus_0_l in Q. exact Q. }
  destruct (experts_true 1 1 2 1 1 true 0%R ex_g (fun _ _ _ => 1%R) (fun _ => ex_f) (fun _ e buf j => ex_f e (buf j)) (fun t _ _ _ => (3 + t)%R) ex_fd (fun e buf j => ex_fd e (buf j)) (fun _ _ => (fun _ => 3%R, fun _ => 1%R)))
    as (o & oi & E1 & _ & od & odi & E2 & _ & H); auto.
  - intros g s e. unfold ex_g. destruct (e =? 0); [apply D1|apply derivable_pt_lim_id].
  - intros g s e d _ _ _. split; [unfold ex_f, ex_fd, ex_f; cbn [fst]; rewrite Rplus_0_r; reflexivity|]. unfold ex_f, ex_fd. cbn [fst snd].
    replace (1 * 3 + 3 * 1)%R with ((1 * (3 + 0) + (3 + 0) * 1) + 0)%R by ring.
    apply (derivable_pt_lim_plus (fun t => (3 + t) * (3 + t))%R (fun _ => INR e)); [|apply derivable_pt_lim_const]. apply (derivable_pt_lim_mult (fun t => 3 + t)%R (fun t => 3 + t)%R); apply D1.
  - intros g s Hg Hs i j Hi Hj. unfold ex_g. destruct i as [|[|]], j as [|[|]]; cbn [Nat.eqb]; intros; try lia; lra.
  - intros _ g Hg i j Hi Hj _. lia.
  - exists o. split; auto. destruct (H 0 0 0 ltac:(lia) ltac:(lia)) as [[_ D] _].
    destruct (jvp_layer 1 1 2 1 1 true (fun g s e => (ex_g 0 g s e, 1%R)) ex_fd (fun e buf j => ex_fd e (buf j)) (fun _ _ => (fun _ => 3%R, fun _ => 1%R)) (le_n _) (le_n _) ltac:(lia) ltac:(reflexivity)) as (od2 & odi2 & E3 & _ & J).
    rewrite E2 in E3. injection E3 as <-. destruct (J (fun _ _ _ => 0)) with (g := 0) (s := 0) (d := 0) as [[_ T] _]; auto.
    + intros g s _. split; [|split]; intros; try lia. unfold preferred. cbn [sleb Ralg fst]. unfold ex_g. replace i with 1 by (specialize (H1 0 ltac:(lia)); lia). cbn [Nat.eqb]. destruct (Rle_dec (2 + 0) 0); [lra|reflexivity].
    + rewrite T in D. match type of D with derivable_pt_lim _ _ ?w => replace 21%R with w end; [exact D|].
      unfold kept_sum, sum_to. cbn [seq map fold_right].
      replace (competitors (A := Ralg) true 1 2 1 (fun s e => fst (ex_g 0 0 s e, 1%R)) (fun _ _ => 0) 0 0) with 0.
      * cbn [Nat.ltb Nat.leb fst snd ex_fd]. unfold ex_f, ex_g. cbn [Nat.eqb INR]. lra.
      * unfold competitors. cbn [seq list_prod map app filter fst snd]. unfold priority, item_first, preferred. cbn [Nat.ltb Nat.leb Nat.eqb]. rewrite andb_false_r, orb_false_r.
        set (m := row_max (A := Ralg) 2 _). cbn [sleb Ralg]. destruct (Rle_dec m m); [reflexivity|lra].
Qed.

(** ** Gradients that are NaN *)
Lemma softmax_pos E row e : 1 <= E -> (0 < softmax E row e)%R.
Proof. intros H. unfold softmax. apply Rdiv_lt_0_compat; [apply exp_pos|]. apply sumf_pos; [lia|]. intros. apply exp_pos. Qed.
Lemma balanced_nan Sz E wg wi : 1 <= Sz -> 1 <= E -> (0 < wi)%R -> forall s e, s < Sz -> e < E ->
  softmax E (fun _ => 0%R) e = (1 / INR E)%R /\ auxiliary_grad Sz E wg wi (fun s => softmax E (fun _ => 0%R)) s e = NaN.
Proof.
  intros HS HE W s e Hs He. assert (Q : forall e, softmax E (fun _ => 0%R) e = (1 / INR E)%R) by (intros; unfold softmax; rewrite exp_0, sumf_const, Rmult_1_r; reflexivity).
  split; auto. apply (proj2 (proj2 (auxiliary_ok Sz E wg wi (fun s => softmax E (fun _ => 0%R)) s e Hs He (fun _ _ _ _ => softmax_pos _ _ _ HE)))); auto.
  intros (i & j & _ & _ & N). apply N. apply sum_to_ext. intros. rewrite !Q. reflexivity.
Qed.
Lemma single_nan Sz wg wi (logits : nat -> nat -> R) : 1 <= Sz -> (0 < wi)%R ->
  importance_auxiliary_loss Sz 1 (fun s => softmax 1 (logits s)) = Some 0%R /\
  forall s, s < Sz -> softmax 1 (logits s) 0 = 1%R /\ auxiliary_grad Sz 1 wg wi (fun s => softmax 1 (logits s)) s 0 = NaN.
Proof.
  intros HS W. split.
  - set (imp := fun e => sumf Sz (fun s => softmax 1 (logits s) e)). unfold importance_auxiliary_loss. fold imp.
    rewrite cv_squared_cv2; [|lia|apply mean_pos; [lia|]; intros; unfold imp; apply sumf_pos; [lia|]; intros; apply softmax_pos; lia].
    f_equal. unfold cv2. rewrite (proj2 (var_zero 1 imp (le_n _)) (single_flat imp)). unfold Rdiv. ring.
  - intros s Hs. split.
    + unfold softmax. cbn [sumf]. rewrite Rplus_0_l. field. apply Rgt_not_eq, exp_pos.
    + apply (proj2 (proj2 (auxiliary_ok Sz 1 wg wi (fun s => softmax 1 (logits s)) s 0 Hs (le_n _) (fun _ _ _ _ => softmax_pos _ _ _ (le_n _))))); auto. apply single_flat.
Qed.
Lemma finite_bad : exists Sz E wg wi (gates : nat -> nat -> R) s e, s < Sz /\ e < E /\ (0 < wi)%R /\
  (forall s, s < Sz -> (forall e, e < E -> (0 < gates s e)%R) /\ sum_to E (gates s) = 1%R) /\
  importance_auxiliary_loss Sz E gates = Some 0%R /\ auxiliary_grad Sz E wg wi gates s e = NaN.
Proof.
  destruct (single_nan 1 0%R 1%R (fun _ _ => 0%R) (le_n _) Rlt_0_1) as [A B]. exists 1, 1, 0%R, 1%R, (fun s => softmax 1 (fun _ => 0%R)), 0, 0.
  split; [lia|]. split; [lia|]. split; [exact Rlt_0_1|]. split; [|split; [exact A|exact (proj2 (B 0 (le_n _)))]].
  intros s Hs. split; [intros; apply softmax_pos; lia|]. unfold sum_to. cbn [seq map fold_right]. rewrite (proj1 (B s Hs)). lra.
Qed.
