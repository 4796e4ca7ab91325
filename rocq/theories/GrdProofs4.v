(** Proofs for C87: the losses of the router. *)
From Coq Require Import List Arith ZArith Bool Reals Lia Lra FunctionalExtensionality.
From Verif Require Import Prim PrimLemmas MoeModel MoeSpec MoeProofs SoftModel SoftSpec SoftProofs EvalModel AuxModel AuxSpec AuxProofs EnsProofs ElmModel ElmProofs GrdModel GrdSpec GrdProofs GrdProofs2 GrdProofs3.
Import ListNotations.
Local Open Scope nat_scope.

Lemma cv_squared_cv2 n f : 1 <= n -> mean_of n f <> 0%R -> cv_squared n f = Some (cv2 n f).
Proof.
  intros H M. unfold cv_squared. rewrite fmean_ok by auto. rewrite sumf_to. fold (mean_of n f). rewrite fmean_ok by auto. rewrite sumf_to. fold (var_of n f).
  unfold fdiv. destruct (Req_EM_T (mean_of n f) 0) as [|_]; [congruence|]. cbn [fmul]. f_equal. unfold cv2.
  rewrite <- (sqrt_sqrt (var_of n f)) at 3 by (apply var_nonneg; auto). field. auto.
Qed.
Lemma mean_pos n f : 1 <= n -> (forall i, i < n -> (0 < f i)%R) -> mean_of n f <> 0%R.
Proof. intros H P. unfold mean_of. rewrite <- sumf_to. apply Rgt_not_eq, Rdiv_lt_0_compat; [apply sumf_pos; auto|apply lt_0_INR; lia]. Qed.

Lemma importance_true Sz E (gates : R -> nat -> nat -> R) gates' t0 : 1 <= Sz -> 1 <= E -> (forall t s e, s < Sz -> e < E -> (0 < gates t s e)%R) ->
  (forall s e, s < Sz -> e < E -> derivable_pt_lim (fun t => gates t s e) t0 (gates' s e)) ->
  exists loss, (forall t, importance_auxiliary_loss Sz E (gates t) = Some (loss t)) /\
    (varied E (fun e => sum_to Sz (fun s => gates t0 s e)) -> exists grad,
       (forall ct s e, s < Sz -> e < E -> importance_grad Sz E (gates t0) (Fin ct) s e = Fin (ct * grad s e)) /\
       derivable_pt_lim loss t0 (sum2 Sz E (fun s e => grad s e * gates' s e)%R)) /\
    (~ varied E (fun e => sum_to Sz (fun s => gates t0 s e)) ->
       (forall ct s e, s < Sz -> e < E -> importance_grad Sz E (gates t0) (Fin ct) s e = NaN) /\ derivable_pt_lim loss t0 0%R).
Proof.
  intros HS HE P D. set (imp := fun t e => sum_to Sz (fun s => gates t s e)).
  assert (M : forall t, mean_of E (imp t) <> 0%R) by (intros t; apply mean_pos; auto; intros e He; unfold imp; rewrite <- sumf_to; apply sumf_pos; auto).
  exists (fun t => cv2 E (imp t)). split.
  { intros t. unfold importance_auxiliary_loss. rewrite (functional_extensionality _ (imp t)) by (intros; apply sumf_to). apply cv_squared_cv2; auto. }
  assert (X : forall i, i < E -> Fin (sumf Sz (fun s => gates t0 s i)) = Fin (imp t0 i)) by (intros; f_equal; apply sumf_to).
  assert (DL : derivable_pt_lim (fun t => cv2 E (imp t)) t0 (sum_to E (fun e => cv_grad E (imp t0) e * sum_to Sz (fun s => gates' s e))%R)).
  { apply cv2_true; auto. intros e He. unfold imp. apply (derivable_sum t0 Sz (fun s t => gates t s e)). auto. }
  split.
  - intros V. exists (fun _ e => cv_grad E (imp t0) e). split.
    + intros ct s e Hs He. unfold importance_grad. apply (cv_vjp_varied E _ (imp t0)); auto.
    + unfold sum2. rewrite sum_to_swap. rewrite (sum_to_ext E _ (fun e => cv_grad E (imp t0) e * sum_to Sz (fun s => gates' s e))%R); auto. intros e He. apply sum_to_scale.
  - intros V. split.
    + intros ct s e Hs He. unfold importance_grad. apply (cv_vjp_flat E _ (imp t0)); auto.
    + rewrite (sum_to_ext E _ (fun _ => 0%R)) in DL by (intros e He; rewrite cv_grad_flat by auto; ring). rewrite sum_to_const, Rmult_0_r in DL. exact DL.
Qed.

Lemma gshard_true Sz E (gates : R -> nat -> nat -> R) gates' t0 : 1 <= Sz -> 1 <= E ->
  (forall s e, s < Sz -> e < E -> derivable_pt_lim (fun t => gates t s e) t0 (gates' s e)) ->
  exists loss, (forall t, gshard_auxiliary_loss Sz E (gates t) = Some (loss t)) /\
    ((forall s, s < Sz -> single_largest E (gates t0 s)) ->
      derivable_pt_lim loss t0 (sum2 Sz E (fun s e => gshard_grad Sz E (gates t0) 1 s e * gates' s e)%R)).
Proof.
  intros HS HE D. pose proof (pos_INR' _ HS) as NS. pose proof (pos_INR' _ HE) as NE.
  set (load := fun t e => (sum_to Sz (fun s => if AuxModel.argmax E (gates t s) =? e then 1 else 0) / INR Sz)%R).
  set (gate := fun t e => (sum_to Sz (fun s => gates t s e) / INR Sz)%R).
  exists (fun t => INR E * sum_to E (fun e => load t e * gate t e))%R. split.
  { intros t. destruct (gshard_ok Sz E (gates t) (fun s => AuxModel.argmax E (gates t s)) HS HE) as (v & Q & -> & _); [intros; apply AuxProofs.argmax_ok; auto|]. exact Q. }
  intros SL. apply (derivable_near t0 (fun t => INR E * sum_to E (fun e => load t0 e * gate t e))%R).
  { assert (N : near t0 (fun t => forall s, s < Sz -> AuxModel.argmax E (gates t s) = AuxModel.argmax E (gates t0 s))).
    { apply near_all. intros s Hs. destruct (SL s Hs) as (a & Ha & A).
      assert (A0 : first_largest E (gates t0 s) a). { split; auto. intros i Hi. destruct (Nat.eq_dec i a) as [->|Q]; [split; [lra|lia]|]. specialize (A i Hi Q). split; intros; lra. }
      rewrite (first_largest_unique E (gates t0 s) (AuxModel.argmax E (gates t0 s)) a) by (auto; apply AuxProofs.argmax_ok; auto).
      eapply near_mono. { apply (near_all t0 E (fun i t => i <> a -> (gates t s i < gates t s a)%R)). intros i Hi. destruct (Nat.eq_dec i a) as [->|Q]; [apply near_true; congruence|].
        eapply near_mono; [apply (near_lt t0 (fun t => gates t s i) (fun t => gates t s a)); [eapply derivable_cont; apply D; auto|eapply derivable_cont; apply D; auto|auto]|auto]. }
      cbn beta. intros t Ht. apply (first_largest_unique E (gates t s)); [apply AuxProofs.argmax_ok; auto|]. split; auto. intros i Hi. destruct (Nat.eq_dec i a) as [->|Q]; [split; [lra|lia]|]. specialize (Ht i Hi Q). split; intros; lra. }
    eapply near_mono; [exact N|]. cbn beta. intros t Ht. f_equal. apply sum_to_ext. intros e He. f_equal. unfold load. f_equal. apply sum_to_ext. intros s Hs. rewrite Ht by auto. reflexivity. }
  replace (sum2 Sz E (fun s e => gshard_grad Sz E (gates t0) 1 s e * gates' s e)%R) with (INR E * sum_to E (fun e => load t0 e * (sum_to Sz (fun s => gates' s e) / INR Sz)))%R.
  - apply (derivable_pt_lim_scal (fun t => sum_to E (fun e => load t0 e * gate t e)%R)). apply (derivable_sum t0 E (fun e t => load t0 e * gate t e)%R). intros e He.
    apply (derivable_pt_lim_scal (fun t => gate t e)). unfold gate, Rdiv. apply (derivable_pt_lim_ext (fun t => / INR Sz * sum_to Sz (fun s => gates t s e))%R); [intros; ring|].
    replace (sum_to Sz (fun s => gates' s e) * / INR Sz)%R with (/ INR Sz * sum_to Sz (fun s => gates' s e))%R by ring. apply (derivable_pt_lim_scal (fun t => sum_to Sz (fun s => gates t s e))).
    apply (derivable_sum t0 Sz (fun s t => gates t s e)). auto.
  - unfold sum2. rewrite sum_to_swap. rewrite <- sum_to_scale. apply sum_to_ext. intros e He.
    rewrite (sum_to_ext Sz (fun s => gshard_grad Sz E (gates t0) 1 s e * gates' s e)%R (fun s => INR E * load t0 e / INR Sz * gates' s e)%R).
    + rewrite sum_to_scale. field. auto.
    + intros s Hs. unfold gshard_grad. rewrite sumf_to. fold (load t0 e). field. auto.
Qed.

(** ** Load loss *)
Lemma top_k_list E K (v v' : nat -> R) : K <= E -> (forall i, i < E -> forall j, j < E -> preferred (A := Ralg) v' i j = preferred (A := Ralg) v i j) ->
  top_k rleb E K v' = top_k rleb E K v.
Proof.
  intros HE H. pose proof (best_choices_top_k Ralg_laws v E K HE) as B. pose proof (best_choices_top_k Ralg_laws v' E K HE) as B'.
  change (sleb Ralg) with rleb in *. pose proof (best_choices_unique Ralg_laws v' E K _ _ B' (best_same E K v v' _ H B)) as U.
  assert (LEN : forall w : nat -> R, length (top_k rleb E K w) = K).
  { intros w. unfold top_k. set (cmp := fun i j => rleb (w j) (w i)).
    assert (CT : forall i j, cmp i j = true \/ cmp j i = true) by (intros i j; unfold cmp, rleb; destruct (Rle_dec (w j) (w i)); auto; destruct (Rle_dec (w i) (w j)); auto; lra).
    assert (CTR : forall i j k, cmp i j = true -> cmp j k = true -> cmp i k = true).
    { unfold cmp, rleb. intros i j k. destruct (Rle_dec (w j) (w i)); [|discriminate]. destruct (Rle_dec (w k) (w j)); [|discriminate]. destruct (Rle_dec (w k) (w i)); auto. lra. }
    apply (sort_firstn cmp CT CTR E K HE). }
  apply (nth_ext _ _ 0 0); [rewrite !LEN; auto|]. rewrite LEN. auto.
Qed.
Lemma last_index E K (v : nat -> R) : 1 <= K -> K <= E -> last (top_k rleb E K v) 0 < E.
Proof.
  intros HK HE. pose proof (best_choices_top_k Ralg_laws v E K HE) as (B & _). change (sleb Ralg) with rleb in B.
  assert (Q : forall l : list nat, last l 0 = nth (length l - 1) l 0).
  { induction l as [|a [|b l] IH]; [reflexivity|reflexivity|]. change (last (b :: l) 0 = nth (length (b :: l)) (a :: b :: l) 0). rewrite IH. cbn [length]. replace (S (length l) - 1) with (length l) by lia. reflexivity. }
  rewrite Q. destruct (lt_dec (length (top_k rleb E K v) - 1) K) as [L|L]; [apply B; auto|]. rewrite nth_overflow by (unfold top_k in *; rewrite firstn_length in *; lia). lia.
Qed.

Section Load.
Variables cdf pdf : R -> R.
Hypothesis cdf_lt : forall z, (cdf z < 1)%R.
Hypothesis cdf_pdf : forall z, derivable_pt_lim cdf z (pdf z).
Variables (Sz E K : nat) (sd : R) (t0 : R).
Variables (l n : R -> nat -> nat -> R) (l' n' : nat -> nat -> R).
Hypothesis HS : 1 <= Sz. Hypothesis HK : 1 <= K. Hypothesis HE : K <= E. Hypothesis Hsd : (0 < sd)%R.
Hypothesis Dl : forall s e, s < Sz -> e < E -> derivable_pt_lim (fun t => l t s e) t0 (l' s e).
Hypothesis Dn : forall s e, s < Sz -> e < E -> derivable_pt_lim (fun t => n t s e) t0 (n' s e).
Hypothesis NT : forall s, s < Sz -> no_ties E (n t0 s).

Definition p_mean (t : R) (e : nat) : R := (sum_to Sz (fun s => 1 - cdf (load_z E K sd (l t) (n t) s e)) / INR Sz)%R.
Lemma p_mean_pos t e : (0 < p_mean t e)%R.
Proof. unfold p_mean. rewrite <- sumf_to. apply Rdiv_lt_0_compat; [|apply lt_0_INR; lia]. apply sumf_pos; [lia|]. intros s Hs. specialize (cdf_lt (load_z E K sd (l t) (n t) s e)). lra. Qed.
Lemma load_loss_ok t : load_auxiliary_loss cdf Sz E K sd (l t) (n t) = Some (cv2 E (p_mean t)).
Proof.
  unfold load_auxiliary_loss. rewrite fmean_ok by auto.
  rewrite (functional_extensionality _ (p_mean t)) by (intros; unfold p_mean; rewrite <- sumf_to; reflexivity). apply cv_squared_cv2; [lia|]. apply mean_pos; [lia|]. intros. apply p_mean_pos.
Qed.
Lemma load_p_fin e : load_p_mean cdf Sz E K sd (l t0) (n t0) e = Fin (p_mean t0 e).
Proof. unfold load_p_mean. rewrite (esum_fin Sz _ (fun s => 1 - cdf (load_z E K sd (l t0) (n t0) s e))%R) by auto. rewrite ediv_fin by (apply pos_INR'; auto). reflexivity. Qed.
Let idx s := last (top_k rleb E K (n t0 s)) 0.
Let z s e := load_z E K sd (l t0) (n t0) s e.
Lemma near_z : near t0 (fun t => forall s, s < Sz -> forall e, e < E -> ((n t s (idx s) - l t s e) / sd)%R = load_z E K sd (l t) (n t) s e).
Proof.
  apply near_all. intros s Hs. eapply near_mono; [apply (near_preferred t0 E (fun t => n t s)); [intros i Hi; eapply derivable_cont; apply Dn; auto|auto]|]. cbn beta.
  intros t Ht e He. unfold load_z, threshold. rewrite (top_k_list E K (n t0 s) (n t s) HE Ht). fold (idx s). rewrite sumf_one_hot by (apply last_index; auto). reflexivity.
Qed.
Lemma p_mean_true e : e < E -> derivable_pt_lim (fun t => p_mean t e) t0 (sum_to Sz (fun s => - (pdf (z s e) * ((n' s (idx s) - l' s e) / sd))) / INR Sz)%R.
Proof.
  intros He. apply (derivable_near t0 (fun t => sum_to Sz (fun s => 1 - cdf ((n t s (idx s) - l t s e) / sd)) / INR Sz)%R).
  { eapply near_mono; [exact near_z|]. cbn beta. intros t Ht. unfold p_mean. f_equal. apply sum_to_ext. intros s Hs. rewrite Ht by auto. reflexivity. }
  unfold Rdiv at 1 3. apply (derivable_pt_lim_ext (fun t => / INR Sz * sum_to Sz (fun s => 1 - cdf ((n t s (idx s) - l t s e) / sd)))%R); [intros; ring|].
  rewrite Rmult_comm. apply (derivable_pt_lim_scal (fun t => sum_to Sz (fun s => 1 - cdf ((n t s (idx s) - l t s e) / sd))%R)).
  apply (derivable_sum t0 Sz (fun s t => 1 - cdf ((n t s (idx s) - l t s e) / sd))%R). intros s Hs.
  assert (Z0 : z s e = ((n t0 s (idx s) - l t0 s e) / sd)%R). { destruct near_z as (h & Hh & Q). symmetry. apply Q; auto. replace (t0 - t0)%R with 0%R by lra. rewrite Rabs_R0. lra. }
  replace (- (pdf (z s e) * ((n' s (idx s) - l' s e) / sd)))%R with (0 - pdf (z s e) * ((n' s (idx s) - l' s e) / sd))%R by ring.
  apply (derivable_pt_lim_minus (fun _ => 1%R) (fun t => cdf ((n t s (idx s) - l t s e) / sd))%R); [apply derivable_pt_lim_const|].
  rewrite Z0. apply (derivable_pt_lim_comp (fun t => (n t s (idx s) - l t s e) / sd)%R cdf); auto.
  apply (derivable_pt_lim_ext (fun t => / sd * (n t s (idx s) - l t s e))%R); [intros; unfold Rdiv; ring|]. unfold Rdiv. rewrite (Rmult_comm (n' s (idx s) - l' s e)).
  apply (derivable_pt_lim_scal (fun t => n t s (idx s) - l t s e)%R). apply (derivable_pt_lim_minus (fun t => n t s (idx s)) (fun t => l t s e)); auto. apply Dn; auto. apply last_index; auto.
Qed.
Lemma load_true : exists loss, (forall t, load_auxiliary_loss cdf Sz E K sd (l t) (n t) = Some (loss t)) /\
  (varied E (p_mean t0) -> exists gl gn,
     (forall ct s e, s < Sz -> e < E -> load_grad_logits cdf pdf Sz E K sd (l t0) (n t0) (Fin ct) s e = Fin (ct * gl s e) /\
        load_grad_noisy cdf pdf Sz E K sd (l t0) (n t0) (Fin ct) s e = Fin (ct * gn s e)) /\
     derivable_pt_lim loss t0 (sum2 Sz E (fun s e => gl s e * l' s e + gn s e * n' s e)%R)) /\
  (~ varied E (p_mean t0) ->
     (forall ct s e, s < Sz -> e < E -> load_grad_logits cdf pdf Sz E K sd (l t0) (n t0) (Fin ct) s e = NaN /\
        load_grad_noisy cdf pdf Sz E K sd (l t0) (n t0) (Fin ct) s e = NaN) /\ derivable_pt_lim loss t0 0%R).
Proof.
  exists (fun t => cv2 E (p_mean t)). split; [intros; apply load_loss_ok|].
  assert (M : mean_of E (p_mean t0) <> 0%R) by (apply mean_pos; [lia|intros; apply p_mean_pos]). pose proof (pos_INR' _ HS) as NS.
  pose proof (cv2_true E p_mean _ t0 ltac:(lia) M p_mean_true) as DL. set (c := cv_grad E (p_mean t0)) in *.
  split.
  - intros V. set (q := fun s e => (- c e / INR Sz * pdf (z s e) / sd)%R).
    assert (RQ : forall ct s e, s < Sz -> e < E -> load_ct_required cdf pdf Sz E K sd (l t0) (n t0) (Fin ct) s e = Fin (ct * q s e)).
    { intros ct s e Hs He. unfold load_ct_required. rewrite (cv_vjp_varied E _ (p_mean t0)) by (auto; intros; apply load_p_fin). rewrite ediv_fin by auto. cbn [eopp emul]. rewrite ediv_fin by lra.
      f_equal. unfold q, c, z. field. split; auto. lra. }
    exists (fun s e => - q s e)%R, (fun s e => if e =? idx s then sum_to E (q s) else 0)%R. split.
    + intros ct s e Hs He. split.
      * unfold load_grad_logits. rewrite RQ by auto. cbn [eopp]. f_equal. ring.
      * unfold load_grad_noisy. rewrite (esum_fin E _ (fun e => ct * q s e)%R) by (intros; apply RQ; auto). fold (idx s). cbn [emul]. f_equal. rewrite sum_to_scale. destruct (e =? idx s); ring.
    + match goal with |- derivable_pt_lim _ _ ?v => match type of DL with derivable_pt_lim _ _ ?w => replace v with w end end; [exact DL|].
      unfold sum2. rewrite (sum_to_ext E _ (fun e => sum_to Sz (fun s => q s e * n' s (idx s) + - q s e * l' s e)%R)).
      * rewrite sum_to_swap. apply sum_to_ext. intros s Hs. rewrite !sum_to_plus. rewrite Rplus_comm. f_equal.
        rewrite (sum_to_ext E (fun j => (if j =? idx s then sum_to E (q s) else 0) * n' s j)%R (fun j => (if j =? idx s then 1 else 0) * (sum_to E (q s) * n' s j))%R) by (intros j Hj; destruct (j =? idx s); ring).
        rewrite <- (sumf_to E (fun j => (if j =? idx s then 1 else 0) * (sum_to E (q s) * n' s j))%R). rewrite (sumf_one_hot E (idx s) (fun j => sum_to E (q s) * n' s j)%R) by (apply last_index; auto).
        rewrite <- !sumf_to. apply sumf_scale_r.
      * intros e He. rewrite (sum_to_ext Sz (fun s => - (pdf (z s e) * ((n' s (idx s) - l' s e) / sd)))%R (fun s => INR Sz / c e * 0 + - (pdf (z s e) * ((n' s (idx s) - l' s e) / sd)))%R) by (intros; ring).
        unfold Rdiv at 1. rewrite <- Rmult_assoc, <- Rmult_assoc || idtac.
        rewrite (sum_to_ext Sz (fun s => q s e * n' s (idx s) + - q s e * l' s e)%R (fun s => c e / INR Sz * (- (pdf (z s e) * ((n' s (idx s) - l' s e) / sd))))%R) by (intros s Hs; unfold q; field; split; [lra|auto]).
        rewrite sum_to_scale. rewrite (sum_to_ext Sz _ (fun s => - (pdf (z s e) * ((n' s (idx s) - l' s e) / sd)))%R) by (intros; ring). unfold Rdiv. ring.
  - intros V.
    assert (RQ : forall ct s e, s < Sz -> e < E -> load_ct_required cdf pdf Sz E K sd (l t0) (n t0) (Fin ct) s e = NaN).
    { intros ct s e Hs He. unfold load_ct_required. rewrite (cv_vjp_flat E _ (p_mean t0)) by (auto; intros; apply load_p_fin). cbv zeta. rewrite ediv_nan_l. reflexivity. }
    split.
    + intros ct s e Hs He. split; [unfold load_grad_logits; rewrite RQ by auto; reflexivity|]. unfold load_grad_noisy.
      replace (esum E _) with NaN; [apply emul_nan_l|]. unfold esum. destruct E as [|m] eqn:EE; [lia|]. cbn [seq map fold_right]. rewrite RQ by lia. symmetry. apply eadd_nan_l.
    + rewrite (sum_to_ext E _ (fun _ => 0%R)) in DL by (intros e He; unfold c; rewrite cv_grad_flat by (auto; lia); ring). rewrite sum_to_const, Rmult_0_r in DL. exact DL.
Qed.
End Load.
