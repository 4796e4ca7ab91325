(** Proofs for C38. *)
From Coq Require Import List Arith Reals Lra Lia Permutation.
From Verif Require Import Py PyLemmas EvalModel EvalSpec.
Import ListNotations.
Local Open Scope nat_scope.

Definition rsum (l : list R) : R := fold_right Rplus 0%R l.
Lemma rsum_app a b : rsum (a ++ b) = (rsum a + rsum b)%R.
Proof. induction a; simpl; lra. Qed.
Lemma fsum_some l : forall a, fold_left fadd (map Some l) (Some a) = Some (a + rsum l)%R.
Proof. induction l as [|x l IH]; intros a; simpl; [f_equal; lra|]. rewrite IH. f_equal. lra. Qed.
Lemma fsum_map l : fsum (map Some l) = Some (rsum l).
Proof. unfold fsum. rewrite fsum_some. f_equal. lra. Qed.

Lemma mul_all_some a : forall b, length a = length b -> mul_all (map Some a) (map Some b) = Ok (map Some (map (fun xy => (fst xy * snd xy)%R) (combine a b))).
Proof. induction a as [|x a IH]; intros [|y b] E; try discriminate; simpl; auto. rewrite IH by (simpl in E; lia). auto. Qed.

(** The sum of the products with a one-hot row *)
Lemma one_hot_sum lab v : forall p s, rsum (map (fun xy => (fst xy * snd xy)%R) (combine (map (Rmult v) lab) (map (fun j => if j =? p then 1%R else 0%R) (seq s (length lab))))) =
  (if s <=? p then v * nth (p - s) lab 0 else 0)%R.
Proof.
  induction lab as [|x lab IH]; intros p s; simpl.
  - destruct (s <=? p); [|auto]. destruct (p - s); simpl; lra.
  - rewrite IH. destruct (Nat.eqb_spec s p) as [->|N].
    + rewrite Nat.leb_refl, Nat.sub_diag. destruct (Nat.leb_spec (S p) p); [lia|]. lra.
    + destruct (Nat.leb_spec (S s) p); destruct (Nat.leb_spec s p); try lia; try lra.
      replace (p - s) with (S (p - S s)) by lia. lra.
Qed.

Section Eval.
Variable X L rngs_t : Type.
Variable split : rngs_t -> rngs_t * rngs_t.
Variable apply_fn : rngs_t -> list X -> res (list L).
Variable loss_fn : list L -> list (list fl) -> res (list (list fl)).
Variable label_pred_fn : list L -> list nat.
Variable f : X -> L.
Variable lossf : L -> list fl -> list fl.
Variable predf : L -> nat.
Hypothesis OBO : one_by_one apply_fn loss_fn label_pred_fn f lossf predf.
Variable loss : example X -> R.
Definition has_loss (e : example X) : Prop := fsum (lossf (f (e_image e)) (map Some (e_label e))) = Some (loss e).
Definition score (e : example X) : R := nth (predf (f (e_image e))) (e_label e) 0%R.
Definition vnum (e : example X) : R := if e_real e then 1%R else 0%R.

Lemma correct_some es : exists l,
  correct_rows (map vnum es) (map (fun e => map Some (e_label e)) es) (map (fun e => predf (f (e_image e))) es) = Ok (map Some l) /\
  rsum l = rsum (map (fun e => (vnum e * score e)%R) es).
Proof using.
  induction es as [|e es (l & E & S)]; [exists []; auto|]. simpl. rewrite map_length.
  rewrite map_map. simpl. rewrite <- map_map with (f := Rmult (vnum e)) (g := Some).
  unfold one_hot. rewrite <- map_map with (g := Some) (f := fun j => if j =? predf (f (e_image e)) then 1%R else 0%R).
  rewrite mul_all_some by (rewrite !map_length, seq_length; auto). cbn [bind]. rewrite E. cbn [bind]. rewrite <- map_app.
  eexists. split; [reflexivity|]. rewrite rsum_app, S, one_hot_sum. simpl. rewrite Nat.sub_0_r. auto.
Qed.

Lemma step_some es n c l r : Forall has_loss es -> exists r',
  evaluate_step X L rngs_t split apply_fn loss_fn label_pred_fn (EvalState rngs_t (Some n) (Some c) (Some l) r) (batch_of es) =
  Ok (EvalState rngs_t (Some (n + rsum (map vnum es))%R) (Some (c + rsum (map (fun e => (vnum e * score e)%R) es))%R)
        (Some (l + rsum (map (fun e => (vnum e * loss e)%R) es))%R) r').
Proof using OBO.
  intros F. destruct OBO as (O1 & O2 & O3). unfold evaluate_step. cbn [rngs batch_of image labels valid].
  destruct (split r) as [r1 r2]. rewrite O1. cbn [bind].
  assert (E3 : loss_fn (map f (map e_image es)) (map (fun e => map Some (e_label e)) es) = Ok (map (fun e => lossf (f (e_image e)) (map Some (e_label e))) es)).
  { assert (K := O2 (map (fun e => (f (e_image e), map Some (e_label e))) es)). rewrite !map_map in K. cbn [fst snd] in K. rewrite map_map. exact K. }
  rewrite E3. clear E3.
  cbn [bind]. rewrite !map_map. cbn [fst snd].
  rewrite (map_ext_in (fun x => fsum (lossf (f (e_image x)) (map Some (e_label x)))) (fun e => Some (loss e))) by (intros e He; rewrite Forall_forall in F; apply (F e He)).
  rewrite <- map_map with (f := fun e => if e_real e then 1%R else 0%R) (g := Some). rewrite <- map_map with (f := loss) (g := Some).
  rewrite mul_all_some by (rewrite !map_length; auto). cbn [bind].
  rewrite O3, map_map. destruct (correct_some es) as (lc & E & S). unfold vnum in E at 1. rewrite E. cbn [bind].
  exists r2. f_equal. unfold update. cbn [num sum_correct sum_loss rngs]. rewrite !fsum_map. cbn [fadd]. rewrite S. f_equal.
  f_equal. f_equal. f_equal. clear. induction es; simpl; auto. rewrite IHes. auto.
Qed.
Lemma dataset_some bs : forall n c l r, Forall (Forall has_loss) bs -> exists r',
  evaluate_dataset X L rngs_t split apply_fn loss_fn label_pred_fn (EvalState rngs_t (Some n) (Some c) (Some l) r) (map batch_of bs) =
  Ok (EvalState rngs_t (Some (n + rsum (map vnum (concat bs)))%R) (Some (c + rsum (map (fun e => (vnum e * score e)%R) (concat bs)))%R)
        (Some (l + rsum (map (fun e => (vnum e * loss e)%R) (concat bs)))%R) r').
Proof using OBO.
  induction bs as [|es bs IH]; intros n c l r F.
  - exists r. unfold evaluate_dataset. cbn. rewrite !Rplus_0_r. auto.
  - inversion F; subst. unfold evaluate_dataset. cbn [map rfold]. destruct (step_some es n c l r H1) as (r1 & ->). cbn [bind].
    edestruct IH as (r2 & E); eauto. unfold evaluate_dataset in E. rewrite E. exists r2. f_equal. cbn [concat]. rewrite !map_app, !rsum_app. f_equal; f_equal; lra.
Qed.

Lemma only_real (g : example X -> R) l : rsum (map (fun e => (vnum e * g e)%R) l) = rsum (map g (filter e_real l)).
Proof using. induction l as [|e l IH]; simpl; auto. rewrite IH. unfold vnum. destruct (e_real e); simpl; lra. Qed.
Lemma count_real l : rsum (map vnum l) = INR (length (filter e_real l)).
Proof using.
  induction l as [|e l IH]; auto. cbn [map filter]. unfold vnum at 1. destruct (e_real e).
  - cbn [length]. rewrite S_INR. simpl. rewrite IH. lra.
  - simpl. rewrite IH. lra.
Qed.

Lemma evaluate_mean r0 (datasets : list (nat * list (list (example X)))) :
  Forall (fun nd => Forall (Forall has_loss) (snd nd)) datasets ->
  evaluate X L rngs_t split apply_fn loss_fn label_pred_fn r0 (map (fun nd => (fst nd, map batch_of (snd nd))) datasets) =
  Ok (map (fun nd => (fst nd, match real_examples (snd nd) with
                              | [] => (None, None)
                              | es => (Some (mean (map score es)), Some (mean (map loss es)))
                              end)) datasets).
Proof using OBO.
  intros F. unfold evaluate. induction datasets as [|[n bs] ds IH]; auto. inversion F; subst. cbn [map rmap fst snd] in *.
  destruct (dataset_some bs 0 0 0 r0 H1) as (r' & ->). cbn [bind num sum_correct sum_loss].
  rewrite IH by auto. cbn [bind]. f_equal. f_equal. f_equal. rewrite !only_real, count_real, !Rplus_0_l. fold (real_examples bs).
  unfold fdiv. destruct (real_examples bs) as [|e es].
  - destruct (Req_EM_T _ _) as [_|N]; auto. simpl in N. lra.
  - destruct (Req_EM_T _ _) as [Z|_]; [apply INR_eq with (m := 0) in Z; discriminate|]. unfold mean, rsum. cbn [map length]. rewrite !map_length. auto.
Qed.
End Eval.

Lemma rsum_perm a b : Permutation a b -> rsum a = rsum b.
Proof. induction 1; simpl; lra. Qed.
Lemma mean_perm a b : Permutation a b -> mean a = mean b.
Proof. intros P. unfold mean. fold (rsum a) (rsum b). rewrite (rsum_perm _ _ P), (Permutation_length P). auto. Qed.
