(** Proofs for C99. *)
From Coq Require Import List Arith ZArith Bool Lia Reals Lra.
From Verif Require Import AdaModel AdaSpec.
Import ListNotations.
Local Open Scope R_scope.

Lemma rpower_ge1 x y : 1 <= x -> 0 <= y -> 1 <= Rpower x y.
Proof. intros X Y. rewrite <- (Rpower_O x) by lra. destruct (Rle_lt_or_eq_dec 1 x X) as [L|<-]; [apply Rle_Rpower; lra|]. unfold Rpower. rewrite ln_1, !Rmult_0_r. lra. Qed.
Lemma fpow_pos x y : 0 < x -> fpow x y = Num (Rpower x y).
Proof.
  intros X. unfold fpow. destruct (Req_EM_T y 0) as [->|N]; [rewrite Rpower_O by lra; reflexivity|]. destruct (Rlt_dec 0 x); [reflexivity|lra].
Qed.
Definition kept (rate dm : R) (n : nat) : R := Rmin dm (1 - / Rpower (INR (S n)) rate).
Lemma kept_range rate dm n : 0 <= dm < 1 -> 0 <= rate -> 0 <= kept rate dm n <= dm.
Proof.
  intros D P. unfold kept. assert (Q : 1 <= Rpower (INR (S n)) rate) by (apply rpower_ge1; auto; rewrite S_INR; pose proof (pos_INR n); lra).
  assert (I : 0 < / Rpower (INR (S n)) rate <= 1).
  { split; [apply Rinv_0_lt_compat; lra|]. rewrite <- Rinv_1. apply Rinv_le_contravar; lra. }
  unfold Rmin. destruct (Rle_dec dm (1 - / Rpower (INR (S n)) rate)); lra.
Qed.
Lemma rate_fl dm count off rate : (off <= count)%nat ->
  decay_rate_pow_fl dm (Z.of_nat count - Z.of_nat off) rate = Num (kept rate dm (count - off)).
Proof.
  intros L. unfold decay_rate_pow_fl, kept. rewrite <- Nat2Z.inj_sub by exact L. rewrite <- INR_IZR_INZ, <- S_INR.
  rewrite fpow_pos by (apply lt_0_INR; lia). rewrite Rpower_Ropp. reflexivity.
Qed.
Lemma update_num rate dm off eps g count x : 0 <= dm < 1 -> 0 <= rate -> 0 < eps -> (off <= count)%nat -> 0 <= x ->
  let d := kept rate dm (count - off) in let x' := d * x + (1 - d) * (g * g + eps) in
  0 < x' /\ ada_update rate dm off eps g (count, Num x) = (Num (g * / sqrt x'), (S count, Num x')) /\ Rabs (g * / sqrt x') <= / sqrt (1 - dm).
Proof.
  intros D P E L X d x'. pose proof (kept_range rate dm (count - off) D P) as K. fold d in K. pose proof (Rle_0_sqr g) as G. unfold Rsqr in G.
  assert (H1 : 0 <= d * x) by (apply Rmult_le_pos; lra).
  assert (H2 : (1 - dm) * (g * g) <= (1 - d) * (g * g + eps)).
  { apply Rmult_le_compat; lra. }
  assert (H3 : 0 < (1 - d) * (g * g + eps)) by (apply Rmult_lt_0_compat; lra).
  assert (X' : 0 < x') by (unfold x'; lra). split; [exact X'|]. split.
  - unfold ada_update. rewrite rate_fl by exact L. fold d. cbn [fsub fneg fadd fmul]. replace (1 + - d) with (1 - d) by lra. fold x'.
    unfold frsqrt. destruct (Rlt_dec 0 x'); [reflexivity|lra].
  - assert (S : 0 < sqrt x') by (apply sqrt_lt_R0; exact X'). assert (S1 : 0 < sqrt (1 - dm)) by (apply sqrt_lt_R0; lra).
    rewrite Rabs_mult, (Rabs_right (/ sqrt x')) by (apply Rle_ge, Rlt_le, Rinv_0_lt_compat; exact S).
    apply (Rmult_le_reg_r (sqrt x')); [exact S|]. rewrite Rmult_assoc, Rinv_l, Rmult_1_r by lra.
    apply (Rmult_le_reg_l (sqrt (1 - dm))); [exact S1|]. rewrite <- Rmult_assoc, Rinv_r, Rmult_1_l by lra.
    rewrite <- (sqrt_Rsqr_abs g). rewrite <- sqrt_mult_alt by lra. apply sqrt_le_1_alt. unfold Rsqr, x'. lra.
Qed.
Lemma run_within rate dm off eps gs : 0 <= dm < 1 -> 0 <= rate -> 0 < eps -> forall count x, (off <= count)%nat -> 0 <= x ->
  Forall (within (/ sqrt (1 - dm))) (ada_run rate dm off eps gs (count, Num x)).
Proof.
  intros D P E. induction gs as [|g gs IH]; intros count x L X; cbn [ada_run]; [constructor|].
  destruct (update_num rate dm off eps g count x D P E L X) as (X' & -> & B). constructor; [eexists; split; [reflexivity|exact B]|]. apply IH; [lia|lra].
Qed.
Lemma run_averages rate dm eps : 0 <= dm < 1 -> 0 <= rate -> 0 < eps -> forall gs count x, 0 <= x ->
  exists v : nat -> R, v 0%nat = x /\
    (forall t, (t < length gs)%nat -> v (S t) = kept rate dm (count + t) * v t + (1 - kept rate dm (count + t)) * (nth t gs 0 * nth t gs 0 + eps)) /\
    ada_run rate dm 0 eps gs (count, Num x) = map (fun t => Num (nth t gs 0 * / sqrt (v (S t)))) (seq 0 (length gs)).
Proof.
  intros D P E. induction gs as [|g gs IH]; intros count x X.
  - exists (fun _ => x). split; [reflexivity|]. split; [intros t T; cbn in T; lia|reflexivity].
  - cbn [ada_run]. destruct (update_num rate dm 0 eps g count x D P E (Nat.le_0_l _) X) as (X' & Q & _). rewrite Q. rewrite Nat.sub_0_r in *.
    destruct (IH (S count) _ (Rlt_le _ _ X')) as (v & V0 & VS & R).
    exists (fun t => match t with O => x | S t => v t end). split; [reflexivity|]. split.
    + intros [|t] T; cbn [nth].
      * rewrite V0, Nat.add_0_r. reflexivity.
      * rewrite VS by (cbn in T; lia). rewrite Nat.add_succ_comm. reflexivity.
    + rewrite R. cbn [length seq map nth]. rewrite V0. f_equal. rewrite <- seq_shift, map_map. reflexivity.
Qed.
Lemma fmul_nan a : fmul a NaN = NaN. Proof. destruct a; reflexivity. Qed.
Lemma fadd_nan a : fadd NaN a = NaN. Proof. destruct a; reflexivity. Qed.
Lemma run_nan rate dm off eps gs : forall count, Forall (eq NaN) (ada_run rate dm off eps gs (count, NaN)).
Proof.
  induction gs as [|g gs IH]; intros count; cbn [ada_run]; [constructor|]. unfold ada_update. rewrite fmul_nan, fadd_nan. constructor; [reflexivity|apply IH].
Qed.
Lemma fresh_nan rate dm off eps gs : 0 < rate -> (0 < off)%nat -> off = 1%nat \/ ~ integer rate ->
  Forall (eq NaN) (ada_run rate dm off eps gs ada_init).
Proof.
  intros P O C. destruct gs as [|g gs]; cbn [ada_run]; [constructor|]. unfold ada_update, ada_init.
  assert (Q : forall x, fadd (fmul (decay_rate_pow_fl dm (Z.of_nat 0 - Z.of_nat off) rate) (Num 0)) x = NaN).
  { intros x. unfold decay_rate_pow_fl, fpow. destruct (Req_EM_T (- rate) 0); [lra|].
    replace (Z.of_nat 0 - Z.of_nat off)%Z with (- Z.of_nat off)%Z by lia. rewrite opp_IZR, <- INR_IZR_INZ.
    assert (1 <= INR off) by (apply (le_INR 1); lia). destruct (Rlt_dec 0 (- INR off + 1)); [lra|].
    destruct (Req_EM_T (- INR off + 1) 0) as [Z|NZ].
    - destruct (Rlt_dec (- rate) 0); [|lra]. cbn [fsub fneg negb fadd fmin fmul]. unfold scale_inf. destruct (Rlt_dec 0 0); [lra|]. reflexivity.
    - destruct C as [->|C]; [cbn in NZ; lra|]. destruct (Req_EM_T (IZR (Int_part (- rate))) (- rate)) as [I|I].
      + exfalso. apply C. exists (- Int_part (- rate))%Z. rewrite opp_IZR. lra.
      + reflexivity. }
  rewrite Q. constructor; [reflexivity|apply run_nan].
Qed.
