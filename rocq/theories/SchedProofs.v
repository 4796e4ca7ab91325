From Coq Require Import List ZArith Reals Lra Lia.
From Verif Require Import Py SchedModel.
Import ListNotations.
Local Open Scope R_scope.

Lemma pow_0 p : 0 < p -> pow_ 0 p = 0.
Proof. intros H. unfold pow_. destruct (Req_EM_T 0 0); [|lra]. destruct (Req_EM_T p 0); lra. Qed.
Lemma pow_1 p : pow_ 1 p = 1.
Proof. unfold pow_. destruct (Req_EM_T 1 0); [lra|]. unfold Rpower. rewrite ln_1, Rmult_0_r, exp_0. auto. Qed.
Lemma pow_x1 x : 0 <= x -> pow_ x 1 = x.
Proof. intros H. unfold pow_. destruct (Req_EM_T x 0); [destruct (Req_EM_T 1 0); lra|]. apply Rpower_1. lra. Qed.
Lemma pow_pos x p : 0 < x -> pow_ x p = Rpower x p.
Proof. intros H. unfold pow_. destruct (Req_EM_T x 0); [lra|auto]. Qed.
Lemma pow_bounds x p : 0 <= x <= 1 -> 0 <= p -> 0 <= pow_ x p <= 1.
Proof.
  intros H Hp. destruct (Req_EM_T x 0) as [->|N].
  - unfold pow_. destruct (Req_EM_T 0 0); [|lra]. destruct (Req_EM_T p 0); lra.
  - rewrite pow_pos by lra. unfold Rpower. split; [left; apply exp_pos|]. rewrite <- exp_0.
    assert (L : ln x <= 0). { rewrite <- ln_1. destruct (Req_EM_T x 1) as [->|]; [lra|]. left. apply ln_increasing; lra. }
    assert (K : p * ln x <= 0). { assert (0 <= p * - ln x) by (apply Rmult_le_pos; lra). lra. }
    destruct K as [K|K]; [left; apply exp_increasing; auto|rewrite K; lra].
Qed.
Lemma pow_incr x y p : 0 <= x <= y -> 0 <= p -> pow_ x p <= pow_ y p.
Proof.
  intros H Hp. destruct (Req_EM_T x 0) as [->|Nx].
  - destruct (Req_EM_T p 0) as [->|Np].
    + unfold pow_. destruct (Req_EM_T 0 0); [|lra]. destruct (Req_EM_T y 0); [lra|]. rewrite Rpower_O; lra.
    + rewrite pow_0 by lra. unfold pow_. destruct (Req_EM_T y 0); [destruct (Req_EM_T p 0); lra|]. left. apply exp_pos.
  - rewrite !pow_pos by lra. apply Rle_Rpower_l; lra.
Qed.

Lemma IZR_div_le a b : (0 < b)%Z -> (0 <= a <= b)%Z -> 0 <= IZR a / IZR b <= 1.
Proof.
  intros Hb Ha. apply IZR_lt in Hb. destruct Ha as [H1 H2]. apply IZR_le in H1, H2. split.
  - apply Rmult_le_pos; auto. left. apply Rinv_0_lt_compat; auto.
  - apply (Rmult_le_reg_r (IZR b)); auto. unfold Rdiv. rewrite Rmult_assoc, Rinv_l by lra. lra.
Qed.

Section Poly.
Variables (peak end_ power : R) (w d : Z).
Hypothesis Hw : (0 <= w)%Z.
Hypothesis Hd : (w < d)%Z.
Hypothesis Hp : 0 < power.
Let lr := warmup_polynomial_decay_schedule peak end_ power w d.

Lemma lr_warmup s : (0 <= s < w)%Z -> lr s = peak * (IZR s / IZR w).
Proof.
  intros H. unfold lr, warmup_polynomial_decay_schedule, join_schedules. simpl.
  destruct (Z.ltb_spec s w); [|lia]. unfold linear_schedule, polynomial_schedule. destruct (Z.leb_spec w 0); [lia|].
  rewrite Z.min_l, Z.max_r by lia. assert (K := IZR_div_le s w ltac:(lia) ltac:(lia)). rewrite pow_x1 by lra. ring.
Qed.
Lemma lr_decay s : (w <= s <= d)%Z -> lr s = (peak - end_) * pow_ (IZR (d - s) / IZR (d - w)) power + end_.
Proof.
  intros H. unfold lr, warmup_polynomial_decay_schedule, join_schedules. simpl.
  destruct (Z.ltb_spec s w); [lia|]. unfold polynomial_schedule. destruct (Z.leb_spec (d - w) 0); [lia|].
  rewrite Z.min_l, Z.max_r by lia. replace (1 - IZR (s - w) / IZR (d - w)) with (IZR (d - s) / IZR (d - w)); auto.
  assert (0 < IZR (d - w)) by (apply IZR_lt; lia). rewrite !minus_IZR in *. field. lra.
Qed.
Lemma lr_after s : (d <= s)%Z -> lr s = end_.
Proof.
  intros H. unfold lr, warmup_polynomial_decay_schedule, join_schedules. simpl.
  destruct (Z.ltb_spec s w); [lia|]. unfold polynomial_schedule. destruct (Z.leb_spec (d - w) 0); [lia|].
  rewrite Z.min_r, Z.max_r by lia. assert (0 < IZR (d - w)) by (apply IZR_lt; lia).
  replace (1 - IZR (d - w) / IZR (d - w)) with 0 by (field; lra). rewrite pow_0 by auto. ring.
Qed.
Lemma lr_boundary : lr w = peak /\ lr d = end_.
Proof.
  split; [|apply lr_after; lia]. rewrite lr_decay by lia. assert (0 < IZR (d - w)) by (apply IZR_lt; lia).
  replace (IZR (d - w) / IZR (d - w)) with 1 by (field; lra). rewrite pow_1. ring.
Qed.
Lemma lr_bounds : end_ <= peak -> (forall s, (w <= s)%Z -> end_ <= lr s <= peak) /\
  (forall s t, (w <= s <= t)%Z -> lr t <= lr s).
Proof.
  intros He. split.
  - intros s H. destruct (Z.le_gt_cases s d) as [L|L].
    + rewrite lr_decay by lia. assert (K := IZR_div_le (d - s) (d - w) ltac:(lia) ltac:(lia)). assert (B := pow_bounds _ power K ltac:(lra)).
      set (q := pow_ _ _) in *. clearbody q. assert (0 <= (peak - end_) * q) by (apply Rmult_le_pos; lra).
      assert (0 <= (peak - end_) * (1 - q)) by (apply Rmult_le_pos; lra). lra.
    + rewrite lr_after by lia. lra.
  - intros s t H. destruct (Z.le_gt_cases t d) as [L|L].
    + rewrite !lr_decay by lia. assert (K := IZR_div_le (d - s) (d - w) ltac:(lia) ltac:(lia)). assert (K2 := IZR_div_le (d - t) (d - w) ltac:(lia) ltac:(lia)).
      assert (D : IZR (d - t) / IZR (d - w) <= IZR (d - s) / IZR (d - w)).
      { apply Rmult_le_compat_r; [left; apply Rinv_0_lt_compat; apply IZR_lt; lia|]. apply IZR_le. lia. }
      assert (B := pow_incr _ _ power (conj (proj1 K2) D) ltac:(lra)). apply Rplus_le_compat_r. apply Rmult_le_compat_l; lra.
    + rewrite (lr_after t) by lia. destruct (Z.le_gt_cases s d) as [L2|L2]; [|rewrite lr_after by lia; lra].
      rewrite lr_decay by lia. assert (K := IZR_div_le (d - s) (d - w) ltac:(lia) ltac:(lia)). assert (B := pow_bounds _ power K ltac:(lra)).
      assert (0 <= (peak - end_) * pow_ (IZR (d - s) / IZR (d - w)) power) by (apply Rmult_le_pos; lra). lra.
Qed.
End Poly.

Section Rsqrt.
Variables (peak : R) (d ts w c : Z).
Variable lr : schedule.
Hypothesis Hw : (0 <= w)%Z.
Hypothesis Hc : (0 <= c)%Z.
Hypothesis E : big_vision_rsqrt_schedule peak d ts w c = Ok lr.

Lemma args : (w + c <= d)%Z /\ (0 < ts)%Z.
Proof using E.
  unfold big_vision_rsqrt_schedule in E. destruct (Z.ltb_spec d (w + c)); [discriminate|]. destruct (Z.ltb_spec ts 0); [discriminate|].
  destruct (Z.eqb_spec ts 0); [discriminate|]. lia.
Qed.
Lemma lr_eq s : (0 <= s)%Z -> lr s = if (s <? w)%Z then peak * (IZR s / IZR w)
  else if orb (s <? d - c)%Z (c =? 0)%Z then peak * (1 / sqrt (1 + IZR (s - w) / IZR ts))
  else peak / sqrt (1 + IZR (d - w - c) / IZR ts) * (1 - IZR (s - (d - c)) / IZR c).
Proof using E Hw Hc.
  intros Hs. destruct args as [A1 A2]. unfold big_vision_rsqrt_schedule in E. destruct (Z.ltb_spec d (w + c)); [lia|]. destruct (Z.ltb_spec ts 0); [lia|].
  destruct (Z.eqb_spec ts 0); [lia|]. injection E as <-.
  assert (L : (0 < w)%Z -> (s < w)%Z -> linear_schedule 0 peak w s = peak * (IZR s / IZR w)).
  { intros W S. unfold linear_schedule, polynomial_schedule. destruct (Z.leb_spec w 0); [lia|]. rewrite (Z.min_l s), Z.max_r by lia.
    assert (K := IZR_div_le s w ltac:(lia) ltac:(lia)). rewrite pow_x1 by lra. ring. }
  destruct (Z.ltb_spec 0 w) as [W|W], (Z.ltb_spec 0 c) as [C|C]; unfold join_schedules; simpl.
  - destruct (Z.ltb_spec s w) as [S|S].
    + destruct (Z.ltb_spec s (d - c)); [|lia]. apply L; auto.
    + destruct (Z.eqb_spec c 0); [lia|]. rewrite Bool.orb_false_r. destruct (Z.ltb_spec s (d - c)); auto.
  - assert (c = 0)%Z by lia. subst c. rewrite Bool.orb_true_r. destruct (Z.ltb_spec s w); [apply L; auto|auto].
  - assert (w = 0)%Z by lia. subst w. destruct (Z.ltb_spec s 0); [lia|]. destruct (Z.eqb_spec c 0); [lia|]. rewrite Bool.orb_false_r, !Z.sub_0_r.
    destruct (Z.ltb_spec s (d - c)); reflexivity.
  - assert (w = 0)%Z by lia. assert (c = 0)%Z by lia. subst w c. simpl. destruct (Z.ltb_spec s 0); [lia|]. rewrite Bool.orb_true_r. rewrite Z.sub_0_r. auto.
Qed.

Lemma sqrt_form x : (0 <= x)%Z -> 1 / sqrt (1 + IZR x / IZR ts) = sqrt (IZR ts / (IZR ts + IZR x)) /\ 0 < sqrt (IZR ts / (IZR ts + IZR x)) <= 1.
Proof using E.
  intros H. destruct args as [_ T]. apply IZR_lt in T. apply IZR_le in H.
  assert (P : 0 < 1 + IZR x / IZR ts).
  { assert (0 <= IZR x / IZR ts) by (apply Rmult_le_pos; auto; left; apply Rinv_0_lt_compat; auto). lra. }
  replace (IZR ts / (IZR ts + IZR x)) with (/ (1 + IZR x / IZR ts)) by (field; lra).
  assert (P1 : 1 <= 1 + IZR x / IZR ts).
  { assert (0 <= IZR x / IZR ts) by (apply Rmult_le_pos; auto; left; apply Rinv_0_lt_compat; auto). lra. }
  rewrite sqrt_inv. split; [unfold Rdiv; ring|].
  assert (S : 1 <= sqrt (1 + IZR x / IZR ts)) by (rewrite <- sqrt_1 at 1; apply sqrt_le_1; lra).
  split; [apply Rinv_0_lt_compat; lra|]. apply (Rmult_le_reg_r (sqrt (1 + IZR x / IZR ts))); [lra|]. rewrite Rinv_l; lra.
Qed.

Lemma rs_warm s : (0 <= s <= w)%Z -> (0 < w)%Z -> lr s = peak * (IZR s / IZR w).
Proof using E Hw Hc.
  intros H W. rewrite lr_eq by lia. destruct (Z.ltb_spec s w); auto. assert (s = w) by lia. subst s. destruct args as [A T].
  assert (0 < IZR w) by (apply IZR_lt; lia). replace (IZR w / IZR w) with 1 by (field; lra).
  destruct (orb _ _) eqn:O.
  - rewrite Z.sub_diag. replace (1 + 0 / IZR ts) with 1 by (unfold Rdiv; ring). rewrite sqrt_1. field.
  - apply Bool.orb_false_elim in O. destruct O as [O1 O2]. apply Z.ltb_ge in O1. apply Z.eqb_neq in O2. assert (d = w + c)%Z by lia. subst d.
    replace (w + c - w - c)%Z with 0%Z by lia. replace (w - (w + c - c))%Z with 0%Z by lia.
    replace (1 + 0 / IZR ts) with 1 by (unfold Rdiv; ring). rewrite sqrt_1. assert (IZR c <> 0) by (intros K; apply eq_IZR in K; lia). field. auto.
Qed.
Lemma rs_mid s : (w <= s <= d - c)%Z -> lr s = peak * sqrt (IZR ts / (IZR ts + IZR (s - w))).
Proof using E Hw Hc.
  intros H. destruct args as [A T]. rewrite lr_eq by lia. destruct (Z.ltb_spec s w); [lia|].
  destruct (orb _ _) eqn:O. { rewrite (proj1 (sqrt_form (s - w) ltac:(lia))). auto. }
  apply Bool.orb_false_elim in O. destruct O as [O1 O2]. apply Z.ltb_ge in O1. apply Z.eqb_neq in O2. assert (s = d - c)%Z by lia. subst s.
  replace (d - c - (d - c))%Z with 0%Z by lia. replace (d - c - w)%Z with (d - w - c)%Z by lia.
  rewrite <- (proj1 (sqrt_form (d - w - c) ltac:(lia))). assert (IZR c <> 0) by (intros K; apply eq_IZR in K; lia).
  unfold Rdiv. ring.
Qed.
Lemma rs_cool s : (d - c <= s)%Z -> (0 < c)%Z -> lr s = lr (d - c)%Z * (IZR (d - s) / IZR c).
Proof using E Hw Hc.
  intros H C. destruct args as [A T]. rewrite (rs_mid (d - c)) by lia. rewrite lr_eq by lia. destruct (Z.ltb_spec s w); [lia|].
  destruct (Z.ltb_spec s (d - c)); [lia|]. destruct (Z.eqb_spec c 0); [lia|]. simpl.
  replace (d - c - w)%Z with (d - w - c)%Z by lia. rewrite <- (proj1 (sqrt_form (d - w - c) ltac:(lia))).
  assert (0 < IZR c) by (apply IZR_lt; lia). rewrite !minus_IZR. unfold Rdiv. replace (1 - (IZR s - (IZR d - IZR c)) * / IZR c) with ((IZR d - IZR s) * / IZR c) by (field; lra). ring.
Qed.
Lemma rs_last : (0 < c)%Z -> lr d = 0.
Proof using E Hw Hc. intros C. rewrite rs_cool by lia. rewrite Z.sub_diag. unfold Rdiv. ring. Qed.
Lemma rs_bounds s : 0 <= peak -> (0 <= s <= d)%Z -> 0 <= lr s <= peak.
Proof using E Hw Hc.
  intros P H. destruct args as [A T].
  assert (M : forall s, (w <= s <= d - c)%Z -> 0 <= lr s <= peak).
  { intros r Hr. rewrite rs_mid by auto. destruct (sqrt_form (r - w) ltac:(lia)) as [_ B]. set (q := sqrt _) in *. clearbody q.
    split; [apply Rmult_le_pos; lra|]. rewrite <- (Rmult_1_r peak) at 2. apply Rmult_le_compat_l; lra. }
  destruct (Z.lt_ge_cases s w) as [S|S].
  { rewrite rs_warm by lia. assert (K := IZR_div_le s w ltac:(lia) ltac:(lia)). split; [apply Rmult_le_pos; lra|].
    rewrite <- (Rmult_1_r peak) at 2. apply Rmult_le_compat_l; lra. }
  destruct (Z.le_gt_cases s (d - c)) as [S2|S2]; [apply M; lia|].
  rewrite rs_cool by lia. specialize (M (d - c)%Z ltac:(lia)). assert (K := IZR_div_le (d - s) c ltac:(lia) ltac:(lia)).
  split; [apply Rmult_le_pos; lra|]. apply Rle_trans with (lr (d - c)%Z); [|lra]. rewrite <- (Rmult_1_r (lr (d - c)%Z)) at 2. apply Rmult_le_compat_l; lra.
Qed.
End Rsqrt.

Lemma rs_total peak d ts w c : ((w + c <= d)%Z -> (0 < ts)%Z -> exists lr, big_vision_rsqrt_schedule peak d ts w c = Ok lr) /\
  ((d < w + c)%Z \/ (ts < 0)%Z -> big_vision_rsqrt_schedule peak d ts w c = Raise ValueError).
Proof.
  unfold big_vision_rsqrt_schedule. split.
  - intros A B. destruct (Z.ltb_spec d (w + c)); [lia|]. destruct (Z.ltb_spec ts 0); [lia|]. destruct (Z.eqb_spec ts 0); [lia|]. eauto.
  - intros A. destruct (Z.ltb_spec d (w + c)); auto. destruct (Z.ltb_spec ts 0); auto. lia.
Qed.

Definition poly_shape (lr : schedule) (peak end_ power : R) (w d : Z) : Prop :=
  (forall s, (0 <= s <= w)%Z -> (0 < w)%Z -> lr s = peak * (IZR s / IZR w)) /\
  lr w = peak /\
  (forall s, (w <= s < d)%Z -> lr s = end_ + (peak - end_) * Rpower (IZR (d - s) / IZR (d - w)) power) /\
  (forall s, (d <= s)%Z -> lr s = end_) /\
  (end_ <= peak -> forall s, (w <= s)%Z -> end_ <= lr s <= peak) /\
  (end_ <= peak -> forall s t, (w <= s <= t)%Z -> lr t <= lr s) /\
  (0 <= peak -> forall s, (0 <= s <= w)%Z -> 0 <= lr s <= peak).

Lemma poly_shape_ok peak end_ power w d : (0 <= w < d)%Z -> 0 < power ->
  poly_shape (warmup_polynomial_decay_schedule peak end_ power w d) peak end_ power w d.
Proof.
  intros [Hw Hd] Hp. set (lr := warmup_polynomial_decay_schedule _ _ _ _ _).
  assert (B : lr w = peak) by (apply lr_boundary; auto).
  assert (W : forall s, (0 <= s <= w)%Z -> (0 < w)%Z -> lr s = peak * (IZR s / IZR w)).
  { intros s H W. destruct (Z.eq_dec s w) as [->|N]; [|apply lr_warmup; auto; lia]. rewrite B. field. intros K. apply eq_IZR in K. lia. }
  assert (BD := lr_bounds peak end_ power w d Hd Hp). fold lr in BD. repeat split; auto.
  - intros s H. unfold lr. rewrite lr_decay by (auto; lia). rewrite pow_pos; [ring|].
    apply Rdiv_lt_0_compat; apply IZR_lt; lia.
  - intros s H. apply lr_after; auto.
  - apply BD; auto.
  - apply BD; auto.
  - intros He s t. apply BD; auto.
  - destruct (Z.eq_dec s w) as [->|N]; [rewrite B; lra|]. rewrite W by lia. assert (K := IZR_div_le s w ltac:(lia) ltac:(lia)).
    apply Rmult_le_pos; lra.
  - destruct (Z.eq_dec s w) as [->|N]; [rewrite B; lra|]. rewrite W by lia. assert (K := IZR_div_le s w ltac:(lia) ltac:(lia)).
    rewrite <- (Rmult_1_r peak) at 2. apply Rmult_le_compat_l; lra.
Qed.

Lemma poly_short peak end_ power w d s : (0 <= w)%Z -> (d <= w <= s)%Z ->
  warmup_polynomial_decay_schedule peak end_ power w d s = peak.
Proof.
  intros Hw H. unfold warmup_polynomial_decay_schedule, join_schedules. simpl. destruct (Z.ltb_spec s w); [lia|].
  unfold polynomial_schedule. destruct (Z.leb_spec (d - w) 0); [auto|lia].
Qed.

Lemma c30 total a lr peak end_ power w dec : (0 <= w < dec)%Z -> 0 < power ->
  (exists d, default d total = dec /\ (a = WarmupPolynomial peak end_ power w d \/ a = WarmupLinear peak end_ w d /\ power = 1)) ->
  create_learning_rate_schedule total a = Ok lr -> poly_shape lr peak end_ power w dec.
Proof.
  intros H Hp (d & D & [->|[-> ->]]) E; simpl in E; injection E as <-; rewrite D; apply poly_shape_ok; auto.
Qed.

Lemma c31 total peak ts w c d lr dec : (0 <= w)%Z -> (0 <= c)%Z -> default d total = dec ->
  create_learning_rate_schedule total (BigVisionRsqrt peak ts w c d) = Ok lr ->
  (forall s, (0 <= s <= w)%Z -> (0 < w)%Z -> lr s = peak * (IZR s / IZR w)) /\
  (forall s, (w <= s <= dec - c)%Z -> lr s = peak * sqrt (IZR ts / (IZR ts + IZR (s - w)))) /\
  (forall s, (dec - c <= s)%Z -> (0 < c)%Z -> lr s = lr (dec - c)%Z * (IZR (dec - s) / IZR c)) /\
  ((0 < c)%Z -> lr dec = 0) /\
  (0 <= peak -> forall s, (0 <= s <= dec)%Z -> 0 <= lr s <= peak).
Proof.
  intros Hw Hc D E. simpl in E. rewrite D in E.
  split; [exact (rs_warm _ _ _ _ _ _ Hw Hc E)|]. split; [exact (rs_mid _ _ _ _ _ _ Hw Hc E)|].
  split; [exact (rs_cool _ _ _ _ _ _ Hw Hc E)|]. split; [exact (rs_last _ _ _ _ _ _ Hw Hc E)|].
  intros P s. exact (rs_bounds _ _ _ _ _ _ Hw Hc E s P).
Qed.

Lemma c31_errors total peak ts w c d : let dec := default d total in
  ((w + c <= dec)%Z -> (0 < ts)%Z -> exists lr, create_learning_rate_schedule total (BigVisionRsqrt peak ts w c d) = Ok lr) /\
  ((dec < w + c)%Z \/ (ts < 0)%Z -> create_learning_rate_schedule total (BigVisionRsqrt peak ts w c d) = Raise ValueError).
Proof. apply rs_total. Qed.

Lemma c31_past peak ts w c d lr s : (0 <= w)%Z -> (0 < c)%Z -> 0 < peak ->
  big_vision_rsqrt_schedule peak d ts w c = Ok lr -> (d < s)%Z -> lr s < 0.
Proof.
  intros Hw Hc P E H. destruct (args _ _ _ _ _ _ E) as [A T]. rewrite (rs_cool peak d ts w c lr) by (auto; lia).
  rewrite (rs_mid peak d ts w c lr) by (auto; lia).
  destruct (sqrt_form peak d ts w c lr E (d - c - w)%Z ltac:(lia)) as [_ B].
  assert (0 < peak * sqrt (IZR ts / (IZR ts + IZR (d - c - w)))) by (apply Rmult_lt_0_compat; lra).
  assert (IZR (d - s) / IZR c < 0).
  { assert (0 < IZR (s - d) / IZR c) by (apply Rdiv_lt_0_compat; apply IZR_lt; lia).
    replace (d - s)%Z with (- (s - d))%Z by lia. rewrite opp_IZR. unfold Rdiv in *. lra. }
  set (x := _ * sqrt _) in *. set (y := IZR (d - s) / _) in *. clearbody x y.
  assert (0 < x * - y) by (apply Rmult_lt_0_compat; lra). lra.
Qed.
