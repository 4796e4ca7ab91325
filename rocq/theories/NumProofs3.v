(** Proofs for C75 to C77: Adam and Adafactor. *)
From Coq Require Import List Arith ZArith Bool Lia Reals Lra Permutation.
From Verif Require Import NdArray NdLemmas TreeModel OptModel OptSpec SchedModel NumModel NumSpec NumProofs NumProofs2 Py PyLemmas.
Import ListNotations.
Local Open Scope nat_scope.

(** * Adam *)
Fixpoint geom (q : R) (n : nat) : R := match n with O => 0%R | S n => (q * geom q n + 1)%R end.
Lemma geom_eq q n : ((1 - q) * geom q n = 1 - q ^ n)%R.
Proof. induction n as [|n IH]; cbn [geom pow]; [lra|]. replace ((1 - q) * (q * geom q n + 1))%R with (q * ((1 - q) * geom q n) + (1 - q))%R by ring. rewrite IH. ring. Qed.
Lemma geom_nonneg q n : (0 <= q)%R -> (0 <= geom q n)%R.
Proof. intros Q. induction n as [|n IH]; cbn [geom]; [lra|]. assert (0 <= q * geom q n)%R by (apply Rmult_le_pos; auto). lra. Qed.
Lemma discounted_sq_nonneg q l : (0 <= q)%R -> (0 <= discounted q (map Rsqr l))%R.
Proof.
  intros Q. induction l as [|x l IH] using rev_ind; [unfold discounted; cbn; lra|]. rewrite map_app. cbn [map]. rewrite discounted_snoc.
  pose proof (Rle_0_sqr x). assert (0 <= q * discounted q (map Rsqr l))%R by (apply Rmult_le_pos; auto). lra.
Qed.
Lemma discounted_sq q l : (0 <= q)%R -> (discounted q l * discounted q l <= geom q (length l) * discounted q (map Rsqr l))%R.
Proof.
  intros Q. induction l as [|x l IH] using rev_ind; [unfold discounted; cbn; lra|].
  rewrite map_app, app_length, Nat.add_1_r. cbn [map geom]. rewrite !discounted_snoc.
  set (D := discounted q l) in *. set (G := geom q (length l)) in *. set (V := discounted q (map Rsqr l)) in *.
  assert (HG : (0 <= G)%R) by (apply geom_nonneg; auto). assert (HV : (0 <= V)%R) by (apply discounted_sq_nonneg; auto).
  pose proof (cs_step (q * G) (q * V) (q * D) 1 x) as S. unfold Rsqr.
  replace ((q * D + x) * (q * D + x))%R with ((1 * x + q * D) * (1 * x + q * D))%R by ring.
  replace ((q * G + 1) * (q * V + x * x))%R with ((1 * 1 + q * G) * (x * x + q * V))%R by ring.
  apply S; [apply Rmult_le_pos; auto|apply Rmult_le_pos; auto|]. replace (q * D * (q * D))%R with (q * q * (D * D))%R by ring. replace (q * G * (q * V))%R with (q * q * (G * V))%R by ring.
  apply Rmult_le_compat_l; auto. apply Rmult_le_pos; auto.
Qed.
Lemma discounted_sq_mono q q' l : (0 <= q <= q')%R -> (discounted q (map Rsqr l) <= discounted q' (map Rsqr l))%R.
Proof.
  intros Q. induction l as [|x l IH] using rev_ind; [unfold discounted; cbn; lra|]. rewrite map_app. cbn [map]. rewrite !discounted_snoc.
  apply Rplus_le_compat_r. apply Rmult_le_compat; try lra. apply discounted_sq_nonneg. lra.
Qed.
Lemma pow_lt1 q n : (0 <= q < 1)%R -> n <> 0 -> (0 <= q ^ n < 1)%R.
Proof. intros Q N. destruct n as [|n]; [congruence|]. clear N. induction n as [|n IH]; [cbn; lra|]. change (q ^ S (S n))%R with (q * q ^ S n)%R. split; [apply Rmult_le_pos; lra|]. apply Rle_lt_trans with (1 * q ^ S n)%R; [apply Rmult_le_compat_r; lra|lra]. Qed.
(** The bias-corrected moments *)
Definition mhat (b1 : R) (l : list R) : R := ((1 - b1) * discounted b1 l / (1 - b1 ^ length l))%R.
Definition vhat (b2 : R) (l : list R) : R := ((1 - b2) * discounted b2 (map Rsqr l) / (1 - b2 ^ length l))%R.
Lemma vhat_nonneg b2 l : (0 <= b2 < 1)%R -> l <> [] -> (0 <= vhat b2 l)%R.
Proof.
  intros B N. assert (P : (0 <= b2 ^ length l < 1)%R) by (apply pow_lt1; auto; destruct l; cbn; congruence).
  apply Rmult_le_pos; [apply Rmult_le_pos; [lra|apply discounted_sq_nonneg; lra]|]. left. apply Rinv_0_lt_compat. lra.
Qed.
Lemma mhat_vhat b1 b2 l : (0 <= b1 <= b2)%R -> (b2 < 1)%R -> l <> [] -> (Rabs (mhat b1 l) <= sqrt ((1 - b1) / (1 - b2)) * sqrt (vhat b2 l))%R.
Proof.
  intros B B2 N. assert (LN : length l <> 0) by (destruct l; cbn; congruence).
  assert (P1 : (0 <= b1 ^ length l < 1)%R) by (apply pow_lt1; auto; lra). assert (P2 : (0 <= b2 ^ length l < 1)%R) by (apply pow_lt1; auto; lra).
  assert (PM : (b1 ^ length l <= b2 ^ length l)%R) by (apply pow_incr; lra).
  assert (I1 : (0 < / (1 - b1 ^ length l))%R) by (apply Rinv_0_lt_compat; lra). assert (I2 : (0 < / (1 - b2))%R) by (apply Rinv_0_lt_compat; lra).
  rewrite <- sqrt_mult_alt by (apply Rmult_le_pos; lra). rewrite <- sqrt_Rsqr_abs. apply sqrt_le_1_alt.
  set (D := discounted b1 l). set (V := discounted b2 (map Rsqr l)). assert (HV : (0 <= V)%R) by (apply discounted_sq_nonneg; lra).
  assert (K : (D * D <= geom b1 (length l) * V)%R).
  { eapply Rle_trans; [apply discounted_sq; lra|]. apply Rmult_le_compat_l; [apply geom_nonneg; lra|]. apply discounted_sq_mono. lra. }
  unfold mhat, vhat. fold D V. unfold Rsqr.
  apply Rle_trans with ((1 - b1) * V * / (1 - b1 ^ length l))%R.
  - replace ((1 - b1) * D / (1 - b1 ^ length l) * ((1 - b1) * D / (1 - b1 ^ length l)))%R with ((1 - b1) * (1 - b1) * (D * D) * (/ (1 - b1 ^ length l) * / (1 - b1 ^ length l)))%R by (field; lra).
    replace ((1 - b1) * V * / (1 - b1 ^ length l))%R with ((1 - b1) * (1 - b1) * (geom b1 (length l) * V) * (/ (1 - b1 ^ length l) * / (1 - b1 ^ length l)))%R.
    + apply Rmult_le_compat_r; [apply Rmult_le_pos; lra|]. apply Rmult_le_compat_l; auto. apply Rmult_le_pos; lra.
    + replace ((1 - b1) * (1 - b1) * (geom b1 (length l) * V))%R with ((1 - b1) * ((1 - b1) * geom b1 (length l)) * V)%R by ring. rewrite geom_eq. field. lra.
  - replace ((1 - b1) / (1 - b2) * ((1 - b2) * V / (1 - b2 ^ length l)))%R with ((1 - b1) * V * / (1 - b2 ^ length l))%R by (field; lra).
    apply Rmult_le_compat_l; [apply Rmult_le_pos; lra|]. apply Rinv_le_contravar; lra.
Qed.
Lemma div_bound a d B : (0 <= B)%R -> (0 <= d)%R -> (Rabs a <= B * d)%R -> (Rabs (a / d) <= B)%R.
Proof.
  intros HB HD H. destruct (Req_dec d 0) as [->|N].
  - rewrite Rmult_0_r in H. assert (A0 : a = 0%R) by (pose proof (Rabs_pos a); destruct (Req_dec a 0) as [|Q]; auto; apply Rabs_pos_lt in Q; lra).
    subst a. unfold Rdiv. rewrite Rmult_0_l, Rabs_R0. auto.
  - unfold Rdiv. rewrite Rabs_mult, Rabs_inv. rewrite (Rabs_pos_eq d) by auto. apply Rmult_le_reg_r with d; [lra|]. rewrite Rmult_assoc, Rinv_l by auto. lra.
Qed.
Lemma adam_direction_bound b1 b2 e r l u : (0 <= b1 <= b2)%R -> (b2 < 1)%R -> (0 <= e)%R -> (0 <= r)%R -> l <> [] ->
  direction (Adam b1 b2 e r) l u -> (Rabs u <= sqrt ((1 - b1) / (1 - b2)))%R.
Proof.
  intros B B2 E0 R0 N D. cbn [direction] in D. fold (mhat b1 l) (vhat b2 l) in D. subst u.
  apply div_bound; [apply sqrt_pos|pose proof (sqrt_pos (vhat b2 l + r)); lra|].
  eapply Rle_trans; [apply mhat_vhat; eauto|]. apply Rmult_le_compat_l; [apply sqrt_pos|].
  assert (sqrt (vhat b2 l) <= sqrt (vhat b2 l + r))%R by (apply sqrt_le_1_alt; lra). lra.
Qed.
Lemma map_sqr_scale w l : map Rsqr (map (Rmult w) l) = map (Rmult (Rsqr w)) (map Rsqr l).
Proof. rewrite !map_map. apply map_ext. intros. unfold Rsqr. ring. Qed.
Lemma adam_scale b1 b2 w l u u' : (0 <= b1 <= b2)%R -> (b2 < 1)%R -> (0 < w)%R -> l <> [] ->
  direction (Adam b1 b2 0 0) l u -> direction (Adam b1 b2 0 0) (map (Rmult w) l) u' -> u = u'.
Proof.
  intros B B2 W N D D'. cbn [direction] in D, D'. rewrite map_sqr_scale, !discounted_scale, map_length in D'.
  assert (V0 : (0 <= vhat b2 l)%R) by (apply vhat_nonneg; auto; lra). pose proof (mhat_vhat b1 b2 l B B2 N) as MV.
  replace ((1 - b1) * (w * discounted b1 l) / (1 - b1 ^ length l))%R with (w * mhat b1 l)%R in D' by (unfold mhat, Rdiv; ring).
  replace ((1 - b2) * (w² * discounted b2 (map Rsqr l)) / (1 - b2 ^ length l) + 0)%R with (Rsqr w * vhat b2 l)%R in D' by (unfold vhat, Rdiv; ring).
  fold (mhat b1 l) (vhat b2 l) in D. rewrite Rplus_0_r in D, D'. rewrite Rplus_0_r in D.
  rewrite sqrt_mult_alt, sqrt_Rsqr in D' by (try apply Rle_0_sqr; lra). subst u u'.
  destruct (Req_dec (sqrt (vhat b2 l)) 0) as [Z|NZ].
  - rewrite Z, Rmult_0_r in MV. assert (M0 : mhat b1 l = 0%R) by (pose proof (Rabs_pos (mhat b1 l)); destruct (Req_dec (mhat b1 l) 0) as [|Q]; auto; apply Rabs_pos_lt in Q; lra).
    rewrite M0. unfold Rdiv. ring.
  - field. split; lra.
Qed.
Lemma sgd_scale m nest w l u u' : direction (Sgd m nest) l u -> direction (Sgd m nest) (map (Rmult w) l) u' -> u' = (w * u)%R.
Proof.
  intros [D1 D2] [D1' D2']. assert (LS : last (map (Rmult w) l) 0%R = (w * last l 0)%R).
  { destruct l as [|y l0] using rev_ind; [cbn; lra|]. rewrite map_app. cbn [map]. rewrite !last_last. reflexivity. }
  destruct (on_or_off m) as [O|[x X]]; [rewrite (D1 O), (D1' O); exact LS|]. rewrite (D2 x X), (D2' x X), discounted_scale, LS. destruct nest; ring.
Qed.

(** * Adafactor *)
Lemma rate_range dm rate t : (0 <= dm < 1)%R -> (0 <= rate)%R -> let d := Rmin dm (1 - / Rpower (INR t - INR 0 + 1) rate) in (0 <= d <= dm)%R.
Proof.
  intros D P. cbv zeta. split; [|apply Rmin_l]. apply Rmin_glb; [lra|]. rewrite Rminus_0_r.
  assert (Q : (1 <= Rpower (INR t + 1) rate)%R).
  { apply Rle_trans with (Rpower (INR t + 1) 0); [right; symmetry; apply Rpower_O; pose proof (pos_INR t); lra|]. destruct (Req_dec rate 0) as [->|N]; [lra|]. destruct (Req_dec (INR t) 0) as [->|NT].
    - rewrite Rplus_0_l. unfold Rpower. rewrite ln_1, !Rmult_0_r. lra.
    - left. apply Rpower_lt; pose proof (pos_INR t); lra. }
  assert (/ Rpower (INR t + 1) rate <= / 1)%R by (apply Rinv_le_contravar; lra). rewrite Rinv_1 in *. lra.
Qed.
Lemma rate_first dm rate : (0 <= dm)%R -> Rmin dm (1 - / Rpower (INR 0 - INR 0 + 1) rate) = 0%R.
Proof. intros D. replace (INR 0 - INR 0 + 1)%R with 1%R by (cbn; lra). unfold Rpower. rewrite ln_1, Rmult_0_r, exp_0, Rinv_1, Rminus_eq_0. apply Rmin_right. lra. Qed.
Lemma factor_direction_bound rate dm e md m x l u : (0 <= dm < 1)%R -> (0 <= rate)%R -> (0 <= e)%R -> momentum_is m x -> (0 <= x < 1)%R -> l <> [] ->
  direction (Adafactor rate dm 0 e md m) l u -> (Rabs u <= / sqrt (1 - dm))%R.
Proof.
  intros D P E0 M X N (v & V0 & VS & D1 & D2).
  set (d := fun t => Rmin dm (1 - / Rpower (INR t - INR 0 + 1) rate)) in *.
  set (ratios := map (fun t => (nth t l 0 / sqrt (v (S t)))%R) (seq 0 (length l))) in *.
  assert (HD : forall t, (0 <= d t <= dm)%R) by (intros t; apply rate_range; auto).
  assert (VP : forall t, t <= length l -> (0 <= v t)%R).
  { induction t as [|t IH]; intros T; [lra|]. rewrite VS by lia. fold (d t). pose proof (HD t). pose proof (Rle_0_sqr (nth t l 0%R)). apply Rplus_le_le_0_compat; apply Rmult_le_pos; try lra. apply IH. lia. }
  assert (SB : (0 < sqrt (1 - dm))%R) by (apply sqrt_lt_R0; lra). assert (IB : (0 <= / sqrt (1 - dm))%R) by (left; apply Rinv_0_lt_compat; auto).
  assert (FR : Forall (fun y => (Rabs y <= / sqrt (1 - dm))%R) ratios).
  { apply Forall_map. apply Forall_forall. intros t T. apply in_seq in T. apply div_bound; [auto|apply sqrt_pos|].
    assert (K : ((1 - dm) * Rsqr (nth t l 0) <= v (S t))%R).
    { rewrite VS by lia. fold (d t). pose proof (HD t). pose proof (Rle_0_sqr (nth t l 0%R)). assert (0 <= d t * v t)%R by (apply Rmult_le_pos; [lra|apply VP; lia]).
      assert ((1 - dm) * Rsqr (nth t l 0) <= (1 - d t) * (Rsqr (nth t l 0) + e))%R by (apply Rmult_le_compat; lra). lra. }
    apply sqrt_le_1_alt in K. rewrite sqrt_mult_alt, sqrt_Rsqr_abs in K by lra.
    apply Rmult_le_reg_l with (sqrt (1 - dm)); auto. rewrite <- Rmult_assoc, Rinv_r by lra. lra. }
  assert (RN : ratios <> []) by (unfold ratios; destruct l; [congruence|discriminate]).
  destruct (exists_last RN) as (r0 & y & ER). destruct M as [[O ->]|O].
  - rewrite (D1 O), ER, last_last. rewrite ER in FR. apply Forall_app in FR. destruct FR as [_ FR]. inversion FR; auto.
  - rewrite (D2 x O), Rabs_mult, (Rabs_pos_eq (1 - x)) by lra. pose proof (discounted_bound x (/ sqrt (1 - dm)) ratios X IB FR) as DB.
    apply Rle_trans with ((1 - x) * (/ sqrt (1 - dm) / (1 - x)))%R; [apply Rmult_le_compat_l; lra|]. right. field. lra.
Qed.

Section Created.
Variable regex : Type.
Variable search : regex -> str -> bool.
Variable argsort : list nat -> list nat.
Hypothesis AS : sorts argsort.
Variable shapes : list (str * list nat).
Notation E := (entries shapes).
Notation created := (create_optimizer regex search argsort shapes).
Notation params := (params _).
Notation trained tx gs p0 := (train shapes tx gs (create tx p0)).
Notation stepped tx gs g p0 := (fst (apply_gradients shapes tx g (train shapes tx gs (create tx p0)))).

Lemma adam_bound c tx lr wd p0 gs g n i b1 b2 e r : created c = Ok tx -> rate_is regex c lr -> decay_is regex search c n wd ->
  optimizer _ c = Adam b1 b2 e r -> (0 <= b1 <= b2)%R -> (b2 < 1)%R -> (0 <= e)%R -> (0 <= r)%R ->
  (Rabs (params (stepped tx gs g p0) (n, i) - params (trained tx gs p0) (n, i)) <=
   Rabs (lr (length gs)) * (sqrt ((1 - b1) / (1 - b2)) + Rabs wd * Rabs (params (trained tx gs p0) (n, i))))%R.
Proof.
  intros CR RI DI OP B B2 E0 R0. apply (step_bound regex search argsort AS shapes c tx lr wd p0 gs g n i _ CR RI DI); [rewrite OP; exact (fun _ _ => I)|apply sqrt_pos|rewrite OP].
  intros hs u F D. apply (adam_direction_bound b1 b2 e r (colv hs (n, i))); auto. apply seen_nonempty in F. unfold colv. destruct hs; [congruence|discriminate].
Qed.
Lemma factor_bound c tx lr wd p0 gs g n i rate dm e md m x : created c = Ok tx -> rate_is regex c lr -> decay_is regex search c n wd ->
  optimizer _ c = Adafactor rate dm 0 e md m -> (forall shape, dget shapes n = Some shape -> unfactored (optimizer _ c) shape) ->
  (0 <= dm < 1)%R -> (0 <= rate)%R -> (0 <= e)%R -> momentum_is m x -> (0 <= x < 1)%R ->
  (Rabs (params (stepped tx gs g p0) (n, i) - params (trained tx gs p0) (n, i)) <=
   Rabs (lr (length gs)) * (/ sqrt (1 - dm) + Rabs wd * Rabs (params (trained tx gs p0) (n, i))))%R.
Proof.
  intros CR RI DI OP U D P E0 M X. apply (step_bound regex search argsort AS shapes c tx lr wd p0 gs g n i _ CR RI DI U); [left; apply Rinv_0_lt_compat; apply sqrt_lt_R0; lra|rewrite OP].
  intros hs u F Q. apply (factor_direction_bound rate dm e md m x (colv hs (n, i))); auto. apply seen_nonempty in F. unfold colv. destruct hs; [congruence|discriminate].
Qed.

(** * Scales of gradients *)
Lemma seen_cols c n i w gs hs : off (clip_norm _ c) -> off (clip_value _ c) -> scale_is regex search c n w ->
  Forall2 (seen regex search E c) gs hs -> colv hs (n, i) = map (Rmult w) (colv gs (n, i)).
Proof.
  intros O1 O2 SI F. induction F as [|g h gs hs (g' & S & (_ & _ & C)) F IH]; [reflexivity|]. cbn [colv map] in *. unfold colv in *. rewrite IH. f_equal.
  rewrite (C O1 O2). destruct (S n) as (w' & S' & Q). rewrite Q, (first_match_inj _ _ _ _ _ _ _ SI S'). reflexivity.
Qed.
Lemma unscaled_one c n : scale_is regex search (unscaled regex c) n 1%R.
Proof. right. split; [reflexivity|constructor]. Qed.
Lemma map_one l : map (Rmult 1) l = l.
Proof. rewrite (map_ext _ id); [apply map_id|]. intros. unfold id. lra. Qed.

Lemma adam_scaling c tx tx0 p0 gs n i w b1 b2 lr : created c = Ok tx -> created (unscaled regex c) = Ok tx0 -> rate_is regex c lr ->
  optimizer _ c = Adam b1 b2 0 0 -> (0 <= b1 <= b2)%R -> (b2 < 1)%R -> off (clip_norm _ c) -> off (clip_value _ c) ->
  scale_is regex search c n w -> (0 < w)%R ->
  params (trained tx gs p0) (n, i) = params (trained tx0 gs p0) (n, i).
Proof.
  intros CR CR0 RI OP B B2 O1 O2 SI W. induction gs as [|g gs IH] using rev_ind; [reflexivity|]. rewrite !train_snoc.
  destruct (step_formula regex search argsort shapes c tx lr p0 gs g AS CR RI) as (_ & hs & F & Q).
  destruct (step_formula regex search argsort shapes (unscaled regex c) tx0 lr p0 gs g AS CR0 RI) as (_ & hs0 & F0 & Q0).
  destruct (Q n i) as [A1 A2]. destruct (Q0 n i) as [B1 B2']. change (frozen_param regex search (unscaled regex c) n) with (frozen_param regex search c n) in *.
  destruct (frozen_dec regex search c n) as [FR|NF]; [rewrite A1, B1 by auto; exact IH|].
  destruct (A2 NF) as (wd & u & D & DIR & ->); [intros; rewrite OP; exact I|]. destruct (B2' NF) as (wd0 & u0 & D0 & DIR0 & ->); [intros; cbn [unscaled optimizer]; rewrite OP; exact I|].
  change (decay_is regex search c n wd0) in D0. rewrite (decay_inj _ _ _ _ _ _ D0 D), IH.
  change (direction (optimizer regex c) (colv hs (n, i)) u) in DIR. change (direction (optimizer regex c) (colv hs0 (n, i)) u0) in DIR0. rewrite (seen_cols c n i w _ _ O1 O2 SI F) in DIR. rewrite (seen_cols (unscaled regex c) n i 1 _ _ O1 O2 (unscaled_one c n) F0), map_one in DIR0.
  rewrite OP in DIR, DIR0.
  rewrite (adam_scale b1 b2 w (colv (gs ++ [g]) (n, i)) u0 u); auto. unfold colv. destruct gs; discriminate.
Qed.
Lemma sgd_scaling c tx tx0 p0 gs n i w m nest lr : created c = Ok tx -> created (unscaled regex c) = Ok tx0 -> rate_is regex c lr ->
  optimizer _ c = Sgd m nest -> decay_is regex search c n 0%R -> off (clip_norm _ c) -> off (clip_value _ c) -> scale_is regex search c n w ->
  (params (trained tx gs p0) (n, i) - p0 (n, i) = w * (params (trained tx0 gs p0) (n, i) - p0 (n, i)))%R.
Proof.
  intros CR CR0 RI OP D0' O1 O2 SI. induction gs as [|g gs IH] using rev_ind; [cbn; lra|]. rewrite !train_snoc.
  destruct (step_formula regex search argsort shapes c tx lr p0 gs g AS CR RI) as (_ & hs & F & Q).
  destruct (step_formula regex search argsort shapes (unscaled regex c) tx0 lr p0 gs g AS CR0 RI) as (_ & hs0 & F0 & Q0).
  destruct (Q n i) as [A1 A2]. destruct (Q0 n i) as [B1 B2']. change (frozen_param regex search (unscaled regex c) n) with (frozen_param regex search c n) in *.
  destruct (frozen_dec regex search c n) as [FR|NF]; [rewrite A1, B1 by auto; exact IH|].
  destruct (A2 NF) as (wd & u & D & DIR & ->); [intros; rewrite OP; exact I|]. destruct (B2' NF) as (wd0 & u0 & D0 & DIR0 & ->); [intros; cbn [unscaled optimizer]; rewrite OP; exact I|].
  change (decay_is regex search c n wd0) in D0. rewrite (decay_inj _ _ _ _ _ _ D D0'), (decay_inj _ _ _ _ _ _ D0 D0').
  change (direction (optimizer regex c) (colv hs (n, i)) u) in DIR. change (direction (optimizer regex c) (colv hs0 (n, i)) u0) in DIR0. rewrite (seen_cols c n i w _ _ O1 O2 SI F) in DIR. rewrite (seen_cols (unscaled regex c) n i 1 _ _ O1 O2 (unscaled_one c n) F0), map_one in DIR0.
  rewrite OP in DIR, DIR0.
  rewrite (sgd_scale m nest w _ u0 u DIR0 DIR). rewrite !Rmult_0_l, !Rplus_0_r. 
  replace (params (trained tx gs p0) (n, i)) with (p0 (n, i) + w * (params (trained tx0 gs p0) (n, i) - p0 (n, i)))%R by lra. ring.
Qed.

(** * Independence *)
Definition agree (K : coord -> Prop) (u v : vec) : Prop := forall k, K k -> u k = v k.
Definition local (K : coord -> Prop) (a : op) : Prop := exists Rel : st a -> st a -> Prop, Rel (init a) (init a) /\
  forall u u' s s' p p', agree K u u' -> agree K p p' -> Rel s s' -> agree K (fst (update a u s p)) (fst (update a u' s' p')) /\ Rel (snd (update a u s p)) (snd (update a u' s' p')).
Lemma local_then K a b : local K a -> local K b -> local K (then_ a b).
Proof.
  intros (Ra & Ia & Ha) (Rb & Ib & Hb). exists (fun s s' => Ra (fst s) (fst s') /\ Rb (snd s) (snd s')). split; [split; auto|].
  intros u u' [sa sb] [sa' sb'] p p' U P [A B]. cbn [fst snd] in *. destruct (Ha u u' sa sa' p p' U P A) as [A1 A2]. destruct (Hb _ _ sb sb' p p' A1 P B) as [B1 B2]. cbn. auto.
Qed.
Lemma local_stateless K f : (forall u u' p p', agree K u u' -> agree K p p' -> agree K (f u p) (f u' p')) -> local K (stateless f).
Proof. intros H. exists (fun _ _ => True). split; auto. intros. split; auto. cbn. auto. Qed.
Lemma local_identity K : local K identity.
Proof. apply local_stateless. auto. Qed.
Lemma local_trace K d nest : local K (trace d nest).
Proof.
  exists (agree K). split; [intros ? ?; reflexivity|]. intros u u' s s' p p' U P S. cbn. split; [|intros k KK; rewrite (U k KK), (S k KK); reflexivity].
  destruct nest; intros k KK; rewrite (U k KK), (S k KK); reflexivity.
Qed.
Lemma local_ema K d : local K (ema d).
Proof. exists (agree K). split; [intros ? ?; reflexivity|]. intros u u' s s' p p' U P S. cbn. split; intros k KK; rewrite (U k KK), (S k KK); reflexivity. Qed.
Lemma local_adam K b1 b2 e r : local K (scale_by_adam b1 b2 e r).
Proof.
  exists (fun s s' => fst s = fst s' /\ agree K (fst (snd s)) (fst (snd s')) /\ agree K (snd (snd s)) (snd (snd s'))). split; [repeat split; intros ? ?; reflexivity|].
  intros u u' [n [m v]] [n' [m' v']] p p' U P (S1 & S2 & S3). cbn [fst snd] in *. subst n'. cbn. split; [|split; [reflexivity|]; split]; intros k KK; rewrite (U k KK), ?(S2 k KK), ?(S3 k KK); reflexivity.
Qed.
Lemma local_lr K lr : local K (scale_by_learning_rate lr).
Proof. exists eq. split; auto. intros u u' s s' p p' U P ->. cbn. split; auto. intros k KK. rewrite (U k KK). reflexivity. Qed.
(** Sets of entries that contain the axes along which they are factored *)
Definition closed (md : nat) (K : coord -> Prop) : Prop := forall n idx d1 d0, K (n, idx) -> factored_dims argsort md (shape_of shapes n) = Some (d1, d0) ->
  forall i, (i < nth d1 (shape_of shapes n) 0 -> K (n, replace d1 i idx)) /\ (i < nth d0 (shape_of shapes n) 0 -> K (n, replace d0 i idx)).
Lemma mean_agree (K : coord -> Prop) (f f' : vec) n idx d : (forall i, i < nth d (shape_of shapes n) 0 -> K (n, replace d i idx)) -> agree K f f' -> mean_axis shapes d f (n, idx) = mean_axis shapes d f' (n, idx).
Proof. intros H A. unfold mean_axis. cbn [fst snd]. f_equal. f_equal. apply map_ext_in. intros i I. apply in_seq in I. apply A. apply H. lia. Qed.
Lemma local_rms md K dr o e fn : closed md K -> local K (scale_by_factored_rms argsort shapes dr o md e fn).
Proof.
  intros CL. exists (fun s s' => fst s = fst s' /\ agree K (fst (snd s)) (fst (snd s')) /\ agree K (fst (snd (snd s))) (fst (snd (snd s'))) /\ agree K (snd (snd (snd s))) (snd (snd (snd s')))).
  split; [repeat split; intros ? ?; reflexivity|].
  intros u u' [n [v [vr vc]]] [n' [v' [vr' vc']]] p p' U P (S1 & S2 & S3 & S4). cbn [fst snd] in *. subst n'. cbn [update scale_by_factored_rms].
  set (g := fun c => (u c * u c + e)%R). set (g' := fun c => (u' c * u' c + e)%R). assert (G : agree K g g') by (intros k KK; unfold g, g'; rewrite (U k KK); reflexivity).
  set (dt := fn (Z.of_nat n - Z.of_nat o)%Z dr).
  set (nv := fun c => match factored_dims argsort md (shape_of shapes (fst c)) with None => (dt * v c + (1 - dt) * g c)%R | Some _ => 0%R end).
  set (nv' := fun c => match factored_dims argsort md (shape_of shapes (fst c)) with None => (dt * v' c + (1 - dt) * g' c)%R | Some _ => 0%R end).
  set (nr := fun c => match factored_dims argsort md (shape_of shapes (fst c)) with Some (d1, d0) => (dt * vr c + (1 - dt) * mean_axis shapes d0 g c)%R | None => 0%R end).
  set (nr' := fun c => match factored_dims argsort md (shape_of shapes (fst c)) with Some (d1, d0) => (dt * vr' c + (1 - dt) * mean_axis shapes d0 g' c)%R | None => 0%R end).
  set (nc := fun c => match factored_dims argsort md (shape_of shapes (fst c)) with Some (d1, d0) => (dt * vc c + (1 - dt) * mean_axis shapes d1 g c)%R | None => 0%R end).
  set (nc' := fun c => match factored_dims argsort md (shape_of shapes (fst c)) with Some (d1, d0) => (dt * vc' c + (1 - dt) * mean_axis shapes d1 g' c)%R | None => 0%R end).
  assert (AV : agree K nv nv') by (intros k KK; unfold nv, nv'; destruct (factored_dims argsort md (shape_of shapes (fst k))); auto; rewrite (S2 k KK), (G k KK); reflexivity).
  assert (AR : agree K nr nr').
  { intros [nm idx] KK. unfold nr, nr'. cbn [fst]. destruct (factored_dims argsort md (shape_of shapes nm)) as [[d1 d0]|] eqn:FD; auto. rewrite (S3 _ KK). f_equal. f_equal. apply (mean_agree K); auto. intros i I. apply (CL nm idx d1 d0 KK FD i); auto. }
  assert (AC : agree K nc nc').
  { intros [nm idx] KK. unfold nc, nc'. cbn [fst]. destruct (factored_dims argsort md (shape_of shapes nm)) as [[d1 d0]|] eqn:FD; auto. rewrite (S4 _ KK). f_equal. f_equal. apply (mean_agree K); auto. intros i I. apply (CL nm idx d1 d0 KK FD i); auto. }
  cbn [fst snd]. split; [|split; [reflexivity|split; [exact AV|split; [exact AR|exact AC]]]].
  intros [nm idx] KK.
  change (match factored_dims argsort md (shape_of shapes nm) with
          | Some (d1, d0) => (u (nm, idx) * / sqrt (nr (nm, idx) / mean_axis shapes d1 nr (nm, idx)) * / sqrt (nc (nm, idx)))%R
          | None => (u (nm, idx) * / sqrt (nv (nm, idx)))%R end =
          match factored_dims argsort md (shape_of shapes nm) with
          | Some (d1, d0) => (u' (nm, idx) * / sqrt (nr' (nm, idx) / mean_axis shapes d1 nr' (nm, idx)) * / sqrt (nc' (nm, idx)))%R
          | None => (u' (nm, idx) * / sqrt (nv' (nm, idx)))%R end).
  rewrite (U _ KK), (AR _ KK), (AC _ KK), (AV _ KK). destruct (factored_dims argsort md (shape_of shapes nm)) as [[d1 d0]|] eqn:FD; [|reflexivity].
  rewrite (mean_agree K nr nr' nm idx d1 (fun i I => proj1 (CL nm idx d1 d0 KK FD i) I) AR). reflexivity.
Qed.

Lemma local_optim K o : (forall rate dm off e md m, o = Adafactor rate dm off e md m -> closed md K) -> local K (optim_op argsort shapes o).
Proof.
  intros H. destruct o as [m nest|b1 b2 e r|rate dm off e md m|]; cbn [optim_op].
  - unfold trace_momentum. destruct (truthy R is_zero m); [apply local_trace|apply local_identity].
  - apply local_adam.
  - unfold scale_by_big_vision_adafactor. cbn [chain fold_right]. apply local_then; [apply local_rms; eapply H; reflexivity|].
    apply local_then; [|apply local_identity]. destruct (truthy R is_zero m); [apply local_ema|apply local_identity].
  - apply local_identity.
Qed.
Lemma created_local c tx K : created c = Ok tx -> off (clip_norm _ c) ->
  (forall rate dm off e md m, optimizer _ c = Adafactor rate dm off e md m -> closed md K) -> local K tx.
Proof.
  intros CR O H. destruct (anatomy _ _ _ _ _ _ CR) as (S & C & D & l & F & w & wd & C' & lr' & fr & -> & _ & _ & HS & HC & HD & _ & HF & HL).
  unfold six. cbn [chain fold_right]. repeat apply local_then; try apply local_identity; try apply local_lr; try (apply local_optim; exact H);
    apply local_stateless; intros u u' p p' U P [n i] KK.
  - rewrite !HS, (U _ KK). reflexivity.
  - rewrite !HC. apply (HL O). auto.
  - rewrite !HD, (U _ KK), (P _ KK). reflexivity.
  - rewrite !HF, (U _ KK). reflexivity.
Qed.
Lemma train_local K tx : local K tx -> forall gs gs' s s', Forall2 (agree K) gs gs' -> agree K (params s) (params s') ->
  (exists Rel : st tx -> st tx -> Prop, Rel (opt_state _ s) (opt_state _ s') /\
     forall u u' s s' p p', agree K u u' -> agree K p p' -> Rel s s' -> agree K (fst (update tx u s p)) (fst (update tx u' s' p')) /\ Rel (snd (update tx u s p)) (snd (update tx u' s' p'))) ->
  agree K (params (train shapes tx gs s)) (params (train shapes tx gs' s')).
Proof.
  intros _ gs gs' s s' F. revert s s'. induction F as [|g g' gs gs' G F IH]; intros s s' P (Rel & RS & HR); [exact P|].
  cbn [train fold_left]. destruct (HR g g' _ _ _ _ G P RS) as [A B]. apply IH.
  - intros k KK. cbn. rewrite (P k KK), (A k KK). reflexivity.
  - exists Rel. split; [exact B|exact HR].
Qed.
Lemma created_train c tx K p p' gs gs' : created c = Ok tx -> off (clip_norm _ c) ->
  (forall rate dm off e md m, optimizer _ c = Adafactor rate dm off e md m -> closed md K) -> Forall2 (agree K) gs gs' -> agree K p p' ->
  agree K (params (trained tx gs p)) (params (trained tx gs' p')).
Proof.
  intros CR O H F P. pose proof (created_local c tx K CR O H) as L. apply train_local; auto.
Qed.
Lemma shape_get n shape : dget shapes n = Some shape -> shape_of shapes n = shape.
Proof. unfold shape_of. intros ->. reflexivity. Qed.
Lemma independent c tx p p' gs gs' n i shape : created c = Ok tx -> off (clip_norm _ c) ->
  dget shapes n = Some shape -> unfactored (optimizer _ c) shape ->
  Forall2 (fun g g' => g (n, i) = g' (n, i)) gs gs' -> p (n, i) = p' (n, i) ->
  params (trained tx gs p) (n, i) = params (trained tx gs' p') (n, i).
Proof.
  intros CR O SH U F P. apply (created_train c tx (fun k => k = (n, i)) p p' gs gs'); auto.
  - intros rate dm o e md m OP n0 idx d1 d0 KK FD. injection KK as -> ->. rewrite OP in U. rewrite (shape_get _ _ SH), (factored_none argsort AS rate dm o e md m shape U) in FD. discriminate.
  - clear - F. induction F; constructor; auto. intros k ->. auto.
  - intros k ->. auto.
Qed.
Lemma nth_replace a d i : a <> d -> forall idx, nth a (replace d i idx) 0 = nth a idx 0.
Proof.
  revert d. induction a as [|a IH]; intros d N idx; destruct idx as [|x idx]; destruct d as [|d]; cbn; auto; try congruence.
Qed.
Lemma experts c tx p p' gs gs' n shape a rate dm o e md m x : created c = Ok tx -> off (clip_norm _ c) ->
  optimizer _ c = Adafactor rate dm o e md m -> dget shapes n = Some shape -> a < length shape -> nth a shape 0 < md ->
  Forall2 (fun g g' => forall i, nth a i 0 = x -> g (n, i) = g' (n, i)) gs gs' -> (forall i, nth a i 0 = x -> p (n, i) = p' (n, i)) ->
  forall i, nth a i 0 = x -> params (trained tx gs p) (n, i) = params (trained tx gs' p') (n, i).
Proof.
  intros CR O OP SH L M F P i X. apply (created_train c tx (fun k => fst k = n /\ nth a (snd k) 0 = x) p p' gs gs'); auto.
  - intros ? ? ? ? md' ? OP' n0 idx d1 d0 [E1 E2] FD. rewrite OP in OP'. injection OP'; intros; subst. cbn [fst snd] in *. rewrite (shape_get _ _ SH) in *.
    apply (factored_some argsort AS) in FD. destruct FD as (_ & _ & _ & M1 & M0).
    assert (a <> d1) by (intros ->; lia). assert (a <> d0) by (intros ->; lia).
    split; intros _; (split; [reflexivity|]); rewrite nth_replace; auto.
  - clear - F. induction F as [|g g' gs gs' Q]; constructor; auto. intros [n0 i] [E1 E2]. cbn in *. subst. auto.
  - intros [n0 j] [E1 E2]. cbn in *. subst. auto.
Qed.
Lemma not_factored md shape d1 d0 a : factored_dims argsort md shape = Some (d1, d0) -> nth a shape 0 < md -> d1 <> a /\ d0 <> a.
Proof. intros F M. apply (factored_some argsort AS) in F. destruct F as (_ & _ & _ & M1 & M0). split; intros ->; lia. Qed.
End Created.

Lemma decay_rates dm rate : (0 <= dm < 1)%R -> (0 <= rate)%R ->
  decay_rate_pow dm 0 rate = 0%R /\ forall t : nat, (0 <= decay_rate_pow dm (Z.of_nat t) rate <= dm)%R.
Proof.
  intros D P. split.
  - pose proof (decay_pow dm 0 0 rate) as Q. cbn [Z.of_nat Z.sub Z.opp Z.add] in Q. rewrite Q. apply rate_first. lra.
  - intros t. pose proof (decay_pow dm t 0 rate) as Q. cbn [Z.of_nat] in Q. rewrite Z.sub_0_r in Q. rewrite Q. apply (rate_range dm rate t); auto.
Qed.

(** * Parameters that are factored over the experts *)
Definition one_param : str := [97].
Definition sharp_config : config str :=
  {| gradient_scale := []; clip_norm := None; clip_value := None; optimizer := Adafactor (8 / 10) (999 / 1000) 0 0 2 None; weight_decay := DNone _ _;
     learning_rate := inl 1%R; total_steps := 10%Z; frozen := []; trainable := [] |}.
(** The gradients are 1, 1 for the first expert and [x], [y] for the second. *)
Definition sharp_grad (x y : R) : vec := fun k =>
  match nth 0 (snd k) 0 with O => 1%R | _ => match nth 1 (snd k) 0 with O => x | _ => y end end.
Section Sharp.
Variable argsort : list nat -> list nat.
Hypothesis SO : sorts argsort.
Hypothesis A22 : argsort [2; 2] = [0; 1].
Let shapes := [(one_param, [2; 2])].
Let tx := chain [gradient_scaling str str_eqb []; identity; scale_by_big_vision_adafactor argsort shapes (8 / 10) (999 / 1000) 0 0 2 None; identity; scale_by_learning_rate (fun _ => 1%R); identity].
Lemma sharp_value x y : params _ (train shapes tx [sharp_grad x y] (create tx (fun _ => 0%R))) (one_param, [0; 0]) =
  (- (/ sqrt (1 / ((1 + (x * x + y * y) / 2) / 2)) * / sqrt ((1 + x * x) / 2)))%R.
Proof.
  assert (FD : factored_dims argsort 2 [2; 2] = Some (0, 1)) by (unfold factored_dims; rewrite A22; reflexivity).
  assert (D0 : decay_rate_pow (999 / 1000) 0 (8 / 10) = 0%R) by (apply decay_rates; lra).
  pose proof (apply_params shapes tx [] (sharp_grad x y) (fun _ => 0%R) (one_param, [0; 0])) as Q. cbv zeta in Q. cbn [train fold_left] in *. rewrite Q.
  unfold tx, scale_by_big_vision_adafactor, gradient_scaling. cbn [chain fold_right hist truthy]. rewrite !result_then, !result_identity.
  unfold result. cbn [outs final fold_left init scale_by_factored_rms scale_by_learning_rate update fst snd create NumModel.params].
  change (shape_of shapes one_param) with [2; 2]. rewrite FD. cbn [Z.of_nat Z.sub Z.opp Z.add]. rewrite D0.
  unfold mean_axis. cbn [fst snd]. change (shape_of shapes one_param) with [2; 2]. rewrite FD. cbn [nth seq map replace rsum fold_right].
  unfold sharp_grad. cbn [nth snd]. change (INR 2) with 2%R.
  replace (0 * 0 + (1 - 0) * ((1 * 1 + 0 + (1 * 1 + 0 + 0)) / 2))%R with 1%R by lra.
  replace (1 + (0 * 0 + (1 - 0) * ((x * x + 0 + (y * y + 0 + 0)) / 2) + 0))%R with (1 + (x * x + y * y) / 2)%R by lra.
  replace (0 * 0 + (1 - 0) * ((1 * 1 + 0 + (x * x + 0 + 0)) / 2))%R with ((1 + x * x) / 2)%R by lra. ring.
Qed.
Lemma sharp : exists (argsort : list nat -> list nat) (c : config str) tx g g' p n i,
  let shapes := [(n, [2; 2])] in
  sorts argsort /\ create_optimizer str str_eqb argsort shapes c = Ok tx /\ (exists rate dm o e m, optimizer _ c = Adafactor rate dm o e 2 m) /\
  off (clip_norm _ c) /\ nth 0 i 0 = 0 /\ (forall i, nth 0 i 0 = 0 -> g (n, i) = g' (n, i)) /\
  params _ (train shapes tx [g] (create tx p)) (n, i) <> params _ (train shapes tx [g'] (create tx p)) (n, i).
Proof.
  exists argsort, sharp_config, tx, (sharp_grad 1 1), (sharp_grad 2 0), (fun _ => 0%R), one_param, [0; 0]. cbv zeta.
  split; [exact SO|]. split; [reflexivity|]. split; [do 5 eexists; reflexivity|]. split; [left; reflexivity|]. split; [reflexivity|]. split.
  - intros i I. unfold sharp_grad. cbn [snd]. rewrite I. reflexivity.
  - fold shapes. rewrite !sharp_value. intros Q. apply Ropp_eq_compat in Q. rewrite !Ropp_involutive in Q.
    replace (1 / ((1 + (1 * 1 + 1 * 1) / 2) / 2))%R with 1%R in Q by field. replace ((1 + 1 * 1) / 2)%R with 1%R in Q by lra. rewrite sqrt_1 in Q.
    replace (1 / ((1 + (2 * 2 + 0 * 0) / 2) / 2))%R with (2 / 3)%R in Q by field. replace ((1 + 2 * 2) / 2)%R with (5 / 2)%R in Q by lra.
    assert (S1 : (0 < sqrt (2 / 3))%R) by (apply sqrt_lt_R0; lra). assert (S2 : (0 < sqrt (5 / 2))%R) by (apply sqrt_lt_R0; lra).
    rewrite Rinv_1, Rmult_1_l in Q. rewrite <- Rinv_mult in Q. rewrite <- sqrt_mult_alt in Q by lra.
    assert (S3 : sqrt (2 / 3 * (5 / 2)) = 1%R).
    { rewrite <- (Rinv_inv (sqrt (2 / 3 * (5 / 2)))), <- Q. field. }
    assert (S4 : (sqrt 1 < sqrt (2 / 3 * (5 / 2)))%R) by (apply sqrt_lt_1_alt; lra). rewrite sqrt_1, S3 in S4. lra.
Qed.
End Sharp.

Lemma entries_all shapes : NoDup (map fst shapes) -> NoDup (entries shapes) /\
  forall n i, In (n, i) (entries shapes) <-> exists shape, In (n, shape) shapes /\ inside shape i.
Proof.
  intros ND.
  assert (IN : forall s i, inb s i <-> inside s i).
  { intros s i. reflexivity. }
  split.
  - induction shapes as [|[n s] shapes IH]; cbn; [constructor|]. inversion ND as [|? ? NI ND']; subst. apply NoDup_app_intro.
    + apply FinFun.Injective_map_NoDup; [intros a b E; injection E; auto|apply indices_nodup].
    + apply IH. exact ND'.
    + intros [m i] I J. apply in_map_iff in I. destruct I as (i' & E & _). injection E as -> ->. apply in_flat_map in J. destruct J as ([n' s'] & J1 & J2).
      apply in_map_iff in J2. destruct J2 as (i2 & E & _). cbn in E. injection E as -> ->. apply NI. apply in_map_iff. exists (m, s'). auto.
  - intros n i. unfold entries. rewrite in_flat_map. split.
    + intros ([n' s'] & J1 & J2). apply in_map_iff in J2. destruct J2 as (i2 & E & J2). cbn in E. injection E as -> ->. exists s'. split; auto. apply IN. apply indices_in. exact J2.
    + intros (s & I & J). exists (n, s). split; auto. apply in_map_iff. exists i. split; auto. apply indices_in. apply IN. exact J.
Qed.
