(** Proofs for C83: rounding to bfloat16. *)
From Coq Require Import List Arith ZArith Bool Reals Lia Lra.
From Verif Require Import Prim MoeModel SoftModel CwModel BfModel BfSpec.
Import ListNotations.
Local Open Scope R_scope.

Notation pw := (powerRZ 2).
Lemma pw_pos z : 0 < pw z. Proof. apply powerRZ_lt. lra. Qed.
Lemma pw_add a b : pw (a + b) = pw a * pw b. Proof. apply powerRZ_add. lra. Qed.
Lemma pw_Z z : (0 <= z)%Z -> pw z = IZR (2 ^ z).
Proof. intros H. destruct (Z_of_nat_complete z H) as [n ->]. rewrite <- pow_powerRZ. replace 2 with (IZR 2) by reflexivity. apply pow_IZR. Qed.
Lemma pw_ge1 z : (0 <= z)%Z -> 1 <= pw z.
Proof. intros H. rewrite pw_Z by auto. apply IZR_le. assert (0 < 2 ^ z)%Z by (apply Z.pow_pos_nonneg; lia). lia. Qed.
Lemma pw_le a b : (a <= b)%Z -> pw a <= pw b.
Proof. intros H. replace b with (a + (b - a))%Z by lia. rewrite pw_add. pose proof (pw_pos a). pose proof (pw_ge1 (b - a) ltac:(lia)). nra. Qed.
Lemma pw_exp z : pw z = exp (IZR z * ln 2).
Proof. rewrite powerRZ_Rpower by lra. reflexivity. Qed.
Lemma ln2_pos : 0 < ln 2. Proof. rewrite <- ln_1. apply ln_increasing; lra. Qed.

Lemma ip_spec y : IZR (Int_part y) <= y < IZR (Int_part y) + 1.
Proof. pose proof (base_Int_part y). lra. Qed.
Lemma ip_unique y n : IZR n <= y < IZR n + 1 -> Int_part y = n.
Proof.
  intros H. pose proof (ip_spec y) as I. destruct (Z.lt_trichotomy (Int_part y) n) as [K|[K|K]]; auto.
  - assert (IZR (Int_part y + 1) <= IZR n) by (apply IZR_le; lia). rewrite plus_IZR in *. lra.
  - assert (IZR (n + 1) <= IZR (Int_part y)) by (apply IZR_le; lia). rewrite plus_IZR in *. lra.
Qed.

Lemma expo_spec x : x <> 0 -> pw (expo x) <= Rabs x < pw (expo x + 1).
Proof.
  intros H. assert (A : 0 < Rabs x) by (apply Rabs_pos_lt; auto). rewrite !pw_exp. pose proof ln2_pos as L2. unfold expo.
  pose proof (ip_spec (ln (Rabs x) / ln 2)) as [I1 I2]. set (n := Int_part _) in *. rewrite plus_IZR.
  replace (Rabs x) with (exp (ln (Rabs x))) by (apply exp_ln; auto).
  assert (ln (Rabs x) = ln (Rabs x) / ln 2 * ln 2) as E by (field; lra).
  set (t := ln (Rabs x) / ln 2) in *. assert (IZR n * ln 2 <= t * ln 2) by (apply Rmult_le_compat_r; lra). assert (t * ln 2 < (IZR n + 1) * ln 2) by (apply Rmult_lt_compat_r; lra).
  split.
  - destruct (Req_dec (IZR n * ln 2) (ln (Rabs x))) as [K|K]; [rewrite K; lra|]. left. apply exp_increasing. lra.
  - apply exp_increasing. lra.
Qed.
Lemma expo_unique x e : pw e <= Rabs x < pw (e + 1) -> expo x = e.
Proof.
  intros H. assert (x <> 0). { intros ->. rewrite Rabs_R0 in H. pose proof (pw_pos e). lra. }
  pose proof (expo_spec x H0) as S0. destruct (Z.lt_trichotomy (expo x) e) as [K|[K|K]]; auto.
  - pose proof (pw_le (expo x + 1) e ltac:(lia)). lra.
  - pose proof (pw_le (e + 1) (expo x) ltac:(lia)). lra.
Qed.

Lemma rne_near y n : Rabs (IZR (rne y) - y) <= Rabs (IZR n - y).
Proof.
  unfold rne, frac_part. pose proof (ip_spec y) as I. set (i := Int_part y) in *.
  assert (N : IZR n <= IZR i \/ IZR i + 1 <= IZR n).
  { destruct (Z_le_gt_dec n i) as [K|K]; [left; apply IZR_le; auto|right]. rewrite <- plus_IZR. apply IZR_le. lia. }
  destruct (Rlt_dec (y - IZR i) (1 / 2)); [|destruct (Rlt_dec (1 / 2) (y - IZR i)); [|destruct (Z.even i)]]; rewrite ?plus_IZR; unfold Rabs; repeat destruct (Rcase_abs _); destruct N; lra.
Qed.
Lemma rne_half y : Rabs (IZR (rne y) - y) <= 1 / 2.
Proof.
  unfold rne, frac_part. pose proof (ip_spec y) as I. set (i := Int_part y) in *.
  destruct (Rlt_dec (y - IZR i) (1 / 2)); [|destruct (Rlt_dec (1 / 2) (y - IZR i)); [|destruct (Z.even i)]]; rewrite ?plus_IZR; unfold Rabs; repeat destruct (Rcase_abs _); lra.
Qed.
Lemma rne_tie y n : n <> rne y -> Rabs (IZR n - y) = Rabs (IZR (rne y) - y) -> Z.even (rne y) = true.
Proof.
  unfold rne, frac_part. pose proof (ip_spec y) as I. set (i := Int_part y) in *.
  destruct (Rlt_dec (y - IZR i) (1 / 2)) as [A|A]; [|destruct (Rlt_dec (1 / 2) (y - IZR i)) as [B|B]; [|destruct (Z.even i) eqn:EV]]; intros N T.
  - exfalso. assert (C : IZR n <= IZR i - 1 \/ IZR i + 1 <= IZR n).
    { destruct (Z_le_gt_dec n i) as [K|K]; [left; rewrite <- minus_IZR; apply IZR_le; lia|right]. rewrite <- plus_IZR. apply IZR_le. lia. }
    revert T. unfold Rabs; repeat destruct (Rcase_abs _); destruct C; lra.
  - exfalso. assert (C : IZR n <= IZR i \/ IZR i + 2 <= IZR n).
    { destruct (Z_le_gt_dec n i) as [K|K]; [left; apply IZR_le; lia|right]. rewrite <- plus_IZR. apply IZR_le. lia. }
    revert T. rewrite plus_IZR. unfold Rabs; repeat destruct (Rcase_abs _); destruct C; lra.
  - auto.
  - rewrite Z.even_add. rewrite EV. reflexivity.
Qed.
Lemma rne_bound y b : Rabs y <= IZR b -> (Z.abs (rne y) <= b)%Z.
Proof.
  intros H. assert (K : IZR (Z.abs (rne y)) < IZR b + 1).
  { rewrite abs_IZR. pose proof (rne_half y). revert H H0. unfold Rabs; repeat destruct (Rcase_abs _); lra. }
  rewrite <- plus_IZR in K. apply lt_IZR in K. lia.
Qed.

Lemma cast0 : cast 0 = 0. Proof. unfold cast. destruct (Req_EM_T 0 0); congruence. Qed.
Lemma ulp_pos x : 0 < ulp x. Proof. apply pw_pos. Qed.
Lemma cast_eq x : x <> 0 -> cast x = IZR (rne (x / ulp x)) * ulp x.
Proof. intros H. unfold cast. destruct (Req_EM_T x 0); congruence. Qed.
Lemma cast_diff x : x <> 0 -> Rabs (cast x - x) = ulp x * Rabs (IZR (rne (x / ulp x)) - x / ulp x).
Proof.
  intros H. rewrite cast_eq by auto. pose proof (ulp_pos x). replace (IZR (rne (x / ulp x)) * ulp x - x) with (ulp x * (IZR (rne (x / ulp x)) - x / ulp x)) by (field; lra).
  rewrite Rabs_mult, (Rabs_right (ulp x)) by lra. reflexivity.
Qed.
Lemma scaled_bound x : x <> 0 -> Rabs (x / ulp x) < 256.
Proof.
  intros H. pose proof (expo_spec x H) as [_ B]. pose proof (ulp_pos x) as U. unfold Rdiv. rewrite Rabs_mult, (Rabs_right (/ ulp x)) by (left; apply Rinv_0_lt_compat; auto).
  apply Rmult_lt_reg_r with (ulp x); auto. rewrite Rmult_assoc, Rinv_l by lra. rewrite Rmult_1_r. eapply Rlt_le_trans; [exact B|].
  replace 256 with (pw 8) by (rewrite pw_Z by lia; reflexivity). unfold ulp. rewrite <- pw_add. apply pw_le. lia.
Qed.

Lemma cast_bf16 x : bf16 (cast x).
Proof.
  destruct (Req_dec x 0) as [->|H].
  - rewrite cast0. exists 0%Z, 0%Z. split; [simpl; lia|]. split; [lia|]. lra.
  - rewrite cast_eq by auto. set (E := Z.max (expo x) (-126)).
    assert (B : (Z.abs (rne (x / ulp x)) <= 256)%Z) by (apply rne_bound; pose proof (scaled_bound x H); lra).
    destruct (Z.eq_dec (Z.abs (rne (x / ulp x))) 256) as [K|K].
    + exists (Z.sgn (rne (x / ulp x))), (E + 1)%Z. split; [destruct (rne (x / ulp x)); simpl; lia|]. split; [lia|].
      assert (RE : rne (x / ulp x) = (Z.sgn (rne (x / ulp x)) * 256)%Z) by (destruct (rne (x / ulp x)); simpl in *; lia).
      rewrite RE at 1. rewrite mult_IZR. unfold ulp. fold E. replace (E + 1)%Z with (8 + (E - 7))%Z by lia. rewrite pw_add, (pw_Z 8) by lia. change (2 ^ 8)%Z with 256%Z. ring.
    + exists (rne (x / ulp x)), (E - 7)%Z. split; [lia|]. split; [lia|]. reflexivity.
Qed.

(** A bfloat16 is a multiple of ulp x, or strictly nearer to zero than 2^expo x, which is one. *)
Lemma bf16_cases x r : x <> 0 -> bf16 r ->
  (exists n, r = IZR n * ulp x) \/ (Rabs r < pw (expo x) /\ pw (expo x) = IZR 128 * ulp x).
Proof.
  intros H (m & k & M & K & ->). set (E := Z.max (expo x) (-126)). destruct (Z_le_gt_dec (E - 7) k) as [C|C].
  - left. exists (m * 2 ^ (k - (E - 7)))%Z. rewrite mult_IZR, <- pw_Z by lia. unfold ulp. fold E. rewrite Rmult_assoc, <- pw_add. do 2 f_equal. lia.
  - right. assert (E = expo x) by (unfold E in *; lia). split.
    + rewrite Rabs_mult, (Rabs_right (pw k)) by (left; apply pw_pos). apply Rlt_le_trans with (pw 8 * pw k).
      * apply Rmult_lt_compat_r; [apply pw_pos|]. rewrite pw_Z by lia. rewrite <- abs_IZR. apply IZR_lt. simpl. lia.
      * rewrite <- pw_add. apply pw_le. lia.
    + unfold ulp. fold E. rewrite H0. replace 128 with (pw 7) by (rewrite pw_Z by lia; reflexivity). rewrite <- pw_add. f_equal. lia.
Qed.
Lemma near_multiple x n : x <> 0 -> Rabs (cast x - x) <= Rabs (IZR n * ulp x - x).
Proof.
  intros H. rewrite cast_diff by auto. pose proof (ulp_pos x) as U. replace (IZR n * ulp x - x) with (ulp x * (IZR n - x / ulp x)) by (field; lra).
  rewrite Rabs_mult, (Rabs_right (ulp x)) by lra. apply Rmult_le_compat_l; [lra|]. apply rne_near.
Qed.
Lemma near_small x r : x <> 0 -> Rabs r < pw (expo x) -> pw (expo x) = IZR 128 * ulp x -> Rabs (cast x - x) < Rabs (r - x).
Proof.
  intros H S0 P. pose proof (expo_spec x H) as [B _]. pose proof (near_multiple x 128 H) as N1. pose proof (near_multiple x (-128) H) as N2.
  rewrite opp_IZR in N2 || (replace (IZR (-128)) with (- IZR 128) in N2 by (rewrite <- opp_IZR; reflexivity)). rewrite Ropp_mult_distr_l_reverse in N2. rewrite <- P in *. revert B S0 N1 N2. generalize (cast x). intros c.
  unfold Rabs. repeat destruct (Rcase_abs _); lra.
Qed.
Lemma cast_nearest x r : bf16 r -> Rabs (cast x - x) <= Rabs (r - x).
Proof.
  intros B. destruct (Req_dec x 0) as [->|H].
  - rewrite cast0. rewrite Rminus_0_r, Rabs_R0. apply Rabs_pos.
  - destruct (bf16_cases x r H B) as [[n ->]|[A P]]; [apply near_multiple; auto|]. left. apply near_small; auto.
Qed.
Lemma cast_tie x r : bf16 r -> r <> cast x -> Rabs (r - x) = Rabs (cast x - x) -> bf16_even (cast x).
Proof.
  intros B N T. destruct (Req_dec x 0) as [->|H].
  - rewrite cast0. exists 0%Z, 0%Z. simpl. repeat split; try lia. lra.
  - destruct (bf16_cases x r H B) as [[n ->]|[A P]]; [|pose proof (near_small x r H A P); lra].
    pose proof (ulp_pos x) as U.
    assert (EV : Z.even (rne (x / ulp x)) = true).
    { apply rne_tie with n. - intros ->. apply N. rewrite cast_eq; auto.
      - rewrite cast_diff in T by auto. replace (IZR n * ulp x - x) with (ulp x * (IZR n - x / ulp x)) in T by (field; lra).
        rewrite Rabs_mult, (Rabs_right (ulp x)) in T by lra. eapply Rmult_eq_reg_l; [exact T|lra]. }
    assert (BB : (Z.abs (rne (x / ulp x)) <= 256)%Z) by (apply rne_bound; pose proof (scaled_bound x H); lra).
    apply Z.even_spec in EV. destruct EV as [m M]. exists m, (Z.max (expo x) (-126) - 6)%Z. split; [lia|]. split; [lia|].
    rewrite cast_eq, M, mult_IZR by auto. unfold ulp. replace (Z.max (expo x) (-126) - 6)%Z with (1 + (Z.max (expo x) (-126) - 7))%Z by lia. rewrite (pw_add 1). replace (pw 1) with 2 by (rewrite pw_Z by lia; reflexivity). ring.
Qed.
Lemma cast_exact x : bf16 x -> cast x = x.
Proof. intros B. pose proof (cast_nearest x x B) as N. replace (x - x) with 0 in N by lra. rewrite Rabs_R0 in N. revert N. unfold Rabs. destruct (Rcase_abs _); lra. Qed.
Lemma cast_mono x y : x <= y -> cast x <= cast y.
Proof.
  intros H. destruct (Req_dec x y) as [->|D]; [lra|]. pose proof (cast_nearest x (cast y) (cast_bf16 y)) as A. pose proof (cast_nearest y (cast x) (cast_bf16 x)) as B.
  destruct (Rle_dec (cast x) (cast y)) as [K|K]; auto. exfalso. revert A B. unfold Rabs. repeat destruct (Rcase_abs _); lra.
Qed.
Lemma cast_error x : Rabs (cast x - x) <= eta (Rabs x).
Proof.
  unfold eta. pose proof (pw_pos (-134)) as P0. pose proof (pw_pos (-8)) as P1. pose proof (Rabs_pos x) as A0. destruct (Req_dec x 0) as [->|H].
  - rewrite cast0, Rminus_0_r, Rabs_R0. lra.
  - rewrite cast_diff by auto. pose proof (rne_half (x / ulp x)) as RH. pose proof (ulp_pos x) as U. pose proof (expo_spec x H) as [B _].
    apply Rle_trans with (ulp x * (1 / 2)); [apply Rmult_le_compat_l; lra|].
    assert (E2 : pw (-1) = 1 / 2) by (unfold powerRZ; change (Pos.to_nat 1) with 1%nat; rewrite pow_1; lra). rewrite <- E2. unfold ulp. rewrite <- pw_add.
    destruct (Z_le_gt_dec (-126) (expo x)) as [C|C].
    + rewrite Z.max_l by lia. replace (expo x - 7 + -1)%Z with (-8 + expo x)%Z by lia. rewrite pw_add. nra.
    + rewrite Z.max_r by lia. replace (-126 - 7 + -1)%Z with (-134)%Z by lia. nra.
Qed.
Lemma eta_mono a b : a <= b -> eta a <= eta b.
Proof. intros H. unfold eta. pose proof (pw_pos (-8)). nra. Qed.
Lemma cast_error_le x b : Rabs x <= b -> Rabs (cast x - x) <= eta b.
Proof. intros H. eapply Rle_trans; [apply cast_error|]. apply eta_mono; auto. Qed.

Lemma bf16_opp r : bf16 r -> bf16 (- r).
Proof. intros (m & k & M & K & ->). exists (- m)%Z, k. split; [lia|]. split; [auto|]. rewrite opp_IZR. ring. Qed.
Lemma bf16_maxb : bf16 bf16_max. Proof. exists 255%Z, 120%Z. split; [simpl; lia|]. split; [lia|]. reflexivity. Qed.
Lemma cast_finite x : Rabs x < bf16_max + pw 119 -> Rabs (cast x) <= bf16_max.
Proof.
  intros H. pose proof bf16_maxb as BM. assert (MP : 0 < bf16_max) by (unfold bf16_max; pose proof (pw_pos 120); lra).
  assert (Q : pw 120 = 2 * pw 119) by (change 120%Z with (1 + 119)%Z; rewrite pw_add; replace (pw 1) with 2 by (rewrite pw_Z by lia; reflexivity); ring).
  assert (M' : bf16_max = 255 * (2 * pw 119)) by (unfold bf16_max; rewrite <- Q; reflexivity).
  destruct (Rle_dec (Rabs x) bf16_max) as [C|C].
  - assert (cast x <= bf16_max). { rewrite <- (cast_exact _ BM). apply cast_mono. revert C. unfold Rabs. destruct (Rcase_abs x); lra. }
    assert (- bf16_max <= cast x). { rewrite <- (cast_exact (- bf16_max)) by (apply bf16_opp; auto). apply cast_mono. revert C. unfold Rabs. destruct (Rcase_abs x); lra. }
    apply Rabs_le. lra.
  - apply Rnot_le_lt in C. assert (X0 : x <> 0) by (intros ->; rewrite Rabs_R0 in C; lra).
    pose proof (pw_pos 119) as P.
    assert (E : expo x = 127%Z).
    { apply expo_unique. replace (pw 127) with (256 * pw 119) by (change 127%Z with (8 + 119)%Z; rewrite pw_add, (pw_Z 8) by lia; reflexivity).
      replace (pw (127 + 1)) with (512 * pw 119) by (change (127 + 1)%Z with (9 + 119)%Z; rewrite pw_add, (pw_Z 9) by lia; reflexivity). lra. }
    rewrite cast_eq by auto. unfold ulp. rewrite E. change (Z.max 127 (-126) - 7)%Z with 120%Z. rewrite Rabs_mult, (Rabs_right (pw 120)) by (left; apply pw_pos).
    unfold bf16_max. apply Rmult_le_compat_r; [left; apply pw_pos|]. rewrite <- abs_IZR. apply IZR_le.
    assert (K : IZR (Z.abs (rne (x / pw 120))) < 256); [|apply lt_IZR in K; lia].
    assert (Y : Rabs (x / pw 120) < 255 + 1 / 2).
    { unfold Rdiv. rewrite Rabs_mult, (Rabs_right (/ pw 120)) by (left; apply Rinv_0_lt_compat, pw_pos). apply Rmult_lt_reg_r with (pw 120); [apply pw_pos|].
      rewrite Rmult_assoc, Rinv_l by (pose proof (pw_pos 120); lra). rewrite Q. lra. }
    rewrite abs_IZR. pose proof (rne_half (x / pw 120)) as RH. revert Y RH. unfold Rabs; repeat destruct (Rcase_abs _); lra.
Qed.

Lemma astype_spec x : exists z, astype Integer x = IZR z /\ towards_zero x z.
Proof.
  unfold astype, towards_zero. destruct (Rle_dec 0 x).
  - exists (Int_part x). split; auto. pose proof (ip_spec x). split; intros; [lra|]. assert (x = 0) by lra. subst x. rewrite (ip_unique 0 0) by lra. lra.
  - exists (- Int_part (- x))%Z. rewrite opp_IZR. split; auto. pose proof (ip_spec (- x)). split; intros; lra.
Qed.
