(** C30 and C31. *)
From Coq Require Import List ZArith Reals Lra Lia.
From Verif Require Import Py SchedModel SchedProofs.
Local Open Scope R_scope.

(** C30: the warm-up is linear from 0 to the peak, which is reached exactly at its end; then
    the learning rate is the end value plus the difference scaled by a power of the
    remaining fraction, and from decay_steps (by default all the steps) on the end value.
    After the warm-up it never rises, and stays between the end value and the peak. *)
Theorem C30_warmup_polynomial :
  forall total_steps a lr peak end_ power w dec, (0 <= w < dec)%Z -> 0 < power ->
  (exists d, default d total_steps = dec /\
     (a = WarmupPolynomial peak end_ power w d \/ a = WarmupLinear peak end_ w d /\ power = 1)) ->
  create_learning_rate_schedule total_steps a = Ok lr ->
  (forall s, (0 <= s <= w)%Z -> (0 < w)%Z -> lr s = peak * (IZR s / IZR w)) /\
  lr w = peak /\
  (forall s, (w <= s < dec)%Z -> lr s = end_ + (peak - end_) * Rpower (IZR (dec - s) / IZR (dec - w)) power) /\
  (forall s, (dec <= s)%Z -> lr s = end_) /\
  (end_ <= peak -> forall s, (w <= s)%Z -> end_ <= lr s <= peak) /\
  (end_ <= peak -> forall s t, (w <= s <= t)%Z -> lr t <= lr s) /\
  (0 <= peak -> forall s, (0 <= s <= w)%Z -> 0 <= lr s <= peak).
Proof. exact c30. Qed.
Print Assumptions C30_warmup_polynomial.

(** These schedules can always be created. *)
Theorem C30_no_error :
  forall total_steps peak end_ power w d,
  (exists lr, create_learning_rate_schedule total_steps (WarmupPolynomial peak end_ power w d) = Ok lr) /\
  (exists lr, create_learning_rate_schedule total_steps (WarmupLinear peak end_ w d) = Ok lr).
Proof. exact (fun t p e q w d => conj (ex_intro _ _ eq_refl) (ex_intro _ _ eq_refl)). Qed.
Print Assumptions C30_no_error.

(** Without steps left for the decay, the learning rate stays at the peak. *)
Theorem C30_no_decay :
  forall peak end_ power w d s, (0 <= w)%Z -> (d <= w <= s)%Z ->
  warmup_polynomial_decay_schedule peak end_ power w d s = peak.
Proof. exact poly_short. Qed.
Print Assumptions C30_no_decay.

Example C30_example : exists lr, create_learning_rate_schedule 30 (WarmupLinear 4 2 10 None) = Ok lr /\
  lr 0%Z = 0 /\ lr 5%Z = 2 /\ lr 10%Z = 4 /\ lr 20%Z = 3 /\ lr 30%Z = 2.
Proof.
  destruct (C30_warmup_polynomial 30 (WarmupLinear 4 2 10 None) _ 4 2 1 10 30 ltac:(lia) ltac:(lra)
    ltac:(exists None; auto) eq_refl) as (W & P & D & A & _).
  eexists. split; [reflexivity|]. repeat split.
  - rewrite W by lia. lra.
  - rewrite W by lia. lra.
  - exact P.
  - rewrite D by lia. simpl Z.sub. rewrite Rpower_1; lra.
  - apply A. lia.
Qed.

(** C31: the warm-up is linear, then the rate is the peak times
    sqrt (timescale / (timescale + step - warmup)), and in the cooldown it goes linearly
    to 0 at the last step.  It stays between 0 and the peak. *)
Theorem C31_rsqrt :
  forall total_steps peak ts w c d lr dec, (0 <= w)%Z -> (0 <= c)%Z -> default d total_steps = dec ->
  create_learning_rate_schedule total_steps (BigVisionRsqrt peak ts w c d) = Ok lr ->
  (forall s, (0 <= s <= w)%Z -> (0 < w)%Z -> lr s = peak * (IZR s / IZR w)) /\
  (forall s, (w <= s <= dec - c)%Z -> lr s = peak * sqrt (IZR ts / (IZR ts + IZR (s - w)))) /\
  (forall s, (dec - c <= s)%Z -> (0 < c)%Z -> lr s = lr (dec - c)%Z * (IZR (dec - s) / IZR c)) /\
  ((0 < c)%Z -> lr dec = 0) /\
  (0 <= peak -> forall s, (0 <= s <= dec)%Z -> 0 <= lr s <= peak).
Proof. exact c31. Qed.
Print Assumptions C31_rsqrt.

(** It is created exactly when the phases fit and the timescale is positive. *)
Theorem C31_errors :
  forall total_steps peak ts w c d, let dec := default d total_steps in
  ((w + c <= dec)%Z -> (0 < ts)%Z ->
     exists lr, create_learning_rate_schedule total_steps (BigVisionRsqrt peak ts w c d) = Ok lr) /\
  ((dec < w + c)%Z \/ (ts < 0)%Z ->
     create_learning_rate_schedule total_steps (BigVisionRsqrt peak ts w c d) = Raise ValueError).
Proof. exact c31_errors. Qed.
Print Assumptions C31_errors.

(** The bound on the steps is needed: past the last step of a cooldown the rate is negative. *)
Theorem C31_past_the_end :
  forall peak ts w c d lr s, (0 <= w)%Z -> (0 < c)%Z -> 0 < peak ->
  big_vision_rsqrt_schedule peak d ts w c = Ok lr -> (d < s)%Z -> lr s < 0.
Proof. exact c31_past. Qed.
Print Assumptions C31_past_the_end.

Example C31_example : exists lr, create_learning_rate_schedule 60 (BigVisionRsqrt 8 10 10 20 None) = Ok lr /\
  lr 5%Z = 4 /\ lr 10%Z = 8 /\ lr 40%Z = 4 /\ lr 50%Z = 2 /\ lr 60%Z = 0.
Proof.
  destruct (proj1 (C31_errors 60 8 10 10 20 None) ltac:(simpl; lia) ltac:(lia)) as [lr E]. exists lr. split; [exact E|].
  destruct (C31_rsqrt 60 8 10 10 20 None lr 60 ltac:(lia) ltac:(lia) eq_refl E) as (W & M & C & L & _). clear E.
  assert (M40 : sqrt (10 / (10 + 30)) = 1 / 2).
  { replace (10 / (10 + 30)) with ((1 / 2) * (1 / 2)) by lra. apply sqrt_square. lra. }
  assert (M10 : sqrt (10 / (10 + 0)) = 1). { replace (10 / (10 + 0)) with 1 by lra. apply sqrt_1. }
  assert (V40 := M 40%Z ltac:(lia)). simpl Z.sub in V40. rewrite M40 in V40.
  repeat split.
  - rewrite W by lia. lra.
  - rewrite M by lia. simpl Z.sub. rewrite M10. lra.
  - rewrite V40. lra.
  - rewrite C by lia. simpl Z.sub. rewrite V40. lra.
  - apply L. lia.
Qed.
