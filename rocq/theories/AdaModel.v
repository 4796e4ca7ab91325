(** Model of one entry of a parameter that vmoe/train/optimizer.py:236-286 [scale_by_big_vision_adafactor] does not
    factor, with the values that are not numbers (C99).  NumModel has the same over the real numbers, where a power of a
    base that is not positive has an arbitrary value.  Numbers are not rounded, and do not overflow or underflow; there is one
    zero; the momentum (optax.ema, lines 283-284) is left out. *)
From Coq Require Import List Arith ZArith Bool Reals.
Import ListNotations.
Local Open Scope R_scope.

Inductive fl := Num (x : R) | Inf (negative : bool) | NaN.
Definition fneg (a : fl) : fl := match a with Num x => Num (- x) | Inf s => Inf (negb s) | NaN => NaN end.
(** IEEE addition, subtraction and multiplication *)
Definition fadd (a b : fl) : fl :=
  match a, b with
  | Num x, Num y => Num (x + y)
  | Num _, Inf s | Inf s, Num _ => Inf s
  | Inf s, Inf s' => if Bool.eqb s s' then Inf s else NaN
  | NaN, _ | _, NaN => NaN
  end.
Definition fsub (a b : fl) : fl := fadd a (fneg b).
Definition scale_inf (x : R) (s : bool) : fl :=
  if Rlt_dec 0 x then Inf s else if Rlt_dec x 0 then Inf (negb s) else NaN.
Definition fmul (a b : fl) : fl :=
  match a, b with
  | Num x, Num y => Num (x * y)
  | Num x, Inf s | Inf s, Num x => scale_inf x s
  | Inf s, Inf s' => Inf (xorb s s')
  | NaN, _ | _, NaN => NaN
  end.
(** jnp.minimum, which keeps NaN *)
Definition fmin (a b : fl) : fl :=
  match a, b with
  | NaN, _ | _, NaN => NaN
  | Inf true, _ | _, Inf true => Inf true
  | Inf false, y => y
  | x, Inf false => x
  | Num x, Num y => Num (Rmin x y)
  end.
(** jnp.power of numbers *)
Definition fpow (x y : R) : fl :=
  if Req_EM_T y 0 then Num 1
  else if Rlt_dec 0 x then Num (Rpower x y)
  else if Req_EM_T x 0 then (if Rlt_dec y 0 then Inf false else Num 0)
  else if Req_EM_T (IZR (Int_part y)) y then Num (powerRZ x (Int_part y))
  else NaN.
(** jax.lax.rsqrt *)
Definition frsqrt (a : fl) : fl :=
  match a with
  | Num x => if Rlt_dec 0 x then Num (/ sqrt x) else if Req_EM_T x 0 then Inf false else NaN
  | Inf false => Num 0
  | Inf true | NaN => NaN
  end.

(** optimizer.py:272-275 [_decay_rate_pow] *)
Definition decay_rate_pow_fl (decay_rate_max : R) (step : Z) (exponent : R) : fl :=
  let t := IZR step + 1 in
  fmin (Num decay_rate_max) (fsub (Num 1) (fpow t (- exponent))).
(** optimizer.py:277-283: the update of optax.scale_by_factored_rms for an entry that is not factored.  The state is the number
    of updates and the second moment, initially 0. *)
Definition ada_update (decay_rate decay_rate_max : R) (decay_offset : nat) (eps : R) (g : R) (s : nat * fl) : fl * (nat * fl) :=
  let '(count, v) := s in
  let decay_rate_t := decay_rate_pow_fl decay_rate_max (Z.of_nat count - Z.of_nat decay_offset) decay_rate in
  let grad_sqr := Num (g * g + eps) in
  let new_v := fadd (fmul decay_rate_t v) (fmul (fsub (Num 1) decay_rate_t) grad_sqr) in
  (fmul (Num g) (frsqrt new_v), (S count, new_v)).
Definition ada_init : nat * fl := (0%nat, Num 0).
(** The updates for the gradients of some steps *)
Fixpoint ada_run (decay_rate decay_rate_max : R) (decay_offset : nat) (eps : R) (gs : list R) (s : nat * fl) : list fl :=
  match gs with
  | [] => []
  | g :: gs => let '(u, s') := ada_update decay_rate decay_rate_max decay_offset eps g s in
               u :: ada_run decay_rate decay_rate_max decay_offset eps gs s'
  end.
