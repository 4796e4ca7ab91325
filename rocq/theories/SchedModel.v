(** Model of vmoe/train/schedule.py over the reals (C30, C31).  The functions of optax that
    it uses are modelled from their documentation. *)
From Coq Require Import List ZArith Reals.
From Verif Require Import Py.
Import ListNotations.
Local Open Scope R_scope.

(** A schedule gives the learning rate from the step count. *)
Definition schedule := Z -> R.

(** x ** p for x >= 0 *)
Definition pow_ (x p : R) : R :=
  if Req_EM_T x 0 then (if Req_EM_T p 0 then 1 else 0) else Rpower x p.

(** optax.polynomial_schedule(init_value, end_value, power, transition_steps) *)
Definition polynomial_schedule (init_value end_value power : R) (transition_steps : Z) : schedule :=
  fun count =>
    if (transition_steps <=? 0)%Z then init_value
    else
      let count := Z.max 0 (Z.min count transition_steps) in
      let frac := 1 - IZR count / IZR transition_steps in
      (init_value - end_value) * pow_ frac power + end_value.

(** optax.linear_schedule *)
Definition linear_schedule (init_value end_value : R) (transition_steps : Z) : schedule :=
  polynomial_schedule init_value end_value 1 transition_steps.

(** optax.join_schedules: later schedules replace earlier ones from their boundaries on, and
    count from there; a boundary without a schedule is ignored. *)
Definition join_schedules (schedules : list schedule) (boundaries : list Z) : schedule :=
  match schedules with
  | [] => fun _ => 0
  | s :: rest =>
      fun step => fold_left (fun output bs => if (step <? fst bs)%Z then output else (snd bs) (step - fst bs)%Z)
                    (combine boundaries rest) (s step)
  end.

(** schedule.py:45-57 *)
Definition warmup_polynomial_decay_schedule (peak_value end_value power : R) (warmup_steps decay_steps : Z) : schedule :=
  join_schedules
    [linear_schedule 0 peak_value warmup_steps;
     polynomial_schedule peak_value end_value power (decay_steps - warmup_steps)]
    [warmup_steps].

(** schedule.py:60-122; jax.lax.rsqrt(x) is 1 / sqrt x.  Dividing the integers
    decay_steps - ... by a zero timescale raises. *)
Definition big_vision_rsqrt_schedule (peak_value : R) (decay_steps timescale warmup_steps cooldown_steps : Z) : res schedule :=
  if (decay_steps <? warmup_steps + cooldown_steps)%Z then Raise ValueError
  else if (timescale <? 0)%Z then Raise ValueError
  else if (timescale =? 0)%Z then Raise ZeroDivisionError
  else
    let cooldown_peak_value :=
      peak_value / sqrt (1 + IZR (decay_steps - warmup_steps - cooldown_steps) / IZR timescale) in
    let rsqrt_ : schedule := fun count => peak_value * (1 / sqrt (1 + IZR count / IZR timescale)) in
    let cooldown : schedule := fun count => cooldown_peak_value * (1 - IZR count / IZR cooldown_steps) in
    Ok (join_schedules
          ((if (0 <? warmup_steps)%Z then [linear_schedule 0 peak_value warmup_steps] else []) ++ [rsqrt_] ++
           (if (0 <? cooldown_steps)%Z then [cooldown] else []))
          ((if (0 <? warmup_steps)%Z then [warmup_steps] else []) ++ [(decay_steps - cooldown_steps)%Z])).

(** The arguments of a schedule; decay_steps is optional. *)
Inductive sched_args :=
| Constant (value : R)
| WarmupLinear (peak_value end_value : R) (warmup_steps : Z) (decay_steps : option Z)
| WarmupPolynomial (peak_value end_value power : R) (warmup_steps : Z) (decay_steps : option Z)
| BigVisionRsqrt (peak_value : R) (timescale warmup_steps cooldown_steps : Z) (decay_steps : option Z)
| Unknown.

Definition default (d : option Z) (total_steps : Z) : Z := match d with Some n => n | None => total_steps end.

(** schedule.py:22-42 [create_learning_rate_schedule].  The exponential and cosine schedules
    of optax are not modelled. *)
Definition create_learning_rate_schedule (total_steps : Z) (a : sched_args) : res schedule :=
  match a with
  | Constant v => Ok (fun _ => v)
  | WarmupLinear peak end_ w d => Ok (warmup_polynomial_decay_schedule peak end_ 1 w (default d total_steps))
  | WarmupPolynomial peak end_ p w d => Ok (warmup_polynomial_decay_schedule peak end_ p w (default d total_steps))
  | BigVisionRsqrt peak ts w c d => big_vision_rsqrt_schedule peak (default d total_steps) ts w c
  | Unknown => Raise ValueError
  end.
