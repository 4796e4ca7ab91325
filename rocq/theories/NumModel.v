(** Model of what the optimizers of vmoe/train/optimizer.py compute (lines 90-290), and of
    vmoe/train/train_state.py:29-44, over the real numbers (C74 to C77).  OptModel treats the names
    of the parameters in trees; here the parameters are given by their names. *)
From Coq Require Import List Arith ZArith Bool Reals.
From Verif Require Import NdArray TreeModel OptModel SchedModel Py.
Import ListNotations.
Local Open Scope nat_scope.

(** An entry of the parameters: the name of the array (as in flatten_dict with sep='/') and the
    index.  A tree of arrays is a function of the entries; only those of the parameters matter. *)
Definition coord := (str * list nat)%type.
Definition vec := coord -> R.
Definition is_zero (x : R) : bool := if Req_EM_T x 0 then true else false.
Definition pw (f : R -> R) (u : vec) : vec := fun c => f (u c).

Section Numerics.
Variable regex : Type.
(** regex.search(key) is not None *)
Variable search : regex -> str -> bool.
(** numpy.argsort *)
Variable argsort : list nat -> list nat.
(** The names and the shapes of the parameters *)
Variable shapes : list (str * list nat).

Definition entries : list coord := flat_map (fun ns => map (pair (fst ns)) (indices (snd ns))) shapes.
Definition shape_of (n : str) : list nat := match dget shapes n with Some s => s | None => [] end.
Definition rsum (l : list R) : R := fold_right Rplus 0%R l.
(** optax.global_norm *)
Definition global_norm (u : vec) : R := sqrt (rsum (map (fun c => u c * u c)%R entries)).

(** optax.GradientTransformation: [update updates state params].  The initial states do not depend
    on the values of the parameters. *)
Record op := Op { st : Type; init : st; update : vec -> st -> vec -> vec * st }.
(** optax.chain *)
Definition then_ (a b : op) : op :=
  Op (st a * st b) (init a, init b)
     (fun u s p => let r := update a u (fst s) p in let r' := update b (fst r) (snd s) p in (fst r', (snd r, snd r'))).
Definition stateless (f : vec -> vec -> vec) : op := Op unit tt (fun u s p => (f u p, s)).
Definition identity : op := stateless (fun u _ => u).
Definition chain (ops : list op) : op := fold_right then_ identity ops.

(** optax.clip_by_global_norm *)
Definition clip_by_global_norm (max_norm : R) : op := stateless (fun u _ =>
  let g_norm := global_norm u in
  if Rlt_dec g_norm max_norm then u else fun c => (u c / g_norm * max_norm)%R).
(** optax.clip *)
Definition clip (max_delta : R) : op := stateless (fun u _ => pw (fun x => Rmin (Rmax x (- max_delta)) max_delta) u).
(** optax.trace *)
Definition trace (decay : R) (nesterov : bool) : op :=
  Op vec (fun _ => 0%R) (fun u s _ =>
    let new_trace : vec := fun c => (u c + decay * s c)%R in
    ((if nesterov then fun c => (u c + decay * new_trace c)%R else new_trace), new_trace)).
(** optax.scale_by_adam *)
Definition scale_by_adam (b1 b2 eps eps_root : R) : op :=
  Op (nat * (vec * vec)) (0, (fun _ => 0%R, fun _ => 0%R)) (fun u s _ =>
    let mu : vec := fun c => ((1 - b1) * u c + b1 * fst (snd s) c)%R in
    let nu : vec := fun c => ((1 - b2) * (u c * u c) + b2 * snd (snd s) c)%R in
    let count := S (fst s) in
    ((fun c => (mu c / (1 - b1 ^ count) / (sqrt (nu c / (1 - b2 ^ count) + eps_root) + eps))%R), (count, (mu, nu)))).
(** optax.ema with debias=False *)
Definition ema (decay : R) : op :=
  Op vec (fun _ => 0%R) (fun u s _ =>
    let new : vec := fun c => ((1 - decay) * u c + decay * s c)%R in (new, new)).

(** The axes (d1, d0) over which optax's adafactor factors an array: the two greatest axes,
    if both are large enough. *)
Definition factored_dims (min_dim_size_to_factor : nat) (shape : list nat) : option (nat * nat) :=
  let n := length shape in
  if n <? 2 then None
  else let sorted := argsort shape in
       let d1 := nth (n - 2) sorted 0 in
       if nth d1 shape 0 <? min_dim_size_to_factor then None else Some (d1, nth (n - 1) sorted 0).
Fixpoint replace (i x : nat) (idx : list nat) : list nat :=
  match idx, i with
  | [], _ => []
  | _ :: r, O => x :: r
  | y :: r, S i => y :: replace i x r
  end.
(** jnp.mean(a, axis=d, keepdims=True), broadcast to the shape again *)
Definition mean_axis (d : nat) (f : vec) : vec := fun c =>
  let n := nth d (shape_of (fst c)) 0 in
  (rsum (map (fun i => f (fst c, replace d i (snd c))) (seq 0 n)) / INR n)%R.
(** optax.scale_by_factored_rms with factored=True.  The arrays v_row and v_col, which lack an axis,
    are functions that do not depend on it. *)
Definition scale_by_factored_rms (decay_rate : R) (step_offset min_dim : nat) (epsilon : R) (decay_rate_fn : Z -> R -> R) : op :=
  Op (nat * (vec * (vec * vec))) (0, (fun _ => 0%R, (fun _ => 0%R, fun _ => 0%R))) (fun u s _ =>
    let '(count, (v, (v_row, v_col))) := s in
    let decay_rate_t := decay_rate_fn (Z.of_nat count - Z.of_nat step_offset)%Z decay_rate in
    let grad_sqr : vec := fun c => (u c * u c + epsilon)%R in
    let mix (old new : vec) : vec := fun c => (decay_rate_t * old c + (1 - decay_rate_t) * new c)%R in
    let dims_of (c : coord) := factored_dims min_dim (shape_of (fst c)) in
    let new_v : vec := fun c => match dims_of c with None => mix v grad_sqr c | Some _ => 0%R end in
    let new_row : vec := fun c => match dims_of c with Some (d1, d0) => mix v_row (mean_axis d0 grad_sqr) c | None => 0%R end in
    let new_col : vec := fun c => match dims_of c with Some (d1, d0) => mix v_col (mean_axis d1 grad_sqr) c | None => 0%R end in
    ((fun c => match dims_of c with
               | Some (d1, d0) => (u c * / sqrt (new_row c / mean_axis d1 new_row c) * / sqrt (new_col c))%R
               | None => (u c * / sqrt (new_v c))%R
               end), (S count, (new_v, (new_row, new_col))))).
(** optimizer.py:272-275 [_decay_rate_pow] *)
Definition decay_rate_pow (decay_rate_max : R) (step : Z) (exponent : R) : R :=
  Rmin decay_rate_max (1 - Rpower (IZR step + 1) (- exponent)).
(** optimizer.py:238-286 [scale_by_big_vision_adafactor] *)
Definition scale_by_big_vision_adafactor (decay_rate decay_rate_max : R) (decay_offset : nat) (eps : R) (min_dim : nat) (momentum : option R) : op :=
  chain [scale_by_factored_rms decay_rate decay_offset min_dim eps (decay_rate_pow decay_rate_max);
         match truthy R is_zero momentum with Some m => ema m | None => identity end].
(** optimizer.py:289-290 [trace_momentum] *)
Definition trace_momentum (momentum : option R) (nesterov : bool) : op :=
  match truthy R is_zero momentum with Some m => trace m nesterov | None => identity end.

(** optimizer.py:178-191 [gradient_clipping] *)
Definition gradient_clipping (global_norm absolute_value : option R) : res op :=
  match truthy R is_zero global_norm, truthy R is_zero absolute_value with
  | Some _, Some _ => Raise ValueError
  | Some g, None => Ok (clip_by_global_norm g)
  | None, Some a => Ok (clip a)
  | None, None => Ok identity
  end.
(** optimizer.py:194-235 [gradient_scaling] *)
Definition gradient_scaling (scales : list (regex * R)) : op :=
  match scales with
  | [] => identity
  | _ => stateless (fun u _ c => (u c * first_value regex search R scales (fst c) 1)%R)
  end.
(** optimizer.py:32-87 [add_decayed_weights] *)
Definition add_decayed_weights (d : decay regex R) : op :=
  match d with
  | DNone _ _ => identity
  | DConst _ _ w => if is_zero w then identity else stateless (fun u p c => (u c + w * p c)%R)
  | DRules _ _ [] => identity
  | DRules _ _ l => stateless (fun u p c => (u c + first_value regex search R l (fst c) 0 * p c)%R)
  end.
(** optimizer.py:142-175 [freeze_weights] *)
Definition freeze_weights (frozen_pattern trainable_pattern : list regex) : res op :=
  let mask (patterns : list regex) (search_true search_false : bool) : op :=
    stateless (fun u _ c => if (if existsb (fun r => search r (fst c)) patterns then search_true else search_false) then 0%R else u c) in
  match frozen_pattern, trainable_pattern with
  | [], [] => Ok identity
  | [], _ => Ok (mask trainable_pattern false true)
  | _, [] => Ok (mask frozen_pattern true false)
  | _, _ => Raise ValueError
  end.
(** optimizer.py:126-132 [_scale_by_learning_rate] under optax.inject_hyperparams, which calls the
    schedule with the number of updates so far. *)
Definition scale_by_learning_rate (lr : schedule) : op :=
  Op nat 0 (fun u s _ => ((fun c => (u c * - lr (Z.of_nat s))%R), S s)).

(** The name of the optimizer with its keyword arguments *)
Inductive optim :=
| Sgd (momentum : option R) (nesterov : bool)
| Adam (b1 b2 eps eps_root : R)
| Adafactor (decay_rate decay_rate_max : R) (decay_offset : nat) (eps : R) (min_dim : nat) (momentum : option R)
| OtherOptim.
Record config := {
  gradient_scale : list (regex * R);
  clip_norm : option R;
  clip_value : option R;
  optimizer : optim;
  weight_decay : decay regex R;
  learning_rate : R + sched_args;
  total_steps : Z;
  frozen : list regex;
  trainable : list regex }.
(** optimizer.py:90-139 [create_optimizer] *)
Definition create_optimizer (c : config) : res op :=
  bind (gradient_clipping (clip_norm c) (clip_value c)) (fun clipping =>
  bind (match optimizer c with
        | Adam b1 b2 eps eps_root => Ok (scale_by_adam b1 b2 eps eps_root)
        | Adafactor dr dmax off eps md m => Ok (scale_by_big_vision_adafactor dr dmax off eps md m)
        | Sgd m nesterov => Ok (trace_momentum m nesterov)
        | OtherOptim => Raise ValueError
        end) (fun optim =>
  let args := match learning_rate c with inl v => Constant v | inr a => a end in
  bind (create_learning_rate_schedule (total_steps c) args) (fun lr =>
  bind (freeze_weights (frozen c) (trainable c)) (fun freeze =>
  Ok (chain [gradient_scaling (gradient_scale c); clipping; optim; add_decayed_weights (weight_decay c);
             scale_by_learning_rate lr; freeze]))))).

(** The TrainState: the step, the parameters and the state of the optimizer *)
Record train_state (tx : op) := { step : nat; params : vec; opt_state : st tx }.
Arguments step {tx}. Arguments params {tx}. Arguments opt_state {tx}.
Record norms := { n_grads : R; n_updates : R; n_params : R }.
(** train_state.py:29-44 [apply_gradients_and_compute_global_norms] *)
Definition apply_gradients (tx : op) (grads : vec) (s : train_state tx) : train_state tx * norms :=
  let r := update tx grads (opt_state s) (params s) in
  let new_params : vec := fun c => (params s c + fst r c)%R in
  let s' := {| step := step s + 1; params := new_params; opt_state := snd r |} in
  (s', {| n_grads := global_norm grads; n_updates := global_norm (fst r); n_params := global_norm (params s') |}).
(** TrainState.create: step 0 and the initial state of the optimizer *)
Definition create (tx : op) (p : vec) : train_state tx := {| step := 0; params := p; opt_state := init tx |}.
(** Training steps with any gradients *)
Definition train (tx : op) (grads : list vec) (s : train_state tx) : train_state tx :=
  fold_left (fun s g => fst (apply_gradients tx g s)) grads s.
End Numerics.
