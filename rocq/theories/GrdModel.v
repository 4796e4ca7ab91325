(** Derivatives computed by jax: forward mode through a sparse MoE layer (vmoe/moe.py) and reverse
    mode through the losses of the router (vmoe/nn/routing.py), as used by the training step
    (vmoe/train/trainer.py:658-675); C87.  Arithmetic without rounding; infinities and NaN are
    modelled where the derivative rules can produce them. *)
From Coq Require Import List Arith ZArith Bool Reals.
From Verif Require Import Prim MoeModel SoftModel AuxModel ElmModel.
Import ListNotations.
Local Open Scope nat_scope.

(** Pairs of a value and a tangent with the rules of jax for the operations that vmoe/moe.py uses:
    products and sums; comparisons (top_k, argsort) look at the values only; one-hot encodings and
    boolean masks have tangent zero (b2s uses szero and sone).  jax's reverse mode is the transpose
    of the same linear map. *)
Definition Dalg : alg :=
  {| sc := (R * R)%type; sleb := fun a b => if Rle_dec (fst a) (fst b) then true else false; szero := (0, 0)%R; sone := (1, 0)%R;
     smul := fun a b => (fst a * fst b, snd a * fst b + fst a * snd b)%R; sneg := fun a => (- fst a, - snd a)%R;
     vec := ((nat -> R) * (nat -> R))%type; vzero := (fun _ => 0, fun _ => 0)%R;
     vadd := fun x y => (fun d => fst x d + fst y d, fun d => snd x d + snd y d)%R;
     vscale := fun a x => (fun d => fst a * fst x d, fun d => snd a * fst x d + fst a * snd x d)%R |}.

(** A sparse MoE layer with given gates: the dispatcher of the router (vmoe/nn/routing.py:117-131
    and 231-244) and vmoe/moe.py:427-448 [sparse_moe_spmd].  None: an error. *)
Definition einsum_layer {A : alg} (G Sz E K C : nat) (bp : bool) (gates : nat -> nat -> nat -> sc A)
  (F : nat -> (nat -> vec A) -> nat -> vec A) (data : nat -> nat -> vec A) : option (nat -> nat -> vec A) :=
  match einsum_dispatcher_of Sz E K C gates bp with
  | None => None
  | Some d => Some (sparse_moe (einsum_do_dispatch G Sz E C d) (einsum_do_combine G Sz E C (G * C) d) F data)
  end.
Definition indices_layer {A : alg} (G Sz E K C : nat) (bp : bool) (gates : nat -> nat -> nat -> sc A)
  (F : nat -> (nat -> vec A) -> nat -> vec A) (data : nat -> nat -> vec A) : option (nat -> nat -> vec A) :=
  match indices_dispatcher_of Sz E K gates bp with
  | None => None
  | Some d => Some (sparse_moe (indices_do_dispatch G Sz K E C d) (indices_do_combine G Sz K E C (G * C) d) F data)
  end.
Definition items_layer {A : alg} (G Sz E C : nat) (gates : nat -> nat -> nat -> sc A)
  (F : nat -> (nat -> vec A) -> nat -> vec A) (data : nat -> nat -> vec A) : option (nat -> nat -> vec A) :=
  match top_items_dispatcher_of Sz E C gates with
  | None => None
  | Some d => Some (sparse_moe (einsum_do_dispatch G Sz E C d) (einsum_do_combine G Sz E C (G * C) d) F data)
  end.

(** ** The softmax of the router (vmoe/nn/routing.py:80, 97, 221 and 228) *)
(** jax.nn.softmax has its own rule: y * (x_dot - sum(y * x_dot)). *)
Definition softmax_jvp (E : nat) (row : nat -> R * R) (e : nat) : R * R :=
  let y := softmax E (fun i => fst (row i)) in
  (y e, y e * (snd (row e) - sumf E (fun i => y i * snd (row i))))%R.

(** ** Reverse mode through (std / mean)**2 (vmoe/nn/routing.py:154-157 and 181-183) *)
(** IEEE division and square root; a zero divisor counts as +0 (it is the root of +0, or the mean
    of numbers that cancel). *)
Definition ediv (x y : ext) : ext :=
  match x, y with
  | NaN, _ | _, NaN => NaN
  | Fin a, Fin b => if Req_EM_T b 0 then (if Req_EM_T a 0 then NaN else if Rlt_dec 0 a then PInf else NInf) else Fin (a / b)
  | Fin _, _ => Fin 0
  | x, Fin b => if Rle_dec 0 b then x else eopp x
  | _, _ => NaN
  end.
Definition esqrt (x : ext) : ext :=
  match x with Fin r => if Rle_dec 0 r then Fin (sqrt r) else NaN | PInf => PInf | _ => NaN end.
Definition emean (n : nat) (f : nat -> ext) : ext := ediv (esum n f) (Fin (INR n)).
(** The values of the forward pass: mean, deviations, mean square deviation, std, quotient *)
Definition fwd_mean (n : nat) (x : nat -> ext) : ext := emean n x.
Definition fwd_centered (n : nat) (x : nat -> ext) (i : nat) : ext := esub (x i) (fwd_mean n x).
Definition fwd_var (n : nat) (x : nat -> ext) : ext := emean n (fun i => emul (fwd_centered n x i) (fwd_centered n x i)).
Definition fwd_std (n : nat) (x : nat -> ext) : ext := esqrt (fwd_var n x).
Definition fwd_ratio (n : nat) (x : nat -> ext) : ext := ediv (fwd_std n x) (fwd_mean n x).
(** The cotangent of every entry when the loss has cotangent ct; the rules of jax are
    x**2: 2 x; x / y: 1 / y and - x y**-2; sqrt: 0.5 / sqrt(x); mean: 1 / n; jnp.std subtracts the
    mean of the entries. *)
Definition cv_vjp (n : nat) (x : nat -> ext) (ct : ext) (i : nat) : ext :=
  let mu := fwd_mean n x in
  let std := fwd_std n x in
  let ct_ratio := emul ct (emul (Fin 2) (fwd_ratio n x)) in
  let ct_std := ediv ct_ratio mu in
  let ct_mean := emul (emul (eopp ct_ratio) std) (ediv (Fin 1) (emul mu mu)) in
  let ct_var := emul ct_std (ediv (Fin (1 / 2)) std) in
  let ct_centered := fun j => emul (ediv ct_var (Fin (INR n))) (emul (Fin 2) (fwd_centered n x j)) in
  let ct_mean_of_std := eopp (esum n ct_centered) in
  eadd (eadd (ct_centered i) (ediv ct_mean_of_std (Fin (INR n)))) (ediv ct_mean (Fin (INR n))).

(** Gradient of vmoe/nn/routing.py:150-157 [_importance_auxiliary_loss] of a group with respect to
    the gate of item s and expert e; the sum over the items passes the cotangent on. *)
Definition importance_grad (Sz E : nat) (gates : nat -> nat -> R) (ct : ext) (s e : nat) : ext :=
  cv_vjp E (fun e => Fin (sumf Sz (fun s => gates s e))) ct e.

(** Gradient of vmoe/nn/routing.py:133-148 [_gshard_auxiliary_loss]; argmax and one_hot pass
    nothing on. *)
Definition gshard_grad (Sz E : nat) (gates : nat -> nat -> R) (ct : R) (s e : nat) : R :=
  let mean_top1 := (sumf Sz (fun s => if AuxModel.argmax E (gates s) =? e then 1 else 0) / INR Sz)%R in
  let ct_mean := (ct * (INR E * INR E))%R in
  let ct_product := (ct_mean / INR E)%R in
  (ct_product * mean_top1 / INR Sz)%R.

Section LoadGrad.
(** jax.scipy.stats.norm.cdf and its derivative *)
Variables cdf pdf : R -> R.
(** Gradient of vmoe/nn/routing.py:159-183 [_load_auxiliary_loss] of a group with respect to the
    entries of logits and of logits_noisy: top_k passes nothing on, the one-hot row (170-172)
    passes the cotangent of the threshold to the entry it came from. *)
Definition load_z (E K : nat) (noise_std : R) (logits logits_noisy : nat -> nat -> R) (s e : nat) : R :=
  ((threshold E K (logits_noisy s) - logits s e) / noise_std)%R.
Definition load_p_mean (Sz E K : nat) (noise_std : R) (logits logits_noisy : nat -> nat -> R) (e : nat) : ext :=
  ediv (esum Sz (fun s => Fin (1 - cdf (load_z E K noise_std logits logits_noisy s e)))) (Fin (INR Sz)).
Definition load_ct_required (Sz E K : nat) (noise_std : R) (logits logits_noisy : nat -> nat -> R) (ct : ext) (s e : nat) : ext :=
  let ct_p := ediv (cv_vjp E (load_p_mean Sz E K noise_std logits logits_noisy) ct e) (Fin (INR Sz)) in
  let ct_z := emul (eopp ct_p) (Fin (pdf (load_z E K noise_std logits logits_noisy s e))) in
  ediv ct_z (Fin noise_std).
Definition load_grad_logits (Sz E K : nat) (noise_std : R) (logits logits_noisy : nat -> nat -> R) (ct : ext) (s e : nat) : ext :=
  eopp (load_ct_required Sz E K noise_std logits logits_noisy ct s e).
Definition load_grad_noisy (Sz E K : nat) (noise_std : R) (logits logits_noisy : nat -> nat -> R) (ct : ext) (s e : nat) : ext :=
  let ct_threshold := esum E (load_ct_required Sz E K noise_std logits logits_noisy ct s) in
  let index := last (top_k rleb E K (logits_noisy s)) 0 in
  emul ct_threshold (Fin (if e =? index then 1 else 0)).
End LoadGrad.

(** 247-252 [_weighted_sum] of the losses of the router: the cotangents of the terms, and the sum
    of their gradients with respect to a gate; a term whose weight is not positive is left out. *)
Definition weighted_grad (terms : list (R * (ext -> ext))) (ct : ext) : ext :=
  fold_right eadd (Fin 0) (map (fun wg => snd wg (emul ct (Fin (fst wg)))) (filter (fun wg => if Rlt_dec 0 (fst wg) then true else false) terms)).
(** The gradient of the auxiliary loss of a deterministic router (82-91) with respect to the gate
    of item s and expert e, for the weights of the losses; the cotangents here are numbers, so that
    the branch of other cotangents is never taken *)
Definition auxiliary_grad (Sz E : nat) (w_gshard w_importance : R) (gates : nat -> nat -> R) (s e : nat) : ext :=
  weighted_grad
    [(w_gshard, fun ct => match ct with Fin c => Fin (gshard_grad Sz E gates c s e) | x => x end);
     (w_importance, fun ct => importance_grad Sz E gates ct s e)] (Fin 1).
