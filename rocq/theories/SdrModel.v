(** Derivatives computed by jax through a Soft MoE layer (vmoe/projects/soft_moe/router.py:36-110
    and vmoe/moe.py:143-161 and 427-448; C89), in forward mode; reverse mode is the transpose of
    the same linear map.  Arithmetic over the reals, without rounding.  *)
From Coq Require Import List Arith ZArith Bool Reals QArith.
From Verif Require Import Prim MoeModel SoftModel GrdModel.
Import ListNotations.
Local Open Scope nat_scope.

(** Pairs of a value and a tangent, with the rules of jax: sums, products, and lax.rsqrt
    (x_dot * (-0.5 * (rsqrt(x) / x))). *)
Definition dual : Type := (R * R)%type.
Definition dconst (r : R) : dual := (r, 0%R).
Definition dadd (a b : dual) : dual := (fst a + fst b, snd a + snd b)%R.
Definition dmul (a b : dual) : dual := (fst a * fst b, snd a * fst b + fst a * snd b)%R.
Definition drsqrt (a : dual) : dual := (/ sqrt (fst a), snd a * (- (1 / 2) * (/ sqrt (fst a) / fst a)))%R.
Fixpoint dsum (n : nat) (f : nat -> dual) : dual := match n with O => dconst 0%R | S m => dadd (dsum m f) (f m) end.

(** 36-38 [normalize] *)
Definition normalize_d (D : nat) (x : nat -> dual) (d : nat) : dual :=
  dmul (x d) (drsqrt (dadd (dsum D (fun i => dmul (x i) (x i))) (dconst eps6))).
(** 57-61 and 74-91: the logits *)
Definition soft_logits_d (G M D N P : nat) (inputs : nat -> nat -> nat -> dual) (mu : nat -> nat -> nat -> dual) (scale : dual)
  : nat -> nat -> nat -> nat -> dual :=
  let inputs := fun g m => normalize_d D (inputs g m) in
  let mu := fun d n p => normalize_d D (fun i => mu i n p) d in
  let inputs_small := G * M * D <? D * N * P in
  let inputs := if inputs_small then fun g m d => dmul (inputs g m d) scale else inputs in
  let mu := if inputs_small then mu else fun d n p => dmul (mu d n p) scale in
  fun g m n p => dsum D (fun d => dmul (inputs g m d) (mu d n p)).
(** 104-110 [add_noise]: the noise is a constant *)
Definition add_noise_d (deterministic : bool) (noise_std : R) (normal : nat -> nat -> nat -> nat -> R) (logits : nat -> nat -> nat -> nat -> dual)
  : nat -> nat -> nat -> nat -> dual :=
  if negb deterministic && (if Rlt_dec 0 noise_std then true else false)
  then fun g m n p => dadd (logits g m n p) (dconst (noise_std * normal g m n p)%R)
  else logits.
(** 93-96; jax.nn.softmax has its own rule, y * (x_dot - sum(y * x_dot)). *)
Definition vals (x : nat -> nat -> nat -> nat -> dual) (g m n p : nat) : R := fst (x g m n p).
Definition soft_dispatch_d (M : nat) (logits : nat -> nat -> nat -> nat -> dual) (g m n p : nat) : dual :=
  let y := soft_dispatch M (vals logits) in
  (y g m n p, y g m n p * (snd (logits g m n p) - sumf M (fun i => y g i n p * snd (logits g i n p))))%R.
Definition soft_combine_d (N P : nat) (logits : nat -> nat -> nat -> nat -> dual) (g m n p : nat) : dual :=
  let y := soft_combine N P (vals logits) in
  (y g m n p, y g m n p * (snd (logits g m n p) - sumf N (fun i => sumf P (fun j => y g m i j * snd (logits g m i j)))))%R.
(** 55-102 [SoftRouter.__call__]; the shapes carry no tangent. *)
Definition soft_router_d (G M D N : nat) (num_slots : option Z) (capacity_factor : option Q) (deterministic : bool) (noise_std : R)
    (normal : nat -> nat -> nat -> nat -> R) (mu_of : nat -> nat -> nat -> nat -> dual) (scale : dual) (inputs : nat -> nat -> nat -> dual)
  : res (nat * einsum_dispatcher Dalg) :=
  match soft_num_slots M N num_slots capacity_factor with
  | Raise e => Raise e
  | Ok s => let P := Z.to_nat s in
            let logits := add_noise_d deterministic noise_std normal (soft_logits_d G M D N P inputs (mu_of P) scale) in
            Ok (P, @Build_einsum_dispatcher Dalg (soft_combine_d N P logits) (Some (soft_dispatch_d M logits)))
  end.
(** A Soft MoE layer, as [SoftModel.soft_layer] *)
Definition soft_layer_d (G M N P : nat) (d : einsum_dispatcher Dalg) (f : nat -> vec Dalg -> vec Dalg) (data : nat -> nat -> vec Dalg)
  : nat -> nat -> vec Dalg :=
  @sparse_moe Dalg (@einsum_do_dispatch Dalg G M N P d) (@einsum_do_combine Dalg G M N P (G * P) d) (fun e buffer j => f e (buffer j)) data.
(** Items of which each coordinate is a pair *)
Definition item_of (x : nat -> dual) : vec Dalg := (fun d => fst (x d), fun d => snd (x d)).
