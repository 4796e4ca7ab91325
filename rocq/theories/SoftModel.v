(** The router of Soft MoE (vmoe/projects/soft_moe/router.py:36-182; C43 and C52), over the real
    numbers. *)
From Coq Require Import List Arith ZArith Bool Reals QArith.
From Verif Require Import Prim MoeModel.
Import ListNotations.
Local Open Scope nat_scope.

(** Real scalars; items are vectors of reals, by coordinate. *)
Definition Ralg : alg :=
  {| sc := R; sleb := fun a b => if Rle_dec a b then true else false; szero := 0%R; sone := 1%R; smul := Rmult; sneg := Ropp;
     vec := nat -> R; vzero := fun _ => 0%R; vadd := fun x y d => (x d + y d)%R; vscale := fun a x d => (a * x d)%R |}.

(** Sum over an axis of length n *)
Fixpoint sumf (n : nat) (f : nat -> R) : R := match n with O => 0%R | S m => (sumf m f + f m)%R end.

(** 36-38 [normalize]; eps is 1e-6. *)
Definition eps6 : R := (/ 1000000)%R.
Definition normalize (D : nat) (x : nat -> R) (d : nat) : R := (x d * / sqrt (sumf D (fun i => x i * x i) + eps6))%R.

(** 57-61 and 74-91: the logits of items (G,M,D) for parameters mu (D,N,P) *)
Definition soft_logits (G M D N P : nat) (inputs : nat -> nat -> nat -> R) (mu : nat -> nat -> nat -> R) (scale : R)
  : nat -> nat -> nat -> nat -> R :=
  let inputs := fun g m => normalize D (inputs g m) in
  let mu := fun d n p => normalize D (fun i => mu i n p) d in
  let inputs_small := G * M * D <? D * N * P in
  let inputs := if inputs_small then fun g m d => (inputs g m d * scale)%R else inputs in
  let mu := if inputs_small then mu else fun d n p => (mu d n p * scale)%R in
  fun g m n p => sumf D (fun d => inputs g m d * mu d n p)%R.
(** 104-110 [add_noise]; [normal] is the sample of the normal distribution. *)
Definition add_noise (deterministic : bool) (noise_std : R) (normal logits : nat -> nat -> nat -> nat -> R) : nat -> nat -> nat -> nat -> R :=
  if negb deterministic && (if Rlt_dec 0 noise_std then true else false)
  then fun g m n p => (logits g m n p + noise_std * normal g m n p)%R
  else logits.

(** 93-96: softmax over the items, and over all slots of all experts (jax.nn.softmax: exponentials
    divided by their sum) *)
Definition soft_dispatch (M : nat) (logits : nat -> nat -> nat -> nat -> R) (g m n p : nat) : R :=
  (exp (logits g m n p) / sumf M (fun i => exp (logits g i n p)))%R.
Definition soft_combine (N P : nat) (logits : nat -> nat -> nat -> nat -> R) (g m n p : nat) : R :=
  (exp (logits g m n p) / sumf N (fun i => sumf P (fun j => exp (logits g m i j))))%R.
Definition soft_dispatcher (M N P : nat) (logits : nat -> nat -> nat -> nat -> R) : einsum_dispatcher Ralg :=
  @Build_einsum_dispatcher Ralg (soft_combine N P logits) (Some (soft_dispatch M logits)).

(** 62-73: the number of slots per expert.  The actual capacity factor is only logged, but its
    computation divides by the group size; without num_slots, the capacity factor None is a
    TypeError (a number times None). *)
Definition soft_num_slots (M N : nat) (num_slots : option Z) (capacity_factor : option Q) : res Z :=
  match num_slots with
  | Some s => if M =? 0 then Raise ZeroDivisionError else Ok s
  | None => match capacity_factor with
            | Some f => compute_capacity (Z.of_nat M) (Z.of_nat N) f Round (Some 1%Z)
            | None => Raise TypeError
            end
  end.

(** 55-102 [SoftRouter.__call__]: the number of slots and the dispatcher.  The parameters have
    a shape that depends on the number of slots, here [mu_of].  The conversion to bfloat16
    (Bfloat16Dispatcher) is not modelled. *)
Definition soft_router (G M D N : nat) (num_slots : option Z) (capacity_factor : option Q) (deterministic : bool) (noise_std : R)
    (normal : nat -> nat -> nat -> nat -> R) (mu_of : nat -> nat -> nat -> nat -> R) (scale : R) (inputs : nat -> nat -> nat -> R)
  : res (nat * einsum_dispatcher Ralg) :=
  match soft_num_slots M N num_slots capacity_factor with
  | Raise e => Raise e
  | Ok s => let P := Z.to_nat s in
            let logits := add_noise deterministic noise_std normal (soft_logits G M D N P inputs (mu_of P) scale) in
            Ok (P, soft_dispatcher M N P logits)
  end.

(** A Soft MoE layer: each expert applies [f e] to each one of its slots. *)
Definition soft_layer (G M N P : nat) (d : einsum_dispatcher Ralg) (f : nat -> (nat -> R) -> nat -> R) (data : nat -> nat -> nat -> R)
  : nat -> nat -> nat -> R :=
  @sparse_moe Ralg (@einsum_do_dispatch Ralg G M N P d) (@einsum_do_combine Ralg G M N P (G * P) d) (fun e buffer j => f e (buffer j)) data.

(** 126-137: the lowest and highest similarity between different elements of a group, over G
    groups of n elements, as the code computes them: the diagonals are first multiplied by zero,
    then replaced by the maximum.  The same for the dispatch weights (142-152; the elements are
    the n * p slots) and for mu (157-164; one group).  None when there are no entries, a
    ValueError of jax.  The means (138-140, 153-155, 165-166) are in SmnModel. *)
Definition maxr (l : list R) : option R := match l with [] => None | x :: r => Some (fold_left Rmax r x) end.
Definition minr (l : list R) : option R := match l with [] => None | x :: r => Some (fold_left Rmin r x) end.
Definition entries (G n : nat) (a : nat -> nat -> nat -> R) : list R :=
  flat_map (fun g => flat_map (fun i => map (fun j => a g i j) (seq 0 n)) (seq 0 n)) (seq 0 G).
Definition sim_min_max (G n : nat) (sim : nat -> nat -> nat -> R) : option (R * R) :=
  let id := fun (_ i j : nat) => if i =? j then 1%R else 0%R in
  let masked := fun g i j => ((1 - id g i j) * sim g i j)%R in
  match maxr (entries G n masked) with
  | None => None
  | Some m =>
      let masked := fun g i j => (masked g i j + id g i j * m)%R in
      match minr (entries G n masked), maxr (entries G n masked) with
      | Some lo, Some hi => Some (lo, hi)
      | _, _ => None
      end
  end.
(** 170-182 [cosine_psim] of the n vectors of length L of a group, x of shape (L, n); eps is 1e-9. *)
Definition eps9 : R := (/ 1000000000)%R.
Definition cosine_psim (L : nat) (x : nat -> nat -> R) (i j : nat) : R :=
  let m := fun i => (/ sqrt (sumf L (fun d => x d i * x d i) + eps9))%R in
  sumf L (fun d => (x d i * m i) * (x d j * m j))%R.
(** 129-131, 144-146 and 159: the similarities of the combine weights of pairs of items, contracted over
    all slots, and of the dispatch weights of pairs of slots, contracted over the items; slot s
    is slot s mod P of expert s / P (the C order of a reshape). *)
Definition combine_sim (N P : nat) (logits : nat -> nat -> nat -> nat -> R) (g i j : nat) : R :=
  cosine_psim (N * P) (fun s m => soft_combine N P logits g m (s / P) (s mod P)) i j.
Definition dispatch_sim (M P : nat) (logits : nat -> nat -> nat -> nat -> R) (g i j : nat) : R :=
  cosine_psim M (fun m s => soft_dispatch M logits g m (s / P) (s mod P)) i j.
Definition mu_sim (D P : nat) (mu : nat -> nat -> nat -> R) (_ i j : nat) : R :=
  cosine_psim D (fun d s => mu d (s / P) (s mod P)) i j.
