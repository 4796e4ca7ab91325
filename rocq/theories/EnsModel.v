(** Ensemble routing (vmoe/nn/ensemble_routing.py, vmoe/nn/vit_moe_ensemble.py; C46), over the
    real numbers.  The hidden axis of the arrays is part of their items. *)
From Coq Require Import List Arith Bool Reals.
From Verif Require Import Prim MoeModel SoftModel TreeModel EvalModel AuxModel Py.
Import ListNotations.
Local Open Scope nat_scope.

(** ** Reshapes *)
Section Reshape.
Context {V : Type}.
(** ensemble_routing.py:43-52 [reshape_to_group_size_representation] of an array with BM rows of T
    items; the result has the number of groups.  jax raises TypeError for impossible reshapes. *)
Definition reshape_to (BM T group_size M : nat) (x : nat -> nat -> V) : res (nat * (nat -> nat -> V)) :=
  if M =? 0 then Raise ZeroDivisionError
  else
    let B := BM / M in
    if negb (B * M * T =? BM * T) then Raise TypeError
    else
      let x := unravel3 M T (ravel2 T x) in
      let x := fun b t m => x b m t in
      let size := B * T * M in
      if (group_size =? 0) || negb (size mod group_size =? 0) then Raise TypeError
      else Ok (size / group_size, unravel2 group_size (ravel3 T M x)).
(** 55-63 [reshape_from_group_size_representation] of an array with G groups of [group_size] items;
    the result has the number of rows. *)
Definition reshape_from (G group_size T M : nat) (x : nat -> nat -> V) : res (nat * (nat -> nat -> V)) :=
  let size := G * group_size in
  if (T * M =? 0) || negb (size mod (T * M) =? 0) then Raise TypeError
  else
    let B := size / (T * M) in
    let x := unravel3 T M (ravel2 group_size x) in
    let x := fun b m t => x b t m in
    Ok (B * M, unravel2 T (ravel3 M T x)).
End Reshape.

(** 66-68 [reshape_from_diag_blocks] of a group: M blocks with r rows and c columns *)
Definition block_diag (r c : nat) (blocks : nat -> nat -> nat -> R) (i j : nat) : R :=
  if i / r =? j / c then blocks (i / r) (i mod r) (j mod c) else 0%R.

(** ** The router (71-134) *)
Section Router.
Variable cdf : R -> R.
Variables (M E K : nat) (deterministic : bool) (noise_std gshard_loss_weight importance_loss_weight load_loss_weight : R).
(** The dense layer of each member, and its sample of the normal distribution *)
Variable dense : nat -> (nat -> R) -> nat -> R.
Variable normal : nat -> nat -> nat -> nat -> R.
(** 90-134 [_compute_gates_softmax_and_metrics].  The metrics, that the vmap stacks, are given as a list with those of each member. *)
Definition ensemble_gates (G Sz : nat) (inputs : nat -> nat -> nat -> R)
  : res ((nat -> nat -> nat -> R) * list (list (str * tree arr))) :=
  if M =? 0 then Raise ValueError
  else if negb (E mod M =? 0) then Raise ValueError
  else if negb (Sz mod M =? 0) then Raise ValueError
  else
    let inputs := fun g => unravel2 M (inputs g) in
    bind (rmap (fun m => compute_gates_softmax_and_metrics cdf G (Sz / M) (E / M) K deterministic noise_std
                           gshard_loss_weight importance_loss_weight load_loss_weight
                           (fun g i => dense m (inputs g i m)) (normal m)) (seq 0 M)) (fun members =>
    let blocks := fun g m => fst (nth m members (fun _ _ _ => 0%R, [])) g in
    let gates := fun g => block_diag (Sz / M) (E / M) (blocks g) in
    let gates := fun g => unravel2 (Sz / M) (gates g) in
    let gates := fun g i m => gates g m i in
    let gates := fun g => ravel2 M (gates g) in
    Ok (gates, map snd members)).

(** ** The layer (vit_moe_ensemble.py:37-70, with MlpMoeBlock.__call__ of vit_moe.py:101-124, whose
    reshapes to and from groups leave the arrays of shape (G, S) as they are).  The dispatcher is
    the one with einsums, with capacity C; [experts] are the MLPs. *)
Definition ensemble_layer (BM T group_size C : nat) (batch_priority : bool) (experts : nat -> (nat -> R) -> nat -> R)
    (inputs : nat -> nat -> nat -> R) : res (nat * (nat -> nat -> nat -> R) * list (list (str * tree arr))) :=
  if M =? 0 then Raise ValueError
  else
  bind (reshape_to BM T group_size M inputs) (fun r =>
  let '(G, inputs) := r in
  bind (ensemble_gates G group_size inputs) (fun gm =>
  match @einsum_dispatcher_of Ralg group_size E K C (fst gm) batch_priority with
  | None => Raise ValueError
  | Some d =>
      let outputs := @sparse_moe Ralg (@einsum_do_dispatch Ralg G group_size E C d) (@einsum_do_combine Ralg G group_size E C (G * C) d)
                       (fun e buffer j => experts e (buffer j)) inputs in
      bind (reshape_from G group_size T M outputs) (fun out => Ok (out, snd gm))
  end)).
End Router.

(** ** The encoder (vit_moe_ensemble.py:73-124): jnp.repeat before the first MoE layer.  A batch is
    its number of rows and the rows; the position embedding, the dropout and the final norm only
    change the rows and are not modelled. *)
Section Encoder.
Variable Y : Type.
Definition batch := (nat * (nat -> Y))%type.
Definition repeat_rows (M : nat) (x : batch) : batch := (fst x * M, fun r => snd x (r / M)).
Variable moe_block : nat -> batch -> res (batch * metrics_t).
Variable dense_block : nat -> batch -> res batch.
Definition encoder_ensemble (num_layers : nat) (moe_mlp_layers : list nat) (ensemble_size : option nat) (x : batch) : res (batch * metrics_t) :=
  match ensemble_size with
  | None | Some 0 => Raise ValueError
  | Some M =>
      bind (rfold (fun st block =>
              let '(x, metrics, is_first) := st in
              if existsb (Nat.eqb block) moe_mlp_layers
              then let x := if is_first : bool then repeat_rows M x else x in
                   bind (moe_block block x) (fun r => Ok (fst r, dset metrics (block_key block) (Node (snd r)), false))
              else bind (dense_block block x) (fun x => Ok (x, metrics, is_first)))
            (seq 0 num_layers) (x, [], true)) (fun st =>
      let '(x, metrics, _) := st in
      bind (bind (rmap (fun kv => get_aux (snd kv)) metrics) py_sum) (fun aux =>
      Ok (x, dset metrics k_aux (Leaf aux))))
  end.
End Encoder.
