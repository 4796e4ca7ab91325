(** Routers based on optimal transport (vmoe/projects/sparsity_constrained_ot; C58 and C59). *)
From Coq Require Import List Arith ZArith Bool Reals.
From Verif Require Import Prim MoeModel SoftModel AuxModel CwModel.
From Verif Require Import Py.
Import ListNotations.
Local Open Scope nat_scope.

(** ** Sparse transport plans (ksparse_projection_routing.py) *)
Section Sparse.
(** jaxopt.projection.projection_sparse_simplex: the vector x of length n, and the largest number k of
    entries that are not zero *)
Variable project : nat -> nat -> (nat -> R) -> nat -> R.
(** The result of a solver that is run on an objective: any vector (maxiter bounds its steps) *)
Variable solver : ((nat -> R) -> R) -> nat -> R.
(** jnp.dot *)
Definition dot (n : nat) (p x : nat -> R) : R := sumf n (fun i => (p i * x i)%R).
(** 233-238 [_max_l2_top_k].  Its gradient (in x) is p because of stop_gradient: the rest is constant. *)
Definition max_l2_top_k (n k : nat) (x : nat -> R) (marginal_b gamma : R) : R :=
  let scale := (gamma * marginal_b)%R in
  let p := project n k (fun i => x i / scale)%R in
  (dot n p x - / 2 * scale * dot n p (fun i => p i - 1))%R.
Definition max_grad (n k : nat) (x : nat -> R) (marginal_b gamma : R) : nat -> R :=
  let scale := (gamma * marginal_b)%R in project n k (fun i => x i / scale)%R.
(** jaxopt's _regularized_transport_semi_dual, for a cost matrix of shape (M, N): the objective in alpha,
    and the plan for the result of the solver *)
Definition semi_dual (M N k : nat) (cost : nat -> nat -> R) (a b : nat -> R) (gamma : R) (alpha : nat -> R) : R :=
  let X := fun i j => (alpha i - cost i j)%R in
  (sumf N (fun j => b j * max_l2_top_k M k (fun i => X i j) (b j) gamma) - dot M alpha a)%R.
Definition transport_plan (M N k : nat) (cost : nat -> nat -> R) (b : nat -> R) (gamma : R) (alpha : nat -> R) (i j : nat) : R :=
  let X := fun i j => (alpha i - cost i j)%R in
  (max_grad M k (fun i => X i j) (b j) gamma i * b j)%R.
Definition regularized_transport (M N k : nat) (cost : nat -> nat -> R) (a b : nat -> R) (gamma : R) : nat -> nat -> R :=
  transport_plan M N k cost b gamma (solver (semi_dual M N k cost a b gamma)).
(** 178-230 [_get_sparsity_constrained_ot_algorithm]: the plan (tokens, experts) *)
Definition sparse_ot_plan (T E k : nat) (row_sparse : bool) (sim : nat -> nat -> R) : nat -> nat -> R :=
  let per_token := fun _ : nat => 1%R in
  let per_expert := fun _ : nat => (INR T / INR E)%R in
  if row_sparse then
    let plan := regularized_transport E T k (fun e t => - sim t e)%R per_expert per_token 1%R in fun t e => plan e t
  else regularized_transport T E k (fun t e => - sim t e)%R per_token per_expert 1%R.
(** 62-102: the gates (groups, items, experts) of the router that selects experts, for given logits.  The
    softmax has no entries if there are no experts. *)
Definition ksparse_experts_gates (S E k : nat) (logits : nat -> nat -> nat -> R) : res ((nat -> nat -> nat -> R) * (nat -> nat -> nat -> R)) :=
  if negb ((k <=? E) && (1 <=? k)) then Raise ValueError
  else
    let gates_softmax := fun g s => softmax E (logits g s) in
    Ok (fun g => sparse_ot_plan S E k true (gates_softmax g), gates_softmax).
(** 138-175: of the router that selects items; nnz_k is the capacity for the capacity factor. *)
Definition ksparse_items_gates (S E nnz_k : nat) (logits : nat -> nat -> nat -> R) : (nat -> nat -> nat -> R) * (nat -> nat -> nat -> R) :=
  let gates_softmax := fun g s => softmax E (logits g s) in
  (fun g => sparse_ot_plan S E nnz_k false (gates_softmax g), gates_softmax).
End Sparse.

(** ** KL projections (kl_projection_routing.py) *)
Section Kl.
(** The plan of one group, by Sinkhorn's algorithm or LBFGS *)
Variable plan : (nat -> nat -> R) -> nat -> nat -> R.
(** 69-126, without metrics: the noise is given, it is ignored if deterministic or if noise_std is zero. *)
Definition kl_experts_gates (E k : nat) (noise : option (nat -> nat -> nat -> R)) (logits : nat -> nat -> nat -> R)
  : res ((nat -> nat -> nat -> R) * (nat -> nat -> nat -> R)) :=
  if negb ((k <=? E) && (1 <=? k)) then Raise ValueError
  else
    let gates_softmax := fun g s => softmax E (logits g s) in
    match noise with
    | None => Ok (fun g => plan (logits g), gates_softmax)
    | Some noise =>
        let gates_logits_noisy := fun g s e => (logits g s e + noise g s e)%R in
        let gates_softmax_noisy := fun g s => softmax E (logits g s) in
        Ok (fun g => plan (gates_logits_noisy g), gates_softmax_noisy)
    end.
(** 202-223 *)
Definition kl_items_gates (E : nat) (noise : option (nat -> nat -> nat -> R)) (logits : nat -> nat -> nat -> R)
  : (nat -> nat -> nat -> R) * (nat -> nat -> nat -> R) :=
  match noise with
  | None => (fun g => plan (logits g), fun g s => softmax E (logits g s))
  | Some noise =>
      let gates_logits_noisy := fun g s e => (logits g s e + noise g s e)%R in
      (fun g => plan (gates_logits_noisy g), fun g s => softmax E (gates_logits_noisy g s))
  end.
End Kl.

(** ** Dispatchers (ot_routing.py) *)
Section Dispatch.
Context {A : alg}.
(** 83-106 [_replace_combine_weights] *)
Definition replace_combine_weights (d : @dispatcher A) (replacing_gates : nat -> nat -> nat -> sc A) : res (@dispatcher A) :=
  match d with
  | DEinsum G Sz E C d =>
      let dispatch_weights := ed_dispatch_weights d in
      Ok (DEinsum G Sz E C {| ed_combine := fun g s e c => smul A (replacing_gates g s e) (dispatch_weights g s e c); ed_dispatch := Some dispatch_weights |})
  | _ => Raise TypeError
  end.
(** 33-53 and 65-80: the last step of both.  Errors of the functions that make dispatchers
    (e.g. more experts selected than there are) are all ValueError here. *)
Definition finish (d : option (@dispatcher A)) (gates_combine : option (nat -> nat -> nat -> sc A)) (use_bfloat16 : bool) : res (@dispatcher A) :=
  match d with
  | None => Raise ValueError
  | Some d =>
      bind (match gates_combine with Some g => replace_combine_weights d g | None => Ok d end) (fun d =>
      Ok (if use_bfloat16 then DBfloat16 d else d))
  end.
(** 33-53, for a resolved capacity C *)
Definition experts_dispatcher (G S E K C : nat) (name : dispatcher_name) (bp use_bfloat16 : bool) (gates_dispatch : nat -> nat -> nat -> sc A)
    (gates_combine : option (nat -> nat -> nat -> sc A)) : res (@dispatcher A) :=
  finish (match name with
          | NameEinsum => option_map (DEinsum G S E C) (einsum_dispatcher_of S E K C gates_dispatch bp)
          | NameIndices => option_map (DIndices G S K E C) (indices_dispatcher_of S E K gates_dispatch bp)
          | NameOther => None
          end) gates_combine use_bfloat16.
(** 65-80 *)
Definition items_dispatcher (G S E C : nat) (name : dispatcher_name) (use_bfloat16 : bool) (gates_dispatch : nat -> nat -> nat -> sc A)
    (gates_combine : option (nat -> nat -> nat -> sc A)) : res (@dispatcher A) :=
  finish (match name with
          | NameEinsum => option_map (DEinsum G S E C) (top_items_dispatcher_of S E C gates_dispatch)
          | _ => None
          end) gates_combine use_bfloat16.
End Dispatch.
