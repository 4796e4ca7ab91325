(** Extraction of the combine weights of the MoE layers
    (vmoe/projects/adversarial_attacks/restore.py; C45). *)
From Coq Require Import List Arith ZArith Bool.
From Verif Require Import Prim MoeModel Py.
Import ListNotations.
Local Open Scope nat_scope.

Section Cw.
Context {A : alg}.
(** Addition of scalars *)
Variable sadd : sc A -> sc A -> sc A.
(** jnp.sum over an axis of length n *)
Fixpoint ssum (n : nat) (f : nat -> sc A) : sc A := match n with O => szero A | S m => sadd (ssum m f) (f m) end.

(** The dispatchers of vmoe/moe.py, with the sizes of their arrays *)
Inductive dispatcher :=
| DEinsum (G Sz E C : nat) (d : einsum_dispatcher A)
| DIndices (G Sz K E C : nat) (d : indices_dispatcher A)
| DDense (G Sz E : nat) (w : nat -> nat -> nat -> sc A)
| DBfloat16 (d : dispatcher).
(** What a layer computes with a dispatcher (sparse_moe_spmd, vmoe/moe.py:427-448); the casts of
    Bfloat16Dispatcher (212-227) are not modelled. *)
Fixpoint layer (d : dispatcher) (experts : nat -> (nat -> vec A) -> nat -> vec A) (data : nat -> nat -> vec A) : nat -> nat -> vec A :=
  match d with
  | DEinsum G Sz E C d => sparse_moe (einsum_do_dispatch G Sz E C d) (einsum_do_combine G Sz E C (G * C) d) experts data
  | DIndices G Sz K E C d => sparse_moe (indices_do_dispatch G Sz K E C d) (indices_do_combine G Sz K E C (G * C) d) experts data
  | DDense G Sz E w => sparse_moe (dense_do_dispatch G Sz E) (dense_do_combine G Sz E w) experts data
  | DBfloat16 d => layer d experts data
  end.

(** A matrix with its number of rows and columns *)
Definition matrix := (nat * nat * (nat -> nat -> sc A))%type.
(** (G, S, E) -> (G * S, E) *)
Definition rows (G Sz E : nat) (w : nat -> nat -> nat -> sc A) : matrix := (G * Sz, E, fun n e => w (n / Sz) (n mod Sz) e).
(** restore.py:75-93: the weights of one layer *)
Definition combine_weights_of (d : dispatcher) : res matrix :=
  let d := match d with DBfloat16 d => d | _ => d end in
  match d with
  | DEinsum G Sz E C d => Ok (rows G Sz E (fun g s e => ssum C (fun c => ed_combine d g s e c)))
  | DIndices G Sz K E C d =>
      let indices_one_hot := fun g s k e => b2s A (id_expert d g s k =? e) in
      let combine_weights := fun g s k e => smul A (indices_one_hot g s k e) (id_combine d g s k) in
      Ok (rows G Sz E (fun g s e => ssum K (fun k => combine_weights g s k e)))
  | _ => Raise TypeError
  end.
(** restore.py:67-94 [get_combine_weights].  The dictionary is given flattened, with the dispatcher
    [value[0][0]] of each key; its keys are distinct. *)
Definition get_combine_weights {K} (intermediates : option (list (K * dispatcher))) : res (list (K * matrix)) :=
  match intermediates with
  | None => Ok []
  | Some l => rmap (fun kv => bind (combine_weights_of (snd kv)) (fun w => Ok (fst kv, w))) l
  end.
(** restore.py:50-52: (num_tokens, E) -> (batch_size, tokens, E), with the number of tokens *)
Definition per_image (batch_size : nat) (m : matrix) : res (nat * (nat -> nat -> nat -> sc A)) :=
  let '(n, E, w) := m in
  if (batch_size =? 0) || negb (n mod batch_size =? 0) then Raise TypeError
  else let T := n / batch_size in Ok (T, fun b t e => w (b * T + t) e).
Definition image_combine_weights {K} (batch_size : nat) (intermediates : option (list (K * dispatcher)))
  : res (list (K * (nat * (nat -> nat -> nat -> sc A)))) :=
  bind (get_combine_weights intermediates) (rmap (fun kv => bind (per_image batch_size (snd kv)) (fun w => Ok (fst kv, w)))).
End Cw.
Arguments dispatcher : clear implicits.
