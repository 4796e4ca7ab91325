(** Creating, restoring and initialising train states (vmoe/train/trainer.py:272-319 and 371-438, and
    the initialization from other checkpoints; C81). *)
From Coq Require Import List Arith ZArith Bool.
From Verif Require Import Py TreeModel MapModel.
Import ListNotations.
Local Open Scope nat_scope.

Section State.
(** Values of arrays, and what a jax.ShapeDtypeStruct says: the shape and the type.  Shardings are not
    modelled. *)
Variable V D : Type.
(** A leaf of a train state: an array, or the description of one that is still to be created. *)
Inductive item := Array (v : V) | Struct (shape : list nat) (dtype : D).
Definition is_struct (x : flatv item) : bool := match x with FLeaf (Struct _ _) => true | _ => false end.

(** trainer.py:272-319 [create_or_reuse_train_state].  The state dict of a train state is the tree; the
    order of the keys in the result of pjit does not matter.  pjit fails if the keys of the result are
    not those of out_shardings. *)
Definition create_or_reuse_train_state (train_state : tree item) (initialize_fn : res (tree V)) : res (tree item) :=
  bind (flatten_dict train_state) (fun train_state_dict =>
  let out_axis_resources := map fst (filter (fun kv => is_struct (snd kv)) train_state_dict) in
  bind initialize_fn (fun new =>
  bind (flatten_dict new) (fun new =>
  let new := filter (fun kv => inb_str (fst kv) out_axis_resources) new in
  if forallb (fun k => inb_str k (map fst new)) out_axis_resources then
    let train_state_dict := dupdate train_state_dict
          (map (fun kv => (fst kv, match snd kv with FLeaf v => FLeaf (Array v) | FEmpty => FEmpty end)) new) in
    bind (unflatten_dict train_state_dict) (from_state_dict train_state)
  else Raise ValueError))).

(** jax.eval_shape: the shapes and types of what a function would return. *)
Variable shape_of : V -> list nat.
Variable dtype_of : V -> D.
Fixpoint eval_shape (t : tree V) : tree item :=
  match t with
  | Leaf v => Leaf (Struct (shape_of v) (dtype_of v))
  | Node cs => Node (map (fun kc => (fst kc, eval_shape (snd kc))) cs)
  end.
(** 371-438 [restore_or_create_train_state]: [latest] is what ckpt_manager restores at its latest step
    (the state and last_seen_index), None without one; [initialize_from] is
    initialize_train_state_from_checkpoint with its arguments, None if there are none. *)
Definition restore_or_create_train_state (latest : option (tree V * nat)) (initialize_fn : res (tree V))
    (initialize_from : option (tree item -> res (tree item))) : res (tree item * option nat) :=
  bind initialize_fn (fun fresh =>
  let train_state := eval_shape fresh in
  match latest with
  | Some (state, last_seen_index) =>
      Ok ((fix arrays (t : tree V) : tree item :=
             match t with Leaf v => Leaf (Array v) | Node cs => Node (map (fun kc => (fst kc, arrays (snd kc))) cs) end) state, Some last_seen_index)
  | None =>
      bind (match initialize_from with Some f => f train_state | None => Ok train_state end) (fun train_state =>
      bind (create_or_reuse_train_state train_state initialize_fn) (fun s => Ok (s, None)))
  end).
End State.
Arguments Array {V D}. Arguments Struct {V D}.
