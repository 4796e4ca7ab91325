(** C81: where the arrays of a train state come from. *)
From Coq Require Import List Arith ZArith Bool.
From Verif Require Import Py TreeModel TreeSpec MapModel MapSpec StaModel StaSpec StaProofs.
Import ListNotations.
Local Open Scope nat_scope.

(** Arrays that are given stay as they are; those that are missing are the arrays at the same place of a
    fresh state; the structure is that of the given state. *)
Theorem C81_reuse : forall (V D : Type) (ts : tree (item V D)) kc cs fresh,
  ts = Node (kc :: cs) -> wf no_slash ts -> wf no_slash fresh -> (exists cf, fresh = Node cf) ->
  (forall p, missing V D ts p -> exists v, leaf_at fresh p v) ->
  exists r, create_or_reuse_train_state V D ts (Ok fresh) = Ok r /\ related (reused V D fresh) [] ts r.
Proof. exact create_ok. Qed.
Print Assumptions C81_reuse.
Example C81_reuse_ex : create_or_reuse_train_state nat unit
    (Node [([1], Node [([2], Leaf (Array 5)); ([3], Leaf (Struct [] tt)); ([4], Node [])]); ([5], Leaf (Struct [] tt))])
    (Ok (Node [([5], Leaf 10); ([1], Node [([3], Leaf 11); ([2], Leaf 12)])])) =
  Ok (Node [([1], Node [([2], Leaf (Array 5)); ([3], Leaf (Array 11)); ([4], Node [])]); ([5], Leaf (Array 10))]).
Proof. reflexivity. Qed.

(** A missing array that the fresh state does not have is an error. *)
Theorem C81_missing : forall (V D : Type) (ts : tree (item V D)) cs fresh p,
  ts = Node cs -> wf no_slash ts -> wf no_slash fresh -> (exists cf, fresh = Node cf) ->
  missing V D ts p -> (forall v, ~ leaf_at fresh p v) -> nonempty fresh ->
  create_or_reuse_train_state V D ts (Ok fresh) = Raise ValueError.
Proof. exact create_missing. Qed.
Print Assumptions C81_missing.
Example C81_missing_ex : missing nat unit (Node [([1], Leaf (Struct [] tt))]) [[1]] /\
  create_or_reuse_train_state nat unit (Node [([1], Leaf (Struct [] tt))]) (Ok (Node [([2], Leaf 7)])) = Raise ValueError.
Proof. split; [|reflexivity]. exists [], tt. econstructor; [left; reflexivity|constructor]. Qed.

(** With a checkpoint of the same training, its latest step is restored, whatever the initialization. *)
Theorem C81_latest : forall (V D : Type) shape_of dtype_of (state : tree V) i fresh init,
  exists r, restore_or_create_train_state V D shape_of dtype_of (Some (state, i)) (Ok fresh) init = Ok (r, Some i) /\ as_arrays V D state r.
Proof. exact restore_latest. Qed.
Print Assumptions C81_latest.
Example C81_latest_ex : restore_or_create_train_state nat unit (fun _ => []) (fun _ => tt) (Some (Node [([1], Leaf 3)], 8)) (Ok (Node [([1], Leaf 0)])) (Some (fun _ => Raise ValueError)) =
  Ok (Node [([1], Leaf (Array 3))], Some 8).
Proof. reflexivity. Qed.

(** Without any checkpoint the state is the fresh one. *)
Theorem C81_fresh : forall (V D : Type) shape_of dtype_of (fresh : tree V) kc cs, fresh = Node (kc :: cs) -> wf no_slash fresh ->
  exists r, restore_or_create_train_state V D shape_of dtype_of None (Ok fresh) None = Ok (r, None) /\ as_arrays V D fresh r.
Proof. exact restore_fresh. Qed.
Print Assumptions C81_fresh.
Example C81_fresh_ex : restore_or_create_train_state nat unit (fun _ => []) (fun _ => tt) None (Ok (Node [([1], Leaf 3); ([2], Node [])])) None =
  Ok (Node [([1], Leaf (Array 3)); ([2], Node [])], None).
Proof. reflexivity. Qed.

(** With the initialization from another checkpoint by rules: every array is either the one that the
    rules assign to it, or, if no array of the checkpoint goes to it (and this is allowed), the one of a
    fresh state.  The structure is that of a fresh state. *)
Theorem C81_warm : forall pat (search : pat -> str -> bool) (sub : pat -> str -> str -> str) (V D : Type)
    (dtype_eqb : D -> D -> bool) (shape_of : item V D -> list nat) (dtype_of : item V D -> D) (astype : item V D -> D -> item V D)
    (broadcast_to : item V D -> list nat -> res (item V D)) (transform : kind -> item V D -> item V D -> res (item V D))
    (stack : Z -> list (item V D) -> res (item V D)) (vshape : V -> list nat) (vdtype : V -> D)
    fl rules (source : tree (item V D)) fresh kc cs r,
  (forall a b, reflect (a = b) (dtype_eqb a b)) ->
  wf no_slash source -> (forall p x, leaf_at source p x -> is_array V D x) ->
  (forall a d, is_array V D a -> is_array V D (astype a d)) -> (forall a s b, is_array V D a -> broadcast_to a s = Ok b -> is_array V D b) ->
  (forall k a x b, is_array V D a -> transform k a x = Ok b -> is_array V D b) ->
  (forall axis l b, Forall (is_array V D) l -> l <> [] -> stack axis l = Ok b -> is_array V D b) ->
  fresh = Node (kc :: cs) -> wf no_slash fresh ->
  restore_or_create_train_state V D vshape vdtype None (Ok fresh)
    (Some (map_state_dict pat search sub (item V D) D dtype_eqb shape_of dtype_of astype broadcast_to transform stack fl rules source)) = Ok (r, None) ->
  related (fun p v y => is_array V D y /\
     (assigned pat search sub (item V D) D shape_of dtype_of astype broadcast_to transform stack (fun _ => True) fl rules source p (Struct (vshape v) (vdtype v)) y \/
      (y = Array v /\ raise_target fl = false /\ forall key s k, named_array (item V D) source key s -> ~ goes pat search sub rules key k (join p)))) [] fresh r.
Proof. exact warm_start. Qed.
Print Assumptions C81_warm.
(** A checkpoint whose array 1 is renamed to 2, and a state with the arrays 2 and 3 *)
Example C81_warm_ex :
  restore_or_create_train_state nat unit (fun _ => []) (fun _ => tt) None (Ok (Node [([2], Leaf 20); ([3], Leaf 30)]))
    (Some (map_state_dict str str_eqb (fun _ t _ => t) (item nat unit) unit (fun _ _ => true) (fun _ => []) (fun _ => tt) (fun a _ => a) (fun a _ => Ok a) (fun _ a _ => Ok a)
             (fun _ _ => Raise ValueError) {| raise_dtype := true; raise_shape := true; raise_source := true; raise_target := false |}
             [UTuple _ [1] (Some [2]) None] (Node [([1], Leaf (Array 10))]))) =
  Ok (Node [([2], Leaf (Array 10)); ([3], Leaf (Array 30))], None).
Proof. reflexivity. Qed.

(** Names with a slash break this: the fresh state is rejected. *)
Theorem C81_slash_refuted : exists fresh : tree nat, wf (fun _ => True) fresh /\
  restore_or_create_train_state nat unit (fun _ => []) (fun _ => tt) None (Ok fresh) None = Raise ValueError.
Proof.
  exists (Node [([1; slash; 2], Leaf 3)]). split; [|reflexivity]. constructor.
  - constructor; [intros []|constructor].
  - constructor; [|constructor]. split; [exact I|constructor].
Qed.
Print Assumptions C81_slash_refuted.
