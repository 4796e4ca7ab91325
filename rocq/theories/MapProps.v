(** C28 and C29. *)
From Coq Require Import List Arith ZArith Bool Sorted Lia.
From Verif Require Import Py TreeModel TreeSpec TreeProps MapModel MapSpec MapProofs MapProofs2 MapProofs3.
Import ListNotations.
Local Open Scope nat_scope.

(** C28: when a state dict is mapped onto a target, the result has the structure of the
    target and each parameter is as [assigned] says: as initialised if no source goes to
    it, and otherwise set from the source(s) that go to it.  No source is left without a
    rule unless this was allowed. *)
Theorem C28_only_matched :
  forall pat (search : pat -> str -> bool) (sub : pat -> str -> str -> str) array dtype
    (dtype_eqb : dtype -> dtype -> bool) (shape_of : array -> list nat) (dtype_of : array -> dtype)
    (astype : array -> dtype -> array) (broadcast_to : array -> list nat -> res array)
    (transform : kind -> array -> array -> res array) (stack : Z -> list array -> res array),
  (forall a b, reflect (a = b) (dtype_eqb a b)) ->
  forall fl rules source target out, wf no_slash source -> wf (fun _ => True) target ->
  map_state_dict pat search sub array dtype dtype_eqb shape_of dtype_of astype broadcast_to transform stack
    fl rules source target = Ok out ->
  related (assigned pat search sub array dtype shape_of dtype_of astype broadcast_to transform stack
             (fun _ => True) fl rules source) [] target out /\
  (raise_source fl = true -> forall key s, named_array array source key s -> ~ no_rule pat search rules key).
Proof. exact map_only_matched. Qed.
Print Assumptions C28_only_matched.

(** It succeeds whenever: the rules can be parsed; sources have rules, and targets have
    sources, unless the flags allow otherwise; sources go to parameters of the target, to
    the same one only if they are stacked; and the transformations succeed. *)
Theorem C28_no_error :
  forall pat (search : pat -> str -> bool) (sub : pat -> str -> str -> str) array dtype
    (dtype_eqb : dtype -> dtype -> bool) (shape_of : array -> list nat) (dtype_of : array -> dtype)
    (astype : array -> dtype -> array) (broadcast_to : array -> list nat -> res array)
    (transform : kind -> array -> array -> res array) (stack : Z -> list array -> res array),
  (forall a b, reflect (a = b) (dtype_eqb a b)) ->
  forall fl rules cs_s target,
  wf no_slash (Node cs_s) -> wf no_slash target -> (exists cs, target = Node cs) ->
  Forall (fun kc => nonempty (snd kc)) cs_s ->
  let source := Node cs_s in
  let goes := goes pat search sub in
  let fitted := fitted array dtype shape_of dtype_of astype broadcast_to in
  Forall (fun u => exists p k, written pat u p k) rules ->
  (raise_source fl = true -> forall key s, named_array array source key s -> ~ no_rule pat search rules key) ->
  (forall key s k dst, named_array array source key s -> goes rules key k dst ->
     exists p x, leaf_at target p x /\ dst = join p) ->
  (forall key1 s1 k1 key2 s2 k2 dst, named_array array source key1 s1 -> named_array array source key2 s2 ->
     goes rules key1 k1 dst -> goes rules key2 k2 dst -> key1 <> key2 -> stacks k1) ->
  (raise_target fl = true -> forall p x, leaf_at target p x ->
     exists key s k, named_array array source key s /\ goes rules key k (join p)) ->
  (forall p x key s k, leaf_at target p x -> named_array array source key s -> goes rules key k (join p) -> ~ stacks k ->
     exists w y, transformed array transform k s x w /\ fitted fl w x y) ->
  (forall p x key t axis l, leaf_at target p x ->
     (forall k s, In (k, s) l <-> named_array array source k s /\ exists c, goes rules k c (join p)) ->
     goes rules key (KStack t axis) (join p) ->
     exists w y, stack axis (map snd l) = Ok w /\ fitted fl w x y) ->
  exists out, map_state_dict pat search sub array dtype dtype_eqb shape_of dtype_of astype broadcast_to transform stack
    fl rules source target = Ok out.
Proof. exact map_total. Qed.
Print Assumptions C28_no_error.

(** An instance: arrays with one axis, as a type and a list of numbers; patterns are strings
    found anywhere, and the new name replaces the whole key. *)
Definition ex_array : Type := nat * list nat.
Definition ex_map :=
  map_state_dict str infixb (fun _ t _ => t) ex_array nat Nat.eqb (fun a => [length (snd a)]) fst
    (fun a d => (d, snd a)) (fun _ _ => Raise ValueError)
    (fun k s _ => match k with KSqueeze _ _ => Ok s | _ => Raise ValueError end)
    (fun _ l => Ok (0, concat (map snd l))).
Definition ex_strict : flags := {| raise_dtype := false; raise_shape := true; raise_source := true; raise_target := true |}.
Definition ex_lax : flags := {| raise_dtype := false; raise_shape := true; raise_source := false; raise_target := false |}.
Definition n_ (c : nat) : str := [c].
Definition ex_source : tree ex_array :=
  Node [(n_ 97, Node [(n_ 57, Leaf (1, [4])); (n_ 56, Leaf (1, [3]))]); (n_ 98, Leaf (1, [7; 8])); (n_ 99, Leaf (1, [9]))].
Definition ex_target : tree ex_array :=
  Node [(n_ 119, Node [(n_ 120, Leaf (0, [0; 0])); (n_ 121, Leaf (0, [5]))]); (n_ 122, Leaf (0, [1; 1]))].
Definition ex_mrules : list (urule str) :=
  [UTuple _ [97; 47] (Some [119; 47; 120]) (Some (s_stack, [TInt 0%Z]));
   UTuple _ [98] (Some [122]) None; UTuple _ [99] None None].
Example C28_example :
  ex_map ex_lax ex_mrules ex_source ex_target =
    Ok (Node [(n_ 119, Node [(n_ 120, Leaf (0, [3; 4])); (n_ 121, Leaf (0, [5]))]); (n_ 122, Leaf (0, [7; 8]))]) /\
  ex_map ex_strict ex_mrules ex_source ex_target = Raise ValueError /\
  ex_map ex_strict (UTuple _ [98] (Some [122]) None :: UTuple _ [57] (Some [122]) None :: ex_mrules) ex_source ex_target = Raise ValueError /\
  ex_map ex_strict [UTuple _ [98] (Some [122]) None] ex_source ex_target = Raise KeyError.
Proof. repeat split; vm_compute; reflexivity. Qed.

(** C29, for names that are texts with unsigned integers in between, with texts that do not
    blend with the numbers: what is stacked is in the numeric order of the names. *)
Theorem C29_numeric_order_partial :
  forall pat (search : pat -> str -> bool) (sub : pat -> str -> str -> str) array dtype
    (dtype_eqb : dtype -> dtype -> bool) (shape_of : array -> list nat) (dtype_of : array -> dtype)
    (astype : array -> dtype -> array) (broadcast_to : array -> list nat -> res array)
    (transform : kind -> array -> array -> res array) (stack : Z -> list array -> res array),
  (forall a b, reflect (a = b) (dtype_eqb a b)) ->
  forall fl rules source target out p x t0 ts, wf no_slash source -> wf (fun _ => True) target ->
  map_state_dict pat search sub array dtype dtype_eqb shape_of dtype_of astype broadcast_to transform stack
    fl rules source target = Ok out ->
  leaf_at target p x -> clean t0 ts ->
  (forall key s k, named_array array source key s -> goes pat search sub rules key k (join p) ->
     exists ns, numbered t0 ts ns key) ->
  (exists key s k, named_array array source key s /\ goes pat search sub rules key k (join p) /\ stacks k) ->
  exists axis l w y, leaf_at out p y /\ NoDup (map fst l) /\
    (forall key s, In (key, s) l <-> named_array array source key s /\ exists k, goes pat search sub rules key k (join p)) /\
    StronglySorted (fun a b => forall na nb, numbered t0 ts na a -> numbered t0 ts nb b -> num_le na nb) (map fst l) /\
    stack axis (map snd l) = Ok w /\ fitted array dtype shape_of dtype_of astype broadcast_to fl w x y.
Proof. exact stack_order. Qed.
Print Assumptions C29_numeric_order_partial.

(** 'x_9/k', 'x_10/k', 'x_1/k' *)
Example C29_example :
  clean [120; 95] [[47; 107]] /\ numbered [120; 95] [[47; 107]] [10%Z] [120; 95; 49; 48; 47; 107] /\
  natural_sort [[120; 95; 57; 47; 107]; [120; 95; 49; 48; 47; 107]; [120; 95; 49; 47; 107]] =
    [[120; 95; 49; 47; 107]; [120; 95; 57; 47; 107]; [120; 95; 49; 48; 47; 107]] /\
  ex_map ex_strict [UTuple _ [120; 95] (Some [119]) (Some (s_stack, [TInt 0%Z]))]
    (Node [([120; 95; 57], Leaf (0, [9])); ([120; 95; 49; 48], Leaf (0, [10])); ([120; 95; 49], Leaf (0, [1]))])
    (Node [([119], Leaf (0, [0; 0; 0]))]) = Ok (Node [([119], Leaf (0, [1; 9; 10]))]).
Proof.
  assert (L : forall cs (a b : nat), ~ In b cs -> not_last cs [a; b]).
  { intros cs a b N c I [|x [|y [|z u]]] E; try discriminate. injection E as _ E. subst. contradiction. }
  split; [|split; [|split; vm_compute; reflexivity]].
  - split; [|split; [|split]].
    + repeat constructor; lia.
    + intros _. apply L. simpl. intuition discriminate.
    + repeat constructor; lia.
    + intros c [<-|[]] u E. discriminate.
  - apply (nb_number [120; 95] [49; 48] 10%Z [47; 107] [] [] [47; 107]); [|constructor].
    split; [discriminate|]. split; [repeat constructor|reflexivity].
Qed.

(** Not so when a hyphen precedes the number: it is taken as a minus sign.  'x-1' and 'x-2'
    are stacked in reverse. *)
Theorem C29_numeric_order_refuted :
  exists t0 k1 k2, numbered t0 [[]] [1%Z] k1 /\ numbered t0 [[]] [2%Z] k2 /\
  ex_map ex_strict [UTuple _ t0 (Some [119]) (Some (s_stack, [TInt 0%Z]))]
    (Node [(k1, Leaf (0, [1])); (k2, Leaf (0, [2]))]) (Node [([119], Leaf (0, [0; 0]))])
  = Ok (Node [([119], Leaf (0, [2; 1]))]).
Proof.
  exists [120; 45], [120; 45; 49], [120; 45; 50]. split; [|split; [|vm_compute; reflexivity]].
  - apply (nb_number [120; 45] [49] 1%Z [] [] [] []); [|constructor]. split; [discriminate|]. split; [repeat constructor|reflexivity].
  - apply (nb_number [120; 45] [50] 2%Z [] [] [] []); [|constructor]. split; [discriminate|]. split; [repeat constructor|reflexivity].
Qed.
Print Assumptions C29_numeric_order_refuted.
