(** C32 and C33. *)
From Coq Require Import List Arith ZArith Bool Lia.
From Verif Require Import Py TreeModel TreeSpec TreeProofs2 TreeProps MapSpec OptModel OptSpec OptProofs OptProofs2 OptProofs3.
Import ListNotations.

(** C32: with any clipping, optimizer and learning rate schedule, after any number of updates
    with any gradients, the parameters have the same keys and the frozen ones the same
    values. *)
Theorem C32_frozen_unchanged :
  forall regex (search : regex -> str -> bool) V F state (add : V -> V -> V) (scale : F -> V -> V) (zeros_like : V -> V)
    (zero one : F) (is_zero : F -> bool) (empty_state : state) (clip_by_global_norm clip : F -> op V state)
    (optimizer : optimizer_name -> op V state),
  (forall p u, add p (zeros_like u) = p) ->
  forall c ops,
  create_optimizer regex search V F state add scale zeros_like zero one is_zero empty_state clip_by_global_norm clip optimizer c = Ok ops ->
  forall grads params st params' st', wf no_slash params -> nonempty params ->
  train V state add ops grads (params, st) = Ok (params', st') ->
  alike params params' /\
  forall p x, leaf_at params p x -> frozen_name regex search V F state c (join p) -> leaf_at params' p x.
Proof. exact freeze_train. Qed.
Print Assumptions C32_frozen_unchanged.

(** In each update, the parameters that are not frozen and the state of the optimizer become
    what they would without freezing. *)
Theorem C32_others_as_without :
  forall regex (search : regex -> str -> bool) V F state (add : V -> V -> V) (scale : F -> V -> V) (zeros_like : V -> V)
    (zero one : F) (is_zero : F -> bool) (empty_state : state) (clip_by_global_norm clip : F -> op V state)
    (optimizer : optimizer_name -> op V state),
  (forall p u, add p (zeros_like u) = p) ->
  let create := create_optimizer regex search V F state add scale zeros_like zero one is_zero empty_state clip_by_global_norm clip optimizer in
  forall c ops grads params st params' st', create c = Ok ops -> wf no_slash params -> nonempty params ->
  apply_gradients V state add ops grads (params, st) = Ok (params', st') ->
  alike params params' /\
  exists ops0 params0, create (unfrozen regex V F state c) = Ok ops0 /\
    apply_gradients V state add ops0 grads (params, st) = Ok (params0, st') /\
    forall p x, leaf_at params p x -> exists y z, leaf_at params' p y /\ leaf_at params0 p z /\
      (frozen_name regex search V F state c (join p) -> y = x) /\
      (~ frozen_name regex search V F state c (join p) -> y = z).
Proof. exact freeze_step. Qed.
Print Assumptions C32_others_as_without.

(** Giving both patterns is an error. *)
Theorem C32_both_error :
  forall regex (search : regex -> str -> bool) V F state (add : V -> V -> V) (scale : F -> V -> V) (zeros_like : V -> V)
    (zero one : F) (is_zero : F -> bool) (empty_state : state) (clip_by_global_norm clip : F -> op V state)
    (optimizer : optimizer_name -> op V state) c,
  frozen _ _ _ _ c <> [] -> trainable _ _ _ _ c <> [] -> (exists lr, scale_by_learning_rate _ _ _ _ c = Ok lr) ->
  create_optimizer regex search V F state add scale zeros_like zero one is_zero empty_state clip_by_global_norm clip optimizer c
    = Raise ValueError.
Proof. exact freeze_both. Qed.
Print Assumptions C32_both_error.

(** Otherwise, if what optax does keeps the keys without failing, training does not fail. *)
Theorem C32_no_error :
  forall regex (search : regex -> str -> bool) V F state (add : V -> V -> V) (scale : F -> V -> V) (zeros_like : V -> V)
    (zero one : F) (is_zero : F -> bool) (empty_state : state) (clip_by_global_norm clip : F -> op V state)
    (optimizer : optimizer_name -> op V state) params0 cs0,
  params0 = Node cs0 -> wf no_slash params0 -> nonempty params0 ->
  forall c, (forall x, keeps_keys params0 (clip_by_global_norm x)) -> (forall x, keeps_keys params0 (clip x)) ->
  (forall n, keeps_keys params0 (optimizer n)) ->
  (exists lr, scale_by_learning_rate _ _ _ _ c = Ok lr /\ keeps_keys params0 lr) -> name regex _ _ _ c <> OtherName ->
  truthy F is_zero (clip_norm _ _ _ _ c) = None \/ truthy F is_zero (clip_value _ _ _ _ c) = None ->
  frozen _ _ _ _ c = [] \/ trainable _ _ _ _ c = [] ->
  forall grads, Forall (alike params0) grads ->
  exists ops st r,
    create_optimizer regex search V F state add scale zeros_like zero one is_zero empty_state clip_by_global_norm clip optimizer c = Ok ops /\
    chain_init V state ops params0 = Ok st /\ train V state add ops grads (params0, st) = Ok r.
Proof. exact c32_total. Qed.
Print Assumptions C32_no_error.

(** An instance: numbers, patterns found anywhere, an optimizer that adds the previous update
    (its state, for which [None] is the empty state), and a learning rate of 1. *)
Definition ez_op (f : Z -> Z) : op Z (option (tree Z)) := Op _ _ (fun _ => Ok None) (fun u s _ => Ok (mapt (fun _ => f) [] u, s)).
Definition ez_momentum : op Z (option (tree Z)) :=
  Op _ _ (fun p => Ok (Some (mapt (fun _ _ => 0%Z) [] p)))
    (fun u s _ => match s with
                  | Some m => bind (tree_map2 Z.add u m) (fun r => Ok (r, Some r))
                  | None => Raise ValueError
                  end).
Definition ez_create :=
  create_optimizer str infixb Z Z (option (tree Z)) Z.add Z.mul (fun _ => 0%Z) 0%Z 1%Z (Z.eqb 0) None
    (fun _ => ez_op (fun x => x)) (fun a => ez_op (fun x => Z.max (- a) (Z.min a x))) (fun _ => ez_momentum).
Definition ez_config (frozen trainable : list str) : config str Z Z (option (tree Z)) :=
  Config _ _ _ _ [([97; 47], 3%Z)] None (Some 9%Z) Sgd (DRules _ _ [([98], 2%Z); ([97], 10%Z)]) (Ok (ez_op Z.opp)) frozen trainable.
Definition k_ (c : nat) : str := [c].
Definition ez_params : tree Z := Node [(k_ 97, Node [(k_ 98, Leaf 1%Z); (k_ 99, Leaf 2%Z)]); (k_ 100, Leaf 3%Z)].
Definition ez_grads : tree Z := Node [(k_ 97, Node [(k_ 98, Leaf 5%Z); (k_ 99, Leaf 1%Z)]); (k_ 100, Leaf 2%Z)].
Definition ez_train (c : config str Z Z (option (tree Z))) (n : nat) : res (tree Z) :=
  bind (ez_create c) (fun ops => bind (chain_init _ _ ops ez_params) (fun st =>
  bind (train _ _ Z.add ops (repeat ez_grads n) (ez_params, st)) (fun r => Ok (fst r)))).
Example C32_example :
  ez_train (ez_config [] []) 1 = Ok (Node [(k_ 97, Node [(k_ 98, Leaf (-10)%Z); (k_ 99, Leaf (-21)%Z)]); (k_ 100, Leaf 1%Z)]) /\
  ez_train (ez_config [[98]; [120]] []) 1 = Ok (Node [(k_ 97, Node [(k_ 98, Leaf 1%Z); (k_ 99, Leaf (-21)%Z)]); (k_ 100, Leaf 1%Z)]) /\
  ez_train (ez_config [] [[47; 98]]) 2 = Ok (Node [(k_ 97, Node [(k_ 98, Leaf (-8)%Z); (k_ 99, Leaf 2%Z)]); (k_ 100, Leaf 3%Z)]) /\
  ez_create (ez_config [[98]] [[99]]) = Raise ValueError /\
  wf no_slash ez_params /\ nonempty ez_params /\ (forall p u : Z, (p + (fun _ => 0) u = p)%Z).
Proof.
  repeat split; try reflexivity; try (intros; lia).
  - repeat constructor; simpl; try (intros [H|H]; [discriminate|destruct H]); try tauto; unfold no_slash, slash; simpl; intuition discriminate.
  - repeat constructor; discriminate.
Qed.

(** C33: decay of weights gives each parameter the decay of the first pair that matches its
    name, and none if none does -- if the updates and the parameters have their keys in the
    same order (which is always so in a jitted function).  Full statement, without the
    condition on the order: [C33_key_order_refuted]. *)
Theorem C33_weight_decay_partial :
  forall regex (search : regex -> str -> bool) V F state (add : V -> V -> V) (scale : F -> V -> V)
    (zero : F) (is_zero : F -> bool) (empty_state : state) d (updates params : tree V) (s : state) cs,
  updates = Node cs -> wf no_slash updates -> nonempty updates -> alike updates params ->
  exists r, o_update V state (add_decayed_weights regex search V F state add scale zero is_zero empty_state d)
              updates s (Some params) = Ok (r, s) /\ alike updates r /\
  forall p g x, leaf_at updates p g -> leaf_at params p x ->
    exists y, leaf_at r p y /\ decayed regex search V F add scale zero is_zero d (join p) g x y.
Proof. exact c33_decay. Qed.
Print Assumptions C33_weight_decay_partial.

(** With the same keys in another order, a parameter is decayed with the value of another. *)
Theorem C33_key_order_refuted :
  exists (updates params : tree Z) r, wf no_slash updates /\ wf no_slash params /\
    (exists q, tree_map2 Z.add updates params = Ok q) /\
    o_update Z unit (add_decayed_weights str infixb Z Z unit Z.add Z.mul 0%Z (Z.eqb 0) tt (DConst _ _ 1%Z))
      updates tt (Some params) = Ok (r, tt) /\
    exists p g x, leaf_at updates p g /\ leaf_at params p x /\ leaf_at r p (g + 1 * 7)%Z /\ x <> 7%Z.
Proof.
  exists (Node [(k_ 97, Leaf 0%Z); (k_ 98, Leaf 0%Z)]), (Node [(k_ 98, Leaf 7%Z); (k_ 97, Leaf 5%Z)]). eexists.
  assert (W : forall (k1 k2 : nat) (a b : Z), k1 <> k2 -> k1 <> slash -> k2 <> slash -> wf no_slash (Node [(k_ k1, Leaf a); (k_ k2, Leaf b)])).
  { intros k1 k2 a b A B C. constructor.
    - constructor; [|repeat constructor; auto]. simpl. unfold k_. intros [H|[]]. injection H. auto.
    - repeat constructor; unfold no_slash, k_; simpl; intuition congruence. }
  split; [apply W; discriminate|]. split; [apply W; discriminate|]. split; [eexists; reflexivity|]. split; [reflexivity|].
  exists [k_ 97], 0%Z, 5%Z. repeat split; try (econstructor; [|constructor]); simpl; auto. lia.
Qed.
Print Assumptions C33_key_order_refuted.

(** Scaling of gradients gives each the scale of the first pair that matches its name. *)
Theorem C33_gradient_scaling :
  forall regex (search : regex -> str -> bool) V F state (scale : F -> V -> V) (one : F) (empty_state : state)
    scales (updates : tree V) (s : state) params cs,
  updates = Node cs -> wf no_slash updates -> nonempty updates ->
  exists r, o_update V state (gradient_scaling regex search V F state scale one empty_state scales)
              updates s params = Ok (r, s) /\ alike updates r /\
  forall p g, leaf_at updates p g -> exists y, leaf_at r p y /\
    (scales = [] -> y = g) /\ (scales <> [] -> exists w, first_match regex search F scales one (join p) w /\ y = scale w g).
Proof. exact c33_scaling. Qed.
Print Assumptions C33_gradient_scaling.

Example C33_example :
  o_update Z unit (add_decayed_weights str infixb Z Z unit Z.add Z.mul 0%Z (Z.eqb 0) tt (DRules _ _ [([98], 2%Z); ([97], 10%Z)]))
    ez_grads tt (Some ez_params) = Ok (Node [(k_ 97, Node [(k_ 98, Leaf 7%Z); (k_ 99, Leaf 21%Z)]); (k_ 100, Leaf 2%Z)], tt) /\
  o_update Z unit (gradient_scaling str infixb Z Z unit Z.mul 1%Z tt [([98], 2%Z); ([97], 10%Z)])
    ez_grads tt None = Ok (Node [(k_ 97, Node [(k_ 98, Leaf 10%Z); (k_ 99, Leaf 10%Z)]); (k_ 100, Leaf 2%Z)], tt) /\
  (* a dict with an empty dict inside is an error *)
  o_update Z unit (gradient_scaling str infixb Z Z unit Z.mul 1%Z tt [([98], 2%Z)])
    (Node [(k_ 97, Leaf 5%Z); (k_ 98, Node [])]) tt None = Raise ValueError.
Proof. repeat split. Qed.
