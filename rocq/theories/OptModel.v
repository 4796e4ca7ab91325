(** Model of the parts of vmoe/train/optimizer.py that depend on parameter names, and of how
    they are chained and applied (C32, C33). *)
From Coq Require Import List Arith Bool.
From Verif Require Import Py TreeModel.
Import ListNotations.

(** flax.traverse_util.flatten_dict(sep='/') without keep_empty_nodes, the inner [_flatten] *)
Fixpoint flat_ {L} (prefix : list str) (t : tree L) : list (str * L) :=
  match t with
  | Leaf x => [(join prefix, x)]
  | Node cs => fold_left dupdate (map (fun kc => flat_ (prefix ++ [fst kc]) (snd kc)) cs) []
  end.
Definition flat {L} (t : tree L) : res (list (str * L)) :=
  match t with Leaf _ => Raise AssertionError | Node _ => Ok (flat_ [] t) end.
(** from_state_dict(target, unflatten_dict(xs, sep='/')) *)
Definition rebuild {L M} (target : tree L) (xs : list (str * M)) : res (tree M) :=
  bind (unflatten_dict (map (fun kv => (fst kv, FLeaf (snd kv))) xs)) (from_state_dict target).

(** jax.tree_util.tree_map of a binary function: both trees must have the same keys.  JAX
    sorts the keys of the result; here they are in the order of the first tree. *)
Fixpoint tree_map2 {A B C} (f : A -> B -> C) (a : tree A) (b : tree B) : res (tree C) :=
  match a, b with
  | Leaf x, Leaf y => Ok (Leaf (f x y))
  | Node cs, Node ds =>
      if length cs =? length ds then
        bind (rmap (fun kc => match dget ds (fst kc) with
                              | None => Raise ValueError
                              | Some d => bind (tree_map2 f (snd kc) d) (fun r => Ok (fst kc, r))
                              end) cs) (fun rs => Ok (Node rs))
      else Raise ValueError
  | _, _ => Raise ValueError
  end.

Section Optimizer.
(** Compiled regular expressions; the arrays and the factors that scale them; the state of a
    gradient transformation. *)
Variable regex : Type.
Variable search : regex -> str -> bool.
Variable V F state : Type.
Variable add : V -> V -> V.
Variable scale : F -> V -> V.
Variable zeros_like : V -> V.
Variable zero one : F.
Variable is_zero : F -> bool.
Variable empty_state : state.

(** optax.GradientTransformation; the parameters given to [update] are optional. *)
Record op := Op {
  o_init : tree V -> res state;
  o_update : tree V -> state -> option (tree V) -> res (tree V * state) }.

(** optax.identity() *)
Definition identity : op := Op (fun _ => Ok empty_state) (fun u s _ => Ok (u, s)).

(** The value of the first pair whose regex is found in the key: optimizer.py:60-63 and 216-219 *)
Fixpoint first_value (rules : list (regex * F)) (key : str) (default : F) : F :=
  match rules with
  | [] => default
  | (r, v) :: rest => if search r key then v else first_value rest key default
  end.

(** A weight decay: absent, a number or pairs *)
Inductive decay := DNone | DConst (w : F) | DRules (l : list (regex * F)).

(** safe_map of a function of a key and two values; it raises SafeZipIteratorError, a
    RuntimeError, if the lengths differ (utils.py:126-165). *)
Fixpoint safe_map3 {A B C D} (f : A -> B -> C -> D) (xs : list A) (ys : list B) (zs : list C) : res (list D) :=
  match xs, ys, zs with
  | [], [], [] => Ok []
  | x :: xs, y :: ys, z :: zs => bind (safe_map3 f xs ys zs) (fun r => Ok (f x y z :: r))
  | _, _, _ => Raise RuntimeError
  end.

(** optimizer.py:71-87, with the function that gives the decay of a key.  The updates and the
    parameters are paired by their position in the flattened dicts. *)
Definition decay_update (wd : str -> F) : op :=
  Op (fun _ => Ok empty_state) (fun updates s params =>
    match params with
    | None => Raise ValueError
    | Some params =>
        bind (flat updates) (fun fu =>
        bind (flat params) (fun fp =>
        bind (safe_map3 (fun k g p => (k, add g (scale (wd k) p))) (map fst fu) (map snd fu) (map snd fp)) (fun fu' =>
        bind (rebuild updates fu') (fun updates' => Ok (updates', s)))))
    end).
(** optimizer.py:32-87 [add_decayed_weights] *)
Definition add_decayed_weights (d : decay) : op :=
  match d with
  | DNone => identity
  | DConst w => if is_zero w then identity else decay_update (fun _ => w)
  | DRules [] => identity
  | DRules l => decay_update (fun k => first_value l k zero)
  end.

(** optimizer.py:194-235 [gradient_scaling]; absent scales are an empty list. *)
Definition gradient_scaling (scales : list (regex * F)) : op :=
  match scales with
  | [] => identity
  | _ => Op (fun _ => Ok empty_state) (fun updates s _ =>
           bind (flat updates) (fun fu =>
           bind (rebuild updates (map (fun kg => (fst kg, scale (first_value scales (fst kg) one) (snd kg))) fu)) (fun updates' =>
           Ok (updates', s))))
  end.

(** optimizer.py:165-173 [frozen_fn] *)
Definition frozen_fn (patterns : list regex) (search_true search_false : bool) (params : tree V) : res (tree bool) :=
  bind (flat params) (fun fp =>
  rebuild params (map (fun kv => (fst kv, if existsb (fun r => search r (fst kv)) patterns then search_true else search_false)) fp)).

(** optax.masked(optax.set_to_zero(), mask) *)
Definition masked_zero (mask : tree V -> res (tree bool)) : op :=
  Op (fun params => bind (mask params) (fun _ => Ok empty_state))
     (fun updates s _ =>
        bind (mask updates) (fun m =>
        bind (tree_map2 (fun (b : bool) u => if b then zeros_like u else u) m updates) (fun updates' => Ok (updates', s)))).

(** optimizer.py:142-175 [freeze_weights]; a pattern is absent ([]), or one or several regexes,
    of which any may be found. *)
Definition freeze_weights (frozen_pattern trainable_pattern : list regex) : res op :=
  match frozen_pattern, trainable_pattern with
  | [], [] => Ok identity
  | [], _ => Ok (masked_zero (frozen_fn trainable_pattern false true))
  | _, [] => Ok (masked_zero (frozen_fn frozen_pattern true false))
  | _, _ => Raise ValueError
  end.

(** The transformations that are optax's own: clipping, and the optimizers (here with their
    arguments). *)
Variable clip_by_global_norm clip : F -> op.
Inductive optimizer_name := Adam | Adafactor | Sgd | OtherName.
Variable optimizer : optimizer_name -> op.

Definition truthy (o : option F) : option F :=
  match o with Some x => if is_zero x then None else Some x | None => None end.
(** optimizer.py:178-191 [gradient_clipping] *)
Definition gradient_clipping (global_norm absolute_value : option F) : res op :=
  match truthy global_norm, truthy absolute_value with
  | Some _, Some _ => Raise ValueError
  | Some g, None => Ok (clip_by_global_norm g)
  | None, Some a => Ok (clip a)
  | None, None => Ok identity
  end.

(** optimizer.py:90-139 [create_optimizer]; [scale_by_learning_rate] is the transformation made
    from the learning rate schedule, which may fail to be created. *)
Record config := Config {
  gradient_scale : list (regex * F);
  clip_norm : option F;
  clip_value : option F;
  name : optimizer_name;
  weight_decay : decay;
  scale_by_learning_rate : res op;
  frozen : list regex;
  trainable : list regex }.
Definition create_optimizer (c : config) : res (list op) :=
  bind (gradient_clipping (clip_norm c) (clip_value c)) (fun clipping =>
  match name c with
  | OtherName => Raise ValueError
  | n =>
      bind (scale_by_learning_rate c) (fun lr =>
      bind (freeze_weights (frozen c) (trainable c)) (fun freeze =>
      Ok [gradient_scaling (gradient_scale c); clipping; optimizer n; add_decayed_weights (weight_decay c); lr; freeze]))
  end).

(** optax.chain *)
Definition chain_init (ops : list op) (params : tree V) : res (list state) := rmap (fun o => o_init o params) ops.
Fixpoint chain_update (ops : list op) (updates : tree V) (states : list state) (params : option (tree V))
  : res (tree V * list state) :=
  match ops, states with
  | [], [] => Ok (updates, [])
  | o :: ops, s :: states =>
      bind (o_update o updates s params) (fun us =>
      bind (chain_update ops (fst us) states params) (fun us' => Ok (fst us', snd us :: snd us')))
  | _, _ => Raise ValueError
  end.

(** vmoe/train/train_state.py:29-44: an update of the parameters with gradients *)
Definition apply_gradients (ops : list op) (grads : tree V) (ps : tree V * list state) : res (tree V * list state) :=
  bind (chain_update ops grads (snd ps) (Some (fst ps))) (fun us =>
  bind (tree_map2 add (fst ps) (fst us)) (fun params => Ok (params, snd us))).
(** Training: any gradients at each step *)
Definition train (ops : list op) (grads : list (tree V)) (ps : tree V * list state) : res (tree V * list state) :=
  rfold (fun ps g => apply_gradients ops g ps) grads ps.
End Optimizer.
