(** The contrastive project: text tower, evaluation functions and training steps with microsteps
    (vmoe/projects/contrastive; C71, C72 and C73).  The two towers and the loss are in [AuxModel],
    the encoder in [VitModel], the accumulation over microsteps in [StepModel]. *)
From Coq Require Import String List Arith ZArith Bool Reals.
From Verif Require Import Prim MoeModel SoftModel TreeModel AuxModel StepModel VitModel Py.
Import ListNotations.
Local Open Scope list_scope.
Local Open Scope nat_scope.

(** ** contrastive/models.py:32-108 [TextTransformer], in inference mode.  A text is a list of
    token numbers; all texts of a batch have the same length, at least one. *)
Inductive pool_type := PoolLast | PoolFirst | PoolGap | PoolGmp | PoolMap | PoolOther.
(** [tp_embed]: the rows of nn.Embed (68-70); [tp_map]: MapHead; [tp_head]: the last dense layer *)
Record text_params := { tp_embed : nat -> V; tp_encoder : encoder_params; tp_map : list V -> V; tp_head : V -> V }.
(** x.max(axis=1), for one sequence *)
Definition max_tokens (s : list V) : V :=
  match s with [] => vzero Ralg | x :: s => fun d => fold_left (fun m v => Rmax m (v d)) s (x d) end.
(** 94-108 [apply_pooling] *)
Definition apply_pooling (pool : pool_type) (p : text_params) (x : batch) : res (list V) :=
  match pool with
  | PoolLast => Ok (map (fun s => nth (length s - 1) s (vzero Ralg)) x)
  | PoolFirst => Ok (map (fun s => nth 0 s (vzero Ralg)) x)
  | PoolGap => Ok (map mean_tokens x)
  | PoolGmp => Ok (map max_tokens x)
  | PoolMap => Ok (map (tp_map p) x)
  | PoolOther => Raise NotImplementedError
  end.
(** 62-92.  [pe] is the entry position_emb of the options of the encoder: missing, None or a dictionary. *)
Definition text_transformer (D : nat) (c : encoder_config) (pe : option (option position_emb)) (pool : pool_type) (num_classes : option nat)
    (p : text_params) (texts : list (list nat)) : res (list V) :=
  let x := map (map (tp_embed p)) texts in
  bind (match pe with
        | None => Ok None
        | Some None => Raise AttributeError
        | Some (Some e) => match pe_name e with Some PosSincos2d => Raise ValueError | _ => Ok (Some e) end
        end) (fun pe =>
  bind (encoder_moe D c pe (tp_encoder p) x) (fun x =>
  bind (apply_pooling pool p x) (fun x =>
  Ok (match num_classes with Some (S _) => map (tp_head p) x | _ => x end)))).

(** ** The model with both towers *)
(** The outputs of a tower for a batch, by example and coordinate; the metrics of the towers are
    left out here (they are in [AuxModel]). *)
Definition rows_of (zs : list V) (i d : nat) : R := nth i zs (vzero Ralg) d.
Definition tower {A} (f : A -> res (list V)) (x : A) : res ((nat -> nat -> R) * metrics_t) :=
  bind (f x) (fun zs => Ok (rows_of zs, [])).
(** models.py:137-186 with the default towers *)
Definition both I (Di Dt D : nat) (ci ct : encoder_config) (pei pet : option (option position_emb)) (cls : classifier) (pool : pool_type) (nci nct : option nat)
    (pi : vit_params I) (pt : text_params) (h w : nat) (s : R) (b : option R) : option (list I) -> option (list (list nat)) -> res ((nat -> nat -> R) * metrics_t) :=
  two_tower (list I) (list (list nat)) (tower (vit_moe Di ci pei cls nci pi h w)) (tower (text_transformer Dt ct pet pool nct pt)) D s b.

(** ** contrastive/trainer.py:124-130 and 183-189 [apply_fn] of the retrieval and zero-shot
    evaluations: the entries 'image' and 'labels' of the dictionary, None for missing ones or None *)
Section Apply.
Variables I T : Type.
Variable model : option I -> option T -> res ((nat -> nat -> R) * metrics_t).
Definition is_none {A} (x : option A) : bool := match x with None => true | Some _ => false end.
Definition apply_fn (image : option I) (labels : option T) : res (option (nat -> nat -> R) * option (nat -> nat -> R)) :=
  if Bool.eqb (is_none image) (is_none labels) then Raise ValueError
  else bind (model image labels) (fun r =>
       let z := fst r in
       Ok (if is_none image then (None, Some z) else (Some z, None))).
(** trainer.py:86: few-shot evaluation only embeds images *)
Definition fewshot_apply_fn (x : I) : res (nat -> nat -> R) := bind (model (Some x) None) (fun r => Ok (fst r)).
End Apply.

(** ** contrastive/trainer.py:226-251: the gradients and metrics of a training step.  The towers embed
    examples one by one: [img] and [txt] give the embeddings for parameters; [s] and [b] are the scale
    and bias among the parameters.  [grad xs ys p] is what jax.grad computes for the total loss of a
    batch; [split] makes the next generators.  Of the metrics, the main and total loss are modelled. *)
Section Train.
Variables X Y params_t rngs_t : Type.
Variable D : nat.
Variable img : params_t -> X -> V.
Variable txt : params_t -> Y -> V.
Variable s : params_t -> R.
Variable b : params_t -> option R.
Variable grad : list X -> list Y -> params_t -> list R.
Variable split : rngs_t -> rngs_t.
Definition scalar_metric (m : list (TreeModel.str * tree EvalModel.fl)) (k : TreeModel.str) : res R :=
  match dget m k with Some (Leaf (Some x)) => Ok x | Some _ => Raise ValueError | None => Raise KeyError end.
Definition compute_grads_and_metrics : fn_t X Y params_t rngs_t := fun p images texts rngs =>
  bind (contrastive_objective (tower (fun xs => Ok (map (img p) xs))) (tower (fun ys => Ok (map (txt p) ys)))
          D (length images) (length texts) (s p) (b p) images texts) (fun r =>
  bind (scalar_metric (snd r) k_main) (fun main =>
  bind (scalar_metric (snd r) k_total) (fun total =>
  Ok (grad images texts p, (split rngs, [main; total]))))).
Definition contrastive_step (device_count : nat) (microsteps : option Z) : fn_t X Y params_t rngs_t :=
  accumulate_gradients_and_metrics X Y params_t rngs_t device_count compute_grads_and_metrics microsteps.
End Train.

(** ** Reports of the evaluations *)
Section Reports.
(** Values of metrics *)
Variable val : Type.
(** The value of a duration *)
Variable secs : R -> val.
(** Readings of the clock: [clock k] is the result of the k-th call of time.time() *)
Variable clock : nat -> R.
Definition slash := chars "/".
Definition given (kwargs : list (TreeModel.str * option val)) : list (TreeModel.str * val) :=
  flat_map (fun kv => match snd kv with Some v => [(fst kv, v)] | None => [] end) kwargs.
(** contrastive/evaluators.py:89-99 [callback_fn] of the zero-shot evaluation: what it writes.  [evaluate]
    gives the accuracy of a task. *)
Definition zeroshot_callback (name : TreeModel.str) (datasets : list TreeModel.str) (evaluate : TreeModel.str -> res val)
    (kwargs : list (TreeModel.str * option val)) : res (list (TreeModel.str * val)) :=
  let t0 := clock 0 in
  bind (rfold (fun (st : nat * list (TreeModel.str * val)) task =>
          let '(calls, metrics) := st in
          bind (evaluate task) (fun acc =>
          let t1 := clock calls in
          let metrics := dset metrics (name ++ slash ++ task ++ chars "/accuracy") acc in
          let metrics := dset metrics (name ++ slash ++ task ++ chars "/duration_secs") (secs (t1 - t0)%R) in
          Ok (S calls, metrics))) datasets (1, [])) (fun st =>
  Ok (dupdate (snd st) (given kwargs))).
(** 159-175 [callback_fn] of the retrieval evaluation; [evaluate] gives the metrics of both directions. *)
Definition retrieval_callback (name task : TreeModel.str) (evaluate : res (list (TreeModel.str * val) * list (TreeModel.str * val)))
    (kwargs : list (TreeModel.str * option val)) : res (list (TreeModel.str * val)) :=
  let t0 := clock 0 in
  bind evaluate (fun bv =>
  let named dir := map (fun kv : TreeModel.str * val => (name ++ slash ++ task ++ dir ++ fst kv, snd kv)) in
  let metrics := dupdate [] (named (chars "/txt2img/") (fst bv)) in
  let metrics := dupdate metrics (named (chars "/img2txt/") (snd bv)) in
  let t1 := clock 1 in
  let metrics := dset metrics (name ++ slash ++ task ++ chars "/duration_secs") (secs (t1 - t0)%R) in
  Ok (dupdate metrics (given kwargs))).

(** The hooks: [installed] if Big Vision can be imported, [has_mesh] if the sharding has a mesh of
    devices.  Evaluators that are built cannot fail here. *)
Definition new_action (installed has_mesh : bool) : res unit :=
  if negb installed then Raise NotImplementedError else if negb has_mesh then Raise ValueError else Ok tt.
(** contrastive/trainer.py:132-157: the tasks that the hook evaluates at a step, in order *)
Definition create_retrieval_hook (installed has_mesh : bool) (datasets : option (list TreeModel.str)) : res (list TreeModel.str) :=
  let datasets := match datasets with Some l => l | None => [] end in
  match rmap (fun task => bind (new_action installed has_mesh) (fun _ => Ok task)) datasets with
  | Ok hooks => Ok hooks
  | Raise NotImplementedError => Ok []
  | Raise e => Raise e
  end.
(** 191-211 *)
Definition create_zeroshot_hook (installed has_mesh : bool) (datasets : option (list TreeModel.str)) : res (list TreeModel.str) :=
  let datasets := match datasets with Some l => l | None => [] end in
  match datasets with
  | [] => Ok []
  | _ => match bind (new_action installed has_mesh) (fun _ => Ok datasets) with
         | Ok hooks => Ok hooks
         | Raise NotImplementedError => Ok []
         | Raise e => Raise e
         end
  end.
End Reports.
