(** Construction of models and losses for training, contrastive towers and attacks (vmoe/train/trainer.py:233-241,
    441-477 and 659-667, vmoe/projects/contrastive/models.py:119-135, vmoe/projects/adversarial_attacks/restore.py:55-64,
    97-138 and attacks.py:158-162; C95). *)
From Coq Require Import String List Arith Bool Reals.
From Verif Require Import PpModel RtrModel MeshModel.
From Verif Require Import Py NdArray.
Import ListNotations.
Local Open Scope string_scope.
Local Open Scope list_scope.
Local Open Scope nat_scope.

Section Build.
(** Values of options and classes; parse_call (C49, C57) of the name of a model *)
Variables (V Cls : Type).
Variable parse_call : V -> res (Cls * list V * kwargs V).
(** ConfigDict.update where both have the key: dictionaries are merged, a change of type is an error, any other
    value is replaced.  Not looked into. *)
Variable override : V -> V -> res V.

(** A model configuration: a ConfigDict or a dict, with string keys *)
Record config := { is_config_dict : bool; items : list (string * V) }.
Definition as_kwargs (l : list (string * V)) : kwargs V := map (fun x => (Some (fst x), snd x)) l.
(** config.pop('name') *)
Definition without_name (l : list (string * V)) : list (string * V) := filter (fun x => negb (String.eqb (fst x) "name")) l.

(** trainer.py:233-241: the call of the class, and the configuration of the caller afterwards *)
Definition create_flax_model (c : config) (deterministic : V) : res (call V Cls) * config :=
  match kget (as_kwargs (items c)) "name" with
  | None => (Raise KeyError, c)
  | Some model_cls =>
      let popped := without_name (items c) in
      let after := if is_config_dict c then c else {| is_config_dict := false; items := popped |} in
      (bind (parse_call model_cls) (fun p =>
       let '(model_cls, args, kw) := p in
       bind (call_kwargs [] kw) (fun kw =>
       bind (call_kwargs kw (as_kwargs popped)) (fun kw =>
       bind (call_kwargs kw [(Some "deterministic", deterministic)]) (fun kw =>
       Ok {| c_cls := model_cls; c_args := args; c_kwargs := kw |})))), after)
  end.

(** kwargs.update(model_config) of ConfigDicts *)
Definition config_update (d : kwargs V) (l : list (string * V)) : res (kwargs V) :=
  rfold (fun d x => match kget d (fst x) with
                    | None => Ok (kset d (fst x) (snd x))
                    | Some old => bind (override old (snd x)) (fun v => Ok (kset d (fst x) v))
                    end) l d.
(** restore.py:130-136, up to the call of the class.  ConfigDict(kwargs) needs string keys. *)
Definition restore_module (l : list (string * V)) (true_ : V) : res (call V Cls) :=
  match kget (as_kwargs l) "name" with
  | None => Raise AttributeError
  | Some name =>
      bind (parse_call name) (fun p =>
      let '(model_class, args, kw) := p in
      bind (call_kwargs [] kw) (fun kw =>
      bind (config_update kw l) (fun kw =>
      bind (call_kwargs kw [(Some "deterministic", true_)]) (fun kw =>
      Ok {| c_cls := model_class; c_args := args; c_kwargs := kw |}))))
  end.

(** contrastive/models.py:119-135 and the call with a name in lines 148 and 155.  functools.partial lets later
    keywords replace those given before. *)
Definition tower (default : V) (l : list (string * V)) (deterministic name : V) : res (call V Cls) :=
  let model_cls := match kget (as_kwargs l) "name" with Some v => v | None => default end in
  bind (parse_call model_cls) (fun p =>
  let '(model_cls, args, kw) := p in
  let kw := kunion kw (as_kwargs (without_name l)) in
  bind (call_kwargs [] kw) (fun kw =>
  bind (call_kwargs kw [(Some "deterministic", deterministic)]) (fun kw =>
  Ok {| c_cls := model_cls; c_args := args; c_kwargs := kset kw "name" name |}))).
End Build.

(** Losses per example, by name and further options *)
Inductive loss := SoftmaxXent | SigmoidXent | EnsembleSoftmaxTrain | EnsembleSigmoidTrain.
(** trainer.py:449-475: the training loss *)
Definition train_loss (name : string) : res loss :=
  if String.eqb name "softmax_xent" then Ok SoftmaxXent else
  if String.eqb name "sigmoid_xent" then Ok SigmoidXent else
  if String.eqb name "ensemble_softmax_xent" then Ok EnsembleSoftmaxTrain else
  if String.eqb name "ensemble_sigmoid_xent" then Ok EnsembleSigmoidTrain else Raise ValueError.
(** restore.py:97-109 *)
Definition attack_loss (name : string) : res loss :=
  if String.eqb name "softmax_xent" then Ok SoftmaxXent else
  if String.eqb name "sigmoid_xent" then Ok SigmoidXent else Raise ValueError.

(** jnp.mean over the reals; the mean of no numbers is not looked into. *)
Definition mean (l : list R) : R := (fold_right Rplus 0 l / INR (length l))%R.
Section Objective.
(** The loss of each example, from logits and labels; the metrics of the model have auxiliary losses or not. *)
Variables (Logits Labels : Type) (loss_fn : Logits -> Labels -> list R).
(** trainer.py:661-666: total_loss *)
Definition total_loss (logits : Logits) (labels : Labels) (auxiliary : option (list R)) : R :=
  let main_loss := mean (loss_fn logits labels) in
  (main_loss + match auxiliary with Some a => mean a | None => 0 end)%R.
(** restore.py:117-121 [fn] *)
Definition attack_fn (attack_auxiliary_loss : bool) (logits : Logits) (labels : Labels) (auxiliary : option (list R)) : res (list R) :=
  let l := loss_fn logits labels in
  if attack_auxiliary_loss then
    match auxiliary with None => Raise KeyError | Some a => Ok (map (fun x => (x + mean a)%R) l) end
  else Ok l.
(** attacks.py:158-162: what an attack increases *)
Definition attack_objective (b : bool) (logits : Logits) (labels : Labels) (auxiliary : option (list R)) : res R :=
  bind (attack_fn b logits labels auxiliary) (fun l => Ok (mean l)).
End Objective.

(** restore.py:55-64; jax.devices() *)
Definition create_mesh (devices local_devices : list device) (num_expert_partitions : nat) : res (nda (option device)) :=
  let n := if length devices <? num_expert_partitions then length devices else num_expert_partitions in
  get_auto_logical_mesh devices local_devices n devices.
