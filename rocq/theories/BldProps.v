(** C95: models and losses that are trained, evaluated and attacked. *)
From Coq Require Import String List Arith Bool Reals Lra.
From Verif Require Import PpModel RtrModel MeshModel BldModel BldSpec BldProofs BldProofs2.
From Verif Require Import Py NdArray.
Import ListNotations.
Local Open Scope string_scope.
Local Open Scope list_scope.
Local Open Scope nat_scope.

(** The trained and evaluated model: the options of the configuration without its name, those of the call string and
    deterministic, each once. *)
Theorem C95_trained : forall (V Cls : Type) (parse_call : V -> res (Cls * list V * kwargs V)) (c : config V) (det : V) (r : call V Cls),
  gives_dictionaries parse_call -> NoDup (map fst (items V c)) -> fst (create_flax_model V Cls parse_call c det) = Ok r ->
  exists name p, In ("name", name) (items V c) /\ parse_call name = Ok (c_cls V Cls r, c_args V Cls r, p)
  /\ passes r (fun k v => (k = "deterministic" /\ v = det) \/ (k <> "name" /\ In (k, v) (items V c)) \/ In (Some k, v) p).
Proof. intros V Cls p c det r G. exact (create_options p G c det r). Qed.
Print Assumptions C95_trained.

(** Exactly when the model can be made, and the errors otherwise.  An option in both the configuration and the call
    string is an error. *)
Theorem C95_trained_accepts : forall (V Cls : Type) (parse_call : V -> res (Cls * list V * kwargs V)) (c : config V) (det : V),
  NoDup (map fst (items V c)) ->
  (forall name r, In ("name", name) (items V c) ->
   (fst (create_flax_model V Cls parse_call c det) = Ok r <->
    exists p, parse_call name = Ok (c_cls V Cls r, c_args V Cls r, p) /\ ~ In None (map fst p)
    /\ (forall k, k <> "name" -> has (items V c) k -> ~ says p k) /\ ~ says p "deterministic" /\ ~ has (items V c) "deterministic"
    /\ c_kwargs V Cls r = p ++ as_kwargs V (without_name V (items V c)) ++ [(Some "deterministic", det)]))
  /\ forall e, fst (create_flax_model V Cls parse_call c det) = Raise e ->
     (~ has (items V c) "name" /\ e = KeyError)
     \/ exists name, In ("name", name) (items V c) /\ (parse_call name = Raise e \/ (exists x, parse_call name = Ok x) /\ e = TypeError).
Proof. intros V Cls p c det N. split; [intros name r; exact (create_ok p c det name r N)|intros e; exact (create_errors p c det e N)]. Qed.
Print Assumptions C95_trained_accepts.

(** A ConfigDict is left as it was, so all models of a run are made from the same options. *)
Theorem C95_again_partial : forall (V Cls : Type) (parse_call : V -> res (Cls * list V * kwargs V)) (c : config V) (det : V),
  is_config_dict V c = true -> snd (create_flax_model V Cls parse_call c det) = c.
Proof. intros V Cls p c det. exact (create_repeat p c det). Qed.
Print Assumptions C95_again_partial.

(** The model of an attack: where both the configuration and the call string have an option, it is overridden. *)
Theorem C95_attacked : forall (V Cls : Type) (parse_call : V -> res (Cls * list V * kwargs V)) (override : V -> V -> res V) (l : list (string * V)) (t : V) (r : call V Cls),
  gives_dictionaries parse_call -> NoDup (map fst l) -> restore_module V Cls parse_call override l t = Ok r ->
  exists name p, In ("name", name) l /\ parse_call name = Ok (c_cls V Cls r, c_args V Cls r, p)
  /\ passes r (fun k v => (k = "deterministic" /\ v = t) \/ (~ has l k /\ In (Some k, v) p) \/ (~ says p k /\ In (k, v) l)
                          \/ exists old w, In (Some k, old) p /\ In (k, w) l /\ override old w = Ok v).
Proof. intros V Cls p o l t r G. exact (restore_options p o G l t r). Qed.
Print Assumptions C95_attacked.
Theorem C95_attacked_accepts : forall (V Cls : Type) (parse_call : V -> res (Cls * list V * kwargs V)) (override : V -> V -> res V) (l : list (string * V)) (t : V),
  gives_dictionaries parse_call -> NoDup (map fst l) ->
  ((exists r, restore_module V Cls parse_call override l t = Ok r) <->
   exists name cls args p, In ("name", name) l /\ parse_call name = Ok (cls, args, p) /\ ~ In None (map fst p)
   /\ ~ says p "deterministic" /\ ~ has l "deterministic"
   /\ forall k w old, In (k, w) l -> In (Some k, old) p -> exists v, override old w = Ok v).
Proof. intros V Cls p o l t G. exact (restore_accepts p o G l t). Qed.
Print Assumptions C95_attacked_accepts.

(** The attacked model is the evaluated one: whatever can be evaluated can be attacked, as the same class with the same
    arguments; only the module is named after the call string. *)
Theorem C95_same_model : forall (V Cls : Type) (parse_call : V -> res (Cls * list V * kwargs V)) (override : V -> V -> res V) (c : config V) (t : V) (r : call V Cls),
  gives_dictionaries parse_call -> NoDup (map fst (items V c)) ->
  (forall name cls args p, In ("name", name) (items V c) -> parse_call name = Ok (cls, args, p) -> ~ says p "name") ->
  fst (create_flax_model V Cls parse_call c t) = Ok r ->
  exists a name, restore_module V Cls parse_call override (items V c) t = Ok a /\ same_but_name r a
  /\ In ("name", name) (items V c) /\ In (Some "name", name) (c_kwargs V Cls a).
Proof. intros V Cls p o c t r G. exact (same_model p o G c t r). Qed.
Print Assumptions C95_same_model.

(** Towers of the contrastive model: the configuration wins over the call string. *)
Theorem C95_towers : forall (V Cls : Type) (parse_call : V -> res (Cls * list V * kwargs V)) (default : V) (l : list (string * V)) (det name : V) (r : call V Cls),
  gives_dictionaries parse_call -> NoDup (map fst l) -> tower V Cls parse_call default l det name = Ok r ->
  exists cls p, (In ("name", cls) l \/ ~ has l "name" /\ cls = default) /\ parse_call cls = Ok (c_cls V Cls r, c_args V Cls r, p)
  /\ ~ says p "deterministic" /\ ~ has l "deterministic" /\ ~ In None (map fst p)
  /\ passes r (fun k v => (k = "name" /\ v = name) \/ (k = "deterministic" /\ v = det)
                          \/ (k <> "name" /\ In (k, v) l) \/ (k <> "name" /\ ~ has l k /\ In (Some k, v) p)).
Proof. intros V Cls p d l det name r G. exact (tower_ok p G d l det name r). Qed.
Print Assumptions C95_towers.
Theorem C95_towers_accepts : forall (V Cls : Type) (parse_call : V -> res (Cls * list V * kwargs V)) (default : V) (l : list (string * V)) (det name cls : V),
  gives_dictionaries parse_call -> NoDup (map fst l) -> In ("name", cls) l \/ ~ has l "name" /\ cls = default ->
  ((exists r, tower V Cls parse_call default l det name = Ok r) <->
   exists mc args p, parse_call cls = Ok (mc, args, p) /\ ~ says p "deterministic" /\ ~ has l "deterministic" /\ ~ In None (map fst p)).
Proof. intros V Cls p d l det name cls G. exact (tower_accepts p G d l det name cls). Qed.
Print Assumptions C95_towers_accepts.

(** Losses: an attack knows the two losses without ensembles, which are those of training, and nothing else. *)
Theorem C95_losses_partial : (forall name r, attack_loss name = Ok r -> train_loss name = Ok r)
  /\ (forall name r, attack_loss name = Ok r <-> (name = "softmax_xent" /\ r = SoftmaxXent) \/ (name = "sigmoid_xent" /\ r = SigmoidXent))
  /\ forall name e, attack_loss name = Raise e <-> e = ValueError /\ name <> "softmax_xent" /\ name <> "sigmoid_xent".
Proof. split; [exact loss_same|]. split; [exact loss_table|exact loss_error]. Qed.
Print Assumptions C95_losses_partial.

(** What an attack increases: with the auxiliary loss, the total loss of training; without, that of a model that has no
    auxiliary losses. *)
Theorem C95_objective_partial : forall (Logits Labels : Type) (loss_fn : Logits -> Labels -> list R) (x : Logits) (y : Labels),
  (forall a, loss_fn x y <> [] -> attack_objective Logits Labels loss_fn true x y (Some a) = Ok (total_loss Logits Labels loss_fn x y (Some a)))
  /\ forall aux, attack_objective Logits Labels loss_fn false x y aux = Ok (total_loss Logits Labels loss_fn x y None).
Proof. intros Lo La f x y. split; [intros a; exact (objective_with Lo La f x y a)|intros aux; exact (objective_without Lo La f x y aux)]. Qed.
Print Assumptions C95_objective_partial.

(** A model without auxiliary losses can be trained but not attacked with them. *)
Theorem C95_objective_refuted : exists (loss_fn : unit -> unit -> list R) v, total_loss unit unit loss_fn tt tt None = v /\ attack_objective unit unit loss_fn true tt tt None = Raise KeyError.
Proof. exists (fun _ _ => [1%R]). eexists. split; reflexivity. Qed.
Print Assumptions C95_objective_refuted.

(** Meshes: more partitions than devices mean as many as there are devices, as for training. *)
Theorem C95_mesh : forall devices local_devices n, create_mesh devices local_devices n = get_auto_logical_mesh devices local_devices n devices.
Proof. exact mesh_same. Qed.
Print Assumptions C95_mesh.

(** Values are numbers and strings; "M" is a call string without options, "N" one with num_layers=2. *)
Definition val := (nat + string)%type.
Definition parse_ex (v : val) : res (nat * list val * kwargs val) :=
  match v with inl 0 => Ok (7, [inl 5], []) | inl 1 => Ok (7, [], [(Some "num_layers", inl 2)]) | inl 2 => Ok (7, [], [(Some "deterministic", inl 2)]) | _ => Raise ValueError end.
Definition override_ex (old new : val) : res val := match old, new with inl _, inl _ | inr _, inr _ => Ok new | _, _ => Raise TypeError end.
Definition config_ex (b : bool) (l : list (string * val)) : config val := {| is_config_dict := b; items := l |}.
Definition create_ex := create_flax_model val nat parse_ex.
Definition restore_ex := restore_module val nat parse_ex override_ex.
Lemma parse_ex_ok : gives_dictionaries parse_ex.
Proof.
  intros n cls args p H. destruct n as [[|[|[|n]]]|]; try discriminate; injection H as <- <- <-; repeat constructor; cbn; intuition discriminate.
Qed.

(** A dict loses its name, so that no second model can be made from it. *)
Theorem C95_again_refuted : exists c r, is_config_dict val c = false /\ fst (create_ex c (inl 0)) = Ok r
  /\ fst (create_ex (snd (create_ex c (inl 0))) (inl 1)) = Raise KeyError
  /\ forall c', is_config_dict val c' = false -> forall d d', fst (create_ex (snd (create_ex c' d)) d') = Raise KeyError.
Proof.
  exists (config_ex false [("name", inl 0); ("num_classes", inl 10)]). eexists. split; [reflexivity|]. split; [reflexivity|]. split; [reflexivity|].
  intros c' H d d'. exact (create_twice parse_ex c' d d' H).
Qed.
Print Assumptions C95_again_refuted.

(** A configuration that is attacked but can not be evaluated: an option in both the configuration and the string.  The
    attacked model has the option of the configuration. *)
Theorem C95_same_model_refuted : exists l a, NoDup (map fst l) /\ restore_ex l (inl 1) = Ok a /\ fst (create_ex (config_ex true l) (inl 1)) = Raise TypeError
  /\ In (Some "num_layers", inl 4) (c_kwargs val nat a).
Proof.
  exists [("name", inl 1); ("num_layers", inl 4)]. eexists. split; [repeat constructor; cbn; intuition discriminate|]. split; [reflexivity|]. split; [reflexivity|]. cbn. auto.
Qed.
Print Assumptions C95_same_model_refuted.

(** Losses that are trained with but can not be attacked *)
Theorem C95_losses_refuted : exists name r, train_loss name = Ok r /\ attack_loss name = Raise ValueError.
Proof. exists "ensemble_softmax_xent", EnsembleSoftmaxTrain. split; reflexivity. Qed.
Print Assumptions C95_losses_refuted.

Example C95_trained_ex : fst (create_ex (config_ex true [("name", inl 1); ("num_classes", inl 10)]) (inl 1)) =
    Ok {| c_cls := 7; c_args := []; c_kwargs := [(Some "num_layers", inl 2); (Some "num_classes", inl 10); (Some "deterministic", inl 1)] |}
  /\ fst (create_ex (config_ex true [("num_classes", inl 10)]) (inl 1)) = Raise KeyError
  /\ fst (create_ex (config_ex true [("name", inl 2)]) (inl 1)) = Raise TypeError /\ fst (create_ex (config_ex true [("name", inl 0); ("deterministic", inl 1)]) (inl 1)) = Raise TypeError.
Proof. repeat split. Qed.
Example C95_attacked_ex : restore_ex [("name", inl 1); ("num_classes", inl 10); ("num_layers", inl 4)] (inl 1) =
    Ok {| c_cls := 7; c_args := []; c_kwargs := [(Some "num_layers", inl 4); (Some "name", inl 1); (Some "num_classes", inl 10); (Some "deterministic", inl 1)] |}
  /\ restore_ex [("num_classes", inl 10)] (inl 1) = Raise AttributeError /\ restore_ex [("name", inl 2)] (inl 1) = Raise TypeError /\ restore_ex [("name", inl 1); ("num_layers", inr "4")] (inl 1) = Raise TypeError.
Proof. repeat split. Qed.
Example C95_same_model_ex : exists r, NoDup (map fst [("name", inl 1 : val); ("num_classes", inl 10)]) /\ fst (create_ex (config_ex true [("name", inl 1); ("num_classes", inl 10)]) (inl 1)) = Ok r
  /\ forall name cls args p, In ("name", name) [("name", inl 1 : val); ("num_classes", inl 10)] -> parse_ex name = Ok (cls, args, p) -> ~ says p "name".
Proof.
  eexists. split; [repeat constructor; cbn; intuition discriminate|]. split; [reflexivity|]. intros name cls args p [H|[H|[]]] P; [|discriminate]. injection H as <-. injection P as <- <- <-. unfold says. cbn. intuition discriminate.
Qed.
Example C95_towers_ex : tower val nat parse_ex (inl 1) [("num_layers", inl 4); ("k", inl 3)] (inl 0) (inr "img") =
    Ok {| c_cls := 7; c_args := []; c_kwargs := [(Some "num_layers", inl 4); (Some "k", inl 3); (Some "deterministic", inl 0); (Some "name", inr "img")] |}
  /\ tower val nat parse_ex (inl 1) [("name", inl 2)] (inl 0) (inr "img") = Raise TypeError.
Proof. split; reflexivity. Qed.
Example C95_objective_ex : attack_objective unit unit (fun _ _ => [1; 3]%R) true tt tt (Some [1; 2]%R) = Ok (7 / 2)%R.
Proof. unfold attack_objective, attack_fn, mean. cbn. f_equal. lra. Qed.
