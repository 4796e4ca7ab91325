(** The keys of the pseudo-random number generator of JAX (C64 and C65): which keys each call of the
    model gets, in training, evaluation, few-shot evaluation and attacks. *)
From Coq Require Import String QArith ZArith Bool List Arith.
From Verif Require Import Py.
Import ListNotations.
Local Open Scope list_scope.
Local Open Scope nat_scope.

(** A key is a seed and the numbers of the splits that lead to it, the last one first.
    Simplified: jax.random.split(key, n)[i] does not depend on n, and is jax.random.fold_in(key, i), as
    with jax_threefry_partitionable.  Keys that differ here also differ if n matters. *)
Record key := Key { k_seed : Z; k_path : list nat }.
Definition prng_key (seed : Z) : key := Key seed [].
Definition child (k : key) (i : nat) : key := Key (k_seed k) (i :: k_path k).
Definition split (k : key) (n : nat) : list key := map (child k) (seq 0 n).
Definition fold_in (k : key) (data : nat) : key := child k data.
(** rngs[i]; indices out of range are clamped. *)
Definition index (keys : list key) (i : nat) : key := nth (Nat.min i (length keys - 1)) keys (prng_key 0).

(** Dictionaries of keys *)
Definition dict := list (string * key).
Fixpoint get (d : dict) (n : string) : option key :=
  match d with [] => None | (m, k) :: d => if String.eqb m n then Some k else get d n end.
Fixpoint set (d : dict) (n : string) (k : key) : dict :=
  match d with [] => [(n, k)] | (m, l) :: d => if String.eqb m n then (m, k) :: d else (m, l) :: set d n k end.
Fixpoint remove (d : dict) (n : string) : dict :=
  match d with [] => [] | (m, l) :: d => if String.eqb m n then d else (m, l) :: remove d n end.
Definition dict_of (l : list (string * key)) : dict := fold_left (fun d nk => set d (fst nk) (snd nk)) l [].

(** ** vmoe/utils.py:43-47 [make_rngs] *)
Definition make_rngs (rng_keys : list string) (seed : Z) : dict :=
  match rng_keys with
  | [] => []
  | _ => dict_of (combine rng_keys (split (prng_key seed) (length rng_keys)))
  end.
(** ** 168-173 [tree_rngs_split] *)
Definition tree_rngs_split (rngs : dict) (num_splits : nat) : list dict :=
  let rngs := map (fun nk => (fst nk, split (snd nk) num_splits)) rngs in
  let slice_rngs := fun i => map (fun nk => (fst nk, index (snd nk) i)) rngs in
  map slice_rngs (seq 0 num_splits).

(** A call that gets keys: model.init, the model, or the sampling of the weights of mixup.  The
    functions below return the calls in order, and their result. *)
Inductive site := Init | Model | Mixup.
Record use := Use { u_site : site; u_rngs : dict }.
Definition tr (T : Type) := (list use * T)%type.

(** ** vmoe/train/trainer.py:659-667 [compute_grads_and_metrics]; evaluator.py:251-252 and
    fewshot.py:289-291 do the same. *)
Definition apply_and_split (rngs : dict) : tr dict :=
  match tree_rngs_split rngs 2 with
  | [rngs; next_rngs] => ([Use Model rngs], next_rngs)
  | _ => ([], rngs)
  end.
(** [n] calls of [f] *)
Fixpoint iterate (n : nat) (f : dict -> tr dict) (rngs : dict) : tr dict :=
  match n with
  | 0 => ([], rngs)
  | S n => let '(a, rngs) := f rngs in let '(b, rngs) := iterate n f rngs in (a ++ b, rngs)
  end.
(** ** 76-131 [accumulate_gradients_and_metrics] *)
Definition accumulate (microsteps : option Z) (f : dict -> tr dict) (rngs : dict) : tr dict :=
  match microsteps with
  | None => f rngs
  | Some m =>
      if (m =? 0)%Z || (m <? 0)%Z then f rngs
      else let '(a, rngs) := f rngs in
           let '(b, rngs) := iterate (Z.to_nat m - 1) f rngs in (a ++ b, rngs)
  end.
(** ** 648-674 [train_step] *)
Definition train_step (microsteps : option Z) (rngs : dict) : res (tr dict) := Ok (accumulate microsteps apply_and_split rngs).

(** ** vmoe/projects/adversarial_attacks/attacks.py:132-174 [stateless_attack_pgd].  Without updates, delta is
    an error (a division by zero), which is not part of this model. *)
Definition stateless_attack_pgd (num_updates : nat) (rngs : dict) : tr dict :=
  let rngs := map (fun nk => (fst nk, split (snd nk) (num_updates + 1))) rngs in
  let at_ := fun i => map (fun nk => (fst nk, index (snd nk) i)) rngs in
  let last := map (fun nk => (fst nk, index (snd nk) (length (snd nk) - 1))) rngs in
  (map (fun i => Use Model (at_ i)) (seq 0 num_updates), last).
(** ** trainer.py:841-886 [wrap_train_step_with_adversarial_attack] *)
Definition wrap_adversarial (max_epsilon : Q) (num_updates : Z) (step : dict -> res (tr dict)) (rngs : dict) : res (tr dict) :=
  if (num_updates <=? 0)%Z || Qle_bool max_epsilon 0 then step rngs
  else
    let '(a, rngs) := stateless_attack_pgd (Z.to_nat num_updates) rngs in
    bind (step rngs) (fun r => let '(b, rngs) := r in Ok (a ++ b, rngs)).
(** ** 889-968 [wrap_train_step_with_mixup].  The other errors of mixup are in [MixModel]. *)
Definition mixup_name : string := "mixup"%string.
Definition wrap_mixup (concentration : option Q) (step : dict -> res (tr dict)) (rngs : dict) : res (tr dict) :=
  match concentration with
  | None => step rngs
  | Some c =>
      if Qeq_bool c 0 then step rngs
      else
        match get rngs mixup_name with
        | None => Raise ValueError
        | Some mixup_rng =>
            let rngs := remove rngs mixup_name in
            match split mixup_rng 2 with
            | [mixup_rng; next_mixup_rng] =>
                bind (step rngs) (fun r => let '(b, rngs) := r in
                Ok (Use Mixup [(mixup_name, mixup_rng)] :: b, set rngs mixup_name next_mixup_rng))
            | _ => Raise ValueError
            end
        end
  end.
(** ** 735-750: the training step, with the options of the configuration *)
Record config := { c_microsteps : option Z; c_adversarial : option (Q * Z); c_mixup : option (option Q) }.
Definition configured_step (c : config) : dict -> res (tr dict) :=
  let step := train_step (c_microsteps c) in
  let step := match c_adversarial c with Some (eps, n) => wrap_adversarial eps n step | None => step end in
  match c_mixup c with Some conc => wrap_mixup conc step | None => step end.
(** ** 357-366: [initialize]; parameters are not part of this model. *)
Definition params_name : string := "params"%string.
Definition initialize (extra_rng_keys : list string) (seed : Z) : tr dict :=
  let rngs := make_rngs (params_name :: extra_rng_keys) seed in
  ([Use Init rngs], remove rngs params_name).
(** ** 820-830: [n] steps of the loop *)
Fixpoint train_loop (c : config) (n : nat) (rngs : dict) : res (tr dict) :=
  match n with
  | 0 => Ok ([], rngs)
  | S n => bind (configured_step c rngs) (fun r => let '(a, rngs) := r in
           bind (train_loop c n rngs) (fun r => let '(b, rngs) := r in Ok (a ++ b, rngs)))
  end.
(** A training without interruption.  After a restart, the keys are those of the checkpoint. *)
Definition train (c : config) (extra_rng_keys : list string) (seed : Z) (n : nat) : res (tr dict) :=
  let '(a, rngs) := initialize extra_rng_keys seed in
  bind (train_loop c n rngs) (fun r => let '(b, rngs) := r in Ok (a ++ b, rngs)).

(** ** vmoe/evaluate/evaluator.py:161-167 and 226-258: the calls for a dataset with [n] batches *)
Definition evaluate_dataset (rng_keys : list string) (seed : Z) (n : nat) : list use :=
  fst (iterate n apply_and_split (make_rngs rng_keys seed)).
(** 192-217 [callback_fn]: all datasets, with their numbers of batches *)
Definition evaluate (rng_keys : list string) (seed : Z) (datasets : list (string * nat)) : list (string * list use) :=
  map (fun nd => (fst nd, evaluate_dataset rng_keys seed (snd nd))) datasets.

(** ** vmoe/evaluate/fewshot.py:154-164 [make_fewshot_state_pjit] *)
Definition make_fewshot_state (rng_keys : list string) (seed_fold_in_step : bool) (seed : Z) (sub_seed step : nat) : dict :=
  match rng_keys with
  | [] => []
  | _ =>
      let rng := fold_in (prng_key seed) sub_seed in
      let rng := if seed_fold_in_step then fold_in rng step else rng in
      dict_of (combine rng_keys (split rng (length rng_keys)))
  end.
(** 166-197 and 238-241: for one dataset with [n] and [m] batches, first the training examples and then
    the test examples *)
Definition fewshot_dataset (rng_keys : list string) (fold_in_step : bool) (seed : Z) (sub_seed step n m : nat) : list use :=
  let '(a, rngs) := iterate n apply_and_split (make_fewshot_state rng_keys fold_in_step seed sub_seed step) in
  a ++ fst (iterate m apply_and_split rngs).

(** ** attacks.py:107-131 [stateful_attack]: the updates, the images before the attack and after it *)
Record attack := { a_updates : list dict; a_before : dict; a_after : dict }.
Definition stateful_attack (num_updates : nat) (rngs : dict) : attack * dict :=
  let '(updates, new_rngs) := stateless_attack_pgd num_updates rngs in
  ({| a_updates := map u_rngs updates; a_before := rngs; a_after := new_rngs |}, new_rngs).
(** ** lib.py:141-200: [n] batches *)
Fixpoint attack_loop (num_updates n : nat) (rngs : dict) : list attack :=
  match n with
  | 0 => []
  | S n => let '(a, rngs) := stateful_attack num_updates rngs in a :: attack_loop num_updates n rngs
  end.
Definition run_pgd_attack (rng_keys : list string) (seed : Z) (num_updates n : nat) : list attack :=
  attack_loop num_updates n (make_rngs rng_keys seed).
