(** Vocabulary for C64 and C65. *)
From Coq Require Import String QArith ZArith Bool List Arith Permutation.
From Verif Require Import RngModel Py.
Import ListNotations.
Local Open Scope list_scope.
Local Open Scope nat_scope.

(** [k'] can be made from [k] by splits and folds (by zero or more). *)
Definition derived (k k' : key) : Prop := k_seed k' = k_seed k /\ exists p, k_path k' = p ++ k_path k.
(** No key can be made from both: whatever the calls that get these keys draw, they draw it from
    different keys. *)
Definition separate (k k' : key) : Prop := forall x, ~ (derived k x /\ derived k' x).
(** Keys at different places of the list are separate. *)
Definition all_separate (l : list key) : Prop :=
  forall i j k k', i < j -> nth_error l i = Some k -> nth_error l j = Some k' -> separate k k'.
(** All keys that calls get, in order *)
Definition keys_of (d : dict) : list key := map snd d.
Definition keys_used (l : list use) : list key := flat_map (fun u => keys_of (u_rngs u)) l.
Definition attack_keys (a : attack) : list key := flat_map keys_of (a_updates a) ++ keys_of (a_before a) ++ keys_of (a_after a).

(** Mixup is on, and the number of updates of adversarial training *)
Definition mixup_on (c : config) : Prop := exists q, c_mixup c = Some (Some q) /\ ~ (q == 0)%Q.
Definition updates_of (c : config) (u : nat) : Prop :=
  match c_adversarial c with
  | None => u = 0
  | Some (eps, n) => ((n <= 0)%Z \/ (eps <= 0)%Q) /\ u = 0 \/ (0 < n)%Z /\ ~ (eps <= 0)%Q /\ Z.of_nat u = n
  end.
Definition microsteps_of (c : config) (m : nat) : Prop :=
  match c_microsteps c with
  | None => m = 1
  | Some n => (n <= 0)%Z /\ m = 1 \/ (0 < n)%Z /\ Z.of_nat m = n
  end.
(** The calls of one step: the weights of mixup if it is on, then the model, for the [u] updates of the
    images and for the gradients of the [m] parts of the batch, with the names [nms] *)
Definition step_calls (mix : bool) (u m : nat) (nms : list string) (a : list use) : Prop :=
  length a = (if mix then 1 else 0) + u + m /\
  forall i x, nth_error a i = Some x ->
    if mix && (i =? 0) then u_site x = Mixup /\ map fst (u_rngs x) = [mixup_name]
    else u_site x = Model /\ Permutation (map fst (u_rngs x)) nms.
