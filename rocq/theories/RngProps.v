(** C64 and C65: the keys that the calls of the model get. *)
From Coq Require Import String QArith ZArith Bool List Arith Lia Permutation.
From Verif Require Import RngModel RngSpec RngProofs.
From Verif Require Import Py PyLemmas.
Import ListNotations.
Local Open Scope list_scope.
Local Open Scope nat_scope.

(** Two parts per batch, three updates of the images, and mixup *)
Definition ex_config : config :=
  {| c_microsteps := Some 2%Z; c_adversarial := Some (1 # 10, 3%Z)%Q; c_mixup := Some (Some (1 # 2)%Q) |}.
Definition ex_names : list string := ["dropout"; "gating"; "mixup"]%string.
Lemma ex_train n : exists a d, train ex_config ex_names 7 n = Ok (a, d).
Proof. assert (E := train_errors ex_config ex_names 7 n). destruct (train ex_config ex_names 7 n) as [[a d]|e]; [eauto|]. exfalso. apply E. cbn. auto. Qed.

(** C64: after model.init, all keys that calls of the model or of mixup get in training, and the keys kept in
    the state, are separate: no two of them are equal or made from one another.  The keys of model.init are
    not equal to any of them. *)
Theorem C64_train : forall c extra seed n a d,
  train c extra seed n = Ok (a, d) ->
  exists init steps, a = Use Init init :: steps /\ Forall (fun u => u_site u <> Init) steps /\
    all_separate (keys_used steps ++ keys_of d) /\ NoDup (keys_used a).
Proof. exact train_separate. Qed.
Print Assumptions C64_train.
Example C64_train_example : exists a d, train ex_config ex_names 7 2 = Ok (a, d) /\ length (keys_used a) = 26.
Proof. do 2 eexists. split; [vm_compute; reflexivity|]. reflexivity. Qed.

(** C64: model.init gets a key for params and for each of the extra names; the state always has a key for each extra
    name, and the calls get for a name only keys made from the first key of this name. *)
Theorem C64_names : forall c extra seed n a d,
  train c extra seed n = Ok (a, d) ->
  exists init steps, a = Use Init init :: steps /\
    (forall x, In x (map fst init) <-> x = params_name \/ In x extra) /\
    (forall x, In x (map fst d) <-> In x extra /\ x <> params_name) /\ NoDup (map fst d) /\
    (forall u x k, In u steps -> In (x, k) (u_rngs u) -> exists k0, In (x, k0) init /\ derived k0 k /\ x <> params_name) /\
    (forall x k, In (x, k) d -> exists k0, In (x, k0) init /\ derived k0 k).
Proof. exact train_names. Qed.
Print Assumptions C64_names.
Example C64_names_example : exists a d k, train ex_config ex_names 7 2 = Ok (a, d) /\ In ("gating"%string, k) d /\ k <> prng_key 7.
Proof. do 3 eexists. split; [vm_compute; reflexivity|]. split; [cbn; auto|discriminate]. Qed.

(** C64: each step makes a call for the weights of mixup (if it is on) with the key mixup only, and then the calls of the model
    for the updates of adversarial training and for the parts of the batch, with keys for all other names. *)
Theorem C64_calls : forall c u m extra seed n a d,
  updates_of c u -> microsteps_of c m -> train c extra seed n = Ok (a, d) ->
  exists init steps nms mix, a = Use Init init :: concat steps /\ length steps = n /\ NoDup nms /\ (mix = true <-> mixup_on c) /\
    (forall x, In x nms <-> In x extra /\ x <> params_name /\ (mix = true -> x <> mixup_name)) /\
    Forall (step_calls mix u m nms) steps.
Proof. exact train_calls. Qed.
Print Assumptions C64_calls.
Example C64_calls_example : updates_of ex_config 3 /\ microsteps_of ex_config 2 /\ mixup_on ex_config /\ exists a d, train ex_config ex_names 7 2 = Ok (a, d) /\ length a = 13.
Proof.
  split; [right; split; [lia|]; split; [unfold Qle; cbn; lia|reflexivity]|]. split; [right; split; [lia|reflexivity]|]. split; [exists (1 # 2)%Q; split; [reflexivity|unfold Qeq; cbn; lia]|].
  do 2 eexists. split; [vm_compute; reflexivity|]. reflexivity.
Qed.

(** C64: training has no errors, except that mixup without a key of this name is a ValueError in the first step. *)
Theorem C64_errors : forall c extra seed n,
  match train c extra seed n with
  | Ok _ => n = 0 \/ ~ mixup_on c \/ In mixup_name extra
  | Raise e => e = ValueError /\ 0 < n /\ mixup_on c /\ ~ In mixup_name extra
  end.
Proof. exact train_errors. Qed.
Print Assumptions C64_errors.
Example C64_errors_example : train ex_config ["dropout"%string] 7 1 = Raise ValueError.
Proof. reflexivity. Qed.

(** C64: a training continued with the keys of a checkpoint makes the same calls as one without interruption. *)
Theorem C64_resume : forall c n m d,
  train_loop c (n + m) d = bind (train_loop c n d) (fun r => let '(a, d) := r in bind (train_loop c m d) (fun r => let '(b, d) := r in Ok (a ++ b, d))).
Proof. exact train_resume. Qed.
Print Assumptions C64_resume.
Example C64_resume_example : exists a d b d', train_loop ex_config 1 (make_rngs ex_names 7) = Ok (a, d) /\ train_loop ex_config 2 d = Ok (b, d') /\ a <> [] /\ b <> [] /\
  train_loop ex_config (1 + 2) (make_rngs ex_names 7) = Ok (a ++ b, d').
Proof. do 4 eexists. split; [vm_compute; reflexivity|]. split; [vm_compute; reflexivity|]. split; [discriminate|]. split; [discriminate|]. vm_compute. reflexivity. Qed.

(** C64: in an evaluation of a dataset, all calls get separate keys. *)
Theorem C64_evaluate : forall rng_keys seed n,
  all_separate (keys_used (evaluate_dataset rng_keys seed n)).
Proof. exact evaluate_separate. Qed.
Print Assumptions C64_evaluate.
Example C64_evaluate_example : length (keys_used (evaluate_dataset ["dropout"; "gating"]%string 0 5)) = 10.
Proof. reflexivity. Qed.

(** C64: there is a call for each batch, with a key for each name. *)
Theorem C64_evaluate_names : forall rng_keys seed n,
  length (evaluate_dataset rng_keys seed n) = n /\
  Forall (fun u => u_site u = Model /\ NoDup (map fst (u_rngs u)) /\ forall x, In x (map fst (u_rngs u)) <-> In x rng_keys) (evaluate_dataset rng_keys seed n).
Proof. exact evaluate_names. Qed.
Print Assumptions C64_evaluate_names.
Example C64_evaluate_names_example : map (fun u => map fst (u_rngs u)) (evaluate_dataset ["dropout"; "gating"]%string 0 2) = [["dropout"; "gating"]; ["dropout"; "gating"]]%string.
Proof. reflexivity. Qed.

(** C64: the batches of all datasets get the same keys in the same order, whatever else is evaluated. *)
Theorem C64_evaluate_same : forall rng_keys seed datasets a b n m,
  In (a, n) datasets -> In (b, m) datasets -> n <= m ->
  exists x y, In (a, x) (evaluate rng_keys seed datasets) /\ In (b, y) (evaluate rng_keys seed datasets) /\ x = firstn n y.
Proof. exact evaluate_same. Qed.
Print Assumptions C64_evaluate_same.
Example C64_evaluate_same_example : In ("test"%string, 3) [("val", 2); ("test", 3)]%string /\ 2 <= 3 /\ evaluate_dataset ["dropout"%string] 0 2 <> [].
Proof. split; [cbn; auto|]. split; [lia|discriminate]. Qed.

(** C64: in a few-shot evaluation of a dataset, all calls for training and test examples get separate keys. *)
Theorem C64_fewshot : forall rng_keys f seed sub step n m,
  all_separate (keys_used (fewshot_dataset rng_keys f seed sub step n m)).
Proof. exact fewshot_separate. Qed.
Print Assumptions C64_fewshot.
Example C64_fewshot_example : length (keys_used (fewshot_dataset ["dropout"; "gating"]%string true 0 3 100 2 4)) = 12.
Proof. reflexivity. Qed.

(** C64: datasets with different sub-seeds, and evaluations at different steps if the step is folded in, get separate keys. *)
Theorem C64_fewshot_runs : forall rng_keys f seed sub step n m sub' step' n' m' k k',
  sub <> sub' \/ f = true /\ step <> step' ->
  In k (keys_used (fewshot_dataset rng_keys f seed sub step n m)) -> In k' (keys_used (fewshot_dataset rng_keys f seed sub' step' n' m')) -> separate k k'.
Proof. exact fewshot_runs. Qed.
Print Assumptions C64_fewshot_runs.
Example C64_fewshot_runs_example : exists k k', In k (keys_used (fewshot_dataset ["dropout"%string] true 0 1 100 1 1)) /\ In k' (keys_used (fewshot_dataset ["dropout"%string] true 0 1 200 1 1)).
Proof. do 2 eexists. split; cbn; left; reflexivity. Qed.

(** C64: otherwise evaluations at all steps use the same keys. *)
Theorem C64_fewshot_same : forall rng_keys seed sub step step' n m,
  fewshot_dataset rng_keys false seed sub step n m = fewshot_dataset rng_keys false seed sub step' n m.
Proof. exact fewshot_same. Qed.
Print Assumptions C64_fewshot_same.
Example C64_fewshot_same_example : exists k, In k (keys_used (fewshot_dataset ["dropout"%string] false 0 1 100 1 1)).
Proof. eexists. cbn. left. reflexivity. Qed.

(** C65 is false: the calls of an attack run do not all get different keys. *)
Theorem C65_reuse_refuted : exists rng_keys seed u n, ~ NoDup (flat_map attack_keys (run_pgd_attack rng_keys seed u n)).
Proof. exact attack_reuse_refuted. Qed.
Print Assumptions C65_reuse_refuted.

(** C65: the evaluation of the images before the attack of a batch uses the keys of the evaluation after the attack of
    the batch before, for all runs. *)
Theorem C65_reuse : forall rng_keys seed u n i a b,
  nth_error (run_pgd_attack rng_keys seed u n) i = Some a -> nth_error (run_pgd_attack rng_keys seed u n) (S i) = Some b -> a_before b = a_after a.
Proof. exact attack_reuse. Qed.
Print Assumptions C65_reuse.
Example C65_reuse_example : exists a b, nth_error (run_pgd_attack ["dropout"%string] 0 2 3) 1 = Some a /\ nth_error (run_pgd_attack ["dropout"%string] 0 2 3) 2 = Some b /\ a_before b <> [].
Proof. do 2 eexists. split; [reflexivity|]. split; [reflexivity|discriminate]. Qed.

(** C65: and these keys are also those that are split for the updates of the batch. *)
Theorem C65_parent : forall rng_keys seed u n a k,
  0 < u -> In a (run_pgd_attack rng_keys seed u n) -> In k (keys_of (a_before a)) -> exists k', In k' (flat_map keys_of (a_updates a)) /\ ~ separate k k'.
Proof. exact attack_parent. Qed.
Print Assumptions C65_parent.
Example C65_parent_example : exists a k, In a (run_pgd_attack ["dropout"%string] 0 2 3) /\ In k (keys_of (a_before a)).
Proof. eexists. exists (child (prng_key 0) 0). split; [cbn; left; reflexivity|cbn; auto]. Qed.

(** C65, the part that holds: in each batch all calls get different keys, *)
Theorem C65_batch_partial : forall rng_keys seed u n a,
  In a (run_pgd_attack rng_keys seed u n) -> NoDup (attack_keys a) /\ length (a_updates a) = u.
Proof. exact attack_batch. Qed.
Print Assumptions C65_batch_partial.
Example C65_batch_partial_example : exists a, In a (run_pgd_attack ["dropout"; "gating"]%string 0 2 3) /\ length (attack_keys a) = 8.
Proof. eexists. split; [cbn; left; reflexivity|reflexivity]. Qed.

(** C65: and the updates of all batches together get separate keys. *)
Theorem C65_updates_partial : forall rng_keys seed u n,
  all_separate (flat_map (fun a => flat_map keys_of (a_updates a)) (run_pgd_attack rng_keys seed u n)).
Proof. exact attack_updates. Qed.
Print Assumptions C65_updates_partial.
Example C65_updates_partial_example : length (flat_map (fun a => flat_map keys_of (a_updates a)) (run_pgd_attack ["dropout"%string] 0 2 3)) = 6.
Proof. reflexivity. Qed.

