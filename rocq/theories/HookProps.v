(** C82: when a training run evaluates, reports and saves, and what. *)
From Coq Require Import Reals ZArith String List Arith Bool Sorted Lia Lra.
From Verif Require Import HookModel HookSpec HookProofs3 Py.
Import ListNotations.
Local Open Scope list_scope.
Local Open Scope nat_scope.

Notation step_of := (fun x => fst (fst x)).

(** A run evaluates once at each step that it executes and at which it is due, or late by the
    clock, and at no other, with the parameters after the update of that very step; then it ends
    with the state after all its steps. *)
Theorem C82_evaluations : forall (batch T P M : Type) (params : T -> P) (train_step : T -> batch -> T * M) skips cost train_steps has
    proc pi progress evaluate fewshot init ts batches,
  options_ok pi (me proc) progress evaluate fewshot ->
  let n := executed init train_steps (length batches) in
  exists l, run params train_step skips proc cost train_steps has pi progress evaluate fewshot init ts batches
            = (l, Ok (state_after train_step ts batches n)) /\
    increasing (map step_of (evaluations l)) /\
    (forall s p c, In (s, p, c) (evaluations l) <->
      init < s <= init + n /\
      (due evaluate (init + 1) train_steps s \/ late evaluate (eval_clock proc) (map step_of (evaluations l)) s) /\
      p = params (state_after train_step ts batches (s - init)) /\ c = cost s).
Proof. intros. apply run_evaluations. assumption. Qed.
Print Assumptions C82_evaluations.

(** The same for few-shot evaluations, if they have options; without options there is none. *)
Theorem C82_fewshots : forall (batch T P M : Type) (params : T -> P) (train_step : T -> batch -> T * M) skips cost train_steps has
    proc pi progress evaluate o init ts batches,
  options_ok pi (me proc) progress evaluate (Some o) ->
  let n := executed init train_steps (length batches) in
  exists l, run params train_step skips proc cost train_steps has pi progress evaluate (Some o) init ts batches
            = (l, Ok (state_after train_step ts batches n)) /\
    increasing (map step_of (fewshots l)) /\
    (forall s p c, In (s, p, c) (fewshots l) <->
      init < s <= init + n /\
      (due o (init + 1) train_steps s \/ late o (fewshot_clock proc) (map step_of (fewshots l)) s) /\
      p = params (state_after train_step ts batches (s - init)) /\ c = cost s).
Proof. intros. apply run_fewshots. assumption. Qed.
Print Assumptions C82_fewshots.

Theorem C82_no_fewshots : forall (batch T P M : Type) (params : T -> P) (train_step : T -> batch -> T * M) skips cost train_steps has
    proc pi progress evaluate init ts batches l r,
  run params train_step skips proc cost train_steps has pi progress evaluate None init ts batches = (l, r) -> fewshots l = [].
Proof. intros until r. apply run_no_fewshots. Qed.
Print Assumptions C82_no_fewshots.

(** Progress is reported by the chosen process only, with the metrics of the step; not at the
    first step, if the library leaves that one out. *)
Theorem C82_reports : forall (batch T P M : Type) (params : T -> P) (train_step : T -> batch -> T * M) skips cost train_steps has
    proc pi progress evaluate fewshot init ts batches,
  options_ok pi (me proc) progress evaluate fewshot ->
  let n := executed init train_steps (length batches) in
  exists l, run params train_step skips proc cost train_steps has pi progress evaluate fewshot init ts batches
            = (l, Ok (state_after train_step ts batches n)) /\
    increasing (map step_of (reports l)) /\
    (forall s m c, In (s, m, c) (reports l) <->
      (pi = None \/ pi = Some (me proc)) /\ init < s <= init + n /\ (skips = true -> s <> init + 1) /\
      (due progress (init + 1) train_steps s \/
       late progress (progress_clock proc) (init + 1 :: map step_of (reports l)) s) /\
      c = cost s /\
      exists b, nth_error batches (s - (init + 1)) = Some b /\
                m = snd (train_step (state_after train_step ts batches (s - (init + 1))) b)).
Proof. intros. apply run_reports. assumption. Qed.
Print Assumptions C82_reports.

(** A checkpoint is asked for at each step, with the state after it; and is forced at step 0 and
    at the end if they are missing. *)
Theorem C82_saves : forall (batch T P M : Type) (params : T -> P) (train_step : T -> batch -> T * M) skips cost train_steps has
    proc pi progress evaluate fewshot init ts batches,
  options_ok pi (me proc) progress evaluate fewshot ->
  let n := executed init train_steps (length batches) in
  exists l, run params train_step skips proc cost train_steps has pi progress evaluate fewshot init ts batches
            = (l, Ok (state_after train_step ts batches n)) /\
    saves l = (if (init =? 0) && negb (has 0) then [(0, ts, true)] else []) ++
              map (fun s => (s, state_after train_step ts batches (s - init), false)) (seq (S init) n) ++
              (if has train_steps then [] else [(train_steps, state_after train_step ts batches n, true)]).
Proof. intros. apply run_saves. assumption. Qed.
Print Assumptions C82_saves.

(** With enough batches the first and the final state are evaluated, and the final one is the
    state that is saved at the end. *)
Theorem C82_last : forall (batch T P M : Type) (params : T -> P) (train_step : T -> batch -> T * M) skips cost train_steps has
    proc pi progress evaluate fewshot init ts batches,
  options_ok pi (me proc) progress evaluate fewshot -> init < train_steps -> train_steps - init <= length batches ->
  let final := state_after train_step ts batches (train_steps - init) in
  exists l, run params train_step skips proc cost train_steps has pi progress evaluate fewshot init ts batches = (l, Ok final) /\
    In (init + 1, params (state_after train_step ts batches 1), cost (init + 1)) (evaluations l) /\
    In (train_steps, params final, cost train_steps) (evaluations l) /\
    (fewshot <> None -> In (train_steps, params final, cost train_steps) (fewshots l)) /\
    In (train_steps, final, false) (saves l) /\
    (has train_steps = false -> In (train_steps, final, true) (saves l)).
Proof. intros. apply run_last; assumption. Qed.
Print Assumptions C82_last.

(** Processes with different clocks, and reporting differently, evaluate and save alike, unless
    evaluations go by seconds: then they may not. *)
Theorem C82_agree : forall (batch T P M : Type) (params : T -> P) (train_step : T -> batch -> T * M) skips cost train_steps has
    proc proc' pi pi' progress progress' evaluate fewshot init ts batches,
  options_ok pi (me proc) progress evaluate fewshot -> options_ok pi' (me proc') progress' evaluate fewshot ->
  o_every_secs evaluate = None -> (forall o, fewshot = Some o -> o_every_secs o = None) ->
  exists l l' t, run params train_step skips proc cost train_steps has pi progress evaluate fewshot init ts batches = (l, Ok t) /\
    run params train_step skips proc' cost train_steps has pi' progress' evaluate fewshot init ts batches = (l', Ok t) /\
    evaluations l = evaluations l' /\ fewshots l = fewshots l' /\ saves l = saves l'.
Proof. intros. apply run_agree; assumption. Qed.
Print Assumptions C82_agree.

(** A training of six steps for the examples: the state is the sum of its batches. *)
Definition ex_step (t b : nat) : nat * nat := (t + b, b).
Definition ex_run (clock : nat -> Z) (evaluate : options) :=
  run (fun t : nat => t) ex_step true (Process 0 (fun s => Z.of_nat s) clock (fun s => Z.of_nat s)) (fun _ => []) 6
      (fun _ => false) (Some 0) (Options (Some 2) None None) evaluate (Some (Options None None (Some [5]))) 0 0 [1; 1; 2; 3; 5; 8; 13].

Theorem C82_clocks_refuted : exists clock clock' evaluate,
  (forall s, (clock s <= clock' s <= clock s + 1)%Z) /\ nonzero evaluate /\
  exists l l', ex_run clock evaluate = (l, Ok 20) /\ ex_run clock' evaluate = (l', Ok 20) /\
    map step_of (evaluations l) = [1; 4; 6] /\ map step_of (evaluations l') = [1; 3; 6].
Proof.
  exists (fun s => (10 * Z.of_nat s)%Z), (fun s => (10 * Z.of_nat s + (if (s =? 1)%nat then 0 else 1))%Z), (Options None (Some 20%Z) None).
  split; [intros s; destruct (s =? 1)%nat; lia|]. split; [discriminate|].
  eexists. eexists. split; [vm_compute; reflexivity|]. split; [vm_compute; reflexivity|]. split; reflexivity.
Qed.
Print Assumptions C82_clocks_refuted.

Example ex_run_events : exists l, ex_run (fun s => Z.of_nat s) (Options (Some 4) None (Some [3])) = (l, Ok 20) /\
  evaluations l = [(1, 1, []); (3, 4, []); (4, 7, []); (6, 20, [])] /\
  fewshots l = [(1, 1, []); (5, 12, []); (6, 20, [])] /\
  reports l = [(2, 1, []); (4, 3, []); (6, 8, [])] /\
  saves l = [(0, 0, true); (1, 1, false); (2, 2, false); (3, 4, false); (4, 7, false); (5, 12, false); (6, 20, false); (6, 20, true)].
Proof. eexists. split; [vm_compute; reflexivity|]. repeat split. Qed.
Example ex_options_ok : options_ok (Some 0) 0 (Options (Some 2) None None) (Options (Some 4) None (Some [3])) (Some (Options None None (Some [5]))).
Proof.
  repeat split; try discriminate. intros o E. injection E as <-. discriminate.
Qed.

(** every_steps = 0 stops the training at its first step. *)
Theorem C82_zero : forall (batch T P M : Type) (params : T -> P) (train_step : T -> batch -> T * M) skips cost train_steps has
    proc pi progress evaluate fewshot init ts b batches,
  ((pi = None \/ pi = Some (me proc)) -> nonzero progress) -> o_every_steps evaluate = Some 0 -> init < train_steps ->
  exists l, run params train_step skips proc cost train_steps has pi progress evaluate fewshot init ts (b :: batches)
            = (l, Raise ZeroDivisionError) /\ evaluations l = [].
Proof. intros. apply run_zero; assumption. Qed.
Print Assumptions C82_zero.
Example ex_zero : exists l, ex_run (fun s => Z.of_nat s) (Options (Some 0) None (Some [3])) = (l, Raise ZeroDivisionError).
Proof. eexists. vm_compute. reflexivity. Qed.

(** The reported cost is that of all steps so far, on all devices; a cost that is missing or not
    positive is left out. *)
Theorem C82_cost : forall devices c step name v,
  In (name, v) (make_train_cost_fn devices c step) <->
  (name = "flops"%string /\ exists f, ca_flops c = Some f /\ (0 < f)%R /\ v = total_cost ca_flops [(step, devices, c)]) \/
  (name = "device_seconds"%string /\ exists f, ca_seconds c = Some f /\ (0 < f)%R /\ v = total_cost ca_seconds [(step, devices, c)]).
Proof. exact cost_fn. Qed.
Print Assumptions C82_cost.
Example ex_cost : In ("flops"%string, 24%R) (make_train_cost_fn 4 (CostAnalysis (Some 2%R) (Some (-1)%R)) 3).
Proof. apply cost_fn. left. split; auto. exists 2%R. repeat split; auto; [lra|]. cbn [total_cost fold_right ca_flops INR]. lra. Qed.

(** It is not the cost of the training if earlier steps ran on another number of devices. *)
Theorem C82_cost_resumed_refuted : exists history devices c v,
  steps_of history = 3 /\ In (2, devices, c) history /\
  (forall n d c', In (n, d, c') history -> ca_flops c' = ca_flops c) /\
  In ("flops"%string, v) (make_train_cost_fn devices c 3) /\ v <> total_cost ca_flops history.
Proof. exact cost_resumed. Qed.
Print Assumptions C82_cost_resumed_refuted.
