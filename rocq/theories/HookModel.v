(** What the training loop reports, evaluates and asks to save, and when
    (vmoe/train/trainer.py:170-230, 253-261, 539-553, 763-838, vmoe/train/periodic_actions.py:31-75,
    vmoe/evaluate/evaluator.py:61-128, vmoe/evaluate/fewshot.py:52-138, vmoe/utils.py:27-40; C82).
    The profiler (trainer.py:244-250) and the summaries about compilation (lines 800-818) are left out. *)
From Coq Require Import Reals ZArith String List Arith Bool.
From Verif Require Import Py.
Import ListNotations.
Local Open Scope list_scope.
Local Open Scope nat_scope.

(** The class PeriodicAction of the library clu, which is not in the repository: the steps and
    seconds at which it acts, the step and time of its last action (of its first call, before it
    acted) and the step of its last call.  Times are whole numbers of some small unit. *)
Record action := Action {
  every_steps : option nat;
  every_secs : option Z;
  on_steps : list nat;
  previous : option (nat * Z);
  last_step : nat }.

(** PeriodicAction._init_and_check: if it acts every some steps, it must be called at each step. *)
Definition init_and_check (a : action) (step : nat) (t : Z) : res action :=
  match previous a with
  | None => Ok (Action (every_steps a) (every_secs a) (on_steps a) (Some (step, t)) step)
  | Some p =>
      if match every_steps a with Some _ => negb (step =? S (last_step a)) | None => false end then Raise ValueError
      else Ok (Action (every_steps a) (every_secs a) (on_steps a) (Some p) step)
  end.

(** PeriodicAction._should_trigger *)
Definition should_trigger (a : action) (step : nat) (t : Z) : res bool :=
  bind (match every_steps a with
        | None => Ok false
        | Some 0 => Raise ZeroDivisionError
        | Some (S n) => Ok (step mod (S n) =? 0)
        end) (fun b =>
  if b then Ok true
  else if match every_secs a, previous a with
          | Some secs, Some (_, t0) => (secs <? t - t0)%Z
          | _, _ => false
          end then Ok true
  else Ok (existsb (Nat.eqb step) (on_steps a))).

(** PeriodicAction.__call__: whether it acts, and the action with its new state.  The method
    [_should_trigger] of a subclass is an argument. *)
Definition call (trigger : action -> nat -> Z -> res bool) (a : action) (step : nat) (t : Z) : res (bool * action) :=
  bind (init_and_check a step t) (fun a =>
  bind (trigger a step t) (fun b =>
  Ok (b, if b then Action (every_steps a) (every_secs a) (on_steps a) (Some (step, t)) (last_step a) else a))).

(** ReportProgress._should_trigger of clu: in the versions where [skips] is true nothing is
    reported at the step of the first call, since there is no duration yet. *)
Definition clu_trigger (skips : bool) (a : action) (step : nat) (t : Z) : res bool :=
  if skips && match previous a with Some (s, _) => step =? s | None => false end then Ok false
  else should_trigger a step t.

(** periodic_actions.py:56-60 [ReportProgress._should_trigger]; [me] is jax.process_index() *)
Definition report_trigger (skips : bool) (process_index : option nat) (me : nat) (a : action) (step : nat) (t : Z) : res bool :=
  if match process_index with Some i => negb (me =? i) | None => false end then Ok false
  else clu_trigger skips a step t.

(** The options of a hook: every_steps, every_secs and on_steps, if it is given *)
Record options := Options { o_every_steps : option nat; o_every_secs : option Z; o_on_steps : option (list nat) }.

(** trainer.py:185-187, 219-221 and 256-258: the first and the last step are added to on_steps.
    (The order of a set does not matter here.) *)
Definition create_action (first_step train_steps : nat) (o : options) : action :=
  Action (o_every_steps o) (o_every_secs o)
    (match o_on_steps o with Some l => l | None => [] end ++ [first_step; train_steps]) None 0.

(** trainer.py:201-230 [create_fewshot_hook]: without options (None) the hook does nothing. *)
Definition create_fewshot_hook (first_step train_steps : nat) (o : option options) : option action :=
  match o with
  | None => None
  | Some o => Some (create_action first_step train_steps o)
  end.

(** The cost analysis of a compiled function: what it has under 'flops' and 'optimal_seconds' *)
Record cost_analysis := CostAnalysis { ca_flops : option R; ca_seconds : option R }.

(** utils.py:27-40 [get_flops_and_seconds_per_device] *)
Definition positive (x : option R) : option R :=
  match x with
  | Some v => if Rle_dec v 0 then None else Some v
  | None => None
  end.
Definition get_flops_and_seconds_per_device (c : cost_analysis) : option R * option R :=
  (positive (ca_flops c), positive (ca_seconds c)).

(** trainer.py:539-553 [make_train_cost_fn]; [devices] is jax.device_count() *)
Definition make_train_cost_fn (devices : nat) (c : cost_analysis) (step : nat) : list (string * R) :=
  let '(flops_per_device, seconds_per_device) := get_flops_and_seconds_per_device c in
  match flops_per_device with Some f => [("flops"%string, (f * INR step * INR devices)%R)] | None => [] end ++
  match seconds_per_device with Some s => [("device_seconds"%string, (s * INR step * INR devices)%R)] | None => [] end.

Section Loop.
(** Batches, train states with their parameters, and the metrics of a train step *)
Variable batch T P M : Type.
Variable params : T -> P.
Variable train_step : T -> batch -> T * M.
Variable skips : bool.

(** What a run does, as far as others can see it: it asks for a checkpoint (with [force] or
    not), reports the progress, or evaluates *)
Inductive event :=
| Save (step : nat) (ts : T) (force : bool)
| Report (step : nat) (cost : list (string * R)) (metrics : M)
| Evaluate (step : nat) (p : P) (cost : list (string * R))
| FewShot (step : nat) (p : P) (cost : list (string * R)).

(** The events so far, and then a value or an exception *)
Definition traced (A : Type) := (list event * res A)%type.
Definition tbind {A B} (x : traced A) (f : A -> traced B) : traced B :=
  match x with
  | (l, Ok a) => let '(l', b) := f a in (l ++ l', b)
  | (l, Raise e) => (l, Raise e)
  end.
Definition emit (l : list event) : traced unit := (l, Ok tt).
Definition lift {A} (x : res A) : traced A := ([], x).

(** A process: jax.process_index() and the time at which each hook is called at each step *)
Record process := Process { me : nat; progress_clock : nat -> Z; eval_clock : nat -> Z; fewshot_clock : nat -> Z }.
Record hooks := Hooks { progress_index : option nat; progress_hook : action; evaluation_hook : action; fewshot_hook : option action }.

Variable proc : process.
Variable train_cost_fn : nat -> list (string * R).
Variable train_steps : nat.

(** trainer.py:830-831: the call of the few-shot hook *)
Definition call_fewshot (step : nat) (few : option action) (ts : T) : traced (option action) :=
  match few with
  | None => ([], Ok None)
  | Some few =>
      tbind (lift (call should_trigger few step (fewshot_clock proc step))) (fun '(acts, few) =>
      tbind (emit (if acts then [FewShot step (params ts) (train_cost_fn step)] else [])) (fun _ =>
      ([], Ok (Some few))))
  end.

(** trainer.py:820-831: the body of the loop *)
Definition body (step : nat) (h : hooks) (ts : T) (b : batch) : traced (hooks * T) :=
  let '(ts, metrics) := train_step ts b in
  tbind (lift (call (report_trigger skips (progress_index h) (me proc)) (progress_hook h) step (progress_clock proc step))) (fun '(acts, progress) =>
  tbind (emit (if acts then [Report step (train_cost_fn step) metrics] else [])) (fun _ =>
  tbind (emit [Save step ts false]) (fun _ =>
  tbind (lift (call should_trigger (evaluation_hook h) step (eval_clock proc step))) (fun '(acts, evaluation) =>
  tbind (emit (if acts then [Evaluate step (params ts) (train_cost_fn step)] else [])) (fun _ =>
  tbind (call_fewshot step (fewshot_hook h) ts) (fun few =>
  ([], Ok (Hooks (progress_index h) progress evaluation few, ts)))))))).

(** trainer.py:820: zip(range(init_step + 1, train_steps + 1), tr_iter); the list of batches is
    what the iterator would give *)
Fixpoint loop (step : nat) (h : hooks) (ts : T) (batches : list batch) : traced T :=
  match batches with
  | [] => ([], Ok ts)
  | b :: batches =>
      if train_steps <? step then ([], Ok ts)
      else tbind (body step h ts b) (fun '(h, ts) => loop (S step) h ts batches)
  end.

(** trainer.py:763-838: from the hooks to the end.  [has k] is whether the checkpoint of step k
    exists: of step 0 before the loop and of the last step after it. *)
Definition run (has : nat -> bool) (progress_process : option nat) (progress evaluate : options) (fewshot : option options)
    (init_step : nat) (ts : T) (batches : list batch) : traced T :=
  let first_step := init_step + 1 in
  let h := Hooks progress_process (create_action first_step train_steps progress) (create_action first_step train_steps evaluate)
                 (create_fewshot_hook first_step train_steps fewshot) in
  tbind (emit (if (init_step =? 0) && negb (has 0) then [Save 0 ts true] else [])) (fun _ =>
  tbind (loop first_step h ts batches) (fun ts =>
  tbind (emit (if has train_steps then [] else [Save train_steps ts true])) (fun _ => (([] : list event), Ok ts)))).
End Loop.
Arguments Save {T P M}. Arguments Report {T P M}. Arguments Evaluate {T P M}. Arguments FewShot {T P M}.
Arguments run {batch T P M}. Arguments loop {batch T P M}. Arguments body {batch T P M}.
Arguments call_fewshot {T P M}. Arguments tbind {T P M A B}. Arguments emit {T P M}. Arguments lift {T P M A}.
