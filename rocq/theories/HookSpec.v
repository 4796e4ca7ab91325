(** Notions used to state C82. *)
From Coq Require Import Reals ZArith String List Arith Bool Sorted.
From Verif Require Import Py HookModel.
Import ListNotations.
Local Open Scope list_scope.
Local Open Scope nat_scope.

Section Events.
Context {T P M : Type}.
(** The evaluations, few-shot evaluations, reports and requests for checkpoints among the events *)
Definition evaluations (l : list (event T P M)) : list (nat * P * list (string * R)) :=
  flat_map (fun e => match e with Evaluate s p c => [(s, p, c)] | _ => [] end) l.
Definition fewshots (l : list (event T P M)) : list (nat * P * list (string * R)) :=
  flat_map (fun e => match e with FewShot s p c => [(s, p, c)] | _ => [] end) l.
Definition reports (l : list (event T P M)) : list (nat * M * list (string * R)) :=
  flat_map (fun e => match e with Report s c m => [(s, m, c)] | _ => [] end) l.
Definition saves (l : list (event T P M)) : list (nat * T * bool) :=
  flat_map (fun e => match e with Save s t f => [(s, t, f)] | _ => [] end) l.
End Events.

(** The state after the first k batches *)
Definition state_after {batch T M} (train_step : T -> batch -> T * M) (ts : T) (batches : list batch) (k : nat) : T :=
  fold_left (fun ts b => fst (train_step ts b)) (firstn k batches) ts.

(** The options ask for something at step s, whatever the time *)
Definition due (o : options) (first last s : nat) : Prop :=
  s = first \/ s = last \/ (exists l, o_on_steps o = Some l /\ In s l) \/ (exists n, o_every_steps o = Some n /\ Nat.divide n s).

(** More than every_secs have passed at step s since the latest of the steps [l] before s *)
Definition late (o : options) (clock : nat -> Z) (l : list nat) (s : nat) : Prop :=
  exists secs r, o_every_secs o = Some secs /\ In r l /\ r < s /\ (forall q, In q l -> q < s -> q <= r) /\
    (secs < clock s - clock r)%Z.

(** Steps in order, none twice *)
Definition increasing (l : list nat) : Prop := StronglySorted lt l.

(** every_steps is not zero *)
Definition nonzero (o : options) : Prop := o_every_steps o <> Some 0.

(** A process that reports has non-zero every_steps; so have the evaluations. *)
Definition options_ok (progress_process : option nat) (me : nat) (progress evaluate : options) (fewshot : option options) : Prop :=
  ((progress_process = None \/ progress_process = Some me) -> nonzero progress) /\ nonzero evaluate /\
  (forall o, fewshot = Some o -> nonzero o).

(** The number of steps that a run executes *)
Definition executed (init_step train_steps batches : nat) : nat := Nat.min (train_steps - init_step) batches.

(** The cost of a training that had [n] steps with each of the programs and numbers of devices *)
Definition total_cost (field : cost_analysis -> option R) (history : list (nat * nat * cost_analysis)) : R :=
  fold_right (fun '(n, devices, c) acc =>
    (INR n * INR devices * (match field c with Some v => v | None => 0 end) + acc)%R) 0%R history.
Definition steps_of (history : list (nat * nat * cost_analysis)) : nat := list_sum (map (fun '(n, _, _) => n) history).
