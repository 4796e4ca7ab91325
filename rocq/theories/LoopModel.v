(** The training loop with its checkpoints, and how it is stopped and started again
    (vmoe/train/trainer.py:322-328, 371-438, 648-684, 687-838; C36). *)
From Coq Require Import List Arith Bool.
Import ListNotations.

Section Loop.
(** Batches, and the contents of the train state except for its step: parameters, state of the
    optimizer and random keys *)
Variable batch T : Type.
(** What a train step computes, from the step, the rest of the state and a batch *)
Variable step_fn : nat -> T -> batch -> T.
Record tstate := TState { t_step : nat; t_rest : T }.
(** trainer.py:648-684 and train_state.py:29-38: the step counter goes up by one *)
Definition train_step (s : tstate) (b : batch) : tstate := TState (S (t_step s)) (step_fn (t_step s) (t_rest s) b).

(** An iterator over batches, here as the function from the number of batches already taken to
    the next one; None is the end. *)
Definition iterator := nat -> option batch.
(** trainer.py:322-328 [get_dataset_iterator]: the last seen index is not used.  (Prefetching
    does not change the batches: C40.) *)
Definition get_dataset_iterator (dataset : iterator) (last_seen_index : option nat) : iterator := dataset.

(** A checkpoint: the state and the last seen index; the directory of checkpoints, each one
    under its step.  Only finished checkpoints are here. *)
Definition ckpt := (tstate * nat)%type.
Definition disk_t := list (nat * ckpt).
(** CheckpointManager.latest_step with the item *)
Fixpoint latest (d : disk_t) : option (nat * ckpt) :=
  match d with
  | [] => None
  | (k, c) :: d => match latest d with
                   | Some (k', c') => if k <=? k' then Some (k', c') else Some (k, c)
                   | None => Some (k, c)
                   end
  end.
(** tf.io.gfile.exists(os.path.join(workdir, f'ckpt/{step}')) *)
Definition exists_ckpt (d : disk_t) (k : nat) : bool := existsb (fun kc => fst kc =? k) d.

Variable initial : tstate.
(** trainer.py:371-438 [restore_or_create_train_state], without the initialization from other
    checkpoints (C28) *)
Definition restore_or_create_train_state (d : disk_t) : tstate * option nat :=
  match latest d with
  | Some (_, (state, last_seen_index)) => (state, Some last_seen_index)
  | None => (initial, None)
  end.

Variable train_batch_size train_steps : nat.
(** trainer.py:787-796 [_save_checkpoint] asks to save this item. *)
Definition item (step : nat) (ts : tstate) : nat * ckpt := (step, (ts, step * train_batch_size)).

(** The process: not running, before a step of the loop of lines 820-831 (with the state and
    the iterator), after the loop (line 832), after the last save was asked for (line 835), or
    finished. *)
Inductive proc :=
| Down
| Loop (step : nat) (ts : tstate) (it : iterator) (taken : nat)
| After (ts : tstate)
| Last
| Done.

(** The process, the finished checkpoints and the one that is being written, if any; and for
    the statements, the step of the state that the process started from and the steps that it
    executed, and all steps executed by any process with the state before each. *)
Record sys := Sys {
  p : proc;
  disk : disk_t;
  pending : option (nat * ckpt);
  from : nat;
  ran : list nat;
  log : list (nat * tstate) }.

(** trainer.py:712-799: from the start to the loop *)
Definition boot (get_iterator : option nat -> iterator) (d : disk_t) : proc * option (nat * ckpt) * nat :=
  let '(ts, last_seen_index) := restore_or_create_train_state d in
  let init_step := t_step ts in
  let saved := if (init_step =? 0) && negb (exists_ckpt d 0) then Some (item init_step ts) else None in
  (Loop (S init_step) ts (get_iterator last_seen_index) 0, saved, init_step).

(** One step of the system.  When a checkpoint that is not forced gets written is up to the
    checkpoint manager (any subset of the steps, larger than those on disk); it writes one at a
    time, in the background, and may delete any checkpoint but the latest.  The process may
    stop at any point, and then the checkpoint being written is lost. *)
Inductive step (get_iterator : option nat -> iterator) : sys -> sys -> Prop :=
| s_boot d f r l pr sv i : boot get_iterator d = (pr, sv, i) ->
    step get_iterator (Sys Down d None f r l) (Sys pr d sv i [] l)
| s_iter n ts it k b d pe f r l : n <= train_steps -> it k = Some b ->
    step get_iterator (Sys (Loop n ts it k) d pe f r l)
                      (Sys (Loop (S n) (train_step ts b) it (S k)) d pe f (r ++ [n]) (l ++ [(n, ts)]))
| s_iter_save n ts it k b d f r l : n <= train_steps -> it k = Some b -> (forall kc, In kc d -> fst kc < n) ->
    step get_iterator (Sys (Loop n ts it k) d None f r l)
                      (Sys (Loop (S n) (train_step ts b) it (S k)) d (Some (item n (train_step ts b))) f (r ++ [n]) (l ++ [(n, ts)]))
| s_exit n ts it k d pe f r l : train_steps < n \/ it k = None ->
    step get_iterator (Sys (Loop n ts it k) d pe f r l) (Sys (After ts) d pe f r l)
| s_last ts d f r l :
    step get_iterator (Sys (After ts) d None f r l)
                      (if exists_ckpt d train_steps then Sys Done d None f r l
                       else Sys Last d (Some (item train_steps ts)) f r l)
| s_done d f r l : step get_iterator (Sys Last d None f r l) (Sys Done d None f r l)
| s_commit pr d k c f r l : step get_iterator (Sys pr d (Some (k, c)) f r l) (Sys pr ((k, c) :: d) None f r l)
| s_delete pr d1 d2 kc pe f r l : (exists kc', In kc' (d1 ++ d2) /\ fst kc < fst kc') ->
    step get_iterator (Sys pr (d1 ++ kc :: d2) pe f r l) (Sys pr (d1 ++ d2) pe f r l)
| s_stop pr d pe f r l : step get_iterator (Sys pr d pe f r l) (Sys Down d None f r l).

Inductive steps (get_iterator : option nat -> iterator) : sys -> sys -> Prop :=
| steps_refl s : steps get_iterator s s
| steps_more s1 s2 s3 : steps get_iterator s1 s2 -> step get_iterator s2 s3 -> steps get_iterator s1 s3.
(** Nothing done yet *)
Definition start : sys := Sys Down [] None 0 [] [].
End Loop.
Arguments TState {T}. Arguments t_step {T}. Arguments t_rest {T}. Arguments latest {T}. Arguments exists_ckpt {T}.
Arguments Down {batch T}. Arguments Loop {batch T}. Arguments After {batch T}. Arguments Last {batch T}. Arguments Done {batch T}.
Arguments Sys {batch T}. Arguments p {batch T}. Arguments disk {batch T}. Arguments pending {batch T}. Arguments from {batch T}.
Arguments ran {batch T}. Arguments log {batch T}. Arguments start {batch T}.
