(** C36: training that is stopped and started again.  Nothing but the theorems. *)
From Coq Require Import List Arith Lia.
From Verif Require Import LoopModel LoopSpec LoopProofs.
Import ListNotations.

(** As far as steps are concerned, training resumes where it stopped: with any dataset iterator
    that has enough batches, whenever processes stop and checkpoints are written or deleted, a
    checkpoint of step k holds a state that comes from the initial one by k train steps; a
    process executes consecutive steps from the one after its checkpoint; the step counter
    agrees with the step that is executed; and when a process finishes, it has done exactly the
    steps that remained, all steps were done, and the checkpoint of the last step exists. *)
Theorem C36_steps {batch T} (step_fn : nat -> T -> batch -> T) initial bs total get_iterator s :
  t_step initial = 0 ->
  (forall i j, i + j < total -> get_iterator (Some (i * bs)) j <> None) -> (forall j, j < total -> get_iterator None j <> None) ->
  steps batch T step_fn initial bs total get_iterator start s ->
  (forall k c, In (k, c) (disk s) -> k <= total /\ t_step (fst c) = k /\ trained step_fn initial k (fst c)) /\
  (forall n ts, In (n, ts) (log s) -> 1 <= n <= total /\ t_step ts = n - 1) /\
  (p s <> Down -> exists m, ran s = seq (S (from s)) m) /\
  (p s = Done -> ran s = seq (S (from s)) (total - from s) /\ from s <= total /\
     (forall n, 1 <= n <= total -> In n (map fst (log s))) /\ exists c, In (total, c) (disk s)).
Proof. intros H. exact (any_steps batch T step_fn initial bs total get_iterator H s). Qed.
Print Assumptions C36_steps.

(** With a dataset iterator that goes on after the last seen example, which is what the
    checkpoints keep for it, every step is executed with the same state as without
    interruptions, and so is every state that is saved, in particular the last one.  What is
    missing: [get_dataset_iterator] is not such an iterator (see below). *)
Theorem C36_same_as_uninterrupted_partial {batch T} (step_fn : nat -> T -> batch -> T) initial bs total get_iterator data s :
  t_step initial = 0 -> resumes bs data get_iterator -> (forall j, j < total -> data j <> None) ->
  steps batch T step_fn initial bs total get_iterator start s ->
  (forall n ts, In (n, ts) (log s) -> 1 <= n <= total /\ after step_fn initial data (n - 1) = Some ts) /\
  (forall k c, In (k, c) (disk s) -> after step_fn initial data k = Some (fst c)) /\
  (p s = Done -> exists c, In (total, c) (disk s) /\ after step_fn initial data total = Some (fst c)).
Proof. intros H. exact (resuming batch T step_fn initial bs total get_iterator H data s). Qed.
Print Assumptions C36_same_as_uninterrupted_partial.

(** Nothing gets stuck: from every situation the process can go on (or be started) and finish
    without further interruptions. *)
Theorem C36_can_finish {batch T} (step_fn : nat -> T -> batch -> T) initial bs total get_iterator s :
  steps batch T step_fn initial bs total get_iterator start s ->
  exists s', goes_on step_fn initial bs total get_iterator s s' /\ p s' = Done.
Proof. exact (any_finish batch T step_fn initial bs total get_iterator s). Qed.
Print Assumptions C36_can_finish.

(** The state lists the batches it was trained with.  Two steps with the batches 0 and 1 and a
    stop after the first one: the second process starts from the first batch again. *)
Definition ex_step (_ : nat) (l : list nat) (b : nat) : list nat := l ++ [b].
Definition ex_init : tstate (list nat) := TState 0 [].
Definition ex_get := get_dataset_iterator nat (fun j => Some j).
Definition ex_final : sys nat (list nat) :=
  Sys Done [(2, (TState 2 [0; 0], 20)); (1, (TState 1 [0], 10)); (0, (ex_init, 0))] None 1 [2] [(1, ex_init); (2, TState 1 [0])].
Example ex_run : steps nat (list nat) ex_step ex_init 10 2 ex_get start ex_final.
Proof.
  unfold start, ex_final.
  eapply steps_more; [|apply s_done]. eapply steps_more; [|apply s_commit].
  eapply steps_more; [|exact (s_last nat (list nat) ex_step ex_init 10 2 ex_get (TState 2 [0; 0]) [(1, (TState 1 [0], 10)); (0, (ex_init, 0))] 1 [2] [(1, ex_init); (2, TState 1 [0])])].
  eapply steps_more; [|apply (s_exit nat (list nat) ex_step ex_init 10 2 ex_get 3 _ (fun j => Some j) 1); left; lia].
  eapply steps_more; [|apply (s_iter nat (list nat) ex_step ex_init 10 2 ex_get 2 (TState 1 [0]) (fun j => Some j) 0 0 _ _ _ [] [(1, ex_init)]); [lia|reflexivity]].
  eapply steps_more; [|eapply (s_boot nat (list nat) ex_step ex_init 10 2 ex_get _ 0 [1]); reflexivity].
  eapply steps_more; [|apply (s_stop nat (list nat) ex_step ex_init 10 2 ex_get (Loop 2 (TState 1 [0]) (fun j => Some j) 1) _ None)].
  eapply steps_more; [|apply s_commit].
  eapply steps_more; [|apply (s_iter_save nat (list nat) ex_step ex_init 10 2 ex_get 1 ex_init (fun j => Some j) 0 0 _ _ [] []); [lia|reflexivity|]].
  2:{ intros kc [<-|[]]. simpl. lia. }
  eapply steps_more; [|apply s_commit].
  eapply steps_more; [|eapply (s_boot nat (list nat) ex_step ex_init 10 2 ex_get [] 0 []); reflexivity].
  apply steps_refl.
Qed.

(** The claim is false with the iterator of the code: the process that starts again takes the
    first batches of the dataset again, so the final state is another one. *)
Theorem C36_same_as_uninterrupted_refuted :
  exists (data : nat -> option nat) s c ts,
    steps nat (list nat) ex_step ex_init 10 2 (get_dataset_iterator nat data) start s /\ p s = Done /\
    In (2, c) (disk s) /\ after ex_step ex_init data 2 = Some ts /\ fst c <> ts.
Proof.
  exists (fun j => Some j), ex_final, (TState 2 [0; 0], 20), (TState 2 [0; 1]).
  split; [exact ex_run|]. split; [reflexivity|]. split; [left; reflexivity|]. split; [reflexivity|]. intros H. discriminate.
Qed.
Print Assumptions C36_same_as_uninterrupted_refuted.

(** Too few batches: the state is saved as if all the steps had been done. *)
Theorem C36_few_batches_refuted :
  exists (data : nat -> option nat) s c,
    steps nat (list nat) ex_step ex_init 10 2 (get_dataset_iterator nat data) start s /\ p s = Done /\
    In (2, c) (disk s) /\ t_step (fst c) = 1.
Proof.
  set (data := fun j => match j with O => Some 0 | _ => None end).
  exists data, (Sys Done [(2, (TState 1 [0], 20)); (0, (ex_init, 0))] None 0 [1] [(1, ex_init)]), (TState 1 [0], 20).
  split; [|split; [reflexivity|split; [left; reflexivity|reflexivity]]]. unfold start.
  eapply steps_more; [|apply s_done]. eapply steps_more; [|apply s_commit].
  eapply steps_more; [|exact (s_last nat (list nat) ex_step ex_init 10 2 _ (TState 1 [0]) [(0, (ex_init, 0))] 0 [1] [(1, ex_init)])].
  eapply steps_more; [|apply (s_exit nat (list nat) ex_step ex_init 10 2 _ 2 _ data 1); right; reflexivity].
  eapply steps_more; [|apply (s_iter nat (list nat) ex_step ex_init 10 2 _ 1 ex_init data 0 0 _ _ _ [] []); [lia|reflexivity]].
  eapply steps_more; [|apply s_commit].
  eapply steps_more; [|eapply (s_boot nat (list nat) ex_step ex_init 10 2 _ [] 0 []); reflexivity].
  apply steps_refl.
Qed.
Print Assumptions C36_few_batches_refuted.

(** An iterator that resumes: it skips the batches of the examples seen. *)
Example ex_resumes : resumes 10 (fun j => Some j) (fun lsi j => match lsi with None => Some j | Some n => Some (n / 10 + j) end).
Proof. split; auto. intros i j. rewrite Nat.div_mul by lia. auto. Qed.
