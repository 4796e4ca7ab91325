(** C86: the processes of a multi-process run keep in step. *)
From Coq Require Import String List Arith NArith Bool Lia.
From Verif Require Import BaseModel Py SynModel SynSpec SynProofs SynProofs2 SynProofs3 SynProofs4 SynProofs5 SynProofs6 SynProofs7.
Import ListNotations.
Local Open Scope list_scope.
Local Open Scope nat_scope.

(** *** Training *)

(** If the evaluation and few-shot hooks of all processes act at the same steps, then,
    whatever the interleaving of the processes and of the background saves, whatever
    checkpoints exist at the beginning, with any number of processes, devices and steps, and
    any policy of the checkpoint manager: no process raises or waits forever, and training
    ends with the checkpoint of the last step complete. *)
Theorem C86_training devices ckpt_dir train_steps fresh should_save evaluates fewshots P d f s :
  0 < P -> (forall i, i < P -> 0 < devices i) ->
  (forall i s, i < P -> evaluates i s = evaluates 0 s) -> (forall i s, i < P -> fewshots i s = fewshots 0 s) ->
  orderly (fun w => In train_steps (steps w) /\ pending w = None /\ is_dir w ckpt_dir = true)
    (begin P (train_and_evaluate devices ckpt_dir train_steps fresh should_save evaluates fewshots) d f s).
Proof. intros A B C D. exact (safe_orderly _ _ (training_safe devices ckpt_dir train_steps fresh should_save evaluates fewshots P A B C D d f s)). Qed.
Print Assumptions C86_training.
Example C86_training_ex :
  orderly (fun w => In 5 (steps w) /\ pending w = None /\ is_dir w (s_ "/w/ckpt"%string) = true)
    (begin 3 (train_and_evaluate (fun i => 1 + i) (s_ "/w/ckpt"%string) 5 0 (fun _ n => Nat.even n) (fun _ n => n =? 5) (fun _ n => n =? 3)) [] [] []).
Proof. apply C86_training; intros; auto with arith. Qed.

(** Otherwise they can wait for each other forever: the hooks act every few seconds, and the
    clocks of two processes differ, so that process 0 evaluates and process 1 does not. *)
Theorem C86_clocks_refuted :
  exists devices ckpt_dir train_steps fresh should_save evaluates fewshots P d f s w,
    0 < P /\ (forall i, i < P -> 0 < devices i) /\ (forall i s, i < P -> fewshots i s = fewshots 0 s) /\
    run (begin P (train_and_evaluate devices ckpt_dir train_steps fresh should_save evaluates fewshots) d f s) w /\
    (forall w', ~ step w w') /\ (forall p, In p (procs w) -> p <> Return).
Proof.
  exists dev1, c_dir, 1, 0, no, ev0, no2, 2, [c_dir], [], [0], stuck.
  split; [repeat constructor|]. split; [repeat constructor|]. split; [reflexivity|].
  split; [exact stuck_run|]. split; [exact stuck_forever|exact stuck_not_finished].
Qed.
Print Assumptions C86_clocks_refuted.

(** *** Saving partitioned checkpoints *)

(** Whatever the interleaving of the processes and of their writing threads, and whether or
    not the directory exists: no process raises or waits forever, no thread finds that the
    directory is missing, and in the end all files of all processes are there. *)
Theorem C86_save devices workdir mine P d f s :
  0 < P -> (forall i, i < P -> 0 < devices i) -> bytes workdir ->
  orderly (fun w => incl f (files w) /\ writes w = [] /\ forall i x, i < P -> In x (mine i) -> In (workdir, x) (files w))
    (begin P (fun me => save_checkpoint devices me workdir (mine me) true Return) d f s).
Proof. intros A B C. exact (safe_orderly _ _ (mkdir_safe devices workdir mine P A B C f d s)). Qed.
Print Assumptions C86_save.
Example C86_save_ex :
  orderly (fun w => incl [] (files w) /\ writes w = [] /\
      forall i x, i < 2 -> In x (if i =? 0 then [s_ "c.index"%string; s_ "c.data-0"%string] else [s_ "c.data-1"%string]) -> In (s_ "/w"%string, x) (files w))
    (begin 2 (fun me => save_checkpoint (fun _ => 4) me (s_ "/w"%string)
       (if me =? 0 then [s_ "c.index"%string; s_ "c.data-0"%string] else [s_ "c.data-1"%string]) true Return) [] [] []).
Proof.
  apply (C86_save (fun _ => 4) (s_ "/w"%string) (fun i => if i =? 0 then [s_ "c.index"%string; s_ "c.data-0"%string] else [s_ "c.data-1"%string])).
  - auto with arith.
  - auto with arith.
  - repeat constructor.
Qed.

(** Without [makedirs] the directory has to exist. *)
Theorem C86_save_no_makedirs devices workdir mine P d f s :
  0 < P -> is_dir (begin P (fun _ => Return) d f s) workdir = true ->
  orderly (fun w => incl f (files w) /\ writes w = [] /\ forall i x, i < P -> In x (mine i) -> In (workdir, x) (files w))
    (begin P (fun me => save_checkpoint devices me workdir (mine me) false Return) d f s).
Proof. intros P0 A. exact (safe_orderly _ _ (written_safe workdir mine P P0 f d s A)). Qed.
Print Assumptions C86_save_no_makedirs.
Theorem C86_save_no_makedirs_refuted :
  exists devices workdir mine P d f s w,
    run (begin P (fun me => save_checkpoint devices me workdir (mine me) false Return) d f s) w /\ failed w <> [].
Proof.
  exists (fun _ => 1), c_dir, (fun _ => [c_dir]), 1, [], [], [].
  eexists. split.
  - eapply run_step; [eapply run_step; [apply run_refl|]|].
    + apply (st_spawn _ 0 [(c_dir, c_dir)] Return). reflexivity.
    + apply (st_write_fails _ (c_dir, c_dir) [] []); reflexivity.
  - discriminate.
Qed.
Print Assumptions C86_save_no_makedirs_refuted.

(** *** Barriers *)

(** When all processes call [sync_devices], each with a name of its own: none goes on before
    all have called it, and then the processes whose name has the checksum of the name of the
    main process go on, and the others raise ValueError. *)
Theorem C86_barrier devices main name rest P w :
  main < P -> (forall i, i < P -> 0 < devices i) -> bytes (name main) ->
  procs w = map (fun i => sync_devices devices i (name i) main (rest i)) (seq 0 P) ->
  (exists w', step w w' /\ w' = set_procs w (map (after_barrier (fun i => crc32 (name i)) main rest) (seq 0 P))) /\
  (forall w', step w w' -> procs w' = procs w \/ procs w' = map (after_barrier (fun i => crc32 (name i)) main rest) (seq 0 P)).
Proof.
  intros A B C D. split; [exact (barrier_goes devices main name rest P w A B C D)|].
  intros w' ST. exact (barrier_step devices main name rest P w w' A B C D ST).
Qed.
Print Assumptions C86_barrier.
(** Two processes with different names. *)
Example C86_barrier_ex :
  map (after_barrier (fun i => crc32 (if i =? 0 then s_ "training:ckpt-last"%string else s_ "training:completed"%string)) 0 (fun _ => Return)) (seq 0 2)
  = [Return; Raises ValueError].
Proof. vm_compute. reflexivity. Qed.
(** A process that is not there yet: the others wait. *)
Theorem C86_barrier_waits devices main name rest P w j p :
  (forall i, i < P -> 0 < devices i) ->
  length (procs w) = P -> nth_error (procs w) j = Some p -> (forall x k, p <> Psum x k) ->
  (forall i, i < P -> i <> j -> nth_error (procs w) i = Some (sync_devices devices i (name i) main (rest i))) ->
  forall w', step w w' -> forall i, i < P -> i <> j -> nth_error (procs w') i = nth_error (procs w) i.
Proof. exact (barrier_waits devices main name rest P w j p). Qed.
Print Assumptions C86_barrier_waits.

(** Names that differ only in a word of at most four bytes have different checksums. *)
Theorem C86_close_names p u v s :
  bytes p -> bytes u -> bytes v -> bytes s -> length u = length v -> length u <= 4 -> u <> v ->
  crc32 (p ++ u ++ s) <> crc32 (p ++ v ++ s).
Proof. intros A B C D E F G H. exact (G (burst p u v s A B C D E F H)). Qed.
Print Assumptions C86_close_names.
Example C86_close_names_ex : crc32 (s_ "checkpoints:mkdir:/w/1234"%string) <> crc32 (s_ "checkpoints:mkdir:/w/5678"%string).
Proof. apply (C86_close_names (s_ "checkpoints:mkdir:/w/"%string) (s_ "1234"%string) (s_ "5678"%string) []); try discriminate; repeat constructor. Qed.
Example crc32_check : crc32 (s_ "123456789"%string) = 3421780262%N.
Proof. vm_compute. reflexivity. Qed.
(** The fixed names of the code have different checksums. *)
Example fixed_names : NoDup (map crc32 [s_ "create-ckpt-dir"%string; s_ "training:ckpt-first"%string; s_ "training:ckpt-last"%string; s_ "training:completed"%string]).
Proof. vm_compute. repeat constructor; cbn; intuition discriminate. Qed.

(** But different names may have the same checksum: two processes that save checkpoints to
    different directories go on, and process 1 writes its file to a directory that nobody has
    made. *)
Theorem C86_names_refuted :
  exists dir0 dir1 w, dir0 <> dir1 /\
    run (begin 2 (fun me => save_checkpoint (fun _ => 1) me (if me =? 0 then dir0 else dir1) [s_ "c"%string] true Return) [] [] []) w /\
    (forall e, ~ In (Raises e) (procs w)) /\ failed w <> [].
Proof. exact names_collide. Qed.
Print Assumptions C86_names_refuted.
