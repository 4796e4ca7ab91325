(** Vocabulary for C86. *)
From Coq Require Import List Arith NArith Bool.
From Verif Require Import BaseModel Py SynModel.
Import ListNotations.
Local Open Scope nat_scope.

Definition finished (w : world) : Prop := forall p, In p (procs w) -> p = Return.

(** Whatever the interleaving, from [w]: no process raises an exception, no file fails to be
    written, the processes never wait for each other forever, all executions are finite, and
    they end with all processes finished and [Q]. *)
Definition orderly (Q : world -> Prop) (w : world) : Prop :=
  (forall w', run w w' ->
     (forall e, ~ In (Raises e) (procs w')) /\ failed w' = [] /\
     ((exists w'', step w' w'') \/ (finished w' /\ Q w'))) /\
  Acc (fun b a => step a b) w.

(** [P] processes that begin these programs, with these directories, files and checkpoints. *)
Definition begin (P : nat) (program : nat -> prog) (d : list pystr) (f : list (pystr * pystr)) (s : list nat) : world :=
  World (map program (seq 0 P)) d f s None [] [].

(** What process [i] is left with after a barrier that it called with [name i]: the rest of
    its program, or an exception. *)
Definition after_barrier (h : nat -> N) (main : nat) (rest : nat -> prog) (i : nat) : prog :=
  if N.eqb (h i) (h main) then rest i else Raises ValueError.

Definition bytes (s : pystr) : Prop := Forall (fun b => (b < 256)%N) s.
