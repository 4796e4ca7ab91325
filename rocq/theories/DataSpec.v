(** Vocabulary for C39 and C40. *)
From Coq Require Import List Arith.
From Verif Require Import DataModel.
Import ListNotations.

(** An example after processing, real unless its processing says otherwise *)
Definition processed {X Y} (process : X -> Y * option bool) (x : X) : Y * bool :=
  (fst (process x), match snd (process x) with Some v => v | None => true end).

(** What the iterator without prefetching gives *)
Definition direct {T U} (to_global : T -> U) (source : nat -> next_t T) (n : nat) : next_t U :=
  match source n with Item x => Item (to_global x) | Stop => Stop | Fails => Fails end.
(** An iterator: once it has stopped, it stops always. *)
Definition stops_for_good {T} (source : nat -> next_t T) : Prop := forall n, source n = Stop -> source (S n) = Stop.
Definition never_fails {T} (source : nat -> next_t T) : Prop := forall n, source n <> Fails.

(** [p] processes with [d] devices each *)
Definition same_devices (mesh : list nat) (p d : nat) : Prop :=
  length mesh = p * d /\ (forall q, q < length mesh -> nth q mesh 0 < p) /\
  forall i, i < p -> length (filter (fun q => nth q mesh 0 =? i) (seq 0 (length mesh))) = d.
