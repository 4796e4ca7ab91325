(** Vocabulary for C46. *)
From Coq Require Import List Arith Reals.
From Verif Require Import EnsModel.
Local Open Scope nat_scope.

(** Item s of group g is token t of image b for member m. *)
Definition placed (group_size T M g s b m t : nat) : Prop := g * group_size + s = (b * T + t) * M + m.
(** The member that an expert belongs to *)
Definition member_of (E M e : nat) : nat := e / (E / M).
(** No noise is added to the logits. *)
Definition quiet (deterministic : bool) (noise_std : R) : bool := deterministic || (if Req_EM_T noise_std 0 then true else false).
(** Logits for an item of a member, with its noise *)
Definition member_logits (M E : nat) (deterministic : bool) (noise_std : R) (dense : (nat -> R) -> nat -> R) (x : nat -> R) (noise : nat -> R) (e : nat) : R :=
  if deterministic then dense x e else (dense x e + noise_std / INR (E / M) * noise e)%R.
(** Two batches agree on the rows of member m. *)
Definition same_member {Y} (M m : nat) (x y : nat * (nat -> Y)) : Prop :=
  fst x = fst y /\ forall b, b * M + m < fst x -> snd x (b * M + m) = snd y (b * M + m).
