(** Vocabulary for C81. *)
From Coq Require Import List Arith Bool.
From Verif Require Import Py TreeModel TreeSpec MapModel StaModel.
Import ListNotations.
Local Open Scope nat_scope.

Section Spec.
Variable V D : Type.
(** The leaf at a path: what is there stays, what is missing is taken from the fresh state. *)
Definition reused (fresh : tree V) (p : list str) (x y : item V D) : Prop :=
  match x with
  | Array v => y = Array v
  | Struct _ _ => exists v, leaf_at fresh p v /\ y = Array v
  end.
Definition missing (t : tree (item V D)) (p : list str) : Prop := exists s d, leaf_at t p (Struct s d).
Definition is_array (x : item V D) : Prop := exists v, x = Array v.
(** [r] is the tree [t] with all leaves as arrays. *)
Definition as_arrays (t : tree V) (r : tree (item V D)) : Prop := related (fun _ v x => x = Array v) [] t r.
End Spec.
