(** Specification for C98. *)
From Coq Require Import List Arith Bool.
From Verif Require Import Py TreeModel CacModel.
Import ListNotations.

Section Memo.
Context {A K R : Type} (key : A -> K) (f : A -> res R).
Definition succeeds (a : A) : Prop := exists x, f a = Ok x.
(** No call with this key has succeeded. *)
Definition none_for (h : list A) (k : K) : Prop := forall b, In b h -> key b = k -> ~ succeeds b.
(** After the calls [h], a call is served by the first that succeeded with the same key, or else by itself. *)
Definition served (h : list A) (a : A) (r : res R) : Prop :=
  (exists h1 b h2, h = h1 ++ b :: h2 /\ key b = key a /\ succeeds b /\ none_for h1 (key a) /\ r = f b) \/ (none_for h (key a) /\ r = f a).
(** The calls of the function itself are those with a key for which none has succeeded. *)
Inductive made : list A -> list A -> list A -> Prop :=
| made_nil h : made h [] []
| made_new h a l m : none_for h (key a) -> made (h ++ [a]) l m -> made h (a :: l) (a :: m)
| made_old h a l m b : In b h -> key b = key a -> succeeds b -> made (h ++ [a]) l m -> made h (a :: l) m.
End Memo.

(** Builders of the same name and directory are to be made in the same way, or come from the directory. *)
Definition agree (a b : source) : Prop :=
  name a = name b -> data_dir a = data_dir b -> contains from_directory (name a) = true \/ (manual_dir a = manual_dir b /\ try_gcs a = try_gcs b).
(** A text with 'from_directory:' in it *)
Definition has_from_directory (s : str) : Prop := exists p q, s = p ++ from_directory ++ q.

(** The infos are those of the tasks. *)
Definition info_of (num_classes : str -> res nat) (t : task) (i : info) : Prop :=
  i_key i = t_key t /\ i_train i = (t_name t, t_train t) /\ i_test i = (t_name t, t_test t) /\ num_classes (t_name t) = Ok (i_classes i).
Definition used (ts : list task) (k : str * str) : Prop := exists t, In t ts /\ (k = (t_name t, t_train t) \/ k = (t_name t, t_test t)).
