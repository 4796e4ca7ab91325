(** Specification for C97. *)
From Coq Require Import List Arith Bool.
From Verif Require Import Py TreeModel TreeSpec ObxModel.
Import ListNotations.

(** Names of directories without a slash at the end, and relative names *)
Definition plain (s : str) : Prop := s <> [] /\ last s 0 <> slash.
Definition relative (s : str) : Prop := plain s /\ hd 0 s <> slash.
(** directory/name/.zarray *)
Definition zarray_file (directory name : str) : str := directory ++ slash :: name ++ slash :: dot_zarray.

Section Spec.
Context {V D array regex : Type}.
(** The leaf stands for the array saved under a name. *)
Definition stands_for (x : oleaf V) (name : str) : Prop := x = OStr (placeholder ++ name).
Definition kept (x : oleaf V) : Prop := forall name, x <> OStr (placeholder ++ name).
Definition shape_kept (shape_if : V -> option (list nat)) (x : oleaf V) : leaf := match x with OVal v => shape_if v | _ => None end.

(** An array is asked for with the shape and type in its file and the spec of the first rule that matches its name;
    other values as they are; nothing for None.  The rules must make sense for all leaves. *)
Inductive asked (zarray : str -> res (list nat * D)) (shape_if : V -> option (list nat)) (named : spec -> option err) (rsearch : regex -> str -> bool)
  (directory : str) (rules : list (regex * uspec)) (p : list str) : oleaf V -> rargs D -> Prop :=
| as_array x name shape dtype s : stands_for x name -> zarray (zarray_file directory name) = Ok (shape, dtype) ->
    first_rule regex rsearch rules p (Some shape) s -> named s = None -> asked zarray shape_if named rsearch directory rules p x (RArray dtype s shape)
| as_none : first_rule regex rsearch rules p None [] -> asked zarray shape_if named rsearch directory rules p ONone RNone
| as_value x s : kept x -> x <> ONone -> first_rule regex rsearch rules p (shape_kept shape_if x) s -> asked zarray shape_if named rsearch directory rules p x RPlain.

(** No rules is the same as an empty sequence of them. *)
Definition the_rules (o : option (list (regex * uspec))) : list (regex * uspec) := match o with Some l => l | None => [] end.
(** The array can be laid out as it is asked for. *)
Definition fits_args (fits : spec -> list nat -> option err) (a : rargs D) : Prop := forall d s sh, a = RArray d s sh -> fits s sh = None.

(** What is restored: the saved array, or the value *)
Inductive restored (stored : str -> res array) (value : oleaf V -> array) : oleaf V -> array -> Prop :=
| re_array x name a : stands_for x name -> stored name = Ok a -> restored stored value x a
| re_value x : kept x -> restored stored value x (value x).

(** The names of the arrays of a checkpoint are relative. *)
Definition names_relative (t : tree (oleaf V)) : Prop := forall p x name, leaf_at t p x -> stands_for x name -> relative name.
(** .zarray files have the shape and type of what is saved, which does not change an array. *)
Definition consistent (zarray : str -> res (list nat * D)) (stored : str -> res array) (shape_of : array -> list nat) (dtype_of : array -> D)
  (cast : D -> array -> array) (resize : list nat -> array -> array) (directory : str) (t : tree (oleaf V)) : Prop :=
  (forall p x name a, leaf_at t p x -> stands_for x name -> stored name = Ok a -> zarray (zarray_file directory name) = Ok (shape_of a, dtype_of a))
  /\ forall a, cast (dtype_of a) a = a /\ resize (shape_of a) a = a.
End Spec.
