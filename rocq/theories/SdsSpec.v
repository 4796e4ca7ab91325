(** Specification for C96. *)
From Coq Require Import String List Arith Bool.
From Verif Require Import DataModel SdsModel.
From Verif Require Import Py.
Import ListNotations.
Local Open Scope list_scope.
Local Open Scope nat_scope.

Section Spec.
Context {D Row : Type}.
(** A dimension or shape is as declared, where it is declared *)
Definition fits (declared : option nat) (n : nat) : Prop := match declared with Some k => k = n | None => True end.
Definition fits_shape (declared : list (option nat)) (shape : list nat) : Prop := Forall2 fits declared shape.
(** Batches of [p] processes are as the dataset declares: every process has the same number of rows *)
Definition conforms (p : nat) (s : leaf_spec D) (x : leaf D Row) : Prop :=
  x_ragged D Row x = sp_ragged D s /\ x_dtype D Row x = sp_dtype D s
  /\ match x_rows D Row x with
     | None => sp_shape D s = []
     | Some xs => length xs = p /\ exists n, Forall (fun rows => length rows = n) xs /\ fits_shape (sp_shape D s) (n :: x_rest D Row x)
     end.
(** What the step gets is as declared: the shape, sharding and number of rows; and the type as the device keeps it *)
Definition as_declared (device_dtype : D -> D) (st : struct_t D) (y : placed D Row) : Prop :=
  match y with
  | Global _ _ shape dtype sharding rows =>
      fits_shape (st_shape D st) shape /\ dtype = device_dtype (st_dtype D st) /\ sharding = st_sharding D st
      /\ exists r, shape = length rows :: r
  | Host _ _ _ => False
  end.
End Spec.
