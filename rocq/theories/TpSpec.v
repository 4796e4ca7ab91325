(** Definitions for stating C84. *)
From Coq Require Import List Arith Bool.
Import ListNotations.

(** The number of elements with a property *)
Definition count {T} (p : T -> bool) (l : list T) : nat := length (filter p l).
(** The quotient, rounded up *)
Definition ceil_div (a b : nat) : nat := a / b + if a mod b =? 0 then 0 else 1.
