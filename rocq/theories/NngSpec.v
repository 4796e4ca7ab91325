(** Vocabulary for C90. *)
From Coq Require Import Reals.
From Verif Require Import ElmModel.

Definition is_number (x : ext) : Prop := exists r, x = Fin r.
