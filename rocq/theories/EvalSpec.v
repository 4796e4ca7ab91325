(** Vocabulary for C38. *)
From Coq Require Import List Arith Reals.
From Verif Require Import Py EvalModel.
Import ListNotations.

(** An example: an image, the row of its label and whether it is a real one *)
Record example (X : Type) := Example_ { e_image : X; e_label : list R; e_real : bool }.
Arguments Example_ {X}. Arguments e_image {X}. Arguments e_label {X}. Arguments e_real {X}.
Definition batch_of {X} (es : list (example X)) : batch X :=
  Batch X (map e_image es) (map (fun e => map Some (e_label e)) es) (map (fun e => if e_real e then 1%R else 0%R) es).
Definition real_examples {X} (batches : list (list (example X))) : list (example X) := filter e_real (concat batches).

(** The model, the loss and the predictions treat each example by itself. *)
Definition one_by_one {X L rngs_t} (apply_fn : rngs_t -> list X -> res (list L)) loss_fn label_pred_fn
    (f : X -> L) (lossf : L -> list fl -> list fl) (predf : L -> nat) : Prop :=
  (forall r xs, apply_fn r xs = Ok (map f xs)) /\
  (forall es : list (L * list fl), loss_fn (map fst es) (map snd es) = Ok (map (fun e => lossf (fst e) (snd e)) es)) /\
  (forall ls, label_pred_fn ls = map predf ls).

Definition mean (l : list R) : R := (fold_right Rplus 0 l / INR (length l))%R.
