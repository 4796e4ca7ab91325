(** The evaluator (vmoe/evaluate/evaluator.py:46-58, 192-258; C38).  A float is a real number,
    or None when it is not finite (infinite or NaN), which no sum or product undoes. *)
From Coq Require Import List Arith Reals.
From Verif Require Import Py.
Import ListNotations.

Definition fl := option R.
Definition fadd (a b : fl) : fl := match a, b with Some x, Some y => Some (x + y)%R | _, _ => None end.
Definition fmul (a b : fl) : fl := match a, b with Some x, Some y => Some (x * y)%R | _, _ => None end.
(** x / 0 is infinite or NaN *)
Definition fdiv (a b : fl) : fl := match a, b with Some x, Some y => if Req_EM_T y 0 then None else Some (x / y)%R | _, _ => None end.
Definition fsum (l : list fl) : fl := fold_left fadd l (Some 0%R).

(** jax.nn.one_hot(i, n) *)
Definition one_hot (n i : nat) : list fl := map (fun j => Some (if j =? i then 1%R else 0%R)) (seq 0 n).
(** Product of arrays of the same size, the only case modelled *)
Fixpoint mul_all (a b : list fl) : res (list fl) :=
  match a, b with
  | [], [] => Ok []
  | x :: a, y :: b => bind (mul_all a b) (fun r => Ok (fmul x y :: r))
  | _, _ => Raise TypeError
  end.

Section Evaluator.
(** Images, logits, the random keys; labels are rows of numbers. *)
Variable X L rngs_t : Type.
Variable split : rngs_t -> rngs_t * rngs_t.
(** The model with its parameters; the loss has one row of numbers for each example. *)
Variable apply_fn : rngs_t -> list X -> res (list L).
Variable loss_fn : list L -> list (list fl) -> res (list (list fl)).
Variable label_pred_fn : list L -> list nat.

(** 46-58 [EvalState] *)
Record eval_state := EvalState { num : fl; sum_correct : fl; sum_loss : fl; rngs : rngs_t }.
Definition update (s : eval_state) (n : fl) (correct loss : list fl) (r : rngs_t) : eval_state :=
  EvalState (fadd (num s) n) (fadd (sum_correct s) (fsum correct)) (fadd (sum_loss s) (fsum loss)) r.

(** A batch: images, labels and whether each example is valid (1) or padding (0) *)
Record batch := Batch { image : list X; labels : list (list fl); valid : list R }.

(** The three-fold product of lines 255-256, row by row; the number of columns is that of the
    labels. *)
Fixpoint correct_rows (valid : list R) (labels : list (list fl)) (pred : list nat) : res (list fl) :=
  match valid, labels, pred with
  | [], [], [] => Ok []
  | v :: valid, lab :: labels, p :: pred =>
      bind (mul_all (map (fmul (Some v)) lab) (one_hot (length lab) p)) (fun row =>
      bind (correct_rows valid labels pred) (fun rest => Ok (row ++ rest)))
  | _, _, _ => Raise TypeError
  end.

(** 240-258 [evaluate_step] *)
Definition evaluate_step (s : eval_state) (b : batch) : res eval_state :=
  let '(r, next_rngs) := split (rngs s) in
  bind (apply_fn r (image b)) (fun logits =>
  bind (loss_fn logits (labels b)) (fun loss =>
  bind (mul_all (map Some (valid b)) (map fsum loss)) (fun loss =>
  bind (correct_rows (valid b) (labels b) (label_pred_fn logits)) (fun correct =>
  let num_valid := fsum (map Some (valid b)) in
  Ok (update s num_valid correct loss next_rngs))))).

(** 226-237 [evaluate_dataset] *)
Definition evaluate_dataset (s : eval_state) (dataset : list batch) : res eval_state := rfold (fun s b => evaluate_step s b) dataset s.

(** 192-217 [callback_fn]: prec@1 and loss of each dataset, all with the same initial keys *)
Definition evaluate (rngs0 : rngs_t) (datasets : list (nat * list batch)) : res (list (nat * (fl * fl))) :=
  rmap (fun nd =>
    bind (evaluate_dataset (EvalState (Some 0%R) (Some 0%R) (Some 0%R) rngs0) (snd nd)) (fun s =>
    Ok (fst nd, (fdiv (sum_correct s) (num s), fdiv (sum_loss s) (num s))))) datasets.
End Evaluator.
