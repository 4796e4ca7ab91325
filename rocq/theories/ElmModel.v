(** Losses and predictions of ensembles (vmoe/evaluate/ensemble.py and get_loss_fn of
    vmoe/train/trainer.py; C47), with the real numbers, infinities and NaN of IEEE arithmetic but
    without rounding. *)
From Coq Require Import String List Arith Bool Reals.
From Verif Require Import Py.
Import ListNotations.
Local Open Scope nat_scope.

Inductive ext := Fin (r : R) | NInf | PInf | NaN.
Definition eopp (x : ext) : ext := match x with Fin r => Fin (- r) | NInf => PInf | PInf => NInf | NaN => NaN end.
Definition eadd (x y : ext) : ext :=
  match x, y with
  | NaN, _ | _, NaN | NInf, PInf | PInf, NInf => NaN
  | Fin a, Fin b => Fin (a + b)
  | NInf, _ | _, NInf => NInf
  | PInf, _ | _, PInf => PInf
  end.
Definition esub (x y : ext) : ext := eadd x (eopp y).
(** Product with an infinity of the sign of a finite number *)
Definition scale_inf (a : R) (x : ext) : ext := if Req_EM_T a 0 then NaN else if Rlt_dec 0 a then x else eopp x.
Definition emul (x y : ext) : ext :=
  match x, y with
  | NaN, _ | _, NaN => NaN
  | Fin a, Fin b => Fin (a * b)
  | Fin a, y => scale_inf a y
  | x, Fin b => scale_inf b x
  | NInf, NInf | PInf, PInf => PInf
  | _, _ => NInf
  end.
Definition eexp (x : ext) : ext := match x with Fin r => Fin (exp r) | NInf => Fin 0 | PInf => PInf | NaN => NaN end.
Definition elog (x : ext) : ext :=
  match x with Fin r => if Req_EM_T r 0 then NInf else if Rlt_dec 0 r then Fin (ln r) else NaN | NInf => NaN | x => x end.
Definition emax (x y : ext) : ext :=
  match x, y with
  | NaN, _ | _, NaN => NaN
  | Fin a, Fin b => Fin (Rmax a b)
  | NInf, y => y
  | x, NInf => x
  | _, _ => PInf
  end.
Definition esum (n : nat) (f : nat -> ext) : ext := fold_right eadd (Fin 0) (map f (seq 0 n)).
Definition emaximum (n : nat) (f : nat -> ext) : ext := fold_right emax NInf (map f (seq 0 n)).
(** jnp.argmax: the first maximum, where NaN is larger than anything else.  ValueError if empty. *)
Definition egt (x y : ext) : bool :=
  match x, y with
  | _, NaN => false
  | NaN, _ => true
  | Fin a, Fin b => if Rlt_dec b a then true else false
  | _, PInf => false
  | PInf, _ => true
  | NInf, _ => false
  | Fin _, NInf => true
  end.
Definition argmax (n : nat) (f : nat -> ext) : res nat :=
  if n =? 0 then Raise ValueError else Ok (fold_left (fun best i => if egt (f i) (f best) then i else best) (seq 1 (n - 1)) 0).

(** ** Functions of jax and optax, from their documentation *)
(** jax.nn.logsumexp: the maximum is subtracted if it is finite. *)
Definition logsumexp (n : nat) (f : nat -> ext) : ext :=
  let m := match emaximum n f with Fin r => Fin r | _ => Fin 0 end in
  eadd (elog (esum n (fun i => eexp (esub (f i) m)))) m.
(** jax.nn.log_softmax of the rows of C logits *)
Definition log_softmax (C : nat) (x : nat -> ext) (c : nat) : ext :=
  let shifted := fun c => esub (x c) (emaximum C x) in
  esub (shifted c) (elog (esum C (fun c => eexp (shifted c)))).
(** jax.nn.log_sigmoid: - logaddexp(-x, 0) *)
Definition softplus (x : ext) : ext :=
  match x with Fin r => Fin (ln (exp r + 1)) | NInf => Fin 0 | PInf => PInf | NaN => NaN end.
Definition log_sigmoid (x : ext) : ext := eopp (softplus (eopp x)).

(** Arrays with two axes: the number of rows, and the rows of C classes *)
Definition rows := (nat * (nat -> nat -> ext))%type.
(** optax.softmax_cross_entropy.  Shapes must be the same; the broadcasting of a single row is not
    modelled. *)
Definition softmax_cross_entropy (C : nat) (logits labels : rows) : res (nat * (nat -> ext)) :=
  if negb (fst logits =? fst labels) then Raise TypeError
  else Ok (fst logits, fun r => eopp (esum C (fun c => emul (snd labels r c) (log_softmax C (snd logits r) c)))).
(** optax.sigmoid_binary_cross_entropy *)
Definition sigmoid_binary_cross_entropy (logits labels : rows) : res rows :=
  if negb (fst logits =? fst labels) then Raise TypeError
  else Ok (fst logits, fun r c =>
    let log_p := log_sigmoid (snd logits r c) in
    let log_not_p := log_sigmoid (eopp (snd logits r c)) in
    esub (emul (eopp (snd labels r c)) log_p) (emul (esub (Fin 1) (snd labels r c)) log_not_p)).

(** ** vmoe/evaluate/ensemble.py *)
(** 25-30 [_multiply_no_nan] *)
Definition nonzero (x : ext) : bool := match x with Fin r => if Req_EM_T r 0 then false else true | _ => true end.
Definition multiply_no_nan (x y : ext) : ext :=
  let x_ok := nonzero x in
  let safe_x := if x_ok then x else Fin 1 in
  let safe_y := if x_ok then y else Fin 1 in
  if x_ok then emul safe_x safe_y else Fin 0.
(** 33-53 [_ensemble_log_mean]; jnp.reshape raises TypeError if the rows are not a multiple of the
    ensemble size. *)
Definition ensemble_log_mean (C : nat) (logits : rows) (M : nat) (log_normalization_fn : (nat -> ext) -> nat -> ext) : res rows :=
  if (M =? 0) || negb (fst logits mod M =? 0) then Raise TypeError
  else
    let logits3 := fun b m => snd logits (b * M + m) in
    let log_ens_size := elog (Fin (INR M)) in
    let log_p := fun b m => log_normalization_fn (logits3 b m) in
    Ok (fst logits / M, fun b c => esub (logsumexp M (fun m => log_p b m c)) log_ens_size).
(** jnp.repeat(labels, ensemble_size, axis=0) *)
Definition repeat_labels (labels : rows) (M : nat) : rows := (fst labels * M, fun r => snd labels (r / M)).
(** 56-73 *)
Definition ensemble_softmax_xent_train (C M : nat) (repeated_logits labels : rows) : res (nat * (nat -> ext)) :=
  softmax_cross_entropy C repeated_logits (repeat_labels labels M).
(** 76-94 *)
Definition ensemble_sigmoid_xent_train (C M : nat) (repeated_logits labels : rows) : res (nat * (nat -> ext)) :=
  bind (sigmoid_binary_cross_entropy repeated_logits (repeat_labels labels M)) (fun losses =>
  Ok (fst losses, fun r => esum C (snd losses r))).
(** 97-112 *)
Definition ensemble_softmax_xent_eval (C M : nat) (logits labels : rows) : res (nat * (nat -> ext)) :=
  bind (ensemble_log_mean C logits M (log_softmax C)) (fun log_p =>
  if negb (fst labels =? fst log_p) then Raise TypeError
  else Ok (fst log_p, fun b => eopp (esum C (fun c => multiply_no_nan (snd labels b c) (snd log_p b c))))).
(** 115-130 *)
Definition ensemble_sigmoid_xent_eval (C M : nat) (logits labels : rows) : res (nat * (nat -> ext)) :=
  bind (ensemble_log_mean C logits M (fun x c => log_sigmoid (x c))) (fun log_p =>
  bind (ensemble_log_mean C (fst logits, fun r c => eopp (snd logits r c)) M (fun x c => log_sigmoid (x c))) (fun log_not_p =>
  if negb (fst labels =? fst log_p) then Raise TypeError
  else Ok (fst log_p, fun b => eopp (esum C (fun c =>
         eadd (emul (snd labels b c) (snd log_p b c)) (emul (esub (Fin 1) (snd labels b c)) (snd log_not_p b c))))))).
(** 133-145 and 148-160 *)
Definition predictions (C : nat) (x : rows) : res (list nat) := rmap (fun b => argmax C (snd x b)) (seq 0 (fst x)).
Definition label_pred_ensemble_softmax (C M : nat) (logits : rows) : res (list nat) :=
  bind (ensemble_log_mean C logits M (log_softmax C)) (predictions C).
Definition label_pred_ensemble_sigmoid (C M : nat) (logits : rows) : res (list nat) :=
  bind (ensemble_log_mean C logits M (fun x c => log_sigmoid (x c))) (predictions C).

(** ** trainer.py:441-477 [get_loss_fn]; the only keyword argument is the optional ensemble size.
    The functions raise TypeError when called without an ensemble size that they need, or with
    one that they do not take. *)
Definition loss_fn := rows -> rows -> res (nat * (nat -> ext)).
Definition default_sigmoid_xent (C : nat) : loss_fn := fun logits labels =>
  bind (sigmoid_binary_cross_entropy logits labels) (fun losses => Ok (fst losses, fun r => esum C (snd losses r))).
Definition plain_only (size : option nat) {A B} (f : A -> B -> res (nat * (nat -> ext))) : A -> B -> res (nat * (nat -> ext)) :=
  match size with None => f | Some _ => fun _ _ => Raise TypeError end.
Definition sized {X Y} (size : option nat) (f : nat -> X -> res Y) : X -> res Y :=
  match size with None => fun _ => Raise TypeError | Some M => f M end.
Definition sized2 {X Z Y} (size : option nat) (f : nat -> X -> Z -> res Y) : X -> Z -> res Y :=
  match size with None => fun _ _ => Raise TypeError | Some M => f M end.
Definition get_loss_fn (C : nat) (name : string) (size : option nat) : res (loss_fn * loss_fn * (rows -> res (list nat))) :=
  if String.eqb name "softmax_xent" then
    Ok (plain_only size (softmax_cross_entropy C), plain_only size (softmax_cross_entropy C), predictions C)
  else if String.eqb name "sigmoid_xent" then
    Ok (plain_only size (default_sigmoid_xent C), plain_only size (default_sigmoid_xent C), predictions C)
  else if String.eqb name "ensemble_softmax_xent" then
    Ok (sized2 size (ensemble_softmax_xent_train C), sized2 size (ensemble_softmax_xent_eval C), sized size (label_pred_ensemble_softmax C))
  else if String.eqb name "ensemble_sigmoid_xent" then
    Ok (sized2 size (ensemble_sigmoid_xent_train C), sized2 size (ensemble_sigmoid_xent_eval C), sized size (label_pred_ensemble_sigmoid C))
  else Raise ValueError.
