(** Gradient accumulation over microsteps (vmoe/train/trainer.py:76-131; C34) and the number
    of training steps (trainer.py:480-497; C37). *)
From Coq Require Import List Arith ZArith Reals QArith Qround.
From Verif Require Import Py.
Import ListNotations.
Local Open Scope nat_scope.

Section Microsteps.
(** An image, a label, the parameters and the random generators *)
Variable X Y params_t rngs_t : Type.
(** A function that computes gradients and metrics, which are given as the lists of the
    numbers in them *)
Definition fn_t := params_t -> list X -> list Y -> rngs_t -> res (list R * (rngs_t * list R)).

(** x.reshape((-1, microsteps) + x.shape[1:]) needs the size to be a multiple (jax raises a
    TypeError); then dynamic_index_in_dim(x, i, axis=1, keepdims=False) takes from each row of
    [microsteps] elements the i-th. *)
Definition take {T} (microsteps : nat) (l : list T) (i : nat) : list T :=
  flat_map (fun j => match nth_error l (j * microsteps + i) with Some x => [x] | None => [] end)
    (seq 0 (length l / microsteps)).

(** tree_map(x + y) over trees with the same structure *)
Fixpoint add_all (a b : list R) : res (list R) :=
  match a, b with
  | [], [] => Ok []
  | x :: a, y :: b => bind (add_all a b) (fun r => Ok ((x + y)%R :: r))
  | _, _ => Raise ValueError
  end.

(** trainer.py:76-131 [accumulate_gradients_and_metrics]; [microsteps] is None or an integer. *)
Definition accumulate_gradients_and_metrics (device_count : nat) (fn : fn_t) (microsteps : option Z) : fn_t :=
  match microsteps with
  | None => fn
  | Some z =>
      if (z <=? 0)%Z then fn
      else
        let m := Z.to_nat z in
        fun params images labels rngs =>
          let batch_size := length images in
          let batch_size_per_device := batch_size / device_count in
          if negb (batch_size_per_device mod m =? 0) then Raise AssertionError
          else if negb (length images mod m =? 0) then Raise TypeError
          else if negb (length labels mod m =? 0) then Raise TypeError
          else
            bind (fn params (take m images 0) (take m labels 0) rngs) (fun first =>
            bind (rfold (fun state i =>
                    let '(grad, (rngs, metrics)) := state in
                    bind (fn params (take m images i) (take m labels i) rngs) (fun new =>
                    bind (add_all grad (fst new)) (fun grad =>
                    bind (add_all metrics (snd (snd new))) (fun metrics =>
                    Ok (grad, (fst (snd new), metrics))))))
                  (seq 1 (m - 1)) first) (fun state =>
            let '(grads, (next_rngs, metrics)) := state in
            Ok (map (fun x => (x / INR m)%R) grads, (next_rngs, map (fun x => (x / INR m)%R) metrics))))
  end.
End Microsteps.

(** trainer.py:480-497 [get_train_steps_and_epochs], with exact rational arithmetic instead of
    floats.  train_examples = 0 raises in the last division. *)
Definition falsy_z (o : option Z) : bool := match o with None => true | Some z => (z =? 0)%Z end.
Definition falsy_q (o : option Q) : bool := match o with None => true | Some q => Qeq_bool q 0 end.
Definition get_train_steps_and_epochs (train_batch_size train_examples : Z) (train_steps : option Z) (train_epochs : option Q)
  : res (Z * Q) :=
  if falsy_z train_steps && falsy_q train_epochs then Raise ValueError
  else
    match train_steps, train_epochs with
    | Some _, Some _ => Raise ValueError
    | _, _ =>
        bind (match train_steps with
              | Some s => if (s =? 0)%Z then Raise TypeError else Ok s
              | None => match train_epochs with
                        | None => Raise TypeError
                        | Some e => if (train_batch_size =? 0)%Z then Raise ZeroDivisionError
                                    else Ok (Qceiling (e * inject_Z train_examples / inject_Z train_batch_size))
                        end
              end) (fun steps =>
        if (train_examples =? 0)%Z then Raise ZeroDivisionError
        else Ok (steps, (inject_Z (steps * train_batch_size) / inject_Z train_examples)%Q))
    end.
