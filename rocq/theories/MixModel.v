(** Mixup (vmoe/train/trainer.py:556-634) and the training step with it (889-968), over the
    reals (C35). *)
From Coq Require Import List Arith Bool Reals.
From Verif Require Import Py NdArray TreeModel MapModel.
Import ListNotations.
Local Open Scope nat_scope.

Definition rleb (a b : R) : bool := if Rle_dec a b then true else false.

(** Dimensions that broadcast together, and the result *)
Fixpoint broadcast (a b : list nat) : option (list nat) :=
  match a, b with
  | [], [] => Some []
  | x :: a, y :: b =>
      match broadcast a b with
      | None => None
      | Some r => if (x =? y) || (y =? 1) then Some (x :: r) else if x =? 1 then Some (y :: r) else None
      end
  | _, _ => None
  end.
(** The index into an array of dimensions [ds] that is broadcast *)
Fixpoint pick (ds idx : list nat) : list nat :=
  match ds, idx with
  | d :: ds, i :: idx => (if d =? 1 then 0 else i) :: pick ds idx
  | _, _ => []
  end.
(** The index from which jnp.roll(x, -k, axis) takes an element *)
Fixpoint rolled (ds : list nat) (k axis : nat) (idx : list nat) : list nat :=
  match ds, idx with
  | d :: ds, i :: idx => match axis with O => ((i + k) mod d) :: idx | S axis => i :: rolled ds k axis idx end
  | _, _ => idx
  end.

Section Mixup.
(** Random keys; samples from a Dirichlet distribution of some shape with the given
    concentration (the last axis is that of the weights) *)
Variable key : Type.
Variable dirichlet : key -> R -> list nat -> nda R.

(** 612-628: the weights of a batch index, largest first: alpha = -sort(-alpha) *)
Definition weights (alpha : nda R) (size : nat) (b : list nat) : list R :=
  map Ropp (sort_by rleb (map (fun i => Ropp (at_ alpha (b ++ [i]))) (seq 0 size))).
(** 629-633 [mix] *)
Definition mix (alpha : nda R) (s : list nat) (size roll_axis : nat) (x : nda R) (out_batch : list nat) : nda R :=
  {| dims := out_batch ++ skipn (length s) (dims x);
     at_ := fun idx =>
       fold_left Rplus
         (map (fun i => (nth i (weights alpha size (pick s idx)) 0 *
                         at_ x (rolled (dims x) i roll_axis (pick (firstn (length s) (dims x)) idx ++ skipn (length s) idx)))%R)
              (seq 0 size)) 0%R |}.

(** 556-634 [mixup].  Arrays with fewer dimensions than the batch dimensions of [shape] are
    not modelled (here they raise). *)
Definition mixup (rng : key) (arrays : list (nda R)) (concentration : R) (shape : list nat) (roll_axis : nat) : res (list (nda R)) :=
  if length shape <? 2 then Raise ValueError
  else
    let s := removelast shape in
    let size := last shape 0 in
    let first := match arrays with x :: _ => firstn (length s) (dims x) | [] => [] end in
    bind (rmap (fun x =>
            match broadcast (firstn (length s) (dims x)) s with
            | None => Raise ValueError
            | Some b => if list_eq_dec Nat.eq_dec (firstn (length s) (dims x)) first then Ok (x, b) else Raise ValueError
            end) arrays) (fun xs =>
    if negb (roll_axis <? length s) then Raise ValueError
    else if Rle_dec concentration 0 then Raise ValueError
    else
      let alpha := dirichlet rng concentration shape in
      Ok (map (fun xb => mix alpha s size roll_axis (fst xb) (snd xb)) xs)).

Inductive granularity := GBatch | GDevice | GExample | GOther.

(** x.reshape((n, -1) + x.shape[1:]) and x.reshape((-1,) + x.shape[2:]) *)
Definition split_first (n : nat) (x : nda R) : res (nda R) :=
  match dims x with
  | [] => Raise TypeError
  | b :: rest => if (0 <? n) && (b mod n =? 0) then reshape (n :: b / n :: rest) x else Raise TypeError
  end.
Definition join_first (x : nda R) : res (nda R) :=
  match dims x with
  | a :: b :: rest => reshape (a * b :: rest) x
  | _ => Raise TypeError
  end.

(** jax.random.split *)
Variable split_key : key -> key * key.
Definition mixup_name : str := [109; 105; 120; 117; 112].
Fixpoint dremove {V} (d : list (str * V)) (k : str) : list (str * V) :=
  match d with
  | [] => []
  | (k', v) :: r => if str_eqb k' k then r else (k', v) :: dremove r k
  end.

(** 889-968 [wrap_train_step_with_mixup]: the train step takes the random keys of the state,
    images and labels, and returns the keys of the new state and the rest.  (Unless the keys
    are frozen, the dict of the given state is modified in place, which is not modelled.) *)
Definition wrap_train_step_with_mixup {out} (device_count : nat)
    (train_step_fn : list (str * key) -> nda R -> nda R -> res (list (str * key) * out))
    (concentration : option R) (gran : granularity) (size : nat)
  : list (str * key) -> nda R -> nda R -> res (list (str * key) * out) :=
  match concentration with
  | None => train_step_fn
  | Some c =>
      if Req_EM_T c 0 then train_step_fn
      else fun rngs images labels =>
        match dget rngs mixup_name with
        | None => Raise ValueError
        | Some mixup_rng =>
            let rngs := dremove rngs mixup_name in
            let '(mixup_rng, next_mixup_rng) := split_key mixup_rng in
            bind (split_first device_count images) (fun images =>
            bind (split_first device_count labels) (fun labels =>
            bind (match gran with
                  | GBatch => Ok [1; 1; size]
                  | GDevice => Ok [nth 0 (dims images) 0; 1; size]
                  | GExample => Ok [nth 0 (dims images) 0; nth 1 (dims images) 0; size]
                  | GOther => Raise ValueError
                  end) (fun shape =>
            bind (mixup mixup_rng [images; labels] c shape 1) (fun mixed =>
            match mixed with
            | [images; labels] =>
                bind (join_first images) (fun images =>
                bind (join_first labels) (fun labels =>
                bind (train_step_fn rngs images labels) (fun r =>
                Ok (dset (fst r) mixup_name next_mixup_rng, snd r))))
            | _ => Raise ValueError
            end))))
        end
  end.
End Mixup.
