(** Vocabulary for C60 and C61. *)
From Coq Require Import List Arith ZArith Bool Reals.
From Verif Require Import Py NdArray.
Import ListNotations.
Local Open Scope nat_scope.

(** idx is a valid index of an array with sizes ds *)
Definition valid (ds idx : list nat) : Prop := Forall2 (fun i d => i < d) idx ds.
(** The axis z, counted from the end if it is negative, of an array with n axes is p *)
Definition is_axis (n : nat) (z : Z) (p : nat) : Prop := p < n /\ (z = Z.of_nat p \/ z = Z.of_nat p - Z.of_nat n)%Z.
(** l without, or with one more, entry at position p *)
Definition put (p x : nat) (l : list nat) : list nat := firstn p l ++ x :: skipn p l.
Definition without (p : nat) (l : list nat) : list nat := firstn p l ++ skipn (S p) l.
(** The entries of l at positions that are not in ps, in order *)
Definition others (ps l : list nat) : list nat :=
  map snd (filter (fun ix => negb (if in_dec Nat.eq_dec (fst ix) ps then true else false)) (combine (seq 0 (length l)) l)).
(** Two arrays are equal: sizes and entries *)
Definition same {T} (a b : nda T) : Prop := dims a = dims b /\ forall idx, valid (dims a) idx -> at_ a idx = at_ b idx.
(** The part of an array at index e of the first axis *)
Definition part {T} (e : nat) (a : nda T) : nda T := {| dims := tl (dims a); at_ := fun idx => at_ a (e :: idx) |}.

(** The number of tokens of a square grid with side g, with or without a token in front *)
Definition tokens_of (tok : bool) (g n : nat) : Prop := n = g * g + (if tok then 1 else 0) /\ (tok = true -> 1 <= g).
(** The embedding at row r, column c of the grid *)
Definition grid_at (tok : bool) (g : nat) (a : nda R) (r c k : nat) : R := at_ a [0; (if tok then 1 else 0) + (r * g + c); k].
(** Linear interpolation: y is the value at place i of n on the line through f 0, ..., f (o-1), when the first
    and last places coincide.  The coordinate i * (o-1) / (n-1) is q + w, between q and q+1.  A single place
    is the first. *)
Definition resized (o n : nat) (f : nat -> R) (i : nat) (y : R) : Prop :=
  (n = 1 /\ y = f 0) \/
  (2 <= n /\ exists q (w : R), (0 <= w < 1)%R /\ (INR q + w = INR i * INR (o - 1) / INR (n - 1))%R /\
     ((w = 0%R /\ q < o /\ y = f q) \/ (S q < o /\ y = ((1 - w) * f q + w * f (S q))%R))).
(** The same for a grid: first between rows, then between columns *)
Definition resized_grid (o n : nat) (f : nat -> nat -> R) (r c : nat) (y : R) : Prop :=
  exists row, (forall j, j < o -> resized o n (fun i => f i j) r (row j)) /\ resized o n row c y.
