(** Array primitives (numpy / jax.numpy / jax.lax) used by the modelled code.
    Arrays are functions of their indices; dimensions are passed explicitly. *)
From Coq Require Import List Arith ZArith Bool.
Import ListNotations.

(** Stable insertion of index [x] into a list of indices sorted by [cmp]
    ([cmp i j = true] when [i] may come before [j]).
    Used for jnp.argsort (vmoe/moe.py:571,587) and jax.lax.top_k
    (vmoe/moe.py:567,671).  Both are stable: equal keys keep the index order. *)
Fixpoint insert_idx (cmp : nat -> nat -> bool) (x : nat) (l : list nat) : list nat :=
  match l with
  | [] => [x]
  | y :: l' => if cmp x y then x :: y :: l' else y :: insert_idx cmp x l'
  end.

(** Stable sort of the indices [0..n-1] (vmoe/moe.py:567,571,587,671). *)
Definition sort_idx (cmp : nat -> nat -> bool) (n : nat) : list nat :=
  fold_right (insert_idx cmp) [] (seq 0 n).

(** jnp.argsort of a 1-d array [key] of length [n] (vmoe/moe.py:571,587). *)
Definition argsort {T} (leb : T -> T -> bool) (n : nat) (key : nat -> T) : list nat :=
  sort_idx (fun i j => leb (key i) (key j)) n.

(** Indices returned by jax.lax.top_k on a row of length [n] (vmoe/moe.py:567,671).
    Requires k <= n; callers check it and model the error otherwise. *)
Definition top_k {T} (leb : T -> T -> bool) (n k : nat) (row : nat -> T) : list nat :=
  firstn k (sort_idx (fun i j => leb (row j) (row i)) n).

(** jax.nn.one_hot (vmoe/moe.py:577) as 0/1 integers. *)
Definition one_hot (i e : nat) : Z := if Nat.eqb i e then 1%Z else 0%Z.

(** jnp.cumsum along the leading axis, inclusive (vmoe/moe.py:580). *)
Fixpoint cumsum (f : nat -> Z) (i : nat) : Z :=
  match i with
  | O => f O
  | S j => (cumsum f j + f (S j))%Z
  end.

(** jnp.max over an axis of length [n >= 1] (vmoe/moe.py:612,646,684-685). *)
Definition zmax (n : nat) (f : nat -> Z) : Z :=
  fold_left (fun m i => Z.max m (f i)) (seq 1 (n - 1)) (f 0).
Definition zmin (n : nat) (f : nat -> Z) : Z :=
  fold_left (fun m i => Z.min m (f i)) (seq 1 (n - 1)) (f 0).

(** Row-major flattening of a 3-d array with dimensions (_, d1, d2)
    (ndarray.reshape / ravel, vmoe/moe.py:488-519). *)
Definition ravel3 {T} (d1 d2 : nat) (f : nat -> nat -> nat -> T) (i : nat) : T :=
  f (i / (d1 * d2)) ((i / d2) mod d1) (i mod d2).
(** Inverse of [ravel3]: view a flat array as (_, d1, d2). *)
Definition unravel3 {T} (d1 d2 : nat) (f : nat -> T) (a b c : nat) : T :=
  f ((a * d1 + b) * d2 + c).
(** Row-major flattening of a 4-d array with dimensions (_, d1, d2, d3). *)
Definition ravel4 {T} (d1 d2 d3 : nat) (f : nat -> nat -> nat -> nat -> T) (i : nat) : T :=
  f (i / (d1 * d2 * d3)) ((i / (d2 * d3)) mod d1) ((i / d3) mod d2) (i mod d3).
(** View a flat array as (_, d1, d2, d3). *)
Definition unravel4 {T} (d1 d2 d3 : nat) (f : nat -> T) (a b c d : nat) : T :=
  f (((a * d1 + b) * d2 + c) * d3 + d).
(** Row-major flattening of a 2-d array with dimensions (_, d1). *)
Definition ravel2 {T} (d1 : nat) (f : nat -> nat -> T) (i : nat) : T :=
  f (i / d1) (i mod d1).
(** View a flat array as (_, d1). *)
Definition unravel2 {T} (d1 : nat) (f : nat -> T) (a b : nat) : T := f (a * d1 + b).

(** jnp.swapaxes(0, 1) on 3-d and swapaxes(0, 2) on 4-d arrays. *)
Definition swap01 {T} (f : nat -> nat -> nat -> T) (a b c : nat) : T := f b a c.
Definition swap02 {T} (f : nat -> nat -> nat -> nat -> T) (a b c d : nat) : T := f c b a d.
