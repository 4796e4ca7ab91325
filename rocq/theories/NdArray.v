(** numpy arrays of any rank as functions of index lists, with reshape and transpose
    (row-major order), used by the models of partitioning and data handling. *)
From Coq Require Import List Arith Bool.
From Verif Require Import Py.
Import ListNotations.

Record nda (T : Type) := { dims : list nat; at_ : list nat -> T }.
Arguments dims {T}. Arguments at_ {T}.

Definition prod (l : list nat) : nat := fold_right Nat.mul 1 l.

(** Row-major flat index. *)
Fixpoint ravel (ds idx : list nat) : nat :=
  match ds, idx with
  | d :: ds, i :: idx => i * prod ds + ravel ds idx
  | _, _ => 0
  end.
Fixpoint unravel (ds : list nat) (n : nat) : list nat :=
  match ds with
  | [] => []
  | d :: ds => (n / prod ds) mod d :: unravel ds (n mod prod ds)
  end.

(** All the indices, in row-major order. *)
Fixpoint indices (ds : list nat) : list (list nat) :=
  match ds with
  | [] => [[]]
  | d :: ds => flat_map (fun i => map (cons i) (indices ds)) (seq 0 d)
  end.

(** a.flatten() *)
Definition flatten {T} (a : nda T) : list T := map (at_ a) (indices (dims a)).

(** a.reshape(shape): ValueError unless the sizes agree. *)
Definition reshape {T} (shape : list nat) (a : nda T) : res (nda T) :=
  if prod shape =? prod (dims a)
  then Ok {| dims := shape; at_ := fun idx => at_ a (unravel (dims a) (ravel shape idx)) |}
  else Raise ValueError.

Fixpoint index_of (i : nat) (l : list nat) : nat :=
  match l with
  | [] => 0
  | x :: r => if x =? i then 0 else S (index_of i r)
  end.
(** a.transpose(axes): axis j of the result is axis axes[j] of the argument.  ValueError if
    [axes] is not a permutation of the axes. *)
Definition transposed {T} (axes : list nat) (a : nda T) : nda T :=
  {| dims := map (fun x => nth x (dims a) 0) axes;
     at_ := fun idx => at_ a (map (fun i => nth (index_of i axes) idx 0) (seq 0 (length (dims a)))) |}.
Definition transpose {T} (axes : list nat) (a : nda T) : res (nda T) :=
  if (length axes =? length (dims a)) && forallb (fun i => existsb (Nat.eqb i) axes) (seq 0 (length (dims a)))
  then Ok (transposed axes a) else Raise ValueError.
