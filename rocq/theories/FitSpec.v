(** Vocabulary for C55. *)
From Coq Require Import List Arith Bool Reals.
From Verif Require Import SoftSpec ElmSpec FitModel.
Local Open Scope nat_scope.

(** e and q are eigenvalues and orthonormal eigenvectors of the matrix a *)
Definition identity (i j : nat) : R := if i =? j then 1%R else 0%R.
Definition decomposition (n : nat) (a : nat -> nat -> R) (e : nat -> R) (q : nat -> nat -> R) : Prop :=
  (forall i j, i < n -> j < n -> sum_to n (fun k => q k i * q k j)%R = identity i j) /\
  (forall i j, i < n -> j < n -> sum_to n (fun k => q i k * q j k)%R = identity i j) /\
  forall i j, i < n -> j < n -> sum_to n (fun k => q i k * e k * q j k)%R = a i j.
(** eigh gives such a decomposition of the matrix *)
Definition decomposes (eigh : matrix -> (nat -> R) * matrix) (a : matrix) : Prop :=
  m_rows (snd (eigh a)) = m_rows a /\ m_cols (snd (eigh a)) = m_rows a /\
  decomposition (m_rows a) (m_at a) (fst (eigh a)) (m_at (snd (eigh a))).
(** ... of the products of pairs of features, or of pairs of examples, of x *)
Definition decomposes_products (eigh : matrix -> (nat -> R) * matrix) (x : matrix) : Prop :=
  if m_cols x <=? m_rows x then decomposes eigh (matmul (transpose x) x) else decomposes eigh (matmul x (transpose x)).

(** Features are normalized by their mean and standard deviation in n training examples. *)
Definition deviation (n : nat) (f : nat -> R) : R := sqrt (mean n (fun i => (f i - mean n f) * (f i - mean n f)))%R.
Definition normalized (n : nat) (f : nat -> R) (v : R) : R := ((v - mean n f) / (deviation n f + / 100000))%R.
(** The features that are used in the regression: those normalized, and a constant for the bias *)
Definition augmented (x : matrix) : matrix :=
  mkMat (m_rows x) (S (m_cols x)) (fun i d => if d <? m_cols x then normalized (m_rows x) (fun i => m_at x i d) (m_at x i d) else 100%R).
(** The score of a class is a linear function of the normalized features, with weights and a bias. *)
Definition score (x : matrix) (w : nat -> R) (b : R) (v : nat -> R) : R :=
  (sum_to (m_cols x) (fun d => normalized (m_rows x) (fun i => m_at x i d) (v d) * w d) + b)%R.
(** Scores should be 1 for the class of the example and -1 for others. *)
Definition sign (y c : nat) : R := if y =? c then 1%R else (-1)%R.
Definition square (r : R) : R := (r * r)%R.
(** What the regression minimizes: the squared errors, and the penalty of the weights and, with a
    factor of 1/10000, of the biases *)
Definition loss (x : matrix) (y : nat -> nat) (C : nat) (l2 : R) (w : nat -> nat -> R) (b : nat -> R) : R :=
  sum_to C (fun c =>
    sum_to (m_rows x) (fun i => square (score x (w c) (b c) (m_at x i) - sign (y i) c)) +
    l2 * (sum_to (m_cols x) (fun d => square (w c d)) + square (b c / 100)))%R.
(** w and b are the only minimum *)
Definition fitted (x : matrix) (y : nat -> nat) (C : nat) (l2 : R) (w : nat -> nat -> R) (b : nat -> R) : Prop :=
  forall w' b', (loss x y C l2 w b <= loss x y C l2 w' b')%R /\
    (loss x y C l2 w' b' = loss x y C l2 w b -> forall c, c < C -> b' c = b c /\ forall d, d < m_cols x -> w' c d = w c d).
(** acc is the fraction of the T examples where the first class with the highest score is the label *)
Definition is_accuracy (T C : nat) (scores : nat -> nat -> R) (y : nat -> nat) (acc : R) : Prop :=
  exists pred, (forall t, t < T -> first_best C (scores t) (pred t)) /\
    acc = (INR (length (filter (fun t => pred t =? y t) (seq 0 T))) / INR T)%R.
(** The same examples in another order; the same examples with a constant added to each feature *)
Definition permuted (p : nat -> nat) (x : matrix) : matrix := mkMat (m_rows x) (m_cols x) (fun i => m_at x (p i)).
Definition shifted (k : nat -> R) (x : matrix) : matrix := mkMat (m_rows x) (m_cols x) (fun i d => m_at x i d + k d)%R.
