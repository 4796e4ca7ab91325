(** The linear regression of few-shot evaluation (vmoe/evaluate/fewshot.py:353-418; C55), over the real
    numbers.  jnp.linalg.eigh is an arbitrary function. *)
From Coq Require Import List Arith Bool Reals.
From Verif Require Import SoftModel FewModel.
From Verif Require Import Py.
Import ListNotations.
Local Open Scope nat_scope.

(** Arrays with two axes.  The shapes always match here; errors for others are not modelled. *)
Record matrix := mkMat { m_rows : nat; m_cols : nat; m_at : nat -> nat -> R }.
Definition transpose (a : matrix) : matrix := mkMat (m_cols a) (m_rows a) (fun i j => m_at a j i).
Definition matmul (a b : matrix) : matrix := mkMat (m_rows a) (m_cols b) (fun i j => sumf (m_cols a) (fun k => m_at a i k * m_at b k j)%R).
(** jnp.mean and jnp.std over axis 0 *)
Definition mean0 (a : matrix) (d : nat) : R := (sumf (m_rows a) (fun i => m_at a i d) / INR (m_rows a))%R.
Definition std0 (a : matrix) (d : nat) : R :=
  sqrt (sumf (m_rows a) (fun i => (m_at a i d - mean0 a d) * (m_at a i d - mean0 a d)) / INR (m_rows a))%R.
(** 44 [BIAS_CONSTANT] *)
Definition bias_constant : R := 100%R.
(** 357-358 and 381-384: subtract the mean, divide by std, and add a column with the constant *)
Definition prepare (mean std : nat -> R) (x : matrix) : matrix :=
  mkMat (m_rows x) (S (m_cols x)) (fun i d => if d <? m_cols x then ((m_at x i d - mean d) / std d)%R else bias_constant).
(** 387: labels that are not classes have -1 everywhere *)
Definition targets (num_points : nat) (y : nat -> nat) (num_classes : nat) : matrix :=
  mkMat num_points num_classes (fun i c => (2 * (if y i =? c then 1 else 0) - 1)%R).

Record cache := mkCache { c_eigs : nat -> R; c_rhs : matrix; c_lhs : matrix; c_mean : nat -> R; c_std : nat -> R }.
Section Eigh.
(** jnp.linalg.eigh: eigenvalues and eigenvectors *)
Variable eigh : matrix -> (nat -> R) * matrix.
(** 375-418 [_precompute_cache]; 1e-5 is exactly that. *)
Definition precompute_cache (x : matrix) (y : nat -> nat) (num_classes : nat) : cache :=
  let mean := mean0 x in
  let std := fun d => (std0 x d + / 100000)%R in
  let x := prepare mean std x in
  let y := targets (m_rows x) y num_classes in
  if m_cols x <=? m_rows x then
    let '(eigs, q) := eigh (matmul (transpose x) x) in
    mkCache eigs (matmul (transpose q) (matmul (transpose x) y)) q mean std
  else
    let '(eigs, q) := eigh (matmul x (transpose x)) in
    mkCache eigs (matmul (transpose q) y) (matmul (transpose x) q) mean std.
(** 353-371 [_eig_fewshot_acc_fn].  jnp.argmax is a ValueError if there are no classes.  There must be
    a test example: jnp.mean of nothing is NaN.  l2_reg must be positive, otherwise scaling may be
    infinite. *)
Definition eig_fewshot_acc_fn (cache : cache) (x_test : matrix) (y_test : nat -> nat) (l2_reg : R) : res R :=
  let x_test := prepare (c_mean cache) (c_std cache) x_test in
  let scaling := fun k => (1 / (c_eigs cache k + l2_reg))%R in
  let w := matmul (mkMat (m_rows (c_lhs cache)) (m_cols (c_lhs cache)) (fun i k => m_at (c_lhs cache) i k * scaling k)%R) (c_rhs cache) in
  let scores := matmul x_test w in
  bind (rmap (fun i => argmax_list (map (m_at scores i) (seq 0 (m_cols scores)))) (seq 0 (m_rows scores))) (fun preds =>
  Ok (sumf (m_rows scores) (fun i => if (nth i preds 0 =? y_test i)%nat then 1%R else 0%R) / INR (m_rows scores))%R).
Definition regression_accuracy (x : matrix) (y : nat -> nat) (num_classes : nat) (x_test : matrix) (y_test : nat -> nat) (l2_reg : R) : res R :=
  eig_fewshot_acc_fn (precompute_cache x y num_classes) x_test y_test l2_reg.
(** The same with lists of rows, for 252-255 in FewModel; D is the number of features. *)
Definition rows_matrix (D : nat) (x : list (nat -> R)) : matrix := mkMat (length x) D (fun i => nth i x (fun _ => 0%R)).
Definition fewshot_accuracy (D : nat) (x : list (nat -> R)) (y : list nat) (num_classes : nat) (x_test : list (nat -> R)) (y_test : list nat) (l2_reg : R) : res R :=
  regression_accuracy (rows_matrix D x) (fun i => nth i y 0) num_classes (rows_matrix D x_test) (fun i => nth i y_test 0) l2_reg.
End Eigh.
