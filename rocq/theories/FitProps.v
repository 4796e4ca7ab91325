(** C55: the classifier of few-shot evaluation is a regularized linear regression. *)
From Coq Require Import List Arith Bool Reals Lia Lra Permutation.
From Verif Require Import ElmSpec FewModel FewSpec FitModel FitSpec FitProofs.
From Verif Require Import Py.
Import ListNotations.
Local Open Scope nat_scope.

(** C55: if eigh decomposes the matrix that it gets, the accuracy is that of the only linear classifier
    with minimal penalized squared error, with more or with fewer examples than features. *)
Theorem C55_fit : forall eigh x y C x_test y_test l2,
  (0 < l2)%R -> 1 <= m_rows x -> 1 <= m_rows x_test -> 1 <= C -> m_cols x_test = m_cols x ->
  decomposes_products eigh (augmented x) ->
  exists w b acc, fitted x y C l2 w b /\ regression_accuracy eigh x y C x_test y_test l2 = Ok acc /\
    is_accuracy (m_rows x_test) C (fun t c => score x (w c) (b c) (m_at x_test t)) y_test acc.
Proof. exact fit_ok. Qed.
Print Assumptions C55_fit.
Example C55_fit_example : exists w b acc,
  fitted (mkMat 2 1 (fun i _ => if i =? 0 then 0%R else 2%R)) (fun i => i) 2 1 w b /\
  regression_accuracy diag_eigh (mkMat 2 1 (fun i _ => if i =? 0 then 0%R else 2%R)) (fun i => i) 2 (mkMat 1 1 (fun _ _ => 3%R)) (fun _ => 1) 1 = Ok acc.
Proof.
  destruct (C55_fit diag_eigh (mkMat 2 1 (fun i _ => if i =? 0 then 0%R else 2%R)) (fun i => i) 2 (mkMat 1 1 (fun _ _ => 3%R)) (fun _ => 1) 1) as (w & b & acc & F & E & _);
    try (cbn [m_rows m_cols]; lra || lia || exact two_examples). exists w, b, acc. auto.
Qed.

(** C55: the accuracy depends neither on the order of training examples nor on the choice of eigenvectors. *)
Theorem C55_order : forall eigh eigh' x y p C x_test y_test l2,
  (0 < l2)%R -> 1 <= m_rows x -> 1 <= m_rows x_test -> 1 <= C -> m_cols x_test = m_cols x ->
  Permutation (map p (seq 0 (m_rows x))) (seq 0 (m_rows x)) ->
  decomposes_products eigh (augmented x) -> decomposes_products eigh' (augmented (permuted p x)) ->
  regression_accuracy eigh' (permuted p x) (fun i => y (p i)) C x_test y_test l2 = regression_accuracy eigh x y C x_test y_test l2.
Proof. exact order_ok. Qed.
Print Assumptions C55_order.

(** C55: nor on constants added to features. *)
Theorem C55_shift : forall eigh x y C x_test y_test l2 k,
  1 <= m_rows x ->
  regression_accuracy eigh (shifted k x) y C (shifted k x_test) y_test l2 = regression_accuracy eigh x y C x_test y_test l2.
Proof. exact shift_ok. Qed.
Print Assumptions C55_shift.

(** C55: in the training examples, normalized features have mean 0, and a deviation slightly less than 1,
    or 0 if the feature is constant. *)
Theorem C55_normalized_mean : forall n f,
  1 <= n -> mean n (fun i => normalized n f (f i)) = 0%R.
Proof. exact normalized_mean. Qed.
Print Assumptions C55_normalized_mean.

(**  *)
Theorem C55_normalized_deviation : forall n f,
  1 <= n -> deviation n (fun i => normalized n f (f i)) = (deviation n f / (deviation n f + / 100000))%R.
Proof. exact normalized_deviation. Qed.
Print Assumptions C55_normalized_deviation.

(** C55: without classes there is an error. *)
Theorem C55_no_classes : forall eigh x y x_test y_test l2,
  1 <= m_rows x_test -> regression_accuracy eigh x y 0 x_test y_test l2 = Raise ValueError.
Proof. exact no_classes. Qed.
Print Assumptions C55_no_classes.

(** C55, with C48: when all training examples are used, the accuracy does not depend on the seed of the
    permutations. *)
Theorem C55_seed : forall {St Img} (step : St -> list Img -> St * list (nat -> R)) permutation eigh D shots l2_regs C s tr te seed seed' shot l2,
  (forall s x, length (snd (step s x)) = length x) -> (forall seed c l, Permutation (permutation seed c l) l) ->
  (forall b, List.In b tr -> well_formed b) -> (forall b, List.In b te -> well_formed b) -> tr <> [] -> 1 <= length (valid_rows b_labels te) -> 1 <= C ->
  List.In shot shots -> List.In l2 l2_regs -> (0 < l2)%R -> (forall c, c < C -> count_label (valid_rows b_labels tr) c <= shot) ->
  (forall x, incl x (batch_features step s tr) -> decomposes_products eigh (augmented (rows_matrix D x))) ->
  exists r r' acc, compute_fewshot_metrics step permutation (fewshot_accuracy eigh D) shots l2_regs C s tr te seed = Ok r /\
    compute_fewshot_metrics step permutation (fewshot_accuracy eigh D) shots l2_regs C s tr te seed' = Ok r' /\
    result_of r shot l2 = Ok acc /\ result_of r' shot l2 = Ok acc.
Proof. exact @seed_ok. Qed.
Print Assumptions C55_seed.
Example C55_seed_example : exists r r' acc,
  compute_fewshot_metrics (fun (s : nat) (x : list (nat -> R)) => (s, x)) (fun s _ l => if s =? 0 then l else rev l) (fewshot_accuracy diag_eigh 0) [3] [1%R] 2 0
    [mkBatch [(fun _ => 1%R); (fun _ => 2%R); (fun _ => 3%R)] [0; 1; 0] [true; true; true]] [mkBatch [(fun _ => 2%R)] [1] [true]] 0 = Ok r /\
  compute_fewshot_metrics (fun (s : nat) (x : list (nat -> R)) => (s, x)) (fun s _ l => if s =? 0 then l else rev l) (fewshot_accuracy diag_eigh 0) [3] [1%R] 2 0
    [mkBatch [(fun _ => 1%R); (fun _ => 2%R); (fun _ => 3%R)] [0; 1; 0] [true; true; true]] [mkBatch [(fun _ => 2%R)] [1] [true]] 1 = Ok r' /\
  result_of r 3 1%R = Ok acc /\ result_of r' 3 1%R = Ok acc.
Proof.
  apply C55_seed; try (cbn; auto; lia); try discriminate; try lra.
  - intros seed c l. destruct (seed =? 0); [reflexivity|symmetry; apply Permutation_rev].
  - intros b [<-|[]]. split; reflexivity.
  - intros b [<-|[]]. split; reflexivity.
  - intros [|[|c]] H; cbn; lia.
  - intros x _. apply no_features.
Qed.

