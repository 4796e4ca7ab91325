(** Vocabulary for C48. *)
From Coq Require Import List Arith Reals Permutation.
From Verif Require Import FewModel ElmSpec.
Import ListNotations.
Local Open Scope nat_scope.

(** The valid rows of the batches *)
Definition valid_rows {Img A} (rows : batch Img -> list A) (batches : list (batch Img)) : list A :=
  concat (map (fun b => map fst (filter snd (combine (rows b) (b_valid b)))) batches).
Definition well_formed {Img} (b : batch Img) : Prop :=
  length (b_images b) = length (b_valid b) /\ length (b_labels b) = length (b_valid b).
(** Number of examples with a label *)
Definition count_label (labels : list nat) (c : nat) : nat := length (filter (Nat.eqb c) labels).

(** A sort: a permutation of the indices with values in order *)
Definition sorts (l : list R) (p : list nat) : Prop :=
  Permutation p (seq 0 (length l)) /\ forall i j, i < j -> j < length l -> (nth (nth i p 0%nat) l 0 <= nth (nth j p 0%nat) l 0)%R.
(** A ranking from 0 to n-1, higher for higher values *)
Definition ranking (l : list R) (r : list nat) : Prop :=
  Permutation r (seq 0 (length l)) /\ forall i j, i < length l -> j < length l -> (nth i l 0 < nth j l 0)%R -> nth i r 0 < nth j r 0.
(** Sum of ranks over datasets *)
Definition total_rank (rs : list (list nat)) (i : nat) : nat := list_sum (map (fun r => nth i r 0) rs).
(** Features of the valid examples, with the state that each batch sees *)
Fixpoint batch_features {St Img Feat} (step : St -> list Img -> St * list Feat) (s : St) (batches : list (batch Img)) : list Feat :=
  match batches with
  | [] => []
  | b :: r => map fst (filter snd (combine (snd (step s (b_images b))) (b_valid b))) ++ batch_features step (fst (step s (b_images b))) r
  end.
Fixpoint state_after {St Img Feat} (step : St -> list Img -> St * list Feat) (s : St) (batches : list (batch Img)) : St :=
  match batches with [] => s | b :: r => state_after step (fst (step s (b_images b))) r end.
(** The results r of each dataset and sub seed, in order *)
Definition expected_results {Name} (seeds : nat) (datasets : list (Name * (nat * nat * nat))) (r : Name -> nat -> list (nat * R * R)) : results_t Name :=
  concat (map (fun sub => map (fun ds => (full_name Name seeds (fst ds) sub, r (fst ds) sub)) datasets) (seq 0 seeds)).
