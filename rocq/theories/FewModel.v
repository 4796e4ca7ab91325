(** Few-shot evaluation (vmoe/evaluate/fewshot.py; C48).  The model, the permutations of numpy's
    generator, np.argsort and the regression are arbitrary functions; the regression is in
    FitModel. *)
From Coq Require Import List Arith Bool Reals.
From Verif Require Import Py.
Import ListNotations.
Local Open Scope nat_scope.

Section Fewshot.
Variables St Img Feat : Type.
(** A batch: the images, labels and valid flags *)
Record batch := mkBatch { b_images : list Img; b_labels : list nat; b_valid : list bool }.
(** 280-291 [_fewshot_step]: features of a batch and the next state.  Labels and flags are returned
    as they are. *)
Variable fewshot_step : St -> list Img -> St * list Feat.

(** numpy's x[mask]: IndexError unless the lengths are the same *)
Fixpoint masked_rows {A} (x : list A) (mask : list bool) : res (list A) :=
  match x, mask with
  | [], [] => Ok []
  | a :: x, m :: mask => bind (masked_rows x mask) (fun r => Ok (if m : bool then a :: r else r))
  | _, _ => Raise IndexError
  end.
(** np.concatenate: ValueError for an empty list *)
Definition concatenate {A} (l : list (list A)) : res (list A) :=
  match l with [] => Raise ValueError | _ => Ok (concat l) end.
(** 260-277 [_compute_representation] *)
Definition compute_representation (state : St) (batches : list batch) : res (St * list Feat * list nat) :=
  bind (rfold (fun st b =>
          let '(state, fs, ls) := st in
          let '(state, features) := fewshot_step state (b_images b) in
          bind (masked_rows features (b_valid b)) (fun f =>
          bind (masked_rows (b_labels b) (b_valid b)) (fun l =>
          Ok (state, fs ++ [f], ls ++ [l])))) batches (state, [], [])) (fun st =>
  let '(state, fs, ls) := st in
  bind (concatenate fs) (fun features =>
  bind (concatenate ls) (fun labels => Ok (state, features, labels)))).

(** np.where(labels == c)[0] *)
Definition where_label (labels : list nat) (c : nat) : list nat := filter (fun i => nth i labels 0 =? c) (seq 0 (length labels)).
(** Fancy indexing; the indices are always valid here (IndexError otherwise). *)
Definition rows_at {A} (x : list A) (idx : list nat) : res (list A) :=
  rmap (fun i => match nth_error x i with Some a => Ok a | None => Raise IndexError end) idx.

(** rng.permutation of the class c, with the seed of the generator.  Simplified: the generator is
    shared by the classes (244-246), so that the permutation also depends on the sizes of the
    classes before c. *)
Variable permutation : nat -> nat -> list nat -> list nat.
(** 353-418: the accuracy on test examples of the regression of the training examples *)
Variable Acc : Type.
Variable accuracy : list Feat -> list nat -> nat -> list Feat -> list nat -> R -> Acc.
(** 244-250: the indices of the training examples for a number of shots *)
Definition class_indices (seed num_classes : nat) (labels : list nat) : list (list nat) :=
  map (fun c => permutation seed c (where_label labels c)) (seq 0 num_classes).
Definition shot_indices (shot : nat) (class_idx : list (list nat)) : res (list nat) :=
  concatenate (map (firstn shot) class_idx).
(** 227-257 [_compute_fewshot_metrics]; the results are the items of the dictionary in the order in
    which they are set. *)
Definition compute_fewshot_metrics (shots : list nat) (l2_regs : list R) (num_classes : nat) (state : St)
    (tr te : list batch) (seed : nat) : res (list (nat * R * Acc)) :=
  bind (compute_representation state tr) (fun r =>
  let '(state, tr_features, tr_labels) := r in
  bind (compute_representation state te) (fun r =>
  let '(state, te_features, te_labels) := r in
  let idx := class_indices seed num_classes tr_labels in
  bind (rmap (fun shot =>
          bind (shot_indices shot idx) (fun all_idx =>
          bind (rows_at tr_features all_idx) (fun x =>
          bind (rows_at tr_labels all_idx) (fun y =>
          Ok (map (fun l2 => (shot, l2, accuracy x y num_classes te_features te_labels l2)) l2_regs))))) shots) (fun results =>
  Ok (concat results)))).
End Fewshot.
Arguments mkBatch {Img}. Arguments b_images {Img}. Arguments b_labels {Img}. Arguments b_valid {Img}.
Arguments compute_representation {St Img Feat}. Arguments compute_fewshot_metrics {St Img Feat} _ _ {Acc}.
Arguments class_indices permutation seed num_classes labels : rename.

(** ** The best regularization *)
(** The last value that was set for the key, as in a dictionary; KeyError if there is none *)
Definition result_of {Acc} (results : list (nat * R * Acc)) (shot : nat) (l2 : R) : res Acc :=
  match find (fun r => (fst (fst r) =? shot) && (if Req_EM_T (snd (fst r)) l2 then true else false)) (rev results) with
  | Some r => Ok (snd r)
  | None => Raise KeyError
  end.
(** np.argmax of a list: the first maximum; ValueError if it is empty *)
Definition argmax_list (l : list R) : res nat :=
  match l with
  | [] => Raise ValueError
  | _ => Ok (fold_left (fun best i => if Rlt_dec (nth best l 0%R) (nth i l 0%R) then i else best) (seq 1 (length l - 1)) 0)
  end.
Section Best.
(** np.argsort, whose order of equal values is not specified *)
Variable argsort : list R -> list nat.
Definition ranks (accus : list R) : list nat := argsort (map INR (argsort accus)).
(** np.mean(reg_ranks, axis=0) for rows of n values *)
Definition mean_ranks (n : nat) (reg_ranks : list (list nat)) : list R :=
  map (fun i => (fold_right Rplus 0 (map (fun r => INR (nth i r 0%nat)) reg_ranks) / INR (length reg_ranks))%R) (seq 0 n).
(** 294-307 [_find_best_l2_reg], as the pairs (shot, l2).  Without results np.mean gives nan, and
    np.argmax gives 0. *)
Definition find_best_l2_reg {Name} (all_results : list (Name * list (nat * R * R))) (shots : list nat) (l2_regs : list R) : res (list (nat * R)) :=
  rmap (fun shot =>
    bind (rmap (fun nr => bind (rmap (fun l2 => result_of (snd nr) shot l2) l2_regs) (fun accus => Ok (ranks accus))) all_results) (fun reg_ranks =>
    bind (match reg_ranks with [] => Ok 0 | _ => argmax_list (mean_ranks (length l2_regs) reg_ranks) end) (fun i =>
    match nth_error l2_regs i with Some l2 => Ok (shot, l2) | None => Raise IndexError end))) shots.
End Best.

(** ** The callback (166-218) *)
Section Callback.
Variables St Img Feat Name : Type.
Variable name_eqb : Name -> Name -> bool.
Variable fewshot_step : St -> list Img -> St * list Feat.
Variable permutation : nat -> nat -> list nat -> list nat.
Variable argsort : list R -> list nat.
Variable accuracy : list Feat -> list nat -> nat -> list Feat -> list nat -> R -> R.
(** 154-164 and 174-175: the state and the seed of the permutation for each sub seed *)
Variable make_state : nat -> St.
Variable permute_seed : nat -> nat.
(** The dataset iterators are objects with an identity; [content] is all that they have after a
    reset, and the store is what is left in each of them.  310-329 [_get_datasets] uses the same
    object for equal pairs of name and split. *)
Variable content : nat -> list (batch Img).
Definition store := nat -> list (batch Img).
Definition set_store (s : store) (i : nat) (v : list (batch Img)) : store := fun j => if j =? i then v else s j.
(** The name of the results: with several seeds, the sub seed is a suffix. *)
Definition full_name (seeds_per_step : nat) (name : Name) (sub_seed : nat) : Name * option nat :=
  (name, if seeds_per_step =? 1 then None else Some sub_seed).
Definition full_eqb (a b : Name * option nat) : bool :=
  name_eqb (fst a) (fst b) && match snd a, snd b with None, None => true | Some i, Some j => i =? j | _, _ => false end.
Definition results_t := list ((Name * option nat) * list (nat * R * R)).
Fixpoint set_result (l : results_t) (k : Name * option nat) (v : list (nat * R * R)) : results_t :=
  match l with
  | [] => [(k, v)]
  | (k', v') :: l => if full_eqb k' k then (k', v) :: l else (k', v') :: set_result l k v
  end.
Definition get_result (l : results_t) (k : Name * option nat) : res (list (nat * R * R)) :=
  match find (fun kv => full_eqb (fst kv) k) l with Some kv => Ok (snd kv) | None => Raise KeyError end.
(** Names of the metrics, except for durations and the arguments of the hook *)
Inductive metric := BestL2 (shot : nat) | Shot (name : Name * option nat) (shot : nat) | Main (name : Name) (shot : nat).
(** 176-190, for one dataset: reading an iterator leaves nothing in it, until the reset. *)
Definition run_dataset (shots : list nat) (l2_regs : list R) (seeds_per_step sub_seed : nat) (st : results_t * store) (ds : Name * (nat * nat * nat))
  : res (results_t * store) :=
  let '(results, s) := st in
  let '(name, (tr, te, num_classes)) := ds in
  let tr_batches := s tr in
  let s := set_store s tr [] in
  let te_batches := s te in
  let s := set_store s te [] in
  bind (compute_fewshot_metrics fewshot_step permutation accuracy shots l2_regs num_classes (make_state sub_seed)
          tr_batches te_batches (permute_seed sub_seed)) (fun r =>
  let s := set_store s tr (content tr) in
  let s := set_store s te (content te) in
  Ok (set_result results (full_name seeds_per_step name sub_seed) r, s)).
(** 172-190 *)
Definition run_all (shots : list nat) (l2_regs : list R) (seeds_per_step : nat) (datasets : list (Name * (nat * nat * nat))) (s : store)
  : res (results_t * store) :=
  rfold (fun st sub_seed => rfold (run_dataset shots l2_regs seeds_per_step sub_seed) datasets st) (seq 0 seeds_per_step) ([], s).
Definition best_of (best : list (nat * R)) (shot : nat) : res R :=
  match find (fun b => fst b =? shot) best with Some b => Ok (snd b) | None => Raise KeyError end.
Definition accuracy_of (results : results_t) (best : list (nat * R)) (name : Name * option nat) (shot : nat) : res R :=
  bind (get_result results name) (fun r => bind (best_of best shot) (fun l2 => result_of r shot l2)).
Definition callback (shots : list nat) (l2_regs : list R) (seeds_per_step : nat) (datasets : list (Name * (nat * nat * nat)))
    (main_task : option (Name * nat)) (s : store) : res (list (metric * R) * store) :=
  bind (run_all shots l2_regs seeds_per_step datasets s) (fun rs =>
  let '(all_results, s) := rs in
  bind (find_best_l2_reg argsort all_results shots l2_regs) (fun best_l2 =>
  bind (rmap (fun nr => rmap (fun shot => bind (accuracy_of all_results best_l2 (fst nr) shot) (fun a => Ok (Shot (fst nr) shot, a))) shots) all_results) (fun m =>
  bind (match main_task with
        | None => Ok []
        | Some (name, shot) =>
            if seeds_per_step =? 1 then bind (accuracy_of all_results best_l2 (name, None) shot) (fun a => Ok [(Main name shot, a)])
            else if seeds_per_step =? 0 then Raise ZeroDivisionError
            else bind (rmap (fun i => accuracy_of all_results best_l2 (name, Some i) shot) (seq 0 seeds_per_step)) (fun accs =>
                 Ok [(Main name shot, (fold_right Rplus 0 accs / INR seeds_per_step)%R)])
        end) (fun main =>
  Ok (map (fun b => (BestL2 (fst b), snd b)) best_l2 ++ concat m ++ main, s))))).
End Callback.
