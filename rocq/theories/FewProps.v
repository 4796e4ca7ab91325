(** C48: few-shot evaluation. *)
From Coq Require Import List Arith Bool Reals Lia Lra Permutation.
From Verif Require Import ElmSpec FewModel FewSpec FewProofs.
From Verif Require Import Py.
Import ListNotations.
Local Open Scope nat_scope.

(** C48: the representation has exactly the valid examples, in order, and their labels. *)
Theorem C48_representation : forall (St Img Feat : Type) (step : St -> list Img -> St * list Feat),
  (forall s x, length (snd (step s x)) = length x) -> forall s batches, (forall b, List.In b batches -> well_formed b) -> batches <> [] ->
  compute_representation step s batches = Ok (state_after step s batches, batch_features step s batches, valid_rows b_labels batches).
Proof. exact @representation_ok. Qed.
Print Assumptions C48_representation.
Example C48_representation_example :
  compute_representation (fun (s : nat) (x : list nat) => (S s, map (Nat.add (10 * s)) x)) 1
    [mkBatch [1; 2; 3] [0; 1; 0] [true; false; true]; mkBatch [4; 5; 6] [1; 1; 0] [true; true; false]] = Ok (3, [11; 13; 24; 25], [0; 0; 1; 1]).
Proof. reflexivity. Qed.

(** C48: the examples of a run are distinct, with labels in range, and for each class they are
    min(shot, available) many. *)
Theorem C48_sampling : forall (permutation : nat -> nat -> list nat -> list nat),
  (forall seed c l, Permutation (permutation seed c l) l) -> forall seed shot labels num_classes, 1 <= num_classes ->
  exists idx, shot_indices shot (class_indices permutation seed num_classes labels) = Ok idx /\ NoDup idx /\
    (forall i, List.In i idx -> i < length labels /\ nth i labels 0 < num_classes) /\
    forall c, c < num_classes -> length (filter (fun i => nth i labels 0 =? c) idx) = Nat.min shot (count_label labels c).
Proof. exact sampling. Qed.
Print Assumptions C48_sampling.
Example C48_sampling_example :
  shot_indices 2 (class_indices (fun _ _ l => rev l) 0 3 [0; 2; 0; 1; 0; 2]) = Ok [4; 2; 3; 5; 1].
Proof. reflexivity. Qed.

(** C48: runs with more shots use all examples of runs with less. *)
Theorem C48_nested : forall (permutation : nat -> nat -> list nat -> list nat) seed s1 s2 labels num_classes idx1 idx2,
  s1 <= s2 ->
  shot_indices s1 (class_indices permutation seed num_classes labels) = Ok idx1 -> shot_indices s2 (class_indices permutation seed num_classes labels) = Ok idx2 ->
  incl idx1 idx2.
Proof. exact nested. Qed.
Print Assumptions C48_nested.
Example C48_nested_example :
  let idx := class_indices (fun _ _ l => rev l) 0 2 [0; 1; 0; 1; 0; 1] in shot_indices 1 idx = Ok [4; 5] /\ shot_indices 2 idx = Ok [4; 2; 5; 3].
Proof. split; reflexivity. Qed.

(** C48: the results of a dataset: for each number of shots and L2, the accuracy of the regression of
    the examples sampled for these shots, on all valid test examples. *)
Theorem C48_results : forall (St Img Feat Acc : Type) (step : St -> list Img -> St * list Feat),
  (forall s x, length (snd (step s x)) = length x) -> forall (permutation : nat -> nat -> list nat -> list nat), (forall seed c l, Permutation (permutation seed c l) l) -> forall (accuracy : list Feat -> list nat -> nat -> list Feat -> list nat -> R -> Acc) shots l2_regs num_classes s tr te seed,
  (forall b, List.In b tr -> well_formed b) -> (forall b, List.In b te -> well_formed b) -> tr <> [] -> te <> [] -> 1 <= num_classes ->
  exists results, compute_fewshot_metrics step permutation accuracy shots l2_regs num_classes s tr te seed = Ok results /\
    forall shot l2, List.In shot shots -> List.In l2 l2_regs -> exists idx x y,
      shot_indices shot (class_indices permutation seed num_classes (valid_rows b_labels tr)) = Ok idx /\
      map (nth_error (batch_features step s tr)) idx = map Some x /\ map (nth_error (valid_rows b_labels tr)) idx = map Some y /\
      result_of results shot l2 = Ok (accuracy x y num_classes (batch_features step (state_after step s tr) te) (valid_rows b_labels te) l2).
Proof. exact @metrics_ok. Qed.
Print Assumptions C48_results.

(** C48: for each number of shots, the reported L2 has the highest sum over datasets of the ranks of its
    accuracy, the first one among those with the same sum. *)
Theorem C48_best_l2 : forall (argsort : list R -> list nat),
  (forall l, sorts l (argsort l)) -> forall (Name : Type) (all_results : list (Name * list (nat * R * R))) shots l2_regs (acc : Name * list (nat * R * R) -> nat -> R -> R),
  all_results <> [] -> l2_regs <> [] ->
  (forall nr shot l2, List.In nr all_results -> List.In shot shots -> List.In l2 l2_regs -> result_of (snd nr) shot l2 = Ok (acc nr shot l2)) ->
  exists best, find_best_l2_reg argsort all_results shots l2_regs = Ok best /\
    Forall2 (fun shot b => fst b = shot /\ exists rs i,
      Forall2 (fun nr r => ranking (map (acc nr shot) l2_regs) r) all_results rs /\
      i < length l2_regs /\ snd b = nth i l2_regs 0%R /\ first_best (length l2_regs) (fun i => INR (total_rank rs i)) i) shots best.
Proof. exact @best_ok. Qed.
Print Assumptions C48_best_l2.
Example C48_argsort_example : exists argsort : list R -> list nat, forall l, sorts l (argsort l).
Proof. exists insertion. exact insertion_sorts. Qed.

(** C48: no other L2 is better on all datasets. *)
Theorem C48_not_dominated : forall (argsort : list R -> list nat),
  (forall l, sorts l (argsort l)) -> forall (Name : Type) (all_results : list (Name * list (nat * R * R))) shots l2_regs (acc : Name * list (nat * R * R) -> nat -> R -> R) best,
  all_results <> [] -> l2_regs <> [] ->
  (forall nr shot l2, List.In nr all_results -> List.In shot shots -> List.In l2 l2_regs -> result_of (snd nr) shot l2 = Ok (acc nr shot l2)) ->
  find_best_l2_reg argsort all_results shots l2_regs = Ok best ->
  forall shot l2, List.In (shot, l2) best -> List.In l2 l2_regs /\ forall l2', List.In l2' l2_regs -> exists nr, List.In nr all_results /\ (acc nr shot l2' <= acc nr shot l2)%R.
Proof. exact @best_not_dominated. Qed.
Print Assumptions C48_not_dominated.

(** The choice among equal accuracies depends on the order of np.argsort, which is not specified. *)
Theorem C48_ties_refuted : exists argsort1 argsort2, (forall l, sorts l (argsort1 l)) /\ (forall l, sorts l (argsort2 l)) /\
  exists (all_results : list (nat * list (nat * R * R))) shots l2_regs b1 b2,
    find_best_l2_reg argsort1 all_results shots l2_regs = Ok b1 /\ find_best_l2_reg argsort2 all_results shots l2_regs = Ok b2 /\ b1 <> b2.
Proof. exact ties_refuted. Qed.
Print Assumptions C48_ties_refuted.

(** C48: the metrics of an evaluation, when each dataset has different iterators for training and test.
    All iterators are as before at the end, so that the next evaluation has the same data. *)
Theorem C48_callback : forall (St Img Feat Name : Type) (name_eqb : Name -> Name -> bool), (forall a b, name_eqb a b = true <-> a = b) ->
  forall (step : St -> list Img -> St * list Feat) (permutation : nat -> nat -> list nat -> list nat) (argsort : list R -> list nat), (forall l, sorts l (argsort l)) ->
  forall (accuracy : list Feat -> list nat -> nat -> list Feat -> list nat -> R -> R) make_state permute_seed content shots l2_regs seeds (datasets : list (Name * (nat * nat * nat))),
  NoDup (map fst datasets) ->
  forall (r : Name -> nat -> list (nat * R * R)),
  (forall name tr te n sub, List.In (name, (tr, te, n)) datasets -> sub < seeds ->
     tr <> te /\ compute_fewshot_metrics step permutation accuracy shots l2_regs n (make_state sub) (content tr) (content te) (permute_seed sub) = Ok (r name sub)) ->
  datasets <> [] -> l2_regs <> [] -> 1 <= seeds ->
  forall acc : Name -> nat -> nat -> R -> R,
  (forall name sub shot l2, List.In name (map fst datasets) -> sub < seeds -> List.In shot shots -> List.In l2 l2_regs -> result_of (r name sub) shot l2 = Ok (acc name sub shot l2)) ->
  forall main_task s,
  (forall i, s i = content i) ->
  match main_task with None => True | Some (name, shot) => List.In name (map fst datasets) /\ List.In shot shots end ->
  exists bestv s', find_best_l2_reg argsort (expected_results seeds datasets r) shots l2_regs = Ok (map (fun shot => (shot, bestv shot)) shots) /\
    (forall i, s' i = content i) /\
    callback St Img Feat Name name_eqb step permutation argsort accuracy make_state permute_seed content shots l2_regs seeds datasets main_task s =
    Ok (map (fun shot => (BestL2 Name shot, bestv shot)) shots ++
        concat (map (fun sub => concat (map (fun ds => map (fun shot => (Shot Name (full_name Name seeds (fst ds) sub) shot, acc (fst ds) sub shot (bestv shot))) shots) datasets)) (seq 0 seeds)) ++
        match main_task with None => [] | Some (name, shot) => [(Main Name name shot, mean seeds (fun sub => acc name sub shot (bestv shot)))] end, s').
Proof. exact @callback_ok. Qed.
Print Assumptions C48_callback.
Example C48_callback_example : exists bestv s',
  callback nat nat nat nat Nat.eqb (fun s x => (s, x)) (fun _ _ l => l) insertion (fun _ _ _ _ _ l2 => l2) (fun i => i) (fun i => i)
    (fun i => [mkBatch [i; 6; 9] [0; 1; 0] [true; true; false]]) [1] [1%R] 2 [(7, (0, 1, 2))] (Some (7, 1)) (fun i => [mkBatch [i; 6; 9] [0; 1; 0] [true; true; false]]) =
  Ok ([(BestL2 nat 1, bestv 1); (Shot nat (7, Some 0) 1, bestv 1); (Shot nat (7, Some 1) 1, bestv 1); (Main nat 7 1, mean 2 (fun _ => bestv 1))], s').
Proof.
  destruct (C48_callback nat nat nat nat Nat.eqb Nat.eqb_eq (fun s x => (s, x)) (fun _ _ l => l) insertion insertion_sorts (fun _ _ _ _ _ l2 => l2) (fun i => i) (fun i => i)
    (fun i => [mkBatch [i; 6; 9] [0; 1; 0] [true; true; false]]) [1] [1%R] 2 [(7, (0, 1, 2))] ltac:(repeat constructor; simpl; tauto) (fun _ _ => [(1, 1%R, 1%R)])
    ltac:(intros name tr te n sub [H|[]] _; injection H as <- <- <- <-; split; [lia|reflexivity])
    ltac:(discriminate) ltac:(discriminate) ltac:(lia) (fun _ _ _ l2 => l2)) with (main_task := Some (7, 1)) (s := fun i => [mkBatch [i; 6; 9] [0; 1; 0] [true; true; false]]) as (bestv & s' & _ & _ & E); eauto.
  - intros name sub shot l2 _ _ [<-|[]] [<-|[]]. apply result_unique; [left; auto|]. intros v' [H|[]]. congruence.
  - simpl. auto.
  - exists bestv, s'. exact E.
Qed.

(** If a dataset has the same split for training and test, which are then the same iterator, the
    evaluation always raises ValueError: no test examples are left. *)
Theorem C48_same_split_error : forall (St Img Feat Name : Type) (name_eqb : Name -> Name -> bool) (step : St -> list Img -> St * list Feat) permutation argsort accuracy make_state permute_seed content
    shots l2_regs seeds name i n rest main_task (s : store Img),
  (forall s x, length (snd (step s x)) = length x) -> (forall b, List.In b (s i) -> well_formed b) -> s i <> [] -> 1 <= seeds ->
  callback St Img Feat Name name_eqb step permutation argsort accuracy make_state permute_seed content shots l2_regs seeds ((name, (i, i, n)) :: rest) main_task s = Raise ValueError.
Proof. exact @same_split. Qed.
Print Assumptions C48_same_split_error.
Example C48_same_split_example :
  let b := mkBatch [4; 6; 9] [0; 1; 0] [true; true; false] in
  callback nat nat nat nat Nat.eqb (fun s x => (s, x)) (fun _ _ l => l) insertion (fun _ _ _ _ _ l2 => l2) (fun i => i) (fun i => i)
    (fun i => [b]) [1] [1%R] 2 [(7, (0, 0, 2))] None (fun i => [b]) = Raise ValueError.
Proof. reflexivity. Qed.

