(** C98: what is cached is what was asked for. *)
From Coq Require Import List Arith Bool Reals Lia.
From Verif Require Import TreeModel FewModel CacModel CacSpec CacProofs.
From Verif Require Import Py PyLemmas.
Import ListNotations.
Local Open Scope nat_scope.

(** A cached call is served by the first call with the same key that succeeded, or else by itself; and the function itself is
    called only if no call with the same key has succeeded. *)
Theorem C98_cached : forall (A K R : Type) (keq : forall a b : K, {a = b} + {a <> b}) (key : A -> K) (f : A -> res R) (l : list A),
  length (fst (calls A K R keq key f [] l)) = length l
  /\ (forall i a r, nth_error l i = Some a -> nth_error (fst (calls A K R keq key f [] l)) i = Some r -> served key f (firstn i l) a r)
  /\ made key f [] l (snd (calls A K R keq key f [] l)).
Proof. intros A K R keq key f l. exact (calls_served keq key f l [] [] (inv_nil keq key f)). Qed.
Print Assumptions C98_cached.

(** Every dataset is read by the builder that its configuration describes.
    What is missing: configurations of the same name and directory that differ otherwise, for which it is false
    (C98_builders_refuted). *)
Theorem C98_builders_partial : forall (B : Type) (tfds : request -> res B) (l : list source),
  (forall a b, In a l -> In b l -> agree a b) -> builders B tfds l = map (make_builder B tfds) l
  /\ forall a, (has_from_directory (name a) -> make_builder B tfds a = tfds (FromDirectory (data_dir a)))
     /\ (~ has_from_directory (name a) -> make_builder B tfds a = tfds (Prepare (name a) (data_dir a) (try_gcs a) (manual_dir a))).
Proof. intros B tfds l H. split; [exact (builders_agree tfds l H)|]. intros a. exact (make_builder_ok tfds a). Qed.
Print Assumptions C98_builders_partial.

(** The datasets of few-shot tasks: those of their names and splits, each made once. *)
Theorem C98_datasets : forall (Batch : Type) (get_dataset : str * str -> res (list Batch)) (num_classes : str -> res nat) (ts : list task) infos c,
  get_datasets Batch get_dataset num_classes ts = Ok (infos, c) ->
  Forall2 (info_of num_classes) ts infos /\ NoDup (map fst (c_datasets Batch c)) /\ (forall k, In k (map fst (c_datasets Batch c)) <-> used ts k)
  /\ forall k l, In (k, l) (c_datasets Batch c) -> get_dataset k = Ok l.
Proof.
  intros Batch gd nc ts infos c E. unfold get_datasets in E.
  assert (G1 : goodc pair_dec gd (c_datasets Batch {| c_datasets := []; c_classes := [] |})) by (split; [constructor|intros k x []]).
  assert (G2 : goodc str_dec nc (c_classes Batch {| c_datasets := []; c_classes := [] |})) by (split; [constructor|intros k x []]).
  destruct (get_datasets_ok gd nc ts _ _ _ _ G1 G2 E) as (new & -> & F & [N G] & M). split; [exact F|]. split; [exact N|]. split; [|exact G].
  intros k. rewrite M. split; [intros [[]|H]; exact H|auto].
Qed.
Print Assumptions C98_datasets.

(** Every few-shot evaluation, at every step and for every seed, uses all batches of both splits of every dataset, up to and
    including the first that fails, though tasks may share iterators.
    What is missing: tasks with the same split for training and test, for which it is false (C98_same_split). *)
Theorem C98_fewshot_partial : forall (Batch : Type) (full : iterators Batch) (X : Type) (compute : nat -> nat -> info -> list Batch -> list Batch -> res X)
  (seeds : nat) (infos : list info) (steps : list nat) (last : nat), (forall i, In i infos -> i_train i <> i_test i) ->
  let want step := rmap (fun ji => compute step (fst ji) (snd ji) (full (i_train (snd ji))) (full (i_test (snd ji)))) (list_prod (seq 0 seeds) infos) in
  (forall step, In step steps -> exists xs, want step = Ok xs) ->
  callbacks Batch full X compute full seeds infos (steps ++ [last]) = map want (steps ++ [last]).
Proof.
  intros Batch full X compute seeds infos steps last N W H. unfold W in *. rewrite <- loops_prod in *. apply (callbacks_pass full compute seeds infos steps full last (fun k => eq_refl)).
  - apply Forall_forall. exact N.
  - apply Forall_forall. exact H.
Qed.
Print Assumptions C98_fewshot_partial.

(** With the same split for training and test, the few-shot evaluation always fails: both are one iterator. *)
Theorem C98_same_split : forall (St Img Feat Acc : Type) (fewshot_step : St -> list Img -> St * list Feat) permutation
  (accuracy : list Feat -> list nat -> nat -> list Feat -> list nat -> R -> Acc) (shots : list nat) (l2_regs : list R) (state : nat -> nat -> St)
  (full : iterators (batch Img)) (step : nat) (ji : nat * info), i_train (snd ji) = i_test (snd ji) ->
  exists e, fst (evaluate_task (batch Img) full _ (fun step j i tr te => compute_fewshot_metrics fewshot_step permutation accuracy shots l2_regs (i_classes i) (state step j) tr te j) step full ji) = Raise e.
Proof.
  intros St Img Feat Acc fs pm ac shots l2s state full step ji E. rewrite (same_split full _ step full ji E). unfold compute_fewshot_metrics.
  destruct (compute_representation fs (state step (fst ji)) (full (i_train (snd ji)))) as [[[s f] l]|e]; cbn [bind]; [|eauto]. eexists. reflexivity.
Qed.
Print Assumptions C98_same_split.

(** Every dataset is compiled and reported once, at the first evaluation, and that is used at all evaluations. *)
Theorem C98_compiled : forall (P E : Type) (compile : str -> P -> res E) (names : list str) (s : nat) (p : P) (evals : list (nat * P)) (g : str -> E),
  NoDup names -> (forall n s' p', In n names -> In (s', p') ((s, p) :: evals) -> compile n p' = Ok (g n)) ->
  compiled P E compile names ((s, p) :: evals) = (flat_map (fun sp => map (fun n => compile n (snd sp)) names) ((s, p) :: evals), map (fun n => (n, p, s)) names).
Proof.
  intros P E compile names s p evals g N H. rewrite (compiled_once compile names s p evals g N) by (intros n I; apply (H n s p I); left; reflexivity).
  f_equal. assert (G : forall l, incl l ((s, p) :: evals) -> flat_map (fun _ => map (fun n => Ok (g n)) names) l = flat_map (fun sp => map (fun n => compile n (snd sp)) names) l).
  { induction l as [|[s' p'] l IH]; intros S; [reflexivity|]. cbn [flat_map snd]. rewrite IH by (intros z Z; apply S; right; exact Z). f_equal.
    apply map_ext_in. intros n I. symmetry. apply (H n s' p' I). apply S. left. reflexivity. }
  apply G. apply incl_refl.
Qed.
Print Assumptions C98_compiled.

(** Two configurations of a dataset that differ in the directory of manual downloads: the second gets the builder of the
    first. *)
Definition src_ex (m : nat) : source := {| name := [105]; data_dir := None; manual_dir := Some [m]; try_gcs := false |}.
Theorem C98_builders_refuted : exists a b : source, builders request Ok [a; b] <> map (make_builder request Ok) [a; b]
  /\ nth_error (builders request Ok [a; b]) 1 = Some (make_builder request Ok a).
Proof. exists (src_ex 1), (src_ex 2). split; [vm_compute; discriminate|reflexivity]. Qed.
Print Assumptions C98_builders_refuted.
Example C98_builders_ex : (forall a b, In a [src_ex 1; src_ex 1] -> In b [src_ex 1; src_ex 1] -> agree a b)
  /\ builders request Ok [src_ex 1; src_ex 1] = [Ok (Prepare [105] None false (Some [1])); Ok (Prepare [105] None false (Some [1]))].
Proof. split; [|reflexivity]. intros a b [<-|[<-|[]]] [<-|[<-|[]]] _ _; right; split; reflexivity. Qed.

(** Two tasks that share the training split of a dataset; a batch is a number *)
Definition task_ex (k te : nat) : task := {| t_key := [k]; t_name := [99]; t_train := [1]; t_test := [te] |}.
Definition get_ex (k : str * str) : res (list nat) := Ok (snd k ++ [10]).
Definition full_ex (k : str * str) : list nat := snd k ++ [10].
Definition infos_ex : list info := [{| i_key := [97]; i_train := ([99], [1]); i_test := ([99], [2]); i_classes := 5 |}; {| i_key := [98]; i_train := ([99], [1]); i_test := ([99], [3]); i_classes := 5 |}].
Example C98_datasets_ex : get_datasets nat get_ex (fun _ => Ok 5) [task_ex 97 2; task_ex 98 3] =
  Ok (infos_ex, {| c_datasets := [(([99], [1]), [1; 10]); (([99], [2]), [2; 10]); (([99], [3]), [3; 10])]; c_classes := [([99], 5)] |}).
Proof. reflexivity. Qed.
Example C98_fewshot_ex : (forall i, In i infos_ex -> i_train i <> i_test i) /\
  callbacks nat full_ex (nat * list nat * list nat) (fun step j _ tr te => Ok (step + j, tr, te)) full_ex 1 infos_ex ([100] ++ [200]) =
  [Ok [(100, [1; 10], [2; 10]); (100, [1; 10], [3; 10])]; Ok [(200, [1; 10], [2; 10]); (200, [1; 10], [3; 10])]].
Proof. split; [intros i [<-|[<-|[]]]; discriminate|reflexivity]. Qed.
(** The same split twice: nothing is left of it for the test. *)
Theorem C98_fewshot_refuted : exists (i : info) (full : iterators nat), full (i_test i) <> [] /\
  callbacks nat full (list nat * list nat) (fun _ _ _ tr te => Ok (tr, te)) full 1 [i] [0] = [Ok [(full (i_train i), [])]].
Proof. exists {| i_key := [97]; i_train := ([99], [1]); i_test := ([99], [1]); i_classes := 5 |}, full_ex. split; [discriminate|reflexivity]. Qed.
Print Assumptions C98_fewshot_refuted.
Example C98_compiled_ex : compiled nat (str * nat) (fun n p => Ok (n, p)) [[1]; [2]] [(10, 7); (20, 7)] =
  ([Ok ([1], 7); Ok ([2], 7); Ok ([1], 7); Ok ([2], 7)], [([1], 7, 10); ([2], 7, 10)]).
Proof. reflexivity. Qed.
Example C98_cached_ex : calls nat bool nat Bool.bool_dec Nat.even (fun a => if a <? 2 then Raise ValueError else Ok a) [] [0; 4; 6; 1; 3; 5] =
  ([Raise ValueError; Ok 4; Ok 4; Raise ValueError; Ok 3; Ok 3], [0; 4; 1; 3]).
Proof. reflexivity. Qed.
