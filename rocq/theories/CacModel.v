(** Cached functions: dataset builders (vmoe/data/builder.py:93-133), the iterators of few-shot evaluation
    (vmoe/evaluate/fewshot.py:166-190 and 310-330) and compiled evaluation steps (vmoe/evaluate/evaluator.py:169-199); C98. *)
From Coq Require Import List Arith Bool.
From Verif Require Import Py TreeModel.
Import ListNotations.
Local Open Scope nat_scope.

(** ** cachetools.cached(cache={}, key=key) *)
Section Memo.
Variables (A K R : Type) (keq : forall a b : K, {a = b} + {a <> b}) (key : A -> K) (f : A -> res R).
Fixpoint lookup (c : list (K * R)) (k : K) : option R :=
  match c with
  | [] => None
  | (k', r) :: c => if keq k' k then Some r else lookup c k
  end.
(** A call: its result, the cache, and whether the function itself was called.  Errors are not cached. *)
Definition cached (c : list (K * R)) (a : A) : res R * list (K * R) * bool :=
  match lookup c (key a) with
  | Some r => (Ok r, c, false)
  | None => match f a with
            | Ok r => (Ok r, c ++ [(key a, r)], true)
            | Raise e => (Raise e, c, true)
            end
  end.
(** A sequence of calls: the results, and the arguments with which the function itself was called *)
Fixpoint calls (c : list (K * R)) (l : list A) : list (res R) * list A :=
  match l with
  | [] => ([], [])
  | a :: l => let '(r, c, made) := cached c a in
              let '(rs, ms) := calls c l in
              (r :: rs, if made : bool then a :: ms else ms)
  end.
End Memo.

(** ** Dataset builders *)
(** 'from_directory:' *)
Definition from_directory : str := [102; 114; 111; 109; 95; 100; 105; 114; 101; 99; 116; 111; 114; 121; 58].
Fixpoint prefixed (p s : str) : bool :=
  match p, s with
  | [], _ => true
  | c :: p, d :: s => (c =? d) && prefixed p s
  | _ :: _, [] => false
  end.
(** p in s *)
Fixpoint contains (p s : str) : bool :=
  prefixed p s || match s with [] => false | _ :: s => contains p s end.
(** builder.py:66-73, the fields of TfdsBuilder that make its builder *)
Record source := { name : str; data_dir : option str; manual_dir : option str; try_gcs : bool }.
(** What TFDS is asked for: tfds.builder_from_directory, or tfds.builder and download_and_prepare *)
Inductive request := FromDirectory (dir : option str) | Prepare (name : str) (data_dir : option str) (try_gcs : bool) (manual_dir : option str).
Section Builder.
Variables (B : Type) (tfds : request -> res B).
(** 122-128 [_get_tfds_builder], without the cache *)
Definition make_builder (a : source) : res B :=
  if contains from_directory (name a) then tfds (FromDirectory (data_dir a))
  else tfds (Prepare (name a) (data_dir a) (try_gcs a) (manual_dir a)).
(** 119-121: the key *)
Definition builder_key (a : source) : str * option str := (name a, data_dir a).
Definition str_dec (a b : str) : {a = b} + {a <> b} := list_eq_dec Nat.eq_dec a b.
Definition ostr_dec (a b : option str) : {a = b} + {a <> b}.
Proof. decide equality. apply str_dec. Defined.
Definition bkey_dec (a b : str * option str) : {a = b} + {a <> b}.
Proof. decide equality; [apply ostr_dec|apply str_dec]. Defined.
(** 93-95 [_tfds_builder] of a sequence of TfdsBuilder objects in one process *)
Definition builders (l : list source) : list (res B) :=
  fst (calls source (str * option str) B bkey_dec builder_key make_builder [] l).
End Builder.

(** ** Few-shot evaluation *)
Section Few.
(** Batches; those of the dataset of a name and split; the number of classes of a dataset *)
Variables (Batch : Type) (get_dataset : str * str -> res (list Batch)) (num_classes : str -> res nat).
Definition pair_dec (a b : str * str) : {a = b} + {a <> b}.
Proof. decide equality; apply str_dec. Defined.
(** A task: its name, and the name and the two splits of the dataset *)
Record task := { t_key : str; t_name : str; t_train : str; t_test : str }.
(** An iterator is told by the arguments it was made with; the cache makes it one for each. *)
Record info := { i_key : str; i_train : str * str; i_test : str * str; i_classes : nat }.
(** The caches: iterators with their batches, and numbers of classes *)
Record caches := { c_datasets : list ((str * str) * list Batch); c_classes : list (str * nat) }.
(** fewshot.py:310-330 [_get_datasets], one item of the dictionary *)
Definition get_info (st : list info * caches) (t : task) : res (list info * caches) :=
  let '(infos, c) := st in
  let '(tr, d, _) := cached (str * str) (str * str) (list Batch) pair_dec (fun k => k) get_dataset (c_datasets c) (t_name t, t_train t) in
  bind tr (fun _ =>
  let '(te, d, _) := cached (str * str) (str * str) (list Batch) pair_dec (fun k => k) get_dataset d (t_name t, t_test t) in
  bind te (fun _ =>
  let '(n, k, _) := cached str str nat str_dec (fun k => k) num_classes (c_classes c) (t_name t) in
  bind n (fun n =>
  Ok (infos ++ [{| i_key := t_key t; i_train := (t_name t, t_train t); i_test := (t_name t, t_test t); i_classes := n |}],
      {| c_datasets := d; c_classes := k |})))).
Definition get_datasets (datasets : list task) : res (list info * caches) :=
  rfold get_info datasets ([], {| c_datasets := []; c_classes := [] |}).

(** The batches still to come of every iterator *)
Definition iterators := (str * str) -> list Batch.
Definition set_iter (s : iterators) (k : str * str) (l : list Batch) : iterators := fun j => if pair_dec k j then l else s j.
(** reset() *)
Variable full : iterators.
Definition reset (s : iterators) (k : str * str) : iterators := set_iter s k (full k).
(** What is computed at a step for a seed from the batches of the two iterators *)
Variables (X : Type) (compute : nat -> nat -> info -> list Batch -> list Batch -> res X).
(** fewshot.py:177-190: the body of the loops for one dataset.  236-239: all batches of the training iterator are read
    before any of the test iterator.  After an error the iterators stay as they are. *)
Definition evaluate_task (step : nat) (s : iterators) (ji : nat * info) : res X * iterators :=
  let i := snd ji in
  let tr := s (i_train i) in
  let s := set_iter s (i_train i) [] in
  let te := s (i_test i) in
  let s := set_iter s (i_test i) [] in
  match compute step (fst ji) i tr te with
  | Raise e => (Raise e, s)
  | Ok x => (Ok x, reset (reset s (i_train i)) (i_test i))
  end.
Fixpoint evaluate (step : nat) (s : iterators) (l : list (nat * info)) : res (list X) * iterators :=
  match l with
  | [] => (Ok [], s)
  | i :: l => match evaluate_task step s i with
              | (Raise e, s) => (Raise e, s)
              | (Ok x, s) => match evaluate step s l with
                             | (Ok xs, s) => (Ok (x :: xs), s)
                             | (Raise e, s) => (Raise e, s)
                             end
              end
  end.
(** 171-190: the loops over seeds and datasets *)
Definition loops (seeds_per_step : nat) (infos : list info) : list (nat * info) :=
  flat_map (fun sub_seed => map (pair sub_seed) infos) (seq 0 seeds_per_step).
(** Calls of callback_fn at successive steps *)
Fixpoint callbacks (s : iterators) (seeds_per_step : nat) (infos : list info) (steps : list nat) : list (res (list X)) :=
  match steps with
  | [] => []
  | step :: steps => let '(r, s) := evaluate step s (loops seeds_per_step infos) in r :: callbacks s seeds_per_step infos steps
  end.
End Few.

(** ** Compiled evaluation steps *)
Section Compile.
(** Parameters, and what their shapes and the declared shapes of a dataset compile to *)
Variables (P E : Type) (compile : str -> P -> res E).
(** evaluator.py:169-196 [compile_for_dataset], of the name, the parameters and the step *)
Definition compile_call (a : str * P * nat) : res E := compile (fst (fst a)) (snd (fst a)).
(** 198-202: the calls for the datasets at each evaluation.  That an error ends the evaluation is not modelled. *)
Definition compile_calls (names : list str) (evals : list (nat * P)) : list (str * P * nat) :=
  flat_map (fun sp => map (fun n => (n, snd sp, fst sp)) names) evals.
(** The steps that are used, and the names, parameters and steps at which compilations are reported *)
Definition compiled (names : list str) (evals : list (nat * P)) : list (res E) * list (str * P * nat) :=
  calls (str * P * nat) str E str_dec (fun a => fst (fst a)) compile_call [] (compile_calls names evals).
End Compile.
