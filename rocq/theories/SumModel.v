(** Summaries of arrays in training (vmoe/train/tree_summarizer.py, and their use in
    vmoe/train/trainer.py:263-269 and 677-682; C69 and C70).  Arrays have real entries; None is NaN
    (infinities are not modelled).  Patterns are arbitrary predicates on keys. *)
From Coq Require Import String List Arith NArith ZArith Bool Reals.
From Verif Require TreeModel AuxModel BaseModel.
From Verif Require Import NdArray TfModel Py.
Import ListNotations.
Local Open Scope list_scope.
Local Open Scope nat_scope.

Definition str := TreeModel.str.
Definition chars : string -> str := AuxModel.chars.
Definition str_eqb : str -> str -> bool := TreeModel.str_eqb.
Definition val := option R.
Definition arr := nda val.

(** ** Reductions *)
(** The indices of the entries that are reduced to entry idx: all positions along the reduced axes. *)
Fixpoint cells (axes : list nat) (i : nat) (ds idx : list nat) : list (list nat) :=
  match ds, idx with
  | [], _ => [[]]
  | _ :: _, [] => []
  | d :: ds, x :: idx => flat_map (fun y => map (cons y) (cells axes (S i) ds idx)) (if memb i axes then seq 0 d else [x])
  end.
(** Sizes after a reduction with keepdims=True *)
Fixpoint kept (axes : list nat) (i : nat) (ds : list nat) : list nat :=
  match ds with [] => [] | d :: ds => (if memb i axes then 1 else d) :: kept axes (S i) ds end.
Definition reduce (f : list val -> val) (axes : list nat) (a : arr) : arr :=
  {| dims := kept axes 0 (dims a); at_ := fun idx => f (map (at_ a) (cells axes 0 (dims a) idx)) |}.

Fixpoint finite (l : list val) : option (list R) :=
  match l with
  | [] => Some []
  | None :: _ => None
  | Some x :: l => match finite l with Some l => Some (x :: l) | None => None end
  end.
(** A result is NaN if an entry is *)
Definition lift (f : list R -> val) (l : list val) : val := match finite l with Some l => f l | None => None end.
Definition rsum (l : list R) : R := fold_right Rplus 0%R l.
(** The mean of no entries is NaN. *)
Definition rmean (l : list R) : val := match l with [] => None | _ => Some (rsum l / INR (length l))%R end.
Definition rstd (l : list R) : val :=
  match rmean l with
  | None => None
  | Some m => match rmean (map (fun x => (x - m) * (x - m))%R l) with Some v => Some (sqrt v) | None => None end
  end.
Definition rnorm (l : list R) : val := Some (sqrt (rsum (map (fun x => x * x)%R l))).
Definition rmin (l : list R) : val := match l with [] => None | x :: l => Some (fold_left Rmin l x) end.
Definition rmax (l : list R) : val := match l with [] => None | x :: l => Some (fold_left Rmax l x) end.

Inductive op := Norm | Mean | Std | Sum | Min | Max.
(** tree_summarizer.py:36-44 [_TRANSFORMATION] *)
Definition TRANSFORMATION : list (str * op) :=
  [(chars "mean", Mean); (chars "std", Std); (chars "sum", Sum); (chars "min", Min); (chars "max", Max); (chars "norm", Norm)].
Definition op_fun (o : op) : list val -> val :=
  lift (match o with
        | Mean => rmean | Std => rstd | Sum => fun l => Some (rsum l) | Min => rmin | Max => rmax | Norm => rnorm
        end).
Definition all_axes (a : arr) : list nat := seq 0 (length (dims a)).
(** One of these functions: axes must be in range and distinct; the least and greatest entries along an
    empty axis do not exist. *)
Definition apply_op (o : op) (axes : option (list Z)) (a : arr) : res arr :=
  bind (match axes with
        | None => Ok (all_axes a)
        | Some axes => bind (rmap (canon (length (dims a))) axes) (fun axes => if distinct axes then Ok axes else Raise ValueError)
        end) (fun axes =>
  if match o with Min | Max => existsb (fun i => nth i (dims a) 1 =? 0) axes | _ => false end then Raise ValueError
  else Ok (reduce (op_fun o) axes a)).

(** ** Rules *)
(** An operation, perhaps with an axis or axes *)
Inductive transform := TOp (op : str) | TAxis (op : str) (axis : Z) | TAxes (op : str) (axes : list Z).
(** A pattern, or a tuple of a pattern and transformations; None is the empty tuple *)
Inductive rule_arg := Bare (p : str -> bool) | Seq (l : option ((str -> bool) * list transform)).
Record rule := { pattern : str -> bool; transforms : list transform }.
(** tree_summarizer.py:70-79 [__post_init__]; invalid regular expressions are not modelled. *)
Definition post_init (rules : list rule_arg) : res (list rule) :=
  rmap (fun r => match r with
                 | Bare p => Ok {| pattern := p; transforms := [] |}
                 | Seq (Some (p, ts)) => Ok {| pattern := p; transforms := ts |}
                 | Seq None => Raise ValueError
                 end) rules.

(** str(n) *)
Definition str_of_nat (n : nat) : str := map N.to_nat (BaseModel.str_of_N (N.of_nat n)).
Definition str_of_Z (z : Z) : str := if (z <? 0)%Z then chars "-" ++ str_of_nat (Z.to_nat (- z)) else str_of_nat (Z.to_nat z).
(** sep.join *)
Fixpoint join (sep : str) (l : list str) : str :=
  match l with [] => [] | [x] => x | x :: l => x ++ sep ++ join sep l end.
(** str of a tuple of integers *)
Definition str_of_tuple (l : list Z) : str :=
  match l with
  | [x] => chars "(" ++ str_of_Z x ++ chars ",)"
  | l => chars "(" ++ join (chars ", ") (map str_of_Z l) ++ chars ")"
  end.

Definition op_name (t : transform) : str := match t with TOp n | TAxis n _ | TAxes n _ => n end.
Definition op_axes (t : transform) : option (list Z) := match t with TOp _ => None | TAxis _ x => Some [x] | TAxes _ l => Some l end.
(** tree_summarizer.py:109-129 [_transform] *)
Definition transform_array (value : arr) (ts : list transform) : res (str * arr) :=
  rfold (fun so t =>
    let axes := op_axes t in
    match TreeModel.dget TRANSFORMATION (op_name t) with
    | None => Raise ValueError
    | Some o => bind (apply_op o axes (snd so)) (fun output =>
                Ok (fst so ++ chars "_" ++ op_name t ++ match axes with None => [] | Some l => str_of_tuple l end, output))
    end) ts ([], value).

(** tree_summarizer.py:131-136 [_yield] *)
Definition index_suffix (shape idx : list nat) : str :=
  let idx_s := join (chars ",") (map (fun p => str_of_nat (fst p)) (filter (fun p => 1 <? snd p) (combine idx shape))) in
  match idx_s with [] => [] | _ => chars "[" ++ idx_s ++ chars "]" end.
Definition yields (prefix : str) (value : arr) : list (str * val) :=
  map (fun idx => (prefix ++ index_suffix (dims value) idx, at_ value idx)) (indices (dims value)).

(** tree_summarizer.py:92-107 [_summarize], without the counts *)
Definition summarize (rules : list rule) (max_summary_values : nat) (key : str) (value : arr) : res (list (str * val)) :=
  bind (rmap (fun r =>
    if pattern r key then
      bind (transform_array value (transforms r)) (fun '(suffix, summary) =>
      if max_summary_values <? prod (dims summary) then Raise ValueError
      else Ok (yields (key ++ suffix) summary))
    else Ok []) rules) (fun ls => Ok (concat ls)).
(** tree_summarizer.py:81-90 [__call__] for a tree that has been flattened: the values, and the positions of
    the rules for which there is a warning (num_times_rules_matched[i] = 0). *)
Definition call (rules : list rule) (max_summary_values : nat) (tree : list (str * arr)) : res (list (str * val) * list nat) :=
  bind (rmap (fun kv => summarize rules max_summary_values (fst kv) (snd kv)) tree) (fun ls =>
  Ok (concat ls,
      map fst (filter (fun ir => length (filter (fun kv => pattern (snd ir) (fst kv)) tree) =? 0) (combine (seq 0 (length rules)) rules)))).

(** ** Training *)
(** trainer.py:263-269 [create_tree_summarizer]: a falsy value, a list of rules, or the keyword arguments
    (None for a missing one; rules has no default).  max_summary_values is 1 by default. *)
Inductive summarizer_config := Falsy | RuleList (rules : list rule_arg) | Keywords (rules : option (list rule_arg)) (max_summary_values : option nat).
Definition create_tree_summarizer (c : summarizer_config) : res (option (list rule * nat)) :=
  match c with
  | Falsy | RuleList [] => Ok None
  | RuleList rules => bind (post_init rules) (fun rules => Ok (Some (rules, 1)))
  | Keywords None None => Ok None
  | Keywords None _ => Raise TypeError
  | Keywords (Some rules) m => bind (post_init rules) (fun rules => Ok (Some (rules, match m with Some m => m | None => 1 end)))
  end.
(** trainer.py:677-682 in [train_step]: state_flat and grads_flat are the flattened train state and gradients;
    the summarizer flattens the nested dictionary again, which changes only the keys of the gradients.
    state_flat has no key 'params_grads'. *)
Definition summarize_step (summarizer : option (list rule * nat)) (metrics : list (str * val)) (state_flat grads_flat : list (str * arr)) : res (list (str * val)) :=
  match summarizer with
  | None => Ok metrics
  | Some (rules, m) =>
      bind (call rules m (TreeModel.dupdate state_flat (map (fun kv => (chars "params_grads/" ++ fst kv, snd kv)) grads_flat))) (fun yw =>
      Ok (TreeModel.dupdate metrics (fst yw)))
  end.
