(** C26 and C27. *)
From Coq Require Import List Arith Bool Lia.
From Verif Require Import Py TreeModel TreeSpec TreeProofs2.
Import ListNotations.

(** C26: whenever the partitioning of a tree is returned, it has the structure of the tree
    and every leaf has the spec of the first rule that matches its name. *)
Theorem C26_first_rule :
  forall (regex : Type) (search : regex -> str -> bool) rules t r,
  wf (fun _ => True) t ->
  tree_axis_resources_from_regexes regex search t rules = Ok r ->
  related (first_rule regex search rules) [] t r.
Proof. exact axis_resources_ok. Qed.
Print Assumptions C26_first_rule.

(** It is returned for any dict whose keys have no slash, if the leaves that match a rule
    are arrays. *)
Theorem C26_no_error :
  forall (regex : Type) (search : regex -> str -> bool) rules cs,
  wf no_slash (Node cs) ->
  (forall q r u, leaf_at (Node cs) q None -> In (r, u) rules -> search r (join q) = false) ->
  exists r, tree_axis_resources_from_regexes regex search (Node cs) rules = Ok r.
Proof. exact axis_resources_total. Qed.
Print Assumptions C26_no_error.

(** A regular expression here is a string, found anywhere. *)
Fixpoint prefixb (a b : str) : bool :=
  match a, b with [], _ => true | x :: a, y :: b => (x =? y) && prefixb a b | _, [] => false end.
Fixpoint infixb (a b : str) : bool :=
  prefixb a b || match b with [] => false | _ :: b => infixb a b end.
Definition ex_tree : tree leaf :=
  Node [([1], Node [([2], Leaf (Some [4; 2])); ([3], Leaf (Some [])); ([4], Leaf None); ([5], Node [])]);
        ([2], Leaf (Some [3]))].
Definition ex_rules : list (str * uspec) :=
  [([1; 47; 2], UStr [101]); ([2], USeq [ANone; AName [102]]); ([1; 47; 3], UStr [101])].
Example C26_example :
  wf no_slash ex_tree /\
  tree_axis_resources_from_regexes str infixb ex_tree ex_rules =
    Ok (Node [([1], Node [([2], Leaf [AName [101]]); ([3], Leaf []); ([4], Leaf []); ([5], Node [])]);
              ([2], Leaf [ANone; AName [102]])]) /\
  tree_axis_resources_from_regexes str infixb ex_tree [([4], UStr [101])] = Raise AttributeError /\
  tree_axis_resources_from_regexes str infixb (Node [([1; 47; 2], Leaf (Some [4]))]) ex_rules = Raise ValueError.
Proof.
  split; [|repeat split; vm_compute; reflexivity].
  repeat (constructor; simpl; unfold no_slash, slash; try (intuition discriminate)).
Qed.

(** C27: iterating over a SafeZipIterator yields the tuples of the k-th elements, and ends
    normally exactly when all the iterables have the same length, after all the tuples;
    otherwise it raises after the shortest of them. *)
Theorem C27_never_truncates :
  forall (T : Type) (its : list (list T)), exists out o, iterates T its out o /\
  (forall out' o', iterates T its out' o' -> out' = out /\ o' = o) /\
  (o = Ended <-> (forall l l', In l its -> In l' its -> length l = length l')) /\
  (forall k d, k < length out -> nth k out [] = map (fun l => nth k l d) its) /\
  (o = Ended -> Forall (fun l => length l = length out) its /\ (its = [] -> out = [])) /\
  (o <> Ended -> (exists l, In l its /\ length l = length out) /\ exists l, In l its /\ length out < length l).
Proof. exact @iterates_spec. Qed.
Print Assumptions C27_never_truncates.
Example C27_example :
  iterates nat [[1; 2]; [3; 4]; [5; 6]] [[1; 3; 5]; [2; 4; 6]] Ended /\
  iterates nat [[1; 2]; [3]; []; [5; 6]] [] (Failed 2) /\
  iterates nat [[1]; [3; 4]] [[1; 3]] (Failed 0).
Proof. repeat split; repeat (econstructor; try reflexivity). Qed.
