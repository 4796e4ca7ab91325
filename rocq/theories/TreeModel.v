(** Nested dicts and flax.traverse_util (C26, C28), partition specs from rules
    (vmoe/partitioning.py:309-421), and SafeZipIterator (vmoe/utils.py:130-165; C27). *)
From Coq Require Import List Arith Bool.
From Verif Require Import Py.
Import ListNotations.

(** Strings are lists of character codes; '/' is 47. *)
Definition str := list nat.
Definition str_eqb (a b : str) : bool := if list_eq_dec Nat.eq_dec a b then true else false.
Definition slash : nat := 47.

(** A state dict: nested dicts with string keys, in insertion order.  (to_state_dict
    turns lists and tuples into dicts with keys '0', '1', ... and dataclasses into dicts of
    their fields.) *)
Inductive tree (L : Type) := Leaf (x : L) | Node (children : list (str * tree L)).
Arguments Leaf {L}. Arguments Node {L}.

(** sep.join(path) *)
Fixpoint join (p : list str) : str :=
  match p with
  | [] => []
  | [k] => k
  | k :: r => k ++ slash :: join r
  end.
(** key.split(sep) *)
Fixpoint split (s : str) : list str :=
  match s with
  | [] => [[]]
  | c :: r => if c =? slash then [] :: split r
              else match split r with k :: ks => (c :: k) :: ks | [] => [[c]] end
  end.

Fixpoint dget {V} (d : list (str * V)) (k : str) : option V :=
  match d with
  | [] => None
  | (k', v) :: r => if str_eqb k' k then Some v else dget r k
  end.
(** d[key] = value *)
Fixpoint dset {V} (d : list (str * V)) (k : str) (v : V) : list (str * V) :=
  match d with
  | [] => [(k, v)]
  | (k', v') :: r => if str_eqb k' k then (k', v) :: r else (k', v') :: dset r k v
  end.
(** d.update(e) *)
Definition dupdate {V} (d e : list (str * V)) : list (str * V) :=
  fold_left (fun d kv => dset d (fst kv) (snd kv)) e d.

(** A flat value: a leaf or flax.traverse_util.empty_node. *)
Inductive flatv (L : Type) := FLeaf (x : L) | FEmpty.
Arguments FLeaf {L}. Arguments FEmpty {L}.

(** flax.traverse_util.flatten_dict(keep_empty_nodes=True, sep='/'), the inner [_flatten] *)
Fixpoint flatten_ {L} (prefix : list str) (t : tree L) : list (str * flatv L) :=
  match t with
  | Leaf x => [(join prefix, FLeaf x)]
  | Node [] => match prefix with [] => [] | _ => [(join prefix, FEmpty)] end
  | Node cs =>
      fold_left dupdate (map (fun kc => flatten_ (prefix ++ [fst kc]) (snd kc)) cs) []
  end.
(** flatten_dict asserts that its argument is a dict. *)
Definition flatten_dict {L} (t : tree L) : res (list (str * flatv L)) :=
  match t with Leaf _ => Raise AssertionError | Node _ => Ok (flatten_ [] t) end.

(** The body of the loop of flax.traverse_util.unflatten_dict: cursor[path[-1]] = value
    after walking, creating dicts; what is neither a dict nor missing is a TypeError. *)
Fixpoint insert {L} (path : list str) (v : tree L) (t : tree L) : res (tree L) :=
  match t with
  | Leaf _ => Raise TypeError
  | Node cs =>
      match path with
      | [] => Raise IndexError
      | [k] => Ok (Node (dset cs k v))
      | k :: r =>
          let sub := match dget cs k with Some c => c | None => Node [] end in
          bind (insert r v sub) (fun c => Ok (Node (dset cs k c)))
      end
  end.
Definition of_flat {L} (v : flatv L) : tree L := match v with FLeaf x => Leaf x | FEmpty => Node [] end.
(** flax.traverse_util.unflatten_dict(xs, sep='/') *)
Definition unflatten_dict {L} (xs : list (str * flatv L)) : res (tree L) :=
  rfold (fun t kv => insert (split (fst kv)) (of_flat (snd kv)) t) xs (Node []).

(** flax.serialization.from_state_dict(target, state): a dict target needs each of its
    keys in the state; where the target has a leaf the state is taken as it is. *)
Fixpoint from_state_dict {L M} (target : tree L) (state : tree M) : res (tree M) :=
  match target with
  | Leaf _ => Ok state
  | Node cs =>
      match state with
      | Leaf _ => Raise AttributeError
      | Node ss =>
          if forallb (fun kc => existsb (str_eqb (fst kc)) (map fst ss)) cs then
            bind (rmap (fun kc => match dget ss (fst kc) with
                                  | None => Raise KeyError
                                  | Some s => bind (from_state_dict (snd kc) s) (fun x => Ok (fst kc, x))
                                  end) cs) (fun xs => Ok (Node xs))
          else Raise ValueError
      end
  end.

(** ** Partition specs *)

(** An axis entry of a PartitionSpec: None, a mesh axis, or a tuple of them. *)
Inductive axis := ANone | AName (s : str) | ATuple (l : list str).
Definition spec := list axis.
(** An unparsed spec: a PartitionSpec, a string, or None / a sequence. *)
Inductive uspec := UParsed (s : spec) | UStr (s : str) | USeq (l : list axis).

(** vmoe/partitioning.py:309-315 [parse_partition_spec] *)
Definition parse_partition_spec (u : uspec) : spec :=
  match u with
  | UParsed s => s
  | UStr [] => []
  | UStr s => [AName s]
  | USeq l => l
  end.

Section Rules.
(** Compiled regular expressions, with [search] telling whether regex.search finds one. *)
Variable regex : Type.
Variable search : regex -> str -> bool.

(** A leaf of the tree: its shape, or None if it has no attribute [shape]. *)
Definition leaf := option (list nat).
Definition size (shape : list nat) : nat := fold_right Nat.mul 1 shape.

(** 401-407 [search_partition_spec] *)
Fixpoint search_rules (rules : list (regex * spec)) (key : str) (value : leaf) : res spec :=
  match rules with
  | [] => Ok []
  | (r, s) :: rest =>
      if search r key then
        match value with
        | None => Raise AttributeError
        | Some shape => if 1 <? size shape then Ok s else search_rules rest key value
        end
      else search_rules rest key value
  end.
Definition search_partition_spec (rules : list (regex * spec)) (key : str) (value : flatv leaf) : res (flatv spec) :=
  match value with
  | FEmpty => Ok FEmpty
  | FLeaf v => bind (search_rules rules key v) (fun s => Ok (FLeaf s))
  end.

(** 359-421 [tree_axis_resources_from_regexes] *)
Definition tree_axis_resources_from_regexes (t : tree leaf) (axis_resources_regexes : list (regex * uspec))
  : res (tree spec) :=
  let rules := map (fun ru => (fst ru, parse_partition_spec (snd ru))) axis_resources_regexes in
  bind (flatten_dict t) (fun flat_tree_dict =>
  bind (rmap (fun kv => bind (search_partition_spec rules (fst kv) (snd kv)) (fun s => Ok (fst kv, s)))
             flat_tree_dict) (fun axis_resources =>
  bind (unflatten_dict axis_resources) (from_state_dict t))).
End Rules.

(** ** SafeZipIterator *)
Section Zip.
Variable T : Type.

(** What a call of next returns. *)
Inductive step := SElems (l : list T) | SStop | SError (i : nat).

(** vmoe/utils.py:141-150, the loop of [__next__]: iterators not reached are left as they
    are; an iterator is the list of the elements still to come. *)
Fixpoint next_loop (i : nat) (its : list (list T)) (stop : option nat) (elements : list T)
  : option nat * list T * list (list T) :=
  match its with
  | [] => (stop, elements, [])
  | [] :: rest =>
      let '(stop', elements', rest') := next_loop (S i) rest (Some i) elements in (stop', elements', [] :: rest')
  | (x :: xs) :: rest =>
      match stop with
      | Some _ => (stop, elements ++ [x], xs :: rest)
      | None => let '(stop', elements', rest') := next_loop (S i) rest stop (elements ++ [x]) in
                (stop', elements', xs :: rest')
      end
  end.

(** 141-156 [__next__] *)
Definition next (its : list (list T)) : step * list (list T) :=
  let '(stop, elements, its') := next_loop 0 its None [] in
  match stop, elements with
  | Some i, _ :: _ => (SError i, its')
  | _, [] => (SStop, its')
  | None, _ => (SElems elements, its')
  end.

(** A for loop over the iterator: the tuples it yields and how it ends. *)
Inductive outcome := Ended | Failed (i : nat).
Inductive iterates : list (list T) -> list (list T) -> outcome -> Prop :=
| it_stop its its' : next its = (SStop, its') -> iterates its [] Ended
| it_error its its' i : next its = (SError i, its') -> iterates its [] (Failed i)
| it_elems its its' e out o : next its = (SElems e, its') -> iterates its' out o -> iterates its (e :: out) o.
End Zip.
