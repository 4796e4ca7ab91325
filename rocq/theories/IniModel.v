(** Model of vmoe/initialization/initialization.py: initialisation of a train state from a
    V-MoE checkpoint (with the trees around the arrays of CkptModel.v) or from a
    VisionTransformer checkpoint, followed by the mapping of MapModel.v (C85). *)
From Coq Require Import List Arith ZArith Bool.
From Verif Require CkptModel.
From Verif Require Import Py TreeModel MapModel.
Import ListNotations.
Local Open Scope nat_scope.

(** ** Pytrees *)

(** A pytree: dicts (whose children jax visits by sorted key), and ordered containers
    (lists and tuples, with keys '0', '1', ..., and dataclasses, with the names of their
    fields), whose children are visited in their own order. *)
Inductive ptree (L : Type) := PLeaf (x : L) | PNode (ordered : bool) (cs : list (str * ptree L)).
Arguments PLeaf {L}. Arguments PNode {L}.

(** vmoe/checkpoints/serialization.py:54 [to_state_dict] (flax.serialization): all
    containers become dicts. *)
Fixpoint state {L} (t : ptree L) : tree L :=
  match t with
  | PLeaf x => Leaf x
  | PNode _ cs => Node (map (fun kc => (fst kc, state (snd kc))) cs)
  end.
(** A nested dict as a pytree. *)
Fixpoint dict {L} (t : tree L) : ptree L :=
  match t with
  | Leaf x => PLeaf x
  | Node cs => PNode false (map (fun kc => (fst kc, dict (snd kc))) cs)
  end.

(** flax.serialization.from_state_dict(target, state): the containers of the target, with
    the values of the state.  Dicts need their keys in the state; ordered containers need
    exactly theirs. *)
Fixpoint pfrom {L M} (target : ptree L) (s : tree M) : res (ptree M) :=
  match target with
  | PLeaf _ => Ok (dict s)
  | PNode o cs =>
      match s with
      | Leaf _ => Raise AttributeError
      | Node ss =>
          if forallb (fun kc => existsb (str_eqb (fst kc)) (map fst ss)) cs &&
             (negb o || (length ss =? length cs)) then
            bind (rmap (fun kc => match dget ss (fst kc) with
                                  | None => Raise KeyError
                                  | Some v => bind (pfrom (snd kc) v) (fun x => Ok (fst kc, x))
                                  end) cs) (fun xs => Ok (PNode o xs))
          else Raise ValueError
      end
  end.

Definition str_leb (a b : str) : bool := match str_cmp a b with Gt => false | _ => true end.

(** The children of dicts sorted by key, at all levels: the order of
    jax.tree_util.tree_flatten, and of the dicts that tree_map and unflatten build. *)
Fixpoint canon {L} (t : ptree L) : ptree L :=
  match t with
  | PLeaf x => PLeaf x
  | PNode o cs =>
      let cs' := map (fun kc => (fst kc, canon (snd kc))) cs in
      PNode o (if o then cs' else sort_by (fun a b => str_leb (fst a) (fst b)) cs')
  end.
Fixpoint pmap {L M} (f : L -> M) (t : ptree L) : ptree M :=
  match t with
  | PLeaf x => PLeaf (f x)
  | PNode o cs => PNode o (map (fun kc => (fst kc, pmap f (snd kc))) cs)
  end.
(** The leaves in the order in which the children are written. *)
Fixpoint dfs {L} (t : ptree L) : list L :=
  match t with
  | PLeaf x => [x]
  | PNode _ cs => flat_map (fun kc => dfs (snd kc)) cs
  end.
(** jax.tree_util.tree_leaves, tree_map *)
Definition leaves {L} (t : ptree L) : list L := dfs (canon t).
Definition tree_map {L M} (f : L -> M) (t : ptree L) : ptree M := pmap f (canon t).

(** The tree with the leaves replaced, in the order they are written, by those of a list;
    and the rest of the list. *)
Fixpoint fill_ {L M} (t : ptree L) (l : list M) : res (ptree M * list M) :=
  match t with
  | PLeaf _ => match l with x :: r => Ok (PLeaf x, r) | [] => Raise ValueError end
  | PNode o cs =>
      bind ((fix go cs l := match cs with
                            | [] => Ok ([], l)
                            | (k, c) :: cs =>
                                bind (fill_ c l) (fun xr =>
                                bind (go cs (snd xr)) (fun yr => Ok ((k, fst xr) :: fst yr, snd yr)))
                            end) cs l)
        (fun xr => Ok (PNode o (fst xr), snd xr))
  end.
(** struct.unflatten(leaves) for the struct of [t]: too few or too many leaves is an
    error. *)
Definition unflatten {L M} (t : ptree L) (l : list M) : res (ptree M) :=
  bind (fill_ (canon t) l) (fun xr => match snd xr with [] => Ok (fst xr) | _ => Raise ValueError end).

(** Equality of containers and keys. *)
Fixpoint skeleton_eqb {L M} (a : ptree L) (b : ptree M) {struct a} : bool :=
  match a, b with
  | PLeaf _, PLeaf _ => true
  | PNode o cs, PNode o' ds =>
      Bool.eqb o o' &&
      (fix go cs ds := match cs, ds with
                       | [], [] => true
                       | (k, c) :: cs, (k', d) :: ds => str_eqb k k' && skeleton_eqb c d && go cs ds
                       | _, _ => false
                       end) cs ds
  | _, _ => false
  end.
(** tree_structure(a) == tree_structure(b) *)
Definition same_struct {L M} (a : ptree L) (b : ptree M) : bool := skeleton_eqb (canon a) (canon b).

(** tree_map with two trees. *)
Definition tree_map2 {L M N} (f : L -> M -> N) (a : ptree L) (b : ptree M) : res (ptree N) :=
  if same_struct a b then unflatten a (map (fun xy => f (fst xy) (snd xy)) (combine (leaves a) (leaves b)))
  else Raise ValueError.

(** ** Checkpoints *)

(** vmoe/checkpoints/partitioned.py:84-86 [Version]; another string makes Version(...)
    raise. *)
Inductive version := VUnknown | V1 | VOther.

Definition lift_err (e : CkptModel.err) : err :=
  match e with
  | CkptModel.ValueError => ValueError | CkptModel.TypeError => TypeError
  | CkptModel.IndexError => IndexError | CkptModel.KeyError => KeyError
  | CkptModel.NotFound => RuntimeError | CkptModel.RuntimeError => RuntimeError
  end.
Definition lift {T} (x : CkptModel.res T) : res T :=
  match x with CkptModel.Ok a => Ok a | CkptModel.Raise e => Raise (lift_err e) end.

(** All multi-indices of a shape, in row-major order. *)
Fixpoint indices (shape : list nat) : list (list nat) :=
  match shape with
  | [] => [[]]
  | n :: r => flat_map (fun i => map (cons i) (indices r)) (seq 0 n)
  end.

Section Init.
(** Scalars, types and arrays; the array of a shape and type with these values in row-major
    order. *)
Variable V D array : Type.
Variable mk : list nat -> D -> list V -> array.
Variable zero : V.

(** Number of processes, and the shardings: for a spec and a shape, the slices of the array
    on the addressable devices of each process (NamedSharding(mesh, spec)), or an error if
    the spec does not fit the mesh or the shape. *)
Variable nproc : nat.
Variable places : spec -> list nat -> res (nat -> CkptModel.target).
(** The interleaving of the reads of a process, see CkptModel.restore_from_index. *)
Variable sched : nat -> list (CkptModel.chunk V) -> list (CkptModel.chunk V).

(** What an .index file and the .data files of a checkpoint hold: the index is a state dict
    with, for each array, its IndexInfo and type (global_shape.dtype). *)
Record checkpoint := {
  ck_version : version;
  ck_index : tree (CkptModel.index_info * D);
  ck_files : list (nat * list (CkptModel.chunk V)) }.

(** vmoe/checkpoints/partitioned.py:163-166,246-254 [save_checkpoint] of a pytree of arrays
    with their types: the arrays in the order in which they are saved (CkptModel.v), and
    the state dict in the .index file made of their IndexInfo. *)
Definition saved_leaves (t : ptree (CkptModel.leaf V * D)) : list (CkptModel.leaf V * D) :=
  leaves (dict (state t)).
Definition saved_index (t : ptree (CkptModel.leaf V * D)) (infos : list CkptModel.index_info)
  : res (tree (CkptModel.index_info * D)) :=
  bind (unflatten (dict (state t)) (combine infos (map snd (saved_leaves t)))) (fun u => Ok (state u)).
(** Before 2022/06/22 the pytree itself was flattened, as
    vmoe/checkpoints/partitioned.py:490-494 assumes; the index was made a state dict when
    it was written. *)
Definition old_saved_leaves (t : ptree (CkptModel.leaf V * D)) : list (CkptModel.leaf V * D) := leaves t.
Definition old_saved_index (t : ptree (CkptModel.leaf V * D)) (infos : list CkptModel.index_info)
  : res (tree (CkptModel.index_info * D)) :=
  bind (unflatten t (combine infos (map snd (old_saved_leaves t)))) (fun u => Ok (state u)).

(** Is [x] within the slices? *)
Definition in_slices (x : list nat) (s : list CkptModel.pyslice) : bool :=
  (length x =? length s) &&
  forallb (fun p => (CkptModel.or0 (fst (snd p)) <=? fst p) &&
                    match snd (snd p) with Some b => fst p <? b | None => true end) (combine x s).

(** jax.make_array_from_callback on all processes (partitioned.py:471-477): the array whose
    shards, with their slices, are these. *)
Definition make_array (shape : list nat) (d : D) (shards : list (list CkptModel.pyslice * (list nat -> V)))
  : res array :=
  bind (rmap (fun x =>
          match find (fun s => in_slices x (fst s)) shards with
          | Some s => Ok (snd s (CkptModel.idx_sub x (map (fun p => CkptModel.or0 (fst p)) (fst s))))
          | None => Raise RuntimeError
          end) (indices shape))
    (fun values => Ok (mk shape d values)).

(** vmoe/checkpoints/partitioned.py:417-478 [_restore_checkpoint_from_index], on all the
    processes.  That NamedSharding(mesh, spec) may raise is modelled here, when the slices
    are needed. *)
Definition restore_from_trees (files : list (nat * list (CkptModel.chunk V)))
  (index : ptree (CkptModel.index_info * D)) (sharding : ptree spec) : res (ptree array) :=
  if negb (same_struct index sharding) then Raise ValueError else
  let idx := leaves index in
  bind (rmap (fun si => places (fst si) (CkptModel.ii_shape (fst (snd si)))) (combine (leaves sharding) idx)) (fun targets =>
  bind (rmap (fun p => lift (CkptModel.restore_from_index zero files (map fst idx) (map (fun t => t p) targets) (sched p)))
             (seq 0 nproc)) (fun outs =>
  bind (rmap (fun it =>
          let '(i, (info, t)) := it in
          make_array (CkptModel.ii_shape (fst info)) (snd info)
            (flat_map (fun po => combine (t (fst po)) (nth i (snd po) [])) (combine (seq 0 nproc) outs)))
          (combine (seq 0 (length idx)) (combine idx targets))) (fun arrays =>
  unflatten index arrays))).

(** vmoe/checkpoints/partitioned.py:89-124,481-509 [restore_checkpoint] with a tree of
    ShapeDtypeStruct, of which only the sharding is used. *)
Definition restore_checkpoint (ck : checkpoint) (t : ptree spec) : res (ptree array) :=
  match ck_version ck with
  | VUnknown =>
      let sharding := tree_map (fun s => s) t in
      bind (pfrom t (ck_index ck)) (fun index =>
      restore_from_trees (ck_files ck) index sharding)
  | V1 =>
      let sharding := tree_map (fun s => s) t in
      bind (restore_from_trees (ck_files ck) (dict (ck_index ck)) (dict (state sharding))) (fun state_dict =>
      pfrom sharding (state state_dict))
  | VOther => Raise ValueError
  end.

(** ** Mapping onto the target, see MapModel.v *)
Variable pat : Type.
Variable search : pat -> str -> bool.
Variable sub : pat -> str -> str -> str.
Variable dtype_eqb : D -> D -> bool.
Variable shape_of : array -> list nat.
Variable dtype_of : array -> D.
Variable astype : array -> D -> array.
Variable broadcast_to : array -> list nat -> res array.
Variable transform : kind -> array -> array -> res array.
Variable stack : Z -> list array -> res array.
Definition map_onto (fl : flags) (rules : list (urule pat)) (source target : ptree array) : res (tree array) :=
  map_state_dict pat search sub array D dtype_eqb shape_of dtype_of astype broadcast_to transform stack
    fl rules (state source) (state target).

(** Regular expressions of the partitioning rules. *)
Variable regex : Type.
Variable rsearch : regex -> str -> bool.

(** vmoe/partitioning.py:359-421 [tree_axis_resources_from_regexes] of a pytree: see
    TreeModel.v; the containers of the tree are those of the result. *)
Definition axis_resources {L} (shape : L -> TreeModel.leaf) (t : ptree L) (rules : list (regex * uspec))
  : res (ptree spec) :=
  bind (tree_axis_resources_from_regexes regex rsearch (state (pmap shape t)) rules) (pfrom t).

(** vmoe/initialization/initialization.py:205-268 [initialize_from_vmoe].  The result is
    given as a state dict; map_state_dict puts it back in the containers of the target
    (mapping.py:104). *)
Definition initialize_from_vmoe (fl : flags) (rules : list (urule pat))
  (axis_resources_regexes : option (list (regex * uspec))) (ck : checkpoint) (target : ptree array)
  : res (tree array) :=
  let shapes := tree_map (fun i => (CkptModel.ii_shape (fst i), snd i)) (dict (ck_index ck)) in
  let regexes := match axis_resources_regexes with Some l => l | None => [] end in
  bind (match ck_version ck with
        | VUnknown =>
            if negb (same_struct (dict (state target)) shapes) then Raise ValueError else
            bind (axis_resources (fun x => Some (shape_of x)) target regexes) (fun ar =>
            bind (pfrom target (state shapes)) (fun shapes => Ok (shapes, ar)))
        | _ =>
            bind (axis_resources (fun x => Some (fst x)) shapes regexes) (fun ar => Ok (shapes, ar))
        end) (fun sa =>
  bind (tree_map2 (fun _ s => s) (fst sa) (tree_map (fun s => s) (snd sa))) (fun ckpt_struct =>
  bind (restore_checkpoint ck ckpt_struct) (fun ckpt =>
  map_onto fl rules ckpt target))).

(** ** Checkpoints of VisionTransformers *)

(** Of an object loaded by vit_jax: its shape if it is an array, its number of bytes per
    item if its type is a void type, and x.view(bfloat16). *)
Variable shape_if : array -> option (list nat).
Variable void_itemsize : array -> option nat.
Variable view_bfloat16 : array -> array.
(** pjit of the identity on one array with this spec for the result, under the mesh: the
    same array, or an error if the spec does not fit. *)
Variable fits : spec -> array -> option err.

(** initialization.py:182-187 [fix_dtype] *)
Definition fix_dtype (x : array) : res array :=
  match void_itemsize x with
  | Some n => if n =? 2 then Ok (view_bfloat16 x) else Raise AssertionError
  | None => Ok x
  end.

(** vmoe/initialization/initialization.py:149-202 [initialize_from_vit], from the tree that
    vit_jax.checkpoint.load returns. *)
Definition initialize_from_vit (fl : flags) (rules : list (urule pat))
  (axis_resources_regexes : option (list (regex * uspec))) (ckpt : tree array) (target : ptree array)
  : res (tree array) :=
  let t := dict ckpt in
  bind (rmap fix_dtype (leaves t)) (fun l =>
  bind (unflatten t l) (fun ckpt =>
  bind (match axis_resources_regexes with
        | None => Ok (tree_map (fun _ => []) ckpt)
        | Some regexes => axis_resources shape_if ckpt regexes
        end) (fun ar =>
  bind (rmap (fun sx => match fits (fst sx) (snd sx) with None => Ok (snd sx) | Some e => Raise e end)
             (combine (leaves ar) (leaves ckpt))) (fun l =>
  bind (unflatten ckpt l) (fun ckpt =>
  map_onto fl rules ckpt target))))).
End Init.
