(** Model of vmoe/initialization/initialization.py:51-146: initialisation of a train state from an Orbax checkpoint
    (C97). *)
From Coq Require Import List Arith ZArith Bool.
From Verif Require Import Py TreeModel MapModel.
Import ListNotations.
Local Open Scope nat_scope.

(** os.path.join(a, b): an absolute [b] replaces [a]. *)
Definition os_path_join (a b : str) : str :=
  match b with
  | c :: _ => if c =? slash then b else
              match rev a with
              | [] => b
              | l :: _ => if l =? slash then a ++ b else a ++ slash :: b
              end
  | [] => match rev a with [] => [] | l :: _ => if l =? slash then a else a ++ [slash] end
  end.
(** 'PLACEHOLDER://' and '.zarray' *)
Definition placeholder : str := [80; 76; 65; 67; 69; 72; 79; 76; 68; 69; 82; 58; 47; 47].
Definition dot_zarray : str := [46; 122; 97; 114; 114; 97; 121].
Fixpoint startswith (s prefix : str) {struct prefix} : bool :=
  match prefix, s with
  | [], _ => true
  | c :: p, d :: r => (c =? d) && startswith r p
  | _ :: _, [] => false
  end.

(** jax.tree_util.tree_map of one tree of dicts. *)
Fixpoint tmap {L M} (f : L -> M) (t : tree L) : tree M :=
  match t with
  | Leaf x => Leaf (f x)
  | Node cs => Node (map (fun kc => (fst kc, tmap f (snd kc))) cs)
  end.
(** jax.tree_util.tree_map of two trees of dicts, with a function that may raise.  The keys of a dict must be those of the
    other.  jax visits and leaves the keys sorted; here they are kept in the order of the first tree, which looking up
    does not see. *)
Fixpoint zipt {A B C} (f : A -> B -> res C) (a : tree A) (b : tree B) : res (tree C) :=
  match a, b with
  | Leaf x, Leaf y => bind (f x y) (fun z => Ok (Leaf z))
  | Leaf _, Node _ => Raise TypeError
  | Node _, Leaf _ => Raise ValueError
  | Node cs, Node ds =>
      if length cs =? length ds then
        bind (rmap (fun kc => match dget ds (fst kc) with
                              | None => Raise ValueError
                              | Some d => bind (zipt f (snd kc) d) (fun z => Ok (fst kc, z))
                              end) cs) (fun zs => Ok (Node zs))
      else Raise ValueError
  end.

Section Orbax.
(** Values other than strings and None kept in the aggregate file; types; arrays *)
Variables (V D array : Type).
(** A leaf of the aggregate file *)
Inductive oleaf := ONone | OStr (s : str) | OVal (v : V).
(** A leaf of the structure after 113-117: a value, or jax.ShapeDtypeStruct *)
Inductive sleaf := SVal (x : oleaf) | SStruct (shape : list nat) (dtype : D).
(** What orbax is asked for: nothing, orbax_checkpoint.ArrayRestoreArgs, or RestoreArgs() *)
Inductive rargs := RNone | RArray (dtype : D) (spec : spec) (global_shape : list nat) | RPlain.

(** The shape and type in a .zarray file, by its path; reading, decoding or the name of the type may fail. *)
Variable zarray : str -> res (list nat * D).
(** The shape of a value, if it has one *)
Variable shape_if : V -> option (list nat).
(** NamedSharding(mesh, spec): None if the mesh has the axes. *)
Variable named_sharding : spec -> option err.
Variable regex : Type.
Variable rsearch : regex -> str -> bool.

(** 98-107 [_get_shape_dtype_struct], of a leaf *)
Definition shape_dtype_struct (directory : str) (x : oleaf) : res sleaf :=
  match x with
  | OStr v =>
      if startswith v placeholder then
        let v := skipn (length placeholder) v in
        bind (zarray (os_path_join (os_path_join directory v) dot_zarray)) (fun sd => Ok (SStruct (fst sd) (snd sd)))
      else Ok (SVal x)
  | _ => Ok (SVal x)
  end.
(** 112-121.  Of several errors of the threads, the first in the order of the leaves is raised. *)
Definition structure_of (directory : str) (structure : tree oleaf) : res (tree sleaf) :=
  bind (flatten_dict structure) (fun flat_structure =>
  bind (rmap (fun kv => bind (match snd kv with
                              | FEmpty => Ok FEmpty
                              | FLeaf x => bind (shape_dtype_struct directory x) (fun y => Ok (FLeaf y))
                              end) (fun v => Ok (fst kv, v))) flat_structure) (fun flat_structure =>
  bind (unflatten_dict flat_structure) (from_state_dict structure))).
Definition leaf_shape (x : sleaf) : leaf :=
  match x with SStruct shape _ => Some shape | SVal (OVal v) => shape_if v | SVal _ => None end.
(** 127-135 [_array_restore_args] *)
Definition array_restore_args (value : sleaf) (s : spec) : res rargs :=
  match value with
  | SVal ONone => Ok RNone
  | SStruct shape dtype => match named_sharding s with None => Ok (RArray dtype s shape) | Some e => Raise e end
  | SVal _ => Ok RPlain
  end.
(** 108-142, up to the arguments of ckptr.restore *)
Definition restore_args (directory : str) (regexes : option (list (regex * uspec))) (structure : tree oleaf) : res (tree rargs) :=
  bind (structure_of directory structure) (fun structure =>
  bind (tree_axis_resources_from_regexes regex rsearch (tmap leaf_shape structure)
          (match regexes with Some l => l | None => [] end)) (fun axis_resources =>
  zipt array_restore_args structure axis_resources)).

(** ** ckptr.restore of orbax, which is not part of the repository *)

(** The array saved under a name; values of the aggregate file; conversion of types; cutting or padding to a shape; and
    None if the sharding fits the shape *)
Variable stored : str -> res array.
Variable value : oleaf -> array.
Variable cast : D -> array -> array.
Variable resize : list nat -> array -> array.
Variable fits : spec -> list nat -> option err.
Definition restore_leaf (x : oleaf) (a : rargs) : res array :=
  match x, a with
  | OStr v, RArray dtype s shape =>
      bind (stored (skipn (length placeholder) v)) (fun y =>
      match fits s shape with Some e => Raise e | None => Ok (resize shape (cast dtype y)) end)
  | _, _ => Ok (value x)
  end.
Definition restore_orbax (directory : str) (regexes : option (list (regex * uspec))) (structure : tree oleaf) : res (tree array) :=
  bind (restore_args directory regexes structure) (zipt restore_leaf structure).

(** ** Mapping onto the target, see MapModel.v *)
Variable pat : Type.
Variable search : pat -> str -> bool.
Variable sub : pat -> str -> str -> str.
Variable dtype_eqb : D -> D -> bool.
Variable shape_of : array -> list nat.
Variable dtype_of : array -> D.
Variable astype : array -> D -> array.
Variable broadcast_to : array -> list nat -> res array.
Variable transform : kind -> array -> array -> res array.
Variable stack : Z -> list array -> res array.
(** 69-146 [initialize_from_orbax], for the structure in the aggregate file of the directory *)
Definition initialize_from_orbax (fl : flags) (rules : list (urule pat)) (directory : str)
  (regexes : option (list (regex * uspec))) (structure : tree oleaf) (target : tree array) : res (tree array) :=
  bind (restore_orbax directory regexes structure) (fun ckpt =>
  map_state_dict pat search sub array D dtype_eqb shape_of dtype_of astype broadcast_to transform stack fl rules ckpt target).
End Orbax.
Arguments ONone {V}. Arguments OStr {V}. Arguments OVal {V}.
Arguments SVal {V D}. Arguments SStruct {V D}.
Arguments RNone {D}. Arguments RArray {D}. Arguments RPlain {D}.
