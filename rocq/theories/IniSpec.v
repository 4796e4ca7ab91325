(** Vocabulary for C85. *)
From Coq Require Import List Arith ZArith Bool Permutation.
From Verif Require CkptModel CkptSpec.
From Verif Require Import Py TreeModel TreeSpec MapModel MapSpec IniModel.
Import ListNotations.
Local Open Scope nat_scope.

Fixpoint tmap {L M} (f : L -> M) (t : tree L) : tree M :=
  match t with
  | Leaf x => Leaf (f x)
  | Node cs => Node (map (fun kc => (fst kc, tmap f (snd kc))) cs)
  end.

(** The same nested dict, with the keys in another order. *)
Inductive reordered {L} : tree L -> tree L -> Prop :=
| ro_leaf x : reordered (Leaf x) (Leaf x)
| ro_node cs ds es : Permutation cs ds ->
    Forall2 (fun kd ke => fst kd = fst ke /\ reordered (snd kd) (snd ke)) ds es ->
    reordered (Node cs) (Node es).

(** The values of an array in row-major order. *)
Fixpoint row_major {V} (shape : list nat) (f : list nat -> V) : list V :=
  match shape with
  | [] => [f []]
  | n :: r => flat_map (fun i => row_major r (fun x => f (i :: x))) (seq 0 n)
  end.

Section Spec.
Variable V D array : Type.
Variable mk : list nat -> D -> list V -> array.

(** The array that was saved, as an array in memory. *)
Definition array_of (ld : CkptModel.leaf V * D) : array :=
  mk (CkptModel.lf_shape (fst ld)) (snd ld) (row_major (CkptModel.lf_shape (fst ld)) (CkptModel.lf_value (fst ld))).

(** The checkpoint is what [P] processes have saved from the pytree [t], with any number of
    files and any limit on their chunks. *)
Definition saved (P : nat) (t : ptree (CkptModel.leaf V * D)) (ck : checkpoint V D) : Prop :=
  exists views num_shards max_chunk_bytes s,
    CkptSpec.all_saved P (map fst (saved_leaves V D t)) views num_shards max_chunk_bytes s /\
    CkptSpec.on_disk P s (ck_files V D ck) /\
    saved_index V D t (CkptModel.sv_index (s 0)) = Ok (ck_index V D ck) /\
    ck_version V D ck = V1.
(** The same, before 2022/06/22. *)
Definition old_saved (P : nat) (t : ptree (CkptModel.leaf V * D)) (ck : checkpoint V D) : Prop :=
  exists views num_shards max_chunk_bytes s,
    CkptSpec.all_saved P (map fst (old_saved_leaves V D t)) views num_shards max_chunk_bytes s /\
    CkptSpec.on_disk P s (ck_files V D ck) /\
    old_saved_index V D t (CkptModel.sv_index (s 0)) = Ok (ck_index V D ck) /\
    ck_version V D ck = VUnknown.

(** No array has an empty axis (such arrays cannot be restored, see C19). *)
Definition no_empty_axes (t : tree (CkptModel.leaf V * D)) : Prop :=
  forall q ld, leaf_at t q ld -> Forall (lt 0) (CkptModel.lf_shape (fst ld)).
End Spec.

(** axis_resources_regexes or () *)
Definition rules_in {regex} (o : option (list (regex * uspec))) : list (regex * uspec) :=
  match o with Some l => l | None => [] end.

(** A sharding over [n] processes puts each element of an array without empty axes on some
    device, in a slice of the array. *)
Definition good_places (n : nat) (places : spec -> list nat -> res (nat -> CkptModel.target)) : Prop :=
  forall s shape f, Forall (lt 0) shape -> places s shape = Ok f ->
    (forall p, p < n -> Forall (CkptSpec.valid_index shape) (f p)) /\
    (forall x, CkptSpec.in_shape x shape -> exists p idx, p < n /\ In idx (f p) /\ CkptSpec.selected x idx).


(** Objects of VisionTransformer checkpoints: arrays of a void type are read as bfloat16. *)
Definition as_bfloat16 {array} (void_itemsize : array -> option nat) (view : array -> array) (x : array) : array :=
  match void_itemsize x with Some _ => view x | None => x end.
