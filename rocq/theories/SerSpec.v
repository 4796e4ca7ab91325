(** Vocabulary for the statements about serialization (C24). *)
From Coq Require Import List Arith ZArith NArith Bool.
From Verif Require Import BaseModel SerModel.
Import ListNotations.
Local Open Scope list_scope.
Local Open Scope N_scope.

Section Dtype.
Variable itemsize : bytes -> N.

(** A well-formed array with at least one item. *)
Definition good_nd (x : nd) : Prop :=
  prodN (nd_shape x) = N.of_nat (List.length (nd_items x)) /\ nd_items x <> [] /\
  0 < itemsize (nd_dtype x) /\ Forall (fun b => len b = itemsize (nd_dtype x)) (nd_items x).

(** The chunk is the part of an array that the slice selects. *)
Definition good_chunk (p : nd * slicend) : Prop :=
  good_nd (fst p) /\
  Forall2 (fun (s : slice) d => exists a b, s = (Some a, Some b, None) /\ (b - a)%Z = Z.of_N d)
          (snd p) (nd_shape (fst p)).

(** Objects that a state dict can hold. *)
Fixpoint valid (o : obj) : Prop :=
  match o with
  | OFloat b => b < 2 ^ 64
  | OComplex a b => a < 2 ^ 64 /\ b < 2 ^ 64
  | OList l => fold_right (fun x P => valid x /\ P) True l
  | ODict l => NoDup (map fst l) /\ ~ In MAGIC (map fst l) /\
               fold_right (fun kx P => valid (snd kx) /\ P) True l
  | OSliceNdArray x => prodN (fst x) = N.of_nat (List.length (snd x))
  | OArray x => good_nd x
  | OScalar x => good_nd x /\ nd_shape x = []
  | OLazy x => NoDup (map fst x) /\ Forall (fun il => Forall good_chunk (snd il)) x
  | OChunks _ => False
  | OExt code _ => 8 < code
  | _ => True
  end.
End Dtype.

(** What comes back: the same object, except that LazyArrayChunks become ArrayChunks. *)
Fixpoint restored (o : obj) : obj :=
  match o with
  | OList l => OList (map restored l)
  | ODict l => ODict (map (fun kx => let '(k, x) := kx in (k, restored x)) l)
  | OLazy x => OChunks (concat (map (fun il => map (fun c => (fst il, fst c, snd c)) (snd il)) x))
  | _ => o
  end.

(** Integers that msgpack can represent. *)
Definition fits (x : option Z) : Prop :=
  match x with Some z => (- 2 ^ 63 <= z < 2 ^ 64)%Z | None => True end.
