(** C24: serialization of checkpoint metadata and chunks round-trips. *)
From Coq Require Import Ascii String List Arith ZArith NArith Bool.
From Verif Require Import BaseModel SerModel SerSpec SerProofs SerProofs2.
Import ListNotations.
Local Open Scope list_scope.
Local Open Scope N_scope.

(** Every object tree of the supported types that serializes is read back as it was; lazy
    chunks come back as the same (array index, chunk, slice) triples, in order. *)
Theorem C24_serialize_restore :
  forall (itemsize : bytes -> N) o b, valid itemsize o ->
  msgpack_serialize itemsize o = SOk b -> msgpack_restore itemsize b = SOk (restored o).
Proof. exact serialize_restore. Qed.
Print Assumptions C24_serialize_restore.

(** The slices of every chunk can be encoded, unless an integer needs more than 64 bits. *)
Theorem C24_slices_encode :
  forall x, Forall (fun s : slice => fits (fst (fst s)) /\ fits (snd (fst s)) /\ fits (snd s)) x ->
  N.of_nat (List.length x) < 2 ^ 32 -> exists b, slice_nd_to_bytes x = SOk b.
Proof. exact slice_nd_encodes. Qed.
Print Assumptions C24_slices_encode.

(** A chunk without items is written without any error and cannot be read. *)
Theorem C24_empty_chunk_unreadable :
  forall itemsize i c s b, nd_items c = [] ->
  msgpack_serialize itemsize (OLazy [(i, [(c, s)])]) = SOk b ->
  msgpack_restore itemsize b = SErr ValueErr.
Proof. exact empty_chunk. Qed.
Print Assumptions C24_empty_chunk_unreadable.

Definition ex_itemsize (d : bytes) : N := if str_eqb d (s_ "float32") then 4 else 1.
Definition ex_array : nd :=
  {| nd_shape := [2; 1]; nd_dtype := s_ "float32"; nd_items := [[1; 2; 3; 4]; [5; 6; 7; 8]] |}.
Definition ex_slices : slicend := [(Some 300%Z, Some 302%Z, None); (Some 0%Z, Some 1%Z, None)].
Definition ex_obj : obj :=
  ODict [(s_ "index", OList [OIndexInfo {| xi_shape := {| sa_shape := [70000; 1]; sa_dtype := s_ "float32"; sa_weak := true |};
                                           xi_slices := [ex_slices; [(None, Some (-5)%Z, Some (-200)%Z)]];
                                           xi_shards := [3; -40]%Z |};
                             OSliceNdArray ([1; 2], [ex_slices; []]); OSlice (None, None, Some 5000000000%Z)]);
         (s_ "chunks", OLazy [(12, [(ex_array, ex_slices)]); (3, [])]);
         (s_ "x", OComplex 5 6); (s_ "y", OArray ex_array)].
Example C24_example :
  valid ex_itemsize ex_obj /\
  (exists b, msgpack_serialize ex_itemsize ex_obj = SOk b /\ len b = 256) /\
  restored (OLazy [(12, [(ex_array, ex_slices)]); (3, [])]) = OChunks [(12, ex_array, ex_slices)].
Proof.
  split; [|split; [eexists; split; vm_compute; reflexivity|reflexivity]].
  simpl. repeat split; repeat constructor; simpl;
    try (intros [H|H]; try discriminate; intuition discriminate);
    try (intuition discriminate); try reflexivity; try discriminate;
    try (eexists; eexists; split; reflexivity).
Qed.
Example C24_example_empty :
  let c := {| nd_shape := [0]; nd_dtype := s_ "float32"; nd_items := [] |} in
  (exists b, msgpack_serialize ex_itemsize (OLazy [(0, [(c, [(Some 0%Z, Some 0%Z, None)])])]) = SOk b) /\
  msgpack_serialize ex_itemsize (OInt (2 ^ 64)) = SErr OverflowErr.
Proof. split; [eexists|]; vm_compute; reflexivity. Qed.
