(** Model of vmoe/checkpoints/serialization.py, down to the bytes.

    The msgpack library, and flax's encoding of an array, are external: they are modelled
    here from the msgpack format specification and flax's source.  Bytes are numbers below
    256; a python str is given by its UTF-8 bytes. *)
From Coq Require Import Ascii String List Arith ZArith NArith Bool.
From Verif Require Import BaseModel.
Import ListNotations.
Local Open Scope list_scope.
Local Open Scope N_scope.

Definition bytes := list N.

Inductive serr := OverflowErr | ValueErr | TypeErr | FormatErr | ExtraData | KeyErr.
Inductive sres (T : Type) := SOk (x : T) | SErr (e : serr).
Arguments SOk {T}. Arguments SErr {T}.
Definition sbind {T U} (x : sres T) (f : T -> sres U) : sres U :=
  match x with SOk a => f a | SErr e => SErr e end.
Definition smap {T U} (f : T -> sres U) : list T -> sres (list U) :=
  fix go l :=
  match l with
  | [] => SOk []
  | x :: r => sbind (f x) (fun y => sbind (go r) (fun ys => SOk (y :: ys)))
  end.

(* ------------------------------------------------------------------ *)
(** ** msgpack *)

Inductive mv :=
| MNil | MBool (b : bool) | MInt (z : Z) | MFloat (bits : N)
| MStr (s : bytes) | MBin (s : bytes)
| MArr (l : list mv) | MMap (l : list (mv * mv)) | MExt (code : N) (data : bytes).

(** Big-endian, [k] bytes. *)
Fixpoint be (k : nat) (n : N) : bytes :=
  match k with
  | O => []
  | S j => be j (n / 256) ++ [n mod 256]
  end.
Definition unbe (l : bytes) : N := fold_left (fun a b => 256 * a + b) l 0.

Definition pack_int (z : Z) : sres bytes :=
  if (0 <=? z)%Z then
    let n := Z.to_N z in
    if n <? 128 then SOk [n]
    else if n <? 256 then SOk (204 :: be 1 n)
    else if n <? 65536 then SOk (205 :: be 2 n)
    else if n <? 4294967296 then SOk (206 :: be 4 n)
    else if n <? 18446744073709551616 then SOk (207 :: be 8 n)
    else SErr OverflowErr
  else if (-32 <=? z)%Z then SOk [Z.to_N (z + 256)]
  else if (-128 <=? z)%Z then SOk (208 :: be 1 (Z.to_N (z + 256)))
  else if (-32768 <=? z)%Z then SOk (209 :: be 2 (Z.to_N (z + 65536)))
  else if (-2147483648 <=? z)%Z then SOk (210 :: be 4 (Z.to_N (z + 4294967296)))
  else if (-9223372036854775808 <=? z)%Z then SOk (211 :: be 8 (Z.to_N (z + 18446744073709551616)))
  else SErr OverflowErr.

Definition len (l : bytes) : N := N.of_nat (List.length l).

Definition pack_str (s : bytes) : sres bytes :=
  let n := len s in
  if n <? 32 then SOk (160 + n :: s)
  else if n <? 256 then SOk (217 :: be 1 n ++ s)
  else if n <? 65536 then SOk (218 :: be 2 n ++ s)
  else if n <? 4294967296 then SOk (219 :: be 4 n ++ s)
  else SErr ValueErr.

Definition pack_bin (s : bytes) : sres bytes :=
  let n := len s in
  if n <? 256 then SOk (196 :: be 1 n ++ s)
  else if n <? 65536 then SOk (197 :: be 2 n ++ s)
  else if n <? 4294967296 then SOk (198 :: be 4 n ++ s)
  else SErr ValueErr.

Definition pack_ext (code : N) (s : bytes) : sres bytes :=
  let n := len s in
  if n =? 1 then SOk (212 :: code :: s)
  else if n =? 2 then SOk (213 :: code :: s)
  else if n =? 4 then SOk (214 :: code :: s)
  else if n =? 8 then SOk (215 :: code :: s)
  else if n =? 16 then SOk (216 :: code :: s)
  else if n <? 256 then SOk (199 :: be 1 n ++ code :: s)
  else if n <? 65536 then SOk (200 :: be 2 n ++ code :: s)
  else if n <? 4294967296 then SOk (201 :: be 4 n ++ code :: s)
  else SErr ValueErr.

Definition arr_header (n : N) : sres bytes :=
  if n <? 16 then SOk [144 + n]
  else if n <? 65536 then SOk (220 :: be 2 n)
  else if n <? 4294967296 then SOk (221 :: be 4 n)
  else SErr ValueErr.
Definition map_header (n : N) : sres bytes :=
  if n <? 16 then SOk [128 + n]
  else if n <? 65536 then SOk (222 :: be 2 n)
  else if n <? 4294967296 then SOk (223 :: be 4 n)
  else SErr ValueErr.

(** msgpack.packb(..., use_bin_type=True) *)
Fixpoint packb (v : mv) : sres bytes :=
  match v with
  | MNil => SOk [192]
  | MBool false => SOk [194]
  | MBool true => SOk [195]
  | MInt z => pack_int z
  | MFloat b => SOk (203 :: be 8 b)
  | MStr s => pack_str s
  | MBin s => pack_bin s
  | MArr l =>
      sbind (arr_header (N.of_nat (List.length l))) (fun h =>
      sbind (smap packb l) (fun bs => SOk (h ++ concat bs)))
  | MMap l =>
      sbind (map_header (N.of_nat (List.length l))) (fun h =>
      sbind (smap (fun kv => let '(k, v) := kv in
                       sbind (packb k) (fun a => sbind (packb v) (fun b => SOk (a ++ b)))) l)
            (fun bs => SOk (h ++ concat bs)))
  | MExt c d => pack_ext c d
  end.

(** The next [n] bytes. *)
Definition take (n : N) (s : bytes) : sres (bytes * bytes) :=
  if n <=? len s then SOk (firstn (N.to_nat n) s, skipn (N.to_nat n) s) else SErr FormatErr.
Definition take_num (k : N) (s : bytes) : sres (N * bytes) :=
  sbind (take k s) (fun p => SOk (unbe (fst p), snd p)).
Definition signed (bits : Z) (n : N) : Z :=
  if (Z.of_N n <? 2 ^ (bits - 1))%Z then Z.of_N n else (Z.of_N n - 2 ^ bits)%Z.

Definition dec_str (mk : bytes -> mv) (n : N) (s : bytes) : sres (mv * bytes) :=
  sbind (take n s) (fun p => SOk (mk (fst p), snd p)).
Definition dec_ext (n : N) (s : bytes) : sres (mv * bytes) :=
  match s with
  | [] => SErr FormatErr
  | code :: s' => dec_str (MExt code) n s'
  end.

(** One value at the start of [s].  [fuel] bounds the recursion; unpackb gives enough. *)
Fixpoint dec (fuel : nat) (s : bytes) : sres (mv * bytes) :=
  match fuel with
  | O => SErr FormatErr
  | S f =>
    match s with
    | [] => SErr FormatErr
    | b :: r =>
      let int_ k sg := sbind (take_num k r) (fun p => SOk (MInt (sg (fst p)), snd p)) in
      let arr n r := sbind (dec_many f n r) (fun p => SOk (MArr (fst p), snd p)) in
      let map_ n r := sbind (dec_pairs f n r) (fun p => SOk (MMap (fst p), snd p)) in
      if b <? 128 then SOk (MInt (Z.of_N b), r)
      else if b <? 144 then map_ (b - 128) r
      else if b <? 160 then arr (b - 144) r
      else if b <? 192 then dec_str MStr (b - 160) r
      else if b =? 192 then SOk (MNil, r)
      else if b =? 194 then SOk (MBool false, r)
      else if b =? 195 then SOk (MBool true, r)
      else if b =? 196 then sbind (take_num 1 r) (fun p => dec_str MBin (fst p) (snd p))
      else if b =? 197 then sbind (take_num 2 r) (fun p => dec_str MBin (fst p) (snd p))
      else if b =? 198 then sbind (take_num 4 r) (fun p => dec_str MBin (fst p) (snd p))
      else if b =? 199 then sbind (take_num 1 r) (fun p => dec_ext (fst p) (snd p))
      else if b =? 200 then sbind (take_num 2 r) (fun p => dec_ext (fst p) (snd p))
      else if b =? 201 then sbind (take_num 4 r) (fun p => dec_ext (fst p) (snd p))
      else if b =? 203 then sbind (take_num 8 r) (fun p => SOk (MFloat (fst p), snd p))
      else if b =? 204 then int_ 1 Z.of_N
      else if b =? 205 then int_ 2 Z.of_N
      else if b =? 206 then int_ 4 Z.of_N
      else if b =? 207 then int_ 8 Z.of_N
      else if b =? 208 then int_ 1 (signed 8)
      else if b =? 209 then int_ 2 (signed 16)
      else if b =? 210 then int_ 4 (signed 32)
      else if b =? 211 then int_ 8 (signed 64)
      else if b =? 212 then dec_ext 1 r
      else if b =? 213 then dec_ext 2 r
      else if b =? 214 then dec_ext 4 r
      else if b =? 215 then dec_ext 8 r
      else if b =? 216 then dec_ext 16 r
      else if b =? 217 then sbind (take_num 1 r) (fun p => dec_str MStr (fst p) (snd p))
      else if b =? 218 then sbind (take_num 2 r) (fun p => dec_str MStr (fst p) (snd p))
      else if b =? 219 then sbind (take_num 4 r) (fun p => dec_str MStr (fst p) (snd p))
      else if b =? 220 then sbind (take_num 2 r) (fun p => arr (fst p) (snd p))
      else if b =? 221 then sbind (take_num 4 r) (fun p => arr (fst p) (snd p))
      else if b =? 222 then sbind (take_num 2 r) (fun p => map_ (fst p) (snd p))
      else if b =? 223 then sbind (take_num 4 r) (fun p => map_ (fst p) (snd p))
      else if 224 <=? b then SOk (MInt (Z.of_N b - 256), r)
      else SErr FormatErr    (* 193: never used; 202: single-precision floats, not written *)
    end
  end
with dec_many (fuel : nat) (n : N) (s : bytes) : sres (list mv * bytes) :=
  match fuel with
  | O => SErr FormatErr
  | S f =>
    if n =? 0 then SOk ([], s) else
    sbind (dec f s) (fun p => sbind (dec_many f (n - 1) (snd p)) (fun q =>
      SOk (fst p :: fst q, snd q)))
  end
with dec_pairs (fuel : nat) (n : N) (s : bytes) : sres (list (mv * mv) * bytes) :=
  match fuel with
  | O => SErr FormatErr
  | S f =>
    if n =? 0 then SOk ([], s) else
    sbind (dec f s) (fun k => sbind (dec f (snd k)) (fun v =>
    sbind (dec_pairs f (n - 1) (snd v)) (fun q =>
      SOk ((fst k, fst v) :: fst q, snd q))))
  end.

(** msgpack.unpackb *)
Definition unpackb (s : bytes) : sres mv :=
  sbind (dec (2 * List.length s + 1) s) (fun p =>
    match snd p with [] => SOk (fst p) | _ => SErr ExtraData end).

(* ------------------------------------------------------------------ *)
(** ** The types *)

(** A numpy array: shape, dtype (by name) and items in C order, each the list of its bytes. *)
Record nd := { nd_shape : list N; nd_dtype : bytes; nd_items : list bytes }.

(** vmoe/checkpoints/types.py:31-83 [Slice]: start, stop, step. *)
Definition slice := (option Z * option Z * option Z)%type.
(** vmoe/checkpoints/types.py:86-101 [SliceNd] *)
Definition slicend := list slice.
(** vmoe/checkpoints/types.py:104-125 [SliceNdArray]: shape and elements in C order. *)
Definition slicend_array := (list N * list slicend)%type.

(** jax.core.ShapedArray *)
Record shaped := { sa_shape : list N; sa_dtype : bytes; sa_weak : bool }.
(** vmoe/checkpoints/types.py:181-194 [IndexInfo] *)
Record index_info := { xi_shape : shaped; xi_slices : list slicend; xi_shards : list Z }.

(** A python object that can be in a state dict.  [OLazy]: LazyArrayChunks, for each array
    index the chunks iter_chunks yields (array and global slice; types.py:165-178);
    [OChunks]: ArrayChunks, all its (index, chunk, slice) in order of addition. *)
Inductive obj :=
| ONone | OBool (b : bool) | OInt (z : Z) | OFloat (bits : N) | OStr (s : bytes) | OBytes (s : bytes)
| OList (l : list obj) | ODict (l : list (bytes * obj))
| OComplex (re im : N)
| OShaped (x : shaped) | OSlice (x : slice) | OSliceNd (x : slicend)
| OSliceNdArray (x : slicend_array) | OIndexInfo (x : index_info)
| OArray (x : nd) | OScalar (x : nd)
| OLazy (x : list (N * list (nd * slicend)))
| OChunks (x : list (N * nd * slicend))
| OExt (code : N) (data : bytes).

Definition prodN (l : list N) : N := fold_right N.mul 1 l.

Section Dtype.
(** Bytes per item of a dtype (numpy, external). *)
Variable itemsize : bytes -> N.

(** range(0, len(l), k) blocks: l[i:i + k]. *)
Fixpoint blocks_aux {T} (k room : N) (l : list T) : list T * list (list T) :=
  match l with
  | [] => ([], [])
  | x :: r => if room =? 0 then let '(b, bs) := blocks_aux k (k - 1) r in ([], (x :: b) :: bs)
              else let '(b, bs) := blocks_aux k (room - 1) r in (x :: b, bs)
  end.
Definition blocks {T} (k : N) (l : list T) : list (list T) := snd (blocks_aux k 0 l).

(** flax.serialization._ndarray_to_bytes: (shape, dtype.name, tobytes). *)
Definition ndarray_to_bytes (x : nd) : sres bytes :=
  packb (MArr [MArr (map (fun d => MInt (Z.of_N d)) (nd_shape x)); MStr (nd_dtype x);
               MBin (concat (nd_items x))]).

(** A list of integers, as unpacked (a shape); negative dimensions are not modelled. *)
Definition dec_shape (v : mv) : sres (list N) :=
  match v with
  | MArr l => smap (fun x => match x with
                             | MInt z => if (0 <=? z)%Z then SOk (Z.to_N z) else SErr ValueErr
                             | _ => SErr TypeErr
                             end) l
  | _ => SErr TypeErr
  end.

(** arr.reshape(shape) *)
Definition reshape (shape : list N) (dtype : bytes) (items : list bytes) : sres nd :=
  if prodN shape =? N.of_nat (List.length items)
  then SOk {| nd_shape := shape; nd_dtype := dtype; nd_items := items |} else SErr ValueErr.

(** flax.serialization._ndarray_from_bytes: np.frombuffer(...).reshape(shape); with
    raw=True the dtype name is bytes. *)
Definition ndarray_from_bytes (data : bytes) : sres nd :=
  sbind (unpackb data) (fun v =>
    match v with
    | MArr [sh; MStr name; MBin buffer] =>
        sbind (dec_shape sh) (fun shape =>
          if (itemsize name =? 0) || negb (len buffer mod itemsize name =? 0) then SErr ValueErr else
          reshape shape name (blocks (itemsize name) buffer))
    | MArr _ => SErr ValueErr
    | _ => SErr TypeErr
    end).

(** vmoe/checkpoints/serialization.py:162-164 [_shaped_array_to_bytes] *)
Definition shaped_to_bytes (x : shaped) : sres bytes :=
  packb (MArr [MArr (map (fun d => MInt (Z.of_N d)) (sa_shape x)); MStr (sa_dtype x);
               MBool (sa_weak x); MMap []]).
(** 167-172 [_shaped_array_from_bytes] *)
Definition shaped_from_bytes (data : bytes) : sres shaped :=
  sbind (unpackb data) (fun v =>
    match v with
    | MArr [sh; MStr name; MBool weak; _] =>
        sbind (dec_shape sh) (fun shape =>
          SOk {| sa_shape := shape; sa_dtype := name; sa_weak := weak |})
    | MArr _ => SErr ValueErr
    | _ => SErr TypeErr
    end).

Definition opt_int (o : option Z) : mv := match o with None => MNil | Some z => MInt z end.
Definition to_opt (v : mv) : sres (option Z) :=
  match v with MNil => SOk None | MInt z => SOk (Some z) | _ => SErr TypeErr end.

(** 175-177 [_slice_to_bytes] *)
Definition slice_to_bytes (x : slice) : sres bytes :=
  let '(start, stop, step) := x in packb (MArr [opt_int start; opt_int stop; opt_int step]).
(** 180-182 [_slice_from_bytes] *)
Definition slice_from_bytes (data : bytes) : sres slice :=
  sbind (unpackb data) (fun v =>
    match v with
    | MArr [a; b; c] => sbind (to_opt a) (fun a => sbind (to_opt b) (fun b => sbind (to_opt c) (fun c =>
                          SOk (a, b, c))))
    | MArr _ => SErr ValueErr
    | _ => SErr TypeErr
    end).

(** tuple(map(f, values)) packed; and mapping over unpacked bytes. *)
Definition pack_many {T} (f : T -> sres bytes) (l : list T) : sres mv :=
  sbind (smap f l) (fun bs => SOk (MArr (map MBin bs))).
Definition unpack_many {T} (f : bytes -> sres T) (v : mv) : sres (list T) :=
  match v with
  | MArr l => smap (fun x => match x with MBin b => f b | _ => SErr TypeErr end) l
  | _ => SErr TypeErr
  end.

(** 185-187 [_slice_nd_to_bytes], 190-192 [_slice_nd_from_bytes] *)
Definition slice_nd_to_bytes (x : slicend) : sres bytes :=
  sbind (pack_many slice_to_bytes x) packb.
Definition slice_nd_from_bytes (data : bytes) : sres slicend :=
  sbind (unpackb data) (unpack_many slice_from_bytes).

(** 195-197 [_slice_nd_array_to_bytes], 200-206 [_slice_nd_array_from_bytes] *)
Definition slice_nd_array_to_bytes (x : slicend_array) : sres bytes :=
  sbind (pack_many slice_nd_to_bytes (snd x)) (fun sl =>
    packb (MArr [MArr (map (fun d => MInt (Z.of_N d)) (fst x)); sl])).
Definition slice_nd_array_from_bytes (data : bytes) : sres slicend_array :=
  sbind (unpackb data) (fun v =>
    match v with
    | MArr [sh; sl] =>
        sbind (unpack_many slice_nd_from_bytes sl) (fun slices =>
        sbind (dec_shape sh) (fun shape =>
          if prodN shape =? N.of_nat (List.length slices) then SOk (shape, slices) else SErr ValueErr))
    | MArr _ => SErr ValueErr
    | _ => SErr TypeErr
    end).

(** 251-255 [_index_info_to_bytes], 258-263 [_index_info_from_bytes] *)
Definition index_info_to_bytes (x : index_info) : sres bytes :=
  sbind (shaped_to_bytes (xi_shape x)) (fun sh =>
  sbind (pack_many slice_nd_to_bytes (xi_slices x)) (fun sl =>
    packb (MArr [MBin sh; sl; MArr (map MInt (xi_shards x))]))).
Definition index_info_from_bytes (data : bytes) : sres index_info :=
  sbind (unpackb data) (fun v =>
    match v with
    | MArr [MBin sh; sl; MArr shards] =>
        sbind (shaped_from_bytes sh) (fun shape =>
        sbind (unpack_many slice_nd_from_bytes sl) (fun slices =>
        sbind (smap (fun x => match x with MInt z => SOk z | _ => SErr TypeErr end) shards) (fun shards =>
          SOk {| xi_shape := shape; xi_slices := slices; xi_shards := shards |})))
    | MArr [_; _; _] => SErr TypeErr
    | MArr _ => SErr ValueErr
    | _ => SErr TypeErr
    end).

(** 149-159 [_MsgpackExtType] *)
Definition ext_ndarray := 1.  Definition ext_complex := 2.  Definition ext_npscalar := 3.
Definition ext_shaped := 4.   Definition ext_slice := 5.    Definition ext_slice_nd := 6.
Definition ext_slice_nd_array := 7.  Definition ext_index_info := 8.

(** 146 [_ARRAY_CHUNKS_MAGIC_KEY]; flax.serialization.MAX_CHUNK_SIZE *)
Definition MAGIC : bytes := s_ "__msgpack_array_chunk_a87ca2__".
Definition MAX_CHUNK_SIZE : N := 1073741824.

Definition ext_of (code : N) (r : sres bytes) : sres mv := sbind r (fun b => SOk (MExt code b)).

(** A flat array with some of the items (a subchunk). *)
Definition flat (dtype : bytes) (items : list bytes) : nd :=
  {| nd_shape := [N.of_nat (List.length items)]; nd_dtype := dtype; nd_items := items |}.

(** 212-220 [_encode_chunk]; int(a / b) on these floats is the integer quotient. *)
Definition encode_chunk (p : nd * slicend) : sres mv :=
  let subchunk_size := N.max 1 (MAX_CHUNK_SIZE / itemsize (nd_dtype (fst p))) in
  let subchunks := map (flat (nd_dtype (fst p))) (blocks subchunk_size (nd_items (fst p))) in
  sbind (smap (fun x => ext_of ext_ndarray (ndarray_to_bytes x)) subchunks) (fun sub =>
  sbind (ext_of ext_slice_nd (slice_nd_to_bytes (snd p))) (fun sl =>
    SOk (MArr [MArr sub; sl]))).

(** 209-227 [_lazy_array_chunks_encode] *)
Definition lazy_array_chunks_encode (x : list (N * list (nd * slicend))) : sres mv :=
  sbind (smap (fun il => sbind (smap encode_chunk (snd il)) (fun cs =>
                          SOk (MStr (str_of_N (fst il)), MArr cs))) x) (fun entries =>
    SOk (MMap ((MStr MAGIC, MBool true) :: entries))).

(** 266-290 [_msgpack_ext_pack] applied within packb (strict_types=True): lists, dicts and
    the basic types are packed by msgpack itself.  An ArrayChunks cannot be packed. *)
Fixpoint to_mv (o : obj) : sres mv :=
  match o with
  | ONone => SOk MNil
  | OBool b => SOk (MBool b)
  | OInt z => SOk (MInt z)
  | OFloat b => SOk (MFloat b)
  | OStr s => SOk (MStr s)
  | OBytes s => SOk (MBin s)
  | OList l => sbind (smap to_mv l) (fun vs => SOk (MArr vs))
  | ODict l => sbind (smap (fun kv => let '(k, x) := kv in sbind (to_mv x) (fun v => SOk (MStr k, v))) l)
                     (fun vs => SOk (MMap vs))
  | OComplex re im => ext_of ext_complex (packb (MArr [MFloat re; MFloat im]))
  | OShaped x => ext_of ext_shaped (shaped_to_bytes x)
  | OSlice x => ext_of ext_slice (slice_to_bytes x)
  | OSliceNd x => ext_of ext_slice_nd (slice_nd_to_bytes x)
  | OSliceNdArray x => ext_of ext_slice_nd_array (slice_nd_array_to_bytes x)
  | OLazy x => lazy_array_chunks_encode x
  | OIndexInfo x => ext_of ext_index_info (index_info_to_bytes x)
  | OArray x => ext_of ext_ndarray (ndarray_to_bytes x)
  | OScalar x => ext_of ext_npscalar (ndarray_to_bytes x)
  | OChunks _ => SErr TypeErr
  | OExt c d => SOk (MExt c d)
  end.

(** 96-115 [msgpack_serialize].  flax splits arrays of more than MAX_CHUNK_SIZE bytes
    before (_chunk_array_leaves_in_place): not modelled, so [OArray]s are smaller. *)
Definition msgpack_serialize (o : obj) : sres bytes := sbind (to_mv o) packb.

(** 293-313 [_msgpack_ext_unpack]; ar[()] of a 0-dimensional array is its scalar. *)
Definition ext_unpack (code : N) (data : bytes) : sres obj :=
  if code =? ext_complex then
    sbind (unpackb data) (fun v =>
      match v with MArr (MFloat a :: MFloat b :: _) => SOk (OComplex a b) | _ => SErr TypeErr end)
  else if code =? ext_shaped then sbind (shaped_from_bytes data) (fun x => SOk (OShaped x))
  else if code =? ext_slice then sbind (slice_from_bytes data) (fun x => SOk (OSlice x))
  else if code =? ext_slice_nd then sbind (slice_nd_from_bytes data) (fun x => SOk (OSliceNd x))
  else if code =? ext_slice_nd_array then sbind (slice_nd_array_from_bytes data) (fun x => SOk (OSliceNdArray x))
  else if code =? ext_index_info then sbind (index_info_from_bytes data) (fun x => SOk (OIndexInfo x))
  else if code =? ext_ndarray then sbind (ndarray_from_bytes data) (fun x => SOk (OArray x))
  else if code =? ext_npscalar then
    sbind (ndarray_from_bytes data) (fun x => SOk (match nd_shape x with [] => OScalar x | _ => OArray x end))
  else SOk (OExt code data).

(** s.stop - s.start *)
Definition slice_len (s : slice) : sres N :=
  match s with
  | (Some a, Some b, _) => if (0 <=? b - a)%Z then SOk (Z.to_N (b - a)) else SErr ValueErr
  | _ => SErr TypeErr
  end.

(** 233-237 [_decode_chunk]: np.concatenate of no arrays raises ValueError. *)
Definition decode_chunk (o : obj) : sres (nd * slicend) :=
  match o with
  | OList [OList subchunks; OSliceNd global_slice] =>
      sbind (smap (fun x => match x with OArray a => SOk a | _ => SErr TypeErr end) subchunks) (fun arrs =>
        match arrs with
        | [] => SErr ValueErr
        | a :: _ =>
            sbind (smap slice_len global_slice) (fun shape =>
            sbind (reshape shape (nd_dtype a) (concat (map nd_items arrs))) (fun chunk =>
              SOk (chunk, global_slice)))
        end)
  | _ => SErr TypeErr
  end.

(** 230-248 [_array_chunks_decode] of a dict; int(array_index). *)
Definition array_chunks_decode (d : list (bytes * obj)) : sres obj :=
  if existsb (fun kv => str_eqb (fst kv) MAGIC) d then
    sbind (smap (fun kv =>
        if str_eqb (fst kv) MAGIC then SOk [] else
        if negb (forallb is_digit (fst kv)) || str_eqb (fst kv) [] then SErr ValueErr else
        match snd kv with
        | OList cs => sbind (smap decode_chunk cs) (fun cs =>
                        SOk (map (fun c => (int_of (fst kv), fst c, snd c)) cs))
        | _ => SErr TypeErr
        end) d) (fun ls => SOk (OChunks (concat ls)))
  else SOk (ODict d).

(** d[key] = value *)
Fixpoint dset (d : list (bytes * obj)) (k : bytes) (v : obj) : list (bytes * obj) :=
  match d with
  | [] => [(k, v)]
  | (k', v') :: r => if str_eqb k' k then (k', v) :: r else (k', v') :: dset r k v
  end.

(** msgpack.unpackb's construction of python objects, with ext_hook and object_hook; keys
    are strings (raw=False; strict_map_key). *)
Fixpoint from_mv (v : mv) : sres obj :=
  match v with
  | MNil => SOk ONone
  | MBool b => SOk (OBool b)
  | MInt z => SOk (OInt z)
  | MFloat b => SOk (OFloat b)
  | MStr s => SOk (OStr s)
  | MBin s => SOk (OBytes s)
  | MArr l => sbind (smap from_mv l) (fun os => SOk (OList os))
  | MMap l =>
      sbind (smap (fun kv => match kv with
                             | (MStr k, x) => sbind (from_mv x) (fun o => SOk (k, o))
                             | _ => SErr ValueErr
                             end) l)
            (fun kvs => array_chunks_decode (fold_left (fun d kv => dset d (fst kv) (snd kv)) kvs []))
  | MExt c d => ext_unpack c d
  end.

(** 75-93 [msgpack_restore] (flax's _unchunk_array_leaves_in_place undoes the splitting of
    large arrays, not modelled). *)
Definition msgpack_restore (s : bytes) : sres obj := sbind (unpackb s) from_mv.

End Dtype.
