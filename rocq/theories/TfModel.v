(** Transformations of arrays when models are initialised from checkpoints
    (vmoe/initialization/rules.py:226-381; C60 and C61). *)
From Coq Require Import List Arith ZArith Bool Reals.
From Verif Require Import Py NdArray MapModel.
Import ListNotations.
Local Open Scope nat_scope.

(** ** numpy functions *)
(** The position of an axis of an array with n axes; it may be negative *)
Definition canon (n : nat) (a : Z) : res nat :=
  if ((- Z.of_nat n <=? a) && (a <? Z.of_nat n))%Z then Ok (Z.to_nat (if (a <? 0)%Z then a + Z.of_nat n else a)) else Raise ValueError.
Definition memb (i : nat) (l : list nat) : bool := existsb (Nat.eqb i) l.
Fixpoint distinct (l : list nat) : bool := match l with [] => true | x :: l => negb (memb x l) && distinct l end.
(** Sizes of k axes beginning with axis i: one for the new axes, the old ones in order for the others *)
Fixpoint insert_ones (axes : list nat) (i k : nat) (ds : list nat) : list nat :=
  match k with
  | O => []
  | S k => if memb i axes then 1 :: insert_ones axes (S i) k ds
           else match ds with [] => [] | d :: ds => d :: insert_ones axes (S i) k ds end
  end.
Fixpoint drop_axes (axes : list nat) (i : nat) (idx : list nat) : list nat :=
  match idx with
  | [] => []
  | x :: idx => if memb i axes then drop_axes axes (S i) idx else x :: drop_axes axes (S i) idx
  end.
(** jnp.expand_dims *)
Definition expand_dims {T} (axes : list Z) (a : nda T) : res (nda T) :=
  let n := length (dims a) + length axes in
  bind (rmap (canon n) axes) (fun axes =>
  if distinct axes then Ok {| dims := insert_ones axes 0 n (dims a); at_ := fun idx => at_ a (drop_axes axes 0 idx) |} else Raise ValueError).
(** jnp.tile, for as many repetitions as axes *)
Definition tile {T} (reps : list nat) (a : nda T) : nda T :=
  {| dims := map (fun p => fst p * snd p) (combine (dims a) reps);
     at_ := fun idx => at_ a (map (fun p => fst p mod snd p) (combine idx (dims a))) |}.
Fixpoint set_nth (k x : nat) (l : list nat) : list nat :=
  match l, k with
  | [], _ => []
  | _ :: l, O => x :: l
  | y :: l, S k => y :: set_nth k x l
  end.
(** jnp.squeeze, for one axis *)
Definition squeeze {T} (axis : Z) (a : nda T) : res (nda T) :=
  bind (canon (length (dims a)) axis) (fun p =>
  if nth p (dims a) 0 =? 1 then Ok {| dims := firstn p (dims a) ++ skipn (S p) (dims a); at_ := fun idx => at_ a (firstn p idx ++ 0 :: skipn p idx) |}
  else Raise ValueError).
(** jnp.stack *)
Definition stack_arrays {T} (axis : Z) (l : list (nda T)) : res (nda T) :=
  match l with
  | [] => Raise ValueError
  | a :: _ =>
      if forallb (fun b => if list_eq_dec Nat.eq_dec (dims b) (dims a) then true else false) l then
        bind (canon (S (length (dims a))) axis) (fun p =>
        Ok {| dims := firstn p (dims a) ++ length l :: skipn p (dims a);
              at_ := fun idx => at_ (nth (nth p idx 0) l a) (firstn p idx ++ skipn (S p) idx) |})
      else Raise ValueError
  end.
(** The shape argument of jnp.reshape: at most one size may be -1.  (jnp.reshape raises TypeError or
    ValueError; always ValueError here.) *)
Definition resolve_shape (size : nat) (shape : list Z) : res (list nat) :=
  let known := prod (map Z.to_nat (filter (fun z => negb (z =? -1)%Z) shape)) in
  if existsb (fun z => (z <? -1)%Z) shape then Raise ValueError
  else match filter (fun z => (z =? -1)%Z) shape with
       | [] => Ok (map Z.to_nat shape)
       | [_] => if (known =? 0) || negb (size mod known =? 0) then Raise ValueError
                else Ok (map (fun z => if (z =? -1)%Z then size / known else Z.to_nat z) shape)
       | _ => Raise ValueError
       end.
Definition reshape_z {T} (shape : list Z) (a : nda T) : res (nda T) :=
  bind (resolve_shape (prod (dims a)) shape) (fun shape => reshape shape a).
(** jnp.broadcast_to *)
Definition broadcast {T} (a : nda T) (shape : list nat) : res (nda T) :=
  let k := length shape - length (dims a) in
  if (length (dims a) <=? length shape) && forallb (fun p => (fst p =? snd p) || (fst p =? 1)) (combine (dims a) (skipn k shape))
  then Ok {| dims := shape; at_ := fun idx => at_ a (map (fun p => if fst p =? 1 then 0 else snd p) (combine (dims a) (skipn k idx))) |}
  else Raise ValueError.

(** ** Transformations *)
(** rules.py:252-258 [_make_reps], with safe_zip (utils.py:126-165), whose error is a RuntimeError; output[a] = r counts negative indices from the
    end, and the axes are in range, because expand_dims is called before. *)
Definition make_reps (ndim : nat) (axis : list Z) (reps : list nat) : res (list nat) :=
  if negb (length axis =? length reps) then Raise RuntimeError
  else rfold (fun output ar => bind (canon ndim (fst ar)) (fun p => Ok (set_nth p (snd ar) output))) (combine axis reps) (repeat 1 ndim).
(** rules.py:248-250 [ExpandTileTransformation.__call__]; jnp.tile fails for negative repetitions (which
    exception it raises is not modelled: ValueError here). *)
Definition expand_tile {T} (axis reps : list Z) (a : nda T) : res (nda T) :=
  bind (expand_dims axis a) (fun array =>
  bind (make_reps (length (dims array)) axis (map Z.to_nat reps)) (fun reps' =>
  if existsb (fun r => (r <? 0)%Z) reps then Raise ValueError else
  Ok (tile reps' array))).

(** Linear interpolation of f at i * (o - 1) / (n - 1) (scipy.ndimage.zoom with order=1, an axis of size o
    zoomed to size n); at 0 if n is one. *)
Definition interp (o n : nat) (f : nat -> R) (i : nat) : R :=
  if n <=? 1 then f 0
  else
    let q := i * (o - 1) / (n - 1) in
    let r := (i * (o - 1)) mod (n - 1) in
    let w := (INR r / INR (n - 1))%R in
    if r =? 0 then f q else ((1 - w) * f q + w * f (S q))%R.
Definition zoom_axis (a : nda R) (kn : nat * nat) : nda R :=
  let (k, n) := kn in
  {| dims := set_nth k n (dims a); at_ := fun idx => interp (nth k (dims a) 0) n (fun j => at_ a (set_nth k j idx)) (nth k idx 0) |}.
(** rules.py:295-325 [ZoomTransformation._zoom] and [__call__]: n / o divides by the sizes of the source
    (322, or 363 for VitZoom).  Linear interpolation is done axis by axis, in exact arithmetic, so the
    coordinate of the last entry is exactly the last one of the source.  Meshes are not modelled.  A target
    of another rank makes scipy or the callback fail (RuntimeError here). *)
Definition zoom (shape : list nat) (a : nda R) : res (nda R) :=
  if existsb (Nat.eqb 0) (dims a) then Raise ZeroDivisionError
  else if negb (length shape =? length (dims a)) then Raise RuntimeError
  else Ok (fold_left zoom_axis (combine (seq 0 (length shape)) shape) a).

(** rules.py:331-343 [_get_tok_and_grid_shape]: whether there is a token, and the side of the grid.
    int(math.sqrt(n)) is the exact integer square root here. *)
Definition tok_and_grid (tokens : nat) : res (bool * nat) :=
  let g := Nat.sqrt tokens in
  if negb ((tokens =? g * g) || (tokens =? g * g + 1)) then Raise ValueError
  else Ok (negb (g * g =? tokens), g).
(** jnp.concatenate of (1, n, h) and (1, m, h) along axis 1 *)
Definition concat1 (a b : nda R) : nda R :=
  let n := nth 1 (dims a) 0 in
  {| dims := [1; n + nth 1 (dims b) 0; nth 2 (dims a) 0];
     at_ := fun idx => if nth 1 idx 0 <? n then at_ a idx else at_ b (set_nth 1 (nth 1 idx 0 - n) idx) |}.
(** a[:, lo:hi, :] for three axes *)
Definition slice1 (lo hi : nat) (a : nda R) : nda R :=
  {| dims := set_nth 1 (hi - lo) (dims a); at_ := fun idx => at_ a (set_nth 1 (lo + nth 1 idx 0) idx) |}.
(** rules.py:345-381 [VitZoomTransformation.__call__]: target is its shape, and its values if it is an array;
    [normal] is 0.02 * jax.random.normal(...). *)
Definition vit_zoom (normal : nat -> R) (target_shape : list nat) (target : option (list nat -> R)) (source : nda R) : res (nda R) :=
  match dims source, target_shape with
  | [1; source_tokens; hs], [1; target_tokens; ht] =>
      if negb (hs =? ht) then Raise ValueError
      else
        bind (tok_and_grid source_tokens) (fun '(source_has_tok, gs) =>
        bind (reshape [1; gs; gs; hs] (if source_has_tok then slice1 1 source_tokens source else source)) (fun source_grid_emb =>
        bind (tok_and_grid target_tokens) (fun '(target_has_tok, gt) =>
        bind (zoom [1; gt; gt; ht] source_grid_emb) (fun output_grid_emb =>
        bind (reshape [1; gt * gt; ht] output_grid_emb) (fun output_grid_emb =>
        if target_has_tok then
          let output_tok_emb :=
            if source_has_tok then slice1 0 1 source
            else match target with
                 | None => {| dims := [1; 1; ht]; at_ := fun idx => normal (nth 2 idx 0) |}
                 | Some t => slice1 0 1 {| dims := target_shape; at_ := t |}
                 end in
          Ok (concat1 output_tok_emb output_grid_emb)
        else Ok output_grid_emb)))))
  | _, _ => Raise ValueError
  end.

(** ** As arguments of map_state_dict *)
Section Arrays.
Variable dtype : Type.
Variable dtype_eqb : dtype -> dtype -> bool.
(** The conversion of an entry to a type; the common type to which jnp.stack converts (external). *)
Variable cast : dtype -> R -> R.
Variable promote : list dtype -> dtype.
(** 0.02 * jax.random.normal(PRNGKey(0), ...) (external) *)
Variable normal : nat -> R.
(** An array with its type *)
Record typed := { t_dtype : dtype; t_nd : nda R }.
Definition typed_shape (a : typed) : list nat := dims (t_nd a).
Definition typed_astype (a : typed) (d : dtype) : typed :=
  {| t_dtype := d; t_nd := {| dims := dims (t_nd a); at_ := fun idx => cast d (at_ (t_nd a) idx) |} |}.
Definition lift (d : dtype) (r : res (nda R)) : res typed := bind r (fun w => Ok {| t_dtype := d; t_nd := w |}).
Definition typed_broadcast (a : typed) (shape : list nat) : res typed := lift (t_dtype a) (broadcast (t_nd a) shape).
(** rules.py:148-223 with 242-381: the result has the type of the source.  Targets are arrays, not
    ShapeDtypeStructs; the case of a token of another type (371-379) is not modelled. *)
Definition typed_transform (k : kind) (source target : typed) : res typed :=
  lift (t_dtype source)
    match k with
    | KExpandTile _ axis reps => expand_tile axis reps (t_nd source)
    | KReshape _ (Some (z :: shape)) => reshape_z (z :: shape) (t_nd source)
    | KReshape _ _ => reshape (typed_shape target) (t_nd source)
    | KSqueeze _ axis => squeeze axis (t_nd source)
    | KStack _ axis => stack_arrays axis [t_nd source]
    | KZoom _ => zoom (typed_shape target) (t_nd source)
    | KVitZoom _ => vit_zoom normal (typed_shape target) (Some (at_ (t_nd target))) (t_nd source)
    | KDrop | KRegex _ => Ok (t_nd source)
    end.
(** rules.py:286-287 [StackTransformation.__call__] *)
Definition typed_stack (axis : Z) (l : list typed) : res typed :=
  let d := promote (map t_dtype l) in
  lift d (stack_arrays axis (map (fun a => t_nd (if dtype_eqb (t_dtype a) d then a else typed_astype a d)) l)).
End Arrays.
