(** C60 and C61: transformations of arrays when a model is initialised from a checkpoint. *)
From Coq Require Import List Arith Bool Reals ZArith Lia Lra.
From Verif Require Import NdArray TreeModel TreeSpec TreeProps MapModel MapSpec.
From Verif Require Import MoeModel MoeSpec SoftModel CwModel OtModel OtSpec.
From Verif Require Import TfModel TfSpec TfProofs.
From Verif Require Import Py.
Import ListNotations.
Local Open Scope nat_scope.

Definition ex_matrix : nda nat := {| dims := [2; 3]; at_ := fun idx => match idx with [i; j] => 10 * i + j | _ => 99 end |}.

(** C60: expand_tile inserts the given axes, with the given sizes; the other axes are those of the source, in
    order, and every entry is the entry of the source at the index of the other axes. *)
Theorem C60_copies : forall (T : Type) (axis reps : list Z) (a : nda T) ps,
  Forall2 (is_axis (length (dims a) + length axis)) axis ps -> NoDup ps -> length reps = length axis -> Forall (fun r => (0 <= r)%Z) reps ->
  exists w, expand_tile axis reps a = Ok w /\ length (dims w) = length (dims a) + length axis /\ others ps (dims w) = dims a /\
    (forall j, j < length axis -> Z.of_nat (nth (nth j ps 0) (dims w) 0) = nth j reps 0%Z) /\
    forall idx, valid (dims w) idx -> valid (dims a) (others ps idx) /\ at_ w idx = at_ a (others ps idx).
Proof. exact @expand_tile_copies. Qed.
Print Assumptions C60_copies.
Example C60_copies_example : exists w, expand_tile [0; -1]%Z [2; 2]%Z ex_matrix = Ok w /\ dims w = [2; 2; 3; 2] /\
  flatten w = [0; 0; 1; 1; 2; 2; 10; 10; 11; 11; 12; 12; 0; 0; 1; 1; 2; 2; 10; 10; 11; 11; 12; 12] /\
  Forall2 (is_axis 4) [0; -1]%Z [0; 3] /\ NoDup [0; 3].
Proof.
  eexists. split; [reflexivity|]. split; [reflexivity|]. split; [reflexivity|]. split; [repeat constructor; unfold is_axis; lia|].
  repeat constructor; simpl; intuition lia.
Qed.

(** C60: for one new axis, each of the r parts along it is the source. *)
Theorem C60_one_axis : forall (T : Type) z r p (a : nda T),
  is_axis (S (length (dims a))) z p ->
  exists w, expand_tile [z] [Z.of_nat r] a = Ok w /\ dims w = put p r (dims a) /\
    forall i idx, i < r -> valid (dims a) idx -> at_ w (put p i idx) = at_ a idx.
Proof. exact @expand_tile_one. Qed.
Print Assumptions C60_one_axis.
Example C60_one_axis_example : is_axis 3 (-2)%Z 1 /\ exists w, expand_tile [-2]%Z [3]%Z ex_matrix = Ok w /\ dims w = [2; 3; 3] /\ at_ w [1; 2; 0] = 10.
Proof. split; [unfold is_axis; lia|]. eexists. repeat split; reflexivity. Qed.

(** C60: axes out of range or repeated are rejected, and so are different numbers of axes and repetitions,
    and negative repetitions. *)
Theorem C60_expand_tile_errors : forall (T : Type) (axis reps : list Z) (a : nda T),
  let axes := Forall2 (is_axis (length (dims a) + length axis)) axis in
  ((forall ps, axes ps -> ~ NoDup ps) -> expand_tile axis reps a = Raise ValueError) /\
  (forall ps, axes ps -> NoDup ps -> length reps <> length axis -> expand_tile axis reps a = Raise RuntimeError) /\
  (forall w, expand_tile axis reps a = Ok w -> Forall (fun r => (0 <= r)%Z) reps).
Proof. exact @expand_tile_errors. Qed.
Print Assumptions C60_expand_tile_errors.
Example C60_expand_tile_errors_example :
  expand_tile [3]%Z [2]%Z ex_matrix = Raise ValueError /\ expand_tile [0; -4]%Z [2; 2]%Z ex_matrix = Raise ValueError /\
  expand_tile [0]%Z [2; 2]%Z ex_matrix = Raise RuntimeError /\ expand_tile [0]%Z [-1]%Z ex_matrix = Raise ValueError.
Proof. repeat split; reflexivity. Qed.

(** C60: squeeze removes an axis of size one and fails for others. *)
Theorem C60_squeeze : forall (T : Type) z (a : nda T),
  (forall p, is_axis (length (dims a)) z p ->
    (nth p (dims a) 0 = 1 -> exists w, squeeze z a = Ok w /\ dims w = without p (dims a) /\
       forall idx, valid (dims w) idx -> at_ w idx = at_ a (put p 0 idx)) /\
    (nth p (dims a) 0 <> 1 -> squeeze z a = Raise ValueError)) /\
  ((forall p, ~ is_axis (length (dims a)) z p) -> squeeze z a = Raise ValueError).
Proof. exact @squeeze_removes. Qed.
Print Assumptions C60_squeeze.
Example C60_squeeze_example : squeeze 0 ex_matrix = Raise ValueError /\ squeeze 2 ex_matrix = Raise ValueError /\
  exists w, squeeze (-2) {| dims := [2; 1; 3]; at_ := fun idx => nth 0 idx 0 + nth 2 idx 0 |} = Ok w /\ dims w = [2; 3] /\ at_ w [1; 2] = 3.
Proof. split; [reflexivity|]. split; [reflexivity|]. eexists. repeat split; reflexivity. Qed.

(** C60: it undoes the insertion of the axis. *)
Theorem C60_squeeze_expand : forall (T : Type) z p (a : nda T),
  is_axis (S (length (dims a))) z p ->
  exists b w, expand_dims [z] a = Ok b /\ squeeze z b = Ok w /\ same w a.
Proof. exact @squeeze_expand. Qed.
Print Assumptions C60_squeeze_expand.
Example C60_squeeze_expand_example : is_axis (S (length (dims ex_matrix))) (-1)%Z 2.
Proof. unfold is_axis. simpl. lia. Qed.

(** C60: the i-th part of a stack along its axis is the i-th array. *)
Theorem C60_stack : forall (T : Type) z (l : list (nda T)) ds p d,
  l <> [] -> Forall (fun b => dims b = ds) l -> is_axis (S (length ds)) z p ->
  exists w, stack_arrays z l = Ok w /\ dims w = put p (length l) ds /\
    forall i idx, i < length l -> valid ds idx -> at_ w (put p i idx) = at_ (nth i l d) idx.
Proof. exact @stack_parts. Qed.
Print Assumptions C60_stack.
Example C60_stack_example : exists w, stack_arrays (-1)%Z [ex_matrix; {| dims := [2; 3]; at_ := fun _ => 7 |}] = Ok w /\
  dims w = [2; 3; 2] /\ flatten w = [0; 7; 1; 7; 2; 7; 10; 7; 11; 7; 12; 7].
Proof. eexists. repeat split; reflexivity. Qed.

(** C60: nothing to stack, different shapes, or an axis out of range are rejected. *)
Theorem C60_stack_errors : forall (T : Type) z (l : list (nda T)),
  (l = [] \/ (exists a b, In a l /\ In b l /\ dims a <> dims b) \/ (exists a, In a l /\ forall p, ~ is_axis (S (length (dims a))) z p)) ->
  stack_arrays z l = Raise ValueError.
Proof. exact @stack_errors. Qed.
Print Assumptions C60_stack_errors.
Example C60_stack_errors_example : stack_arrays 0 [ex_matrix; {| dims := [3; 2]; at_ := fun _ => 7 |}] = Raise ValueError.
Proof. reflexivity. Qed.

(** C60: reshape keeps the entries in row-major order, and gives the sizes asked for. *)
Theorem C60_reshape_order : forall (T : Type) shape (a w : nda T),
  reshape_z shape a = Ok w ->
  flatten w = flatten a /\ prod (dims w) = prod (dims a) /\ Forall2 (fun z d => z = Z.of_nat d \/ z = (-1)%Z) shape (dims w).
Proof. exact @reshape_order. Qed.
Print Assumptions C60_reshape_order.
Example C60_reshape_order_example : exists w, reshape_z [3; -1]%Z ex_matrix = Ok w /\ dims w = [3; 2] /\ flatten w = [0; 1; 2; 10; 11; 12].
Proof. eexists. repeat split; reflexivity. Qed.

(** C60: it succeeds exactly when the number of entries is the same. *)
Theorem C60_reshape : forall (T : Type) ds (a : nda T),
  (prod ds = prod (dims a) -> exists w, reshape_z (map Z.of_nat ds) a = Ok w /\ dims w = ds) /\
  (prod ds <> prod (dims a) -> exists e, reshape_z (map Z.of_nat ds) a = Raise e).
Proof. exact @reshape_known. Qed.
Print Assumptions C60_reshape.
Example C60_reshape_example : reshape_z [4; 2]%Z ex_matrix = Raise ValueError.
Proof. reflexivity. Qed.

(** C60: and one size may be inferred. *)
Theorem C60_reshape_inferred : forall (T : Type) ds ds' k (a : nda T),
  prod (ds ++ k :: ds') = prod (dims a) -> prod (ds ++ ds') <> 0 ->
  exists w, reshape_z (map Z.of_nat ds ++ (-1)%Z :: map Z.of_nat ds') a = Ok w /\ dims w = ds ++ k :: ds'.
Proof. exact @reshape_inferred. Qed.
Print Assumptions C60_reshape_inferred.
Example C60_reshape_inferred_example : prod ([3] ++ 2 :: []) = prod (dims ex_matrix) /\ prod ([3] ++ []) <> 0.
Proof. split; [reflexivity|discriminate]. Qed.

(** C60: initialisation of the experts from a dense layer.  If the array s of the source goes to a parameter
    with the rule expand_tile for one axis, the parameter gets the shape of s with E inserted, and each of the
    E parts is a copy of s (converted, if this is allowed, when the types differ). *)
Theorem C60_upcycled : forall pat (search : pat -> str -> bool) (sub : pat -> str -> str -> str) dtype (dtype_eqb : dtype -> dtype -> bool)
    (cast : dtype -> R -> R) (promote : list dtype -> dtype) (normal : nat -> R),
  (forall a b, reflect (a = b) (dtype_eqb a b)) ->
  forall fl rules source target out p x key s t z q E, wf no_slash source -> wf (fun _ => True) target ->
  map_state_dict pat search sub (typed dtype) dtype dtype_eqb (typed_shape dtype) (t_dtype dtype) (typed_astype dtype cast)
    (typed_broadcast dtype) (typed_transform dtype normal) (typed_stack dtype dtype_eqb cast promote)
    fl rules source target = Ok out -> raise_shape fl = true -> leaf_at target p x -> named_array _ source key s ->
  goes pat search sub rules key (KExpandTile t [z] [Z.of_nat E]) (join p) -> is_axis (S (length (dims (t_nd _ s)))) z q ->
  exists y, leaf_at out p y /\ t_dtype _ y = t_dtype _ x /\ dims (t_nd _ y) = dims (t_nd _ x) /\ dims (t_nd _ y) = put q E (dims (t_nd _ s)) /\
    forall e idx, e < E -> valid (dims (t_nd _ s)) idx ->
      (t_dtype _ s = t_dtype _ x -> at_ (t_nd _ y) (put q e idx) = at_ (t_nd _ s) idx) /\
      (t_dtype _ s <> t_dtype _ x -> raise_dtype fl = false /\ at_ (t_nd _ y) (put q e idx) = cast (t_dtype _ x) (at_ (t_nd _ s) idx)).
Proof. exact upcycled. Qed.
Print Assumptions C60_upcycled.
Definition ex_typed (ds : list nat) (v : R) : typed bool := {| t_dtype := true; t_nd := {| dims := ds; at_ := fun _ => v |} |}.
Example C60_upcycled_example :
  let rules := [UTuple str [97] (Some [98]) (Some (s_expand_tile, [TInt 0%Z; TInt 2%Z]))] in
  let fl := {| raise_dtype := true; raise_shape := true; raise_source := true; raise_target := true |} in
  (exists out, map_state_dict str infixb (fun _ t _ => t) (typed bool) bool Bool.eqb (typed_shape bool) (t_dtype bool) (typed_astype bool (fun _ x => x))
    (typed_broadcast bool) (typed_transform bool (fun _ => 0%R)) (typed_stack bool Bool.eqb (fun _ x => x) (fun _ => true))
    fl rules (Node [([97], Leaf (ex_typed [3] 5))]) (Node [([98], Leaf (ex_typed [2; 3] 0))]) = Ok out) /\
  goes str infixb (fun _ t _ => t) rules [97] (KExpandTile [98] [0%Z] [2%Z]) (join [[98]]).
Proof.
  split; [eexists; vm_compute; reflexivity|]. left. exists [97], [98]. split; [|split; reflexivity].
  exists [], (UTuple str [97] (Some [98]) (Some (s_expand_tile, [TInt 0%Z; TInt 2%Z]))), []. split; [reflexivity|]. split; [constructor; constructor|]. split; [reflexivity|constructor].
Qed.

(** C60: reshape as a rule: the parameter has the shape of the target and the entries of the source in order,
    and a shape given in the rule is the one of the target. *)
Theorem C60_reshaped_parameter : forall pat (search : pat -> str -> bool) (sub : pat -> str -> str -> str) dtype (dtype_eqb : dtype -> dtype -> bool)
    (cast : dtype -> R -> R) (promote : list dtype -> dtype) (normal : nat -> R),
  (forall a b, reflect (a = b) (dtype_eqb a b)) ->
  forall fl rules source target out p x key s t shape, wf no_slash source -> wf (fun _ => True) target ->
  map_state_dict pat search sub (typed dtype) dtype dtype_eqb (typed_shape dtype) (t_dtype dtype) (typed_astype dtype cast)
    (typed_broadcast dtype) (typed_transform dtype normal) (typed_stack dtype dtype_eqb cast promote)
    fl rules source target = Ok out -> raise_shape fl = true -> leaf_at target p x -> named_array _ source key s -> t_dtype _ s = t_dtype _ x ->
  goes pat search sub rules key (KReshape t shape) (join p) ->
  exists y, leaf_at out p y /\ dims (t_nd _ y) = dims (t_nd _ x) /\ flatten (t_nd _ y) = flatten (t_nd _ s) /\
    forall l, shape = Some l -> l <> [] -> Forall2 (fun z d => z = Z.of_nat d \/ z = (-1)%Z) l (dims (t_nd _ x)).
Proof. exact rule_reshape. Qed.
Print Assumptions C60_reshaped_parameter.
Example C60_reshaped_parameter_example :
  let rules := [UTuple str [97] (Some [98]) (Some (s_reshape, [TTuple [2%Z; (-1)%Z]]))] in
  let fl := {| raise_dtype := true; raise_shape := true; raise_source := true; raise_target := true |} in
  (exists out, map_state_dict str infixb (fun _ t _ => t) (typed bool) bool Bool.eqb (typed_shape bool) (t_dtype bool) (typed_astype bool (fun _ x => x))
    (typed_broadcast bool) (typed_transform bool (fun _ => 0%R)) (typed_stack bool Bool.eqb (fun _ x => x) (fun _ => true))
    fl rules (Node [([97], Leaf (ex_typed [6] 5))]) (Node [([98], Leaf (ex_typed [2; 3] 0))]) = Ok out) /\
  goes str infixb (fun _ t _ => t) rules [97] (KReshape [98] (Some [2%Z; (-1)%Z])) (join [[98]]).
Proof.
  split; [eexists; vm_compute; reflexivity|]. left. exists [97], [98]. split; [|split; reflexivity].
  eexists [], _, []. split; [reflexivity|]. split; [constructor; constructor|]. split; [reflexivity|constructor].
Qed.

(** C60: squeeze as a rule: the parameter is the source without the axis of size one. *)
Theorem C60_squeezed_parameter : forall pat (search : pat -> str -> bool) (sub : pat -> str -> str -> str) dtype (dtype_eqb : dtype -> dtype -> bool)
    (cast : dtype -> R -> R) (promote : list dtype -> dtype) (normal : nat -> R),
  (forall a b, reflect (a = b) (dtype_eqb a b)) ->
  forall fl rules source target out p x key s t z, wf no_slash source -> wf (fun _ => True) target ->
  map_state_dict pat search sub (typed dtype) dtype dtype_eqb (typed_shape dtype) (t_dtype dtype) (typed_astype dtype cast)
    (typed_broadcast dtype) (typed_transform dtype normal) (typed_stack dtype dtype_eqb cast promote)
    fl rules source target = Ok out -> raise_shape fl = true -> leaf_at target p x -> named_array _ source key s -> t_dtype _ s = t_dtype _ x ->
  goes pat search sub rules key (KSqueeze t z) (join p) ->
  exists y q, leaf_at out p y /\ is_axis (length (dims (t_nd _ s))) z q /\ nth q (dims (t_nd _ s)) 0 = 1 /\ dims (t_nd _ y) = without q (dims (t_nd _ s)) /\
    forall idx, valid (dims (t_nd _ y)) idx -> at_ (t_nd _ y) idx = at_ (t_nd _ s) (put q 0 idx).
Proof. exact rule_squeeze. Qed.
Print Assumptions C60_squeezed_parameter.
Example C60_squeezed_parameter_example :
  let rules := [UTuple str [97] (Some [98]) (Some (s_squeeze, [TInt 1%Z]))] in
  let fl := {| raise_dtype := true; raise_shape := true; raise_source := true; raise_target := true |} in
  (exists out, map_state_dict str infixb (fun _ t _ => t) (typed bool) bool Bool.eqb (typed_shape bool) (t_dtype bool) (typed_astype bool (fun _ x => x))
    (typed_broadcast bool) (typed_transform bool (fun _ => 0%R)) (typed_stack bool Bool.eqb (fun _ x => x) (fun _ => true))
    fl rules (Node [([97], Leaf (ex_typed [6; 1] 5))]) (Node [([98], Leaf (ex_typed [6] 0))]) = Ok out) /\
  goes str infixb (fun _ t _ => t) rules [97] (KSqueeze [98] 1%Z) (join [[98]]).
Proof.
  split; [eexists; vm_compute; reflexivity|]. left. exists [97], [98]. split; [|split; reflexivity].
  eexists [], _, []. split; [reflexivity|]. split; [constructor; constructor|]. split; [reflexivity|constructor].
Qed.

(** C60: stack as a rule: if all that goes to a parameter goes there with stack along the same axis and has its
    type, the parts of the parameter along this axis are these arrays. *)
Theorem C60_stacked_parameter : forall pat (search : pat -> str -> bool) (sub : pat -> str -> str -> str) dtype (dtype_eqb : dtype -> dtype -> bool)
    (cast : dtype -> R -> R) (promote : list dtype -> dtype) (normal : nat -> R),
  (forall a b, reflect (a = b) (dtype_eqb a b)) ->
  (forall d l, l <> [] -> Forall (eq d) l -> promote l = d) ->
  forall fl rules source target out p x key0 s0 t0 z0, wf no_slash source -> wf (fun _ => True) target ->
  map_state_dict pat search sub (typed dtype) dtype dtype_eqb (typed_shape dtype) (t_dtype dtype) (typed_astype dtype cast)
    (typed_broadcast dtype) (typed_transform dtype normal) (typed_stack dtype dtype_eqb cast promote)
    fl rules source target = Ok out -> raise_shape fl = true -> leaf_at target p x -> named_array _ source key0 s0 ->
  goes pat search sub rules key0 (KStack t0 z0) (join p) ->
  (forall key s k, named_array _ source key s -> goes pat search sub rules key k (join p) -> t_dtype _ s = t_dtype _ x /\ exists t, k = KStack t z0) ->
  exists y l ds q, leaf_at out p y /\ NoDup (map fst l) /\
    (forall key s, In (key, s) l <-> named_array _ source key s /\ exists k, goes pat search sub rules key k (join p)) /\
    is_axis (S (length ds)) z0 q /\ dims (t_nd _ y) = put q (length l) ds /\
    forall i key s, nth_error l i = Some (key, s) -> dims (t_nd _ s) = ds /\ forall idx, valid ds idx -> at_ (t_nd _ y) (put q i idx) = at_ (t_nd _ s) idx.
Proof. exact rule_stack. Qed.
Print Assumptions C60_stacked_parameter.
Example C60_stacked_parameter_example :
  let rules := [UTuple str [97] (Some [98]) (Some (s_stack, [TInt 1%Z]))] in
  let fl := {| raise_dtype := true; raise_shape := true; raise_source := true; raise_target := true |} in
  (exists out, map_state_dict str infixb (fun _ t _ => t) (typed bool) bool Bool.eqb (typed_shape bool) (t_dtype bool) (typed_astype bool (fun _ x => x))
    (typed_broadcast bool) (typed_transform bool (fun _ => 0%R)) (typed_stack bool Bool.eqb (fun _ x => x) (fun _ => true))
    fl rules (Node [([97], Leaf (ex_typed [3] 5)); ([97; 97], Leaf (ex_typed [3] 6))]) (Node [([98], Leaf (ex_typed [3; 2] 0))]) = Ok out) /\
  goes str infixb (fun _ t _ => t) rules [97] (KStack [98] 1%Z) (join [[98]]).
Proof.
  split; [eexists; vm_compute; reflexivity|]. left. exists [97], [98]. split; [|split; reflexivity].
  eexists [], _, []. split; [reflexivity|]. split; [constructor; constructor|]. split; [reflexivity|constructor].
Qed.

(** C60: a layer whose experts are copies of a dense layer computes the dense layer times the sum of the
    weights of the choices that are not dropped. *)
Theorem C60_copies_layer : forall (mlp : nda R -> (nat -> R) -> nat -> R),
  (forall p p' x d, same p p' -> mlp p x d = mlp p' x d) ->
  forall G S E K C name bp bf (gates : nat -> nat -> nat -> R) (a w : nda R), 1 <= S -> 1 <= K -> K <= E -> name <> NameOther ->
  expand_tile [0%Z] [Z.of_nat E] a = Ok w ->
  exists disp, experts_dispatcher (A := Ralg) G S E K C name bp bf gates None = Ok disp /\
  forall ch, (forall g s, s < S -> best_choices (A := Ralg) E K (gates g s) (ch g s)) ->
  forall data g s d, g < G -> s < S ->
    layer disp (fun e buf j => mlp (part e w) (buf j)) data g s d =
    (sumf K (fun k => if competitors (A := Ralg) bp S E K (gates g) (ch g) s k <? C then gates g s (ch g s k) else 0%R) * mlp a (data g s) d)%R.
Proof. exact copies_layer. Qed.
Print Assumptions C60_copies_layer.
Definition ex_mlp (p : nda R) (x : nat -> R) (d : nat) : R := match dims p with [S _] => Rmult (at_ p [0]) (x d) | _ => 0%R end.
Example C60_copies_layer_example : (forall p p' x d, same p p' -> ex_mlp p x d = ex_mlp p' x d) /\ NameEinsum <> NameOther /\
  exists w, expand_tile [0%Z] [Z.of_nat 3] {| dims := [2]; at_ := fun idx => INR (5 + nth 0 idx 0) |} = Ok w.
Proof.
  split; [|split; [discriminate|eexists; reflexivity]]. intros p p' x d (D & H). unfold ex_mlp. rewrite <- D. destruct (dims p) as [|[|n] [|]] eqn:E; auto.
  rewrite H; auto. constructor; [lia|constructor].
Qed.

(** C60: so it computes the dense layer if no choice can be dropped and at most K weights, which sum to one,
    are not zero (for instance if all experts are selected). *)
Theorem C60_copies_dense : forall (mlp : nda R -> (nat -> R) -> nat -> R),
  (forall p p' x d, same p p' -> mlp p x d = mlp p' x d) ->
  forall G S E K C name bp bf (gates : nat -> nat -> nat -> R) (a w : nda R), 1 <= S -> 1 <= K -> K <= E -> name <> NameOther -> S <= C ->
  (forall g s, s < S -> sparse_simplex E K (gates g s)) -> expand_tile [0%Z] [Z.of_nat E] a = Ok w ->
  exists disp, experts_dispatcher (A := Ralg) G S E K C name bp bf gates None = Ok disp /\
  forall data g s d, g < G -> s < S -> layer disp (fun e buf j => mlp (part e w) (buf j)) data g s d = mlp a (data g s) d.
Proof. exact copies_dense. Qed.
Print Assumptions C60_copies_dense.
Example C60_copies_dense_example : sparse_simplex 2 2 (fun _ => (1 / 2)%R).
Proof.
  split; [intros; lra|]. split; [cbn [sumf]; lra|]. unfold nonzeros. etransitivity; [|apply (Nat.eq_le_incl _ _ (seq_length 2 0))].
  cbn [seq filter]. destruct (Req_EM_T (1 / 2) 0); simpl; lia.
Qed.

(** C61: position embeddings, with or without a token in front, on both sides: the grid is resized with
    linear interpolation, and the token is the one of the source if there is one, or the one of the target, or
    random if the target has only a shape. *)
Theorem C61_position_embeddings : forall normal target ns nt h ts tt gs gt (source : nda R),
  dims source = [1; ns; h] -> tokens_of ts gs ns -> tokens_of tt gt nt -> 1 <= gs -> 1 <= h ->
  exists w, vit_zoom normal [1; nt; h] target source = Ok w /\ dims w = [1; nt; h] /\
    (forall r c k, r < gt -> c < gt -> k < h -> resized_grid gs gt (fun i j => grid_at ts gs source i j k) r c (grid_at tt gt w r c k)) /\
    (tt = true -> forall k, k < h -> at_ w [0; 0; k] =
       if ts then at_ source [0; 0; k] else match target with Some t => t [0; 0; k] | None => normal k end).
Proof. exact vit_zoom_values. Qed.
Print Assumptions C61_position_embeddings.
Example C61_position_embeddings_example : tokens_of true 2 5 /\ tokens_of false 3 9 /\
  exists w, vit_zoom (fun _ => 0%R) [1; 9; 1] None {| dims := [1; 5; 1]; at_ := fun idx => match nth 1 idx 0 with 1 => 4%R | 2 => 6%R | 3 => 8%R | 4 => 10%R | _ => 0%R end |} = Ok w /\
    dims w = [1; 9; 1] /\ at_ w [0; 0; 0] = 4%R /\ at_ w [0; 1; 0] = 5%R /\ at_ w [0; 4; 0] = 7%R /\ at_ w [0; 8; 0] = 10%R.
Proof.
  split; [split; [reflexivity|lia]|]. split; [split; [reflexivity|discriminate]|]. eexists. split; [reflexivity|]. split; [reflexivity|].
  repeat split; cbn; unfold interp; cbn; lra.
Qed.

(** C61: this determines the grid; *)
Theorem C61_determined : forall o n f r c y y',
  resized_grid o n f r c y -> resized_grid o n f r c y' -> 1 <= o -> y = y'.
Proof. exact grid_unique. Qed.
Print Assumptions C61_determined.

(** C61: a grid of the same size is kept; *)
Theorem C61_same_grid : forall o f r c y,
  r < o -> c < o -> resized_grid o o f r c y -> y = f r c.
Proof. exact grid_same. Qed.
Print Assumptions C61_same_grid.

(** C61: corners are kept; *)
Theorem C61_corners : forall o n f r c y,
  1 <= o -> 2 <= n -> (r = 0 \/ r = n - 1) -> (c = 0 \/ c = n - 1) -> resized_grid o n f r c y ->
  y = f (if r =? 0 then 0 else o - 1) (if c =? 0 then 0 else o - 1).
Proof. exact grid_corners. Qed.
Print Assumptions C61_corners.

(** C61: and all values are between the least and the greatest one of the source. *)
Theorem C61_range : forall o n f r c y lo hi,
  resized_grid o n f r c y -> 1 <= o -> (forall i j, i < o -> j < o -> (lo <= f i j <= hi)%R) -> (lo <= y <= hi)%R.
Proof. exact grid_range. Qed.
Print Assumptions C61_range.
Example C61_range_example : resized_grid 2 3 (fun i j => INR (i + j)) 1 1 1%R.
Proof.
  exists (fun j => (INR j + 1 / 2)%R). split.
  - intros j Hj. right. split; [lia|]. exists 0, (1 / 2)%R. split; [lra|]. split; [simpl; lra|]. right. split; [lia|]. destruct j as [|[|j]]; [simpl; lra|simpl; lra|lia].
  - right. split; [lia|]. exists 0, (1 / 2)%R. split; [lra|]. split; [simpl; lra|]. right. split; [lia|]. simpl. lra.
Qed.

(** C61: what is rejected: shapes that are not (1, tokens, size), other sizes, grids that are not square;
    empty sources fail when sizes are divided. *)
Theorem C61_errors : forall normal tshape target (source : nda R),
  let fails e := vit_zoom normal tshape target source = Raise e in
  ((forall n h, dims source <> [1; n; h]) \/ (forall n h, tshape <> [1; n; h]) -> fails ValueError) /\
  forall ns hs nt ht, dims source = [1; ns; hs] -> tshape = [1; nt; ht] ->
    (hs <> ht -> fails ValueError) /\
    (hs = ht -> (forall tok g, ~ tokens_of tok g ns) \/ (forall tok g, ~ tokens_of tok g nt) -> fails ValueError) /\
    (hs = ht -> (exists tok g, tokens_of tok g nt) -> ns = 0 \/ (hs = 0 /\ exists tok g, tokens_of tok g ns) -> fails ZeroDivisionError).
Proof. exact vit_zoom_errors. Qed.
Print Assumptions C61_errors.
Example C61_errors_example : vit_zoom (fun _ => 0%R) [1; 4; 2] None {| dims := [1; 3; 2]; at_ := fun _ => 0%R |} = Raise ValueError /\
  vit_zoom (fun _ => 0%R) [1; 4; 2] None {| dims := [1; 4; 3]; at_ := fun _ => 0%R |} = Raise ValueError /\
  vit_zoom (fun _ => 0%R) [1; 4; 2] None {| dims := [1; 0; 2]; at_ := fun _ => 0%R |} = Raise ZeroDivisionError.
Proof. repeat split; reflexivity. Qed.

(** C61: the rule zoom, for any number of axes: it gives the shape of the target, with values between the
    least and the greatest one of the source, and the source itself if the shapes are equal. *)
Theorem C61_zoom : forall shape a,
  (In 0 (dims a) -> zoom shape a = Raise ZeroDivisionError) /\
  (~ In 0 (dims a) -> length shape <> length (dims a) -> exists e, zoom shape a = Raise e) /\
  (~ In 0 (dims a) -> length shape = length (dims a) ->
    exists w, zoom shape a = Ok w /\ dims w = shape /\
      (forall lo hi, (forall idx, valid (dims a) idx -> (lo <= at_ a idx <= hi)%R) -> forall idx, valid (dims w) idx -> (lo <= at_ w idx <= hi)%R) /\
      (shape = dims a -> same w a)).
Proof. exact zoom_values. Qed.
Print Assumptions C61_zoom.
Example C61_zoom_example : exists w, zoom [3] {| dims := [2]; at_ := fun idx => INR (2 * nth 0 idx 0) |} = Ok w /\ at_ w [1] = 1%R /\ at_ w [2] = 2%R.
Proof. eexists. split; [reflexivity|]. split; cbn; unfold interp; cbn; lra. Qed.

(** C61: vit_zoom as a rule: the parameter gets the resized grid, and the token of the source or, if the source has
    none, the one the target had. *)
Theorem C61_resized_embeddings : forall pat (search : pat -> str -> bool) (sub : pat -> str -> str -> str) dtype (dtype_eqb : dtype -> dtype -> bool)
    (cast : dtype -> R -> R) (promote : list dtype -> dtype) (normal : nat -> R),
  (forall a b, reflect (a = b) (dtype_eqb a b)) ->
  forall fl rules source target out p x key s t ns nt h ts tt gs gt, wf no_slash source -> wf (fun _ => True) target ->
  map_state_dict pat search sub (typed dtype) dtype dtype_eqb (typed_shape dtype) (t_dtype dtype) (typed_astype dtype cast)
    (typed_broadcast dtype) (typed_transform dtype normal) (typed_stack dtype dtype_eqb cast promote)
    fl rules source target = Ok out -> leaf_at target p x -> named_array _ source key s -> t_dtype _ s = t_dtype _ x ->
  goes pat search sub rules key (KVitZoom t) (join p) ->
  dims (t_nd _ s) = [1; ns; h] -> dims (t_nd _ x) = [1; nt; h] -> tokens_of ts gs ns -> tokens_of tt gt nt -> 1 <= gs -> 1 <= h ->
  exists y, leaf_at out p y /\ dims (t_nd _ y) = dims (t_nd _ x) /\
    (forall r c k, r < gt -> c < gt -> k < h -> resized_grid gs gt (fun i j => grid_at ts gs (t_nd _ s) i j k) r c (grid_at tt gt (t_nd _ y) r c k)) /\
    (tt = true -> forall k, k < h -> at_ (t_nd _ y) [0; 0; k] = at_ (t_nd _ (if ts then s else x)) [0; 0; k]).
Proof. exact rule_vit_zoom. Qed.
Print Assumptions C61_resized_embeddings.
Example C61_resized_embeddings_example :
  let rules := [UTuple str [97] (Some [98]) (Some (s_vit_zoom, []))] in
  let fl := {| raise_dtype := true; raise_shape := true; raise_source := true; raise_target := true |} in
  (exists out, map_state_dict str infixb (fun _ t _ => t) (typed bool) bool Bool.eqb (typed_shape bool) (t_dtype bool) (typed_astype bool (fun _ x => x))
    (typed_broadcast bool) (typed_transform bool (fun _ => 0%R)) (typed_stack bool Bool.eqb (fun _ x => x) (fun _ => true))
    fl rules (Node [([97], Leaf (ex_typed [1; 4; 2] 5))]) (Node [([98], Leaf (ex_typed [1; 10; 2] 0))]) = Ok out) /\
  goes str infixb (fun _ t _ => t) rules [97] (KVitZoom [98]) (join [[98]]).
Proof.
  split; [eexists; vm_compute; reflexivity|]. left. exists [97], [98]. split; [|split; reflexivity].
  eexists [], _, []. split; [reflexivity|]. split; [constructor; constructor|]. split; [reflexivity|constructor].
Qed.

(** C61: zoom as a rule: the parameter keeps its shape, with values in the range of the source. *)
Theorem C61_zoomed_parameter : forall pat (search : pat -> str -> bool) (sub : pat -> str -> str -> str) dtype (dtype_eqb : dtype -> dtype -> bool)
    (cast : dtype -> R -> R) (promote : list dtype -> dtype) (normal : nat -> R),
  (forall a b, reflect (a = b) (dtype_eqb a b)) ->
  forall fl rules source target out p x key s t, wf no_slash source -> wf (fun _ => True) target ->
  map_state_dict pat search sub (typed dtype) dtype dtype_eqb (typed_shape dtype) (t_dtype dtype) (typed_astype dtype cast)
    (typed_broadcast dtype) (typed_transform dtype normal) (typed_stack dtype dtype_eqb cast promote)
    fl rules source target = Ok out -> leaf_at target p x -> named_array _ source key s -> t_dtype _ s = t_dtype _ x ->
  goes pat search sub rules key (KZoom t) (join p) -> length (dims (t_nd _ x)) = length (dims (t_nd _ s)) -> ~ In 0 (dims (t_nd _ s)) ->
  exists y, leaf_at out p y /\ dims (t_nd _ y) = dims (t_nd _ x) /\
    (forall lo hi, (forall idx, valid (dims (t_nd _ s)) idx -> (lo <= at_ (t_nd _ s) idx <= hi)%R) -> forall idx, valid (dims (t_nd _ x)) idx -> (lo <= at_ (t_nd _ y) idx <= hi)%R) /\
    (dims (t_nd _ x) = dims (t_nd _ s) -> same (t_nd _ y) (t_nd _ s)).
Proof. exact rule_zoom. Qed.
Print Assumptions C61_zoomed_parameter.
Example C61_zoomed_parameter_example :
  let rules := [UTuple str [97] (Some [98]) (Some (s_zoom, []))] in
  let fl := {| raise_dtype := true; raise_shape := true; raise_source := true; raise_target := true |} in
  (exists out, map_state_dict str infixb (fun _ t _ => t) (typed bool) bool Bool.eqb (typed_shape bool) (t_dtype bool) (typed_astype bool (fun _ x => x))
    (typed_broadcast bool) (typed_transform bool (fun _ => 0%R)) (typed_stack bool Bool.eqb (fun _ x => x) (fun _ => true))
    fl rules (Node [([97], Leaf (ex_typed [3] 5))]) (Node [([98], Leaf (ex_typed [7] 0))]) = Ok out) /\
  goes str infixb (fun _ t _ => t) rules [97] (KZoom [98]) (join [[98]]).
Proof.
  split; [eexists; vm_compute; reflexivity|]. left. exists [97], [98]. split; [|split; reflexivity].
  eexists [], _, []. split; [reflexivity|]. split; [constructor; constructor|]. split; [reflexivity|constructor].
Qed.

