(** Vocabulary for C28 and C29. *)
From Coq Require Import List Arith ZArith Bool.
From Verif Require Import Py TreeModel TreeSpec MapModel.
Import ListNotations.
Local Open Scope nat_scope.

(** Axes and repetitions are integers or tuples of them. *)
Inductive tuple : targ -> list Z -> Prop :=
| t_int z : tuple (TInt z) [z]
| t_tuple l : tuple (TTuple l) l.

Section Spec.
Variable pat : Type.
Variable search : pat -> str -> bool.
Variable sub : pat -> str -> str -> str.
Variable array : Type.
Variable dtype : Type.
Variable shape_of : array -> list nat.
Variable dtype_of : array -> dtype.
Variable astype : array -> dtype -> array.
Variable broadcast_to : array -> list nat -> res array.
Variable transform : kind -> array -> array -> res array.
Variable stack : Z -> list array -> res array.

(** What a rule written by the user means: what happens with the matched arrays, and the
    new name (none: the array is ignored). *)
Inductive written : urule pat -> pat -> kind -> Prop :=
| w_rule r : written (URule _ r) (r_pattern _ r) (r_kind _ r)
| w_ignore p : written (UTuple _ p None None) p KDrop
| w_ignore' p : written (UTuple _ p (Some []) None) p KDrop
| w_rename p t : t <> [] -> written (UTuple _ p (Some t) None) p (KRegex t)
| w_reshape_target p t : written (UTuple _ p (Some t) (Some (s_reshape, []))) p (KReshape t None)
| w_reshape_none p t : written (UTuple _ p (Some t) (Some (s_reshape, [TNone]))) p (KReshape t None)
| w_reshape p t l : written (UTuple _ p (Some t) (Some (s_reshape, [TTuple l]))) p (KReshape t (Some l))
| w_reshape_int p t z : written (UTuple _ p (Some t) (Some (s_reshape, [TInt z]))) p (KReshape t (Some [z]))
| w_squeeze p t z : written (UTuple _ p (Some t) (Some (s_squeeze, [TInt z]))) p (KSqueeze t z)
| w_stack p t z : written (UTuple _ p (Some t) (Some (s_stack, [TInt z]))) p (KStack t z)
| w_expand_tile p t a r la lr : tuple a la -> tuple r lr ->
    written (UTuple _ p (Some t) (Some (s_expand_tile, [a; r]))) p (KExpandTile t la lr)
| w_vit_zoom p t args : written (UTuple _ p (Some t) (Some (s_vit_zoom, args))) p (KVitZoom t)
| w_zoom p t args : written (UTuple _ p (Some t) (Some (s_zoom, args))) p (KZoom t).

Definition new_name (k : kind) : option str :=
  match k with
  | KDrop => None
  | KRegex t | KReshape t _ | KSqueeze t _ | KStack t _ | KExpandTile t _ _ | KVitZoom t | KZoom t => Some t
  end.
Definition stacks (k : kind) : Prop := exists t axis, k = KStack t axis.

(** The rule in force for the source [key] has the pattern [p] and the kind [k]: it is the
    first one whose pattern is found in the key. *)
Definition in_force (rules : list (urule pat)) (key : str) (p : pat) (k : kind) : Prop :=
  exists before u after, rules = before ++ u :: after /\ written u p k /\ search p key = true /\
    Forall (fun u' => forall p' k', written u' p' k' -> search p' key = false) before.
Definition no_rule (rules : list (urule pat)) (key : str) : Prop :=
  Forall (fun u' => forall p' k', written u' p' k' -> search p' key = false) rules.

(** The source [key] is used, with the transformation [k], for the target [dst]: by the
    rule in force unless it is one that ignores; without any rule the name is kept. *)
Definition goes (rules : list (urule pat)) (key : str) (k : kind) (dst : str) : Prop :=
  (exists p t, in_force rules key p k /\ new_name k = Some t /\ dst = sub p t key) \/
  (no_rule rules key /\ k = KRegex [] /\ dst = key).

(** The array of the source named [key]. *)
Definition named_array (source : tree array) (key : str) (s : array) : Prop :=
  exists p, leaf_at source p s /\ key = join p.

Definition transformed (k : kind) (s x w : array) : Prop :=
  (exists t, k = KRegex t /\ w = s) \/ ((forall t, k <> KRegex t) /\ transform k s x = Ok w).

(** [w] converted and broadcast, if allowed and needed, to the type and shape of [x]. *)
Definition fitted (fl : flags) (w x y : array) : Prop :=
  exists w1,
    ((dtype_of w = dtype_of x /\ w1 = w) \/
     (dtype_of w <> dtype_of x /\ raise_dtype fl = false /\ w1 = astype w (dtype_of x))) /\
    ((shape_of w1 = shape_of x /\ y = w1) \/
     (shape_of w1 <> shape_of x /\ raise_shape fl = false /\ broadcast_to w1 (shape_of x) = Ok y)).

(** The parameter at path [p], initialised with [x], becomes [y].  The arrays of a stack
    are in an order of their names allowed by [ord]. *)
Inductive assigned (ord : list str -> Prop) (fl : flags) (rules : list (urule pat)) (source : tree array) (p : list str) (x : array)
  : array -> Prop :=
| as_initialised :
    (forall key s k, named_array source key s -> ~ goes rules key k (join p)) -> raise_target fl = false ->
    assigned ord fl rules source p x x
| as_single key s k w y :
    named_array source key s -> goes rules key k (join p) -> ~ stacks k ->
    (forall key' s' k', named_array source key' s' -> goes rules key' k' (join p) -> key' = key) ->
    transformed k s x w -> fitted fl w x y ->
    assigned ord fl rules source p x y
| as_stacked first t axis l w y :
    NoDup (map fst l) -> ord (map fst l) ->
    (forall key s, In (key, s) l <-> named_array source key s /\ exists k, goes rules key k (join p)) ->
    (forall key s k, In (key, s) l -> goes rules key k (join p) -> stacks k) ->
    hd_error (map fst l) = Some first -> goes rules first (KStack t axis) (join p) ->
    stack axis (map snd l) = Ok w -> fitted fl w x y ->
    assigned ord fl rules source p x y.
End Spec.

(** No empty dicts. *)
Inductive nonempty {L} : tree L -> Prop :=
| ne_leaf x : nonempty (Leaf x)
| ne_node cs : cs <> [] -> Forall (fun kc => nonempty (snd kc)) cs -> nonempty (Node cs).

(** ** Names with numbers *)

(** A name made of texts with numbers (written with decimal digits) in between: [t0], then
    each number followed by the corresponding text of [ts]. *)
Definition numeral (ds : str) (n : Z) : Prop :=
  ds <> [] /\ Forall (fun c => 48 <= c <= 57) ds /\
  n = fold_left (fun n c => (10 * n + Z.of_nat (c - 48))%Z) ds 0%Z.
Inductive numbered : str -> list str -> list Z -> str -> Prop :=
| nb_text t0 : numbered t0 [] [] t0
| nb_number t0 ds n t ts ns rest : numeral ds n -> numbered t ts ns rest ->
    numbered t0 (t :: ts) (n :: ns) (t0 ++ ds ++ rest).

Definition not_last (cs : list nat) (t : str) : Prop := forall c, In c cs -> forall u, t <> u ++ [c].
Definition not_first (cs : list nat) (t : str) : Prop := forall c, In c cs -> forall u, t <> c :: u.
Definition no_digit (t : str) : Prop := Forall (fun c => ~ (48 <= c <= 57)) t.

(** Texts that do not blend with the numbers around: no digits; no sign or point before a
    number; no point after a number; not 'e', 'E' or nothing between two numbers. *)
Fixpoint clean_after (ts : list str) : Prop :=
  match ts with
  | [] => True
  | t :: [] => no_digit t /\ not_first [46] t
  | t :: rest => no_digit t /\ not_first [46] t /\ not_last [43; 45; 46] t /\ t <> [] /\ t <> [101] /\ t <> [69] /\
                 clean_after rest
  end.
Definition clean (t0 : str) (ts : list str) : Prop :=
  no_digit t0 /\ (ts <> [] -> not_last [43; 45; 46] t0) /\ clean_after ts.

(** Numeric order: the first number that differs decides. *)
Inductive num_le : list Z -> list Z -> Prop :=
| nl_nil l : num_le [] l
| nl_lt a b l m : (a < b)%Z -> num_le (a :: l) (b :: m)
| nl_eq a l m : num_le l m -> num_le (a :: l) (a :: m).
