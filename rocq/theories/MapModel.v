(** Model of vmoe/initialization/mapping.py and rules.py (C28, C29). *)
From Coq Require Import List Arith ZArith QArith Bool.
From Verif Require Import Py TreeModel.
Import ListNotations.
Local Open Scope nat_scope.

(** ** Natural sort *)

Definition is_digit (c : nat) : bool := (48 <=? c) && (c <=? 57).
Definition c_dot := 46. Definition c_plus := 43. Definition c_minus := 45.
Definition is_e (c : nat) : bool := (c =? 101) || (c =? 69).

(** The longest prefix of digits, and the rest. *)
Fixpoint span_digits (s : str) : str * str :=
  match s with
  | c :: r => if is_digit c then let '(a, b) := span_digits r in (c :: a, b) else ([], s)
  | [] => ([], [])
  end.
Definition digits_value (ds : str) : Z :=
  fold_left (fun n c => (10 * n + Z.of_nat (c - 48))%Z) ds 0%Z.

(** [-+]? : sign and rest *)
Definition opt_sign (s : str) : bool * str :=
  match s with
  | c :: r => if c =? c_minus then (true, r) else if c =? c_plus then (false, r) else (false, s)
  | [] => (false, [])
  end.

(** (?:\d+(?:\.\d* )?|\.\d+) : integer digits, fraction digits, rest *)
Definition mantissa (s : str) : option (str * str * str) :=
  match span_digits s with
  | ([], c :: r) =>
      if c =? c_dot then match span_digits r with ([], _) => None | (f, r') => Some ([], f, r') end else None
  | ([], []) => None
  | (i, c :: r) => if c =? c_dot then let '(f, r') := span_digits r in Some (i, f, r') else Some (i, [], c :: r)
  | (i, []) => Some (i, [], [])
  end.

(** (?:[eE][-+]?\d+)? : exponent and rest *)
Definition exponent (s : str) : Z * str :=
  match s with
  | c :: r =>
      if is_e c then
        let '(neg, r1) := opt_sign r in
        match span_digits r1 with
        | ([], _) => (0%Z, s)
        | (ds, r2) => ((if neg then - digits_value ds else digits_value ds)%Z, r2)
        end
      else (0%Z, s)
  | [] => (0%Z, [])
  end.

(** mapping.py:78-79 [_SIGNED_FLOAT_RE] matched at the start of [s]: float(the match), and
    the rest.  Decimal digits are the ASCII ones, and the value is exact (not rounded to a
    float). *)
Definition number_at (s : str) : option (Q * str) :=
  let '(neg, r) := opt_sign s in
  match mantissa r with
  | None => None
  | Some (i, f, r1) =>
      let '(e, r2) := exponent r1 in
      let m := (inject_Z (digits_value (i ++ f)) * Qpower 10 (e - Z.of_nat (length f)))%Q in
      Some (if neg then (- m)%Q else m, r2)
  end.

(** _SIGNED_FLOAT_RE.split(s): the text before the first number, then each number with the
    text after it.  [fuel] is at least the length of [s]. *)
Fixpoint split_keys_ (fuel : nat) (s : str) : str * list (Q * str) :=
  match fuel with
  | O => ([], [])
  | S fuel =>
      match number_at s with
      | Some (q, r) => let '(t, l) := split_keys_ fuel r in ([], (q, t) :: l)
      | None => match s with
                | [] => ([], [])
                | c :: r => let '(t, l) := split_keys_ fuel r in (c :: t, l)
                end
      end
  end.
(** mapping.py:221-230 [split_keys]: texts stay strings (they contain no number), numbers
    become floats. *)
Definition split_keys (s : str) : str * list (Q * str) := split_keys_ (S (length s)) s.

(** Comparison of strings, and of the lists returned by split_keys, which alternate
    strings and numbers: a <= b. *)
Fixpoint str_cmp (a b : str) : comparison :=
  match a, b with
  | [], [] => Eq
  | [], _ :: _ => Lt
  | _ :: _, [] => Gt
  | x :: a, y :: b => match Nat.compare x y with Eq => str_cmp a b | c => c end
  end.
Fixpoint pairs_cmp (a b : list (Q * str)) : comparison :=
  match a, b with
  | [], [] => Eq
  | [], _ :: _ => Lt
  | _ :: _, [] => Gt
  | (x, s) :: a, (y, t) :: b =>
      match Qcompare x y with
      | Eq => match str_cmp s t with Eq => pairs_cmp a b | c => c end
      | c => c
      end
  end.
Definition key_leb (a b : str * list (Q * str)) : bool :=
  match str_cmp (fst a) (fst b) with
  | Lt => true
  | Gt => false
  | Eq => match pairs_cmp (snd a) (snd b) with Gt => false | _ => true end
  end.

(** sorted(l, key=...): stable. *)
Fixpoint insert_by {T} (leb : T -> T -> bool) (x : T) (l : list T) : list T :=
  match l with
  | [] => [x]
  | y :: r => if leb x y then x :: y :: r else y :: insert_by leb x r
  end.
Definition sort_by {T} (leb : T -> T -> bool) (l : list T) : list T := fold_right (insert_by leb) [] l.

(** mapping.py:221-230 [_natural_sort] *)
Definition natural_sort (names : list str) : list str :=
  sort_by (fun a b => key_leb (split_keys a) (split_keys b)) names.

(** ** Rules *)
Section Map.
(** Compiled patterns; pattern.search(key) finds a match; pattern.sub(replacement, key). *)
Variable pat : Type.
Variable search : pat -> str -> bool.
Variable sub : pat -> str -> str -> str.

(** rules.py:123-223, the classes of rules. *)
Inductive kind :=
| KDrop
| KRegex (replacement : str)
| KReshape (replacement : str) (shape : option (list Z))
| KSqueeze (replacement : str) (axis : Z)
| KStack (replacement : str) (axis : Z)
| KExpandTile (replacement : str) (axis reps : list Z)
| KVitZoom (replacement : str)
| KZoom (replacement : str).
Record rule := { r_pattern : pat; r_kind : kind }.

(** rules.py:131-132, 145-146 [rename] *)
Definition rename (r : rule) (key : str) : str :=
  match r_kind r with
  | KDrop => key
  | KRegex t | KReshape t _ | KSqueeze t _ | KStack t _ | KExpandTile t _ _ | KVitZoom t | KZoom t =>
      sub (r_pattern r) t key
  end.

(** rules.py:45-49 [Rules.find] *)
Definition find_rule (rules : list rule) (key : str) : option rule :=
  List.find (fun r => search (r_pattern r) key) rules.

(** A tuple (pattern, replacement, *transform) before parsing.  [UPat] is the pattern;
    replacement None or a string; arguments of the transform are integers or tuples. *)
Inductive targ := TInt (z : Z) | TTuple (l : list Z) | TNone.
Inductive urule :=
| URule (r : rule)
| UTuple (p : pat) (replacement : option str) (transform : option (str * list targ)).

Definition s_reshape : str := [114; 101; 115; 104; 97; 112; 101].
Definition s_squeeze : str := [115; 113; 117; 101; 101; 122; 101].
Definition s_stack : str := [115; 116; 97; 99; 107].
Definition s_expand_tile : str := [101; 120; 112; 97; 110; 100; 95; 116; 105; 108; 101].
Definition s_vit_zoom : str := [118; 105; 116; 95; 122; 111; 111; 109].
Definition s_zoom : str := [122; 111; 111; 109].

Definition to_tuple (a : targ) : res (list Z) :=
  match a with TInt z => Ok [z] | TTuple l => Ok l | TNone => Raise TypeError end.

(** rules.py:81-119, the body of the loop of [Rules.parse].  A replacement None in a
    transform raises TypeError when it is used; it does here when it is parsed. *)
Definition parse_rule (u : urule) : res rule :=
  match u with
  | URule r => Ok r
  | UTuple p replacement None =>
      Ok {| r_pattern := p;
            r_kind := match replacement with None | Some [] => KDrop | Some t => KRegex t end |}
  | UTuple p None (Some _) => Raise TypeError
  | UTuple p (Some t) (Some (name, args)) =>
      bind
        (if str_eqb name s_reshape then
           match args with
           | [] | [TNone] => Ok (KReshape t None)
           | [TTuple l] => Ok (KReshape t (Some l))
           | [TInt z] => Ok (KReshape t (Some [z]))
           | _ => Raise AssertionError
           end
         else if str_eqb name s_squeeze then
           match args with [TInt z] => Ok (KSqueeze t z) | _ => Raise AssertionError end
         else if str_eqb name s_stack then
           match args with [TInt z] => Ok (KStack t z) | _ => Raise AssertionError end
         else if str_eqb name s_expand_tile then
           match args with
           | [a; r] => bind (to_tuple a) (fun a => bind (to_tuple r) (fun r => Ok (KExpandTile t a r)))
           | _ => Raise AssertionError
           end
         else if str_eqb name s_vit_zoom then Ok (KVitZoom t)
         else if str_eqb name s_zoom then Ok (KZoom t)
         else Raise ValueError)
        (fun k => Ok {| r_pattern := p; r_kind := k |})
  end.
Definition parse_rules (us : list urule) : res (list rule) := rmap parse_rule us.

(** mapping.py:76-77 [_IDENTITY_RULE]: leaves the key as it is.  (Its pattern does not match
    keys with a newline, nor does its replacement change them.) *)
Definition identity_rename (key : str) : str := key.

(** ** Arrays and transformations (external) *)
Variable array : Type.
Variable dtype : Type.
Variable dtype_eqb : dtype -> dtype -> bool.
Variable shape_of : array -> list nat.
Variable dtype_of : array -> dtype.
(** value.astype(dtype), jnp.broadcast_to(value, shape) *)
Variable astype : array -> dtype -> array.
Variable broadcast_to : array -> list nat -> res array.
(** Transformation.__call__ for rules other than copies and 'stack' (rules.py:242-381), from
    the source and the target; jnp.stack. *)
Variable transform : kind -> array -> array -> res array.
Variable stack : Z -> list array -> res array.

(** A Transformation built from the source array(s) and the target (rules.py:148-223). *)
Inductive tx :=
| Tx1 (k : kind) (source target : array)
| TxStack (axis : Z) (to_stack : list array) (target : array).

Definition tx_target (t : tx) : array := match t with Tx1 _ _ x => x | TxStack _ _ x => x end.

(** tx(): rules.py:235-239 [CopyTransformation], 277-287 [StackTransformation]. *)
Definition run_tx (t : tx) : res array :=
  match t with
  | Tx1 (KRegex _) s _ => Ok s
  | Tx1 k s x => transform k s x
  | TxStack axis l _ => stack axis l
  end.

(** The flags raise_if_{dtype,shape}_mismatched and raise_if_{source,target}_unmatched. *)
Record flags := { raise_dtype : bool; raise_shape : bool; raise_source : bool; raise_target : bool }.

Definition inb_str (k : str) (l : list str) : bool := existsb (str_eqb k) l.

(** rule.get_transformation, or append to the stack (mapping.py:150-156). *)
Definition new_tx (k : kind) (old : option tx) (s t : array) : res tx :=
  match k with
  | KStack _ axis =>
      match old with
      | Some (TxStack a l t') => Ok (TxStack a (l ++ [s]) t')
      | Some (Tx1 _ _ _) => Raise AttributeError
      | None => Ok (TxStack axis [s] t)
      end
  | k => Ok (Tx1 k s t)
  end.

(** mapping.py:121-158, the body of the loop over the source keys.  The state is the list
    of used target keys and the output dict. *)
Definition build_step (fl : flags) (rules : list rule) (source_flat target_flat : list (str * flatv array))
  (st : list str * list (str * tx)) (src_key : str) : res (list str * list (str * tx)) :=
  let '(used, output) := st in
  let found := find_rule rules src_key in
  if match found with None => raise_source fl | Some _ => false end then Raise KeyError else
  let k := match found with Some r => r_kind r | None => KRegex [] end in
  let dst_key := match found with Some r => rename r src_key | None => identity_rename src_key end in
  match k with
  | KDrop => Ok st
  | _ =>
    match dget target_flat dst_key with
    | None => Raise KeyError
    | Some target_value =>
        if inb_str dst_key used && negb (match k with KStack _ _ => true | _ => false end) then Raise ValueError else
        match dget source_flat src_key with
        | None => Raise KeyError
        | Some src_value =>
            match src_value, target_value with
            | FEmpty, FEmpty => Ok (dst_key :: used, output)
            | FLeaf s, FLeaf t =>
                bind (new_tx k (dget output dst_key) s t) (fun t =>
                Ok (dst_key :: used, dset output dst_key t))
            | _, _ => Raise ValueError
            end
        end
    end
  end.

(** mapping.py:107-169 [_flat_state_dict_mapping_build], with parsed rules *)
Definition build (fl : flags) (rules : list rule) (source_flat target_flat : list (str * flatv array))
  : res (list (str * tx)) :=
  bind (rfold (build_step fl rules source_flat target_flat) (natural_sort (map fst source_flat)) ([], []))
    (fun st =>
       let '(used, output) := st in
       if existsb (fun kv => negb (inb_str (fst kv) used) &&
                             match snd kv with FEmpty => false | FLeaf _ => raise_target fl end) target_flat
       then Raise ValueError
       else Ok output).

(** mapping.py:181-204 [fn], for one transformation *)
Definition apply_one (fl : flags) (t : tx) : res array :=
  bind (run_tx t) (fun value =>
  bind (if dtype_eqb (dtype_of value) (dtype_of (tx_target t)) then Ok value
        else if raise_dtype fl then Raise ValueError
        else Ok (astype value (dtype_of (tx_target t)))) (fun value =>
  if list_eq_dec Nat.eq_dec (shape_of value) (shape_of (tx_target t)) then Ok value
  else if raise_shape fl then Raise ValueError
  else broadcast_to value (shape_of (tx_target t)))).

(** mapping.py:172-218 [_flat_state_dict_mapping_apply].  Shardings and the compilation by
    pjit (which also sorts the keys of its result) are not modelled. *)
Definition apply (fl : flags) (txs_flat : list (str * tx)) (target_flat : list (str * flatv array))
  : res (list (str * flatv array)) :=
  let target_flat := filter (fun kv => negb (inb_str (fst kv) (map fst txs_flat))) target_flat in
  bind (rmap (fun kt => bind (apply_one fl (snd kt)) (fun v => Ok (fst kt, FLeaf v))) txs_flat) (fun output =>
  Ok (dupdate target_flat output)).

(** mapping.py:86-104 [map_state_dict] *)
Definition map_state_dict (fl : flags) (rules : list urule) (source target : tree array) : res (tree array) :=
  bind (flatten_dict source) (fun source_flat =>
  bind (flatten_dict target) (fun target_flat =>
  bind (parse_rules rules) (fun rules =>
  bind (build fl rules source_flat target_flat) (fun txs =>
  bind (apply fl txs target_flat) (fun output =>
  bind (unflatten_dict output) (fun output =>
  from_state_dict target output)))))).
End Map.
