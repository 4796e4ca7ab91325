(** Processing of examples (vmoe/data/input_pipeline.py:120-125 and 166-193, vmoe/data/pp_ops.py, and parse_call of
    vmoe/utils.py:59-109; C49 and C56). *)
From Coq Require Import String List Arith ZArith Bool Reals QArith Ascii.
From Verif Require Import NdArray.
From Verif Require Import Py.
Import ListNotations.
Local Open Scope string_scope.
Local Open Scope list_scope.
Local Open Scope nat_scope.

(** ** Calls in strings (utils.py:59-109) *)
(** Python's s.split('|') *)
Fixpoint split_bar (s : string) : list string :=
  match s with
  | EmptyString => [EmptyString]
  | String c s => if Ascii.eqb c "|" then EmptyString :: split_bar s
                  else match split_bar s with p :: r => String c p :: r | [] => [String c EmptyString] end
  end.
(** Expressions of the module ast, with their end_col_offset; only the parts that are used *)
Inductive expr :=
  | Name (id : string) (end_col : nat)
  | Attribute (value : expr) (attr : string) (end_col : nat)
  | Call (func : expr) (args : list expr) (keywords : list (option string * expr)) (end_col : nat)
  | Other (end_col : nat).
Definition end_col (e : expr) : nat := match e with Name _ n | Attribute _ _ n | Call _ _ _ n | Other n => n end.
(** Python literals *)
Inductive lit := LNone | LBool (b : bool) | LNum (r : R) | LInt (z : Z) | LStr (s : string) | LList (l : list lit).

(** Dictionaries, in the order of insertion *)
Fixpoint dget {K V} (eqb : K -> K -> bool) (d : list (K * V)) (k : K) : option V :=
  match d with [] => None | (k', v) :: d => if eqb k' k then Some v else dget eqb d k end.
Fixpoint dset {K V} (eqb : K -> K -> bool) (d : list (K * V)) (k : K) (v : V) : list (K * V) :=
  match d with [] => [(k, v)] | (k', v') :: d => if eqb k' k then (k', v) :: d else (k', v') :: dset eqb d k v end.
Definition key_eqb (a b : option string) : bool :=
  match a, b with None, None => true | Some a, Some b => String.eqb a b | _, _ => false end.

Section Parse.
Variables Mod Obj : Type.
(** External functions: ast.parse(s, mode='eval').body, ast.literal_eval, importlib.import_module and
    getattr *)
Variable parse : string -> res expr.
Variable literal_eval : expr -> res lit.
Variable import_module : string -> res Mod.
Variable getattr : Mod -> string -> res Obj.

(** 98-104: the loop *)
Fixpoint dotted (e : expr) : bool :=
  match e with Name _ _ => true | Attribute v _ _ => dotted v | _ => false end.
(** 79-89.  The dictionary comprehension keeps the last value of a repeated keyword; the keyword of
    [**d] is None. *)
Definition call_parts (e : expr) : res (expr * list lit * list (option string * lit)) :=
  match e with
  | Call f args kws _ =>
      bind (rmap literal_eval args) (fun args =>
      bind (rfold (fun d kw => bind (literal_eval (snd kw)) (fun v => Ok (dset key_eqb d (fst kw) v))) kws []) (fun kwargs =>
      Ok (f, args, kwargs)))
  | _ => Ok (e, [], [])
  end.
(** 90-109; the module is a string or an object. *)
Definition resolve (text : string) (default_module : string + Mod) (e : expr) : res Obj :=
  bind (match e with
        | Name id _ => Ok (default_module, id)
        | Attribute value attr _ => if dotted value then Ok (inl (substring 0 (end_col value) text), attr) else Raise ValueError
        | _ => Raise ValueError
        end) (fun mn =>
  bind (match fst mn with inl s => import_module s | inr m => Ok m end) (fun m => getattr m (snd mn))).
Definition parse_call (text : string) (default_module : string + Mod) : res (Obj * list lit * list (option string * lit)) :=
  bind (parse text) (fun e =>
  bind (call_parts e) (fun p =>
  let '(f, args, kwargs) := p in
  bind (resolve text default_module f) (fun o => Ok (o, args, kwargs)))).
End Parse.

(** ** Data *)
(** Tensors of numbers, flags, and others that are only used by external operations *)
Inductive value := VTensor (t : nda R) | VInts (t : nda Z) | VBool (b : bool) | VOther (n : nat).
Definition dict := list (string * value).
Definition get (d : dict) (k : string) : res value := match dget String.eqb d k with Some v => Ok v | None => Raise KeyError end.
Definition set (d : dict) (k : string) (v : value) : dict := dset String.eqb d k v.
(** An operation changes the dictionary that it gets, or makes a new one. *)
Inductive op := InPlace (f : dict -> res dict) | Fresh (f : dict -> res dict).
Definition effect (o : op) : dict -> res dict := match o with InPlace f | Fresh f => f end.
(** Dictionaries are objects; a reference is an index in the heap. *)
Definition heap := list dict.
Fixpoint update (h : heap) (r : nat) (d : dict) : heap :=
  match h, r with [], _ => [] | _ :: h, O => d :: h | x :: h, S r => x :: update h r d end.
Definition run_op (o : op) (st : heap * nat) : res (heap * nat) :=
  let '(h, r) := st in
  match nth_error h r with
  | None => Raise IndexError (* never happens: references are valid *)
  | Some d =>
      match o with
      | InPlace f => bind (f d) (fun d' => Ok (update h r d', r))
      | Fresh f => bind (f d) (fun d' => Ok ((h ++ [d'])%list, length h))
      end
  end.
(** input_pipeline.py:184-193 [_compose_fns]; None is an argument that is not a dictionary. *)
Definition compose_fns (fns : list op) (h : heap) (data : option nat) : res (heap * nat) :=
  match data with
  | None => Raise TypeError
  | Some r => rfold (fun st f => run_op f st) fns (h, r)
  end.

(** input_pipeline.py:166-181 [get_data_process_fn]: op_fn is called with op_args and op_kwargs, for each part.  A
    keyword that is None is a TypeError. *)
Definition string_keys (kwargs : list (option string * lit)) : res (list (string * lit)) :=
  rmap (fun kv => match fst kv with Some k => Ok (k, snd kv) | None => Raise TypeError end) kwargs.
(** pp_ops.py:38 *)
Definition valid_key : string := "__valid__".
Section Process.
Variables Mod Obj : Type.
Variable parse : string -> res expr.
Variable literal_eval : expr -> res lit.
Variable import_module : string -> res Mod.
Variable getattr : Mod -> string -> res Obj.
Variable call : Obj -> list lit -> list (string * lit) -> res op.
Variable pp_ops : Mod.
Definition make_op (op_str : string) : res op :=
  bind (parse_call Mod Obj parse literal_eval import_module getattr op_str (inr pp_ops)) (fun p =>
  let '(op_fn, op_args, op_kwargs) := p in
  bind (string_keys op_kwargs) (fun kwargs => call op_fn op_args kwargs)).
Definition make_ops (process_str : string) : res (list op) := rmap make_op (split_bar process_str).
Definition get_data_process_fn (process_str : string) : res (heap -> option nat -> res (heap * nat)) :=
  bind (make_ops process_str) (fun ops => Ok (compose_fns ops)).
(** input_pipeline.py:120-125: the function of [get_dataset] for other variants than 'train' *)
Definition mask_fn : op :=
  Fresh (fun d => Ok (set d valid_key (match dget String.eqb d valid_key with Some v => v | None => VBool true end))).
Definition eval_process_fn (process_str : string) : res (heap -> option nat -> res (heap * nat)) :=
  bind (get_data_process_fn process_str) (fun f =>
  Ok (fun h data => match data with None => Raise TypeError | Some _ => bind (f h data) (fun st => run_op mask_fn st) end)).
End Process.

(** ** Operations (pp_ops.py) *)
(** 41-62 [InKeyOutKey]: [or] takes the second value if the key is None or empty *)
Definition key_or (key : option string) (other : string) : string :=
  match key with None => other | Some k => if String.eqb k "" then other else k end.
Definition ikok (key : option string) (inkey outkey : string) (f : value -> res value) : op :=
  InPlace (fun data => bind (get data (key_or key inkey)) (fun v => bind (f v) (fun v' => Ok (set data (key_or key outkey) v')))).
(** 90-97 *)
Definition copy (inkey outkey : string) : op := InPlace (fun data => bind (get data inkey) (fun v => Ok (set data outkey v))).
(** 209-216 *)
Definition keep (keys : list string) : op :=
  let keys := (keys ++ [valid_key])%list in Fresh (fun data => Ok (filter (fun kv => existsb (String.eqb (fst kv)) keys) data)).
(** 162-169.  The cast of anything else than flags and scalars is not modelled (TypeError). *)
Definition as_bool (v : value) : res bool :=
  match v with
  | VBool b => Ok b
  | VTensor t => match dims t with [] => Ok (if Req_EM_T (at_ t []) 0 then false else true) | _ => Raise TypeError end
  | VInts t => match dims t with [] => Ok (negb (at_ t [] =? 0)%Z) | _ => Raise TypeError end
  | VOther _ => Raise TypeError
  end.
Definition size (v : value) : nat :=
  match v with VTensor t => prod (dims t) | VInts t => prod (dims t) | _ => 1 end.
Definition ignore_no_labels (labels_key valid_key : string) : op :=
  Fresh (fun data =>
    bind (match dget String.eqb data valid_key with Some v => as_bool v | None => Ok true end) (fun v =>
    bind (get data labels_key) (fun labels => Ok (set data valid_key (VBool (v && (0 <? size labels))))))).
(** 65-87 [central_crop], with tf.image.crop_to_bounding_box: it fails for negative offsets, empty
    targets and targets that are not inside of the image.  (The kinds of exceptions differ with static
    and dynamic shapes; ValueError stands for all of them.)  [//] rounds down. *)
Definition crop_to_bounding_box (t : nda R) (dy dx : Z) (h w : nat) : res (nda R) :=
  match dims t with
  | H :: W :: rest =>
      if (dy <? 0)%Z || (dx <? 0)%Z || (h =? 0) || (w =? 0) || (Z.of_nat H <? dy + Z.of_nat h)%Z || (Z.of_nat W <? dx + Z.of_nat w)%Z then Raise ValueError
      else Ok {| dims := h :: w :: rest; at_ := fun idx => match idx with i :: j :: idx => at_ t (Z.to_nat dy + i :: Z.to_nat dx + j :: idx) | _ => at_ t idx end |}
  | _ => Raise ValueError
  end.
Definition central_crop (h w : nat) (v : value) : res value :=
  match v with
  | VTensor t =>
      match dims t with
      | H :: W :: _ =>
          let dy := ((Z.of_nat H - Z.of_nat h) / 2)%Z in
          let dx := ((Z.of_nat W - Z.of_nat w) / 2)%Z in
          bind (crop_to_bounding_box t dy dx h w) (fun t => Ok (VTensor t))
      | _ => Raise ValueError
      end
  | _ => Raise ValueError
  end.
(** tf.round: to the nearest integer, halves to even *)
Definition round_even (q : Q) : Z :=
  let f := Qround.Qfloor q in
  let d := (q - inject_Z f)%Q in
  if Qle_bool d (1#2) then (if Qeq_bool d (1#2) then (if Z.even f then f else f + 1) else f)%Z else (f + 1)%Z.
(** 310-334 [resize_small]; [resize_area] is external.  An empty image fails: the ratio is infinite. *)
Section Resize.
Variable resize_area : nda R -> nat -> nat -> (list nat -> R).
Definition resize_small (smaller_size : nat) (v : value) : res value :=
  match v with
  | VTensor t =>
      match dims t with
      | h :: w :: rest =>
          if Nat.min h w =? 0 then Raise ValueError
          else
            let ratio := (inject_Z (Z.of_nat smaller_size) / inject_Z (Z.of_nat (Nat.min h w)))%Q in
            let h' := Z.to_nat (round_even (inject_Z (Z.of_nat h) * ratio)) in
            let w' := Z.to_nat (round_even (inject_Z (Z.of_nat w) * ratio)) in
            Ok (VTensor {| dims := h' :: w' :: rest; at_ := resize_area t h' w' |})
      | _ => Raise ValueError
      end
  | _ => Raise ValueError
  end.
End Resize.
(** 219-245 [onehot] for a label or a list of labels.  tf.scatter_nd adds the updates, and fails if an
    index is not in the range (on CPU, where datasets are processed).  tf.one_hot has only off values
    then. *)
Definition onehot (depth : nat) (multi : bool) (on off : R) (v : value) : res value :=
  match v with
  | VInts t =>
      match dims t with
      | [n] =>
          if multi then
            if existsb (fun i => (at_ t [i] <? 0)%Z || (Z.of_nat depth <=? at_ t [i])%Z) (seq 0 n) then Raise ValueError
            else
              let x := fun c => fold_right Rplus 0%R (map (fun i => if (at_ t [i] =? Z.of_nat c)%Z then 1%R else 0%R) (seq 0 n)) in
              Ok (VTensor {| dims := [depth]; at_ := fun idx => (Rmax 0 (Rmin (x (hd 0%nat idx)) 1) * (on - off) + off)%R |})
          else Ok (VTensor {| dims := [n; depth]; at_ := fun idx => if (at_ t [hd 0%nat idx] =? Z.of_nat (hd 0%nat (tl idx)))%Z then on else off |})
      | [] => Ok (VTensor {| dims := [depth]; at_ := fun idx => if (at_ t [] =? Z.of_nat (hd 0%nat idx))%Z then on else off |})
      | _ => Raise ValueError (* not modelled *)
      end
  | _ => Raise ValueError
  end.
(** 402-433 [value_range]; in_min and in_max are scalars, or lists with one number for each channel (the
    last axis).  Broadcasting of axes of size one to other sizes is not modelled (ValueError).  The
    division by zero when they are equal is not modelled.  Integer images are cast. *)
Inductive bound := Scalar (r : R) | PerChannel (l : list R).
Definition bound_at (b : bound) (c : nat) : R := match b with Scalar r => r | PerChannel l => nth c l 0%R end.
Definition fits (b : bound) (ds : list nat) : bool :=
  match b with Scalar _ => true | PerChannel l => match ds with [] => false | _ => last ds 0 =? length l end end.
Definition clip_by_value (x lo hi : R) : R := Rmax (Rmin x hi) lo.
Definition cast_float (v : value) : res (nda R) :=
  match v with VTensor t => Ok t | VInts t => Ok {| dims := dims t; at_ := fun i => IZR (at_ t i) |} | _ => Raise ValueError end.
Definition value_range (vmin vmax : R) (in_min in_max : bound) (clip_values : bool) (v : value) : res value :=
  bind (cast_float v) (fun t =>
  if negb (fits in_min (dims t) && fits in_max (dims t)) then Raise ValueError
  else Ok (VTensor {| dims := dims t; at_ := fun idx =>
         let lo := bound_at in_min (last idx 0) in
         let hi := bound_at in_max (last idx 0) in
         let x := ((at_ t idx - lo) / (hi - lo))%R in
         let x := (vmin + x * (vmax - vmin))%R in
         if clip_values then clip_by_value x vmin vmax else x |})).

(** ** Calls of the operations *)
(** Python's binding of arguments to the parameters of a function: TypeError for too many arguments, and
    unexpected, repeated or missing ones *)
Fixpoint bind_args (params : list (string * option lit)) (args : list lit) (kwargs : list (string * lit)) : res (list lit) :=
  match params with
  | [] => match args, kwargs with [], [] => Ok [] | _, _ => Raise TypeError end
  | (p, default) :: params =>
      match args with
      | a :: args => match dget String.eqb kwargs p with Some _ => Raise TypeError | None => bind (bind_args params args kwargs) (fun r => Ok (a :: r)) end
      | [] =>
          match dget String.eqb kwargs p, default with
          | Some v, _ => bind (bind_args params [] (filter (fun kv => negb (String.eqb (fst kv) p)) kwargs)) (fun r => Ok (v :: r))
          | None, Some v => bind (bind_args params [] kwargs) (fun r => Ok (v :: r))
          | None, None => Raise TypeError
          end
      end
  end.
Definition remove_key (kwargs : list (string * lit)) (k : string) : list (string * lit) := filter (fun kv => negb (String.eqb (fst kv) k)) kwargs.
Definition as_str (l : lit) : res string := match l with LStr s => Ok s | _ => Raise TypeError end.
(** A key that is not a string, like a number, is not modelled (TypeError). *)
Definition as_key (l : lit) : res (option string) := match l with LNone => Ok None | LStr s => Ok (Some s) | _ => Raise TypeError end.
Definition as_num (l : lit) : res R := match l with LNum r => Ok r | LInt z => Ok (IZR z) | _ => Raise TypeError end.
Definition as_nat (l : lit) : res nat := match l with LInt z => if (0 <=? z)%Z then Ok (Z.to_nat z) else Raise ValueError | _ => Raise TypeError end.
Definition as_bound (l : lit) : res bound :=
  match l with LList l => bind (rmap as_num l) (fun l => Ok (PerChannel l)) | l => bind (as_num l) (fun r => Ok (Scalar r)) end.
Definition as_crop (l : lit) : res (nat * nat) :=
  match l with LList (a :: b :: _) => bind (as_nat a) (fun a => bind (as_nat b) (fun b => Ok (a, b))) | LList _ => Raise IndexError | l => bind (as_nat l) (fun n => Ok (n, n)) end.
Definition truthy (l : lit) : bool :=
  match l with LNone => false | LBool b => b | LNum r => if Req_EM_T r 0 then false else true | LInt z => negb (z =? 0)%Z | LStr s => negb (String.eqb s "") | LList l => negb (length l =? 0) end.
(** 51-62: the decorated function; inkey and outkey have defaults. *)
Definition with_keys (indefault outdefault : string) (get_pp_fn : list lit -> list (string * lit) -> res (value -> res value))
    (args : list lit) (kwargs : list (string * lit)) : res op :=
  let opt := fun k d => match dget String.eqb kwargs k with Some v => v | None => d end in
  bind (get_pp_fn args (remove_key (remove_key (remove_key kwargs "key") "inkey") "outkey")) (fun f =>
  bind (as_key (opt "key" LNone)) (fun key =>
  bind (as_str (opt "inkey" (LStr indefault))) (fun inkey =>
  bind (as_str (opt "outkey" (LStr outdefault))) (fun outkey => Ok (ikok key inkey outkey f))))).
Section Calls.
Variable resize_area : nda R -> nat -> nat -> (list nat -> R).
(** decode, flip_lr, randaug, resize, ...: the function for the arguments, or an exception *)
Variable external : string -> list lit -> list (string * lit) -> res (value -> res value).
Variable default_keys : string -> string.
Definition call_op (name : string) (args : list lit) (kwargs : list (string * lit)) : res op :=
  if String.eqb name "central_crop" then
    with_keys "image" "image" (fun args kwargs =>
      bind (bind_args [("crop_size", None)] args kwargs) (fun l => bind (as_crop (nth 0 l LNone)) (fun s => Ok (central_crop (fst s) (snd s))))) args kwargs
  else if String.eqb name "copy" then
    bind (bind_args [("inkey", None); ("outkey", None)] args kwargs) (fun l =>
    bind (as_str (nth 0 l LNone)) (fun i => bind (as_str (nth 1 l LNone)) (fun o => Ok (copy i o))))
  else if String.eqb name "keep" then
    match kwargs with [] => bind (rmap as_str args) (fun l => Ok (keep l)) | _ => Raise TypeError end
  else if String.eqb name "ignore_no_labels" then
    bind (bind_args [("labels_key", Some (LStr "labels")); ("valid_key", Some (LStr valid_key))] args kwargs) (fun l =>
    bind (as_str (nth 0 l LNone)) (fun i => bind (as_str (nth 1 l LNone)) (fun o => Ok (ignore_no_labels i o))))
  else if String.eqb name "onehot" then
    with_keys "labels" "labels" (fun args kwargs =>
      bind (bind_args [("depth", None); ("multi", Some (LBool true)); ("on", Some (LNum 1%R)); ("off", Some (LNum 0%R))] args kwargs) (fun l =>
      bind (as_nat (nth 0 l LNone)) (fun depth => bind (as_num (nth 2 l LNone)) (fun on => bind (as_num (nth 3 l LNone)) (fun off =>
      Ok (onehot depth (truthy (nth 1 l LNone)) on off)))))) args kwargs
  else if String.eqb name "resize_small" then
    with_keys "image" "image" (fun args kwargs =>
      bind (bind_args [("smaller_size", None)] args kwargs) (fun l => bind (as_nat (nth 0 l LNone)) (fun s => Ok (resize_small resize_area s)))) args kwargs
  else if String.eqb name "value_range" then
    with_keys "image" "image" (fun args kwargs =>
      bind (bind_args [("vmin", None); ("vmax", None); ("in_min", Some (LInt 0)); ("in_max", Some (LNum 255%R)); ("clip_values", Some (LBool false))] args kwargs) (fun l =>
      bind (as_num (nth 0 l LNone)) (fun vmin => bind (as_num (nth 1 l LNone)) (fun vmax =>
      bind (as_bound (nth 2 l LNone)) (fun in_min => bind (as_bound (nth 3 l LNone)) (fun in_max =>
      Ok (value_range vmin vmax in_min in_max (truthy (nth 4 l LNone))))))))) args kwargs
  else with_keys (default_keys name) (default_keys name) (external name) args kwargs.
End Calls.
