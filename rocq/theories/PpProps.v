(** C49, C56, C57: processing of examples. *)
From Coq Require Import String Ascii List Arith ZArith Bool Reals Lia Lra.
From Verif Require Import NdArray PpModel PpSpec PpProofs.
From Verif Require Import Py.
Import ListNotations.
Local Open Scope list_scope.
Local Open Scope nat_scope.



(** C49: the function of the string [a|b] is the function of [a] followed by the function of [b]. *)
Theorem C49_composition : forall (Mod Obj : Type) (parse : string -> res expr) (literal_eval : expr -> res lit) (import_module : string -> res Mod) (getattr : Mod -> string -> res Obj)
  (call : Obj -> list lit -> list (string * lit) -> res op) (pp_ops : Mod),
  let get_fn := get_data_process_fn Mod Obj parse literal_eval import_module getattr call pp_ops in
  forall a b fa fb, get_fn a = Ok fa -> get_fn b = Ok fb ->
  exists f, get_fn (a ++ "|" ++ b)%string = Ok f /\ forall h r, f h (Some r) = bind (fa h (Some r)) (fun st => fb (fst st) (Some (snd st))).
Proof. exact pipe_ok. Qed.
Print Assumptions C49_composition.
Example C49_composition_example : exists f,
  ex_fn "copy('image', outkey='x')|keep('image')"%string = Ok f /\ f [[("image"%string, VBool true); ("y"%string, VBool false)]] (Some 0) =
  Ok ([[("image"%string, VBool true); ("y"%string, VBool false); ("x"%string, VBool true)]; [("image"%string, VBool true)]], 1).
Proof. eexists. split; reflexivity. Qed.

(** C49: an error of any op is raised when the function is made, the leftmost one first. *)
Theorem C49_error : forall (Mod Obj : Type) (parse : string -> res expr) (literal_eval : expr -> res lit) (import_module : string -> res Mod) (getattr : Mod -> string -> res Obj)
  (call : Obj -> list lit -> list (string * lit) -> res op) (pp_ops : Mod),
  let get_fn := get_data_process_fn Mod Obj parse literal_eval import_module getattr call pp_ops in
  forall a b e, get_fn a = Raise e \/ (exists f, get_fn a = Ok f) /\ get_fn b = Raise e -> get_fn (a ++ "|" ++ b)%string = Raise e.
Proof. exact pipe_error. Qed.
Print Assumptions C49_error.
Example C49_error_example : ex_fn "keep('image')|keep("%string = Raise RuntimeError.
Proof. reflexivity. Qed.

(** C49: a string without bars is a single operation. *)
Theorem C49_single : forall s,
  (forall n, String.get n s <> Some "|"%char) -> split_bar s = [s].
Proof. exact split_one. Qed.
Print Assumptions C49_single.

(** C49: data that is not a dictionary is rejected. *)
Theorem C49_not_dictionary : forall (Mod Obj : Type) (parse : string -> res expr) (literal_eval : expr -> res lit) (import_module : string -> res Mod) (getattr : Mod -> string -> res Obj)
  (call : Obj -> list lit -> list (string * lit) -> res op) (pp_ops : Mod),
  let get_fn := get_data_process_fn Mod Obj parse literal_eval import_module getattr call pp_ops in
  forall s f h, get_fn s = Ok f -> f h None = Raise TypeError.
Proof. exact not_dict. Qed.
Print Assumptions C49_not_dictionary.

(** C49: the operations are applied from left to right until the first exception; of the dictionaries
    that exist already, only the one that is passed can change. *)
Theorem C49_order : forall ops,
  forall (h : heap) r d, nth_error h r = Some d ->
  match in_order ops d with
  | Ok d' => exists h' r', compose_fns ops h (Some r) = Ok (h', r') /\ nth_error h' r' = Some d' /\ length h <= length h' /\ forall i, i < length h -> i <> r -> nth_error h' i = nth_error h i
  | Raise e => compose_fns ops h (Some r) = Raise e
  end.
Proof. exact compose_ok. Qed.
Print Assumptions C49_order.
Example C49_order_example : in_order [copy "a" "b"; copy "b" "c"; keep ["c"%string]] [("a"%string, VBool true)] = Ok [("c"%string, VBool true)] /\
  in_order [copy "b" "c"; copy "a" "b"] [("a"%string, VBool true)] = Raise KeyError.
Proof. split; reflexivity. Qed.

(** C49: without keep and ignore_no_labels (and other operations that make a new dictionary) the
    dictionary of the caller is changed and returned. *)
Theorem C49_caller_changed : forall ops (h : heap) r d d',
  nth_error h r = Some d -> Forall in_place ops -> in_order ops d = Ok d' ->
  exists h', compose_fns ops h (Some r) = Ok (h', r) /\ nth_error h' r = Some d'.
Proof. exact caller_changed. Qed.
Print Assumptions C49_caller_changed.
Example C49_caller_changed_example : in_place (copy "a" "b") /\ in_place (ikok None "a" "b" (fun v => Ok v)) /\ ~ in_place (keep []) /\ ~ in_place (ignore_no_labels "a" "b").
Proof. repeat split; intros []. Qed.

(** C49: after the first operation that makes a new dictionary, the dictionary of the caller is not
    changed anymore. *)
Theorem C49_caller_kept : forall ops o rest (h : heap) r d d1 d',
  nth_error h r = Some d -> Forall in_place ops -> ~ in_place o -> in_order ops d = Ok d1 -> in_order (o :: rest) d1 = Ok d' ->
  exists h' r', compose_fns (ops ++ o :: rest) h (Some r) = Ok (h', r') /\ r' <> r /\ nth_error h' r' = Some d' /\ nth_error h' r = Some d1.
Proof. exact caller_kept. Qed.
Print Assumptions C49_caller_kept.

(** C49: a decorated operation reads one key and writes one key. *)
Theorem C49_operation : forall key inkey outkey f d i o,
  keys_of key inkey outkey i o ->
  match dget String.eqb d i with
  | None => effect (ikok key inkey outkey f) d = Raise KeyError
  | Some v => match f v with
              | Raise e => effect (ikok key inkey outkey f) d = Raise e
              | Ok v' => exists d', effect (ikok key inkey outkey f) d = Ok d' /\ has d' o v' /\ forall k, k <> o -> same_at d d' k
              end
  end.
Proof. exact ikok_ok. Qed.
Print Assumptions C49_operation.
Example C49_operation_example : keys_of (Some "x"%string) "image" "image" "x" "x" /\ keys_of None "image" "out" "image" "out" /\
  effect (ikok (Some "x"%string) "image" "image" (fun _ => Ok (VBool true))) [("x"%string, VBool false); ("image"%string, VBool false)] = Ok [("x"%string, VBool true); ("image"%string, VBool false)].
Proof. split; [left; exists "x"%string; repeat split; discriminate|]. split; [right; auto|reflexivity]. Qed.

(** C49: copy. *)
Theorem C49_copy : forall i o d,
  match dget String.eqb d i with
  | None => effect (copy i o) d = Raise KeyError
  | Some v => exists d', effect (copy i o) d = Ok d' /\ has d' o v /\ forall k, k <> o -> same_at d d' k
  end.
Proof. exact copy_ok. Qed.
Print Assumptions C49_copy.

(** C49: keep retains the given keys and the flag of validity, and no other key. *)
Theorem C49_keep : forall keys d,
  exists d', effect (keep keys) d = Ok d' /\
  (forall k, List.In k keys \/ k = valid_key -> same_at d d' k) /\ (forall k, ~ List.In k keys -> k <> valid_key -> dget String.eqb d' k = None).
Proof. exact keep_ok. Qed.
Print Assumptions C49_keep.
Example C49_keep_example : effect (keep ["a"%string]) [("a"%string, VBool true); ("b"%string, VBool true); (valid_key, VBool false)] = Ok [("a"%string, VBool true); (valid_key, VBool false)].
Proof. reflexivity. Qed.

(** C49: ignore_no_labels makes examples without labels invalid, and never makes an example valid. *)
Theorem C49_ignore_no_labels : forall lk vk d labels valid,
  has d lk labels ->
  (has d vk (VBool valid) \/ dget String.eqb d vk = None /\ valid = true) ->
  exists d', effect (ignore_no_labels lk vk) d = Ok d' /\ has d' vk (VBool (valid && (0 <? size labels))) /\ forall k, k <> vk -> same_at d d' k.
Proof. exact ignore_ok. Qed.
Print Assumptions C49_ignore_no_labels.
Example C49_ignore_no_labels_example :
  effect (ignore_no_labels "labels" valid_key) [("labels"%string, VInts {| dims := [0]; at_ := fun _ => 0%Z |})] = Ok [("labels"%string, VInts {| dims := [0]; at_ := fun _ => 0%Z |}); (valid_key, VBool false)].
Proof. reflexivity. Qed.

(** C49: in evaluation all examples have the flag of validity at the end: what the operations give, or
    True; other keys are what the operations give. *)
Theorem C49_eval_flag : forall (Mod Obj : Type) (parse : string -> res expr) (literal_eval : expr -> res lit) (import_module : string -> res Mod) (getattr : Mod -> string -> res Obj)
  (call : Obj -> list lit -> list (string * lit) -> res op) (pp_ops : Mod),
  let ops_of := make_ops Mod Obj parse literal_eval import_module getattr call pp_ops in
  let eval_fn := eval_process_fn Mod Obj parse literal_eval import_module getattr call pp_ops in
  forall s ops (h : heap) r d d', ops_of s = Ok ops -> nth_error h r = Some d -> in_order ops d = Ok d' ->
  exists f h' r' out, eval_fn s = Ok f /\ f h (Some r) = Ok (h', r') /\ nth_error h' r' = Some out /\
    (forall k, k <> valid_key -> same_at d' out k) /\
    has out valid_key (match dget String.eqb d' valid_key with Some v => v | None => VBool true end).
Proof. exact eval_ok. Qed.
Print Assumptions C49_eval_flag.

(** C49: with an ignore_no_labels in the string, followed by operations that keep the flag, the flag is
    False exactly for the examples that have no labels. *)
Theorem C49_eval_labels : forall (Mod Obj : Type) (parse : string -> res expr) (literal_eval : expr -> res lit) (import_module : string -> res Mod) (getattr : Mod -> string -> res Obj)
  (call : Obj -> list lit -> list (string * lit) -> res op) (pp_ops : Mod),
  let ops_of := make_ops Mod Obj parse literal_eval import_module getattr call pp_ops in
  let eval_fn := eval_process_fn Mod Obj parse literal_eval import_module getattr call pp_ops in
  forall s before lk after (h : heap) r d d1 labels d', ops_of s = Ok (before ++ ignore_no_labels lk valid_key :: after) -> nth_error h r = Some d ->
  in_order before d = Ok d1 -> has d1 lk labels -> dget String.eqb d1 valid_key = None -> Forall (preserves valid_key) after ->
  in_order (before ++ ignore_no_labels lk valid_key :: after) d = Ok d' ->
  exists f h' r' out, eval_fn s = Ok f /\ f h (Some r) = Ok (h', r') /\ nth_error h' r' = Some out /\ has out valid_key (VBool (0 <? size labels)).
Proof. exact eval_labels. Qed.
Print Assumptions C49_eval_labels.
Example C49_eval_labels_example : exists f h' r',
  eval_process_fn unit string ex_parse ex_literal (fun _ => Ok tt) (fun _ s => Ok s) ex_call tt "ignore_no_labels|keep('image')"%string = Ok f /\
  f [[("image"%string, VBool true); ("labels"%string, VInts {| dims := [0]; at_ := fun _ => 0%Z |})]] (Some 0) = Ok (h', r') /\
  nth_error h' r' = Some [("image"%string, VBool true); (valid_key, VBool false)].
Proof. eexists _, _, _. split; [reflexivity|]. split; reflexivity. Qed.

(** C49: all operations that do not write the key of the flag keep it. *)
Theorem C49_flag_kept : (forall key inkey outkey i o f, keys_of key inkey outkey i o -> o <> valid_key -> preserves valid_key (ikok key inkey outkey f)) /\ (forall i o, o <> valid_key -> preserves valid_key (copy i o)) /\
  (forall ks, preserves valid_key (keep ks)) /\ (forall lk vk, vk <> valid_key -> preserves valid_key (ignore_no_labels lk vk)).
Proof. exact preserves_ops. Qed.
Print Assumptions C49_flag_kept.

(** C56: central_crop takes a window in the middle: its margins differ by one pixel at most. *)
Theorem C56_central_crop : forall (t : nda R) H W rest h w,
  dims t = H :: W :: rest -> 0 < h <= H -> 0 < w <= W ->
  exists t' dy dx, central_crop h w (VTensor t) = Ok (VTensor t') /\ dims t' = h :: w :: rest /\
    (2 * dy + h = H \/ 2 * dy + h + 1 = H) /\ (2 * dx + w = W \/ 2 * dx + w + 1 = W) /\
    forall i j idx, at_ t' (i :: j :: idx) = at_ t (dy + i :: dx + j :: idx).
Proof. exact crop_ok. Qed.
Print Assumptions C56_central_crop.
Example C56_central_crop_example : exists t, central_crop 2 1 (VTensor {| dims := [5; 2]; at_ := fun i => INR (nth 0 i 0 * 10 + nth 1 i 0) |}) = Ok (VTensor t) /\ dims t = [2; 1] /\ at_ t [0; 0] = INR 10 /\ at_ t [1; 0] = INR 20.
Proof. eexists. split; [reflexivity|]. split; [reflexivity|]. split; reflexivity. Qed.

(** C56: central_crop fails for empty crops and crops that are larger than the image. *)
Theorem C56_central_crop_error : forall (t : nda R) H W rest h w,
  dims t = H :: W :: rest -> h = 0 \/ w = 0 \/ H < h \/ W < w -> central_crop h w (VTensor t) = Raise ValueError.
Proof. exact crop_error. Qed.
Print Assumptions C56_central_crop_error.

(** C56: resize_small: the smaller side is exactly as given, and the ratio of sides is kept up to half a
    pixel of the larger one. *)
Theorem C56_resize_small : forall area (t : nda R) h w rest s,
  dims t = h :: w :: rest -> 0 < h -> 0 < w ->
  exists t' h' w', resize_small area s (VTensor t) = Ok (VTensor t') /\ dims t' = h' :: w' :: rest /\ Nat.min h' w' = s /\
    (h <= w -> h' = s) /\ (w <= h -> w' = s) /\
    (2 * (h' * w) <= 2 * (w' * h) + Nat.min h w /\ 2 * (w' * h) <= 2 * (h' * w) + Nat.min h w).
Proof. exact resize_ok. Qed.
Print Assumptions C56_resize_small.
Example C56_resize_small_example : exists t, resize_small (fun _ _ _ _ => 0%R) 4 (VTensor {| dims := [6; 9; 3]; at_ := fun _ => 0%R |}) = Ok (VTensor t) /\ dims t = [4; 6; 3].
Proof. eexists. split; reflexivity. Qed.

(** C56: resize_small and a central_crop that is not larger never fail for images that are not empty. *)
Theorem C56_resize_crop : forall area (t : nda R) h w rest s c,
  dims t = h :: w :: rest -> 0 < h -> 0 < w -> 0 < c <= s ->
  exists t', bind (resize_small area s (VTensor t)) (central_crop c c) = Ok (VTensor t') /\ dims t' = c :: c :: rest.
Proof. exact resize_crop. Qed.
Print Assumptions C56_resize_crop.

(** C56: onehot of a list: on for exactly the classes in the list, whatever their number of occurrences. *)
Theorem C56_onehot_multi : forall depth on off (t : nda Z) n,
  dims t = [n] -> (forall i, i < n -> (0 <= at_ t [i] < Z.of_nat depth)%Z) ->
  exists t', onehot depth true on off (VInts t) = Ok (VTensor t') /\ dims t' = [depth] /\
    forall c, c < depth -> ((exists i, i < n /\ at_ t [i] = Z.of_nat c) -> at_ t' [c] = on) /\ ((forall i, i < n -> at_ t [i] <> Z.of_nat c) -> at_ t' [c] = off).
Proof. exact onehot_multi. Qed.
Print Assumptions C56_onehot_multi.
Example C56_onehot_multi_example : exists t, onehot 3 true 1%R 0%R (VInts {| dims := [3]; at_ := fun i => nth (nth 0 i 0) [2%Z; 0%Z; 2%Z] 0%Z |}) = Ok (VTensor t) /\ at_ t [2] = 1%R /\ at_ t [1] = 0%R.
Proof.
  destruct (C56_onehot_multi 3 1%R 0%R {| dims := [3]; at_ := fun i => nth (nth 0 i 0) [2%Z; 0%Z; 2%Z] 0%Z |} 3 eq_refl) as (t & E & _ & H).
  - intros [|[|[|i]]] L; try lia; cbn; lia.
  - exists t. split; [exact E|]. split; apply H; try lia.
    + exists 0. split; [lia|reflexivity].
    + intros [|[|[|i]]] L; try lia; cbn; lia.
Qed.

(** C56: a label in a list that is not in the range is an error, *)
Theorem C56_onehot_error : forall depth on off (t : nda Z) n i,
  dims t = [n] -> i < n -> (at_ t [i] < 0 \/ Z.of_nat depth <= at_ t [i])%Z -> onehot depth true on off (VInts t) = Raise ValueError.
Proof. exact onehot_error. Qed.
Print Assumptions C56_onehot_error.

(** C56: a single label: on for its class; nothing is on if the label is not in the range. *)
Theorem C56_onehot_single : forall depth multi on off (t : nda Z),
  dims t = [] ->
  exists t', onehot depth multi on off (VInts t) = Ok (VTensor t') /\ dims t' = [depth] /\
    forall c, c < depth -> (at_ t [] = Z.of_nat c -> at_ t' [c] = on) /\ (at_ t [] <> Z.of_nat c -> at_ t' [c] = off).
Proof. exact onehot_single. Qed.
Print Assumptions C56_onehot_single.

(** C56: without multi, each label has its own vector. *)
Theorem C56_onehot_each : forall depth on off (t : nda Z) n,
  dims t = [n] ->
  exists t', onehot depth false on off (VInts t) = Ok (VTensor t') /\ dims t' = [n; depth] /\
    forall i c, i < n -> c < depth -> (at_ t [i] = Z.of_nat c -> at_ t' [i; c] = on) /\ (at_ t [i] <> Z.of_nat c -> at_ t' [i; c] = off).
Proof. exact onehot_each. Qed.
Print Assumptions C56_onehot_each.

(** C56: value_range maps the input range to the output range, linearly. *)
Theorem C56_range_affine : forall vmin vmax lo hi (t : nda R),
  exists t', value_range vmin vmax (Scalar lo) (Scalar hi) false (VTensor t) = Ok (VTensor t') /\ dims t' = dims t /\
  (lo <> hi -> forall i, (at_ t i = lo -> at_ t' i = vmin) /\ (at_ t i = hi -> at_ t' i = vmax) /\
     forall j k w, at_ t k = (w * at_ t i + (1 - w) * at_ t j)%R -> at_ t' k = (w * at_ t' i + (1 - w) * at_ t' j)%R).
Proof. exact range_affine. Qed.
Print Assumptions C56_range_affine.

(** C56: value_range keeps the order of values. *)
Theorem C56_range_order : forall vmin vmax lo hi clip (t t' : nda R) i j,
  (lo < hi)%R -> (vmin <= vmax)%R -> value_range vmin vmax (Scalar lo) (Scalar hi) clip (VTensor t) = Ok (VTensor t') ->
  (at_ t i <= at_ t j)%R -> (at_ t' i <= at_ t' j)%R.
Proof. exact range_order. Qed.
Print Assumptions C56_range_order.

(** C56: exchanging the ranges gives back the image. *)
Theorem C56_range_inverse : forall vmin vmax lo hi (t : nda R),
  lo <> hi -> vmin <> vmax ->
  exists t', bind (value_range vmin vmax (Scalar lo) (Scalar hi) false (VTensor t)) (value_range lo hi (Scalar vmin) (Scalar vmax) false) = Ok (VTensor t') /\ dims t' = dims t /\ forall i, at_ t' i = at_ t i.
Proof. exact range_inverse. Qed.
Print Assumptions C56_range_inverse.
Example C56_range_example : exists t, value_range (-1)%R 1%R (Scalar 0%R) (Scalar 255%R) true (VInts {| dims := [2]; at_ := fun i => nth (nth 0 i 0) [0%Z; 510%Z] 0%Z |}) = Ok (VTensor t) /\ at_ t [0] = (-1)%R /\ at_ t [1] = 1%R.
Proof.
  eexists. split; [reflexivity|]. cbn [at_ nth]. unfold clip_by_value. cbn [bound_at last]. split.
  - replace ((-1) + (0 - 0) / (255 - 0) * (1 - -1))%R with (-1)%R by field. rewrite Rmin_left by lra. apply Rmax_left. lra.
  - replace ((-1) + (510 - 0) / (255 - 0) * (1 - -1))%R with 3%R by field. rewrite Rmin_right by lra. apply Rmax_left. lra.
Qed.

(** C56: with clip_values, values are in the output range, and those that are in it without are the same. *)
Theorem C56_range_clip : forall vmin vmax in_min in_max v t0,
  (vmin <= vmax)%R -> value_range vmin vmax in_min in_max false v = Ok (VTensor t0) ->
  exists t1, value_range vmin vmax in_min in_max true v = Ok (VTensor t1) /\ dims t1 = dims t0 /\
    forall i, (vmin <= at_ t1 i <= vmax)%R /\ ((vmin <= at_ t0 i <= vmax)%R -> at_ t1 i = at_ t0 i) /\ ((at_ t0 i < vmin)%R -> at_ t1 i = vmin) /\ ((vmax < at_ t0 i)%R -> at_ t1 i = vmax).
Proof. exact range_clip. Qed.
Print Assumptions C56_range_clip.

(** C56: with lists, each channel has its own range. *)
Theorem C56_range_channels : forall vmin vmax in_min in_max clip (t : nda R) d n,
  dims t = d ++ [n] -> length in_min = n -> length in_max = n ->
  exists t', value_range vmin vmax (PerChannel in_min) (PerChannel in_max) clip (VTensor t) = Ok (VTensor t') /\ dims t' = dims t /\
    forall c, c < n -> exists tc, value_range vmin vmax (Scalar (nth c in_min 0%R)) (Scalar (nth c in_max 0%R)) clip (VTensor t) = Ok (VTensor tc) /\ forall i, at_ t' (i ++ [c]) = at_ tc (i ++ [c]).
Proof. exact range_channels. Qed.
Print Assumptions C56_range_channels.

(** C56: lists with another length than the number of channels are rejected. *)
Theorem C56_range_mismatch : forall vmin vmax l b clip (t : nda R),
  dims t = [] \/ last (dims t) 0 <> length l -> value_range vmin vmax (PerChannel l) b clip (VTensor t) = Raise ValueError /\ value_range vmin vmax b (PerChannel l) clip (VTensor t) = Raise ValueError.
Proof. exact range_mismatch. Qed.
Print Assumptions C56_range_mismatch.

(** C56: with clip_values, an inverted output range (like value_range(1, -1), which is meaningful without
    clip_values) gives constant images. *)
Theorem C56_inverted_refuted : exists vmin vmax lo hi (t : nda R) t0,
  value_range vmin vmax lo hi false (VTensor t) = Ok (VTensor t0) /\ (vmax <= at_ t0 [0%nat] <= vmin)%R /\ at_ t0 [0] <> vmin /\
  forall t1, value_range vmin vmax lo hi true (VTensor t) = Ok (VTensor t1) -> forall i, at_ t1 i = vmin.
Proof. exact inverted_refuted. Qed.
Print Assumptions C56_inverted_refuted.

(** C57: a name is looked up in the default module, and has no arguments. *)
Theorem C57_name : forall (Mod Obj : Type) (parse : string -> res expr) (literal_eval : expr -> res lit) (import_module : string -> res Mod) (getattr : Mod -> string -> res Obj),
  let pc := parse_call Mod Obj parse literal_eval import_module getattr in
  forall text m id n, parse text = Ok (Name id n) -> pc text (inr m) = bind (getattr m id) (fun o => Ok (o, [], [])).
Proof. exact call_name. Qed.
Print Assumptions C57_name.

(** C57: a call of a name, with its arguments and keywords, in order. *)
Theorem C57_arguments : forall (Mod Obj : Type) (parse : string -> res expr) (literal_eval : expr -> res lit) (import_module : string -> res Mod) (getattr : Mod -> string -> res Obj),
  let pc := parse_call Mod Obj parse literal_eval import_module getattr in
  forall text m id n n' args kws lits vals, parse text = Ok (Call (Name id n) args kws n') ->
  Forall2 (fun a l => literal_eval a = Ok l) args lits -> NoDup (map fst kws) -> Forall2 (fun k v => literal_eval (snd k) = Ok v) kws vals ->
  pc text (inr m) = bind (getattr m id) (fun o => Ok (o, lits, combine (map fst kws) vals)).
Proof. exact call_args. Qed.
Print Assumptions C57_arguments.
Example C57_arguments_example : parse_call unit string ex_parse ex_literal (fun _ => Ok tt) (fun _ s => Ok s) "copy('image', outkey='x')"%string (inr tt) = Ok ("copy"%string, [LStr "image"], [(Some "outkey"%string, LStr "x")]).
Proof. reflexivity. Qed.

(** C57: a dotted name is looked up in the module that is named by all parts except the last. *)
Theorem C57_dotted : forall (Mod Obj : Type) (parse : string -> res expr) (literal_eval : expr -> res lit) (import_module : string -> res Mod) (getattr : Mod -> string -> res Obj),
  let pc := parse_call Mod Obj parse literal_eval import_module getattr in
  forall first parts p rest m e args kws, parse (dots (first :: parts ++ [p]) ++ rest)%string = Ok e ->
  e = chain first (parts ++ [p]) /\ args = [] /\ kws = [] \/ (exists es ks n, e = Call (chain first (parts ++ [p])) es ks n /\
     Forall2 (fun a l => literal_eval a = Ok l) es args /\ NoDup (map fst ks) /\ map fst kws = map fst ks /\ Forall2 (fun k v => literal_eval (snd k) = Ok (snd v)) ks kws) ->
  pc (dots (first :: parts ++ [p]) ++ rest)%string m = bind (import_module (dots (first :: parts))) (fun md => bind (getattr md p) (fun o => Ok (o, args, kws))).
Proof. exact call_dotted. Qed.
Print Assumptions C57_dotted.
Example C57_dotted_example : parse_call string string (fun _ => Ok (Call (chain "a" ["b"; "f"]%string) [Name "x" 7] [] 8)) ex_literal Ok (fun m s => Ok (m ++ "!" ++ s)%string) "a.b.f('x')"%string (inl "d"%string) = Ok ("a.b!f"%string, [LStr "x"], []).
Proof. reflexivity. Qed.

(** C57: anything else than names and dotted names, like a(1)(2) or a[1], is rejected. *)
Theorem C57_nested : forall (Mod Obj : Type) (parse : string -> res expr) (literal_eval : expr -> res lit) (import_module : string -> res Mod) (getattr : Mod -> string -> res Obj),
  let pc := parse_call Mod Obj parse literal_eval import_module getattr in
  forall text m e, parse text = Ok e ->
  match e with
  | Call f args kws _ => ~ Dotted f /\ (forall a, List.In a args -> exists l, literal_eval a = Ok l) /\ (forall k, List.In k kws -> exists l, literal_eval (snd k) = Ok l)
  | e => ~ Dotted e
  end -> pc text m = Raise ValueError.
Proof. exact call_nested. Qed.
Print Assumptions C57_nested.
Example C57_nested_example : ~ Dotted (Call (Name "a" 1) [] [] 3) /\ ~ Dotted (Attribute (Other 4) "x" 6).
Proof. split; intros H; inversion H as [|? ? ? H1]; inversion H1. Qed.

(** C57: arguments: positional ones in order, then keywords, then defaults; TypeError if and only if the
    call is not valid. *)
Theorem C57_binding : forall params,
  forall args kwargs, NoDup (map fst params) -> NoDup (map fst kwargs) ->
  (valid_call params args kwargs -> exists l, bind_args params args kwargs = Ok l /\ length l = length params /\
     forall i p, nth_error params i = Some p -> nth_error l i = bound_value args kwargs i p) /\
  (~ valid_call params args kwargs -> bind_args params args kwargs = Raise TypeError).
Proof. exact bind_args_ok. Qed.
Print Assumptions C57_binding.
Example C57_binding_example :
  bind_args [("a"%string, None); ("b"%string, Some (LInt 5)); ("c"%string, Some (LInt 6))] [LInt 1] [("c"%string, LInt 2)] = Ok [LInt 1; LInt 5; LInt 2] /\
  bind_args [("a"%string, None); ("b"%string, Some (LInt 5))] [LInt 1] [("a"%string, LInt 2)] = Raise TypeError.
Proof. split; reflexivity. Qed.

(** C57: the arguments key, inkey and outkey of decorated operations; the other ones are passed on. *)
Theorem C57_keys : forall indef outdef g args kwargs f key inkey outkey,
  g args (filter (fun kv => negb (existsb (String.eqb (fst kv)) ["key"; "inkey"; "outkey"]%string)) kwargs) = Ok f ->
  (dget String.eqb kwargs "key"%string = match key with Some k => Some (LStr k) | None => None end \/ dget String.eqb kwargs "key"%string = Some LNone /\ key = None) ->
  (dget String.eqb kwargs "inkey"%string = Some (LStr inkey) \/ dget String.eqb kwargs "inkey"%string = None /\ inkey = indef) ->
  (dget String.eqb kwargs "outkey"%string = Some (LStr outkey) \/ dget String.eqb kwargs "outkey"%string = None /\ outkey = outdef) ->
  with_keys indef outdef g args kwargs = Ok (ikok key inkey outkey f).
Proof. exact with_keys_ok. Qed.
Print Assumptions C57_keys.
Example C57_keys_example : exists f, ex_call "value_range" [LInt (-1); LInt 1] [("clip_values"%string, LBool true); ("key"%string, LStr "x")] = Ok (ikok (Some "x"%string) "image" "image" f) /\
  f = value_range (IZR (-1)) (IZR 1) (Scalar (IZR 0)) (Scalar 255%R) true.
Proof. eexists. split; [|reflexivity]. reflexivity. Qed.

