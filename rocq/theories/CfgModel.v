(** The model descriptions of the V-MoE paper and the models of the shipped configurations
    (vmoe/configs/vmoe_paper/common.py, vmoe/projects/soft_moe/configs/common.py,
    vmoe/projects/adversarial_attacks/configs/common.py; C66, C67 and C68).  Floats such as 1.05 are
    rationals; options that only matter in training are left out unless listed. *)
From Coq Require Import String QArith ZArith Bool List Arith.
From Verif Require TreeModel AuxModel.
From Verif Require Import MoeModel VitModel Py.
Import ListNotations.
Local Open Scope list_scope.
Local Open Scope nat_scope.

(** Strings are lists of code points. *)
Definition str := TreeModel.str.
Definition chars : string -> str := AuxModel.chars.
Definition str_eqb : str -> str -> bool := TreeModel.str_eqb.

(** ** vmoe_paper/common.py:33-38 DESCRIPTIONS_REGEX, as re.match runs it.  Each group of digits is
    followed by something that is not a digit, so the greedy match never needs to be undone. *)
Definition is_digit (c : nat) : bool := (48 <=? c) && (c <=? 57).
Definition newline : nat := 10.
(** A literal *)
Fixpoint lit (p s : str) : option str :=
  match p with
  | [] => Some s
  | c :: p => match s with d :: s => if c =? d then lit p s else None | [] => None end
  end.
(** [0-9]+ *)
Fixpoint take_digits (s : str) : str * str :=
  match s with
  | c :: r => if is_digit c then let '(d, r) := take_digits r in (c :: d, r) else ([], s)
  | [] => ([], [])
  end.
Definition digits (s : str) : option (str * str) :=
  match take_digits s with ([], _) => None | (d, r) => Some (d, r) end.
(** The dot: any character but a newline *)
Definition any_char (s : str) : option (nat * str) :=
  match s with c :: r => if c =? newline then None else Some (c, r) | [] => None end.
(** The dollar sign: the end, or before a newline at the end *)
Definition at_end (s : str) : bool := match s with [] => true | [c] => c =? newline | _ => false end.
(** int(digits) *)
Definition to_int (d : str) : nat := fold_left (fun n c => 10 * n + (c - 48)) d 0.

Inductive where_ := Every | Last.
(** (?P<where>Every|Last) *)
Definition match_where (s : str) : option (where_ * str) :=
  match lit (chars "Every") s with
  | Some r => Some (Every, r)
  | None => match lit (chars "Last") s with Some r => Some (Last, r) | None => None end
  end.
Definition obind {T U} (x : option T) (f : T -> option U) : option U := match x with Some x => f x | None => None end.
(** The groups, as numbers where the functions below apply int *)
Record description := { d_variant : nat; d_patch : nat; d_experts : nat; d_k : nat; d_where : where_; d_where_num : nat; d_epochs : nat }.
Definition match_description (s : str) : option description :=
  obind (lit (chars "ViT-") s) (fun s =>
  obind (any_char s) (fun vs => let '(v, s) := vs in
  obind (lit (chars "/") s) (fun s =>
  obind (digits s) (fun ps => let '(p, s) := ps in
  obind (lit (chars ", E=") s) (fun s =>
  obind (digits s) (fun es => let '(e, s) := es in
  obind (lit (chars ", K=") s) (fun s =>
  obind (digits s) (fun ks => let '(k, s) := ks in
  obind (lit (chars ", ") s) (fun s =>
  obind (match_where s) (fun ws => let '(w, s) := ws in
  obind (lit (chars " ") s) (fun s =>
  obind (digits s) (fun ns => let '(n, s) := ns in
  obind (lit (chars ", ") s) (fun s =>
  obind (digits s) (fun ts => let '(t, s) := ts in
  obind (lit (chars " Epochs") s) (fun s =>
  if at_end s then
    Some {| d_variant := v; d_patch := to_int p; d_experts := to_int e; d_k := to_int k; d_where := w; d_where_num := to_int n; d_epochs := to_int t |}
  else None))))))))))))))).

(** 129-133 [get_num_epochs] (also pretrain_imagenet21k.py:212-216) *)
Definition get_num_epochs (s : str) : res nat :=
  match match_description s with None => Raise ValueError | Some d => Ok (d_epochs d) end.

(** 136-169 [get_optimizer_config]: the peak learning rate, the weight decay and the clipping norm *)
Record optimizer_config := { oc_peak : Q; oc_end : Q; oc_warmup : Z; oc_weight_decay : Q; oc_clip : option Q }.
Definition peak_value (variant patch : nat) : option Q :=
  TreeModel.dget [(chars "S" ++ [32], 1#1000); (chars "B" ++ [32], 8#10000); (chars "B" ++ [16], 8#10000); (chars "L" ++ [32], 6#10000);
                 (chars "L" ++ [16], 4#10000); (chars "H" ++ [14], 3#10000)] [variant; patch].
Definition get_optimizer_config (s : str) : res optimizer_config :=
  match match_description s with
  | None => Raise ValueError
  | Some d =>
      match peak_value (d_variant d) (d_patch d) with
      | None => Raise KeyError
      | Some q => Ok {| oc_peak := q; oc_end := 1#100000; oc_warmup := 10000; oc_weight_decay := 1#10;
                        oc_clip := if str_eqb [d_variant d] (chars "H") then Some 10%Q else None |}
      end
  end.

(** ** The models *)
(** list.index(x) *)
Fixpoint index_of (x : str) (l : list str) : res nat :=
  match l with
  | [] => Raise ValueError
  | y :: r => if str_eqb y x then Ok 0 else bind (index_of x r) (fun i => Ok (S i))
  end.
(** l[i] *)
Definition item {T} (l : list T) (i : nat) : res T := match nth_error l i with Some x => Ok x | None => Raise IndexError end.
(** tuple(range(start, stop, step)) with step > 0 *)
Definition py_range (start stop step : nat) : list nat := map (fun i => start + i * step) (seq 0 ((stop - start + step - 1) / step)).
(** l[-n:] for n >= 0 *)
Definition slice_last {T} (n : nat) (l : list T) : list T := match n with 0 => l | _ => skipn (length l - n) l end.
(** a // b *)
Definition floordiv (a b : nat) : res nat := if b =? 0 then Raise ZeroDivisionError else Ok (a / b).

(** The parts of the dictionary config.model used here; [ec_moe] and the name of the router are not used
    in a model without MoE layers.  vit_moe.py:84: the default name of the router *)
Definition default_router_name : str := chars "NoisyTopExpertsPerItemRouter".
Record model_config := {
  m_router_name : str; m_num_classes : option nat; m_patch_size : nat; m_hidden_size : nat; m_classifier : classifier; m_representation_size : option nat;
  m_mlp_dim : N; m_num_heads : nat; m_encoder : encoder_config }.

(** 187-256 [get_vmoe_config].  math.log(0) is a ValueError.  The router is a
    NoisyTopExpertsPerItemRouter (vit_moe.py:84); rounding and multiple of the capacity are the
    defaults of moe.py:270-271. *)
Definition get_vmoe_config (s : str) (image_size num_classes : nat) : res model_config :=
  match match_description s with
  | None => Raise ValueError
  | Some d =>
      bind (index_of [d_variant d] (map chars ["S"; "B"; "L"; "H"]%string)) (fun variant_idx =>
      bind (floordiv image_size (d_patch d)) (fun side =>
      let num_patches := side * side + 1 in
      let group_size := 8 * num_patches in
      bind (item [512; 768; 1024; 1280] variant_idx) (fun hidden_size =>
      bind (if num_classes =? 0 then Raise ValueError else Ok tt) (fun _ =>
      bind (item [8; 12; 24; 32] variant_idx) (fun num_layers =>
      bind (item [2048; 3072; 4096; 5120]%N variant_idx) (fun mlp_dim =>
      bind (item [8; 12; 16; 16] variant_idx) (fun num_heads =>
      bind (match d_where d with
            | Every => if d_where_num d =? 0 then Raise ValueError else Ok (py_range (d_where_num d - 1) num_layers (d_where_num d))
            | Last => Ok (slice_last (d_where_num d) (py_range 1 num_layers 2))
            end) (fun layers =>
      Ok {| m_router_name := default_router_name; m_num_classes := Some num_classes; m_patch_size := d_patch d; m_hidden_size := hidden_size; m_classifier := ClsToken;
            m_representation_size := Some hidden_size; m_mlp_dim := mlp_dim; m_num_heads := num_heads;
            m_encoder := {| ec_num_layers := num_layers; ec_layers := layers;
                            ec_moe := {| mc_group_size := group_size; mc_num_experts := d_experts d;
                                         mc_router := TopExpertsPerItem (d_k d) NameEinsum None (Some (105#100)%Q) Ceil (Some 4%Z) false |} |} |}))))))))
  end.
(** pretrain_imagenet21k.py:108-173 [get_vmoe_params], a copy of the code above, without a
    representation and with another bias; [num_classes] is the constant 21843 of line 36. *)
Definition get_vmoe_params (s : str) (image_size num_classes : nat) : res model_config :=
  match match_description s with
  | None => Raise ValueError
  | Some d =>
      bind (index_of [d_variant d] (map chars ["S"; "B"; "L"; "H"]%string)) (fun variant_idx =>
      bind (floordiv image_size (d_patch d)) (fun side =>
      let num_patches := side * side + 1 in
      let group_size := 8 * num_patches in
      bind (item [512; 768; 1024; 1280] variant_idx) (fun hidden_size =>
      bind (item [8; 12; 24; 32] variant_idx) (fun num_layers =>
      bind (item [2048; 3072; 4096; 5120]%N variant_idx) (fun mlp_dim =>
      bind (item [8; 12; 16; 16] variant_idx) (fun num_heads =>
      bind (match d_where d with
            | Every => if d_where_num d =? 0 then Raise ValueError else Ok (py_range (d_where_num d - 1) num_layers (d_where_num d))
            | Last => Ok (slice_last (d_where_num d) (py_range 1 num_layers 2))
            end) (fun layers =>
      Ok {| m_router_name := default_router_name; m_num_classes := Some num_classes; m_patch_size := d_patch d; m_hidden_size := hidden_size; m_classifier := ClsToken;
            m_representation_size := None; m_mlp_dim := mlp_dim; m_num_heads := num_heads;
            m_encoder := {| ec_num_layers := num_layers; ec_layers := layers;
                            ec_moe := {| mc_group_size := group_size; mc_num_experts := d_experts d;
                                         mc_router := TopExpertsPerItem (d_k d) NameEinsum None (Some (105#100)%Q) Ceil (Some 4%Z) false |} |} |})))))))
  end.

(** ** soft_moe/configs/common.py:190-211 [get_vit_config]; 0 classes are a falsy value, so there is no
    logarithm of 0. *)
Definition soft_get_vit_config (variant : str) (patch_size : nat) (num_classes : option nat) : res model_config :=
  bind (index_of variant (map chars ["Ti"; "S"; "B"; "L"; "H"]%string)) (fun variant_idx =>
  bind (item [192; 384; 768; 1024; 1280] variant_idx) (fun hidden_size =>
  bind (item [12; 12; 12; 24; 32] variant_idx) (fun num_layers =>
  bind (item [768; 1536; 3072; 4096; 5120]%N variant_idx) (fun mlp_dim =>
  bind (item [3; 6; 12; 16; 16] variant_idx) (fun num_heads =>
  Ok {| m_router_name := default_router_name; m_num_classes := num_classes; m_patch_size := patch_size; m_hidden_size := hidden_size; m_classifier := ClsGap;
        m_representation_size := None; m_mlp_dim := mlp_dim; m_num_heads := num_heads;
        m_encoder := {| ec_num_layers := num_layers; ec_layers := []; ec_moe := {| mc_group_size := 1; mc_num_experts := 1; mc_router := SoftRouting None None |} |} |}))))).
Definition with_moe (c : model_config) (layers : list nat) (router_name : str) (moe : moe_config) : model_config :=
  {| m_router_name := router_name; m_num_classes := m_num_classes c; m_patch_size := m_patch_size c; m_hidden_size := m_hidden_size c; m_classifier := m_classifier c;
     m_representation_size := m_representation_size c; m_mlp_dim := m_mlp_dim c; m_num_heads := m_num_heads c;
     m_encoder := {| ec_num_layers := ec_num_layers (m_encoder c); ec_layers := layers; ec_moe := moe |} |}.
(** 214-242 [get_vmoe_experts_choose_config] *)
Definition soft_get_experts_choose (variant : str) (patch_size : nat) (num_classes : option nat) (image_size num_experts last_n : nat) (capacity_factor : Q)
  : res model_config :=
  bind (soft_get_vit_config variant patch_size num_classes) (fun config =>
  bind (floordiv image_size patch_size) (fun side =>
  Ok (with_moe config (slice_last last_n (seq 0 (ec_num_layers (m_encoder config)))) (chars "NoisyTopItemsPerExpertRouter")
        {| mc_group_size := side ^ 2; mc_num_experts := num_experts;
           mc_router := TopItemsPerExpert NameEinsum None (Some capacity_factor) Round (Some 1%Z) |}))).
(** 245-264 [get_vmoe_soft_router_config] *)
Definition soft_get_soft_router (variant : str) (patch_size : nat) (num_classes : option nat) (image_size num_experts last_n : nat)
    (capacity_factor : option Q) (num_slots : option Z) : res model_config :=
  bind (soft_get_vit_config variant patch_size num_classes) (fun config =>
  bind (floordiv image_size patch_size) (fun side =>
  Ok (with_moe config (slice_last last_n (seq 0 (ec_num_layers (m_encoder config)))) (chars "SoftRouter")
        {| mc_group_size := side ^ 2; mc_num_experts := num_experts; mc_router := SoftRouting num_slots capacity_factor |}))).

(** evaluate.model_overrides of vmoe_s32_last2_ilsvrc2012_randaug_light1.py:90-91, applied by
    evaluator.override_base_config: another capacity factor *)
Definition with_capacity_factor (f : Q) (c : model_config) : model_config :=
  let e := m_encoder c in
  with_moe c (ec_layers e) (m_router_name c)
    {| mc_group_size := mc_group_size (ec_moe e); mc_num_experts := mc_num_experts (ec_moe e);
       mc_router := match mc_router (ec_moe e) with
                    | TopExpertsPerItem k name cap _ mode mult bp => TopExpertsPerItem k name cap (Some f) mode mult bp
                    | TopItemsPerExpert name cap _ mode mult => TopItemsPerExpert name cap (Some f) mode mult
                    | SoftRouting n _ => SoftRouting n (Some f)
                    end |}.

(** ** vit_moe.py:84-88 [create_router] and utils.py:90-109 [parse_call]: a name without dots is an attribute
    of vmoe.nn.routing, where the only routers are those of lines 31 and 186; a name with dots gives the
    module.  Of the latter, only one is modelled. *)
Inductive router_class := TopExpertsRouter | TopItemsRouter | SoftRouterClass.
Definition soft_router_path : str := chars "vmoe.projects.soft_moe.router.SoftRouter".
Definition find_router (name : str) : res router_class :=
  if str_eqb name (chars "NoisyTopExpertsPerItemRouter") then Ok TopExpertsRouter
  else if str_eqb name (chars "NoisyTopItemsPerExpertRouter") then Ok TopItemsRouter
  else if str_eqb name soft_router_path then Ok SoftRouterClass
  else Raise AttributeError.
(** A class gets its own options; those of another class are a TypeError. *)
Definition create_router (name : str) (r : router_config) : res unit :=
  bind (find_router name) (fun cls =>
  match cls, r with
  | TopExpertsRouter, TopExpertsPerItem _ _ _ _ _ _ _ | TopItemsRouter, TopItemsPerExpert _ _ _ _ _ | SoftRouterClass, SoftRouting _ _ => Ok tt
  | _, _ => Raise TypeError
  end).
(** vit_moe.py:337-339: the patches of an image, in one direction (a convolution without padding
    whose stride is the size of the patches) *)
Definition conv_side (image_size patch_size : nat) : nat := if image_size <? patch_size then 0 else (image_size - patch_size) / patch_size + 1.
(** The predictions of a model for square images.  Routers are only made in blocks with a MoE
    (vit_moe.py:252-259). *)
Definition predict {I} (c : model_config) (p : vit_params I) (image_size : nat) (images : list I) : res (list V) :=
  bind (if existsb (fun i => i <? ec_num_layers (m_encoder c)) (ec_layers (m_encoder c))
        then create_router (m_router_name c) (mc_router (ec_moe (m_encoder c))) else Ok tt) (fun _ =>
  let side := conv_side image_size (m_patch_size c) in
  vit_moe (m_hidden_size c) (m_encoder c) None (m_classifier c) (m_num_classes c) p side side images).

(** ** adversarial_attacks/configs/common.py:30-35 [get_num_epochs]: '.*, ([0-9]+) Epochs$'.  The greedy
    star, which does not match a newline, tries the longest prefix first. *)
Definition epochs_here (s : str) : option nat :=
  obind (lit (chars ", ") s) (fun s =>
  obind (digits s) (fun ts => let '(t, s) := ts in
  obind (lit (chars " Epochs") s) (fun s => if at_end s then Some (to_int t) else None))).
Fixpoint epochs_anywhere (s : str) : option nat :=
  match match s with c :: r => if c =? newline then None else epochs_anywhere r | [] => None end with
  | Some n => Some n
  | None => epochs_here s
  end.
Definition attack_get_num_epochs (s : str) : res nat :=
  match epochs_anywhere s with None => Raise ValueError | Some n => Ok n end.
(** 91-118 [get_vit_config], '^ViT-([^/]+)/([0-9]+)': the variant is what comes before the first slash;
    the rest of the string is free.  The number of layers, the sizes and the heads *)
Fixpoint until_slash (s : str) : str * str :=
  match s with
  | c :: r => if c =? TreeModel.slash then ([], s) else let '(d, r) := until_slash r in (c :: d, r)
  | [] => ([], [])
  end.
Record dense_config := { dc_patch_size : nat; dc_hidden_size : nat; dc_num_layers : nat; dc_mlp_dim : N; dc_num_heads : nat }.
Definition attack_get_vit_config (s : str) (num_classes : nat) : res dense_config :=
  match obind (lit (chars "ViT-") s) (fun s =>
        let '(v, s) := until_slash s in
        if length v =? 0 then None else
        obind (lit (chars "/") s) (fun s =>
        obind (digits s) (fun ps => Some (v, fst ps)))) with
  | None => Raise ValueError
  | Some (v, p) =>
      bind (index_of v (map chars ["S"; "B"; "B+"; "B++"; "B+++"; "L"; "H"]%string)) (fun idx =>
      bind (item [512; 768; 832; 896; 960; 1024; 1280] idx) (fun hidden_size =>
      bind (if num_classes =? 0 then Raise ValueError else Ok tt) (fun _ =>
      bind (item [8; 12; 15; 18; 21; 24; 32] idx) (fun num_layers =>
      bind (item [2048; 3072; 3328; 3584; 3840; 4096; 5120]%N idx) (fun mlp_dim =>
      bind (item [8; 12; 13; 14; 15; 16; 16] idx) (fun num_heads =>
      Ok {| dc_patch_size := to_int p; dc_hidden_size := hidden_size; dc_num_layers := num_layers; dc_mlp_dim := mlp_dim; dc_num_heads := num_heads |}))))))
  end.
(** 121-138 [get_vmoe_config]: the weights of the auxiliary losses (importance, load, gshard) *)
Definition attack_get_vmoe_config (s : str) (num_classes image_size : nat) : res (model_config * (Q * Q * Q)) :=
  bind (get_vmoe_config s image_size num_classes) (fun config =>
  Ok (config, if 2 <? mc_num_experts (ec_moe (m_encoder config)) then (5#1000, 5#1000, 0)%Q else (0, 0, 1#100)%Q)).

(** ** vmoe/train/trainer.py:743-749 and 889-915: the section config.mixup becomes the keyword arguments of
    [wrap_train_step_with_mixup].  A dictionary has each key once.  Unknown names, and names that the
    caller already gives a value, are TypeErrors.  The result None is the train step without mixup. *)
Inductive value := VNone | VNum (q : Q) | VStr (s : str).
Record mixup_options := { mo_concentration : value; mo_granularity : value; mo_size : value }.
Definition mem (k : str) (l : list str) : bool := existsb (str_eqb k) l.
Definition bind_keywords (given names : list str) (kwargs : list (str * value)) : res unit :=
  if existsb (fun kv => mem (fst kv) given || negb (mem (fst kv) names)) kwargs then Raise TypeError else Ok tt.
Definition get_or (kwargs : list (str * value)) (k : str) (default : value) : value :=
  match TreeModel.dget kwargs k with Some v => v | None => default end.
Definition wrap_with_mixup (kwargs : list (str * value)) : res (option mixup_options) :=
  bind (bind_keywords (map chars ["train_step_fn"; "partition_spec"]%string) (map chars ["concentration"; "granularity"; "size"]%string) kwargs) (fun _ =>
  let concentration := get_or kwargs (chars "concentration") VNone in
  match concentration with
  | VNone => Ok None
  | VNum q => if Qeq_bool q 0 then Ok None
              else Ok (Some {| mo_concentration := concentration; mo_granularity := get_or kwargs (chars "granularity") (VStr (chars "device"));
                               mo_size := get_or kwargs (chars "size") (VNum 2) |})
  | VStr _ => Ok (Some {| mo_concentration := concentration; mo_granularity := get_or kwargs (chars "granularity") (VStr (chars "device"));
                          mo_size := get_or kwargs (chars "size") (VNum 2) |})
  end).
Definition setup_mixup (config_mixup : option (list (str * value))) : res (option mixup_options) :=
  match config_mixup with
  | None | Some [] => Ok None
  | Some kwargs => wrap_with_mixup kwargs
  end.
(** vmoe_paper/common.py:108-126 [get_mixup_config] *)
Definition get_mixup_concentration (aug : str) : res Q :=
  match TreeModel.dget (map (fun kv => (chars (fst kv), snd kv))
          [("light0", 0); ("light1", 2#10); ("medium1", 2#10); ("medium2", 5#10); ("strong1", 5#10); ("strong2", 8#10); ("extreme1", 5#10); ("extreme2", 8#10)]%Q%string) aug with
  | Some q => Ok q
  | None => Raise KeyError
  end.
Definition get_mixup_config (aug : str) : res (list (str * value)) :=
  bind (get_mixup_concentration aug) (fun c =>
  Ok [(chars "granularity", VStr (chars "device")); (chars "size", VNum 2); (chars "concentration", VNum c)]).
(** pretrain_imagenet21k.py:74-76 *)
Definition pretrain_mixup : list (str * value) := [(chars "concentration", VNum (5#10)); (chars "mixup_size", VNum 2)].
