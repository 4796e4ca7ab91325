(** Vocabulary for C62 and C63. *)
From Coq Require Import List Arith ZArith Bool Reals.
From Verif Require Import MoeModel MoeSpec SoftModel AuxModel VitModel Py.
Import ListNotations.
Local Open Scope nat_scope.

(** The number of tokens of an image: the patches, and the class token if there is one *)
Definition tokens_per_image (cls : classifier) (h w : nat) : nat := match cls with ClsToken => S (h * w) | _ => h * w end.

(** [mix] sends a token to its K best experts and adds up their outputs, weighted by the gates. *)
Definition is_mixture (E K : nat) (p : moe_params) (mix : V -> V) : Prop :=
  forall v ch, @best_choices Ralg E K (softmax E (mp_dense p v)) ch ->
    mix v = @sum_over Ralg K (fun k => vscale Ralg (softmax E (mp_dense p v) (ch k)) (mp_mlp p (ch k) v)).

(** The same network without MoE layers, where [mlp i] is the MLP of block i *)
Definition without_moe (c : encoder_config) : encoder_config :=
  {| ec_num_layers := ec_num_layers c; ec_layers := []; ec_moe := {| mc_group_size := 1; mc_num_experts := 1; mc_router := SoftRouting None None |} |}.
Definition with_mlps {I} (mlp : nat -> V -> V) (p : vit_params I) : vit_params I :=
  {| vp_embedding := vp_embedding p; vp_cls := vp_cls p;
     vp_encoder := {| ep_learned := ep_learned (vp_encoder p);
                      ep_block := fun i => let b := ep_block (vp_encoder p) i in
                        {| bp_norm1 := bp_norm1 b; bp_attention := bp_attention b; bp_norm2 := bp_norm2 b; bp_mlp := mlp i; bp_moe := bp_moe b |};
                      ep_norm := ep_norm (vp_encoder p) |};
     vp_map := vp_map p; vp_pre_logits := vp_pre_logits p; vp_head := vp_head p |}.

(** The sinusoidal embedding of row y and column x: four blocks with a quarter of the entries each,
    with frequencies from 1 down to 1 / temperature in geometric progression *)
Definition frequency (c : nat) (temperature : R) (i : nat) : R := exp (- (INR i / INR (c / 4 - 1)) * ln temperature).
Definition sincos (c : nat) (temperature : R) (y x : nat) (d : nat) : R :=
  let q := (c / 4)%nat in
  let angle k := (INR k * frequency c temperature (d mod q)%nat)%R in
  match (d / q)%nat with
  | 0 => sin (angle x)
  | 1 => cos (angle x)
  | 2 => sin (angle y)
  | _ => cos (angle y)
  end.

(** The tokens of an image: the class token if there is one, and the patches row by row *)
Definition input_tokens {I} (cls : classifier) (p : vit_params I) (h w : nat) (i : I) : list V :=
  match cls with ClsToken => vp_cls p :: tokens h w (vp_embedding p i) | _ => tokens h w (vp_embedding p i) end.

(** The vector of a sequence that a classifier uses: the first token, the average, or what MapHead makes *)
Definition represents {I} (cls : classifier) (p : vit_params I) (s : list V) (v : V) : Prop :=
  match cls with
  | ClsToken | Cls0 => v = nth 0 s (vzero Ralg)
  | ClsGap => forall d, (INR (length s) * v d = sumf (length s) (fun t => nth t s (vzero Ralg) d))%R
  | ClsMap => v = vp_map p s
  | ClsOther => False
  end.

(** An example: one token per image, groups of two tokens, two experts with room for one token, and
    logits that are the first two entries of the token *)
Definition demo_config (bp : bool) : encoder_config :=
  {| ec_num_layers := 1; ec_layers := [0];
     ec_moe := {| mc_group_size := 2; mc_num_experts := 2; mc_router := TopExpertsPerItem 1 NameEinsum (Some 1%Z) None Ceil None bp |} |}.
Definition demo_params : vit_params V :=
  {| vp_embedding := fun i _ _ => i; vp_cls := fun _ => 0%R;
     vp_encoder := {| ep_learned := fun _ _ => 0%R;
                      ep_block := fun _ => {| bp_norm1 := fun v => v; bp_attention := fun s => s; bp_norm2 := fun v => v; bp_mlp := fun v => v;
                                              bp_moe := {| mp_dense := fun v => v; mp_mu := fun _ _ _ _ => 0%R; mp_scale := 0%R; mp_mlp := fun _ v => v |} |};
                      ep_norm := fun v => v |};
     vp_map := fun s => nth 0 s (fun _ => 0%R); vp_pre_logits := fun v => v; vp_head := fun v => v |}.
Definition demo (bp : bool) (images : list V) : res (list V) := vit_moe 2 (demo_config bp) None Cls0 None demo_params 1 1 images.
