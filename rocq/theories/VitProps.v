(** C62 and C63: predictions for the images of a batch, and sinusoidal position embeddings. *)
From Coq Require Import List Arith ZArith Bool Reals QArith Lia Lra.
From Verif Require Import Prim MoeModel MoeSpec SoftModel AuxModel CwModel EnsProofs VitModel VitSpec VitProofs.
From Verif Require Import Py PyLemmas.
Import ListNotations.
Local Open Scope nat_scope.

(** A network with two tokens per image (a grid of one row and two columns), groups of two tokens, and
    two experts with room for both *)
Definition ex_config : encoder_config :=
  {| ec_num_layers := 2; ec_layers := [1];
     ec_moe := {| mc_group_size := 2; mc_num_experts := 2; mc_router := TopExpertsPerItem 2 NameEinsum None (Some 1%Q) Ceil None true |} |}.
Definition ex_vit (images : list V) : res (list V) := vit_moe 2 ex_config None ClsGap None demo_params 1 2 images.
Lemma ex_vit_ok images : images <> [] -> (length images * 2) mod 2 = 0 -> exists out, ex_vit images = Ok out.
Proof.
  intros NE M. destruct (vit_no_drop 2 ex_config None ClsGap None demo_params 1 2 2 NameEinsum None (Some 1%Q) Ceil None true NameEinsum 2%Z images) as (m & _ & Q); auto; try (cbn; lia).
  unfold ex_vit. rewrite Q. unfold vit_moe, encoder_moe. cbn. eexists. reflexivity.
Qed.

(** C62: if the tokens of an image are a whole number of groups, the predictions for a batch are those for
    its images alone; this holds for all routers, also if tokens are dropped. *)
Theorem C62_images : forall (I : Type) D c pe cls nc (p : vit_params I) h w images out,
  1 <= mc_group_size (ec_moe c) -> 1 <= mc_num_experts (ec_moe c) ->
  tokens_per_image cls h w mod mc_group_size (ec_moe c) = 0 -> images <> [] ->
  (vit_moe D c pe cls nc p h w images = Ok out <-> Forall2 (fun i o => vit_moe D c pe cls nc p h w [i] = Ok [o]) images out).
Proof. exact @vit_images. Qed.
Print Assumptions C62_images.
Example C62_images_example : exists out, ex_vit [vec2 1 0; vec2 0 1; vec2 1 0] = Ok out /\ length out = 3 /\ tokens_per_image ClsGap 1 2 mod 2 = 0.
Proof.
  destruct (ex_vit_ok [vec2 1 0; vec2 0 1; vec2 1 0]) as [out E]; [discriminate|reflexivity|]. exists out. split; auto. split; [|reflexivity].
  apply (vit_images 2 ex_config) in E; [|cbn; lia|cbn; lia|reflexivity|discriminate]. inversion E as [|? ? ? ? _ E1]; subst. inversion E1 as [|? ? ? ? _ E2]; subst. inversion E2 as [|? ? ? ? _ E3]; subst. inversion E3; subst. reflexivity.
Qed.

(** C62: in general, parts of a batch with a whole number of groups each do not influence each other. *)
Theorem C62_groups : forall (I : Type) D c pe cls nc (p : vit_params I) h w a b,
  1 <= mc_group_size (ec_moe c) -> 1 <= mc_num_experts (ec_moe c) -> a <> [] -> b <> [] ->
  (length a * tokens_per_image cls h w) mod mc_group_size (ec_moe c) = 0 -> (length b * tokens_per_image cls h w) mod mc_group_size (ec_moe c) = 0 ->
  vit_moe D c pe cls nc p h w (a ++ b) =
    bind (vit_moe D c pe cls nc p h w a) (fun x => bind (vit_moe D c pe cls nc p h w b) (fun y => Ok (x ++ y))).
Proof. exact @vit_groups. Qed.
Print Assumptions C62_groups.
Example C62_groups_example : exists out out', demo true [vec2 1 0; vec2 2 0] = Ok out /\ demo true [vec2 1 0; vec2 0 1] = Ok out' /\
  demo true ([vec2 1 0; vec2 2 0] ++ [vec2 1 0; vec2 0 1]) = Ok (out ++ out').
Proof.
  do 2 eexists. split; [apply demo_eq|]. split; [apply demo_eq|]. unfold demo. rewrite vit_groups; [|cbn; lia|cbn; lia|discriminate|discriminate|reflexivity|reflexivity].
  assert (A := demo_eq true (vec2 1 0) (vec2 2 0)). assert (B := demo_eq true (vec2 1 0) (vec2 0 1)). unfold demo in A, B. rewrite A, B. reflexivity.
Qed.

(** C62: if the experts have room for all tokens of a group, the network is the one without MoE layers where
    the MLP of a block with a MoE sends each token to its K best experts and adds up their outputs, weighted by the gates. *)
Theorem C62_no_drop : forall (I : Type) D c pe cls nc (p : vit_params I) h w K name cap cf mode mult bp n C images,
  1 <= mc_group_size (ec_moe c) -> 1 <= K -> K <= mc_num_experts (ec_moe c) ->
  mc_router (ec_moe c) = TopExpertsPerItem K name cap cf mode mult bp ->
  top_experts_factory (mc_group_size (ec_moe c)) (mc_num_experts (ec_moe c)) K name cap cf mode mult = MoeModel.Ok (n, C) ->
  (Z.of_nat (mc_group_size (ec_moe c)) <= C)%Z ->
  images <> [] -> (length images * tokens_per_image cls h w) mod mc_group_size (ec_moe c) = 0 ->
  exists mlps, (forall i, if existsb (Nat.eqb i) (ec_layers c) then is_mixture (mc_num_experts (ec_moe c)) K (bp_moe (ep_block (vp_encoder p) i)) (mlps i)
                          else mlps i = bp_mlp (ep_block (vp_encoder p) i)) /\
    vit_moe D c pe cls nc p h w images = vit_moe D (without_moe c) pe cls nc (with_mlps mlps p) h w images.
Proof. exact @vit_no_drop. Qed.
Print Assumptions C62_no_drop.
Example C62_no_drop_example : top_experts_factory 2 2 2 NameEinsum None (Some 1%Q) Ceil None = MoeModel.Ok (NameEinsum, 2%Z) /\
  exists out, ex_vit [vec2 1 0; vec2 0 1] = Ok out.
Proof. split; [reflexivity|]. apply ex_vit_ok; [discriminate|reflexivity]. Qed.

(** C62: then the prediction for an image is the same in all batches and at all places. *)
Theorem C62_no_drop_images : forall (I : Type) D c pe cls nc (p : vit_params I) h w K name cap cf mode mult bp n C images images' out out' i j x,
  1 <= mc_group_size (ec_moe c) -> 1 <= K -> K <= mc_num_experts (ec_moe c) ->
  mc_router (ec_moe c) = TopExpertsPerItem K name cap cf mode mult bp ->
  top_experts_factory (mc_group_size (ec_moe c)) (mc_num_experts (ec_moe c)) K name cap cf mode mult = MoeModel.Ok (n, C) ->
  (Z.of_nat (mc_group_size (ec_moe c)) <= C)%Z ->
  (length images * tokens_per_image cls h w) mod mc_group_size (ec_moe c) = 0 -> (length images' * tokens_per_image cls h w) mod mc_group_size (ec_moe c) = 0 ->
  vit_moe D c pe cls nc p h w images = Ok out -> vit_moe D c pe cls nc p h w images' = Ok out' ->
  nth_error images i = Some x -> nth_error images' j = Some x -> exists y, nth_error out i = Some y /\ nth_error out' j = Some y.
Proof. exact @vit_no_drop_images. Qed.
Print Assumptions C62_no_drop_images.
Example C62_no_drop_images_example : exists out out', ex_vit [vec2 1 0; vec2 0 1] = Ok out /\ ex_vit [vec2 3 0; vec2 5 1; vec2 1 0] = Ok out' /\
  exists y, nth_error out 0 = Some y /\ nth_error out' 2 = Some y.
Proof.
  destruct (ex_vit_ok [vec2 1 0; vec2 0 1]) as [out E]; [discriminate|reflexivity|]. destruct (ex_vit_ok [vec2 3 0; vec2 5 1; vec2 1 0]) as [out' E']; [discriminate|reflexivity|].
  exists out, out'. split; auto. split; auto.
  apply (vit_no_drop_images 2 ex_config None ClsGap None demo_params 1 2 2 NameEinsum None (Some 1%Q) Ceil None true NameEinsum 2%Z _ _ _ _ 0 2 (vec2 1 0)) with (7 := eq_refl) (8 := eq_refl) (9 := E) (10 := E'); cbn; auto; lia.
Qed.

(** C62: there is room for all tokens if the capacity factor times the number of selected experts is at least
    the number of experts. *)
Theorem C62_factor_enough : forall Sz E K name cf mode mult n C,
  1 <= Sz -> 1 <= K -> 1 <= E ->
  (inject_Z (Z.of_nat E) <= cf * inject_Z (Z.of_nat K))%Q ->
  top_experts_factory Sz E K name None (Some cf) mode mult = MoeModel.Ok (n, C) -> (Z.of_nat Sz <= C)%Z.
Proof. exact factor_enough. Qed.
Print Assumptions C62_factor_enough.
Example C62_factor_enough_example : top_experts_factory 3 4 2 NameIndices None (Some 2%Q) Ceil None = MoeModel.Ok (NameIndices, 3%Z) /\
  (inject_Z 4 <= 2 * inject_Z 2)%Q.
Proof. split; [reflexivity|]. unfold Qle. cbn. lia. Qed.

(** C62: with one selected expert and without batch priority, predictions only depend on the images at the same
    place or before. *)
Theorem C62_earlier : forall D c name cap cf mode mult (I : Type) pe cls nc (p : vit_params I) h w images images' out out' n,
  1 <= mc_group_size (ec_moe c) -> 1 <= mc_num_experts (ec_moe c) -> mc_router (ec_moe c) = TopExpertsPerItem 1 name cap cf mode mult false ->
  let Sz := mc_group_size (ec_moe c) in
  images <> [] -> images' <> [] -> (length images * tokens_per_image cls h w) mod Sz = 0 -> (length images' * tokens_per_image cls h w) mod Sz = 0 ->
  vit_moe D c pe cls nc p h w images = Ok out -> vit_moe D c pe cls nc p h w images' = Ok out' ->
  firstn n images = firstn n images' -> firstn n out = firstn n out'.
Proof. exact (fun D c name cap cf mode mult I pe cls nc p h w images images' out out' n HS HE HR => @vit_earlier D c name cap cf mode mult HS HE HR I pe cls nc p h w images images' out out' n). Qed.
Print Assumptions C62_earlier.
Example C62_earlier_example : exists out out', demo false [vec2 1 0; vec2 2 0] = Ok out /\ demo false [vec2 1 0; vec2 0 1] = Ok out' /\ firstn 1 out = firstn 1 out'.
Proof.
  do 2 eexists. split; [apply demo_eq|]. split; [apply demo_eq|].
  apply (C62_earlier 2 (demo_config false) NameEinsum (Some 1%Z) None Ceil None V None Cls0 None demo_params 1 1 [vec2 1 0; vec2 2 0] [vec2 1 0; vec2 0 1]); try reflexivity; try discriminate; try (cbn; lia); apply demo_eq.
Qed.

(** C62: a network with a MoE layer gives no predictions for batches whose tokens cannot be split into groups. *)
Theorem C62_ragged : forall (I : Type) D c pe cls nc (p : vit_params I) h w images out i,
  i < ec_num_layers c -> existsb (Nat.eqb i) (ec_layers c) = true -> images <> [] ->
  mc_group_size (ec_moe c) = 0 \/ (length images * tokens_per_image cls h w) mod mc_group_size (ec_moe c) <> 0 ->
  vit_moe D c pe cls nc p h w images <> Ok out.
Proof. exact @vit_ragged. Qed.
Print Assumptions C62_ragged.
Example C62_ragged_example : demo false [vec2 1 0] = Raise TypeError /\ existsb (Nat.eqb 0) (ec_layers (demo_config false)) = true /\ 1 * tokens_per_image Cls0 1 1 mod 2 <> 0.
Proof. split; [reflexivity|]. split; [reflexivity|]. cbn. lia. Qed.

(** C62: the conditions are needed.  If a group has tokens of two images and there is not room for all, the
    prediction for the second image depends on the first. *)
Theorem C62_other_image_refuted : exists a a' b out out',
  demo false [a; b] = Ok out /\ demo false [a'; b] = Ok out' /\ nth_error out 1 <> nth_error out' 1.
Proof. exact vit_other_refuted. Qed.
Print Assumptions C62_other_image_refuted.

(** C62: with batch priority, the prediction for the first image depends on the second. *)
Theorem C62_later_image_refuted : exists a b b' out out',
  demo true [a; b] = Ok out /\ demo true [a; b'] = Ok out' /\ nth_error out 0 <> nth_error out' 0.
Proof. exact vit_later_refuted. Qed.
Print Assumptions C62_later_image_refuted.

(** C63: with sincos2d embeddings, the encoder gets each patch with the embedding of its row and column added; the
    class token is left alone. *)
Theorem C63_tokens : forall (I : Type) D e cls (p : vit_params I) h w images t,
  D mod 4 = 0 -> 8 <= D -> images <> [] -> pe_name e = Some PosSincos2d ->
  t = match pe_temperature e with Some t => t | None => default_temperature end ->
  exists e' out, grid_kwargs h w (Some (Some e)) = Ok e' /\
    add_position_emb D e' (ep_learned (vp_encoder p)) (map (input_tokens cls p h w) images) = Ok out /\
    Forall2 (fun i s => length s = tokens_per_image cls h w /\
               (cls = ClsToken -> nth 0 s (vzero Ralg) = vp_cls p) /\
               forall y x d, y < h -> x < w -> d < D ->
                 nth (y * w + x + match cls with ClsToken => 1 | _ => 0 end) s (vzero Ralg) d = (vp_embedding p i y x d + sincos D t y x d)%R) images out.
Proof. exact @vit_sincos. Qed.
Print Assumptions C63_tokens.
Definition ex_pe : position_emb := {| pe_name := Some PosSincos2d; pe_h := None; pe_w := Some 99; pe_temperature := None |}.
Example C63_tokens_example : exists e' out, grid_kwargs 2 3 (Some (Some ex_pe)) = Ok e' /\
  add_position_emb 8 e' (fun _ _ => 0%R) (map (input_tokens ClsToken demo_params 2 3) [vec2 1 0]) = Ok out /\
  forall d, d < 8 -> nth 6 (nth 0 out []) (vzero Ralg) d = (vec2 1 0 d + sincos 8 10000 1 2 d)%R.
Proof.
  destruct (vit_sincos 8 ex_pe ClsToken demo_params 2 3 [vec2 1 0] _ eq_refl (le_n 8) ltac:(discriminate) eq_refl eq_refl) as (e' & out & E & A & F).
  exists e', out. split; auto. split; auto. intros d Hd. inversion F as [|i s l l' (L & C & P) F' Q1 Q2]; subst. apply (P 1 2 d); lia.
Qed.

(** C63: the network is the encoder without embeddings applied to these tokens, and the classifier. *)
Theorem C63_network : forall (I : Type) D c pe cls nc (p : vit_params I) h w images out,
  vit_moe D c pe cls nc p h w images = Ok out ->
  exists e x y, grid_kwargs h w pe = Ok e /\ add_position_emb D e (ep_learned (vp_encoder p)) (map (input_tokens cls p h w) images) = Ok x /\
    encoder_moe D c (Some {| pe_name := Some PosNone; pe_h := None; pe_w := None; pe_temperature := None |}) (vp_encoder p) x = Ok y /\
    exists z, Forall2 (represents cls p) y z /\ out = map (fun v => let v := vp_pre_logits p v in match nc with Some (S _) => vp_head p v | _ => v end) z.
Proof. exact @vit_position. Qed.
Print Assumptions C63_network.
Example C63_network_example : exists out, vit_moe 8 (without_moe ex_config) (Some (Some ex_pe)) ClsToken (Some 3) demo_params 2 3 [vec2 1 0; vec2 0 1] = Ok out.
Proof. unfold vit_moe, encoder_moe. cbn. eexists. reflexivity. Qed.

(** C63: in the network, the embeddings only fail for hidden sizes that are not multiples of four or less than
    eight, for unknown names, and for an option position_emb that is None. *)
Theorem C63_errors : forall (I : Type) D e cls (p : vit_params I) h w images,
  images <> [] ->
  (exists e' out, grid_kwargs h w e = Ok e' /\ add_position_emb D e' (ep_learned (vp_encoder p)) (map (input_tokens cls p h w) images) = Ok out) <->
  match e with
  | None => True
  | Some None => False
  | Some (Some pe) => match pe_name pe with None | Some PosNone | Some PosLearned => True | Some PosSincos2d => D mod 4 = 0 /\ 8 <= D | Some PosOther => False end
  end.
Proof. exact @vit_position_errors. Qed.
Print Assumptions C63_errors.
Example C63_errors_example :
  vit_moe 4 (without_moe ex_config) (Some (Some ex_pe)) ClsGap None demo_params 2 3 [vec2 1 0] = Raise ValueError /\
  vit_moe 8 (without_moe ex_config) (Some None) ClsGap None demo_params 2 3 [vec2 1 0] = Raise AttributeError.
Proof. split; reflexivity. Qed.

(** C63: the encoder alone also needs the height and the width of the grid, and sequences of this size with or
    without one class token. *)
Theorem C63_encoder_errors : forall D pe learned inputs,
  (exists out, add_position_emb D (Some pe) learned inputs = Ok out) <->
  match pe_name pe with
  | None | Some PosNone | Some PosLearned => True
  | Some PosSincos2d => exists h w, pe_h pe = Some h /\ pe_w pe = Some w /\ D mod 4 = 0 /\ 8 <= D /\ (seq_len inputs = h * w \/ seq_len inputs = h * w + 1)
  | Some PosOther => False
  end.
Proof. exact position_errors. Qed.
Print Assumptions C63_encoder_errors.
Example C63_encoder_errors_example : forall x : V,
  let pe h := Some {| pe_name := Some PosSincos2d; pe_h := h; pe_w := Some 2; pe_temperature := None |} in
  add_position_emb 8 (pe None) (fun _ _ => 0%R) [[x; x]] = Raise KeyError /\
  add_position_emb 8 (pe (Some 2)) (fun _ _ => 0%R) [[x; x]] = Raise ValueError /\
  exists out, add_position_emb 8 (pe (Some 1)) (fun _ _ => 0%R) [[x; x]] = Ok out.
Proof. intros x pe. split; [reflexivity|]. split; [reflexivity|]. eexists. reflexivity. Qed.

(** C63: missing sizes are a KeyError, everything else is a ValueError. *)
Theorem C63_error_kind : forall D pe learned inputs e,
  add_position_emb D pe learned inputs = Raise e ->
  (e = KeyError /\ exists p, pe = Some p /\ pe_name p = Some PosSincos2d /\ (pe_h p = None \/ pe_w p = None)) \/ e = ValueError.
Proof. exact position_error_kind. Qed.
Print Assumptions C63_error_kind.
Example C63_error_kind_example : forall x : V,
  add_position_emb 6 (Some {| pe_name := Some PosSincos2d; pe_h := None; pe_w := Some 2; pe_temperature := None |}) (fun _ _ => 0%R) [[x]] = Raise KeyError.
Proof. reflexivity. Qed.

(** C63: the scalar product of two embeddings only depends on the displacement. *)
Theorem C63_dot : forall c t y x y' x',
  c mod 4 = 0 ->
  sumf c (fun d => (sincos c t y x d * sincos c t y' x' d)%R) =
  sumf (c / 4) (fun i => (cos (frequency c t i * (INR x - INR x')) + cos (frequency c t i * (INR y - INR y')))%R).
Proof. exact sincos_dot. Qed.
Print Assumptions C63_dot.
Example C63_dot_example : 8 mod 4 = 0 /\ sumf (8 / 4) (fun i => (cos (frequency 8 10000 i * (INR 3 - INR 3)) + cos (frequency 8 10000 i * (INR 3 - INR 3)))%R) = 4%R.
Proof. split; [reflexivity|]. change (8 / 4) with 2. cbn [sumf]. rewrite !Rminus_diag_eq, !Rmult_0_r, cos_0 by reflexivity. lra. Qed.

(** C63: all embeddings have the same norm. *)
Theorem C63_norm : forall c t y x,
  c mod 4 = 0 -> sumf c (fun d => (sincos c t y x d * sincos c t y x d)%R) = (INR c / 2)%R.
Proof. exact sincos_norm. Qed.
Print Assumptions C63_norm.
Example C63_norm_example : (sincos 8 10000 1 2 0 = sin 2 /\ sincos 8 10000 1 2 2 = cos 2 /\ sincos 8 10000 1 2 4 = sin 1 /\ sincos 8 10000 1 2 6 = cos 1)%R.
Proof.
  assert (F : frequency 8 10000 0 = 1%R). { unfold frequency. cbn [INR]. unfold Rdiv. rewrite Rmult_0_l, Ropp_0, Rmult_0_l. apply exp_0. }
  unfold sincos. change (8 / 4) with 2. change (0 / 2) with 0. change (2 / 2) with 1. change (4 / 2) with 2. change (6 / 2) with 3.
  change (0 mod 2) with 0. change (2 mod 2) with 0. change (4 mod 2) with 0. change (6 mod 2) with 0. rewrite F. cbn [INR]. repeat split; f_equal; lra.
Qed.

(** C63: different places of the grid have different embeddings if no side of the grid is longer than six times
    the temperature. *)
Theorem C63_distinct : forall c t h w y x y' x',
  c mod 4 = 0 -> 8 <= c -> (0 < t)%R -> (INR h <= 6 * t)%R -> (INR w <= 6 * t)%R ->
  y < h -> x < w -> y' < h -> x' < w -> (forall d, d < c -> sincos c t y x d = sincos c t y' x' d) -> y = y' /\ x = x'.
Proof. exact sincos_inj. Qed.
Print Assumptions C63_distinct.
Example C63_distinct_example : (INR 16 <= 6 * default_temperature)%R /\ (0 < default_temperature)%R /\ 768 mod 4 = 0 /\ 8 <= 768.
Proof. unfold default_temperature. split; [cbn; lra|]. split; [lra|]. split; [reflexivity|lia]. Qed.

