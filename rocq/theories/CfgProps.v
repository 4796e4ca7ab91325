(** C66, C67 and C68: model descriptions, batches of the shipped configurations, and their options. *)
From Coq Require Import String QArith ZArith Bool List Arith Reals Sorted Lia.
From Verif Require Import MoeModel VitModel VitSpec CfgModel CfgSpec CfgProofs Py PyLemmas.
From Verif Require VitProofs TreeModel.
Import ListNotations.
Local Open Scope list_scope.
Local Open Scope nat_scope.

(** The description of vmoe_s32_last2_ilsvrc2012_randaug_light1.py *)
Definition s32 : str := chars "ViT-S/32, E=8, K=2, Last 2, 300 Epochs".
Definition s32_parts : description :=
  {| d_variant := 83; d_patch := 32; d_experts := 8; d_k := 2; d_where := Last; d_where_num := 2; d_epochs := 300 |}.
Lemma s32_describes : describes s32 s32_parts.
Proof. apply parse. reflexivity. Qed.
Lemma s32_config image_size : exists c, get_vmoe_config s32 image_size 1000 = Ok c.
Proof. apply vmoe_accept. exists s32_parts. split; [apply s32_describes|]. cbn. repeat split; try lia; discriminate. Qed.

(** C66: the descriptions that are accepted are exactly those of the documented form, and each group is read as
    the number that its digits stand for. *)
Theorem C66_parse : forall s d,
  match_description s = Some d <-> describes s d.
Proof. exact parse. Qed.
Print Assumptions C66_parse.
Example C66_parse_example : match_description (chars "ViT-H/14, E=32, K=1, Every 2, 30 Epochs") =
    Some {| d_variant := 72; d_patch := 14; d_experts := 32; d_k := 1; d_where := Every; d_where_num := 2; d_epochs := 30 |} /\
  match_description (chars "ViT-H/14, E=32, K=1, Every 2, Epochs") = None /\ match_description (chars "ViT-B+/16, E=8, K=2, Last 2, 7 Epochs") = None.
Proof. repeat split. Qed.

(** C66: a description can only be read in one way. *)
Theorem C66_unique : forall s d d',
  describes s d -> describes s d' -> d = d'.
Proof. exact describes_unique. Qed.
Print Assumptions C66_unique.
Example C66_unique_example : describes s32 s32_parts.
Proof. exact s32_describes. Qed.

(** C66: a model is made exactly for the descriptions with a known variant, patches of at least one pixel
    and, for "Every n", n >= 1 (and at least one class). *)
Theorem C66_accept : forall s image_size nc,
  (exists c, get_vmoe_config s image_size nc = Ok c) <->
  exists d, describes s d /\ size_of (d_variant d) <> None /\ 1 <= d_patch d /\ 1 <= nc /\ (d_where d = Every -> 1 <= d_where_num d).
Proof. exact vmoe_accept. Qed.
Print Assumptions C66_accept.
Example C66_accept_example : (exists c, get_vmoe_config s32 224 1000 = Ok c) /\ get_vmoe_config (chars "ViT-S/0, E=8, K=2, Last 2, 300 Epochs") 224 1000 = Raise ZeroDivisionError /\
  get_vmoe_config (chars "ViT-S/32, E=8, K=2, Every 0, 300 Epochs") 224 1000 = Raise ValueError /\
  get_vmoe_config (chars "ViT-X/32, E=8, K=2, Every 2, 300 Epochs") 224 1000 = Raise ValueError.
Proof. split; [apply s32_config|]. repeat split. Qed.

(** C66: all other descriptions are errors: ZeroDivisionError for patches of size 0, else ValueError. *)
Theorem C66_errors : forall s image_size nc e,
  get_vmoe_config s image_size nc = Raise e ->
  e = ValueError \/ (e = ZeroDivisionError /\ exists d, describes s d /\ d_patch d = 0 /\ size_of (d_variant d) <> None).
Proof. exact vmoe_errors. Qed.
Print Assumptions C66_errors.
Example C66_errors_example : get_vmoe_config (chars "ViT-S/0, E=8, K=2, Last 2, 300 Epochs") 224 1000 = Raise ZeroDivisionError.
Proof. reflexivity. Qed.

(** C66: the model has the sizes of its variant (with MLPs of four times the hidden size, and heads of 64 or 80 entries),
    the patches, experts and selected experts of the description, and groups of the tokens of 8 images. *)
Theorem C66_model : forall s image_size nc c d,
  get_vmoe_config s image_size nc = Ok c -> describes s d ->
  exists h L heads, size_of (d_variant d) = Some (h, L, heads) /\
    m_hidden_size c = h /\ ec_num_layers (m_encoder c) = L /\ m_num_heads c = heads /\ m_mlp_dim c = (4 * N.of_nat h)%N /\ m_representation_size c = Some h /\
    (heads * 64 = h \/ heads * 80 = h) /\ m_patch_size c = d_patch d /\ m_num_classes c = Some nc /\ m_classifier c = ClsToken /\
    mc_num_experts (ec_moe (m_encoder c)) = d_experts d /\
    mc_group_size (ec_moe (m_encoder c)) = 8 * tokens_per_image ClsToken (image_size / d_patch d) (image_size / d_patch d) /\
    exists cf mode mult bp, mc_router (ec_moe (m_encoder c)) = TopExpertsPerItem (d_k d) NameEinsum None (Some cf) mode mult bp /\ cf == 21#20 /\ bp = false.
Proof. exact vmoe_fields. Qed.
Print Assumptions C66_model.
Example C66_model_example : exists c, get_vmoe_config s32 224 1000 = Ok c /\ describes s32 s32_parts /\ m_hidden_size c = 512 /\
  mc_group_size (ec_moe (m_encoder c)) = 8 * 50.
Proof. eexists. split; [reflexivity|]. split; [exact s32_describes|]. split; reflexivity. Qed.

(** C66: "Every n" puts a MoE into blocks n, 2n, 3n... (counted from 1), and "Last n" into the last n of every second
    block, counted from the end, or into all of those for n = 0; each block is listed once, in order. *)
Theorem C66_blocks : forall s image_size nc c d,
  get_vmoe_config s image_size nc = Ok c -> describes s d ->
  let L := ec_num_layers (m_encoder c) in let layers := ec_layers (m_encoder c) in
  (forall i, In i layers <-> is_moe_block (d_where d) (d_where_num d) L i) /\ StronglySorted lt layers /\
  length layers = match d_where d, d_where_num d with Every, n => L / n | Last, 0 => L / 2 | Last, n => Nat.min n (L / 2) end.
Proof. exact vmoe_blocks. Qed.
Print Assumptions C66_blocks.
Example C66_blocks_example : exists c c' c'', get_vmoe_config s32 224 1000 = Ok c /\ ec_layers (m_encoder c) = [5; 7] /\
  get_vmoe_config (chars "ViT-B/16, E=8, K=2, Every 3, 300 Epochs") 224 1000 = Ok c' /\ ec_layers (m_encoder c') = [2; 5; 8; 11] /\
  get_vmoe_config (chars "ViT-S/32, E=8, K=2, Last 0, 300 Epochs") 224 1000 = Ok c'' /\ ec_layers (m_encoder c'') = [1; 3; 5; 7].
Proof. do 3 eexists. split; [reflexivity|]. split; [reflexivity|]. split; [reflexivity|]. split; [reflexivity|]. split; reflexivity. Qed.

(** C66: the copy of the code in pretrain_imagenet21k.py makes the same model without a representation layer, and has the
    same errors. *)
Theorem C66_copies : forall s image_size nc,
  1 <= nc ->
  get_vmoe_params s image_size nc = bind (get_vmoe_config s image_size nc) (fun c => Ok (without_representation c)).
Proof. exact vmoe_copies. Qed.
Print Assumptions C66_copies.
Example C66_copies_example : exists c, get_vmoe_params (chars "ViT-B/16, E=8, K=2, Every 2, 300 Epochs") 224 1000 = Ok c /\ ec_layers (m_encoder c) = [1; 3; 5; 7; 9; 11].
Proof. eexists. split; reflexivity. Qed.

(** C66: where both functions for the number of epochs accept a description, they agree. *)
Theorem C66_epochs : forall s n,
  get_num_epochs s = Ok n -> attack_get_num_epochs s = Ok n.
Proof. exact epochs_agree. Qed.
Print Assumptions C66_epochs.
Example C66_epochs_example : get_num_epochs s32 = Ok 300 /\ attack_get_num_epochs (chars "ViT-B++/32, 7 Epochs, 30 Epochs") = Ok 30.
Proof. split; reflexivity. Qed.

(** C66: the optimizer gets the learning rate of the table for its variant and patches, and clipping only for H. *)
Theorem C66_optimizer : forall s o,
  get_optimizer_config s = Ok o ->
  exists d, describes s d /\ paper_rate (d_variant d) (d_patch d) (oc_peak o) /\ oc_end o == 1 # 100000 /\ oc_warmup o = 10000%Z /\ oc_weight_decay o == 1 # 10 /\
    oc_clip o = if d_variant d =? 72 then Some 10%Q else None.
Proof. exact optimizer_ok. Qed.
Print Assumptions C66_optimizer.
Example C66_optimizer_example : exists o, get_optimizer_config (chars "ViT-H/14, E=32, K=1, Every 2, 30 Epochs") = Ok o /\ oc_clip o = Some 10%Q.
Proof. eexists. split; reflexivity. Qed.

(** C66: it is a KeyError exactly for the variants and patches outside of the table. *)
Theorem C66_optimizer_errors : forall s e,
  get_optimizer_config s = Raise e <->
  (e = ValueError /\ ~ exists d, describes s d) \/ (e = KeyError /\ exists d, describes s d /\ forall q, ~ paper_rate (d_variant d) (d_patch d) q).
Proof. exact optimizer_errors. Qed.
Print Assumptions C66_optimizer_errors.
Example C66_optimizer_errors_example : get_optimizer_config (chars "ViT-S/16, E=32, K=1, Every 2, 30 Epochs") = Raise KeyError /\
  get_optimizer_config (chars "ViT-S/16") = Raise ValueError.
Proof. split; reflexivity. Qed.

(** C66: the dense model of the adversarial attacks with the same description has the same sizes. *)
Theorem C66_dense : forall s image_size nc c,
  get_vmoe_config s image_size nc = Ok c ->
  attack_get_vit_config s nc = Ok {| dc_patch_size := m_patch_size c; dc_hidden_size := m_hidden_size c; dc_num_layers := ec_num_layers (m_encoder c);
                                     dc_mlp_dim := m_mlp_dim c; dc_num_heads := m_num_heads c |}.
Proof. exact attack_sizes. Qed.
Print Assumptions C66_dense.
Example C66_dense_example : attack_get_vit_config s32 1000 = Ok {| dc_patch_size := 32; dc_hidden_size := 512; dc_num_layers := 8; dc_mlp_dim := 2048%N; dc_num_heads := 8 |}.
Proof. reflexivity. Qed.

(** C66: the V-MoE models of the attacks are the same, with the GShard loss for up to two experts and the other two losses for more. *)
Theorem C66_losses : forall s nc image_size c w,
  attack_get_vmoe_config s nc image_size = Ok (c, w) ->
  get_vmoe_config s image_size nc = Ok c /\
  w = if mc_num_experts (ec_moe (m_encoder c)) <=? 2 then (0, 0, 1#100)%Q else (5#1000, 5#1000, 0)%Q.
Proof. exact attack_losses. Qed.
Print Assumptions C66_losses.
Example C66_losses_example : exists c, attack_get_vmoe_config (chars "ViT-B/32, E=2, K=1, Last 2, 7 Epochs") 1000 384 = Ok (c, (0, 0, 1#100)%Q).
Proof. eexists. reflexivity. Qed.

(** C66: last_n = n of the Soft MoE configurations gives the last n blocks, and all blocks for n = 0. *)
Theorem C66_soft_blocks : forall v patch nc image_size E last_n f slots c,
  soft_get_soft_router v patch nc image_size E last_n f slots = Ok c ->
  (forall i, In i (ec_layers (m_encoder c)) <-> i < ec_num_layers (m_encoder c) /\ (last_n = 0 \/ ec_num_layers (m_encoder c) <= i + last_n)) /\
  ec_layers (m_encoder c) <> [].
Proof. exact soft_blocks. Qed.
Print Assumptions C66_soft_blocks.
Example C66_soft_blocks_example : exists c, soft_get_soft_router (chars "S") 16 None 224 128 6 None (Some 1%Z) = Ok c /\ ec_layers (m_encoder c) = [6; 7; 8; 9; 10; 11].
Proof. eexists. split; reflexivity. Qed.

(** C66: the same for the models with experts choice. *)
Theorem C66_experts_choose_blocks : forall v patch nc image_size E last_n f c,
  soft_get_experts_choose v patch nc image_size E last_n f = Ok c ->
  forall i, In i (ec_layers (m_encoder c)) <-> i < ec_num_layers (m_encoder c) /\ (last_n = 0 \/ ec_num_layers (m_encoder c) <= i + last_n).
Proof. exact experts_choose_blocks. Qed.
Print Assumptions C66_experts_choose_blocks.
Example C66_experts_choose_blocks_example : exists c, soft_get_experts_choose (chars "Ti") 16 (Some 10) 224 128 0 1%Q = Ok c /\ ec_layers (m_encoder c) = seq 0 12.
Proof. eexists. split; reflexivity. Qed.

(** C67: with the models of the descriptions, parts of a batch with a multiple of 8 images each do not influence each other. *)
Theorem C67_groups : forall s image_size nc c I (p : vit_params I) a b,
  get_vmoe_config s image_size nc = Ok c -> 1 <= mc_num_experts (ec_moe (m_encoder c)) ->
  a <> [] -> b <> [] -> Nat.divide 8 (length a) -> Nat.divide 8 (length b) ->
  predict c p image_size (a ++ b) = bind (predict c p image_size a) (fun x => bind (predict c p image_size b) (fun y => Ok (x ++ y))).
Proof. exact vmoe_groups. Qed.
Print Assumptions C67_groups.
Example C67_groups_example : exists c, get_vmoe_config s32 32 1000 = Ok c /\ 1 <= mc_num_experts (ec_moe (m_encoder c)) /\
  Nat.divide 8 (length (repeat (fun _ : nat => 0%R) 16)).
Proof. eexists. split; [reflexivity|]. split; [cbn; lia|]. now exists 2. Qed.

(** C67: other numbers of images have no predictions. *)
Theorem C67_ragged : forall s image_size nc c I (p : vit_params I) images out,
  get_vmoe_config s image_size nc = Ok c ->
  ec_layers (m_encoder c) <> [] -> ~ Nat.divide 8 (length images) -> predict c p image_size images <> Ok out.
Proof. exact vmoe_ragged. Qed.
Print Assumptions C67_ragged.
Example C67_ragged_example : exists c, get_vmoe_config s32 32 1000 = Ok c /\ ec_layers (m_encoder c) <> [] /\
  predict c demo_params 32 [fun _ => 0%R] = Raise TypeError.
Proof. eexists. split; [reflexivity|]. split; [discriminate|reflexivity]. Qed.

(** C67: if the capacity factor of the evaluation is at least the number of experts over the number of selected experts
    (as in vmoe_s32_last2_ilsvrc2012_randaug_light1.py: 4.0, 8 and 2), the prediction for an image does not depend on the batch. *)
Theorem C67_no_drop : forall s image_size nc c d f I (p : vit_params I) images images' out out' i j x,
  get_vmoe_config s image_size nc = Ok c -> describes s d ->
  1 <= d_k d -> d_k d <= d_experts d -> (inject_Z (Z.of_nat (d_experts d)) <= f * inject_Z (Z.of_nat (d_k d)))%Q ->
  Nat.divide 8 (length images) -> Nat.divide 8 (length images') ->
  predict (with_capacity_factor f c) p image_size images = Ok out -> predict (with_capacity_factor f c) p image_size images' = Ok out' ->
  nth_error images i = Some x -> nth_error images' j = Some x -> exists y, nth_error out i = Some y /\ nth_error out' j = Some y.
Proof. exact vmoe_no_drop. Qed.
Print Assumptions C67_no_drop.
Example C67_no_drop_example : exists c out, get_vmoe_config s32 32 1000 = Ok c /\ (inject_Z 8 <= 4 * inject_Z 2)%Q /\
  predict (with_capacity_factor 4 c) demo_params 32 (repeat (fun _ => 0%R) 8) = Ok out.
Proof.
  destruct (s32_config 32) as [c E]. destruct (vmoe_no_drop_total _ _ _ _ _ 4 V demo_params (repeat (fun _ => 0%R) 8) E s32_describes) as [out [O _]]; try (cbn; lia); try discriminate.
  { now exists 1. }
  exists c, out. split; auto. split; [now apply Qle_bool_iff|exact O].
Qed.

(** C67: and all images of such a batch get a prediction. *)
Theorem C67_no_drop_total : forall s image_size nc c d f I (p : vit_params I) images,
  get_vmoe_config s image_size nc = Ok c -> describes s d ->
  1 <= d_k d -> d_k d <= d_experts d -> (inject_Z (Z.of_nat (d_experts d)) <= f * inject_Z (Z.of_nat (d_k d)))%Q ->
  images <> [] -> Nat.divide 8 (length images) ->
  exists out, predict (with_capacity_factor f c) p image_size images = Ok out /\ length out = length images.
Proof. exact vmoe_no_drop_total. Qed.
Print Assumptions C67_no_drop_total.
Example C67_no_drop_total_example : exists c, get_vmoe_config s32 32 1000 = Ok c /\ describes s32 s32_parts /\ 1 <= d_k s32_parts /\ d_k s32_parts <= d_experts s32_parts.
Proof. destruct (s32_config 32) as [c E]. exists c. split; auto. split; [exact s32_describes|]. cbn. lia. Qed.

(** C67: with the models with experts choice of the Soft MoE paper, the predictions for a batch are those for its images alone. *)
Theorem C67_experts_choose : forall v patch nc image_size E last_n f c I (p : vit_params I) images out,
  soft_get_experts_choose v patch nc image_size E last_n f = Ok c -> patch <= image_size -> 1 <= E -> images <> [] ->
  (predict c p image_size images = Ok out <-> Forall2 (fun i o => predict c p image_size [i] = Ok [o]) images out).
Proof. exact experts_choose_images. Qed.
Print Assumptions C67_experts_choose.
Example C67_experts_choose_example : exists c, soft_get_experts_choose (chars "S") 16 None 224 128 6 1%Q = Ok c /\ 16 <= 224 /\ mc_group_size (ec_moe (m_encoder c)) = 196.
Proof. eexists. split; [reflexivity|]. split; [lia|reflexivity]. Qed.

(** C67: the same with the soft router, once its name can be found (see C68). *)
Theorem C67_soft : forall v patch nc image_size E last_n f slots c I (p : vit_params I) images out,
  soft_get_soft_router v patch nc image_size E last_n f slots = Ok c -> patch <= image_size -> 1 <= E -> images <> [] ->
  let c := with_soft_router_path c in
  (predict c p image_size images = Ok out <-> Forall2 (fun i o => predict c p image_size [i] = Ok [o]) images out).
Proof. exact soft_images. Qed.
Print Assumptions C67_soft.
Example C67_soft_example : exists c, soft_get_soft_router (chars "H") 14 None 224 256 16 None (Some 1%Z) = Ok c /\ mc_group_size (ec_moe (m_encoder c)) = 256 /\
  m_router_name (with_soft_router_path c) = soft_router_path.
Proof. eexists. split; [reflexivity|]. split; reflexivity. Qed.

(** C67: and with the models without MoE layers. *)
Theorem C67_dense : forall v patch nc image_size c I (p : vit_params I) images out,
  soft_get_vit_config v patch nc = Ok c -> 1 <= patch -> images <> [] ->
  (predict c p image_size images = Ok out <-> Forall2 (fun i o => predict c p image_size [i] = Ok [o]) images out).
Proof. exact vit_config_images. Qed.
Print Assumptions C67_dense.
Example C67_dense_example : exists c, soft_get_vit_config (chars "L") 16 (Some 10) = Ok c.
Proof. eexists. reflexivity. Qed.

(** C68: the options of mixup are errors exactly if one of their names is not concentration, granularity or size, and then training
    stops with a TypeError before the first step. *)
Theorem C68_mixup : forall kw e,
  setup_mixup (Some kw) = Raise e <-> e = TypeError /\ ~ incl (map fst kw) mixup_names.
Proof. exact mixup_errors. Qed.
Print Assumptions C68_mixup.
Example C68_mixup_example : setup_mixup (Some [(chars "partition_spec", VNone)]) = Raise TypeError /\ setup_mixup (Some [(chars "size", VNum 3)]) = Ok None.
Proof. split; reflexivity. Qed.

(** C68: the options made by get_mixup_config are accepted; a concentration of 0 (light0) switches mixup off. *)
Theorem C68_mixup_partial : forall aug kw,
  get_mixup_config aug = Ok kw ->
  exists c, get_mixup_concentration aug = Ok c /\
    setup_mixup (Some kw) = Ok (if Qeq_bool c 0 then None else Some {| mo_concentration := VNum c; mo_granularity := VStr (chars "device"); mo_size := VNum 2 |}).
Proof. exact mixup_config_ok. Qed.
Print Assumptions C68_mixup_partial.
Example C68_mixup_partial_example : (exists kw, get_mixup_config (chars "light0") = Ok kw /\ setup_mixup (Some kw) = Ok None) /\
  exists kw o, get_mixup_config (chars "strong2") = Ok kw /\ setup_mixup (Some kw) = Ok (Some o) /\ mo_concentration o = VNum (8#10).
Proof. split; [eexists; split; reflexivity|]. do 2 eexists. split; [reflexivity|]. split; reflexivity. Qed.

(** C68: the routers of the models of descriptions exist and take their options. *)
Theorem C68_router_partial : forall s image_size nc c,
  get_vmoe_config s image_size nc = Ok c -> create_router (m_router_name c) (mc_router (ec_moe (m_encoder c))) = Ok tt.
Proof. exact router_exists. Qed.
Print Assumptions C68_router_partial.
Example C68_router_partial_example : exists c, get_vmoe_config s32 224 1000 = Ok c.
Proof. eexists. reflexivity. Qed.

(** C68: so do those of the models with experts choice. *)
Theorem C68_experts_choose_partial : forall v patch nc image_size E last_n f c,
  soft_get_experts_choose v patch nc image_size E last_n f = Ok c ->
  create_router (m_router_name c) (mc_router (ec_moe (m_encoder c))) = Ok tt.
Proof. exact ec_router_exists. Qed.
Print Assumptions C68_experts_choose_partial.
Example C68_experts_choose_partial_example : exists c, soft_get_experts_choose (chars "S") 16 None 224 128 6 1%Q = Ok c.
Proof. eexists. reflexivity. Qed.

(** C68: all models of the Soft MoE paper with the soft router fail: vmoe.nn.routing has no SoftRouter. *)
Theorem C68_soft_router : forall v patch nc image_size E last_n f slots c I (p : vit_params I) size images,
  soft_get_soft_router v patch nc image_size E last_n f slots = Ok c -> predict c p size images = Raise AttributeError.
Proof. exact soft_no_router. Qed.
Print Assumptions C68_soft_router.
Example C68_soft_router_example : exists c, soft_get_soft_router (chars "S") 16 None 224 128 6 None (Some 1%Z) = Ok c.
Proof. eexists. reflexivity. Qed.

(** C68: the model of pretrain_jft4b.py (soft-s16) cannot be used. *)
Theorem C68_soft_refuted : exists c, soft_get_soft_router (chars "S") 16 (Some 10) 224 128 6 None (Some 1%Z) = Ok c /\
  predict c demo_params 224 [fun _ => 0%R] = Raise AttributeError.
Proof.
  assert (forall r, soft_get_soft_router (chars "S") 16 (Some 10) 224 128 6 None (Some 1%Z) = r -> match r with Ok c => predict c demo_params 224 [fun _ => 0%R] = Raise AttributeError | _ => True end) as H.
  { intros [c|e] E; auto. exact (soft_no_router _ _ _ _ _ _ _ _ _ _ _ _ _ E). }
  eexists. split; [reflexivity|]. exact (H _ eq_refl).
Qed.
Print Assumptions C68_soft_refuted.

(** C68: the options of mixup of pretrain_imagenet21k.py are an error (its name mixup_size is not known). *)
Theorem C68_pretrain_refuted : exists kw, kw = pretrain_mixup /\ TreeModel.dget kw (chars "mixup_size") = Some (VNum 2) /\ setup_mixup (Some kw) = Raise TypeError.
Proof. exists pretrain_mixup. repeat split. Qed.
Print Assumptions C68_pretrain_refuted.

