(** C71, C72 and C73: the contrastive project. *)
From Coq Require Import String List Arith ZArith Bool Lia Reals Lra.
From Verif Require Import MoeModel SoftModel SoftSpec TreeModel AuxModel StepModel VitModel VitSpec VitProofs VitProps ConModel ConSpec ConProofs.
From Verif Require Import Py PyLemmas.
Import ListNotations.
Local Open Scope list_scope.
Local Open Scope nat_scope.

(** Images of two tokens with MoE layers, and texts of any length without *)
Definition ex_text : text_params := {| tp_embed := fun n _ => INR n; tp_encoder := vp_encoder demo_params; tp_map := vp_map demo_params; tp_head := fun v => v |}.
Definition ex_both := both V 2 2 2 ex_config (without_moe ex_config) None None ClsGap PoolLast None None demo_params ex_text 1 2 0%R None.
Lemma ex_both_ok images texts : images <> [] -> exists logits mt, ex_both (Some images) (Some texts) = Ok (logits, mt).
Proof.
  intros N. destruct (ex_vit_ok images N) as [zi Hi]; [apply Nat.mod_mul; lia|].
  assert (Ht : exists zt, text_transformer 2 (without_moe ex_config) None PoolLast None ex_text texts = Ok zt) by (unfold text_transformer, encoder_moe; cbn; eexists; reflexivity). destruct Ht as [zt Ht].
  unfold ex_both, both, two_tower, tower. unfold ex_vit in Hi. rewrite Hi. cbn [bind]. rewrite Ht. cbn [bind]. eexists. eexists. reflexivity.
Qed.

(** C71: if the tokens of an image and of a text are whole numbers of groups, then the logit of an image and a text in
    any batch is the one that the model gives for this pair alone, for all routers. *)
Theorem C71_pairs : forall I Di Dt D ci ct pei pet cls pool nci nct (pi : vit_params I) pt h w s b L images texts logits mt i j x t,
  let both := both I Di Dt D ci ct pei pet cls pool nci nct pi pt h w s b in
  1 <= mc_group_size (ec_moe ci) -> 1 <= mc_num_experts (ec_moe ci) -> 1 <= mc_group_size (ec_moe ct) -> 1 <= mc_num_experts (ec_moe ct) ->
  tokens_per_image cls h w mod mc_group_size (ec_moe ci) = 0 -> L mod mc_group_size (ec_moe ct) = 0 -> Forall (fun t => length t = L) texts ->
  both (Some images) (Some texts) = Ok (logits, mt) -> nth_error images i = Some x -> nth_error texts j = Some t ->
  exists l1 mt1, both (Some [x]) (Some [t]) = Ok (l1, mt1) /\ l1 0 0 = logits i j.
Proof. exact both_pairs. Qed.
Print Assumptions C71_pairs.
Example C71_pairs_example : exists logits mt l1 mt1, ex_both (Some [vec2 1 0; vec2 0 1]) (Some [[1; 2]; [3; 4]; [5; 6]]) = Ok (logits, mt) /\
  ex_both (Some [vec2 0 1]) (Some [[5; 6]]) = Ok (l1, mt1) /\ l1 0 0 = logits 1 2.
Proof.
  destruct (ex_both_ok [vec2 1 0; vec2 0 1] [[1; 2]; [3; 4]; [5; 6]]) as (logits & mt & E); [discriminate|].
  destruct (C71_pairs V 2 2 2 ex_config (without_moe ex_config) None None ClsGap PoolLast None None demo_params ex_text 1 2 0%R None 2 [vec2 1 0; vec2 0 1] [[1; 2]; [3; 4]; [5; 6]] logits mt 1 2 (vec2 0 1) [5; 6]) as (l1 & mt1 & P1 & P2); [cbn; lia|cbn; lia|cbn; lia|cbn; lia|reflexivity|reflexivity|repeat constructor|exact E|reflexivity|reflexivity|].
  exists logits, mt, l1, mt1. auto.
Qed.

(** C71: the functions that are given to the retrieval, zero-shot and few-shot evaluations give the embeddings whose
    inner products are the logits of the model, up to the positive scale and the bias; hence they rank all pairs as the logits do. *)
Theorem C71_rank : forall {I T} (fi : I -> res ((nat -> nat -> R) * metrics_t)) (ft : T -> res ((nat -> nat -> R) * metrics_t)) D s b x y logits mt,
  two_tower I T fi ft D s b (Some x) (Some y) = Ok (logits, mt) ->
  exists zi zt, apply_fn I T (two_tower I T fi ft D s b) (Some x) None = Ok (Some zi, None) /\
    apply_fn I T (two_tower I T fi ft D s b) None (Some y) = Ok (None, Some zt) /\
    fewshot_apply_fn I T (two_tower I T fi ft D s b) x = Ok zi /\
    (forall m n, logits m n = (exp s * dot D (zi m) (zt n) + bias b)%R) /\
    (forall m n m' n', (logits m n <= logits m' n')%R <-> (dot D (zi m) (zt n) <= dot D (zi m') (zt n'))%R).
Proof. exact @eval_rank. Qed.
Print Assumptions C71_rank.
Example C71_rank_example : exists logits mt, ex_both (Some [vec2 1 0; vec2 0 1]) (Some [[1]; [3]]) = Ok (logits, mt).
Proof. apply ex_both_ok. discriminate. Qed.

(** C71: these functions reject inputs with both or none of images and texts. *)
Theorem C71_errors : forall {I T} (model : option I -> option T -> res ((nat -> nat -> R) * metrics_t)) x y,
  (x = None /\ y = None) \/ (exists a c, x = Some a /\ y = Some c) -> apply_fn I T model x y = Raise ValueError.
Proof. exact @apply_errors. Qed.
Print Assumptions C71_errors.
Example C71_errors_example : apply_fn nat nat (fun _ _ => Ok (fun _ _ => 0%R, [])) (Some 1) (Some 2) = Raise ValueError.
Proof. reflexivity. Qed.

(** C71: if the tokens of a text are a whole number of groups, the embeddings of a batch of texts are those of each text
    alone. *)
Theorem C71_texts : forall D c pe pool nc p L texts out,
  1 <= mc_group_size (ec_moe c) -> 1 <= mc_num_experts (ec_moe c) ->
  L mod mc_group_size (ec_moe c) = 0 -> texts <> [] -> Forall (fun t => length t = L) texts ->
  (text_transformer D c pe pool nc p texts = Ok out <-> Forall2 (fun t o => text_transformer D c pe pool nc p [t] = Ok [o]) texts out).
Proof. exact text_each. Qed.
Print Assumptions C71_texts.
Example C71_texts_example : exists out, text_transformer 2 (without_moe ex_config) None PoolGmp None ex_text [[1; 2]; [3; 4]] = Ok out /\ length out = 2.
Proof. unfold text_transformer, encoder_moe. cbn. eexists. split; reflexivity. Qed.

(** C71: the text tower encodes the embedded tokens, pools each sequence and applies the head, if there are classes. *)
Theorem C71_network : forall D c pe pool nc p texts out,
  text_transformer D c pe pool nc p texts = Ok out ->
  exists pe' y z, (pe = None /\ pe' = None \/ exists e, pe = Some (Some e) /\ pe' = Some e /\ pe_name e <> Some PosSincos2d) /\
    encoder_moe D c pe' (tp_encoder p) (map (map (tp_embed p)) texts) = Ok y /\ apply_pooling pool p y = Ok z /\
    out = map (fun v => match nc with Some (S _) => tp_head p v | _ => v end) z.
Proof. exact text_network. Qed.
Print Assumptions C71_network.
Example C71_network_example : exists out, text_transformer 2 (without_moe ex_config) None PoolGap (Some 2) ex_text [[1; 2]] = Ok out.
Proof. unfold text_transformer, encoder_moe. cbn. eexists. reflexivity. Qed.

(** C71: pooling takes the last or first token, the average, the greatest entries or what MapHead makes, and only fails
    for other names. *)
Theorem C71_pooling : forall pool p x out,
  Forall (fun s => s <> []) x -> (apply_pooling pool p x = Ok out -> Forall2 (pooled pool p) x out) /\ ((exists out, apply_pooling pool p x = Ok out) <-> pool <> PoolOther).
Proof. exact pooling_ok. Qed.
Print Assumptions C71_pooling.
Example C71_pooling_example : apply_pooling PoolLast ex_text [[vec2 1 2; vec2 3 4]] = Ok [vec2 3 4] /\ apply_pooling PoolFirst ex_text [[vec2 1 2; vec2 3 4]] = Ok [vec2 1 2].
Proof. split; reflexivity. Qed.

(** C71: sincos2d position embeddings are rejected for texts, and an option position_emb that is None is an
    AttributeError. *)
Theorem C71_position : forall D c e pool nc p texts,
  (pe_name e = Some PosSincos2d -> text_transformer D c (Some (Some e)) pool nc p texts = Raise ValueError) /\
  text_transformer D c (Some None) pool nc p texts = Raise AttributeError.
Proof. exact text_position. Qed.
Print Assumptions C71_position.
Example C71_position_example : pe_name ex_pe = Some PosSincos2d.
Proof. reflexivity. Qed.

(** C72: with microsteps, the reported losses and the gradients are those of the mean over the images of the logistic losses
    of the pairs in the same microbatch only (equal numbers modulo the number of microsteps).  Missing: that they are those of all pairs of
    the batch, which is false (below). *)
Theorem C72_objective_partial : forall X Y rngs_t (dx : X) (dy : Y) D P img txt s b grad (split : rngs_t -> rngs_t) dc z p images texts r out,
  let batch_logits := batch_logits X Y dx dy D img txt s b in
  (0 < z)%Z -> length images = length texts -> images <> [] ->
  (forall xs ys, length xs = length ys -> xs <> [] -> is_gradient P (fun q => loss_over (length xs) all_pairs (batch_logits xs ys q)) p (grad xs ys p)) ->
  contrastive_step X Y params rngs_t D img txt s b grad split dc (Some z) p images texts r = Ok out ->
  let loss q := loss_over (length images) (same_microbatch (Z.to_nat z)) (batch_logits images texts q) in
  snd (snd out) = [loss p; loss p] /\ is_gradient P loss p (fst out).
Proof. exact (fun X Y rngs_t dx dy D P img txt s b grad split dc z p images texts r out => micro_objective X Y rngs_t dx dy D P img txt s b grad split dc z p images texts r out). Qed.
Print Assumptions C72_objective_partial.
Example C72_objective_example : (exists ms, bias_step (Some 2%Z) (fun _ => 0%R) [tt; tt] [tt; tt] tt = Ok ([(-1 / 2)%R], (tt, ms))) /\
  forall p xs ys, length xs = length ys -> xs <> [] ->
  is_gradient 1 (fun q => loss_over (length xs) all_pairs (batch_logits unit unit tt tt 1 bias_img bias_img (fun _ => 0%R) (fun p => Some (p 0)) xs ys q)) p (bias_grad xs ys p).
Proof. split; [apply bias_step_ok|intros p xs ys; apply bias_gradient]. Qed.

(** C72: without microsteps, they are those of all pairs of the batch. *)
Theorem C72_full : forall X Y rngs_t (dx : X) (dy : Y) D img txt s b grad split dc z p (images : list X) (texts : list Y) (r : rngs_t),
  z = None \/ (exists n, z = Some n /\ (n <= 0)%Z) -> length images = length texts -> images <> [] ->
  let loss q := loss_over (length images) all_pairs (batch_logits X Y dx dy D img txt s b images texts q) in
  contrastive_step X Y params rngs_t D img txt s b grad split dc z p images texts r = Ok (grad images texts p, (split r, [loss p; loss p])).
Proof. exact full_objective. Qed.
Print Assumptions C72_full.
Example C72_full_example : exists out, bias_step None (fun _ => 0%R) [tt; tt] [tt; tt] tt = Ok out /\ fst out = bias_grad [tt; tt] [tt; tt] (fun _ => 0%R).
Proof. eexists. split; [apply (C72_full unit unit unit tt tt); auto; discriminate|reflexivity]. Qed.

(** C72: with two or more microsteps, the loss that is optimised is less than that of the batch, whatever the logits. *)
Theorem C72_less : forall m n l,
  2 <= m -> 2 <= n -> (loss_over n (same_microbatch m) l < loss_over n all_pairs l)%R.
Proof. exact micro_less. Qed.
Print Assumptions C72_less.
Example C72_less_example : loss_over 2 (same_microbatch 2) (fun _ _ => 0%R) = ln 2 /\ loss_over 2 all_pairs (fun _ _ => 0%R) = (2 * ln 2)%R.
Proof. unfold loss_over, sum_to, same_microbatch, all_pairs, logistic. cbn. rewrite Ropp_0, exp_0. replace (1 + 1)%R with 2%R by ring. split; field. Qed.

(** C72: the positive pairs all take part in it. *)
Theorem C72_positives : forall m n l,
  1 <= n -> (sum_to n (fun i => logistic true (l i i)) / INR n <= loss_over n (same_microbatch m) l)%R.
Proof. exact micro_at_least. Qed.
Print Assumptions C72_positives.
Example C72_positives_example : loss_over 1 (same_microbatch 3) (fun _ _ => 0%R) = ln 2.
Proof. unfold loss_over, sum_to, same_microbatch, logistic. cbn. rewrite Ropp_0, exp_0. replace (1 + 1)%R with 2%R by ring. field. Qed.

(** C72: the gradients with microsteps are not those of the batch: here the gradient of the loss of the batch is zero, but
    that of the step with two microsteps is not. *)
Theorem C72_refuted : exists (X Y : Type) (dx : X) (dy : Y) D img txt s b grad (p : params) images texts out,
  (forall xs ys, length xs = length ys -> xs <> [] -> is_gradient 1 (fun q => loss_over (length xs) all_pairs (batch_logits X Y dx dy D img txt s b xs ys q)) p (grad xs ys p)) /\
  length images = length texts /\
  contrastive_step X Y params unit D img txt s b grad (fun r => r) 1 (Some 2%Z) p images texts tt = Ok out /\
  is_gradient 1 (fun q => loss_over (length images) all_pairs (batch_logits X Y dx dy D img txt s b images texts q)) p [0%R] /\
  ~ is_gradient 1 (fun q => loss_over (length images) all_pairs (batch_logits X Y dx dy D img txt s b images texts q)) p (fst out).
Proof. exact micro_refuted. Qed.
Print Assumptions C72_refuted.

(** C73: the zero-shot evaluation writes the accuracy of each task under the name of the task, with the time since the start
    of the evaluation, and the given values that are not None, which take precedence; and nothing else. *)
Theorem C73_zeroshot : forall val (secs : R -> val) (clock : nat -> R) name datasets evaluate kwargs written,
  NoDup datasets ->
  zeroshot_callback val secs clock name datasets evaluate kwargs = Ok written ->
  (forall i task, nth_error datasets i = Some task ->
     exists acc, evaluate task = Ok acc /\
     ((forall v, ~ override kwargs (name ++ chars "/" ++ task ++ chars "/accuracy") v) -> dget written (name ++ chars "/" ++ task ++ chars "/accuracy") = Some acc) /\
     ((forall v, ~ override kwargs (name ++ chars "/" ++ task ++ chars "/duration_secs") v) ->
      dget written (name ++ chars "/" ++ task ++ chars "/duration_secs") = Some (secs (clock (S i) - clock 0%nat)%R))) /\
  (NoDup (map fst kwargs) -> forall k v, override kwargs k v -> dget written k = Some v) /\
  (forall k v, dget written k = Some v -> override kwargs k v \/ exists task, In task datasets /\
     (k = name ++ chars "/" ++ task ++ chars "/accuracy" \/ k = name ++ chars "/" ++ task ++ chars "/duration_secs")).
Proof. exact zeroshot_ok. Qed.
Print Assumptions C73_zeroshot.
Example C73_zeroshot_example : exists written, zeroshot_callback nat (fun _ => 0) INR (chars "zs") [chars "a"; chars "b"] (fun t => Ok (length t)) [(chars "loss", None); (chars "step", Some 7)] = Ok written /\
  dget written (chars "zs/b/accuracy") = Some 1 /\ dget written (chars "loss") = None /\ dget written (chars "step") = Some 7 /\ length written = 5.
Proof. eexists. split; [reflexivity|]. repeat split. Qed.

(** C73: it only fails with an error of the evaluation of a task, and then writes nothing. *)
Theorem C73_zeroshot_error : forall val (secs : R -> val) (clock : nat -> R) name datasets evaluate kwargs e,
  zeroshot_callback val secs clock name datasets evaluate kwargs = Raise e -> exists task, In task datasets /\ evaluate task = Raise e.
Proof. exact zeroshot_error. Qed.
Print Assumptions C73_zeroshot_error.
Example C73_zeroshot_error_example : zeroshot_callback nat (fun _ => 0) INR (chars "zs") [chars "a"] (fun t => Raise KeyError) [] = Raise KeyError.
Proof. reflexivity. Qed.

(** C73: the retrieval evaluation writes all metrics of both directions, each under its own name, and the duration. *)
Theorem C73_retrieval : forall val (secs : R -> val) (clock : nat -> R) name task bv kwargs written,
  NoDup (map fst (fst bv)) -> NoDup (map fst (snd bv)) ->
  retrieval_callback val secs clock name task (Ok bv) kwargs = Ok written ->
  (forall k v, In (k, v) (fst bv) -> (forall v, ~ override kwargs (name ++ chars "/" ++ task ++ chars "/txt2img/" ++ k) v) ->
     dget written (name ++ chars "/" ++ task ++ chars "/txt2img/" ++ k) = Some v) /\
  (forall k v, In (k, v) (snd bv) -> (forall v, ~ override kwargs (name ++ chars "/" ++ task ++ chars "/img2txt/" ++ k) v) ->
     dget written (name ++ chars "/" ++ task ++ chars "/img2txt/" ++ k) = Some v) /\
  ((forall v, ~ override kwargs (name ++ chars "/" ++ task ++ chars "/duration_secs") v) ->
     dget written (name ++ chars "/" ++ task ++ chars "/duration_secs") = Some (secs (clock 1%nat - clock 0%nat)%R)) /\
  (NoDup (map fst kwargs) -> forall k v, override kwargs k v -> dget written k = Some v).
Proof. exact retrieval_ok. Qed.
Print Assumptions C73_retrieval.
Example C73_retrieval_example : exists written, retrieval_callback nat (fun _ => 0) INR (chars "r") (chars "coco") (Ok ([(chars "Recall@1", 1)], [(chars "Recall@1", 2)])) [] = Ok written /\
  dget written (chars "r/coco/txt2img/Recall@1") = Some 1 /\ dget written (chars "r/coco/img2txt/Recall@1") = Some 2 /\ length written = 3.
Proof. eexists. split; [reflexivity|]. repeat split. Qed.

(** C73: both hooks evaluate all given datasets; none if Big Vision is not installed; a sharding without devices is an error if
    there are datasets. *)
Theorem C73_hooks : forall installed has_mesh datasets,
  let l := match datasets with Some l => l | None => [] end in
  create_retrieval_hook installed has_mesh datasets = create_zeroshot_hook installed has_mesh datasets /\
  (installed = true -> has_mesh = true -> create_zeroshot_hook installed has_mesh datasets = Ok l) /\
  (installed = false -> create_zeroshot_hook installed has_mesh datasets = Ok []) /\
  (installed = true -> has_mesh = false -> create_zeroshot_hook installed has_mesh datasets = if length l =? 0 then Ok [] else Raise ValueError).
Proof. exact hooks_ok. Qed.
Print Assumptions C73_hooks.
Example C73_hooks_example : create_retrieval_hook true true (Some [chars "a"; chars "b"]) = Ok [chars "a"; chars "b"] /\ create_retrieval_hook true false (Some [chars "a"]) = Raise ValueError.
Proof. split; reflexivity. Qed.

(** C73: the duration that is written for a task is not the time that its evaluation took: it includes the tasks before. *)
Theorem C73_durations_refuted : exists (clock : nat -> R) (name : str) (datasets : list str) (evaluate : str -> res R) written i task,
  NoDup datasets /\ (forall i j, i < j -> (clock i < clock j)%R) /\
  zeroshot_callback R (fun x => x) clock name datasets evaluate [] = Ok written /\ nth_error datasets i = Some task /\
  exists d, dget written (name ++ chars "/" ++ task ++ chars "/duration_secs") = Some d /\ (d > clock (S i) - clock i)%R.
Proof. exact durations_refuted. Qed.
Print Assumptions C73_durations_refuted.

