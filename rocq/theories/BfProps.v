(** C83: dispatching in bfloat16. *)
From Coq Require Import List Arith ZArith Bool Reals Lia Lra FunctionalExtensionality.
From Verif Require Import Prim MoeModel MoeSpec SoftModel SoftSpec CwModel BfModel BfSpec BfProofs BfProofs2 BfProofs3.
Import ListNotations.
Local Open Scope nat_scope.

(** The conversion returns a bfloat16, the nearest one, the even one of two equally near; so it is
    monotone, exact on bfloat16 numbers, relatively precise to 2^-8 (up to 2^-134 near zero), and
    finite below the number half-way to the power of two after the largest bfloat16. *)
Theorem C83_cast : forall x,
  bf16 (cast x) /\
  (forall r, bf16 r -> (Rabs (cast x - x) <= Rabs (r - x))%R) /\
  (forall r, bf16 r -> r <> cast x -> Rabs (r - x) = Rabs (cast x - x) -> bf16_even (cast x)) /\
  (forall y, (x <= y)%R -> (cast x <= cast y)%R) /\
  (bf16 x -> cast x = x) /\
  (Rabs (cast x - x) <= eta (Rabs x))%R /\
  ((Rabs x < bf16_max + powerRZ 2 119)%R -> (Rabs (cast x) <= bf16_max)%R).
Proof.
  intros x. exact (conj (cast_bf16 x) (conj (cast_nearest x) (conj (cast_tie x) (conj (cast_mono x) (conj (cast_exact x) (conj (cast_error x) (cast_finite x))))))).
Qed.
Print Assumptions C83_cast.
Example C83_cast_example : cast 257 = 256%R /\ cast 259 = 260%R /\ cast 256 = 256%R /\ bf16_even 256 /\ bf16_even 260.
Proof.
  split; [exact cast_257|]. split; [exact cast_259|]. split; [|split].
  - apply cast_exact. exists 1%Z, 8%Z. split; [simpl; lia|]. split; [lia|]. rewrite pw8. lra.
  - exists 1%Z, 8%Z. split; [simpl; lia|]. split; [lia|]. rewrite pw8. lra.
  - exists 65%Z, 2%Z. split; [simpl; lia|]. split; [lia|]. rewrite pw_Z by lia. change (2 ^ 2)%Z with 4%Z. lra.
Qed.

(** Top-experts routing, with either dispatcher: the option changes neither the experts chosen, nor
    which choices get a slot, nor their weights, only the inputs and the outputs of the experts. *)
Theorem C83_top_experts : forall f G S E K C gates bp, 1 <= S -> 1 <= K -> K <= E ->
  exists d i, @einsum_dispatcher_of Ralg S E K C gates bp = Some d /\ @indices_dispatcher_of Ralg S E K gates bp = Some i /\
  forall ch, (forall g s, s < S -> @best_choices Ralg E K (gates g s) (ch g s)) ->
  forall dsp data g s c, (dsp = DEinsum G S E C d \/ dsp = DIndices G S K E C i) -> g < G -> s < S ->
  let layer := fun use_bfloat16 => moe_layer (wrap use_bfloat16 dsp) Floating Floating (fun e buf j => f e (buf j)) data g s c in
  layer true = sum_R K (fun k => (kept_gate bp S E K C (gates g) (ch g) s k * cast (f (ch g s k) (fun j => cast (data g s j)) c))%R) /\
  layer false = sum_R K (fun k => (kept_gate bp S E K C (gates g) (ch g) s k * f (ch g s k) (data g s) c)%R) /\
  (forall D L B, lipschitz E D L f -> (forall j, j < D -> (Rabs (data g s j) <= B)%R) ->
   (Rabs (layer true - layer false) <=
    sum_R K (fun k => Rabs (kept_gate bp S E K C (gates g) (ch g) s k) * (L * eta B + eta (Rabs (f (ch g s k) (fun j => cast (data g s j)) c)))))%R).
Proof. exact top_experts_layers. Qed.
Print Assumptions C83_top_experts.
Example C83_top_experts_example : @best_choices Ralg 2 1 (fun e => INR e) (fun _ => 1) /\
  lipschitz 2 1 2 (fun e v i => if i =? 0 then (INR e * v 0%nat * 2)%R else 0%R) /\
  kept_gate false 1 2 1 1 (fun _ e => INR e) (fun _ _ => 1) 0 0 = 1%R /\ (eta 1 < / 255)%R.
Proof.
  split; [|split; [|split]].
  - split; [intros; lia|]. split; [intros; lia|]. intros i Hi N k Hk. assert (i = 0) by (specialize (N 0 ltac:(lia)); lia). subst i.
    unfold preferred. cbn [sleb Ralg]. destruct (Rle_dec _ _) as [Q|Q]; [|reflexivity]. simpl in Q. lra.
  - intros e u v delta i He H. specialize (H 0 ltac:(lia)). assert (0 <= delta)%R by (pose proof (Rabs_pos (u 0%nat - v 0%nat)); lra).
    destruct (i =? 0).
    + destruct e as [|[|e]]; [| |lia]; cbn [INR].
      * replace (0 * u 0%nat * 2 - 0 * v 0%nat * 2)%R with 0%R by ring. rewrite Rabs_R0. lra.
      * replace (1 * u 0%nat * 2 - 1 * v 0%nat * 2)%R with (2 * (u 0%nat - v 0%nat))%R by ring. rewrite Rabs_mult, (Rabs_right 2) by lra. lra.
    + rewrite Rminus_0_r, Rabs_R0. lra.
  - unfold kept_gate. cbn [INR]. match goal with |- context [?c <? 1] => replace c with 0 by reflexivity end. reflexivity.
  - unfold eta. pose proof (pw_le (-134) (-17) ltac:(lia)).
    assert (E17 : (powerRZ 2 (-17) * 131072 = 1)%R). { replace 131072%R with (powerRZ 2 17) by (rewrite pw_Z by lia; reflexivity). rewrite <- pw_add. reflexivity. }
    assert (E8 : (powerRZ 2 (-8) * 256 = 1)%R). { replace 256%R with (powerRZ 2 8) by (rewrite pw_Z by lia; reflexivity). rewrite <- pw_add. reflexivity. }
    assert (powerRZ 2 (-8) = / 256)%R by lra. assert (powerRZ 2 (-17) = / 131072)%R by lra. rewrite H0. lra.
Qed.

(** The same for top-items routing. *)
Theorem C83_top_items : forall f G S E C gates, 1 <= E -> C <= S ->
  exists d, @top_items_dispatcher_of Ralg S E C gates = Some d /\
  forall ch, (forall g e, e < E -> @best_choices Ralg S C (fun s => gates g s e) (ch g e)) ->
  forall data g s c, g < G -> s < S ->
  let layer := fun use_bfloat16 => moe_layer (wrap use_bfloat16 (DEinsum G S E C d)) Floating Floating (fun e buf j => f e (buf j)) data g s c in
  layer true = sum_R E (fun e => (item_gate C (gates g) (ch g) s e * cast (f e (fun j => cast (data g s j)) c))%R) /\
  layer false = sum_R E (fun e => (item_gate C (gates g) (ch g) s e * f e (data g s) c)%R) /\
  (forall D L B, lipschitz E D L f -> (forall j, j < D -> (Rabs (data g s j) <= B)%R) ->
   (Rabs (layer true - layer false) <=
    sum_R E (fun e => Rabs (item_gate C (gates g) (ch g) s e) * (L * eta B + eta (Rabs (f e (fun j => cast (data g s j)) c)))))%R).
Proof. exact top_items_layers. Qed.
Print Assumptions C83_top_items.
Example C83_top_items_example : item_gate 1 (fun s e => INR (s + e)) (fun e _ => e) 1 1 = 2%R /\ item_gate 1 (fun s e => INR (s + e)) (fun e _ => e) 1 0 = 0%R.
Proof. split; unfold item_gate; simpl; ring. Qed.

(** A Soft MoE layer always dispatches in bfloat16: with the weights of C43, it returns the mixture of
    rounded outputs, on mixtures of rounded items.  Its error does not grow with the number of items,
    experts or slots. *)
Theorem C83_soft : forall f G M D N num_slots capacity_factor deterministic noise_std normal mu scale inputs P d,
  1 <= M -> 1 <= N ->
  soft_router G M D N num_slots capacity_factor deterministic noise_std normal mu scale inputs = Ok (P, d) ->
  (forall k, num_slots = Some k -> (1 <= k)%Z) ->
  exists dw cw,
    (forall g n p, convex M (fun m => dw g m n p)) /\ (forall g m, convex2 N P (fun n p => cw g m n p)) /\
    forall data g m i, g < G ->
    let layer := fun use_bfloat16 => moe_layer (wrap use_bfloat16 (DEinsum G M N P d)) Floating Floating (fun e buf j => f e (buf j)) data g m i in
    layer true = sum_to N (fun n => sum_to P (fun p => (cw g m n p * cast (f n (fun j => sum_to M (fun m' => (dw g m' n p * cast (data g m' j))%R)) i))%R)) /\
    layer false = sum_to N (fun n => sum_to P (fun p => (cw g m n p * f n (fun j => sum_to M (fun m' => (dw g m' n p * data g m' j)%R)) i)%R)) /\
    (forall L B H, lipschitz N D L f -> (forall m j, m < M -> j < D -> (Rabs (data g m j) <= B)%R) ->
     (forall n v, n < N -> (forall j, j < D -> (Rabs (v j) <= B + eta B)%R) -> (Rabs (f n v i) <= H)%R) ->
     (Rabs (layer true - layer false) <= L * eta B + eta H)%R).
Proof. exact soft_layers. Qed.
Print Assumptions C83_soft.
Example C83_soft_example : exists d, soft_router 1 2 1 2 (Some 3%Z) None true 0 (fun _ _ _ _ => 0%R) (fun _ _ _ _ => 1%R) 1 (fun _ _ _ => 1%R) = Ok (3, d).
Proof. eexists. reflexivity. Qed.

(** When the inputs and the outputs of the experts are bfloat16 numbers already, the option changes
    nothing, whatever the dispatcher; so wrapping twice is wrapping once. *)
Theorem C83_exact : forall d F data,
  ((forall g s i, bf16 (data g s i)) -> (forall e buf j i, bf16 (F e buf j i)) ->
   moe_layer (wrap true d) Floating Floating F data = moe_layer (wrap false d) Floating Floating F data) /\
  moe_layer (wrap true (wrap true d)) Floating Floating F data = moe_layer (wrap true d) Floating Floating F data /\
  (match d with DBfloat16 _ => False | _ => True end -> forall tin tout, moe_layer (wrap false d) tin tout F data = @CwModel.layer Ralg d F data).
Proof. intros d F data. exact (conj (exact_layer d F data) (conj (twice_layer d F data) (fun H tin tout => plain_layer d tin tout F data H))). Qed.
Print Assumptions C83_exact.
Example C83_exact_example : bf16 (3 / 2)%R /\ bf16 0%R.
Proof. split; [exists 3%Z, (-1)%Z|exists 0%Z, 0%Z]; (split; [simpl; lia|]; split; [lia|]); [|lra]. replace (powerRZ 2 (-1)) with (1 / 2)%R; [lra|]. unfold powerRZ. change (Pos.to_nat 1) with 1. rewrite pow_1. lra. Qed.

(** Otherwise results do differ: an item 257 through an expert that copies it comes out as 256. *)
Theorem C83_same_refuted : exists d F data,
  moe_layer (wrap true d) Floating Floating F data 0 0 0 = 256%R /\ moe_layer (wrap false d) Floating Floating F data 0 0 0 = 257%R.
Proof.
  exists (one 1), (fun _ b => b), (fun _ _ _ => 257%R). split.
  - rewrite wrapped_layer.
    unfold moe_layer, sparse_moe, one. cbn [do_dispatch do_combine]. unfold einsum_do_combine, einsum_do_dispatch, receive_a2a, dispatch_a2a, ravel4, ravel3, ravel2, unravel4, unravel3, unravel2, swap02. cbn.
    rewrite cast_257. replace (0 + 1 * 256)%R with 256%R by ring. rewrite (cast_exact 256); [ring|]. exists 1%Z, 8%Z. split; [simpl; lia|]. split; [lia|]. rewrite pw8. lra.
  - unfold wrap. rewrite one_layer by auto. ring.
Qed.
Print Assumptions C83_same_refuted.

(** Arrays of integers are not converted, but what [combine] returns is: the wrapped dispatcher
    truncates, towards zero, what the dispatcher itself returns as floating point numbers. *)
Theorem C83_integers : forall d h g s i,
  exists z, do_combine (wrap true d) Integer h g s i = IZR z /\ towards_zero (do_combine d Integer h g s i) z.
Proof. exact integer_combine. Qed.
Print Assumptions C83_integers.
Theorem C83_integers_refuted : exists d F data,
  moe_layer (wrap true d) Integer Integer F data 0 0 0 = 0%R /\ moe_layer (wrap false d) Integer Integer F data 0 0 0 = (1 / 2)%R.
Proof.
  exists (one (1 / 2)), (fun _ b => b), (fun _ _ _ => 1%R). split.
  - unfold moe_layer, sparse_moe, one, wrap. cbn [do_dispatch do_combine]. unfold data_astype, data_cast, einsum_do_combine, einsum_do_dispatch, receive_a2a, dispatch_a2a, ravel4, ravel3, ravel2, unravel4, unravel3, unravel2, swap02. cbn.
    destruct (Rle_dec 0 (0 + 1 * 1)) as [A|A]; [|lra]. rewrite (ip_unique (0 + 1 * 1) 1) by lra.
    destruct (Rle_dec _ _) as [B|B]; [|exfalso; lra]. rewrite (ip_unique _ 0) by lra. reflexivity.
  - unfold wrap. rewrite one_layer by auto. ring.
Qed.
Print Assumptions C83_integers_refuted.
