(** C46: ensemble routing. *)
From Coq Require Import List Arith Bool Reals Lia Lra.
From Verif Require Import Prim MoeModel MoeSpec SoftModel SoftSpec TreeModel EvalModel AuxModel EnsModel EnsSpec EnsProofs.
From Verif Require Import Py.
Import ListNotations.
Local Open Scope nat_scope.

(** C46: grouping and back is the identity. *)
Theorem C46_roundtrip : forall (V : Type) B M T Sz (x : nat -> nat -> V) G,
  1 <= M -> 1 <= Sz -> 1 <= T -> G * Sz = B * T * M ->
  exists y z, reshape_to (B * M) T Sz M x = Ok (G, y) /\ reshape_from G Sz T M y = Ok (B * M, z) /\
    forall r t, r < B * M -> t < T -> z r t = x r t.
Proof. exact @reshape_roundtrip. Qed.
Print Assumptions C46_roundtrip.
Example C46_roundtrip_example : exists y, reshape_to 4 3 6 2 (fun r t => (r, t)) = Ok (2, y) /\
  map (fun g => map (y g) (seq 0 6)) [0; 1] = [[(0, 0); (1, 0); (0, 1); (1, 1); (0, 2); (1, 2)]; [(2, 0); (3, 0); (2, 1); (3, 1); (2, 2); (3, 2)]].
Proof. eexists. split; [reflexivity|]. vm_compute. reflexivity. Qed.

(** C46: where the token t of image b for member m (row b*M+m) is in the groups. *)
Theorem C46_grouping : forall (V : Type) B M T Sz (x : nat -> nat -> V) G,
  1 <= M -> 1 <= Sz -> G * Sz = B * T * M ->
  exists y, reshape_to (B * M) T Sz M x = Ok (G, y) /\
    forall g s b m t, t < T -> m < M -> placed Sz T M g s b m t -> y g s = x (b * M + m) t.
Proof. exact @reshape_to_ok. Qed.
Print Assumptions C46_grouping.

(** C46: the members alternate within a group: item s belongs to member s mod M. *)
Theorem C46_member_position : forall Sz T M g s b m t,
  1 <= M -> Sz mod M = 0 -> m < M -> placed Sz T M g s b m t -> s mod M = m.
Proof. exact placed_member. Qed.
Print Assumptions C46_member_position.
Example C46_member_position_example : placed 6 3 2 1 3 1 1 1.
Proof. reflexivity. Qed.

(** C46: the gates of each item: the softmax over the experts of its member of the logits of the
    member's dense layer, with noise unless the router is deterministic or without noise. *)
Theorem C46_gates : forall cdf M E K det std gw iw lw dense normal G Sz inputs,
  1 <= M -> E mod M = 0 -> Sz mod M = 0 -> 1 <= K -> K <= E / M ->
  exists gates ms, ensemble_gates cdf M E K det std gw iw lw dense normal G Sz inputs = Ok (gates, ms) /\ length ms = M /\
    forall g s e, s < Sz -> e < E ->
      gates g s e = if member_of E M e =? s mod M
                    then softmax (E / M) (member_logits M E (quiet det std) std (dense (s mod M)) (inputs g s) (normal (s mod M) g (s / M))) (e mod (E / M))
                    else 0%R.
Proof. exact gates_ok. Qed.
Print Assumptions C46_gates.

(** C46: items of a member have positive gates, with sum one, for its experts and zero gates for all
    others, so that they are only sent to experts of this member.  [best_choices] are the experts
    selected by the dispatchers (C01). *)
Theorem C46_routing : forall (cdf : R -> R) (M E K : nat) (det : bool) (std gw iw lw : R),
  1 <= M -> E mod M = 0 -> 1 <= K -> K <= E / M ->
  forall dense normal G Sz inputs gates ms, Sz mod M = 0 ->
  ensemble_gates cdf M E K det std gw iw lw dense normal G Sz inputs = Ok (gates, ms) ->
  forall g s, s < Sz ->
    (forall e, e < E -> member_of E M e = s mod M -> (0 < gates g s e)%R) /\
    (forall e, e < E -> member_of E M e <> s mod M -> gates g s e = 0%R) /\
    sum_to (E / M) (fun j => gates g s (s mod M * (E / M) + j)) = 1%R /\
    (forall ch, @best_choices Ralg E K (gates g s) ch -> forall k, k < K -> member_of E M (ch k) = s mod M).
Proof. exact gates_routing. Qed.
Print Assumptions C46_routing.
Example C46_routing_example : exists gates ms,
  ensemble_gates (fun _ => 0%R) 2 4 1 true 0%R 0%R 0%R 0%R (fun m x e => (x 0%nat * INR (m + e))%R) (fun _ _ _ _ => 0%R) 1 2 (fun _ s _ => INR s) = Ok (gates, ms).
Proof.
  destruct (C46_gates (fun _ => 0%R) 2 4 1 true 0%R 0%R 0%R 0%R (fun m x e => (x 0%nat * INR (m + e))%R) (fun _ _ _ _ => 0%R) 1 2 (fun _ s _ => INR s)) as (gt & ms & A & _); simpl; eauto.
Qed.

(** The router raises ValueError exactly when the ensemble size does not divide the number of experts
    and the group size, or the number of selected experts is not between 1 and E/M. *)
Theorem C46_errors : forall cdf M E K det std gw iw lw dense normal G Sz inputs,
  ensemble_gates cdf M E K det std gw iw lw dense normal G Sz inputs = Raise ValueError <-> ~ (1 <= M /\ E mod M = 0 /\ Sz mod M = 0 /\ 1 <= K /\ K <= E / M).
Proof. exact gates_errors. Qed.
Print Assumptions C46_errors.

(** C46: the layer succeeds, and the output for token t of image b for member m is that of a MoE layer
    (C06) at its place in the groups. *)
Theorem C46_layer : forall (cdf : R -> R) (M E K : nat) (det : bool) (std gw iw lw : R),
  1 <= M -> E mod M = 0 -> 1 <= K -> K <= E / M ->
  forall (B T Sz C G : nat) (bp : bool), 1 <= T -> 1 <= Sz -> Sz mod M = 0 -> G * Sz = B * T * M ->
  forall dense normal experts x, exists y gates ms out,
  reshape_to (B * M) T Sz M x = Ok (G, y) /\ ensemble_gates cdf M E K det std gw iw lw dense normal G Sz y = Ok (gates, ms) /\
  ensemble_layer cdf M E K det std gw iw lw dense normal (B * M) T Sz C bp experts x = Ok (B * M, out, ms) /\ length ms = M /\
  (forall g s b m t, t < T -> m < M -> placed Sz T M g s b m t -> y g s = x (b * M + m) t) /\
  forall ch, (forall g s, s < Sz -> @best_choices Ralg E K (gates g s) (ch g s)) ->
  forall g s b m t, g < G -> s < Sz -> t < T -> m < M -> placed Sz T M g s b m t ->
    out (b * M + m) t = @top_experts_output Ralg bp Sz E K C (gates g) (ch g) experts (y g) s.
Proof. exact layer_ok. Qed.
Print Assumptions C46_layer.

(** C46: members do not influence each other.  The outputs of member m do not depend on the tokens,
    the router, the noise or the experts of other members, not even through the capacity. *)
Theorem C46_independent : forall (cdf : R -> R) (M E K : nat) (det : bool) (std gw iw lw : R),
  1 <= M -> E mod M = 0 -> 1 <= K -> K <= E / M ->
  forall (B T Sz C G : nat) (bp : bool), 1 <= T -> 1 <= Sz -> Sz mod M = 0 -> G * Sz = B * T * M ->
  forall dense dense' normal normal' experts experts' x x' m, m < M ->
  (forall v e, dense m v e = dense' m v e) -> (forall g i e, normal m g i e = normal' m g i e) ->
  (forall e v, e < E -> member_of E M e = m -> experts e v = experts' e v) ->
  (forall b t, b < B -> t < T -> x (b * M + m) t = x' (b * M + m) t) ->
  exists out ms out' ms',
    ensemble_layer cdf M E K det std gw iw lw dense normal (B * M) T Sz C bp experts x = Ok (B * M, out, ms) /\
    ensemble_layer cdf M E K det std gw iw lw dense' normal' (B * M) T Sz C bp experts' x' = Ok (B * M, out', ms') /\
    forall b t, b < B -> t < T -> out (b * M + m) t = out' (b * M + m) t.
Proof. exact layer_independent. Qed.
Print Assumptions C46_independent.
Example C46_independent_example : exists out ms out' ms',
  ensemble_layer (fun _ => 0%R) 2 2 1 true 0%R 0%R 0%R 0%R (fun _ x _ => x 0) (fun _ _ _ _ => 0%R) 2 1 2 1 true (fun e x d => (INR e + x d)%R) (fun r _ _ => INR r) = Ok (2, out, ms) /\
  ensemble_layer (fun _ => 0%R) 2 2 1 true 0%R 0%R 0%R 0%R (fun _ x _ => x 0) (fun _ _ _ _ => 0%R) 2 1 2 1 true (fun e x d => x d) (fun r _ _ => 0%R) = Ok (2, out', ms') /\
  out 0 0 = out' 0 0.
Proof.
  destruct (C46_independent (fun _ => 0%R) 2 2 1 true 0%R 0%R 0%R 0%R ltac:(lia) eq_refl ltac:(lia) ltac:(simpl; lia) 1 1 2 1 1 true ltac:(lia) ltac:(lia) eq_refl eq_refl
             (fun _ x _ => x 0) (fun _ x _ => x 0) (fun _ _ _ _ => 0%R) (fun _ _ _ _ => 0%R) (fun e x d => (INR e + x d)%R) (fun e x d => x d) (fun r _ _ => INR r) (fun r _ _ => 0%R) 0)
    as (out & ms & out' & ms' & A & B & C); auto.
  - intros e v He ME. destruct e as [|[|]]; [|discriminate|lia]. apply FunctionalExtensionality.functional_extensionality. intros d. simpl. lra.
  - intros b t Hb Ht. replace b with 0 by lia. reflexivity.
  - exists out, ms, out', ms'. split; [exact A|]. split; [exact B|]. exact (C 0 0 ltac:(lia) ltac:(lia)).
Qed.

(** C46 for the encoder: with layers that treat members separately (as [C46_independent] shows for
    the MoE), the encoded rows of member m are the same for any two encoders that agree on this
    member. *)
Theorem C46_encoder : forall (Y : Type) (moe moe' : nat -> batch Y -> res (batch Y * metrics_t)) (dense : nat -> batch Y -> res (batch Y)) (M m : nat),
  m < M ->
  (forall i x x' y y', same_member M m x x' -> moe i x = Ok y -> moe' i x' = Ok y' -> same_member M m (fst y) (fst y')) ->
  (forall i x x' y y', same_member M m x x' -> dense i x = Ok y -> dense i x' = Ok y' -> same_member M m y y') ->
  forall L layers x y ms y' ms', encoder_ensemble Y moe dense L layers (Some M) x = Ok (y, ms) -> encoder_ensemble Y moe' dense L layers (Some M) x = Ok (y', ms') -> same_member M m y y'.
Proof. exact encoder_local. Qed.
Print Assumptions C46_encoder.

(** C46: the batch is repeated M times exactly once if there is any MoE layer, and not otherwise. *)
Theorem C46_encoder_rows : forall Y moe dense L layers M x y ms,
  (forall i x y, moe i x = Ok y -> fst (fst y) = fst x) -> (forall i x y, dense i x = Ok y -> fst y = fst x) ->
  encoder_ensemble Y moe dense L layers (Some M) x = Ok (y, ms) ->
  fst y = if existsb (fun i => existsb (Nat.eqb i) layers) (seq 0 L) then fst x * M else fst x.
Proof. exact encoder_rows. Qed.
Print Assumptions C46_encoder_rows.
Example C46_encoder_example : exists y ms,
  encoder_ensemble nat (fun i x => Ok (x, [(k_aux, Leaf (Scalar (Some 0%R)))])) (fun i x => Ok x) 4 [1; 3] (Some 2) (3, fun r => 10 + r) = Ok (y, ms) /\
  fst y = 6 /\ map (snd y) (seq 0 6) = [10; 10; 11; 11; 12; 12].
Proof. do 2 eexists. split; [reflexivity|]. split; reflexivity. Qed.

(** C46: with layers that work row by row, row b*M+m of the result is image b encoded by the layers
    of member m. *)
Theorem C46_encoder_values : forall Y moe dense (fm : nat -> nat -> Y -> Y) (fd : nat -> Y -> Y) L layers M x y ms,
  (forall i x y, moe i x = Ok y -> fst (fst y) = fst x /\ forall r, snd (fst y) r = fm i (r mod M) (snd x r)) ->
  (forall i x y, dense i x = Ok y -> fst y = fst x /\ forall r, snd y r = fd i (snd x r)) ->
  encoder_ensemble Y moe dense L layers (Some M) x = Ok (y, ms) ->
  existsb (fun i => existsb (Nat.eqb i) layers) (seq 0 L) = true ->
  forall b m, m < M -> snd y (b * M + m) = fold_left (fun v i => if existsb (Nat.eqb i) layers then fm i m v else fd i v) (seq 0 L) (snd x b).
Proof. exact encoder_values. Qed.
Print Assumptions C46_encoder_values.

(** Positive gates are needed: if the gates of a member underflow to zero, its items can take places
    in the experts of another member. *)
Theorem C46_zero_gates_refuted : exists E M K m (row : nat -> R) ch k, 1 <= M /\ E mod M = 0 /\ K <= E / M /\ m < M /\
  (forall e, e < E -> (0 <= row e)%R) /\ (forall e, e < E -> member_of E M e <> m -> row e = 0%R) /\ sum_to E row = 1%R /\
  @best_choices Ralg E K row ch /\ k < K /\ member_of E M (ch k) <> m.
Proof. exact zero_gates_refuted. Qed.
Print Assumptions C46_zero_gates_refuted.

