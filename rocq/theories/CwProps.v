(** C45: the extracted combine weights. *)
From Coq Require Import List Arith ZArith Bool Lia.
From Verif Require Import Prim MoeModel MoeSpec MoeProofs MoeProps CwModel CwSpec CwProofs.
From Verif Require Import Py.
Import ListNotations.
Local Open Scope nat_scope.

(** C45 for the einsum dispatcher of the router that selects experts for items: the weights reported
    for item s of group g (row g*S+s) are those with which the layer combines the outputs of the
    experts, whatever the capacity. *)
Theorem C45_einsum_partial : forall (A : alg), alg_laws A -> forall sadd, sum_laws A sadd ->
  forall G S E K C (gates : nat -> nat -> nat -> sc A) bp, 1 <= S -> 1 <= K -> K <= E ->
  exists d w, einsum_dispatcher_of S E K C gates bp = Some d /\
    combine_weights_of sadd (DEinsum G S E C d) = Ok (G * S, E, w) /\
    describes G S E (layer (DEinsum G S E C d)) (fun g s => w (g * S + s)).
Proof. intros A L sadd SL. exact (cw_einsum L sadd SL). Qed.
Print Assumptions C45_einsum_partial.
Example C45_einsum_example : exists d w,
  einsum_dispatcher_of (A := Zalg) 4 3 2 1 (fun g => ex_gates) true = Some d /\
  combine_weights_of (A := Zalg) Z.add (DEinsum 1 4 3 1 d) = Ok (4, 3, w) /\
  map (fun n => map (w n) [0; 1; 2]) [0; 1; 2; 3] = [[0; 0; 0]; [4; 0; 0]; [0; 9; 0]; [0; 0; 7]]%Z.
Proof. do 2 eexists. split; [reflexivity|]. split; [reflexivity|]. vm_compute. reflexivity. Qed.

(** C45 for the router that selects items for experts *)
Theorem C45_top_items_partial : forall (A : alg), alg_laws A -> forall sadd, sum_laws A sadd ->
  forall G S E C (gates : nat -> nat -> nat -> sc A), 1 <= E -> C <= S ->
  exists d w, top_items_dispatcher_of S E C gates = Some d /\
    combine_weights_of sadd (DEinsum G S E C d) = Ok (G * S, E, w) /\
    describes G S E (layer (DEinsum G S E C d)) (fun g s => w (g * S + s)).
Proof. intros A L sadd SL. exact (cw_top_items L sadd SL). Qed.
Print Assumptions C45_top_items_partial.
Example C45_top_items_example : exists d w,
  top_items_dispatcher_of (A := Zalg) 4 3 2 (fun g => ex_gates) = Some d /\
  combine_weights_of (A := Zalg) Z.add (DEinsum 1 4 3 2 d) = Ok (4, 3, w) /\
  map (fun n => map (w n) [0; 1; 2]) [0; 1; 2; 3] = [[3; 0; 0]; [4; 0; 0]; [0; 9; 9]; [0; 6; 7]]%Z.
Proof. do 2 eexists. split; [reflexivity|]. split; [reflexivity|]. vm_compute. reflexivity. Qed.

(** C45 for the indices dispatcher when no choice is beyond the capacity.  Missing: dropped
    choices, see [C45_refuted]. *)
Theorem C45_indices_partial : forall (A : alg), alg_laws A -> forall sadd, sum_laws A sadd ->
  forall G S E K C (gates : nat -> nat -> nat -> sc A) bp, 1 <= S -> 1 <= K -> K <= E ->
  forall ch, (forall g s, s < S -> best_choices E K (gates g s) (ch g s)) ->
  (forall g s k, g < G -> s < S -> k < K -> competitors bp S E K (gates g) (ch g) s k < C) ->
  exists d w, indices_dispatcher_of S E K gates bp = Some d /\
    combine_weights_of sadd (DIndices G S K E C d) = Ok (G * S, E, w) /\
    describes G S E (layer (DIndices G S K E C d)) (fun g s => w (g * S + s)).
Proof. intros A L sadd SL. exact (cw_indices L sadd SL). Qed.
Print Assumptions C45_indices_partial.

(** What the indices dispatcher reports in all cases: the gates of the chosen experts, used or
    not. *)
Theorem C45_indices_value : forall (A : alg), alg_laws A -> forall sadd, sum_laws A sadd ->
  forall G S E K C (gates : nat -> nat -> nat -> sc A) bp, 1 <= S -> 1 <= K -> K <= E ->
  exists d w, indices_dispatcher_of S E K gates bp = Some d /\
    combine_weights_of sadd (DIndices G S K E C d) = Ok (G * S, E, w) /\
    forall ch, (forall g s, s < S -> best_choices E K (gates g s) (ch g s)) -> forall g s e, s < S ->
      w (g * S + s) e = if existsb (fun k => ch g s k =? e) (seq 0 K) then gates g s e else szero A.
Proof. intros A L sadd SL. exact (cw_indices_value L sadd SL). Qed.
Print Assumptions C45_indices_value.
Example C45_indices_example : exists d w,
  indices_dispatcher_of (A := Zalg) 4 3 2 (fun g => ex_gates) true = Some d /\
  combine_weights_of (A := Zalg) Z.add (DIndices 1 4 2 3 1 d) = Ok (4, 3, w) /\
  map (fun n => map (w n) [0; 1; 2]) [0; 1; 2; 3] = [[3; 5; 0]; [4; 4; 0]; [0; 9; 9]; [0; 6; 7]]%Z.
Proof. do 2 eexists. split; [reflexivity|]. split; [reflexivity|]. vm_compute. reflexivity. Qed.

(** C45 does not hold: with the indices dispatcher and a choice beyond the capacity the reported
    weight is not the one that was used. *)
Theorem C45_refuted : exists G S E K C gates d w,
  1 <= S /\ 1 <= K /\ K <= E /\ indices_dispatcher_of (A := Zalg) S E K gates false = Some d /\
  combine_weights_of (A := Zalg) Z.add (DIndices G S K E C d) = Ok (G * S, E, w) /\
  ~ describes (A := Zalg) G S E (layer (DIndices G S K E C d)) (fun g s => w (g * S + s)).
Proof. exact indices_refuted. Qed.
Print Assumptions C45_refuted.

(** [describes] determines the weights. *)
Theorem C45_weights_determined : forall (A : alg), alg_laws A -> forall G S E run w w',
  describes (A := A) G S E run w -> describes G S E run w' ->
  forall g s e x, g < G -> s < S -> e < E -> vscale A (w g s e) x = vscale A (w' g s e) x.
Proof. intros A L. exact (describes_unique L). Qed.
Print Assumptions C45_weights_determined.

(** The whole function: one matrix for each layer, under its key and in order; a dispatcher of
    another class (also within two bfloat16 wrappers) is an error; no layers, no weights. *)
Theorem C45_all_layers : forall (A : alg) sadd (K : Type) (l : list (K * dispatcher A)),
  (Forall (fun kv => supported (snd kv) = true) l ->
   exists out, get_combine_weights sadd (Some l) = Ok out /\
     Forall2 (fun kv r => fst r = fst kv /\ combine_weights_of sadd (snd kv) = Ok (snd r)) l out) /\
  (Exists (fun kv => supported (snd kv) = false) l -> get_combine_weights sadd (Some l) = Raise TypeError) /\
  @get_combine_weights A sadd K None = Ok [].
Proof. intros A sadd K l. exact (conj (get_ok sadd l) (conj (get_fails sadd l) eq_refl)). Qed.
Print Assumptions C45_all_layers.
Example C45_all_layers_example : forall d, supported (A := Zalg) (DBfloat16 (DEinsum 1 1 1 1 d)) = true /\
  supported (A := Zalg) (DDense (A := Zalg) 1 1 1 (fun _ _ _ => 0%Z)) = false.
Proof. auto. Qed.

(** With T tokens per image, row b*T+t is for token t of image b. *)
Theorem C45_images : forall (A : alg) T E w B, 1 <= B ->
  exists r, per_image (A := A) B (T * B, E, w) = Ok r /\ fst r = T /\ forall b t e, snd r b t e = w (b * T + t) e.
Proof. exact @per_image_ok. Qed.
Print Assumptions C45_images.
