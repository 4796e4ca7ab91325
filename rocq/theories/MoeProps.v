(** Property theorems C01-C11 (MoE routing). *)
From Coq Require Import List Arith ZArith Bool Lia QArith Qround.
From Verif Require Import Prim MoeModel MoeSpec MoeProofs.
Import ListNotations.
Local Open Scope nat_scope.

(** Gate matrices used in the examples (ties, contention for expert 1). *)
Definition ex_gates (s e : nat) : Z :=
  nth e (nth s [[3; 5; 1]; [4; 4; 2]; [1; 9; 9]; [0; 6; 7]]%Z []) 0%Z.
Definition ex_data (g s : nat) : Z := Z.of_nat (10 * g + s + 1).
Definition ex_expert (e : nat) (x : Z) : Z := (x * Z.of_nat (e + 2))%Z.

(** C01 *)
Theorem C01_top_experts_choice :
  forall (A : alg), alg_laws A ->
  forall S E K (gates : nat -> nat -> sc A) bp, 1 <= S -> 1 <= K ->
  (K <= E ->
    exists t, top_experts_common S E K gates bp = Some t /\
      forall s, s < S ->
        best_choices E K (gates s) (te_expert t s) /\
        (forall k k', k < K -> k' < K -> te_expert t s k = te_expert t s k' -> k = k') /\
        (forall k, k < K -> te_combine t s k = gates s (te_expert t s k))) /\
  (E < K -> top_experts_common S E K gates bp = None).
Proof.
  intros A L S E K gates bp HS HK. split.
  - exact (experts_are_best L S E K gates bp HS HK).
  - exact (common_fails S E K gates bp).
Qed.
Print Assumptions C01_top_experts_choice.

Example C01_example : exists t, top_experts_common (A := Zalg) 4 3 2 ex_gates true = Some t /\
  map (fun s => map (te_expert t s) [0; 1]) [0; 1; 2; 3] = [[1; 0]; [0; 1]; [1; 2]; [2; 1]].
Proof. eexists. split; [reflexivity|]. vm_compute. reflexivity. Qed.

(** C02.  [ch] is any choice function meeting the specification of C01 (it exists and is
    unique on the valid indices). *)
Theorem C02_buffer_slot_is_number_of_competitors :
  forall (A : alg), alg_laws A ->
  forall S E K C (gates : nat -> nat -> sc A) bp, 1 <= S -> 1 <= K -> K <= E ->
  (exists dw cw, top_experts_einsum S E K C gates bp = Some (dw, cw) /\
    forall ch, (forall s, s < S -> best_choices E K (gates s) (ch s)) ->
    forall s e c, s < S ->
      dw s e c = b2s A (existsb (fun k => (ch s k =? e)
                   && (competitors bp S E K gates ch s k =? c)) (seq 0 K)) /\
      cw s e c = smul A (gates s e) (dw s e c)) /\
  (exists ie ib w, top_experts_indices S E K gates bp = Some (ie, ib, w) /\
    forall ch, (forall s, s < S -> best_choices E K (gates s) (ch s)) ->
    forall s k, s < S -> k < K ->
      ie s k = ch s k /\ ib s k = Z.of_nat (competitors bp S E K gates ch s k) /\
      w s k = gates s (ch s k)).
Proof.
  intros A L S E K C gates bp HS HK HE. split.
  - exact (einsum_weights L S E K C gates bp HS HK HE).
  - exact (indices_weights L S E K gates bp HS HK HE).
Qed.
Print Assumptions C02_buffer_slot_is_number_of_competitors.

(** With batch priority item 2 (largest gate 9) goes first, then 3, 0, 1. *)
Example C02_example : exists ie ib w,
  top_experts_indices (A := Zalg) 4 3 2 ex_gates true = Some (ie, ib, w) /\
  map (fun s => map (ib s) [0; 1]) [0; 1; 2; 3] = [[1; 1]; [0; 3]; [0; 1]; [0; 2]]%Z.
Proof. do 3 eexists. split; [reflexivity|]. vm_compute. reflexivity. Qed.

(** C03 *)
Theorem C03_einsum_slots_exclusive_and_bounded :
  forall (A : alg), alg_laws A ->
  forall S E K C (gates : nat -> nat -> sc A) bp dw cw,
  1 <= S -> 1 <= K -> K <= E ->
  top_experts_einsum S E K C gates bp = Some (dw, cw) ->
  (forall s s' e c, s < S -> s' < S -> dw s e c <> szero A -> dw s' e c <> szero A -> s = s') /\
  (forall s e c c', s < S -> dw s e c <> szero A -> dw s e c' <> szero A -> c = c') /\
  (forall e (l : list nat), NoDup l ->
     (forall s, In s l -> s < S /\ exists c, c < C /\ dw s e c <> szero A) -> length l <= C) /\
  (forall s (l : list nat), s < S -> NoDup l ->
     (forall e, In e l -> exists c, dw s e c <> szero A) -> length l <= K) /\
  (forall s e c c', s < S -> dw s e c <> szero A -> c' < c ->
     exists s', s' < S /\ dw s' e c' = sone A) /\
  (forall s e c, s < S -> cw s e c = szero A \/ (dw s e c = sone A /\ cw s e c = gates s e)).
Proof. intros A L. exact (einsum_slots L). Qed.
Print Assumptions C03_einsum_slots_exclusive_and_bounded.

Theorem C03_indices_slots_exclusive :
  forall (A : alg), alg_laws A ->
  forall S E K (gates : nat -> nat -> sc A) bp ie ib w,
  1 <= S -> 1 <= K -> K <= E ->
  top_experts_indices S E K gates bp = Some (ie, ib, w) ->
  (forall s k s' k', s < S -> k < K -> s' < S -> k' < K ->
     ie s k = ie s' k' -> ib s k = ib s' k' -> s = s' /\ k = k') /\
  (forall s k k', s < S -> k < K -> k' < K -> ie s k = ie s k' -> k = k') /\
  (forall s k, s < S -> k < K -> ie s k < E /\ (0 <= ib s k)%Z /\ w s k = gates s (ie s k)) /\
  (forall s k n, s < S -> k < K -> (0 <= n < ib s k)%Z ->
     exists s' k', s' < S /\ k' < K /\ ie s' k' = ie s k /\ ib s' k' = n).
Proof. intros A L. exact (indices_slots L). Qed.
Print Assumptions C03_indices_slots_exclusive.

Example C03_example : exists dw cw,
  top_experts_einsum (A := Zalg) 4 3 2 2 ex_gates false = Some (dw, cw) /\
  map (fun s => map (fun e => map (dw s e) [0; 1]) [0; 1; 2]) [0; 1; 2; 3]
  = [[[0; 1]; [1; 0]; [0; 0]]; [[1; 0]; [0; 0]; [0; 0]];
     [[0; 0]; [0; 1]; [0; 1]]; [[0; 0]; [0; 0]; [1; 0]]]%Z.
Proof. do 2 eexists. split; [reflexivity|]. vm_compute. reflexivity. Qed.

(** C04 *)
Theorem C04_dispatchers_interchangeable :
  forall (A : alg), alg_laws A ->
  forall G S E K C (gates : nat -> nat -> nat -> sc A) bp,
  1 <= S -> 1 <= K -> K <= E ->
  exists d i, einsum_dispatcher_of S E K C gates bp = Some d /\
    indices_dispatcher_of S E K gates bp = Some i /\
    (forall data e j, e < E -> j < G * C ->
       einsum_do_dispatch G S E C d data e j = indices_do_dispatch G S K E C i data e j) /\
    (forall h g s, g < G -> s < S ->
       einsum_do_combine G S E C (G * C) d h g s = indices_do_combine G S K E C (G * C) i h g s).
Proof. intros A L. exact (dispatchers_agree L). Qed.
Print Assumptions C04_dispatchers_interchangeable.

Example C04_example : exists d i,
  einsum_dispatcher_of (A := Zalg) 4 3 2 2 (fun g s e => ex_gates (s + g) e) true = Some d /\
  indices_dispatcher_of (A := Zalg) 4 3 2 (fun g s e => ex_gates (s + g) e) true = Some i /\
  map (fun e => map (einsum_do_dispatch 2 4 3 2 d ex_data e) (seq 0 4)) [0; 1; 2]
  = [[2; 1; 11; 14]; [3; 1; 12; 13]; [4; 3; 13; 12]]%Z.
Proof. do 2 eexists. split; [reflexivity|]. split; [reflexivity|]. vm_compute. reflexivity. Qed.

(** C05 *)
Theorem C05_reordering_lossless :
  forall G E C, 1 <= E ->
  exists pos inv : nat -> nat,
    (forall g, g < G -> pos g < G /\ inv (pos g) = g) /\
    (forall j, j < G -> inv j < G /\ pos (inv j) = j) /\
    forall (T : Type),
      (forall (f : nat -> nat -> nat -> T) g e c, g < G -> e < E -> c < C ->
         dispatch_a2a G E C f e (pos g * C + c) = f g e c) /\
      (forall (h : nat -> nat -> T) g e c, g < G -> e < E -> c < C ->
         receive_a2a E G (G * C) h g e c = h e (pos g * C + c)) /\
      (forall (f : nat -> nat -> nat -> T) g e c, g < G -> e < E -> c < C ->
         receive_a2a E G (G * C) (dispatch_a2a G E C f) g e c = f g e c) /\
      (forall (h : nat -> nat -> T) e j, e < E -> j < G * C ->
         dispatch_a2a G E C (receive_a2a E G (G * C) h) e j = h e j).
Proof. exact a2a_layout. Qed.
Print Assumptions C05_reordering_lossless.

(** Both branches: 4 groups, 2 experts; 3 groups, 2 experts. *)
Example C05_example :
  map (fun e => map (dispatch_a2a 4 2 1 (fun g e c => (g, e)) e) (seq 0 4)) [0; 1]
    = [[(0, 0); (2, 0); (1, 0); (3, 0)]; [(0, 1); (2, 1); (1, 1); (3, 1)]] /\
  map (fun e => map (dispatch_a2a 3 2 1 (fun g e c => (g, e)) e) (seq 0 3)) [0; 1]
    = [[(0, 0); (1, 0); (2, 0)]; [(0, 1); (1, 1); (2, 1)]].
Proof. split; vm_compute; reflexivity. Qed.

(** C06 *)
Theorem C06_layer_semantics :
  forall (A : alg), alg_laws A ->
  forall G S E K C (gates : nat -> nat -> nat -> sc A) bp,
  1 <= S -> 1 <= K -> K <= E ->
  exists d i, einsum_dispatcher_of S E K C gates bp = Some d /\
    indices_dispatcher_of S E K gates bp = Some i /\
    forall ch, (forall g s, s < S -> best_choices E K (gates g s) (ch g s)) ->
    forall (f : nat -> vec A -> vec A) (F : nat -> (nat -> vec A) -> nat -> vec A),
    (forall e buf j, F e buf j = f e (buf j)) ->
    forall data g s, g < G -> s < S ->
      sparse_moe (einsum_do_dispatch G S E C d) (einsum_do_combine G S E C (G * C) d) F data g s
        = top_experts_output bp S E K C (gates g) (ch g) f (data g) s /\
      sparse_moe (indices_do_dispatch G S K E C i) (indices_do_combine G S K E C (G * C) i) F data g s
        = top_experts_output bp S E K C (gates g) (ch g) f (data g) s.
Proof.
  intros A L G S E K C gates bp HS HK HE.
  destruct (einsum_dispatcher_spec L S E K C gates bp HS HK HE) as (d & Hd & _).
  destruct (indices_dispatcher_spec L S E K gates bp HS HK HE) as (i & Hi & _).
  exists d, i. split; [exact Hd|]. split; [exact Hi|].
  intros ch Hch f F HF data g s Hg Hs. split.
  - exact (einsum_layer L G S E K C gates bp HS HK HE ch Hch f F HF d data g s Hd Hg Hs).
  - exact (indices_layer L G S E K C gates bp HS HK HE ch Hch f F HF i data g s Hi Hg Hs).
Qed.
Print Assumptions C06_layer_semantics.

Example C06_example : exists d,
  einsum_dispatcher_of (A := Zalg) 4 3 2 2 (fun g s e => ex_gates (s + g) e) true = Some d /\
  map (fun g => map (sparse_moe (A := Zalg) (einsum_do_dispatch 2 4 3 2 d)
    (einsum_do_combine 2 4 3 2 4 d) (fun e buf j => ex_expert e (buf j)) ex_data g) (seq 0 4)) [0; 1]
  = [[21; 16; 189; 112]; [88; 756; 598; 0]]%Z.
Proof. eexists. split; [reflexivity|]. vm_compute. reflexivity. Qed.

(** C07 *)
Theorem C07_top_items :
  forall (A : alg), alg_laws A ->
  forall G S E C (gates : nat -> nat -> nat -> sc A), 1 <= E ->
  (S < C -> top_items_dispatcher_of S E C gates = None) /\
  (C <= S ->
   (exists ch, forall g e, e < E -> best_choices S C (fun s => gates g s e) (ch g e)) /\
   exists d dw, top_items_dispatcher_of S E C gates = Some d /\ ed_dispatch d = Some dw /\
   forall ch, (forall g e, e < E -> best_choices S C (fun s => gates g s e) (ch g e)) ->
     (forall g s e c, e < E -> c < C ->
        dw g s e c = b2s A (ch g e c =? s) /\
        ed_combine d g s e c = smul A (gates g s e) (b2s A (ch g e c =? s))) /\
     (forall g e c c', e < E -> c < C -> c' < C -> ch g e c = ch g e c' -> c = c') /\
     (forall (f : nat -> vec A -> vec A) (F : nat -> (nat -> vec A) -> nat -> vec A),
      (forall e buf j, F e buf j = f e (buf j)) ->
      forall data g s, g < G -> s < S ->
        sparse_moe (einsum_do_dispatch G S E C d) (einsum_do_combine G S E C (G * C) d) F data g s
        = top_items_output E C (gates g) (ch g) f (data g) s)).
Proof. intros A L. exact (top_items_full L). Qed.
Print Assumptions C07_top_items.

Example C07_example : exists d,
  top_items_dispatcher_of (A := Zalg) 4 3 2 (fun g => ex_gates) = Some d /\
  map (sparse_moe (A := Zalg) (einsum_do_dispatch 1 4 3 2 d) (einsum_do_combine 1 4 3 2 2 d)
         (fun e buf j => ex_expert e (buf j)) ex_data 0) (seq 0 4) = [6; 16; 189; 184]%Z.
Proof. eexists. split; [reflexivity|]. vm_compute. reflexivity. Qed.

(** C08 *)
Theorem C08_top_items_metrics :
  forall (A : alg), alg_laws A ->
  forall S E C (gates : nat -> nat -> sc A) (ch : nat -> nat -> nat),
  C <= S -> 1 <= S -> 1 <= E ->
  (forall e, e < E -> best_choices S C (fun s => gates s e) (ch e)) ->
  forall t, top_items_einsum S E C gates = Some t ->
  let m := top_items_metrics_of S E C t in
  let n := selecting_experts E C ch in
  ((exists s, s < S /\ tm_experts_min m = Z.of_nat (n s)) /\
   (forall s, s < S -> (tm_experts_min m <= Z.of_nat (n s))%Z)) /\
  ((exists s, s < S /\ tm_experts_max m = Z.of_nat (n s)) /\
   (forall s, s < S -> (Z.of_nat (n s) <= tm_experts_max m)%Z)) /\
  (1 <= C ->
    (exists e c, e < E /\ c < C /\ tm_gate_min m = Some (gates (ch e c) e) /\
      forall e' c', e' < E -> c' < C ->
        sleb A (gates (ch e c) e) (gates (ch e' c') e') = true) /\
    (exists e c, e < E /\ c < C /\ tm_gate_max m = Some (gates (ch e c) e) /\
      forall e' c', e' < E -> c' < C ->
        sleb A (gates (ch e' c') e') (gates (ch e c) e) = true)) /\
  (forall t, In t (map fst (tm_ratios m)) <-> (t = E \/ exists i, t = 2 ^ i /\ t <= E)) /\
  (forall t q, In (t, q) (tm_ratios m) ->
    q == inject_Z (Z.of_nat (length (filter (fun s => t <=? n s) (seq 0 S))))
         / inject_Z (Z.of_nat S))%Q.
Proof. intros A L. exact (metrics_correct L). Qed.
Print Assumptions C08_top_items_metrics.

Example C08_example : exists t,
  top_items_einsum (A := Zalg) 4 3 2 ex_gates = Some t /\
  let m := top_items_metrics_of 4 3 2 t in
  (tm_experts_min m, tm_experts_max m, tm_gate_min m, tm_gate_max m, tm_ratios m)
  = (1%Z, 2%Z, Some 3%Z, Some 9%Z, [(1, 4 # 4); (2, 2 # 4); (3, 0 # 4)]).
Proof. eexists. split; [reflexivity|]. vm_compute. reflexivity. Qed.

(** C09 *)
Theorem C09_compute_capacity :
  forall tokens experts cf mult, (0 < tokens)%Z -> (0 < experts)%Z ->
  (forall mode, mode <> OtherRounding ->
     exists n, rounds_to mode (inject_Z tokens * cf / inject_Z experts) n /\
       ((n < 1)%Z -> compute_capacity tokens experts cf mode mult = Raise ValueError) /\
       ((1 <= n)%Z -> exists c, compute_capacity tokens experts cf mode mult = Ok c /\
                                least_capacity mult n c)) /\
  compute_capacity tokens experts cf OtherRounding mult = Raise ValueError /\
  (forall c, compute_capacity tokens experts cf Ceil mult = Ok c ->
     inject_Z tokens * cf <= inject_Z (experts * c))%Q.
Proof.
  intros tokens experts cf mult Ht He. split; [|split].
  - intros mode Hm. exact (compute_capacity_correct tokens experts cf mode mult Ht He Hm).
  - reflexivity.
  - intros c. exact (capacity_enough tokens experts cf mult c Ht He).
Qed.
Print Assumptions C09_compute_capacity.

Example C09_example :
  compute_capacity 10 4 (105 # 100) Ceil (Some 4%Z) = Ok 4%Z /\
  compute_capacity 10 4 1 Round None = Ok 2%Z /\
  compute_capacity 14 4 1 Round None = Ok 4%Z /\
  compute_capacity 1 4 1 Round (Some 4%Z) = Raise ValueError.
Proof. repeat split; vm_compute; reflexivity. Qed.

(** C10: false as stated; rounding the capacity up to a multiple of 4 (the default) can
    exceed the group size, and then top_k fails. *)
Theorem C10_refuted :
  exists S E cf mode mult c, (1 <= S)%nat /\ (1 <= E)%nat /\
    (cf <= inject_Z (Z.of_nat E))%Q /\
    top_items_factory S E NameEinsum None (Some cf) mode mult = Ok (NameEinsum, c) /\
    (Z.of_nat S < c)%Z /\
    forall (A : alg) (gates : nat -> nat -> sc A),
      top_items_einsum S E (Z.to_nat c) gates = None.
Proof.
  exists 2, 1, 1%Q, Ceil, (Some 4%Z), 4%Z. repeat split; auto; try discriminate.
Qed.
Print Assumptions C10_refuted.

(** What does hold: with no multiple, or a multiple that divides the group size. *)
Theorem C10_partial :
  forall S E cf mode mult c,
  1 <= S -> 1 <= E -> (cf <= inject_Z (Z.of_nat E))%Q ->
  match mult with Some m => (0 < m)%Z -> (m | Z.of_nat S)%Z | None => True end ->
  compute_capacity (Z.of_nat S) (Z.of_nat E) cf mode mult = Ok c ->
  (c <= Z.of_nat S)%Z.
Proof. exact capacity_le_group. Qed.
Print Assumptions C10_partial.

Example C10_example :
  compute_capacity 16 4 4 Ceil (Some 4%Z) = Ok 16%Z /\ compute_capacity 16 4 1 Ceil (Some 4%Z) = Ok 4%Z.
Proof. split; reflexivity. Qed.

(** C11 *)
Theorem C11_factory_arguments :
  forall S E K name mode mult,
  (* exactly one of the two must be given *)
  (top_experts_factory S E K name None None mode mult = Raise ValueError /\
   top_items_factory S E name None None mode mult = Raise ValueError) /\
  (forall c f, top_experts_factory S E K name (Some c) (Some f) mode mult = Raise ValueError /\
               top_items_factory S E name (Some c) (Some f) mode mult = Raise ValueError) /\
  (* an explicit non-zero capacity is used as given, whatever the other arguments *)
  (forall c, c <> 0%Z ->
     top_experts_factory S E K name (Some c) None mode mult
       = match name with NameOther => Raise ValueError | _ => Ok (name, c) end /\
     top_items_factory S E name (Some c) None mode mult
       = match name with NameEinsum => Ok (name, c) | _ => Raise ValueError end) /\
  (* capacity = 0 never yields a dispatcher *)
  (exists e, top_experts_factory S E K name (Some 0%Z) None mode mult = Raise e /\
             top_items_factory S E name (Some 0%Z) None mode mult = Raise e) /\
  (* a factor is relative to S*K/E, respectively S/E *)
  (forall f k c, top_experts_factory S E K name None (Some f) mode mult = Ok (k, c) <->
     k = name /\ name <> NameOther /\
     compute_capacity (Z.of_nat (S * K)) (Z.of_nat E) f mode mult = Ok c) /\
  (forall f k c, top_items_factory S E name None (Some f) mode mult = Ok (k, c) <->
     k = name /\ name = NameEinsum /\
     compute_capacity (Z.of_nat S) (Z.of_nat E) f mode mult = Ok c).
Proof. exact factory_arguments. Qed.
Print Assumptions C11_factory_arguments.

Example C11_example :
  top_experts_factory 8 4 2 NameIndices None (Some 1%Q) Ceil None = Ok (NameIndices, 4%Z) /\
  top_items_factory 8 4 NameEinsum None (Some 1%Q) Ceil None = Ok (NameEinsum, 2%Z) /\
  top_experts_factory 8 4 2 NameEinsum (Some 0%Z) None Ceil None = Raise TypeError.
Proof. repeat split; reflexivity. Qed.
