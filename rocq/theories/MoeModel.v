(** Model of vmoe/moe.py. *)
From Coq Require Import List Arith ZArith Bool QArith Qround.
Local Open Scope nat_scope.
From Verif Require Import Prim.
Import ListNotations.

(** Scalars (gates, combine weights) and items (the trailing "..." axes of the data
    arrays).  Items are only ever added and multiplied by scalars, so they form a
    module over the scalars.  Floating-point rounding is not modelled. *)
Record alg := {
  sc : Type;                       (* scalars *)
  sleb : sc -> sc -> bool;         (* order used by top_k and argsort *)
  szero : sc; sone : sc;
  smul : sc -> sc -> sc;
  sneg : sc -> sc;
  vec : Type;                      (* items *)
  vzero : vec;
  vadd : vec -> vec -> vec;
  vscale : sc -> vec -> vec }.

(** Cast of a boolean array entry to a scalar inside an einsum or a product. *)
Definition b2s (A : alg) (b : bool) : sc A := if b then sone A else szero A.

(** Contraction of one axis of length [n] in jnp.einsum. *)
Fixpoint vsum (A : alg) (n : nat) (f : nat -> vec A) : vec A :=
  match n with
  | O => vzero A
  | S m => vadd A (vsum A m f) (f m)
  end.

(* ------------------------------------------------------------------ *)
(** ** All-to-all reordering *)

(** vmoe/moe.py:488-500 [_dispatch], without the sharding constraints (identity on
    values).  Input (G, E, C), output (E, G*C). *)
Definition dispatch_a2a {T} (G E C : nat) (data : nat -> nat -> nat -> T)
  : nat -> nat -> T :=
  let flat :=
    if Nat.eqb (G mod E) 0 then
      let r := unravel4 (G / E) E C (ravel3 E C data) in
      ravel4 (G / E) E C (swap02 r)
    else
      ravel3 G C (swap01 data) in
  unravel2 (G * C) flat.

(** vmoe/moe.py:503-519 [_receive], without the sharding constraints.
    Input (E, GC), output (G, E, GC // G). *)
Definition receive_a2a {T} (E G GC : nat) (data : nat -> nat -> T)
  : nat -> nat -> nat -> T :=
  let C := GC / G in
  let flat := ravel2 GC data in
  if Nat.eqb (G mod E) 0 then
    let r := unravel4 (G / E) E C flat in
    unravel3 E C (ravel4 (G / E) E C (swap02 r))
  else
    swap01 (unravel3 G C flat).

(* ------------------------------------------------------------------ *)
(** ** Dispatcher objects *)

(** vmoe/moe.py:127-161 [EinsumDispatcher].  Boolean dispatch weights are
    represented by the scalars 0 and 1. *)
Record einsum_dispatcher (A : alg) := {
  ed_combine : nat -> nat -> nat -> nat -> sc A;            (* (G,S,E,C) *)
  ed_dispatch : option (nat -> nat -> nat -> nat -> sc A) }.
Arguments ed_combine {A}. Arguments ed_dispatch {A}.

(** vmoe/moe.py:149-151: combine_weights > 0 when dispatch_weights is None. *)
Definition ed_dispatch_weights {A : alg} (d : einsum_dispatcher A)
  : nat -> nat -> nat -> nat -> sc A :=
  match ed_dispatch d with
  | Some w => w
  | None => fun g s e c => b2s A (negb (sleb A (ed_combine d g s e c) (szero A)))
  end.

(** vmoe/moe.py:148-154 [EinsumDispatcher.dispatch]. *)
Definition einsum_do_dispatch {A : alg} (G S E C : nat) (d : einsum_dispatcher A)
  (data : nat -> nat -> vec A) : nat -> nat -> vec A :=
  dispatch_a2a G E C
    (fun g e c => vsum A S (fun s => vscale A (ed_dispatch_weights d g s e c) (data g s))).

(** vmoe/moe.py:156-161 [EinsumDispatcher.combine]; [GC] is data.shape[1]. *)
Definition einsum_do_combine {A : alg} (G S E C GC : nat) (d : einsum_dispatcher A)
  (data : nat -> nat -> vec A) : nat -> nat -> vec A :=
  let data := receive_a2a E G GC data in
  fun g s => vsum A E (fun e => vsum A C (fun c => vscale A (ed_combine d g s e c) (data g e c))).

(** vmoe/moe.py:93-124 [DenseEinsumDispatcher] (dispatch, C = S). *)
Definition dense_do_dispatch {A : alg} (G S E : nat)
  (data : nat -> nat -> vec A) : nat -> nat -> vec A :=
  dispatch_a2a G E S (fun g e s => vscale A (b2s A true) (data g s)).
Definition dense_do_combine {A : alg} (G S E : nat) (w : nat -> nat -> nat -> sc A)
  (data : nat -> nat -> vec A) : nat -> nat -> vec A :=
  let data := receive_a2a E G (G * S) data in
  fun g s => vsum A E (fun e => vscale A (w g s e) (data g e s)).

(** vmoe/moe.py:164-188 [ExpertIndicesDispatcher]. *)
Record indices_dispatcher (A : alg) := {
  id_expert : nat -> nat -> nat -> nat;     (* indices[..., 0], (G,S,K) *)
  id_buffer : nat -> nat -> nat -> Z;       (* indices[..., 1], (G,S,K) *)
  id_combine : nat -> nat -> nat -> sc A }. (* (G,S,K) *)
Arguments id_expert {A}. Arguments id_buffer {A}. Arguments id_combine {A}.

(** jax index normalisation: negative indices count from the end. *)
Definition norm_index (i : Z) (dim : nat) : Z :=
  if (i <? 0)%Z then (i + Z.of_nat dim)%Z else i.

(** vmoe/moe.py:522-544 [_scatter_nd] on a target of shape (E, C): the updates
    j < n with index (e, c) are added up; out-of-range indices are dropped. *)
Definition scatter_nd {A : alg} (E C n : nat) (ie : nat -> nat) (ic : nat -> Z)
  (updates : nat -> vec A) (e c : nat) : vec A :=
  vsum A n (fun j =>
    if Nat.eqb (ie j) e && Z.eqb (norm_index (ic j) C) (Z.of_nat c)
    then updates j else vzero A).

(** vmoe/moe.py:190-197 [ExpertIndicesDispatcher.dispatch].
    jnp.repeat(data, K, axis=1)[j] = data[j // K]; indices.reshape(G, -1, 2). *)
Definition indices_do_dispatch {A : alg} (G S K E C : nat) (d : indices_dispatcher A)
  (data : nat -> nat -> vec A) : nat -> nat -> vec A :=
  dispatch_a2a G E C
    (fun g => scatter_nd E C (S * K)
       (ravel2 K (id_expert d g)) (ravel2 K (id_buffer d g))
       (fun j => data g (j / K))).

(** Gather x[i0, i1]: out-of-range indices are clamped (jax default for reads). *)
Definition clamp_index (i : Z) (dim : nat) : nat :=
  Z.to_nat (Z.min (Z.max (norm_index i dim) 0) (Z.of_nat dim - 1)).

(** vmoe/moe.py:199-209 [ExpertIndicesDispatcher.combine]. *)
Definition indices_do_combine {A : alg} (G S K E C GC : nat) (d : indices_dispatcher A)
  (data : nat -> nat -> vec A) : nat -> nat -> vec A :=
  let data := receive_a2a E G GC data in
  fun g s => vsum A K (fun k =>
    let ie := id_expert d g s k in
    let ic := id_buffer d g s k in
    let gathered := data g (clamp_index (Z.of_nat ie) E) (clamp_index ic C) in
    let mask := Nat.ltb ie E && Z.ltb ic (Z.of_nat C) in
    vscale A (id_combine d g s k) (vscale A (b2s A mask) gathered)).

(* ------------------------------------------------------------------ *)
(** ** Top-experts-per-item routing of one group *)

(** Result of [_get_top_experts_per_item_common]. *)
Record top_experts (A : alg) := {
  te_combine : nat -> nat -> sc A;      (* (S,K) *)
  te_expert  : nat -> nat -> nat;       (* (S,K) *)
  te_buffer  : nat -> nat -> nat -> Z }. (* (S,K,E) *)
Arguments te_combine {A}. Arguments te_expert {A}. Arguments te_buffer {A}.

(** vmoe/moe.py:547-590 [_get_top_experts_per_item_common].
    [None]: jax raises (top_k with K > E; K = 0 or an empty group make the
    reshape(-1, ...) of an empty array / indexing column 0 fail). *)
Definition top_experts_common {A : alg} (S E K : nat) (gates : nat -> nat -> sc A)
  (batch_priority : bool) : option (top_experts A) :=
  if Nat.eqb K 0 || Nat.eqb S 0 || Nat.ltb E K then None else
  let index0 := fun s k => nth k (top_k (sleb A) E K (gates s)) 0 in
  let combine_weights := fun s k => gates s (index0 s k) in
  let perm := argsort (sleb A) S (fun s => sneg A (combine_weights s 0)) in
  let index1 := if batch_priority
                then fun p k => index0 (nth p perm 0) k
                else index0 in
  (* swapaxes(0,1).ravel(): position i of the (K, S) array *)
  let flat := fun i => index1 (i mod S) (i / S) in
  let expert_one_hot := fun i e => one_hot (flat i) e in
  let buffer_flat := fun i e =>
    (cumsum (fun j => expert_one_hot j e) i * expert_one_hot i e - 1)%Z in
  (* reshape(-1, S, E) and swapaxes(0,1) *)
  let buffer1 := fun p k e => buffer_flat (k * S + p) e in
  let index2 := fun p k => flat (k * S + p) in
  let inv_perm := argsort Nat.leb S (fun p => nth p perm 0) in
  Some (if batch_priority
        then {| te_combine := combine_weights;
                te_expert := fun s k => index2 (nth s inv_perm 0) k;
                te_buffer := fun s k e => buffer1 (nth s inv_perm 0) k e |}
        else {| te_combine := combine_weights;
                te_expert := index2;
                te_buffer := buffer1 |}).

(** vmoe/moe.py:593-623, one group: dispatch and combine weights (S,E,C). *)
Definition top_experts_einsum {A : alg} (S E K C : nat) (gates : nat -> nat -> sc A)
  (batch_priority : bool)
  : option ((nat -> nat -> nat -> sc A) * (nat -> nat -> nat -> sc A)) :=
  match top_experts_common S E K gates batch_priority with
  | None => None
  | Some t =>
      let buffer_idx := fun s e => zmax K (fun k => te_buffer t s k e) in
      let dispatch_weights := fun s e c => b2s A (Z.eqb (buffer_idx s e) (Z.of_nat c)) in
      let combine_weights := fun s e c => smul A (gates s e) (dispatch_weights s e c) in
      Some (dispatch_weights, combine_weights)
  end.

(** vmoe/moe.py:626-652, one group: expert index, buffer index, combine weights. *)
Definition top_experts_indices {A : alg} (S E K : nat) (gates : nat -> nat -> sc A)
  (batch_priority : bool)
  : option ((nat -> nat -> nat) * (nat -> nat -> Z) * (nat -> nat -> sc A)) :=
  match top_experts_common S E K gates batch_priority with
  | None => None
  | Some t =>
      let buffer_idx := fun s k => zmax E (fun e => te_buffer t s k e) in
      Some (te_expert t, buffer_idx, te_combine t)
  end.

(** The routers build one dispatcher per group with jax.vmap over the leading axis of
    the gates (vmoe/nn/routing.py:117-131); a failure in the traced function fails the
    whole call, whatever the group. *)
Definition einsum_dispatcher_of {A : alg} (S E K C : nat) (gates : nat -> nat -> nat -> sc A)
  (batch_priority : bool) : option (einsum_dispatcher A) :=
  match top_experts_einsum S E K C (gates 0) batch_priority with
  | None => None
  | Some _ =>
      let get g := match top_experts_einsum S E K C (gates g) batch_priority with
                   | Some p => p
                   | None => (fun _ _ _ => szero A, fun _ _ _ => szero A)
                   end in
      Some {| ed_combine := fun g => snd (get g);
              ed_dispatch := Some (fun g => fst (get g)) |}
  end.

Definition indices_dispatcher_of {A : alg} (S E K : nat) (gates : nat -> nat -> nat -> sc A)
  (batch_priority : bool) : option (indices_dispatcher A) :=
  match top_experts_indices S E K (gates 0) batch_priority with
  | None => None
  | Some _ =>
      let get g := match top_experts_indices S E K (gates g) batch_priority with
                   | Some p => p
                   | None => (fun _ _ => 0, fun _ _ => 0%Z, fun _ _ => szero A)
                   end in
      Some {| id_expert := fun g => fst (fst (get g));
              id_buffer := fun g => snd (fst (get g));
              id_combine := fun g => snd (get g) |}
  end.

(* ------------------------------------------------------------------ *)
(** ** Top-items-per-expert routing of one group *)

Record top_items (A : alg) := {
  ti_dispatch : nat -> nat -> nat -> sc A;  (* (S,E,C) *)
  ti_combine  : nat -> nat -> nat -> sc A;  (* (S,E,C) *)
  ti_index    : nat -> nat -> nat;          (* top_items_index (E,C) *)
  ti_gates    : nat -> nat -> sc A }.       (* top_items_gates (E,C) *)
Arguments ti_dispatch {A}. Arguments ti_combine {A}.
Arguments ti_index {A}. Arguments ti_gates {A}.

(** vmoe/moe.py:669-680 [_get_top_items_per_expert_einsum_dispatcher].
    [None]: top_k raises when capacity > group size. *)
Definition top_items_einsum {A : alg} (S E C : nat) (gates : nat -> nat -> sc A)
  : option (top_items A) :=
  if Nat.ltb S C then None else
  let index := fun e c => nth c (top_k (sleb A) S C (fun s => gates s e)) 0 in
  let dispatch_weights := fun s e c => b2s A (Nat.eqb (index e c) s) in
  Some {| ti_dispatch := dispatch_weights;
          ti_combine := fun s e c => smul A (gates s e) (dispatch_weights s e c);
          ti_index := index;
          ti_gates := fun e c => gates (index e c) e |}.

(** One top-items dispatcher per group (vmap over groups, vmoe/nn/routing.py:231-244). *)
Definition top_items_dispatcher_of {A : alg} (S E C : nat) (gates : nat -> nat -> nat -> sc A)
  : option (einsum_dispatcher A) :=
  match top_items_einsum S E C (gates 0) with
  | None => None
  | Some _ =>
      let get g := match top_items_einsum S E C (gates g) with
                   | Some t => (ti_dispatch t, ti_combine t)
                   | None => (fun _ _ _ => szero A, fun _ _ _ => szero A)
                   end in
      Some {| ed_combine := fun g => snd (get g);
              ed_dispatch := Some (fun g => fst (get g)) |}
  end.

(** Sum of 0/1 entries (jnp.sum with dtype int32 of a boolean array). *)
Fixpoint zsum (n : nat) (f : nat -> Z) : Z :=
  match n with O => 0%Z | S m => (zsum m f + f m)%Z end.

(** Minimum / maximum over a 2-d array (jnp.min, jnp.max; fails on empty arrays). *)
Definition sc_best {A : alg} (better : sc A -> sc A -> bool) (l : list (sc A)) : option (sc A) :=
  match l with
  | [] => None
  | x :: r => Some (fold_left (fun m y => if better y m then y else m) r x)
  end.

Record top_items_metrics (A : alg) := {
  tm_experts_min : Z; tm_experts_max : Z;
  tm_gate_min : option (sc A); tm_gate_max : option (sc A);
  tm_ratios : list (nat * Q) }.
Arguments tm_experts_min {A}. Arguments tm_experts_max {A}.
Arguments tm_gate_min {A}. Arguments tm_gate_max {A}. Arguments tm_ratios {A}.

(** vmoe/moe.py:681-692: metrics.  The boolean dispatch weight of (s, e, c) is
    [index e c = s].  A later entry with the same key replaces an earlier one with the
    same value, so the dictionary is represented by the list of its assignments. *)
Definition top_items_metrics_of {A : alg} (S E C : nat) (t : top_items A)
  : top_items_metrics A :=
  let w := fun s e c => one_hot (ti_index t e c) s in
  let num_experts_per_item := fun s => zsum E (fun e => zsum C (fun c => w s e c)) in
  let selected := map (fun ec => ti_gates t (fst ec) (snd ec))
                      (list_prod (seq 0 E) (seq 0 C)) in
  let ratio := fun t => Qmake (zsum S (fun s => if (Z.of_nat t <=? num_experts_per_item s)%Z
                                               then 1%Z else 0%Z))
                              (Pos.of_nat S) in
  let ts := map (fun i => 2 ^ i) (seq 0 (Nat.log2 E + 1)) ++ [E] in
  {| tm_experts_min := zmin S num_experts_per_item;
     tm_experts_max := zmax S num_experts_per_item;
     tm_gate_min := sc_best (fun a b => negb (sleb A b a)) selected;
     tm_gate_max := sc_best (fun a b => negb (sleb A a b)) selected;
     tm_ratios := map (fun t => (t, ratio t)) ts |}.

(* ------------------------------------------------------------------ *)
(** ** Capacity *)

Inductive err := ValueError | TypeError | ZeroDivisionError.
Inductive res (T : Type) := Ok (x : T) | Raise (e : err).
Arguments Ok {T}. Arguments Raise {T}.

Inductive rounding := Ceil | Round | OtherRounding.

(** Python's built-in round: nearest integer, ties to the even one. *)
Definition round_half_even (q : Q) : Z :=
  let f := Qfloor q in
  let d := (q - inject_Z f)%Q in
  match Qcompare d (1 # 2) with
  | Lt => f
  | Gt => (f + 1)%Z
  | Eq => if Z.even f then f else (f + 1)%Z
  end.

(** vmoe/moe.py:230-257 [compute_capacity].  The capacity factor is an exact
    rational (every finite float is one); the rounding of the float product and
    quotient is not modelled.  The logging warning has no effect on the result, but
    its computation divides by num_tokens. *)
Definition compute_capacity (num_tokens num_experts : Z) (capacity_factor : Q)
  (ceil_or_round : rounding) (multiple_of : option Z) : res Z :=
  let finish capacity :=
    if (capacity <? 1)%Z then Raise ValueError else
    let capacity :=
      match multiple_of with
      | Some m => if (0 <? m)%Z then (capacity + (- capacity) mod m)%Z else capacity
      | None => capacity
      end in
    if (num_tokens =? 0)%Z then Raise ZeroDivisionError else Ok capacity in
  let ratio := (inject_Z num_tokens * capacity_factor / inject_Z num_experts)%Q in
  match ceil_or_round with
  | Ceil => if (num_experts =? 0)%Z then Raise ZeroDivisionError else finish (Qceiling ratio)
  | Round => if (num_experts =? 0)%Z then Raise ZeroDivisionError
             else finish (round_half_even ratio)
  | OtherRounding => Raise ValueError
  end.

(** vmoe/moe.py:305-318 and 364-377: how both factories obtain the capacity;
    [num_tokens] is S*K for top-experts and S for top-items.  [if not capacity] is also
    taken for capacity = 0, and then compute_capacity receives capacity_factor = None
    (a float is required: TypeError), after the check of the rounding mode. *)
Definition resolve_capacity (num_tokens num_experts : Z) (capacity : option Z)
  (capacity_factor : option Q) (ceil_or_round : rounding) (multiple_of : option Z) : res Z :=
  match capacity, capacity_factor with
  | None, None => Raise ValueError
  | Some _, Some _ => Raise ValueError
  | Some c, None =>
      if (c =? 0)%Z then
        match ceil_or_round with
        | OtherRounding => Raise ValueError
        | _ => Raise TypeError
        end
      else Ok c
  | None, Some f => compute_capacity num_tokens num_experts f ceil_or_round multiple_of
  end.

Inductive dispatcher_name := NameEinsum | NameIndices | NameOther.

(** vmoe/moe.py:267-327 [get_top_experts_per_item_dispatcher]: argument handling; the
    result is the kind of dispatcher that is built and the capacity it is given. *)
Definition top_experts_factory (S E K : nat) (name : dispatcher_name) (capacity : option Z)
  (capacity_factor : option Q) (ceil_or_round : rounding) (multiple_of : option Z)
  : res (dispatcher_name * Z) :=
  match resolve_capacity (Z.of_nat S * Z.of_nat K) (Z.of_nat E) capacity capacity_factor
          ceil_or_round multiple_of with
  | Raise e => Raise e
  | Ok c => match name with
            | NameEinsum => Ok (NameEinsum, c)
            | NameIndices => Ok (NameIndices, c)
            | NameOther => Raise ValueError
            end
  end.

(** vmoe/moe.py:330-385 [get_top_items_per_expert_dispatcher]: argument handling. *)
Definition top_items_factory (S E : nat) (name : dispatcher_name) (capacity : option Z)
  (capacity_factor : option Q) (ceil_or_round : rounding) (multiple_of : option Z)
  : res (dispatcher_name * Z) :=
  match resolve_capacity (Z.of_nat S) (Z.of_nat E) capacity capacity_factor
          ceil_or_round multiple_of with
  | Raise e => Raise e
  | Ok c => match name with
            | NameEinsum => Ok (NameEinsum, c)
            | NameIndices | NameOther => Raise ValueError
            end
  end.

(* ------------------------------------------------------------------ *)
(** ** The MoE layer *)

(** vmoe/moe.py:427-448 [sparse_moe_spmd] for one array input and one array output:
    dispatch, apply expert e to the e-th buffer (vmap over the leading axis), combine.
    [experts e] maps the (G*C) buffer of expert e to its (G*C) outputs. *)
Definition sparse_moe {A : alg}
  (dispatch combine : (nat -> nat -> vec A) -> nat -> nat -> vec A)
  (experts : nat -> (nat -> vec A) -> nat -> vec A)
  (data : nat -> nat -> vec A) : nat -> nat -> vec A :=
  combine (fun e => experts e (dispatch data e)).
