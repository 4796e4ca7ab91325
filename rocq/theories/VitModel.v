(** The Vision Transformer with MoE layers (vmoe/nn/vit_moe.py; C62 and C63), in inference mode
    (deterministic, without dropout and router noise), over the real numbers. *)
From Coq Require Import List Arith ZArith Bool Reals QArith.
From Verif Require Import Prim MoeModel SoftModel AuxModel CwModel Py.
Import ListNotations.
Local Open Scope nat_scope.

(** A token is a vector, by coordinate.  A batch is a list of sequences, all of the same length. *)
Definition V := vec Ralg.
Definition batch := list (list V).
(** The shape (num_seqs, seq_length) of an array *)
Definition seq_len (x : batch) : nat := length (hd [] x).

Definition of_moe_err (e : MoeModel.err) : err :=
  match e with MoeModel.ValueError => ValueError | MoeModel.TypeError => TypeError | MoeModel.ZeroDivisionError => ZeroDivisionError end.
Definition of_moe {T} (r : MoeModel.res T) : res T :=
  match r with MoeModel.Ok x => Ok x | MoeModel.Raise e => Raise (of_moe_err e) end.
Definition of_option {T} (x : option T) : res T := match x with Some x => Ok x | None => Raise ValueError end.

(** ** Routers (vmoe/nn/routing.py:54-60 and 207-212, vmoe/projects/soft_moe/router.py:55-102) *)
Inductive router_config :=
| TopExpertsPerItem (num_selected_experts : nat) (name : dispatcher_name) (capacity : option Z) (capacity_factor : option Q)
    (ceil_or_round : rounding) (multiple_of : option Z) (batch_priority : bool)
| TopItemsPerExpert (name : dispatcher_name) (capacity : option Z) (capacity_factor : option Q) (ceil_or_round : rounding) (multiple_of : option Z)
| SoftRouting (num_slots : option Z) (capacity_factor : option Q).
(** The options of the layer: the size of the groups, the number of experts, the router *)
Record moe_config := { mc_group_size : nat; mc_num_experts : nat; mc_router : router_config }.
(** The parameters of the layer: the dense layer of the router, mu and scale of a soft router, the
    MLPs of the experts *)
Record moe_params := { mp_dense : V -> nat -> R; mp_mu : nat -> nat -> nat -> nat -> R; mp_scale : R; mp_mlp : nat -> V -> V }.

(** The dispatcher for G groups of Sz items with D entries.  The gates of the first two routers
    are the softmax of the dense layer (routing.py:62-87 and 215-224), and the dispatchers are
    built by the functions of moe.py (117-131 and 231-244).  Negative capacities are not modelled. *)
Definition route (D : nat) (c : moe_config) (p : moe_params) (G Sz : nat) (inputs : nat -> nat -> V) : res (dispatcher Ralg) :=
  let E := mc_num_experts c in
  let gates := fun g s => softmax E (mp_dense p (inputs g s)) in
  match mc_router c with
  | TopExpertsPerItem K name capacity factor mode multiple_of batch_priority =>
      if negb ((K <=? E) && (1 <=? K)) then Raise ValueError
      else
      bind (of_moe (top_experts_factory Sz E K name capacity factor mode multiple_of)) (fun nc =>
      let C := Z.to_nat (snd nc) in
      match fst nc with
      | NameEinsum => bind (of_option (@einsum_dispatcher_of Ralg Sz E K C gates batch_priority)) (fun d => Ok (DEinsum G Sz E C d))
      | _ => bind (of_option (@indices_dispatcher_of Ralg Sz E K gates batch_priority)) (fun d => Ok (DIndices G Sz K E C d))
      end)
  | TopItemsPerExpert name capacity factor mode multiple_of =>
      bind (of_moe (top_items_factory Sz E name capacity factor mode multiple_of)) (fun nc =>
      let C := Z.to_nat (snd nc) in
      bind (of_option (@top_items_dispatcher_of Ralg Sz E C gates)) (fun d => Ok (DEinsum G Sz E C d)))
  | SoftRouting num_slots factor =>
      bind (of_moe (soft_router G Sz D E num_slots factor true 0%R (fun _ _ _ _ => 0%R) (mp_mu p) (mp_scale p) inputs)) (fun r =>
      Ok (DEinsum G Sz E (fst r) (snd r)))
  end.

(** ** vit_moe.py:101-124 [MlpMoeBlock.__call__].  The reshape to groups is a TypeError if the
    tokens of the batch cannot be split into groups of this size.  The metrics are in [AuxModel]. *)
Definition mlp_moe_block (D : nat) (c : moe_config) (p : moe_params) (inputs : batch) : res batch :=
  let flat := concat inputs in
  let Sz := mc_group_size c in
  if (Sz =? 0) || negb (length flat mod Sz =? 0) then Raise TypeError
  else
    let G := length flat / Sz in
    let groups := unravel2 Sz (fun i => nth i flat (vzero Ralg)) in
    bind (route D c p G Sz groups) (fun d =>
    let outputs := layer d (fun e buffer j => mp_mlp p e (buffer j)) groups in
    let T := seq_len inputs in
    Ok (map (fun b => map (unravel2 T (ravel2 Sz outputs) b) (seq 0 T)) (seq 0 (length inputs)))).

(** ** 151-183 [EncoderBlock].  The norms act on tokens; the attention acts on a sequence (all
    queries, keys and values are of the same sequence) and keeps its length. *)
Record block_params := { bp_norm1 : V -> V; bp_attention : list V -> list V; bp_norm2 : V -> V; bp_mlp : V -> V; bp_moe : moe_params }.
(** x + y, for sequences of length n *)
Definition add_seq (n : nat) (x y : list V) : list V := map (fun t => vadd Ralg (nth t x (vzero Ralg)) (nth t y (vzero Ralg))) (seq 0 n).
Definition add_batch (x y : batch) : batch := map (fun xy => add_seq (length (fst xy)) (fst xy) (snd xy)) (combine x y).
Definition encoder_block (is_moe : bool) (D : nat) (c : moe_config) (p : block_params) (inputs : batch) : res batch :=
  let x := map (fun s => add_seq (length s) (bp_attention p (map (bp_norm1 p) s)) s) inputs in
  let y := map (map (bp_norm2 p)) x in
  bind (if is_moe then mlp_moe_block D c (bp_moe p) y else Ok (map (map (bp_mlp p)) y)) (fun y =>
  Ok (add_batch x y)).

(** ** 266-308 [add_position_emb] *)
Inductive position_name := PosNone | PosLearned | PosSincos2d | PosOther.
(** The entries of the dictionary that are used; None for missing ones *)
Record position_emb := { pe_name : option position_name; pe_h : option nat; pe_w : option nat; pe_temperature : option R }.
(** 284-288: the frequencies; the temperature is positive. *)
Definition omega (c : nat) (temperature : R) (i : nat) : R := (1 / Rpower temperature (INR i / INR (c / 4 - 1)))%R.
(** Concatenation of four arrays with q columns *)
Definition concat4 (q : nat) (a b c d : nat -> R) (i : nat) : R :=
  if i <? q then a i else if i <? q + q then b (i - q) else if i <? q + q + q then c (i - (q + q)) else d (i - (q + q + q)).
(** 284-296: row p of posembed *)
Definition posembed (w c : nat) (temperature : R) (p : nat) : V :=
  let y := ravel2 w (fun i _ => INR i) in
  let x := ravel2 w (fun _ j => INR j) in
  let x := fun p d => (x p * omega c temperature d)%R in
  let y := fun p d => (y p * omega c temperature d)%R in
  concat4 (c / 4) (fun d => sin (x p d)) (fun d => cos (x p d)) (fun d => sin (y p d)) (fun d => cos (y p d)).
(** [c] is the hidden size, [learned] the parameters of AddPositionEmbs.  inputs + posembed also
    fails (TypeError) if the arrays cannot be broadcast, which cannot happen here. *)
Definition add_rows (pe : nat -> V) (s : list V) : list V := map (fun t => vadd Ralg (nth t s (vzero Ralg)) (pe t)) (seq 0 (length s)).
Definition default_temperature : R := 10000%R.
Definition add_position_emb (c : nat) (pe : option position_emb) (learned : nat -> V) (inputs : batch) : res batch :=
  let pe := match pe with Some pe => pe | None => {| pe_name := None; pe_h := None; pe_w := None; pe_temperature := None |} end in
  match match pe_name pe with Some n => n | None => PosLearned end with
  | PosNone => Ok inputs
  | PosLearned => Ok (map (add_rows learned) inputs)
  | PosSincos2d =>
      let n := seq_len inputs in
      match pe_h pe with None => Raise KeyError | Some h =>
      match pe_w pe with None => Raise KeyError | Some w =>
      if negb (c mod 4 =? 0) || (c <? 8) then Raise ValueError
      else
        let temperature := match pe_temperature pe with Some t => t | None => default_temperature end in
        let posembed := posembed w c temperature in
        if n =? h * w then Ok (map (add_rows posembed) inputs)
        else if n =? h * w + 1 then Ok (map (fun s => firstn 1 s ++ add_rows posembed (skipn 1 s)) inputs)
        else Raise ValueError
      end end
  | PosOther => Raise ValueError
  end.

(** ** 221-264 [EncoderMoe.__call__]: [layers] are the blocks with a MoE (none without [moe]).  The
    sum of the auxiliary losses is in [AuxModel]. *)
Record encoder_config := { ec_num_layers : nat; ec_layers : list nat; ec_moe : moe_config }.
Record encoder_params := { ep_learned : nat -> V; ep_block : nat -> block_params; ep_norm : V -> V }.
Definition encoder_moe (D : nat) (c : encoder_config) (pe : option position_emb) (p : encoder_params) (inputs : batch) : res batch :=
  bind (add_position_emb D pe (ep_learned p) inputs) (fun x =>
  bind (rfold (fun x block => encoder_block (existsb (Nat.eqb block) (ec_layers c)) D (ec_moe c) (ep_block p block) x)
          (seq 0 (ec_num_layers c)) x) (fun x =>
  Ok (map (map (ep_norm p)) x))).

(** ** 332-383 [VisionTransformerMoe.__call__].  [vp_embedding] gives the patch of each row and column
    of the grid (h, w) that the convolution makes, the same for all images of a batch. *)
Inductive classifier := ClsToken | Cls0 | ClsGap | ClsMap | ClsOther.
Record vit_params (I : Type) := {
  vp_embedding : I -> nat -> nat -> V; vp_cls : V; vp_encoder : encoder_params;
  (** MapHead (127-148), whose queries do not depend on the image *)
  vp_map : list V -> V;
  vp_pre_logits : V -> V; vp_head : V -> V }.
Arguments vp_embedding {I}. Arguments vp_cls {I}. Arguments vp_encoder {I}. Arguments vp_map {I}.
Arguments vp_pre_logits {I}. Arguments vp_head {I}.
(** 343-346.  [Some None] is an entry that is None, which has no method [get]. *)
Definition grid_kwargs (h w : nat) (pe : option (option position_emb)) : res (option position_emb) :=
  match pe with
  | None => Ok None
  | Some None => Raise AttributeError
  | Some (Some e) =>
      match pe_name e with
      | Some PosSincos2d => Ok (Some {| pe_name := pe_name e; pe_h := Some h; pe_w := Some w; pe_temperature := pe_temperature e |})
      | _ => Ok (Some e)
      end
  end.
(** 348: the tokens of an image.  The mean of an empty sequence is not modelled. *)
Definition tokens (h w : nat) (patch : nat -> nat -> V) : list V := map (ravel2 w patch) (seq 0 (h * w)).
Definition mean_tokens (s : list V) : V := fun d => (sumf (length s) (fun t => nth t s (vzero Ralg) d) / INR (length s))%R.
Definition vit_moe {I} (D : nat) (c : encoder_config) (pe : option (option position_emb)) (cls : classifier) (num_classes : option nat)
    (p : vit_params I) (h w : nat) (images : list I) : res (list V) :=
  bind (grid_kwargs h w pe) (fun pe =>
  let x := map (fun i => tokens h w (vp_embedding p i)) images in
  let x := match cls with ClsToken => map (fun s => vp_cls p :: s) x | _ => x end in
  bind (encoder_moe D c pe (vp_encoder p) x) (fun x =>
  bind (match cls with
        | ClsToken | Cls0 => Ok (map (fun s => nth 0 s (vzero Ralg)) x)
        | ClsGap => Ok (map mean_tokens x)
        | ClsMap => Ok (map (vp_map p) x)
        | ClsOther => Raise ValueError
        end) (fun x =>
  let x := map (vp_pre_logits p) x in
  Ok (match num_classes with Some (S _) => map (vp_head p) x | _ => x end)))).
