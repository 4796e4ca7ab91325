(** Vocabulary for C66, C67 and C68. *)
From Coq Require Import String QArith ZArith Bool List Arith.
From Verif Require Import MoeModel VitModel CfgModel Py.
Import ListNotations.
Local Open Scope list_scope.
Local Open Scope nat_scope.

(** The number that a sequence of decimal digits stands for (48 is the code of 0) *)
Inductive numeral : str -> nat -> Prop :=
| num_one d : d < 10 -> numeral [48 + d] d
| num_snoc s n d : numeral s n -> d < 10 -> numeral (s ++ [48 + d]) (10 * n + d).

Definition where_name (w : where_) : str := match w with Every => chars "Every" | Last => chars "Last" end.
(** The descriptions, such as "ViT-B/16, E=8, K=2, Every 2, 300 Epochs", perhaps with a newline at the end *)
Definition describes (s : str) (d : description) : Prop :=
  exists p e k n t tail,
    s = chars "ViT-" ++ [d_variant d] ++ chars "/" ++ p ++ chars ", E=" ++ e ++ chars ", K=" ++ k ++ chars ", " ++ where_name (d_where d) ++ chars " " ++ n
        ++ chars ", " ++ t ++ chars " Epochs" ++ tail /\
    d_variant d <> 10 /\ (tail = [] \/ tail = [10]) /\
    numeral p (d_patch d) /\ numeral e (d_experts d) /\ numeral k (d_k d) /\ numeral n (d_where_num d) /\ numeral t (d_epochs d).

(** The variants with their sizes: hidden size, blocks, heads *)
Definition size_of (v : nat) : option (nat * nat * nat) :=
  if v =? 83 then Some (512, 8, 8)          (* S *)
  else if v =? 66 then Some (768, 12, 12)   (* B *)
  else if v =? 76 then Some (1024, 24, 16)  (* L *)
  else if v =? 72 then Some (1280, 32, 16)  (* H *)
  else None.

(** Block i of L blocks has a MoE: every n-th block, or the n last of every second block (all of these if n = 0). *)
Definition is_moe_block (w : where_) (n L i : nat) : Prop :=
  i < L /\ match w with Every => Nat.divide n (S i) | Last => Nat.Odd i /\ (n = 0 \/ L < i + 2 * n) end.

(** Learning rates of the V-MoE paper *)
Definition paper_rate (v patch : nat) (q : Q) : Prop :=
  In (v, patch, q) [(83, 32, 1#1000); (66, 32, 8#10000); (66, 16, 8#10000); (76, 32, 6#10000); (76, 16, 4#10000); (72, 14, 3#10000)].

(** The same model with the full name of the soft router *)
Definition with_soft_router_path (c : model_config) : model_config :=
  with_moe c (ec_layers (m_encoder c)) soft_router_path (ec_moe (m_encoder c)).

(** The same model without a representation layer *)
Definition without_representation (c : model_config) : model_config :=
  {| m_router_name := m_router_name c; m_num_classes := m_num_classes c; m_patch_size := m_patch_size c; m_hidden_size := m_hidden_size c; m_classifier := m_classifier c;
     m_representation_size := None; m_mlp_dim := m_mlp_dim c; m_num_heads := m_num_heads c; m_encoder := m_encoder c |}.

(** The options of mixup that a configuration may set *)
Definition mixup_names : list str := map chars ["concentration"; "granularity"; "size"]%string.
