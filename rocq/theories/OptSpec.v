(** Vocabulary for C32 and C33. *)
From Coq Require Import List Arith Bool.
From Verif Require Import Py TreeModel TreeSpec OptModel.
Import ListNotations.

(** Trees with the same keys in the same order. *)
Definition alike {L M} (a : tree L) (b : tree M) : Prop := related (fun _ _ _ => True) [] a b.

Section Optimizer.
Variable regex : Type.
Variable search : regex -> str -> bool.
Variable V F state : Type.

Definition matched (patterns : list regex) (key : str) : Prop := exists r, In r patterns /\ search r key = true.

(** A parameter is frozen if frozen patterns are given and one matches, or if trainable
    patterns are given and none matches. *)
Definition frozen_name (c : config regex V F state) (key : str) : Prop :=
  (frozen _ _ _ _ c <> [] /\ matched (frozen _ _ _ _ c) key) \/
  (trainable _ _ _ _ c <> [] /\ ~ matched (trainable _ _ _ _ c) key).

(** The same configuration, without freezing. *)
Definition unfrozen (c : config regex V F state) : config regex V F state :=
  Config _ _ _ _ (gradient_scale _ _ _ _ c) (clip_norm _ _ _ _ c) (clip_value _ _ _ _ c) (name _ _ _ _ c)
    (weight_decay _ _ _ _ c) (scale_by_learning_rate _ _ _ _ c) [] [].

(** [v] is the value of the first pair that matches the key, or the default if none does. *)
Definition first_match (rules : list (regex * F)) (default : F) (key : str) (v : F) : Prop :=
  (exists before r after, rules = before ++ (r, v) :: after /\ search r key = true /\
     Forall (fun rv => search (fst rv) key = false) before) \/
  (v = default /\ Forall (fun rv => search (fst rv) key = false) rules).

(** How weight decay changes the update [g] of a parameter [x]: by the value of the first
    matching pair, or of the number given; nothing without either. *)
Variable add : V -> V -> V.
Variable scale : F -> V -> V.
Variable zero : F.
Variable is_zero : F -> bool.
Definition decayed (d : decay regex F) (key : str) (g x y : V) : Prop :=
  match d with
  | DNone _ _ => y = g
  | DConst _ _ w => y = if is_zero w then g else add g (scale w x)
  | DRules _ _ [] => y = g
  | DRules _ _ l => exists w, first_match l zero key w /\ y = add g (scale w x)
  end.
End Optimizer.

(** A transformation that never fails on updates with the keys of [params], and keeps them. *)
Definition keeps_keys {V state} (params : tree V) (o : op V state) : Prop :=
  (forall p, alike params p -> exists s, o_init _ _ o p = Ok s) /\
  (forall u s p, alike params u -> alike params p -> exists u' s', o_update _ _ o u s (Some p) = Ok (u', s') /\ alike params u').
