(** Vocabulary for C74 to C77. *)
From Coq Require Import List Arith ZArith Bool Reals Permutation.
From Verif Require Import TreeModel OptModel OptSpec SchedModel NumModel Py.
Import ListNotations.
Local Open Scope nat_scope.

(** The entries of the parameters, and the Euclidean norm over them *)
Definition inside (shape idx : list nat) : Prop := Forall2 (fun i d => i < d) idx shape.
Fixpoint total (l : list R) : R := match l with [] => 0%R | x :: l => (x + total l)%R end.
Definition norm (entries : list coord) (u : vec) : R := sqrt (total (map (fun c => Rsqr (u c)) entries)).

(** The terms [l], the last one whole, each other reduced by [q] for every term that follows *)
Definition discounted (q : R) (l : list R) : R := total (map (fun i => (q ^ (length l - 1 - i) * nth i l 0)%R) (seq 0 (length l))).

Section Config.
Variable regex : Type.
Variable search : regex -> str -> bool.

(** The parameters that training must not change *)
Definition frozen_param (c : config regex) (n : str) : Prop :=
  (frozen _ c <> [] /\ exists r, In r (frozen _ c) /\ search r n = true) \/
  (trainable _ c <> [] /\ forall r, In r (trainable _ c) -> search r n = false).
(** The factor of the gradients of a parameter, and its weight decay *)
Definition scale_is (c : config regex) (n : str) (w : R) : Prop := first_match regex search R (gradient_scale _ c) 1%R n w.
Definition decay_is (c : config regex) (n : str) (w : R) : Prop :=
  match weight_decay _ c with
  | DNone _ _ => w = 0%R
  | DConst _ _ x => w = x
  | DRules _ _ l => first_match regex search R l 0%R n w
  end.
(** The learning rate of the update number [t] *)
Definition rate_is (c : config regex) (lr : nat -> R) : Prop :=
  match learning_rate _ c with
  | inl v => forall t, lr t = v
  | inr a => exists s, create_learning_rate_schedule (total_steps _ c) a = Ok s /\ forall t, lr t = s (Z.of_nat t)
  end.
Definition on (o : option R) (x : R) : Prop := o = Some x /\ x <> 0%R.
Definition off (o : option R) : Prop := o = None \/ o = Some 0%R.
(** [h] is [g] after clipping. *)
Definition clipped (entries : list coord) (c : config regex) (g h : vec) : Prop :=
  (forall x, on (clip_norm _ c) x ->
     ((norm entries g < x)%R -> forall k, h k = g k) /\ ((x <= norm entries g)%R -> forall k, h k = (g k / norm entries g * x)%R)) /\
  (forall x, on (clip_value _ c) x -> forall k, h k = Rmin (Rmax (g k) (- x)) x) /\
  (off (clip_norm _ c) -> off (clip_value _ c) -> forall k, h k = g k).
Definition unscaled (c : config regex) : config regex :=
  {| gradient_scale := []; clip_norm := clip_norm _ c; clip_value := clip_value _ c; optimizer := optimizer _ c; weight_decay := weight_decay _ c;
     learning_rate := learning_rate _ c; total_steps := total_steps _ c; frozen := frozen _ c; trainable := trainable _ c |}.
(** The gradients that reach the optimizer *)
Definition seen (entries : list coord) (c : config regex) (g h : vec) : Prop :=
  exists g', (forall n, exists w, scale_is c n w /\ forall i, g' (n, i) = (w * g (n, i))%R) /\ clipped entries c g' h.
End Config.

(** The momentum that SGD uses *)
Definition momentum_is (m : option R) (x : R) : Prop := (off m /\ x = 0%R) \/ on m x.
(** [u] is what the optimizer makes of the gradients of an entry, the last of which is the newest. *)
Definition direction (o : optim) (l : list R) (u : R) : Prop :=
  match o with
  | Sgd m nesterov =>
      (off m -> u = last l 0%R) /\
      (forall x, on m x -> u = if nesterov then (last l 0 + x * discounted x l)%R else discounted x l)
  | Adam b1 b2 eps eps_root =>
      let m := ((1 - b1) * discounted b1 l / (1 - b1 ^ length l))%R in
      let v := ((1 - b2) * discounted b2 (map Rsqr l) / (1 - b2 ^ length l))%R in
      u = (m / (sqrt (v + eps_root) + eps))%R
  | Adafactor rate rate_max offset eps _ m =>
      let d (t : nat) := Rmin rate_max (1 - / Rpower (INR t - INR offset + 1) rate) in
      exists v : nat -> R, v 0 = 0%R /\
      (forall t, t < length l -> v (S t) = (d t * v t + (1 - d t) * (Rsqr (nth t l 0) + eps))%R) /\
      let ratios := map (fun t => (nth t l 0 / sqrt (v (S t)))%R) (seq 0 (length l)) in
      (off m -> u = last ratios 0%R) /\ (forall x, on m x -> u = ((1 - x) * discounted x ratios)%R)
  | OtherOptim => False
  end.
(** Parameters without two axes that are large enough are not factored. *)
Definition unfactored (o : optim) (shape : list nat) : Prop :=
  match o with
  | Adafactor _ _ _ _ min_dim _ => forall i j, i < j -> j < length shape -> nth i shape 0 < min_dim \/ nth j shape 0 < min_dim
  | _ => True
  end.

(** A sorting permutation *)
Definition sorts (argsort : list nat -> list nat) : Prop :=
  forall s, Permutation (argsort s) (seq 0 (length s)) /\
    forall i j, i < j -> j < length s -> nth (nth i (argsort s) 0) s 0 <= nth (nth j (argsort s) 0) s 0.
