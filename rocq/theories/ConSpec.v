(** Vocabulary for C71, C72 and C73. *)
From Coq Require Import String List Arith ZArith Bool Reals.
From Verif Require Import MoeModel SoftSpec AuxModel VitModel ConModel Py.
Import ListNotations.
Local Open Scope list_scope.
Local Open Scope nat_scope.

(** ** Pairs of an image and a text *)
Definition dot (D : nat) (u v : nat -> R) : R := sum_to D (fun d => u d * v d)%R.
Definition length_of (D : nat) (u : nat -> R) : R := sqrt (dot D u u).
Definition tiny : R := (1 / 10 ^ 8)%R.
Definition bias (b : option R) : R := match b with Some b => b | None => 0%R end.
(** The logit of a pair with the outputs u and v of the towers *)
Definition logit (D : nat) (s : R) (b : option R) (u v : nat -> R) : R :=
  (exp s * (dot D u v / ((length_of D u + tiny) * (length_of D v + tiny))) + bias b)%R.

(** The vector that pooling makes of a sequence *)
Definition pooled (pool : pool_type) (p : text_params) (s : list V) (v : V) : Prop :=
  match pool with
  | PoolLast => exists s', exists x, s = s' ++ [x] /\ v = x
  | PoolFirst => exists s', exists x, s = x :: s' /\ v = x
  | PoolGap => forall d, (INR (length s) * v d = fold_right Rplus 0 (map (fun x : V => x d) s))%R
  | PoolGmp => forall d, (exists x, In x s /\ v d = (x : V) d) /\ forall x, In x s -> (x d <= v d)%R
  | PoolMap => v = tp_map p s
  | PoolOther => False
  end.

(** ** The loss of n images and n texts with logits l, with the pairs that take part in it *)
Definition logistic (positive : bool) (l : R) : R := ln (1 + exp (if positive then - l else l)).
Definition loss_over (n : nat) (pairs : nat -> nat -> bool) (l : nat -> nat -> R) : R :=
  (sum_to n (fun i => sum_to n (fun j => if pairs i j then logistic (i =? j) (l i j) else 0)) / INR n)%R.
Definition all_pairs (i j : nat) : bool := true.
(** Pairs with the same number modulo m *)
Definition same_microbatch (m i j : nat) : bool := i mod m =? j mod m.

(** ** Gradients of functions of P parameters *)
Definition params := nat -> R.
(** The logits of a batch, where [img] and [txt] are the outputs of the towers for an example, [s] and [b]
    the scale and bias among the parameters; [dx] and [dy] are any examples. *)
Definition batch_logits X Y (dx : X) (dy : Y) (D : nat) (img : params -> X -> V) (txt : params -> Y -> V) (s : params -> R) (b : params -> option R)
    (xs : list X) (ys : list Y) (q : params) (i j : nat) : R :=
  logit D (s q) (b q) (img q (nth i xs dx)) (txt q (nth j ys dy)).
Definition shift (p : params) (k : nat) (t : R) : params := fun i => if i =? k then (p i + t)%R else p i.
Definition is_gradient (P : nat) (f : params -> R) (p : params) (g : list R) : Prop :=
  length g = P /\ forall k, k < P -> derivable_pt_lim (fun t => f (shift p k t)) 0 (nth k g 0%R).

(** ** Reports *)
(** The value that is given for a name *)
Definition override {A} (kwargs : list (TreeModel.str * option A)) (k : TreeModel.str) (x : A) : Prop := In (k, Some x) kwargs.
