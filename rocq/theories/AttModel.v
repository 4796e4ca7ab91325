(** Adversarial attacks (vmoe/projects/adversarial_attacks/attacks.py:23-191; C41 and C42).
    Pixels and losses are floats as in EvalModel: a real number, or None when not finite. *)
From Coq Require Import List Arith Bool Reals.
From Verif Require Import Py EvalModel.
Import ListNotations.

(** ** The attack *)
(** An entry of a gradient *)
Inductive gval := Fin (x : R) | PInf | NInf | GNaN.
(** jnp.sign *)
Definition sign (g : gval) : fl :=
  match g with
  | Fin x => Some (match total_order_T x 0 with inleft (left _) => (-1)%R | inleft (right _) => 0%R | inright _ => 1%R end)
  | PInf => Some 1%R
  | NInf => Some (-1)%R
  | GNaN => None
  end.
(** Elementwise operations on arrays of the same shape *)
Fixpoint zip {A B C} (f : A -> B -> res C) (a : list A) (b : list B) : res (list C) :=
  match a, b with
  | [], [] => Ok []
  | x :: a, y :: b => bind (f x y) (fun z => bind (zip f a b) (fun r => Ok (z :: r)))
  | _, _ => Raise TypeError
  end.
(** An image, with its pixels in a row *)
Definition image := list fl.

Section PGD.
(** The gradient of the mean loss of a batch of images, by the keys (None without keys) and the
    labels; the random keys. *)
Variable label rng : Type.
Variable compute_loss_grads : list label -> list image -> option rng -> res (list (list gval)).
(** jax.random.split(rng, n) *)
Variable split : rng -> nat -> list rng.

(** 164-169 [update]; the keys are a tree of keys, here just one. *)
Definition update (delta : R) (labels : list label) (rngs : option (list rng)) (x_c : list image) (i : nat) : res (list image) :=
  bind (match rngs with
        | None => Ok None
        | Some rngs => match nth_error rngs i with Some r => Ok (Some r) | None => Raise IndexError end
        end) (fun rngs_c =>
  bind (compute_loss_grads labels x_c rngs_c) (fun dx =>
  zip (zip (fun x d => Ok (fadd x (fmul (Some delta) (sign d))))) x_c dx)).
(** 132-174 [stateless_attack_pgd] *)
Definition stateless_attack_pgd (max_epsilon : R) (num_updates : nat) (images : list image) (labels : list label) (rngs : option rng)
  : res (list image * option rng) :=
  if num_updates =? 0 then Raise ZeroDivisionError
  else
    let delta := (max_epsilon / INR num_updates)%R in
    let rngs := option_map (fun r => split r (num_updates + 1)) rngs in
    bind (rfold (update delta labels rngs) (seq 0 num_updates) images) (fun images =>
    match rngs with
    | None => Ok (images, None)
    | Some rngs => match nth_error rngs (length rngs - 1) with Some r => Ok (images, Some r) | None => Raise IndexError end
    end).
End PGD.

(** ** Statistics *)
(** 177-191 [sum_intersection_over_union]: the experts of each token of each image *)
Definition positive (x : R) : R := if Rlt_dec 0 x then 1%R else 0%R.
Definition rsum (l : list R) : R := fold_right Rplus 0%R l.
Definition token_iou (a b : list R) : res R :=
  if negb (length a =? length b) then Raise AssertionError
  else
    let a := map positive a in
    let b := map positive b in
    let a_intersection_b := rsum (map (fun xy => (fst xy * snd xy)%R) (combine a b)) in
    let a_union_b := (rsum (map (fun xy => (fst xy + snd xy)%R) (combine a b)) - a_intersection_b)%R in
    Ok (if Rlt_dec 0 a_union_b then (a_intersection_b / a_union_b)%R else 0%R).
(** Arrays of different shapes *)
Definition zip_assert {A B C} (f : A -> B -> res C) (a : list A) (b : list B) : res (list C) :=
  if length a =? length b then zip f a b else Raise AssertionError.
(** num_tokens is that of the first image; an empty batch has the sum zero. *)
Definition sum_intersection_over_union (a b : list (list (list R))) : res fl :=
  bind (zip_assert (zip_assert token_iou) a b) (fun ious =>
  match a with
  | [] => Ok (Some 0%R)
  | a0 :: _ => Ok (fdiv (Some (rsum (map rsum ious))) (Some (INR (length a0))))
  end).

Section Stats.
(** Images, labels and random keys *)
Variable X Y rngs_t : Type.
(** Loss, prediction, the value of the label at the prediction, and combine weights per router,
    of each image (restore.py:38-52) *)
Record outputs := Outputs { o_loss : list fl; o_pred : list nat; o_correct : list fl; o_cw : list (nat * list (list (list R))) }.
Variable attack_fn : list X -> list Y -> rngs_t -> res (list X * rngs_t).
Variable compute_fn : list X -> list Y -> rngs_t -> res outputs.

(** 23-62 [AttackState]; max_updates is not used.  Dictionaries are in the order of their keys. *)
Record attack_state := AttackState {
  num_images : nat; num_changes : nat; num_correct : fl * fl; sum_loss : fl * fl; sum_iou_experts : list (nat * fl); rngs : rngs_t }.
Definition create (router_keys : list nat) (rngs : rngs_t) : attack_state :=
  AttackState 0 0 (Some 0%R, Some 0%R) (Some 0%R, Some 0%R) (map (fun k => (k, Some 0%R)) router_keys) rngs.
(** tree_map over two dictionaries *)
Definition dict_map {A B C} (f : A -> B -> res C) (a : list (nat * A)) (b : list (nat * B)) : res (list (nat * C)) :=
  if list_eq_dec Nat.eq_dec (map fst a) (map fst b)
  then zip (fun x y => bind (f (snd x) (snd y)) (fun z => Ok (fst x, z))) a b
  else Raise ValueError.
(** 64-69 [update] *)
Definition state_update (s : attack_state) (r : rngs_t) (images changes : nat) (correct loss : fl * fl) (iou : list (nat * fl)) : res attack_state :=
  bind (dict_map (fun x y => Ok (fadd x y)) (sum_iou_experts s) iou) (fun iou =>
  Ok (AttackState (num_images s + images) (num_changes s + changes)
        (fadd (fst (num_correct s)) (fst correct), fadd (snd (num_correct s)) (snd correct))
        (fadd (fst (sum_loss s)) (fst loss), fadd (snd (sum_loss s)) (snd loss)) iou r)).

(** 97-105 [mask], by the product with a boolean for each type of value *)
Definition mask {A} (mul : A -> bool -> A) (valid : option (list bool)) (a : list A) : res (list A) :=
  match valid with
  | None => Ok a
  | Some v => if length v =? length a then zip (fun x b => Ok (mul x b)) a v else Raise AssertionError
  end.
Definition bool_num (b : bool) : R := if b then 1%R else 0%R.
Definition mask_outputs (valid : option (list bool)) (o : outputs) : res outputs :=
  bind (mask (fun x b => fmul x (Some (bool_num b))) valid (o_loss o)) (fun l =>
  bind (mask (fun x (b : bool) => if b then x else 0) valid (o_pred o)) (fun p =>
  bind (mask (fun x b => fmul x (Some (bool_num b))) valid (o_correct o)) (fun c =>
  bind (rmap (fun kc => bind (mask (fun x b => map (map (fun w => (w * bool_num b)%R)) x) valid (snd kc)) (fun m => Ok (fst kc, m))) (o_cw o)) (fun w =>
  Ok (Outputs l p c w))))).
Definition count (l : list bool) : nat := length (filter (fun b => b) l).

(** 72-129 [stateful_attack]; of the results, the state and the images after the attack *)
Definition stateful_attack (s : attack_state) (x : list X) (y : list Y) (valid : option (list bool)) : res (attack_state * list X) :=
  bind (attack_fn x y (rngs s)) (fun xr =>
  let '(x_m, new_rngs) := xr in
  bind (compute_fn x y (rngs s)) (fun o_0 =>
  bind (compute_fn x_m y new_rngs) (fun o_m =>
  bind (mask_outputs valid o_0) (fun o_0 =>
  bind (mask_outputs valid o_m) (fun o_m =>
  let images := match valid with None => length x | Some v => count v end in
  bind (zip (fun a b => Ok (negb (a =? b))) (o_pred o_m) (o_pred o_0)) (fun changed =>
  bind (dict_map sum_intersection_over_union (o_cw o_0) (o_cw o_m)) (fun iou =>
  bind (state_update s new_rngs images (count changed) (fsum (o_correct o_0), fsum (o_correct o_m)) (fsum (o_loss o_0), fsum (o_loss o_m)) iou) (fun s =>
  Ok (s, x_m))))))))).

(** lib.py:191-199: the loop of [run_pgd_attack] over the batches of images, labels and marks *)
Definition run_pgd_attack (s : attack_state) (dataset : list (list X * list Y * option (list bool))) : res attack_state :=
  rfold (fun s b => let '(x, y, valid) := b in bind (stateful_attack s x y valid) (fun r => Ok (fst r))) dataset s.
End Stats.
