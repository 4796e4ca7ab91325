(** Auxiliary losses: of the routers (vmoe/nn/routing.py; C50), their sum over the layers of an
    encoder and the training objectives (vmoe/nn/vit_moe.py, vmoe/train/trainer.py,
    vmoe/projects/contrastive; C44, C53, C54).  Arithmetic over the reals; None is a value that
    is not finite. *)
From Coq Require Import Ascii String.
From Coq Require Import List Arith NArith Bool Reals.
From Verif Require BaseModel.
From Verif Require Import Prim SoftModel TreeModel EvalModel Py.
Import ListNotations.
Local Open Scope nat_scope.

Definition str := TreeModel.str.
Definition chars (x : string) : str := map nat_of_ascii (list_ascii_of_string x).
Definition k_aux : str := chars "auxiliary_loss".
Definition k_main : str := chars "main_loss".
Definition k_total : str := chars "total_loss".
Definition k_gshard : str := chars "gshard_loss".
Definition k_importance : str := chars "importance_loss".
Definition k_load : str := chars "load_loss".

(** A number, or an array with one entry per group *)
Inductive arr := Scalar (x : fl) | Array (l : list fl).
(** x + y and x * y of arrays, with broadcasting of numbers and of arrays with one entry *)
Fixpoint zip_fl (f : fl -> fl -> fl) (a b : list fl) : res (list fl) :=
  match a, b with
  | [], [] => Ok []
  | x :: a, y :: b => bind (zip_fl f a b) (fun r => Ok (f x y :: r))
  | _, _ => Raise TypeError
  end.
Definition arr_op (f : fl -> fl -> fl) (a b : arr) : res arr :=
  match a, b with
  | Scalar x, Scalar y => Ok (Scalar (f x y))
  | Scalar x, Array l => Ok (Array (map (f x) l))
  | Array l, Scalar y => Ok (Array (map (fun x => f x y) l))
  | Array [x], Array l => Ok (Array (map (f x) l))
  | Array l, Array [y] => Ok (Array (map (fun x => f x y) l))
  | Array l, Array m => bind (zip_fl f l m) (fun r => Ok (Array r))
  end.
(** python's sum: starts with the number 0 *)
Definition py_sum (l : list arr) : res arr := rfold (arr_op fadd) l (Scalar (Some 0%R)).

(** ** Losses of the router for experts chosen by items (vmoe/nn/routing.py:133-183) *)
(** jnp.mean over an axis of length n; an empty mean is NaN. *)
Definition fmean (n : nat) (f : nat -> R) : fl := fdiv (Some (sumf n f)) (Some (INR n)).
(** The square of std / mean (156-157, 182-183); jnp.std is the root of the mean square
    deviation. *)
Definition cv_squared (n : nat) (f : nat -> R) : fl :=
  match fmean n f with
  | None => None
  | Some mu =>
      match fmean n (fun i => (f i - mu) * (f i - mu))%R with
      | None => None
      | Some v => let q := fdiv (Some (sqrt v)) (Some mu) in fmul q q
      end
  end.
(** 150-157 [_importance_auxiliary_loss] of a group *)
Definition importance_auxiliary_loss (Sz E : nat) (gates : nat -> nat -> R) : fl :=
  cv_squared E (fun e => sumf Sz (fun s => gates s e)).
(** jnp.argmax: the first of the largest entries *)
Definition argmax (n : nat) (row : nat -> R) : nat :=
  fold_left (fun b i => if Rlt_dec (row b) (row i) then i else b) (seq 1 (n - 1)) 0.
(** 133-148 [_gshard_auxiliary_loss] of a group *)
Definition gshard_auxiliary_loss (Sz E : nat) (gates : nat -> nat -> R) : fl :=
  let mean_gates_per_expert := fun e => fmean Sz (fun s => gates s e) in
  let mean_top1_per_expert := fun e => fmean Sz (fun s => if argmax E (gates s) =? e then 1%R else 0%R) in
  let products := map (fun e => fmul (mean_top1_per_expert e) (mean_gates_per_expert e)) (seq 0 E) in
  let auxiliary_loss := fdiv (fsum products) (Some (INR E)) in
  fmul auxiliary_loss (Some (INR E * INR E)%R).

Section Load.
(** jax.scipy.stats.norm.cdf *)
Variable cdf : R -> R.
(** 159-183 [_load_auxiliary_loss] of a group.  top_k needs K <= E, which the router checks;
    [one_hot] then takes the entry of the row (170-172).  The mean of an empty group is NaN. *)
Definition rleb (a b : R) : bool := if Rle_dec a b then true else false.
Definition threshold (E K : nat) (row : nat -> R) : R :=
  let index := last (top_k rleb E K row) 0 in
  sumf E (fun e => ((if e =? index then 1 else 0) * row e)%R).
Definition load_auxiliary_loss (Sz E K : nat) (noise_std : R) (logits logits_noisy : nat -> nat -> R) : fl :=
  let p := fun s e => (1 - cdf ((threshold E K (logits_noisy s) - logits s e) / noise_std))%R in
  match fmean Sz (fun _ => 0%R) with
  | None => None
  | Some _ => cv_squared E (fun e => (sumf Sz (fun s => p s e) / INR Sz)%R)
  end.

(** 247-252 [_weighted_sum] *)
Definition weighted_sum (args : list (R * arr)) : res arr :=
  bind (rmap (fun wx => arr_op fmul (snd wx) (Scalar (Some (fst wx)))) (filter (fun wx => if Rlt_dec 0 (fst wx) then true else false) args))
    py_sum.

Definition softmax (E : nat) (row : nat -> R) (e : nat) : R := (exp (row e) / sumf E (fun i => exp (row i)))%R.
Definition groups (G : nat) (f : nat -> fl) : arr := Array (map f (seq 0 G)).
(** 62-114 [_compute_gates_softmax_and_metrics]; the dense layer gives [logits], jax.random
    [normal].  Inputs that do not have three axes are not modelled. *)
Definition compute_gates_softmax_and_metrics (G Sz E K : nat) (deterministic : bool) (noise_std gshard_loss_weight importance_loss_weight load_loss_weight : R)
    (logits normal : nat -> nat -> nat -> R) : res ((nat -> nat -> nat -> R) * list (str * tree arr)) :=
  if negb ((K <=? E) && (1 <=? K)) then Raise ValueError
  else
    let gates_softmax := fun g s => softmax E (logits g s) in
    let importance_loss := groups G (fun g => importance_auxiliary_loss Sz E (gates_softmax g)) in
    if deterministic || (if Req_EM_T noise_std 0 then true else false) then
      let gshard_loss := groups G (fun g => gshard_auxiliary_loss Sz E (gates_softmax g)) in
      bind (weighted_sum [(gshard_loss_weight, gshard_loss); (importance_loss_weight, importance_loss)]) (fun aux =>
      Ok (gates_softmax, [(k_aux, Leaf aux); (k_gshard, Leaf gshard_loss); (k_importance, Leaf importance_loss)]))
    else
      let noise_std := (1 / INR E * noise_std)%R in
      let logits_noisy := fun g s e => (logits g s e + noise_std * normal g s e)%R in
      let gates_softmax_noisy := fun g s => softmax E (logits_noisy g s) in
      let load_loss := groups G (fun g => load_auxiliary_loss Sz E K noise_std (logits g) (logits_noisy g)) in
      let gshard_loss := groups G (fun g => gshard_auxiliary_loss Sz E (gates_softmax_noisy g)) in
      bind (weighted_sum [(gshard_loss_weight, gshard_loss); (importance_loss_weight, importance_loss); (load_loss_weight, load_loss)]) (fun aux =>
      Ok (gates_softmax_noisy, [(k_aux, Leaf aux); (k_gshard, Leaf gshard_loss); (k_importance, Leaf importance_loss);
                                (k_load, Leaf load_loss)])).
End Load.

(** ** The encoder (vmoe/nn/vit_moe.py:252-264) *)
Section Encoder.
Variable X : Type.
Definition metrics_t := list (str * tree arr).
(** Block i with a MoE, and with a dense MLP *)
Variable moe_block : nat -> X -> res (X * metrics_t).
Variable dense_block : nat -> X -> res X.
Definition block_key (i : nat) : str := chars "encoderblock_" ++ map N.to_nat (BaseModel.str_of_N (N.of_nat i)).
(** m['auxiliary_loss'] *)
Definition get_aux (t : tree arr) : res arr :=
  match t with
  | Leaf _ => Raise TypeError
  | Node m => match dget m k_aux with None => Raise KeyError | Some (Leaf a) => Ok a | Some (Node _) => Raise TypeError end
  end.
(** The position embedding, the dropout and the final norm only change [x] and are not
    modelled. *)
Definition encoder (num_layers : nat) (moe_mlp_layers : list nat) (x : X) : res (X * metrics_t) :=
  bind (rfold (fun st block =>
          let '(x, metrics) := st in
          if existsb (Nat.eqb block) moe_mlp_layers
          then bind (moe_block block x) (fun r => Ok (fst r, dset metrics (block_key block) (Node (snd r))))
          else bind (dense_block block x) (fun x => Ok (x, metrics)))
        (seq 0 num_layers) (x, [])) (fun st =>
  let '(x, metrics) := st in
  bind (bind (rmap (fun kv => get_aux (snd kv)) metrics) py_sum) (fun aux =>
  Ok (x, dset metrics k_aux (Leaf aux)))).
End Encoder.

(** ** The objective of a training step (vmoe/train/trainer.py:659-667, and the same lines of
    vmoe/projects/contrastive/trainer.py:237-247): the total loss and the metrics *)
Definition mean_arr (a : arr) : fl := match a with Scalar x => x | Array l => fdiv (fsum l) (Some (INR (List.length l))) end.
Fixpoint tree_mean (t : tree arr) : tree fl :=
  match t with Leaf a => Leaf (mean_arr a) | Node cs => Node (map (fun kc => (fst kc, tree_mean (snd kc))) cs) end.
Definition objective (metrics : list (str * tree arr)) (losses : list fl) : res (fl * list (str * tree fl)) :=
  let metrics := dset metrics k_main (Leaf (Scalar (mean_arr (Array losses)))) in
  let metrics := map (fun kc => (fst kc, tree_mean (snd kc))) metrics in
  bind (match dget metrics k_main with Some (Leaf x) => Ok x | _ => Raise TypeError end) (fun main_loss =>
  bind (match dget metrics k_aux with None => Ok (Some 0%R) | Some (Leaf x) => Ok x | Some (Node _) => Raise TypeError end) (fun aux =>
  let total_loss := fadd main_loss aux in
  Ok (total_loss, dset metrics k_total (Leaf total_loss)))).

(** ** Contrastive training *)
(** vmoe/projects/contrastive/models.py:137-186 [TwoTower.__call__].  The embeddings of a tower
    are vectors of length D, one per row. *)
Section TwoTower.
Variables I T : Type.
Variable img_model : I -> res ((nat -> nat -> R) * metrics_t).
Variable txt_model : T -> res ((nat -> nat -> R) * metrics_t).
Definition eps8 : R := (/ 100000000)%R.
Definition unit_rows (D : nat) (z : nat -> nat -> R) (i d : nat) : R := (z i d / (sqrt (sumf D (fun k => z i k * z i k)) + eps8))%R.
Definition logits_of (D : nat) (s : R) (b : option R) (zimg ztxt : nat -> nat -> R) (m n : nat) : R :=
  let logits := (sumf D (fun d => zimg m d * ztxt n d) * exp s)%R in
  match b with Some b => (logits + b)%R | None => logits end.
Definition k_img := chars "img". Definition k_txt := chars "txt". Definition k_scale := chars "scale".
Definition two_tower (D : nat) (s : R) (b : option R) (images : option I) (texts : option T) : res ((nat -> nat -> R) * metrics_t) :=
  let img x := bind (img_model x) (fun r => Ok (unit_rows D (fst r), snd r)) in
  let txt x := bind (txt_model x) (fun r => Ok (unit_rows D (fst r), snd r)) in
  match images, texts with
  | None, None => Raise ValueError
  | Some x, None => bind (img x) (fun r => Ok (fst r, [(k_img, Node (snd r))]))
  | None, Some x => bind (txt x) (fun r => Ok (fst r, [(k_txt, Node (snd r))]))
  | Some x, Some y =>
      bind (img x) (fun ri => bind (txt y) (fun rt =>
      Ok (logits_of D s b (fst ri) (fst rt),
          [(k_img, Node (snd ri)); (k_txt, Node (snd rt)); (k_scale, Leaf (Scalar (Some (exp s))))])))
  end.
End TwoTower.

(** vmoe/projects/contrastive/trainer.py:214-223 [sigmoid_loss] of logits (M, N) *)
Definition log_sigmoid (x : R) : R := ln (/ (1 + exp (- x))).
Definition sigmoid_loss (M N : nat) (logits : nat -> nat -> R) : res (list fl) :=
  if negb (M =? N) then Raise ValueError
  else
    let z := fun m n => (2 * (if m =? n then 1 else 0) - 1)%R in
    Ok (map (fun m => Some (- sumf N (fun n => log_sigmoid (logits m n * z m n)))%R) (seq 0 M)).
(** contrastive/trainer.py:237-247: the objective for a batch of M images and N texts *)
Definition contrastive_objective {I T} (img_model : I -> res ((nat -> nat -> R) * metrics_t)) (txt_model : T -> res ((nat -> nat -> R) * metrics_t))
    (D M N : nat) (s : R) (b : option R) (images : I) (texts : T) : res (fl * list (str * tree fl)) :=
  bind (two_tower I T img_model txt_model D s b (Some images) (Some texts)) (fun r =>
  bind (sigmoid_loss M N (fst r)) (fun losses =>
  objective (snd r) losses)).
(** trainer.py:661-667: the objective of a classifier with a MoE encoder.  [head] makes the
    losses of the examples from the encoded tokens. *)
Definition classification_objective {X} (moe_block : nat -> X -> res (X * metrics_t)) (dense_block : nat -> X -> res X)
    (num_layers : nat) (moe_mlp_layers : list nat) (head : X -> list fl) (x : X) : res (fl * list (str * tree fl)) :=
  bind (encoder X moe_block dense_block num_layers moe_mlp_layers x) (fun r =>
  objective (snd r) (head (fst r))).
