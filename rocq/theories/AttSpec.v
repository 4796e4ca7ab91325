(** Vocabulary for C41 and C42. *)
From Coq Require Import List Arith Reals Bool.
From Verif Require Import Py EvalModel EvalSpec AttModel.
Import ListNotations.

(** A pixel after the attack, if finite, is within [eps] of the pixel before. *)
Definition within (eps : R) (x x' : fl) : Prop :=
  forall v, x' = Some v -> exists u, x = Some u /\ (Rabs (v - u) <= Rabs eps)%R.
Definition finite (x : fl) : Prop := x <> None.

(** An attack of each image by itself *)
Definition attack_one {label} (grad : label -> image -> list gval) (delta : R) (y : label) : nat -> image -> image :=
  fix go n x :=
    match n with
    | O => x
    | S n => let x := go n x in map (fun xd => fadd (fst xd) (fmul (Some delta) (sign (snd xd)))) (combine x (grad y x))
    end.

(** What the model gives for one image: loss, prediction, value of the label at the prediction,
    and the weights of the experts for each token, by router *)
Record info := Info { i_loss : R; i_pred : nat; i_correct : R; i_cw : nat -> list (list R) }.
(** An image with its label and whether it is real *)
Record img (X Y : Type) := Img { m_x : X; m_y : Y; m_real : bool }.
Arguments Img {X Y}. Arguments m_x {X Y}. Arguments m_y {X Y}. Arguments m_real {X Y}.
(** A batch of images with marks, or, when all are real, maybe without *)
Definition att_batch {X Y} (b : bool * list (img X Y)) : list X * list Y * option (list bool) :=
  (map m_x (snd b), map m_y (snd b), if fst b then Some (map m_real (snd b)) else None).
Definition well_marked {X Y} (b : bool * list (img X Y)) : Prop := fst b = false -> Forall (fun e => m_real e = true) (snd b).
Definition reals {X Y} (bs : list (bool * list (img X Y))) : list (img X Y) := filter m_real (concat (map snd bs)).

(** The attack and the model treat each image by itself. *)
Definition each_alone {X Y rngs_t} (attack_fn : list X -> list Y -> rngs_t -> res (list X * rngs_t))
    (compute_fn : list X -> list Y -> rngs_t -> res outputs) (keys : list nat) (atk : X -> Y -> X) (inf : X -> Y -> info) : Prop :=
  (forall es r, exists r', attack_fn (map fst es) (map snd es) r = Ok (map (fun e => atk (fst e) (snd e)) es, r')) /\
  (forall es r, compute_fn (map fst es) (map snd es) r =
     Ok (Outputs (map (fun e => Some (i_loss (inf (fst e) (snd e)))) es) (map (fun e => i_pred (inf (fst e) (snd e))) es)
           (map (fun e => Some (i_correct (inf (fst e) (snd e)))) es) (map (fun k => (k, map (fun e => i_cw (inf (fst e) (snd e)) k) es)) keys))).
(** Each router has the same number of tokens, at least one, and of experts for all images. *)
Definition same_shape (keys : list nat) (cw : nat -> list (list R)) (tokens experts : nat -> nat) : Prop :=
  forall k, In k keys -> 0 < tokens k /\ length (cw k) = tokens k /\ Forall (fun row => length row = experts k) (cw k).

(** The experts selected for a token, and the intersection over union of two selections (0 when
    both are empty) *)
Definition selected (row : list R) (i : nat) : bool := if Rlt_dec 0 (nth i row 0%R) then true else false.
Definition set_iou (n : nat) (a b : nat -> bool) : R :=
  let inter := length (filter (fun i => a i && b i) (seq 0 n)) in
  let union := length (filter (fun i => a i || b i) (seq 0 n)) in
  if union =? 0 then 0%R else (INR inter / INR union)%R.
Definition mean_iou (n : nat) (a b : list (list R)) : R := mean (map (fun rs => set_iou n (selected (fst rs)) (selected (snd rs))) (combine a b)).
Definition total (l : list R) : R := fold_right Rplus 0%R l.
