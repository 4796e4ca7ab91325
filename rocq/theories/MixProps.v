(** C35: mixup mixes images and labels with the same weights.  Nothing but the theorems. *)
From Coq Require Import List Arith Reals Lra Lia.
From Verif Require Import Py NdArray NdLemmas TreeModel MixModel StepSpec MixSpec MixProofs.
Import ListNotations.
Local Open Scope nat_scope.

(** The train step sees a batch where every image and every label is a combination of the
    partners of the example, with the same nonnegative decreasing weights of sum 1; the weights
    are shared as the granularity tells. *)
Theorem C35_mixed {key out} (dirichlet : key -> R -> list nat -> nda R) (split_key : key -> key * key)
    dc (step : list (str * key) -> nda R -> nda R -> res (list (str * key) * out)) c gran k rngs images labels rngs' o :
  dirichlet_samples dirichlet -> (0 < c)%R -> 0 < k ->
  wrap_train_step_with_mixup key dirichlet split_key dc step (Some c) gran k rngs images labels = Ok (rngs', o) ->
  exists w images' labels' rngs1 key0,
    let b := nth 0 (dims images) 0 in
    good_weights b k w /\ as_granular gran dc b w /\ mixed dc k w images images' /\ mixed dc k w labels labels' /\
    nth 0 (dims labels) 0 = b /\ dc * (b / dc) = b /\ 0 < dc /\
    step (dremove rngs mixup_name) images' labels' = Ok (rngs1, o) /\
    dget rngs mixup_name = Some key0 /\ rngs' = dset rngs1 mixup_name (snd (split_key key0)).
Proof. intros DS. exact (wrap_ok key dirichlet DS split_key dc step c gran k rngs images labels rngs' o). Qed.
Print Assumptions C35_mixed.

(** Partners belong to the same device; the first partner (with the largest weight) is the
    example itself. *)
Theorem C35_same_device g b n i : 0 < g -> g * (b / g) = b -> n < b ->
  partner g b n i < b /\ partner g b n i / (b / g) = n / (b / g) /\ partner g b n 0 = n.
Proof. exact (partner_group g b n i). Qed.
Print Assumptions C35_same_device.

(** When every label has total [m] then so has every mixed label. *)
Theorem C35_label_mass g k w (x x' : nda R) b cl m :
  dims x = [b; cl] -> 0 < g -> g * (b / g) = b -> good_weights b k w -> mixed g k w x x' ->
  (forall n, n < b -> sum (map (fun c => at_ x [n; c]) (seq 0 cl)) = m) ->
  forall n, n < b -> sum (map (fun c => at_ x' [n; c]) (seq 0 cl)) = m.
Proof. exact (mixed_mass g k w x x' b cl m). Qed.
Print Assumptions C35_label_mass.

(** No failure when the batch can be split among the devices. *)
Theorem C35_no_error {key out} (dirichlet : key -> R -> list nat -> nda R) (split_key : key -> key * key)
    dc (step : list (str * key) -> nda R -> nda R -> res (list (str * key) * out)) c gran k rngs images labels p ri rl key0 :
  (0 < c)%R -> 0 < dc -> gran <> GOther -> dget rngs mixup_name = Some key0 ->
  dims images = dc * p :: ri -> dims labels = dc * p :: rl ->
  exists images' labels',
    wrap_train_step_with_mixup key dirichlet split_key dc step (Some c) gran k rngs images labels =
    bind (step (dremove rngs mixup_name) images' labels') (fun r => Ok (dset (fst r) mixup_name (snd (split_key key0)), snd r)).
Proof. exact (wrap_total key dirichlet split_key dc step c gran k rngs images labels p ri rl key0). Qed.
Print Assumptions C35_no_error.

(** Without concentration the step is untouched. *)
Theorem C35_off {key out} (dirichlet : key -> R -> list nat -> nda R) (split_key : key -> key * key)
    dc (step : list (str * key) -> nda R -> nda R -> res (list (str * key) * out)) gran k :
  wrap_train_step_with_mixup key dirichlet split_key dc step None gran k = step /\
  wrap_train_step_with_mixup key dirichlet split_key dc step (Some 0%R) gran k = step.
Proof. exact (wrap_off key dirichlet split_key dc step gran k). Qed.
Print Assumptions C35_off.

(** No random key, an unknown granularity, a negative concentration or numbers of images and
    labels that differ are errors. *)
Theorem C35_errors {key out} (dirichlet : key -> R -> list nat -> nda R) (split_key : key -> key * key)
    dc (step : list (str * key) -> nda R -> nda R -> res (list (str * key) * out)) c gran k rngs images labels :
  c <> 0%R ->
  dget rngs mixup_name = None \/
  (gran = GOther \/ (c < 0)%R \/ nth 0 (dims images) 0 <> nth 0 (dims labels) 0) /\
    0 < dc /\ dims images <> [] /\ dims labels <> [] /\ nth 0 (dims images) 0 mod dc = 0 /\ nth 0 (dims labels) 0 mod dc = 0 ->
  wrap_train_step_with_mixup key dirichlet split_key dc step (Some c) gran k rngs images labels = Raise ValueError.
Proof. exact (wrap_errors key dirichlet split_key dc step c gran k rngs images labels). Qed.
Print Assumptions C35_errors.

(** Four examples on two devices with samples 1/4, 3/4. *)
Definition ex_dirichlet (_ : unit) (_ : R) (shape : list nat) : nda R :=
  {| dims := shape; at_ := fun idx => if last shape 0 =? 2 then (if last idx 0 =? 0 then (1 / 4)%R else (3 / 4)%R) else if last idx 0 =? 0 then 1%R else 0%R |}.
Example ex_dirichlet_samples : dirichlet_samples ex_dirichlet.
Proof.
  intros r c shape b _ _ L. cbn [ex_dirichlet at_ last]. destruct (Nat.eqb_spec (last shape 0) 2) as [E|E].
  - rewrite E. split.
    + intros i Hi. rewrite last_last. destruct (i =? 0); lra.
    + cbn [seq map]. rewrite !last_last. cbn. lra.
  - split.
    + intros i _. rewrite last_last. destruct (i =? 0); lra.
    + destruct (last shape 0) as [|m]; [lia|]. cbn [seq map sum fold_right]. rewrite last_last. cbn [Nat.eqb].
      rewrite (map_ext_in _ (fun _ => 0%R)).
      * assert (Z : forall l : list nat, fold_right Rplus 0%R (map (fun _ => 0%R) l) = 0%R) by (induction l; simpl; lra). rewrite Z. lra.
      * intros i Hi. apply in_seq in Hi. rewrite last_last. destruct (Nat.eqb_spec i 0); auto. lia.
Qed.
Example ex_mixup : exists r,
  wrap_train_step_with_mixup unit ex_dirichlet (fun _ => (tt, tt)) 2 (fun rngs x y => Ok (rngs, (at_ x [0; 0; 0], at_ y [3; 1]))) (Some 1%R) GExample 2
    [([97], tt); (mixup_name, tt)] {| dims := [4; 3; 3]; at_ := fun i => INR (nth 0 i 0) |} {| dims := [4; 2]; at_ := fun i => if nth 1 i 0 =? nth 0 i 0 mod 2 then 1%R else 0%R |}
  = Ok r.
Proof.
  edestruct (C35_no_error (out := (R * R)%type) ex_dirichlet (fun _ : unit => (tt, tt)) 2) with (gran := GExample) (p := 2) (rngs := [([97], tt); (mixup_name, tt)])
    as (x & y & ->); [apply Rlt_0_1|lia|discriminate|reflexivity|reflexivity|reflexivity|]. cbn [bind]. eexists. reflexivity.
Qed.
