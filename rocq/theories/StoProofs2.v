(** The reports of a run are what the stored examples say. *)
From Coq Require Import String List Arith ZArith Bool Reals Lra Lia.
From Verif Require Import EvalModel AttModel AttSpec AttProofs StoModel StoSpec StoProofs Py PyLemmas.
Import ListNotations.
Local Open Scope list_scope.
Local Open Scope nat_scope.

Lemma fadd_assoc a b c : fadd (fadd a b) c = fadd a (fadd b c).
Proof. destruct a, b, c; simpl; auto. f_equal. lra. Qed.
Lemma fadd_0 a : fadd (Some 0%R) a = a.
Proof. destruct a; simpl; auto. f_equal. lra. Qed.
Lemma fold_fadd l : forall a, fold_left fadd l a = fadd a (fsum l).
Proof.
  unfold fsum. induction l as [|x l IH]; intros a; cbn [fold_left].
  - destruct a; simpl; auto. f_equal. lra.
  - rewrite IH, (IH (fadd (Some 0%R) x)), fadd_0, fadd_assoc. reflexivity.
Qed.
Lemma fsum_app a b : fsum (a ++ b) = fadd (fsum a) (fsum b).
Proof. unfold fsum at 1. rewrite fold_left_app, fold_fadd. reflexivity. Qed.
Lemma count_app a b : count (a ++ b) = count a + count b.
Proof. unfold count. rewrite filter_app, app_length. reflexivity. Qed.
Lemma combine_app {A B} (a a' : list A) (b b' : list B) : length a = length b -> combine (a ++ a') (b ++ b') = combine a b ++ combine a' b'.
Proof. revert b. induction a as [|x a IH]; intros [|y b] E; simpl in *; try discriminate; auto. f_equal. apply IH. lia. Qed.

Section Run.
Variable X Y rngs_t : Type.
Variable attack_fn : list X -> list Y -> rngs_t -> res (list X * rngs_t).
Variable compute_fn : list X -> list Y -> rngs_t -> res outputs.
Variable name : nat -> string.
Notation state := (attack_state rngs_t).
Notation attack := (attack X Y rngs_t attack_fn compute_fn).
Notation cell := (cell X Y).

(** The attack is the one of C42. *)
Lemma attack_same s x y v : stateful_attack X Y rngs_t attack_fn compute_fn s x y (Some v) = bind (attack s x y v) (fun r => Ok (fst (fst (fst r)), snd (fst (fst r)))).
Proof.
  unfold stateful_attack, StoModel.attack. destruct (attack_fn x y (rngs _ s)) as [[x_m r]|]; [|reflexivity]. cbn [bind].
  destruct (compute_fn x y (rngs _ s)) as [o0|]; [|reflexivity]. cbn [bind]. destruct (compute_fn x_m y r) as [om|]; [|reflexivity]. cbn [bind].
  destruct (mask_outputs (Some v) o0) as [m0|]; [|reflexivity]. cbn [bind]. destruct (mask_outputs (Some v) om) as [mm|]; [|reflexivity]. cbn [bind].
  destruct (zip _ (o_pred mm) (o_pred m0)) as [ch|]; [|reflexivity]. cbn [bind]. destruct (dict_map _ (o_cw m0) (o_cw mm)) as [iou|]; [|reflexivity]. cbn [bind].
  destruct (state_update _ _ _ _ _ _ _ _) as [s'|]; reflexivity.
Qed.

(** The batches with what was computed for them *)
Record result := Res { r_x : list X; r_y : list Y; r_v : list bool; r_xm : list X; r_0 : outputs; r_m : outputs }.
Definition arrays (r : result) : list (string * arr cell) := batch_arrays X Y name (r_x r) (r_y r) (r_v r) (r_xm r) (r_0 r) (r_m r).
Inductive attacked : state -> list (list X * list Y * list bool) -> list result -> state -> Prop :=
| att_nil s : attacked s [] [] s
| att_cons s x y v s1 xm o0 om bs rs s' : attack s x y v = Ok (s1, xm, o0, om) -> attacked s1 bs rs s' ->
    attacked s ((x, y, v) :: bs) (Res x y v xm o0 om :: rs) s'.
Lemma loop_attacked bs : forall n s st c, rfold (step X Y rngs_t attack_fn compute_fn name) bs (n, s, st) = Ok c ->
  exists rs s', attacked s bs rs s' /\ snd (fst c) = s' /\
  match st with
  | None => snd c = None
  | Some st => forall h, forall every, every <> 0%Z -> holds cell every h st -> exists st', snd c = Some st' /\ holds cell every (h ++ flat_map arrays rs) st'
  end.
Proof.
  induction bs as [|[[x y] v] bs IH]; intros n s st c E.
  - simpl in E. apply Ok_inj in E. subst c. exists [], s. split; [constructor|]. split; [reflexivity|]. destruct st as [st|]; [|reflexivity].
    intros h every NZ H. exists st. cbn. rewrite app_nil_r. auto.
  - cbn [rfold] in E. unfold step at 1 in E. apply bind_ok in E. destruct E as [c1 [E1 E]]. apply bind_ok in E1. destruct E1 as [[[[s1 xm] o0] om] [A E1]].
    destruct st as [st|].
    + apply bind_ok in E1. destruct E1 as [st1 [S E1]]. apply Ok_inj in E1. subst c1. destruct (IH _ _ _ _ E) as (rs & s' & HA & Hs & HS).
      exists (Res x y v xm o0 om :: rs), s'. split; [econstructor; eauto|]. split; [exact Hs|]. intros h every NZ H.
      destruct (store_holds cell every h st n (batch_arrays X Y name x y v xm o0 om) NZ H) as [st1' [S' H1]]. rewrite S in S'. apply Ok_inj in S'. subst st1'.
      destruct (HS _ every NZ H1) as [st' [E' H']]. exists st'. split; [exact E'|]. cbn [flat_map]. rewrite app_assoc. exact H'.
    + apply Ok_inj in E1. subst c1. destruct (IH _ _ _ _ E) as (rs & s' & HA & Hs & HS). exists (Res x y v xm o0 om :: rs), s'. split; [econstructor; eauto|]. auto.
Qed.

(** Lengths of masked outputs *)
Lemma mask_len {A} (mul : A -> bool -> A) v a a' : mask mul (Some v) a = Ok a' -> a' = map (fun xb => mul (fst xb) (snd xb)) (combine a v) /\ length a = length v.
Proof.
  unfold mask. destruct (length v =? length a) eqn:L; [|discriminate]. apply Nat.eqb_eq in L. rewrite zip_total by lia. intros E. apply Ok_inj in E. subst. split; auto.
Qed.
Definition masked_cw (v : list bool) (w : list (list (list R))) : list (list (list R)) :=
  map (fun xb => map (map (fun u => (u * bool_num (snd xb))%R)) (fst xb)) (combine w v).
Lemma mask_outputs_inv v o m : mask_outputs (Some v) o = Ok m ->
  o_loss m = map (fun xb => fmul (fst xb) (Some (bool_num (snd xb)))) (combine (o_loss o) v) /\
  o_pred m = map (fun xb : nat * bool => if snd xb then fst xb else 0) (combine (o_pred o) v) /\
  o_correct m = map (fun xb => fmul (fst xb) (Some (bool_num (snd xb)))) (combine (o_correct o) v) /\
  o_cw m = map (fun kw => (fst kw, masked_cw v (snd kw))) (o_cw o) /\
  length (o_loss o) = length v /\ length (o_pred o) = length v /\ length (o_correct o) = length v /\ Forall (fun kw => length (snd kw) = length v) (o_cw o).
Proof.
  unfold mask_outputs. intros E. apply bind_ok in E. destruct E as [l [El E]]. apply bind_ok in E. destruct E as [p [Ep E]].
  apply bind_ok in E. destruct E as [c [Ec E]]. apply bind_ok in E. destruct E as [w [Ew E]]. apply Ok_inj in E. subst m. cbn [o_loss o_pred o_correct o_cw].
  apply mask_len in El. apply mask_len in Ep. apply mask_len in Ec. destruct El as [-> L1], Ep as [-> L2], Ec as [-> L3].
  apply rmap_ok in Ew.
  assert (W : w = map (fun kw => (fst kw, masked_cw v (snd kw))) (o_cw o) /\ Forall (fun kw => length (snd kw) = length v) (o_cw o)).
  { induction Ew as [|kc kw l' w' H F IH]; [split; [reflexivity|constructor]|]. destruct IH as [-> IH]. apply bind_ok in H. destruct H as [m [Hm H]].
    apply Ok_inj in H. subst kw. apply mask_len in Hm. destruct Hm as [-> L]. split; [reflexivity|constructor; auto]. }
  destruct W. auto 10.
Qed.

(** Facts about one attack *)
Variables (value : Y -> nat -> R) (tokens experts : nat -> nat).
Hypothesis SOUND : sound_outputs X Y compute_fn value tokens experts.
Definition well_formed (b : list X * list Y * list bool) : Prop := length (snd (fst b)) = length (snd b).
Definition masked_shape (v : list bool) (o : outputs) : Prop :=
  Forall (fun kw => 0 < tokens (fst kw) /\ length (snd kw) = length v /\
    Forall (fun im => length im = tokens (fst kw) /\ Forall (fun row => length row = experts (fst kw)) im) (snd kw)) (o_cw o).
Definition hits_of (r : result) (o : outputs) : R :=
  total (map (fun vyp : bool * (Y * nat) => if fst vyp then value (fst (snd vyp)) (snd (snd vyp)) else 0%R) (combine (r_v r) (combine (r_y r) (o_pred o)))).
Lemma correct_hits v (y : list Y) (p : list nat) : length y = length v -> length p = length v ->
  fsum (map (fun xb => fmul (fst xb) (Some (bool_num (snd xb)))) (combine (map (fun yp => Some (value (fst yp) (snd yp))) (combine y p)) v)) =
  Some (total (map (fun vyp : bool * (Y * nat) => if fst vyp then value (fst (snd vyp)) (snd (snd vyp)) else 0%R) (combine v (combine y (map (fun xb : nat * bool => if snd xb then fst xb else 0) (combine p v)))))).
Proof.
  revert y p. induction v as [|b v IH]; intros [|a y] [|q p] Ly Lp; try discriminate; [reflexivity|]. simpl in Ly, Lp.
  cbn [combine map fst snd fmul]. change (fsum (?x :: ?l)) with (fold_left fadd l (fadd (Some 0%R) x)). rewrite fadd_0, fold_fadd, IH by lia. cbn [fadd].
  f_equal. unfold total. cbn [fold_right]. f_equal. destruct b; cbn [bool_num]; lra.
Qed.
Lemma masked_cw_shape v w t n : length w = length v -> Forall (fun im => length im = t /\ Forall (fun row => length row = n) im) w ->
  length (masked_cw v w) = length v /\ Forall (fun im => length im = t /\ Forall (fun row => length row = n) im) (masked_cw v w).
Proof.
  unfold masked_cw. intros L F. split; [rewrite map_length, combine_length; lia|]. apply Forall_forall. intros im H. apply in_map_iff in H.
  destruct H as [[a b] [<- H]]. apply in_combine_l in H. rewrite Forall_forall in F. destruct (F a H) as [L1 F1]. cbn [fst snd]. rewrite map_length. split; [exact L1|].
  apply Forall_forall. intros row Hr. apply in_map_iff in Hr. destruct Hr as [r0 [<- Hr]]. rewrite map_length. rewrite Forall_forall in F1. auto.
Qed.
Lemma compute_facts x y r o v m : compute_fn x y r = Ok o -> mask_outputs (Some v) o = Ok m -> length y = length v ->
  fsum (o_correct m) = Some (total (map (fun vyp : bool * (Y * nat) => if fst vyp then value (fst (snd vyp)) (snd (snd vyp)) else 0%R) (combine v (combine y (o_pred m))))) /\
  length (o_loss m) = length v /\ length (o_pred m) = length v /\ masked_shape v m /\ map fst (o_cw m) = map fst (o_cw o).
Proof.
  intros C M L. destruct (SOUND _ _ _ _ C) as [Ec Fw]. destruct (mask_outputs_inv _ _ _ M) as (E1 & E2 & E3 & E4 & L1 & L2 & L3 & L4).
  split; [rewrite E3, Ec, E2; apply correct_hits; auto|]. split; [rewrite E1, map_length, combine_length; lia|]. split; [rewrite E2, map_length, combine_length; lia|].
  split; [|rewrite E4, map_map; reflexivity].
  unfold masked_shape. rewrite E4. apply Forall_forall. intros kw H. apply in_map_iff in H. destruct H as [[k w] [<- H]]. cbn [fst snd].
  rewrite Forall_forall in Fw, L4. destruct (Fw _ H) as [T F]. assert (Lw := L4 _ H). cbn [fst snd] in *. destruct (masked_cw_shape v w _ _ Lw F) as [A B]. auto.
Qed.
(** The weights of a router *)
Fixpoint assoc (k : nat) (l : list (nat * list (list (list R)))) : list (list (list R)) :=
  match l with [] => [] | (k', w) :: r => if k =? k' then w else assoc k r end.
Lemma assoc_form l : NoDup (map fst l) -> l = map (fun k => (k, assoc k l)) (map fst l).
Proof.
  intros D. rewrite map_map. rewrite <- (map_id l) at 1. apply map_ext_in. intros [k w] H. cbn [fst]. f_equal.
  induction l as [|[k' w'] l IH]; [contradiction|]. simpl in D. inversion D as [|? ? N D']; subst. cbn [assoc]. destruct H as [H|H].
  - injection H as -> ->. rewrite Nat.eqb_refl. reflexivity.
  - destruct (Nat.eqb_spec k k') as [->|]; [exfalso; apply N; apply in_map_iff; exists (k', w); auto|auto].
Qed.
Definition iou_total (k : nat) (rs : list result) : R :=
  total (map (fun e => mean_iou (experts k) (fst e) (snd e)) (combine (flat_map (fun r => assoc k (o_cw (r_0 r))) rs) (flat_map (fun r => assoc k (o_cw (r_m r))) rs))).
(** A result as it should be *)
Definition good (keys : list nat) (r : result) : Prop :=
  let n := length (r_v r) in
  length (r_y r) = n /\ length (o_loss (r_0 r)) = n /\ length (o_loss (r_m r)) = n /\ length (o_pred (r_0 r)) = n /\ length (o_pred (r_m r)) = n /\
  map fst (o_cw (r_0 r)) = keys /\ map fst (o_cw (r_m r)) = keys /\ masked_shape (r_v r) (r_0 r) /\ masked_shape (r_v r) (r_m r).
Definition changes (r : result) : nat := length (filter (fun ab => negb (fst ab =? snd ab)) (combine (o_pred (r_m r)) (o_pred (r_0 r)))).
Lemma zip_eq_count a : forall b ch, zip (fun a b => Ok (negb (a =? b))) a b = Ok ch ->
  count ch = length (filter (fun ab => negb (fst ab =? snd ab)) (combine a b)).
Proof.
  induction a as [|x a IH]; intros [|y b] ch E; simpl in E; try discriminate; [apply Ok_inj in E; subst; reflexivity|].
  apply bind_ok in E. destruct E as [c [Ec E]]. apply Ok_inj in E. subst ch. unfold count in *. cbn [filter combine fst snd]. destruct (negb (x =? y)); simpl; rewrite (IH _ _ Ec); reflexivity.
Qed.
Lemma dict_map_inv {A B C} (f : A -> B -> res C) a b c : dict_map f a b = Ok c ->
  map fst a = map fst b /\ map fst c = map fst a /\ Forall2 (fun xy z => f (snd (fst xy)) (snd (snd xy)) = Ok (snd z)) (combine a b) c.
Proof.
  unfold dict_map. destruct (list_eq_dec _ _ _) as [E|]; [|discriminate]. intros H. split; [exact E|]. apply zip_ok in H. destruct H as [L F].
  clear E. revert b c L F. induction a as [|x a IH]; intros [|y b] c L F; simpl in *; try discriminate.
  - inversion F; subst. split; [reflexivity|constructor].
  - inversion F as [|? z ? c' H F']; subst. cbn [fst snd] in H. apply bind_ok in H. destruct H as [w [Hw H]]. apply Ok_inj in H. subst z.
    destruct (IH b c' ltac:(lia) F') as [E G]. split; [cbn; congruence|]. constructor; auto.
Qed.
Lemma dict_map_form {A B C} (f : A -> B -> res C) (a : nat -> A) (b : nat -> B) ks c : dict_map f (map (fun k => (k, a k)) ks) (map (fun k => (k, b k)) ks) = Ok c ->
  forall g, (forall k, In k ks -> f (a k) (b k) = Ok (g k)) -> c = map (fun k => (k, g k)) ks.
Proof.
  intros H g G. apply dict_map_inv in H. destruct H as [_ [E F]]. rewrite map_map in E. cbn [fst] in E. rewrite map_id in E.
  revert c E F. induction ks as [|k ks IH]; intros c E F; [destruct c; [reflexivity|discriminate]|].
  destruct c as [|[k' z] c]; [discriminate|]. cbn [map fst] in E. injection E as -> E. cbn [map combine] in F. inversion F as [|? ? ? ? H F']; subst. cbn [fst snd] in H.
  cbn [map]. rewrite (G k (or_introl eq_refl)) in H. apply Ok_inj in H. subst z. f_equal. apply IH; auto. intros q Hq. apply G. right; auto.
Qed.
(** One attack: the state grows by the result. *)
Lemma attack_facts s x y v s1 xm o0 om keys f : attack s x y v = Ok (s1, xm, o0, om) -> length y = length v -> NoDup keys ->
  sum_iou_experts _ s = map (fun k => (k, f k)) keys ->
  let r := Res x y v xm o0 om in
  good keys r /\ num_images _ s1 = num_images _ s + count v /\ num_changes _ s1 = num_changes _ s + changes r /\
  num_correct _ s1 = (fadd (fst (num_correct _ s)) (Some (hits_of r o0)), fadd (snd (num_correct _ s)) (Some (hits_of r om))) /\
  sum_loss _ s1 = (fadd (fst (sum_loss _ s)) (fsum (o_loss o0)), fadd (snd (sum_loss _ s)) (fsum (o_loss om))) /\
  sum_iou_experts _ s1 = map (fun k => (k, fadd (f k) (Some (iou_total k [r])))) keys.
Proof using SOUND.
  intros E L D I r. unfold StoModel.attack in E. apply bind_ok in E. destruct E as [[xm' r'] [EA E]].
  apply bind_ok in E. destruct E as [c0 [E0 E]]. apply bind_ok in E. destruct E as [cm [Em E]]. apply bind_ok in E. destruct E as [m0 [M0 E]]. apply bind_ok in E. destruct E as [mm [Mm E]].
  apply bind_ok in E. destruct E as [ch [Ech E]]. apply bind_ok in E. destruct E as [iou [Ei E]]. apply bind_ok in E. destruct E as [s' [Es E]]. apply Ok_inj in E. injection E as <- <- <- <-.
  destruct (compute_facts _ _ _ _ _ _ E0 M0 L) as (C0 & LL0 & LP0 & S0 & K0). destruct (compute_facts _ _ _ _ _ _ Em Mm L) as (Cm & LLm & LPm & Sm & Km).
  apply zip_eq_count in Ech. unfold state_update in Es. apply bind_ok in Es. destruct Es as [iou' [Ei' Es]]. apply Ok_inj in Es. subst s'.
  assert (KK : map fst (o_cw m0) = keys /\ map fst (o_cw mm) = keys).
  { assert (A := Ei'). apply dict_map_inv in A. destruct A as [A1 _]. rewrite I, map_map in A1. cbn [fst] in A1. rewrite map_id in A1.
    assert (B := Ei). apply dict_map_inv in B. destruct B as [B1 [B2 _]]. rewrite <- B2, <- A1 in B1. split; congruence. }
  destruct KK as [KK0 KKm].
  assert (F0 := assoc_form (o_cw m0) ltac:(rewrite KK0; exact D)). assert (Fm := assoc_form (o_cw mm) ltac:(rewrite KKm; exact D)). rewrite KK0 in F0. rewrite KKm in Fm.
  assert (Q : forall o, masked_shape v o -> map fst (o_cw o) = keys -> forall k, In k keys -> 0 < tokens k /\ length (assoc k (o_cw o)) = length v /\
            Forall (fun im => length im = tokens k /\ Forall (fun row => length row = experts k) im) (assoc k (o_cw o))).
  { intros o So Ko k Hk. assert (Fo := assoc_form (o_cw o) ltac:(rewrite Ko; exact D)). rewrite Ko in Fo. unfold masked_shape in So. rewrite Fo in So. rewrite Forall_forall in So.
    assert (Z := So (k, assoc k (o_cw o)) ltac:(apply in_map_iff; exists k; auto)). exact Z. }
  assert (IOU : iou = map (fun k => (k, Some (iou_total k [r]))) keys).
  { rewrite F0, Fm in Ei. apply (dict_map_form _ _ _ _ _ Ei). intros k Hk. destruct (Q m0 S0 KK0 k Hk) as (T & A1 & A2). destruct (Q mm Sm KKm k Hk) as (_ & B1 & B2).
    unfold iou_total, r. cbn [flat_map r_0 r_m]. rewrite !app_nil_r. apply (arrays_iou (experts k) (tokens k)); auto. congruence. }
  split; [|split; [reflexivity|]]; [|split; [|split; [|split; [reflexivity|]]]].
  - unfold good, r. cbn [r_v r_y r_0 r_m]. auto 15.
  - cbn [num_changes]. unfold changes, r. cbn [r_m r_0]. rewrite Ech. reflexivity.
  - cbn [num_correct fst snd]. rewrite C0, Cm. reflexivity.
  - cbn [sum_iou_experts]. rewrite I, IOU in Ei'. apply (dict_map_form _ _ _ _ _ Ei'). reflexivity.
Qed.
Lemma iou_total_cons keys k r rs : In k keys -> NoDup keys -> good keys r -> iou_total k (r :: rs) = (iou_total k [r] + iou_total k rs)%R.
Proof.
  intros Hk D G. unfold iou_total. cbn [flat_map]. rewrite !app_nil_r, combine_app, map_app, total_app; [reflexivity|].
  destruct G as (_ & _ & _ & _ & _ & K0 & Km & S0 & Sm).
  assert (Q : forall o, masked_shape (r_v r) o -> map fst (o_cw o) = keys -> length (assoc k (o_cw o)) = length (r_v r)).
  { intros o So Ko. assert (Fo := assoc_form (o_cw o) ltac:(rewrite Ko; exact D)). rewrite Ko in Fo. unfold masked_shape in So. rewrite Fo in So. rewrite Forall_forall in So.
    exact (proj1 (proj2 (So (k, assoc k (o_cw o)) ltac:(apply in_map_iff; exists k; auto)))). }
  rewrite (Q _ S0 K0), (Q _ Sm Km). reflexivity.
Qed.
Lemma attacked_facts keys : NoDup keys -> forall s bs rs s', attacked s bs rs s' -> Forall well_formed bs -> forall f, sum_iou_experts _ s = map (fun k => (k, f k)) keys ->
  Forall (good keys) rs /\ num_images _ s' = num_images _ s + count (flat_map r_v rs) /\
  num_changes _ s' = num_changes _ s + list_sum (map changes rs) /\
  num_correct _ s' = (fadd (fst (num_correct _ s)) (Some (total (map (fun r => hits_of r (r_0 r)) rs))), fadd (snd (num_correct _ s)) (Some (total (map (fun r => hits_of r (r_m r)) rs)))) /\
  sum_loss _ s' = (fadd (fst (sum_loss _ s)) (fsum (flat_map (fun r => o_loss (r_0 r)) rs)), fadd (snd (sum_loss _ s)) (fsum (flat_map (fun r => o_loss (r_m r)) rs))) /\
  sum_iou_experts _ s' = map (fun k => (k, fadd (f k) (Some (iou_total k rs)))) keys.
Proof using SOUND.
  intros D. induction 1 as [s|s x y v s1 xm o0 om bs rs s' A AA IH]; intros W f I.
  - assert (Z : forall a, fadd a (Some 0%R) = a) by (intros [a|]; simpl; auto; f_equal; lra).
    split; [constructor|]. cbn [flat_map map list_sum count filter length total fold_right]. unfold count, fsum. cbn [filter length fold_left]. rewrite !Z, !Nat.add_0_r, <- !surjective_pairing.
    repeat split; auto. rewrite I. apply map_ext. intros k. unfold iou_total. cbn. rewrite Z. reflexivity.
  - inversion W as [|? ? W1 W2]; subst. destruct (attack_facts _ _ _ _ _ _ _ _ keys f A W1 D I) as (G & N1 & N2 & N3 & N4 & N5).
    destruct (IH W2 _ N5) as (G' & M1 & M2 & M3 & M4 & M5). split; [constructor; auto|]. split; [|split; [|split; [|split]]].
    + rewrite M1, N1. cbn [flat_map r_v]. rewrite count_app. lia.
    + rewrite M2, N2. cbn [map list_sum fold_right]. unfold list_sum. cbn [fold_right]. lia.
    + rewrite M3, N3. cbn [fst snd map r_0 r_m]. unfold total. cbn [fold_right]. rewrite !fadd_assoc. reflexivity.
    + rewrite M4, N4. cbn [fst snd flat_map r_0 r_m]. rewrite !fsum_app, !fadd_assoc. reflexivity.
    + rewrite M5. apply map_ext_in. intros k Hk. rewrite fadd_assoc. rewrite (iou_total_cons keys k _ rs Hk D G). reflexivity.
Qed.
End Run.
