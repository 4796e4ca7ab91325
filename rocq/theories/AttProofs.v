(** Proofs for C41 and C42. *)
From Coq Require Import List Arith Reals Bool Lia Lra Permutation.
From Verif Require Import Py PyLemmas EvalModel EvalSpec EvalProofs AttModel AttSpec.
Import ListNotations.
Local Open Scope nat_scope.

Lemma bind_eq {T U} (a : res T) x (f : T -> res U) : a = Ok x -> bind a f = f x.
Proof. intros ->. auto. Qed.
Ltac bind_with H := etransitivity; [apply bind_eq; exact H|cbv beta].

(** ** zip *)
Lemma zip_ok {A B C} (f : A -> B -> res C) a : forall b c, zip f a b = Ok c <-> length a = length b /\ Forall2 (fun xy z => f (fst xy) (snd xy) = Ok z) (combine a b) c.
Proof.
  induction a as [|x a IH]; intros [|y b] c; simpl.
  - split; [intros E; apply Ok_inj in E; subst; auto|]. intros [_ F]. inversion F. auto.
  - split; [discriminate|]. intros [? _]. discriminate.
  - split; [discriminate|]. intros [? _]. discriminate.
  - split.
    + intros E. apply bind_ok in E. destruct E as (z & E1 & E). apply bind_ok in E. destruct E as (r & E2 & E). apply Ok_inj in E. subst.
      apply IH in E2. destruct E2. split; [lia|]. constructor; auto.
    + intros [L F]. inversion F as [|? z ? r E1 E2]; subst. simpl in E1. rewrite E1. cbn [bind]. replace (zip f a b) with (Ok r); auto.
      symmetry. apply IH. split; [lia|auto].
Qed.
Lemma zip_map {E A B C} (f : A -> B -> res C) (g : E -> A) (h : E -> B) (k : E -> C) l :
  Forall (fun x => f (g x) (h x) = Ok (k x)) l -> zip f (map g l) (map h l) = Ok (map k l).
Proof. induction 1 as [|x l H F IH]; auto. cbn [map zip]. rewrite H. cbn [bind]. rewrite IH. auto. Qed.
Lemma zip_total {A B C} (f : A -> B -> C) a : forall b, length a = length b -> zip (fun x y => Ok (f x y)) a b = Ok (map (fun xy => f (fst xy) (snd xy)) (combine a b)).
Proof. induction a as [|x a IH]; intros [|y b] L; try discriminate; auto. simpl in L. cbn [zip bind combine map]. rewrite IH by lia. auto. Qed.

(** ** The attack *)
Lemma sign_bound g v : sign g = Some v -> (Rabs v <= 1)%R.
Proof.
  destruct g as [x| | |]; simpl; intros H; try discriminate; injection H as <-; [|rewrite Rabs_R1; lra|rewrite Rabs_left; lra].
  destruct (total_order_T x 0) as [[|]|]; [rewrite Rabs_left; lra|rewrite Rabs_R0; lra|rewrite Rabs_R1; lra].
Qed.
Definition near (k : nat) (delta : R) (x x' : fl) : Prop := forall v, x' = Some v -> exists u, x = Some u /\ (Rabs (v - u) <= INR k * Rabs delta)%R.
Lemma near_step k delta x x' g : near k delta x x' -> near (S k) delta x (fadd x' (fmul (Some delta) (sign g))).
Proof.
  intros N v H. destruct x' as [w|]; [|discriminate]. destruct (sign g) as [s|] eqn:E; [|discriminate]. simpl in H. injection H as <-.
  destruct (N w eq_refl) as (u & -> & D). exists u. split; auto. apply sign_bound in E. rewrite S_INR.
  replace (w + delta * s - u)%R with ((w - u) + delta * s)%R by lra. eapply Rle_trans; [apply Rabs_triang|].
  rewrite Rabs_mult. assert (P := Rabs_pos delta). nra.
Qed.
Lemma Forall2_zip {A B C D} (P : D -> A -> Prop) (Q : D -> C -> Prop) (f : A -> B -> res C) a b c d :
  Forall2 P d a -> zip f a b = Ok c -> (forall x y z w, P w x -> f x y = Ok z -> Q w z) -> Forall2 Q d c.
Proof.
  intros F Z H. revert b c Z. induction F as [|w x d a Pw F IH]; intros [|y b] c Z; simpl in Z; try discriminate.
  - apply Ok_inj in Z. subst. constructor.
  - apply bind_ok in Z. destruct Z as (z & E1 & Z). apply bind_ok in Z. destruct Z as (r & E2 & Z). apply Ok_inj in Z. subst. constructor; eauto.
Qed.

Section PGD.
Variable label rng : Type.
Variable grads : list label -> list image -> option rng -> res (list (list gval)).
Variable split : rng -> nat -> list rng.
Notation upd := (update label rng grads).
Notation pgd := (stateless_attack_pgd label rng grads split).

Lemma upd_near delta labels rngs k xs xc i xn : Forall2 (Forall2 (near k delta)) xs xc -> upd delta labels rngs xc i = Ok xn -> Forall2 (Forall2 (near (S k) delta)) xs xn.
Proof using.
  intros F E. apply bind_ok in E. destruct E as (r & _ & E). apply bind_ok in E. destruct E as (dx & _ & E).
  eapply Forall2_zip; [exact F|exact E|]. intros x y z w P Z. cbv beta in Z. eapply Forall2_zip; [exact P|exact Z|].
  intros x0 y0 z0 w0 N Z0. cbv beta in Z0. apply Ok_inj in Z0. subst. apply near_step. auto.
Qed.
Lemma loop_near delta labels rngs xs n : forall s k xc xn, Forall2 (Forall2 (near k delta)) xs xc -> rfold (upd delta labels rngs) (seq s n) xc = Ok xn ->
  Forall2 (Forall2 (near (k + n) delta)) xs xn.
Proof using.
  induction n as [|n IH]; intros s k xc xn F E; simpl in E.
  - apply Ok_inj in E. subst. rewrite Nat.add_0_r. auto.
  - apply bind_ok in E. destruct E as (x1 & E1 & E). replace (k + S n) with (S k + n) by lia. eapply IH; [|exact E]. eapply upd_near; eauto.
Qed.
Lemma Forall2_refl' {A} (P : A -> A -> Prop) l : (forall x, P x x) -> Forall2 P l l.
Proof using. intros H. induction l; constructor; auto. Qed.
Lemma pgd_ok eps n images labels rngs xn r : pgd eps n images labels rngs = Ok (xn, r) ->
  n <> 0 /\ rfold (upd (eps / INR n) labels (option_map (fun r => split r (n + 1)) rngs)) (seq 0 n) images = Ok xn.
Proof using.
  unfold stateless_attack_pgd. destruct (Nat.eqb_spec n 0); [discriminate|]. intros E. split; auto.
  apply bind_ok in E. destruct E as (x & E1 & E). rewrite E1. destruct rngs as [r0|]; simpl in E.
  - match type of E with match ?x with _ => _ end = _ => destruct x end; [|discriminate]. congruence.
  - congruence.
Qed.
Lemma Forall2_impl' {A B} (P Q : A -> B -> Prop) l l' : (forall x y, P x y -> Q x y) -> Forall2 P l l' -> Forall2 Q l l'.
Proof using. intros H. induction 1; constructor; auto. Qed.
Lemma pgd_within eps n images labels rngs xn r : pgd eps n images labels rngs = Ok (xn, r) -> Forall2 (Forall2 (within eps)) images xn.
Proof using.
  intros E. apply pgd_ok in E. destruct E as [N E]. apply loop_near with (xs := images) (k := 0) in E.
  - eapply Forall2_impl'; [|exact E]. intros x y. apply Forall2_impl'. intros a b H v Hv. destruct (H v Hv) as (u & -> & D). exists u. split; auto.
    eapply Rle_trans; [exact D|]. assert (P : (0 < INR n)%R) by (apply lt_0_INR; lia).
    cbn [Nat.add]. unfold Rdiv. rewrite Rabs_mult, (Rabs_right (/ INR n)) by (apply Rle_ge, Rlt_le, Rinv_0_lt_compat; auto). 
    right. field. lra.
  - apply Forall2_refl'. intros x. apply Forall2_refl'. intros a v ->. exists v. split; auto. rewrite Rminus_diag_eq by auto. rewrite Rabs_R0. simpl. lra.
Qed.

(** Without NaN gradients every pixel stays finite. *)
Lemma pgd_finite eps n images labels rngs xn r : (forall l xs k g, grads l xs k = Ok g -> Forall (Forall (fun d => d <> GNaN)) g) ->
  Forall (Forall finite) images -> pgd eps n images labels rngs = Ok (xn, r) -> Forall (Forall finite) xn.
Proof using.
  intros NG F E. apply pgd_ok in E. destruct E as [_ E]. revert images F E. generalize (seq 0 n) as is_. induction is_ as [|i is_ IH]; intros images F E; simpl in E.
  - apply Ok_inj in E. subst. auto.
  - apply bind_ok in E. destruct E as (x1 & E1 & E). apply (IH x1); auto. clear E. apply bind_ok in E1. destruct E1 as (k & _ & E1). apply bind_ok in E1. destruct E1 as (g & G & E1).
    apply NG in G. revert G x1 E1. revert g. induction F as [|x xs Fx F IHx]; intros [|d g] G x1 E1; simpl in E1; try discriminate.
    + apply Ok_inj in E1. subst. auto.
    + apply bind_ok in E1. destruct E1 as (z & Z & E1). apply bind_ok in E1. destruct E1 as (zs & Zs & E1). apply Ok_inj in E1. subst. inversion G; subst. constructor; [|eapply IHx; eauto].
      clear - Fx Z H1. revert d z Z H1. induction Fx as [|p x Fp Fx IHp]; intros [|d0 d] z Z H1; simpl in Z; try discriminate.
      * apply Ok_inj in Z. subst. auto.
      * inversion H1; subst. apply bind_ok in Z. destruct Z as (zs & Zs & Z). apply Ok_inj in Z. subst. constructor; [|eapply IHp; eauto].
        destruct p as [p|]; [|exfalso; apply Fp; auto]. destruct d0; simpl; try discriminate. contradiction.
Qed.

(** When the gradient of an image depends on this image only, so does the attack. *)
Lemma pgd_alone (grad : label -> image -> list gval) eps n es rngs :
  (forall y x, length (grad y x) = length x) ->
  (forall es r, grads (map snd es) (map fst es) r = Ok (map (fun e => grad (snd e) (fst e)) es)) ->
  (forall r k, length (split r k) = k) -> n <> 0 ->
  exists r', pgd eps n (map fst es) (map snd es) rngs = Ok (map (fun e => attack_one grad (eps / INR n) (snd e) n (fst e)) es, r').
Proof using.
  intros LG G LS N. unfold stateless_attack_pgd. destruct (Nat.eqb_spec n 0); [contradiction|]. set (delta := (eps / INR n)%R).
  set (rs := option_map (fun r => split r (n + 1)) rngs).
  assert (K : forall m, m <= n -> rfold (upd delta (map snd es) rs) (seq 0 m) (map fst es) = Ok (map (fun e => attack_one grad delta (snd e) m (fst e)) es)).
  { induction m as [|m IH]; intros Hm; [reflexivity|]. rewrite seq_S, rfold_app, IH by lia. cbn [bind rfold Nat.add].
    assert (R : exists rc, match rs with None => Ok None | Some rngs => match nth_error rngs m with Some r => Ok (Some r) | None => Raise IndexError end end = Ok rc).
    { unfold rs. destruct rngs as [r|]; simpl; eauto. destruct (nth_error (split r (n + 1)) m) eqn:E; eauto. apply nth_error_None in E. rewrite LS in E. lia. }
    destruct R as [rc R]. unfold update. rewrite R. cbn [bind].
    assert (Gm := G (map (fun e => (attack_one grad delta (snd e) m (fst e), snd e)) es) rc). rewrite !map_map in Gm. cbn [fst snd] in Gm.
    change (map (fun x : image * label => snd x) es) with (map snd es) in Gm.
    match type of Gm with ?a = _ => match goal with |- bind (bind ?b _) _ = _ => change b with a end end. rewrite Gm. cbn [bind].
    assert (Zm : zip (zip (fun x d => Ok (fadd x (fmul (Some delta) (sign d))))) (map (fun e => attack_one grad delta (snd e) m (fst e)) es) (map (fun e => grad (snd e) (attack_one grad delta (snd e) m (fst e))) es) =
                 Ok (map (fun e => attack_one grad delta (snd e) (S m) (fst e)) es)).
    { apply zip_map. apply Forall_forall. intros e _. rewrite zip_total by auto. reflexivity. }
    rewrite Zm. reflexivity. }
  rewrite K by auto. cbn [bind]. unfold rs. destruct rngs as [r|]; simpl; eauto.
  destruct (nth_error (split r (n + 1)) (length (split r (n + 1)) - 1)) eqn:E; eauto. apply nth_error_None in E. rewrite LS in E. lia.
Qed.
End PGD.

(** ** Intersection over union *)
Definition pos (x : R) : bool := if Rlt_dec 0 x then true else false.
Lemma positive_pos x : positive x = (if pos x then 1%R else 0%R).
Proof. unfold positive, pos. destruct (Rlt_dec 0 x); auto. Qed.
Lemma filter_len_map {A B} (f : A -> B) (P : B -> bool) l : length (filter P (map f l)) = length (filter (fun x => P (f x)) l).
Proof. induction l as [|x l IH]; simpl; auto. destruct (P (f x)); simpl; auto. Qed.
Lemma filter_len_ext {A} (P Q : A -> bool) l : (forall x, P x = Q x) -> length (filter P l) = length (filter Q l).
Proof. intros H. rewrite (filter_ext P Q H). auto. Qed.
Lemma nth_combine (P : R -> R -> bool) a : forall b, length a = length b ->
  length (filter (fun i => P (nth i a 0%R) (nth i b 0%R)) (seq 0 (length a))) = length (filter (fun xy => P (fst xy) (snd xy)) (combine a b)).
Proof.
  induction a as [|x a IH]; intros [|y b] L; try discriminate; auto. simpl in L. cbn [length seq combine filter fst snd nth].
  assert (K : length (filter (fun i => P (nth i (x :: a) 0%R) (nth i (y :: b) 0%R)) (seq 1 (length a))) = length (filter (fun xy => P (fst xy) (snd xy)) (combine a b))).
  { rewrite <- IH by lia. rewrite <- seq_shift, filter_len_map. auto. }
  destruct (P x y); simpl; auto.
Qed.
Lemma inter_count a : forall b, rsum (map (fun xy => (fst xy * snd xy)%R) (combine (map positive a) (map positive b))) =
  INR (length (filter (fun xy => pos (fst xy) && pos (snd xy)) (combine a b))).
Proof.
  induction a as [|x a IH]; intros [|y b]; auto. cbn [map combine fst snd filter rsum fold_right]. fold (rsum (map (fun xy => (fst xy * snd xy)%R) (combine (map positive a) (map positive b)))).
  rewrite IH, !positive_pos. destruct (pos x), (pos y); cbn [andb length]; rewrite ?S_INR; lra.
Qed.
Lemma sum_count a : forall b, rsum (map (fun xy => (fst xy + snd xy)%R) (combine (map positive a) (map positive b))) =
  (INR (length (filter (fun xy => pos (fst xy) || pos (snd xy)) (combine a b))) + INR (length (filter (fun xy => pos (fst xy) && pos (snd xy)) (combine a b))))%R.
Proof.
  induction a as [|x a IH]; intros [|y b]; [simpl; lra|simpl; lra|simpl; lra|]. cbn [map combine fst snd filter rsum fold_right]. fold (rsum (map (fun xy => (fst xy + snd xy)%R) (combine (map positive a) (map positive b)))).
  rewrite IH, !positive_pos. destruct (pos x), (pos y); cbn [andb orb length]; rewrite ?S_INR; lra.
Qed.
Lemma token_iou_ok n a b : length a = n -> length b = n -> token_iou a b = Ok (set_iou n (selected a) (selected b)).
Proof.
  intros La Lb. unfold token_iou. rewrite La, Lb, Nat.eqb_refl. cbn [negb]. f_equal. rewrite inter_count, sum_count. unfold set_iou.
  assert (I : length (filter (fun i => selected a i && selected b i) (seq 0 n)) = length (filter (fun xy => pos (fst xy) && pos (snd xy)) (combine a b))).
  { rewrite <- La. apply (nth_combine (fun x y => pos x && pos y)). lia. }
  assert (U : length (filter (fun i => selected a i || selected b i) (seq 0 n)) = length (filter (fun xy => pos (fst xy) || pos (snd xy)) (combine a b))).
  { rewrite <- La. apply (nth_combine (fun x y => pos x || pos y)). lia. }
  rewrite <- I, <- U. generalize (length (filter (fun i => selected a i && selected b i) (seq 0 n))) as i. generalize (length (filter (fun i => selected a i || selected b i) (seq 0 n))) as u. clear. intros u i.
  replace (INR u + INR i - INR i)%R with (INR u) by lra. destruct (Rlt_dec 0 (INR u)) as [H|H]; destruct (Nat.eqb_spec u 0) as [->|E]; auto.
  - simpl in H. lra.
  - exfalso. apply H. apply lt_0_INR. lia.
Qed.
Lemma set_iou_ext n a b a' b' : (forall i, a i = a' i) -> (forall i, b i = b' i) -> set_iou n a b = set_iou n a' b'.
Proof.
  intros A B. unfold set_iou. rewrite (filter_len_ext (fun i => a i && b i) (fun i => a' i && b' i)) by (intros; rewrite A, B; auto).
  rewrite (filter_len_ext (fun i => a i || b i) (fun i => a' i || b' i)) by (intros; rewrite A, B; auto). auto.
Qed.
Lemma set_iou_none n a b : (forall i, a i = false) -> (forall i, b i = false) -> set_iou n a b = 0%R.
Proof.
  intros A B. rewrite (set_iou_ext n a b (fun _ => false) (fun _ => false)) by auto. unfold set_iou. simpl.
  replace (filter (fun _ => false) (seq 0 n)) with (@nil nat); auto. symmetry. generalize (seq 0 n). induction l; auto.
Qed.
(** Weights multiplied by a mark *)
Lemma selected_mask b row i : selected (map (fun w => (w * bool_num b)%R) row) i = b && selected row i.
Proof.
  unfold selected. replace (nth i (map (fun w => (w * bool_num b)%R) row) 0%R) with (nth i row 0 * bool_num b)%R.
  - destruct b; simpl; [rewrite Rmult_1_r; auto|]. rewrite Rmult_0_r. destruct (Rlt_dec 0 0); [lra|auto].
  - symmetry. replace 0%R with (0 * bool_num b)%R at 1 by lra. apply (map_nth (fun w => (w * bool_num b)%R)).
Qed.
Definition mask_cw (b : bool) (x : list (list R)) : list (list R) := map (map (fun w => (w * bool_num b)%R)) x.

Lemma image_iou n t b x y : length x = t -> length y = t -> Forall (fun r => length r = n) x -> Forall (fun r => length r = n) y ->
  exists l, zip_assert token_iou (mask_cw b x) (mask_cw b y) = Ok l /\ rsum l = (bool_num b * (INR t * mean_iou n x y))%R.
Proof.
  intros Lx Ly Fx Fy. unfold zip_assert, mask_cw. rewrite !map_length, Lx, Ly, Nat.eqb_refl.
  exists (map (fun rs => set_iou n (selected (map (fun w => (w * bool_num b)%R) (fst rs))) (selected (map (fun w => (w * bool_num b)%R) (snd rs)))) (combine x y)).
  split.
  - assert (L : length x = length y) by lia. rewrite <- (map_fst_combine x y L) at 1. rewrite <- (map_snd_combine x y L) at 2. rewrite !map_map. apply zip_map.
    apply Forall_forall. intros [r s] H. assert (Hr := in_combine_l _ _ _ _ H). assert (Hs := in_combine_r _ _ _ _ H). rewrite Forall_forall in Fx, Fy.
    apply token_iou_ok; rewrite map_length; auto.
  - assert (E : map (fun rs => set_iou n (selected (map (fun w => (w * bool_num b)%R) (fst rs))) (selected (map (fun w => (w * bool_num b)%R) (snd rs)))) (combine x y) =
                map (fun rs => (bool_num b * set_iou n (selected (fst rs)) (selected (snd rs)))%R) (combine x y)).
    { apply map_ext. intros rs. destruct b; simpl bool_num.
      - rewrite Rmult_1_l. apply set_iou_ext; intros i; apply (selected_mask true).
      - rewrite Rmult_0_l. apply set_iou_none; intros i; apply (selected_mask false). }
    rewrite E. unfold mean_iou, mean. rewrite map_length, combine_length, Lx, Ly, Nat.min_id.
    set (l := combine x y). assert (S : forall c (g : list R * list R -> R), rsum (map (fun rs => (c * g rs)%R) l) = (c * fold_right Rplus 0 (map g l))%R).
    { intros c g. clear. unfold rsum. induction l as [|a l IH]; simpl; [lra|]. rewrite IH. lra. }
    rewrite S. f_equal. destruct t as [|t].
    + destruct x; [|discriminate]. simpl. unfold l. simpl. lra.
    + field. apply not_0_INR. lia.
Qed.
Lemma rsum_real {E} (real : E -> bool) (g : E -> R) l : rsum (map (fun e => (bool_num (real e) * g e)%R) l) = total (map g (filter real l)).
Proof. unfold rsum. induction l as [|e l IH]; simpl; auto. destruct (real e); simpl; rewrite IH; lra. Qed.

Lemma batch_iou {E} n t (real : E -> bool) (f g : E -> list (list R)) es :
  Forall (fun e => 0 < t /\ length (f e) = t /\ length (g e) = t /\ Forall (fun r => length r = n) (f e) /\ Forall (fun r => length r = n) (g e)) es ->
  sum_intersection_over_union (map (fun e => mask_cw (real e) (f e)) es) (map (fun e => mask_cw (real e) (g e)) es) =
  Ok (Some (total (map (fun e => mean_iou n (f e) (g e)) (filter real es)))).
Proof.
  intros F. unfold sum_intersection_over_union, zip_assert at 1. rewrite !map_length, Nat.eqb_refl.
  assert (K : exists ls, zip (zip_assert token_iou) (map (fun e => mask_cw (real e) (f e)) es) (map (fun e => mask_cw (real e) (g e)) es) = Ok ls /\
                rsum (map rsum ls) = (INR t * total (map (fun e => mean_iou n (f e) (g e)) (filter real es)))%R).
  { rewrite <- rsum_real. induction F as [|e es (_ & A & B & C & D) F (ls & E1 & E2)].
    - exists []. simpl. split; auto. lra.
    - destruct (image_iou n t (real e) (f e) (g e) A B C D) as (l & Z & S). exists (l :: ls). cbn [map zip]. rewrite Z. cbn [bind]. rewrite E1. split; auto.
      cbn [map rsum fold_right]. unfold rsum in *. rewrite S, E2. lra. }
  destruct K as (ls & -> & S). cbn [bind]. destruct es as [|e es]; [reflexivity|]. cbn [map]. rewrite S. unfold mask_cw. rewrite map_length. inversion F as [|? ? (T & A & _) _]; subst.
  simpl fdiv. destruct (Req_EM_T (INR (length (f e))) 0) as [Z|Z].
  - exfalso. apply (lt_0_INR) in T. lra.
  - f_equal. f_equal. cbn [filter]. field. auto.
Qed.

(** ** The state *)
Section Stats.
Variable X Y rngs_t : Type.
Variable attack_fn : list X -> list Y -> rngs_t -> res (list X * rngs_t).
Variable compute_fn : list X -> list Y -> rngs_t -> res outputs.
Variable keys : list nat.
Variable atk : X -> Y -> X.
Variable inf : X -> Y -> info.
Variable tokens experts : nat -> nat.
Hypothesis ALONE : each_alone attack_fn compute_fn keys atk inf.
Hypothesis SHAPE : forall x y, same_shape keys (i_cw (inf x y)) tokens experts.
Definition before (e : img X Y) : info := inf (m_x e) (m_y e).
Definition after (e : img X Y) : info := inf (atk (m_x e) (m_y e)) (m_y e).

(** The statistics of a list of real images *)
Definition stats (r : rngs_t) (es : list (img X Y)) : attack_state rngs_t :=
  AttackState rngs_t (length es) (length (filter (fun e => negb (i_pred (after e) =? i_pred (before e))) es))
    (Some (total (map (fun e => i_correct (before e)) es)), Some (total (map (fun e => i_correct (after e)) es)))
    (Some (total (map (fun e => i_loss (before e)) es)), Some (total (map (fun e => i_loss (after e)) es)))
    (map (fun k => (k, Some (total (map (fun e => mean_iou (experts k) (i_cw (before e) k) (i_cw (after e) k)) es)))) keys) r.
Lemma total_app a b : total (a ++ b) = (total a + total b)%R.
Proof using. clear. induction a as [|x a IH]; simpl; [lra|]. rewrite IH. lra. Qed.

Lemma masked {A} (mul : A -> bool -> A) (bm : bool) (es : list (img X Y)) (g : img X Y -> A) :
  (bm = false -> Forall (fun e => m_real e = true) es) -> (forall a, mul a true = a) ->
  mask mul (if bm then Some (map m_real es) else None) (map g es) = Ok (map (fun e => mul (g e) (m_real e)) es).
Proof using.
  clear. intros W U. unfold mask. destruct bm.
  - rewrite !map_length, Nat.eqb_refl. apply (zip_map (fun x b => Ok (mul x b)) g m_real). apply Forall_forall. auto.
  - f_equal. apply map_ext_in. intros e He. specialize (W eq_refl). rewrite Forall_forall in W. rewrite W by auto. auto.
Qed.
Lemma masked_outputs (bm : bool) (es : list (img X Y)) (h : img X Y -> info) : (bm = false -> Forall (fun e => m_real e = true) es) ->
  mask_outputs (if bm then Some (map m_real es) else None)
    (Outputs (map (fun e => Some (i_loss (h e))) es) (map (fun e => i_pred (h e)) es) (map (fun e => Some (i_correct (h e))) es) (map (fun k => (k, map (fun e => i_cw (h e) k) es)) keys)) =
  Ok (Outputs (map (fun e => Some (bool_num (m_real e) * i_loss (h e))%R) es) (map (fun e => if m_real e then i_pred (h e) else 0) es)
        (map (fun e => Some (bool_num (m_real e) * i_correct (h e))%R) es) (map (fun k => (k, map (fun e => mask_cw (m_real e) (i_cw (h e) k)) es)) keys)).
Proof using.
  clear. intros W. unfold mask_outputs. cbn [o_loss o_pred o_correct o_cw].
  assert (U : forall a : fl, fmul a (Some (bool_num true)) = a) by (intros [a|]; simpl; auto; rewrite Rmult_1_r; auto).
  bind_with (masked (fun x b => fmul x (Some (bool_num b))) bm es (fun e => Some (i_loss (h e))) W U).
  bind_with (masked (fun x (b : bool) => if b then x else 0) bm es (fun e => i_pred (h e)) W (fun _ => eq_refl)).
  bind_with (masked (fun x b => fmul x (Some (bool_num b))) bm es (fun e => Some (i_correct (h e))) W U).
  assert (K : rmap (fun kc : nat * list (list (list R)) => bind (mask (fun x b => map (map (fun w => (w * bool_num b)%R)) x) (if bm then Some (map m_real es) else None) (snd kc)) (fun m => Ok (fst kc, m)))
     (map (fun k => (k, map (fun e => i_cw (h e) k) es)) keys) = Ok (map (fun k => (k, map (fun e => mask_cw (m_real e) (i_cw (h e) k)) es)) keys)).
  { clear -W. induction keys as [|k ks IH]; auto. cbn [map rmap fst snd].
    rewrite (masked (fun x b => map (map (fun w => (w * bool_num b)%R)) x) bm es (fun e => i_cw (h e) k) W).
    - cbn [bind]. match goal with |- bind ?a _ = _ => change a with (rmap (fun kc : nat * list (list (list R)) => bind (mask (fun x b => map (map (fun w => (w * bool_num b)%R)) x) (if bm then Some (map m_real es) else None) (snd kc)) (fun m => Ok (fst kc, m))) (map (fun k => (k, map (fun e => i_cw (h e) k) es)) ks)) end.
      rewrite IH. auto.
    - intros a. rewrite <- (map_id a) at 2. apply map_ext. intros r. rewrite <- (map_id r) at 2. apply map_ext. intros w. simpl. lra. }
  rewrite K. cbn [bind]. f_equal. f_equal; apply map_ext; intros e; simpl; f_equal; lra.
Qed.
Lemma dict_ok {A B C} (f : A -> B -> res C) (a : nat -> A) (b : nat -> B) (c : nat -> C) ks : Forall (fun k => f (a k) (b k) = Ok (c k)) ks ->
  dict_map f (map (fun k => (k, a k)) ks) (map (fun k => (k, b k)) ks) = Ok (map (fun k => (k, c k)) ks).
Proof using.
  clear. intros F. unfold dict_map. rewrite !map_map. cbn [fst]. destruct (list_eq_dec _ _ _) as [_|N]; [|exfalso; apply N; auto].
  apply (zip_map (fun x y => bind (f (snd x) (snd y)) (fun z => Ok (fst x, z))) (fun k => (k, a k)) (fun k => (k, b k)) (fun k => (k, c k))).
  eapply Forall_impl; [|exact F]. intros k H. cbn [fst snd]. rewrite H. auto.
Qed.

Lemma attack_batch es0 r bs : well_marked bs ->
  exists r', let '(x, y, v) := att_batch bs in
    stateful_attack X Y rngs_t attack_fn compute_fn (stats r es0) x y v =
    Ok (stats r' (es0 ++ filter m_real (snd bs)), map (fun e => atk (m_x e) (m_y e)) (snd bs)).
Proof using ALONE SHAPE.
  destruct bs as [bm es]. intros W. cbn [att_batch fst snd]. destruct ALONE as [AF CF]. clear ALONE.
  assert (PX : map fst (map (fun e : img X Y => (m_x e, m_y e)) es) = map m_x es) by (rewrite map_map; auto).
  assert (PY : map snd (map (fun e : img X Y => (m_x e, m_y e)) es) = map m_y es) by (rewrite map_map; auto).
  destruct (AF (map (fun e => (m_x e, m_y e)) es) r) as [r' A]. rewrite PX, PY, map_map in A. cbn [fst snd] in A. exists r'.
  unfold stateful_attack. cbn [stats rngs]. rewrite A. cbn [bind].
  assert (C0 := CF (map (fun e => (m_x e, m_y e)) es) r). rewrite PX, PY in C0. rewrite C0. clear C0. cbn [bind].
  assert (CM := CF (map (fun e => (atk (m_x e) (m_y e), m_y e)) es) r'). rewrite map_map in CM. cbn [fst] in CM.
  replace (map snd (map (fun e : img X Y => (atk (m_x e) (m_y e), m_y e)) es)) with (map m_y es) in CM by (rewrite map_map; auto). rewrite CM. clear CM. cbn [bind].
  assert (M0 := masked_outputs bm es before W). assert (MM := masked_outputs bm es after W). unfold before in M0. unfold after in MM.
  rewrite !map_map. cbn [fst snd].
  assert (KE : forall h : X * Y -> nat -> list (list R), forall f : img X Y -> X * Y, map (fun k => (k, map (fun e => h e k) (map f es))) keys = map (fun k => (k, map (fun e => h (f e) k) es)) keys).
  { intros h f. apply map_ext. intros k. rewrite map_map. auto. }
  rewrite (KE (fun e k => i_cw (inf (fst e) (snd e)) k)), (KE (fun e k => i_cw (inf (fst e) (snd e)) k)). cbn [fst snd].
  cbn [fst] in W. rewrite M0. cbn [bind]. rewrite MM. cbn [bind o_pred o_cw o_correct o_loss]. clear M0 MM A.
  rewrite (zip_map (fun a b => Ok (negb (a =? b))) (fun e => if m_real e then i_pred (after e) else 0) (fun e => if m_real e then i_pred (before e) else 0)
    (fun e => m_real e && negb (i_pred (after e) =? i_pred (before e)))).
  2:{ apply Forall_forall. intros e _. destruct (m_real e); auto. }
  cbn [bind].
  rewrite (dict_ok sum_intersection_over_union _ _ (fun k => Some (total (map (fun e => mean_iou (experts k) (i_cw (before e) k) (i_cw (after e) k)) (filter m_real es))))).
  2:{ apply Forall_forall. intros k Hk. apply (batch_iou (experts k) (tokens k) m_real (fun e => i_cw (before e) k) (fun e => i_cw (after e) k)).
      apply Forall_forall. intros e _. destruct (SHAPE (m_x e) (m_y e) k Hk) as (T & L1 & F1). destruct (SHAPE (atk (m_x e) (m_y e)) (m_y e) k Hk) as (_ & L2 & F2). repeat split; auto. }
  cbn [bind]. unfold state_update. cbn [stats sum_iou_experts num_images num_changes num_correct sum_loss].
  rewrite (dict_ok (fun x y => Ok (fadd x y)) _ _ (fun k => Some (total (map (fun e => mean_iou (experts k) (i_cw (before e) k) (i_cw (after e) k)) (es0 ++ filter m_real es))))).
  2:{ apply Forall_forall. intros k _. cbn [fadd]. rewrite map_app, total_app. auto. }
  cbn [bind fst snd]. f_equal. f_equal. unfold stats. 
  assert (S : forall h : img X Y -> R, fadd (Some (total (map h es0))) (fsum (map (fun e => Some (bool_num (m_real e) * h e)%R) es)) = Some (total (map h (es0 ++ filter m_real es)))).
  { intros h. replace (map (fun e => Some (bool_num (m_real e) * h e)%R) es) with (map Some (map (fun e => (bool_num (m_real e) * h e)%R) es)) by (rewrite map_map; auto).
    rewrite fsum_map. cbn [fadd]. f_equal. rewrite map_app, total_app. f_equal. apply (rsum_real m_real h). }
  rewrite !S. f_equal.
  - rewrite app_length. f_equal. destruct bm; [unfold count; rewrite filter_len_map; auto|]. rewrite map_length. specialize (W eq_refl).
    cbn [snd] in W. clear -W. induction W as [|e0 es1 R0 W IH]; auto. simpl. rewrite R0. simpl. auto.
  - rewrite filter_app, app_length. f_equal. unfold count. rewrite filter_len_map. clear. induction es as [|e es IH]; auto. simpl. destruct (m_real e); simpl; auto. destruct (negb _); simpl; auto.
Qed.
Lemma stats_start r : create rngs_t keys r = stats r [].
Proof using. reflexivity. Qed.
Lemma attack_run bs : forall es0 r, Forall well_marked bs -> exists r', run_pgd_attack X Y rngs_t attack_fn compute_fn (stats r es0) (map att_batch bs) = Ok (stats r' (es0 ++ reals bs)).
Proof using ALONE SHAPE.
  induction bs as [|b bs IH]; intros es0 r W.
  - exists r. simpl. unfold reals. simpl. rewrite app_nil_r. auto.
  - inversion W as [|? ? W1 W2]; subst. destruct (attack_batch es0 r b W1) as [r1 E]. destruct (IH (es0 ++ filter m_real (snd b)) r1 W2) as [r' E'].
    exists r'. unfold run_pgd_attack in *. cbn [map rfold]. destruct (att_batch b) as [[x y] v]. rewrite E. cbn [bind fst]. 
    rewrite E'. unfold reals. cbn [map concat]. rewrite filter_app, app_assoc. auto.
Qed.
Lemma total_perm a b : Permutation a b -> total a = total b.
Proof using. clear. induction 1; simpl; lra. Qed.
Lemma filter_perm {A} (P : A -> bool) a b : Permutation a b -> length (filter P a) = length (filter P b).
Proof using. clear. induction 1; simpl; try congruence; repeat match goal with |- context[if ?c then _ else _] => destruct c end; simpl; auto. Qed.
Lemma stats_perm r a b : Permutation a b -> stats r a = stats r b.
Proof using.
  clear. intros P. unfold stats. rewrite (Permutation_length P), (filter_perm _ _ _ P). f_equal.
  - f_equal; f_equal; apply total_perm, Permutation_map; auto.
  - f_equal; f_equal; apply total_perm, Permutation_map; auto.
  - apply map_ext. intros k. do 2 f_equal. apply total_perm, Permutation_map; auto.
Qed.
End Stats.

(** ** Keys *)
Lemma rfold_ext {S T} (f g : S -> T -> res S) l : forall s, (forall s x, In x l -> f s x = g s x) -> rfold f l s = rfold g l s.
Proof. induction l as [|x l IH]; intros s H; auto. simpl. rewrite H by (left; auto). destruct (g s x); simpl; auto. apply IH. intros. apply H. right. auto. Qed.
Lemma nth_error_firstn_lt {A} (l : list A) : forall n i, i < n -> nth_error (firstn n l) i = nth_error l i.
Proof. induction l as [|a l IH]; intros n i Hi; [rewrite firstn_nil; auto|]. destruct n; [lia|]. destruct i; auto. simpl. apply IH. lia. Qed.
Lemma pgd_keys {label rng} (g1 g2 : list label -> list image -> option rng -> res (list (list gval))) split eps n images labels r :
  (forall l x k, In k (firstn n (split r (n + 1))) -> g1 l x (Some k) = g2 l x (Some k)) ->
  stateless_attack_pgd label rng g1 split eps n images labels (Some r) = stateless_attack_pgd label rng g2 split eps n images labels (Some r).
Proof.
  intros H. unfold stateless_attack_pgd. destruct (n =? 0); auto. cbn [option_map]. f_equal. apply rfold_ext. intros x i Hi. apply in_seq in Hi.
  unfold update. destruct (nth_error (split r (n + 1)) i) as [k|] eqn:E; auto. cbn [bind]. rewrite H; auto.
  assert (K : nth_error (firstn n (split r (n + 1))) i = Some k).
  { rewrite <- E. apply nth_error_firstn_lt. lia. }
  apply nth_error_In in K. auto.
Qed.
Lemma pgd_last {label rng} (g : list label -> list image -> option rng -> res (list (list gval))) split eps n images labels r xn r' :
  length (split r (n + 1)) = n + 1 -> stateless_attack_pgd label rng g split eps n images labels (Some r) = Ok (xn, r') -> r' = nth_error (split r (n + 1)) n.
Proof.
  intros L E. unfold stateless_attack_pgd in E. destruct (n =? 0); [discriminate|]. cbn [option_map] in E. apply bind_ok in E. destruct E as (x & _ & E).
  rewrite L in E. replace (n + 1 - 1) with n in E by lia. destruct (nth_error (split r (n + 1)) n); [|discriminate]. congruence.
Qed.

(** ** Bounds of intersection over union *)
Lemma set_iou_bounds n a b : (0 <= set_iou n a b <= 1)%R.
Proof.
  unfold set_iou. set (i := length (filter (fun j => a j && b j) (seq 0 n))). set (u := length (filter (fun j => a j || b j) (seq 0 n))).
  assert (L : i <= u). { unfold i, u. generalize (seq 0 n) as l. clear. induction l as [|j l IH]; auto. simpl. destruct (a j), (b j); simpl; lia. }
  clearbody i u. destruct (Nat.eqb_spec u 0); [lra|]. assert (P : (0 < INR u)%R) by (apply lt_0_INR; lia). apply le_INR in L. assert (Q := pos_INR i).
  split; [apply Rmult_le_pos; [auto|apply Rlt_le, Rinv_0_lt_compat; auto]|]. apply Rmult_le_reg_r with (INR u); auto. unfold Rdiv. rewrite Rmult_assoc, Rinv_l by lra. lra.
Qed.
Lemma total_bounds {A} (f : A -> R) l : (forall x, In x l -> 0 <= f x <= 1)%R -> (0 <= total (map f l) <= INR (length l))%R.
Proof.
  induction l as [|x l IH]; intros H; [simpl; lra|]. cbn [map length]. rewrite S_INR. assert (A1 := H x (or_introl eq_refl)).
  assert (A2 := IH (fun y Hy => H y (or_intror Hy))). unfold total in *. cbn [fold_right]. lra.
Qed.
Lemma mean_iou_bounds n a b : (0 <= mean_iou n a b <= 1)%R.
Proof.
  unfold mean_iou, mean. set (l := map _ _). assert (B : (0 <= fold_right Rplus 0 l <= INR (length l))%R).
  { unfold l. rewrite map_length. apply (total_bounds (fun rs : list R * list R => set_iou n (selected (fst rs)) (selected (snd rs)))). intros x _. apply set_iou_bounds. }
  clearbody l. destruct l as [|x l]; [simpl; lra|]. assert (P : (0 < INR (length (x :: l)))%R) by (apply lt_0_INR; simpl; lia).
  split; [apply Rmult_le_pos; [lra|apply Rlt_le, Rinv_0_lt_compat; auto]|]. apply Rmult_le_reg_r with (INR (length (x :: l))); auto. unfold Rdiv. rewrite Rmult_assoc, Rinv_l by lra. lra.
Qed.
Lemma set_iou_same n a : (exists i, i < n /\ a i = true) -> set_iou n a a = 1%R.
Proof.
  intros (i & Hi & Ai). unfold set_iou. rewrite (filter_len_ext (fun j => a j && a j) a) by (intros; apply andb_diag).
  rewrite (filter_len_ext (fun j => a j || a j) a) by (intros; apply orb_diag).
  assert (I : In i (filter a (seq 0 n))) by (apply filter_In; split; [apply in_seq; lia|auto]).
  destruct (Nat.eqb_spec (length (filter a (seq 0 n))) 0) as [E|E]; [destruct (filter a (seq 0 n)); [destruct I|discriminate]|].
  apply Rinv_r. apply not_0_INR. auto.
Qed.
Lemma mean_iou_same n a : a <> [] -> Forall (fun row => exists i, i < n /\ selected row i = true) a -> mean_iou n a a = 1%R.
Proof.
  intros N F. unfold mean_iou, mean.
  assert (E : map (fun rs => set_iou n (selected (fst rs)) (selected (snd rs))) (combine a a) = map (fun _ => 1%R) a).
  { clear N. induction F as [|r a H F IH]; auto. simpl. rewrite set_iou_same by auto. f_equal. auto. }
  rewrite E. rewrite map_length. assert (S : forall l : list (list R), fold_right Rplus 0%R (map (fun _ => 1%R) l) = INR (length l)).
  { induction l as [|x l IH]; auto. cbn [map fold_right length]. rewrite IH, S_INR. lra. }
  rewrite S. apply Rinv_r. apply not_0_INR. destruct a; [congruence|simpl; lia].
Qed.
Lemma total_one {A} (f : A -> R) l : (forall x, In x l -> f x = 1%R) -> total (map f l) = INR (length l).
Proof. induction l as [|x l IH]; intros H; auto. cbn [map length]. rewrite S_INR. unfold total in *. cbn [fold_right]. rewrite H by (left; auto). rewrite IH by (intros; apply H; right; auto). lra. Qed.
Lemma attack_batching X Y rngs_t attack_fn compute_fn keys (atk : X -> Y -> X) (inf : X -> Y -> info) tokens experts (r : rngs_t) bs bs' :
  each_alone attack_fn compute_fn keys atk inf -> (forall x y, same_shape keys (i_cw (inf x y)) tokens experts) -> Forall well_marked bs -> Forall well_marked bs' ->
  Permutation (reals bs) (reals bs') ->
  exists s s', run_pgd_attack X Y rngs_t attack_fn compute_fn (create rngs_t keys r) (map att_batch bs) = Ok s /\
    run_pgd_attack X Y rngs_t attack_fn compute_fn (create rngs_t keys r) (map att_batch bs') = Ok s' /\
    num_images _ s = num_images _ s' /\ num_changes _ s = num_changes _ s' /\ num_correct _ s = num_correct _ s' /\ sum_loss _ s = sum_loss _ s' /\
    sum_iou_experts _ s = sum_iou_experts _ s'.
Proof.
  intros A S W W' P. destruct (attack_run X Y rngs_t attack_fn compute_fn keys atk inf tokens experts A S bs [] r W) as [r1 E1].
  destruct (attack_run X Y rngs_t attack_fn compute_fn keys atk inf tokens experts A S bs' [] r W') as [r2 E2].
  eexists. eexists. split; [exact E1|]. split; [exact E2|]. cbn [app]. 
  rewrite (stats_perm X Y rngs_t keys atk inf experts r1 _ _ P). repeat split.
Qed.
Lemma mask_cw_true x : mask_cw true x = x.
Proof. unfold mask_cw. rewrite <- (map_id x) at 2. apply map_ext. intros r. rewrite <- (map_id r) at 2. apply map_ext. intros w. simpl. lra. Qed.
Lemma arrays_iou n t a b : 0 < t -> length a = length b -> Forall (fun x => length x = t /\ Forall (fun r => length r = n) x) a -> Forall (fun x => length x = t /\ Forall (fun r => length r = n) x) b ->
  sum_intersection_over_union a b = Ok (Some (total (map (fun e => mean_iou n (fst e) (snd e)) (combine a b)))).
Proof.
  intros T L FA FB. assert (B := batch_iou n t (fun _ : list (list R) * list (list R) => true) fst snd (combine a b)).
  rewrite (map_ext (fun e => mask_cw true (fst e)) fst) in B by (intros; apply mask_cw_true). rewrite (map_ext (fun e => mask_cw true (snd e)) snd) in B by (intros; apply mask_cw_true).
  rewrite map_fst_combine, map_snd_combine in B by auto. rewrite B.
  - do 2 f_equal. f_equal. f_equal. generalize (combine a b) as l. induction l as [|x l IH]; simpl; congruence.
  - apply Forall_forall. intros [x y] H. rewrite Forall_forall in FA, FB. destruct (FA x (in_combine_l _ _ _ _ H)). destruct (FB y (in_combine_r _ _ _ _ H)). auto.
Qed.
Lemma iou_bounds n t a b : 0 < t -> length a = length b -> Forall (fun x => length x = t /\ Forall (fun r => length r = n) x) a -> Forall (fun x => length x = t /\ Forall (fun r => length r = n) x) b ->
  exists v, sum_intersection_over_union a b = Ok (Some v) /\ (0 <= v <= INR (length a))%R.
Proof.
  intros T L FA FB. eexists. split; [eapply arrays_iou; eauto|].
  replace (length a) with (length (combine a b)) by (rewrite combine_length; lia). apply (total_bounds (fun e => mean_iou n (fst e) (snd e))). intros e _. apply mean_iou_bounds.
Qed.
Lemma iou_same n t a : 0 < t -> Forall (fun x => length x = t /\ Forall (fun r => length r = n) x) a ->
  Forall (Forall (fun row => exists w, In w row /\ (0 < w)%R)) a -> sum_intersection_over_union a a = Ok (Some (INR (length a))).
Proof.
  intros T F E. rewrite (arrays_iou n t a a) by auto. do 2 f_equal. rewrite total_one; [rewrite combine_length, Nat.min_id; auto|].
  intros [x y] H. assert (x = y). { clear -H. induction a; simpl in H; [tauto|]. destruct H as [H|H]; [congruence|auto]. }
  subst y. apply in_combine_l in H. rewrite Forall_forall in F, E. destruct (F x H) as [L R]. cbn [fst snd]. apply mean_iou_same.
  - intros ->. simpl in L. lia.
  - apply Forall_forall. intros row Hr. specialize (E x H). rewrite Forall_forall in E, R. destruct (E row Hr) as (w & I & P). destruct (In_nth _ _ 0%R I) as (i & Hi & Ni).
    exists i. rewrite <- (R row Hr). split; auto. unfold selected. rewrite Ni. destruct (Rlt_dec 0 w); [auto|contradiction].
Qed.
