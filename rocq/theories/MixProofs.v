From Coq Require Import List Arith Bool Reals Lra Lia Permutation Sorted.
From Verif Require Import Py PyLemmas NdArray NdLemmas TreeModel TreeProofs MapModel MapProofs MapProofs3 StepSpec StepProofs MixModel MixSpec.
Import ListNotations.
Local Open Scope nat_scope.

Lemma rleb_iff a b : rleb a b = true <-> (a <= b)%R.
Proof. unfold rleb. destruct (Rle_dec a b); split; auto; discriminate. Qed.
Lemma fold_left_sum l : forall a, (fold_left Rplus l a = a + sum l)%R.
Proof. induction l; intros; simpl; [lra|]. rewrite IHl. lra. Qed.

(** ** Weights *)
Lemma sum_opp l : (sum (map Ropp l) = - sum l)%R.
Proof. induction l; simpl; lra. Qed.
Definition raw (alpha : nda R) (k : nat) (b : list nat) : list R := map (fun i => at_ alpha (b ++ [i])) (seq 0 k).
Lemma weights_perm alpha k b : Permutation (weights alpha k b) (raw alpha k b).
Proof.
  unfold weights, raw. eapply Permutation_trans; [apply Permutation_map, sort_by_perm|]. rewrite map_map.
  apply Permutation_refl'. apply map_ext. intros. lra.
Qed.
Lemma weights_length alpha k b : length (weights alpha k b) = k.
Proof. rewrite (Permutation_length (weights_perm alpha k b)). unfold raw. rewrite map_length, seq_length. auto. Qed.
Lemma sorted_nth l : StronglySorted (fun a b => rleb a b = true) l -> forall i, S i < length l -> (nth i l 0 <= nth (S i) l 0)%R.
Proof.
  induction 1 as [|a l S IH F]; intros i Hi; simpl in Hi; [lia|]. destruct i as [|i].
  - destruct l as [|b l]; simpl in *; [lia|]. apply rleb_iff. inversion F; auto.
  - apply (IH i). lia.
Qed.
Lemma weights_decreasing alpha k b i : S i < k -> (nth (S i) (weights alpha k b) 0 <= nth i (weights alpha k b) 0)%R.
Proof.
  intros H. unfold weights. set (l := map (fun i => (- at_ alpha (b ++ [i]))%R) (seq 0 k)).
  assert (Ll : length (sort_by rleb l) = k). { rewrite (Permutation_length (sort_by_perm rleb l)). unfold l. rewrite map_length, seq_length. auto. }
  assert (S := sorted_nth (sort_by rleb l)). 
  rewrite !(nth_map_in Ropp 0%R 0%R) by lia.
  enough (nth i (sort_by rleb l) 0%R <= nth (Datatypes.S i) (sort_by rleb l) 0%R)%R by lra. apply S; [|lia].
  apply sort_by_sorted.
  - intros x y E. apply rleb_iff. unfold rleb in E. destruct (Rle_dec x y); [discriminate|lra].
  - intros x y z A B. apply rleb_iff in A, B. apply rleb_iff. lra.
Qed.
Lemma nth_sum_list (l : list R) : map (fun i => nth i l 0%R) (seq 0 (length l)) = l.
Proof. apply nth_all. Qed.

Lemma weights_good alpha k b : (forall i, i < k -> (0 <= at_ alpha (b ++ [i]))%R) -> sum (raw alpha k b) = 1%R ->
  let w := fun i => nth i (weights alpha k b) 0%R in
  (forall i, i < k -> (0 <= w i)%R) /\ (forall i, S i < k -> (w (S i) <= w i)%R) /\ sum (map w (seq 0 k)) = 1%R.
Proof.
  intros N S1 w. split; [|split].
  - intros i Hi. unfold w. assert (I : In (nth i (weights alpha k b) 0%R) (raw alpha k b)).
    { eapply Permutation_in; [apply weights_perm|]. apply nth_In. rewrite weights_length. auto. }
    unfold raw in I. apply in_map_iff in I. destruct I as (j & E & Hj). apply in_seq in Hj. rewrite <- E. apply N. lia.
  - intros i Hi. apply weights_decreasing. auto.
  - unfold w. replace (seq 0 k) with (seq 0 (length (weights alpha k b))) by (rewrite weights_length; auto). rewrite nth_sum_list. rewrite (sum_perm _ _ (weights_perm alpha k b)). auto.
Qed.

(** ** Splitting and joining the batch *)
Lemma split_at g (x y : nda R) : split_first g x = Ok y -> exists b rest, dims x = b :: rest /\ 0 < g /\ b = g * (b / g) /\ dims y = g :: b / g :: rest /\
  forall d j r, inb (dims y) (d :: j :: r) -> at_ y (d :: j :: r) = at_ x (d * (b / g) + j :: r).
Proof.
  unfold split_first. destruct (dims x) as [|b rest] eqn:E; [discriminate|]. destruct (Nat.ltb_spec 0 g); [|discriminate].
  destruct (Nat.eqb_spec (b mod g) 0) as [M|]; [|discriminate]. simpl. intros H1. exists b, rest.
  assert (B : b = g * (b / g)) by (assert (D := Nat.div_mod b g ltac:(lia)); lia).
  unfold reshape in H1. destruct (_ =? _); [|discriminate]. apply Ok_inj in H1. subst y. cbn [dims at_].
  repeat split; auto. intros d j r I. rewrite E. f_equal.
  inversion I as [|? ? ? ? Id I2]; subst. inversion I2 as [|? ? ? ? Ij I3]; subst.
  rewrite <- (unravel_ravel (b :: rest) (d * (b / g) + j :: r)).
  - f_equal. cbn [ravel prod fold_right]. fold (prod rest). set (p := b / g). lia.
  - constructor; auto. set (p := b / g) in *. clearbody p. nia.
Qed.
Lemma join_at (x y : nda R) : join_first x = Ok y -> exists a b rest, dims x = a :: b :: rest /\ dims y = a * b :: rest /\
  forall n r, inb (dims y) (n :: r) -> at_ y (n :: r) = at_ x (n / b :: n mod b :: r).
Proof.
  unfold join_first. destruct (dims x) as [|a [|b rest]] eqn:E; try discriminate. intros H. exists a, b, rest.
  unfold reshape in H. destruct (_ =? _); [|discriminate]. apply Ok_inj in H. subst y. cbn [dims at_].
  repeat split; auto. intros n r I. rewrite E. f_equal. inversion I as [|? ? ? ? In_ I2]; subst.
  assert (b <> 0) by nia.
  rewrite <- (unravel_ravel (a :: b :: rest) (n / b :: n mod b :: r)).
  - f_equal. simpl. assert (D := Nat.div_mod n b ltac:(auto)). nia.
  - constructor; [apply Nat.div_lt_upper_bound; auto; lia|]. constructor; auto. apply Nat.mod_upper_bound. auto.
Qed.

(** ** Mixing *)
Section Mixup.
Variable key : Type.
Variable dirichlet : key -> R -> list nat -> nda R.
Hypothesis DS : dirichlet_samples dirichlet.
Variable split_key : key -> key * key.

Definition gdims (gran : granularity) (g p : nat) : list nat :=
  match gran with GBatch => [1; 1] | GDevice => [g; 1] | _ => [g; p] end.

Lemma broadcast_g gran g p : broadcast [g; p] (gdims gran g p) = Some [g; p].
Proof using.
  destruct gran; cbn; rewrite ?Nat.eqb_refl; cbn; auto; destruct (p =? 1); cbn; rewrite ?orb_true_r; auto.
Qed.

Definition wgt (alpha : nda R) (k : nat) (s : list nat) (p n i : nat) : R := nth i (weights alpha k (pick s [n / p; n mod p])) 0%R.

Lemma mix_mixed gran g (x x1 x2 x3 : nda R) alpha k s p : 
  split_first g x = Ok x1 -> (exists rest, dims x1 = g :: p :: rest) -> s = gdims gran g p ->
  x2 = mix alpha s k 1 x1 [g; p] -> join_first x2 = Ok x3 ->
  nth 0 (dims x) 0 = g * p /\ mixed g k (wgt alpha k s p) x x3.
Proof using.
  intros S [rest D1] Es E2 J. destruct (split_at _ _ _ S) as (b & rest' & Dx & Hg & B & D1' & A1).
  rewrite D1' in D1. injection D1 as P R. subst rest'. rewrite P in *. assert (P' := P). clear P.
  destruct (join_at _ _ J) as (a' & b' & rest2 & D2 & D3 & A3).
  assert (Ls : length s = 2) by (subst s; destruct gran; auto).
  assert (Dm : dims x2 = g :: p :: rest). { subst x2. cbn [mix dims]. rewrite Ls, D1'. auto. }
  rewrite Dm in D2. injection D2 as <- <- <-. rewrite Dx. cbn [nth]. split; [auto|].
  split; [rewrite D3, Dx; f_equal; auto|].
  intros n r I. rewrite Dx in I. rewrite B in I. rewrite <- D3 in I. rewrite (A3 _ _ I).
  rewrite D3 in I. assert (In_ : n < g * p) by (inversion I; auto). assert (Ir : inb rest r) by (inversion I; auto). clear I. subst x2.
  assert (Hp : p <> 0) by nia. assert (Hd : n / p < g) by (apply Nat.div_lt_upper_bound; auto; lia). assert (Hj : n mod p < p) by (apply Nat.mod_upper_bound; auto).
  cbn [mix at_]. rewrite fold_left_sum, Rplus_0_l. f_equal. apply map_ext_in. intros i Hi.
  rewrite Ls, D1'. cbn [firstn skipn pick app].
  assert (Pd : (if g =? 1 then 0 else n / p) = n / p) by (destruct (Nat.eqb_spec g 1); lia).
  assert (Pj : (if p =? 1 then 0 else n mod p) = n mod p) by (destruct (Nat.eqb_spec p 1); lia).
  rewrite Pd, Pj. cbn [rolled]. f_equal.
  - unfold wgt. f_equal. f_equal. subst s. destruct gran; reflexivity.
  - rewrite A1.
    + rewrite Dx. cbn [nth]. unfold partner. rewrite P'. auto.
    + rewrite D1'. constructor; auto. constructor; auto. apply Nat.mod_upper_bound. auto.
Qed.

Lemma wgt_good gran g p k c r s : (0 < c)%R -> 0 < k -> s = gdims gran g p ->
  good_weights (g * p) k (wgt (dirichlet r c (s ++ [k])) k s p).
Proof using DS.
  intros Hc Hk Es n Hn. assert (Hp : p <> 0) by nia.
  assert (L : last (s ++ [k]) 0 = k) by apply last_last. assert (RL : removelast (s ++ [k]) = s) by apply removelast_last.
  assert (I : inb s (pick s [n / p; n mod p])).
  { assert (Hd : n / p < g) by (apply Nat.div_lt_upper_bound; auto; lia). assert (Hj : n mod p < p) by (apply Nat.mod_upper_bound; auto).
    subst s. destruct gran; cbn; repeat constructor; try lia; try (destruct (Nat.eqb_spec g 1); lia); destruct (Nat.eqb_spec p 1); lia. }
  destruct (DS r c (s ++ [k]) (pick s [n / p; n mod p]) Hc) as [D1 D2]; [rewrite RL; auto|rewrite L; auto|].
  rewrite L in *. apply (weights_good _ _ _ D1 D2).
Qed.
Lemma wgt_granular gran g p k alpha s b : b = g * p -> 0 < g -> s = gdims gran g p -> as_granular gran g b (wgt alpha k s p).
Proof using.
  intros B Hg Es. assert (P : b / g = p) by (rewrite B, Nat.mul_comm; apply Nat.div_mul; lia).
  unfold as_granular. destruct gran; auto; unfold wgt; intros n n' i; subst s; cbn; auto.
  rewrite P. intros E. rewrite E. auto.
Qed.

Lemma two_dims (l : list nat) a b : firstn 2 l = [a; b] -> exists rest, l = a :: b :: rest.
Proof using. destruct l as [|x [|y l]]; try discriminate. intros H. injection H as -> ->. eauto. Qed.

Lemma dremove_get {V} (d : list (str * V)) k k' : k <> k' -> dget (dremove d k) k' = dget d k'.
Proof using.
  intros N. induction d as [|[j v] d IH]; simpl; auto. destruct (str_eqb_spec j k) as [->|].
  - destruct (str_eqb_spec k k'); [congruence|auto].
  - simpl. destruct (str_eqb j k'); auto.
Qed.

Lemma wrap_ok {out} dc (step : list (str * key) -> nda R -> nda R -> res (list (str * key) * out)) c gran k rngs images labels rngs' o :
  (0 < c)%R -> 0 < k ->
  wrap_train_step_with_mixup key dirichlet split_key dc step (Some c) gran k rngs images labels = Ok (rngs', o) ->
  exists w images' labels' rngs1 key0,
    let b := nth 0 (dims images) 0 in
    good_weights b k w /\ as_granular gran dc b w /\ mixed dc k w images images' /\ mixed dc k w labels labels' /\
    nth 0 (dims labels) 0 = b /\ dc * (b / dc) = b /\ 0 < dc /\
    step (dremove rngs mixup_name) images' labels' = Ok (rngs1, o) /\
    dget rngs mixup_name = Some key0 /\ rngs' = dset rngs1 mixup_name (snd (split_key key0)).
Proof using DS.
  intros Hc Hk H. unfold wrap_train_step_with_mixup in H. destruct (Req_EM_T c 0); [lra|].
  destruct (dget rngs mixup_name) as [key0|]; [|discriminate]. destruct (split_key key0) as [k1 k2] eqn:SK.
  apply bind_ok in H. destruct H as (im1 & S1 & H). apply bind_ok in H. destruct H as (lb1 & S2 & H).
  destruct (split_at _ _ _ S1) as (b & rest & Dx & Hg & B & D1 & _). destruct (split_at _ _ _ S2) as (b2 & rest2 & Dx2 & _ & B2 & D2 & _).
  set (p := b / dc) in *. clearbody p.
  assert (SH : exists s, s = gdims gran dc p /\ bind (mixup key dirichlet k1 [im1; lb1] c (s ++ [k]) 1) (fun mixed =>
            match mixed with
            | [images; labels] =>
                bind (join_first images) (fun images =>
                bind (join_first labels) (fun labels =>
                bind (step (dremove rngs mixup_name) images labels) (fun r =>
                Ok (dset (fst r) mixup_name k2, snd r))))
            | _ => Raise ValueError
            end) = Ok (rngs', o)).
  { rewrite D1 in H. destruct gran; try discriminate; cbn [bind nth] in H; eexists; (split; [reflexivity|exact H]). }
  clear H. destruct SH as (s & Es & H). apply bind_ok in H. destruct H as (mx & M & H).
  assert (Ls : length s = 2) by (subst s; destruct gran; auto).
  unfold mixup in M. rewrite app_length, Ls in M. cbn [length Nat.add Nat.ltb Nat.leb] in M.
  rewrite removelast_last, last_last, Ls in M. apply bind_ok in M. destruct M as (xs & M & M2).
  destruct (negb _); [discriminate|]. destruct (Rle_dec c 0); [discriminate|]. apply Ok_inj in M2.
  apply rmap_ok in M. inversion M as [|? [x1 b1] ? ? E1 M']; subst. inversion M' as [|? [x2 b2'] ? ? E2 M'']; subst. inversion M''; subst. clear M M' M''.
  rewrite D2 in E2. rewrite D1 in E1, E2. cbn [firstn] in E1, E2. rewrite broadcast_g in E1. cbv beta iota in E1.
  match type of E1 with context[list_eq_dec ?a ?b ?c] => destruct (list_eq_dec a b c) as [_|] end; [|discriminate]. injection E1 as <- <-.
  destruct (broadcast [dc; b2 / dc] (gdims gran dc p)) as [bb|] eqn:EB; [|discriminate].
  match type of E2 with context[list_eq_dec ?a ?b ?c] => destruct (list_eq_dec a b c) as [F|] end; [|discriminate]. injection E2 as <- <-.
  rewrite F, broadcast_g in EB. injection EB as <-.
  injection F as F. cbn [map fst snd] in H.
  apply bind_ok in H. destruct H as (im3 & J1 & H). apply bind_ok in H. destruct H as (lb3 & J2 & H). apply bind_ok in H. destruct H as ([r1 o1] & ST & H).
  cbn [fst snd] in H. injection H as <- <-.
  set (alpha := dirichlet k1 c (gdims gran dc p ++ [k])) in *.
  destruct (mix_mixed gran dc images im1 _ im3 alpha k _ p S1 (ex_intro _ rest D1) eq_refl eq_refl J1) as [N1 X1].
  rewrite F in D2.
  destruct (mix_mixed gran dc labels lb1 _ lb3 alpha k _ p S2 (ex_intro _ rest2 D2) eq_refl eq_refl J2) as [N2 X2].
  exists (wgt alpha k (gdims gran dc p) p), im3, lb3, r1, key0. cbv zeta. rewrite N1.
  assert (PD : dc * p / dc = p) by (rewrite Nat.mul_comm; apply Nat.div_mul; lia).
  split; [apply (wgt_good gran); auto|]. split; [eapply wgt_granular; eauto|]. split; [auto|]. split; [auto|].
  split; [congruence|]. split; [rewrite PD; auto|]. split; [auto|]. split; [auto|]. split; [auto|]. rewrite SK. auto.
Qed.

(** The group of a partner, and the example itself as the first partner *)
Lemma partner_group g b n i : 0 < g -> g * (b / g) = b -> n < b -> partner g b n i < b /\ partner g b n i / (b / g) = n / (b / g) /\ partner g b n 0 = n.
Proof using.
  intros Hg B Hn. unfold partner. remember (b / g) as p eqn:Ep. clear Ep. subst b. assert (Hp : p <> 0) by nia.
  assert (M := Nat.mod_upper_bound (n mod p + i) p Hp). assert (D : n / p < g) by (apply Nat.div_lt_upper_bound; auto; lia).
  split; [nia|]. split.
  - rewrite Nat.div_add_l by auto. rewrite (Nat.div_small _ _ M). lia.
  - rewrite Nat.add_0_r, Nat.mod_mod by auto. rewrite (Nat.div_mod n p) at 3 by auto. lia.
Qed.

(** The total of the label of each example stays the same. *)
Lemma sum_mult (c : R) l : (sum (map (fun x => c * x) l) = c * sum l)%R.
Proof using. induction l; simpl; [ring|]. rewrite IHl. ring. Qed.
Lemma sum_swap {A B} (f : A -> B -> R) la lb : sum (map (fun a => sum (map (f a) lb)) la) = sum (map (fun b => sum (map (fun a => f a b) la)) lb).
Proof using.
  induction la as [|a la IH]; simpl.
  - induction lb; simpl; lra.
  - rewrite IH. clear IH. induction lb as [|b lb IH]; simpl; [lra|]. rewrite <- IH. lra.
Qed.
Lemma mixed_mass g k w (x x' : nda R) b cl m : dims x = [b; cl] -> 0 < g -> g * (b / g) = b -> good_weights b k w -> mixed g k w x x' ->
  (forall n, n < b -> sum (map (fun c => at_ x [n; c]) (seq 0 cl)) = m) ->
  forall n, n < b -> sum (map (fun c => at_ x' [n; c]) (seq 0 cl)) = m.
Proof using.
  intros D Hg B GW [DX MX] T n Hn. rewrite D in MX. cbn [nth] in MX.
  rewrite (map_ext_in (fun c => at_ x' [n; c]) (fun c => sum (map (fun i => (w n i * at_ x [partner g b n i; c])%R) (seq 0 k)))).
  2:{ intros c Hc. apply in_seq in Hc. apply MX. constructor; auto. constructor; [lia|constructor]. }
  rewrite sum_swap. rewrite (map_ext_in _ (fun i => (m * w n i)%R)).
  - rewrite <- map_map with (g := fun x => (m * x)%R), sum_mult. destruct (GW n Hn) as (_ & _ & ->). ring.
  - intros i Hi. rewrite <- map_map with (f := fun c => at_ x [partner g b n i; c]) (g := fun x => (w n i * x)%R). rewrite sum_mult, T; [ring|].
    apply partner_group; auto.
Qed.

Lemma split_total g p rest (x : nda R) : 0 < g -> dims x = g * p :: rest -> exists y, split_first g x = Ok y /\ dims y = g :: p :: rest.
Proof using.
  intros Hg D. unfold split_first. rewrite D. assert (M : (g * p) mod g = 0) by (rewrite Nat.mul_comm; apply Nat.mod_mul; lia).
  assert (Q : g * p / g = p) by (rewrite Nat.mul_comm; apply Nat.div_mul; lia). rewrite M, Q.
  destruct (Nat.ltb_spec 0 g); [|lia]. cbn [andb Nat.eqb]. unfold reshape. rewrite D.
  replace (prod (g :: p :: rest) =? prod (g * p :: rest)) with true; [eexists; split; reflexivity|].
  symmetry. apply Nat.eqb_eq. cbn [prod fold_right]. fold (prod rest). lia.
Qed.
Lemma join_total a b rest (x : nda R) : dims x = a :: b :: rest -> exists y, join_first x = Ok y.
Proof using.
  intros D. unfold join_first. rewrite D. unfold reshape. rewrite D.
  replace (prod (a * b :: rest) =? prod (a :: b :: rest)) with true; [eexists; reflexivity|].
  symmetry. apply Nat.eqb_eq. cbn [prod fold_right]. fold (prod rest). lia.
Qed.

Lemma wrap_total {out} dc (step : list (str * key) -> nda R -> nda R -> res (list (str * key) * out)) c gran k rngs images labels p ri rl key0 :
  (0 < c)%R -> 0 < dc -> gran <> GOther -> dget rngs mixup_name = Some key0 ->
  dims images = dc * p :: ri -> dims labels = dc * p :: rl ->
  exists images' labels',
    wrap_train_step_with_mixup key dirichlet split_key dc step (Some c) gran k rngs images labels =
    bind (step (dremove rngs mixup_name) images' labels') (fun r => Ok (dset (fst r) mixup_name (snd (split_key key0)), snd r)).
Proof using.
  intros Hc Hg Gr K Di Dl. unfold wrap_train_step_with_mixup. destruct (Req_EM_T c 0); [lra|]. rewrite K.
  destruct (split_key key0) as [k1 k2]. cbn [snd].
  destruct (split_total _ _ _ _ Hg Di) as (im1 & S1 & D1). destruct (split_total _ _ _ _ Hg Dl) as (lb1 & S2 & D2).
  rewrite S1, S2. cbn [bind].
  assert (MX : forall s, s = gdims gran dc p -> exists x y, mixup key dirichlet k1 [im1; lb1] c (s ++ [k]) 1 = Ok [x; y] /\ dims x = dc :: p :: ri /\ dims y = dc :: p :: rl).
  { intros s Es. assert (Ls : length s = 2) by (subst s; destruct gran; auto).
    unfold mixup. rewrite app_length, Ls. cbn [length Nat.add Nat.ltb Nat.leb]. rewrite removelast_last, last_last, Ls.
    rewrite D1. cbn [rmap]. rewrite D1, D2. cbn [firstn]. rewrite Es, broadcast_g.
    destruct (list_eq_dec Nat.eq_dec [dc; p] [dc; p]); [|congruence]. cbn [bind negb].
    destruct (Rle_dec c 0); [lra|]. cbn [map fst snd]. eexists _, _. split; [reflexivity|].
    rewrite <- Es. cbn [mix dims]. rewrite Ls, D1, D2. auto. }
  destruct (MX _ eq_refl) as (x & y & M & Dx & Dy).
  destruct (join_total _ _ _ _ Dx) as (x' & Jx). destruct (join_total _ _ _ _ Dy) as (y' & Jy).
  exists x', y'. rewrite D1. cbn [nth].
  destruct gran; try congruence; cbn [bind]; cbn [gdims app] in M; rewrite M; cbn [bind]; rewrite Jx; cbn [bind]; rewrite Jy; reflexivity.
Qed.

Lemma wrap_off {out} dc (step : list (str * key) -> nda R -> nda R -> res (list (str * key) * out)) gran k :
  wrap_train_step_with_mixup key dirichlet split_key dc step None gran k = step /\
  wrap_train_step_with_mixup key dirichlet split_key dc step (Some 0%R) gran k = step.
Proof using. split; auto. unfold wrap_train_step_with_mixup. destruct (Req_EM_T 0 0); congruence. Qed.

Lemma wrap_errors {out} dc (step : list (str * key) -> nda R -> nda R -> res (list (str * key) * out)) c gran k rngs images labels :
  c <> 0%R ->
  dget rngs mixup_name = None \/
  (gran = GOther \/ (c < 0)%R \/ nth 0 (dims images) 0 <> nth 0 (dims labels) 0) /\
    0 < dc /\ dims images <> [] /\ dims labels <> [] /\ nth 0 (dims images) 0 mod dc = 0 /\ nth 0 (dims labels) 0 mod dc = 0 ->
  wrap_train_step_with_mixup key dirichlet split_key dc step (Some c) gran k rngs images labels = Raise ValueError.
Proof using.
  intros C H. unfold wrap_train_step_with_mixup. destruct (Req_EM_T c 0); [congruence|].
  destruct (dget rngs mixup_name) as [key0|]; auto. destruct H as [H|(H & Hg & N1 & N2 & M1 & M2)]; [discriminate|].
  destruct (split_key key0) as [k1 k2].
  destruct (dims images) as [|b1 r1] eqn:E1; [congruence|]. destruct (dims labels) as [|b2 r2] eqn:E2; [congruence|]. cbn [nth] in *.
  assert (B1 : b1 = dc * (b1 / dc)) by (assert (D := Nat.div_mod b1 dc ltac:(lia)); lia).
  assert (B2 : b2 = dc * (b2 / dc)) by (assert (D := Nat.div_mod b2 dc ltac:(lia)); lia).
  rewrite B1 in E1. rewrite B2 in E2.
  destruct (split_total _ _ _ _ Hg E1) as (im1 & S1 & D1). destruct (split_total _ _ _ _ Hg E2) as (lb1 & S2 & D2).
  rewrite S1, S2. cbn [bind]. rewrite D1. cbn [nth].
  set (p := b1 / dc) in *. set (q := b2 / dc) in *. clearbody p q.
  assert (MX : gran <> GOther -> mixup key dirichlet k1 [im1; lb1] c (gdims gran dc p ++ [k]) 1 = Raise ValueError).
  { intros G. destruct H as [H|H]; [congruence|].
    assert (Ls : length (gdims gran dc p) = 2) by (destruct gran; auto).
    unfold mixup. rewrite app_length, Ls. cbn [length Nat.add Nat.ltb Nat.leb]. rewrite removelast_last, last_last, Ls.
    rewrite D1. cbn [rmap]. rewrite D1, D2. cbn [firstn]. rewrite broadcast_g.
    destruct (list_eq_dec Nat.eq_dec [dc; p] [dc; p]); [|congruence]. cbn [bind].
    destruct (broadcast [dc; q] _); auto. destruct (list_eq_dec Nat.eq_dec [dc; q] [dc; p]) as [F|]; auto. cbn [bind negb].
    destruct (Rle_dec c 0); auto. exfalso. injection F as F. destruct H as [H|H]; [lra|]. subst. auto. }
  destruct gran; auto; cbn [bind]; cbn [gdims app] in MX; rewrite MX by discriminate; auto.
Qed.
End Mixup.
