From Coq Require Import List Arith Bool Permutation Lia.
From Verif Require Import Py PyLemmas TreeModel TreeSpec TreeProofs TreeProofs2 TreeProofs3 MapModel MapSpec MapProofs MapProofs2 OptModel OptSpec.
Import ListNotations.

(** ** Flattening *)
Definition tagged {L} (l : list (str * L)) : list (str * flatv L) := map (fun kv => (fst kv, FLeaf (snd kv))) l.
Lemma tagged_dset {L} (d : list (str * L)) k v : tagged (dset d k v) = dset (tagged d) k (FLeaf v).
Proof. induction d as [|[k' v'] d IH]; simpl; auto. destruct (str_eqb k' k); simpl; auto. unfold tagged in *. f_equal. auto. Qed.
Lemma tagged_dupdate {L} (e d : list (str * L)) : tagged (dupdate d e) = dupdate (tagged d) (tagged e).
Proof. revert d. unfold dupdate. induction e as [|[k v] e IH]; intros d; simpl; auto. rewrite IH, tagged_dset. auto. Qed.
Lemma tagged_dupdates {L} (ls : list (list (str * L))) : forall d, tagged (fold_left dupdate ls d) = fold_left dupdate (map tagged ls) (tagged d).
Proof. induction ls; intros; simpl; auto. rewrite IHls, tagged_dupdate. auto. Qed.
Lemma flat_flatten {L} (t : tree L) : forall p, nonempty t -> tagged (flat_ p t) = flatten_ p t.
Proof.
  induction t as [x|cs IH] using tree_ind'; intros p N; simpl; auto. inversion N as [|cs' NE F]; subst.
  destruct cs as [|kc cs]; [congruence|]. rewrite tagged_dupdates, map_map. f_equal.
  apply map_ext_in. intros a Ha. rewrite Forall_forall in IH, F. apply IH; auto.
Qed.

Lemma rebuild_map {L M} (f : str -> L -> M) (t : tree L) cs : t = Node cs -> wf no_slash t -> nonempty t ->
  exists fl, flat t = Ok fl /\ rebuild t (map (fun kv => (fst kv, f (fst kv) (snd kv))) fl) = Ok (mapt (fun q => f (join q)) [] t).
Proof.
  intros E W N. subst t. exists (flat_ [] (Node cs)). split; [auto|]. unfold rebuild.
  destruct cs as [|kc cs]; [inversion N; congruence|].
  eapply unflatten_any; [reflexivity|auto|].
  assert (FF := flat_flatten (Node (kc :: cs)) [] N). rewrite flatten_paths in FF by eauto. simpl app in FF.
  assert (G : map (fun kv => (fst kv, FLeaf (snd kv))) (map (fun kv => (fst kv, f (fst kv) (snd kv))) (flat_ [] (Node (kc :: cs)))) =
    map (fun kv => (fst kv, match snd kv with FLeaf x => FLeaf (f (fst kv) x) | FEmpty => FEmpty end)) (tagged (flat_ [] (Node (kc :: cs))))).
  { unfold tagged. rewrite !map_map. apply map_ext. auto. }
  rewrite G, FF, map_map. apply Permutation_refl'. apply map_ext. intros [q v]. simpl. destruct v; auto.
Qed.

(** ** Trees *)
Lemma Forall2_weaken {A B} (R S : A -> B -> Prop) l m : (forall x y, R x y -> S x y) -> Forall2 R l m -> Forall2 S l m.
Proof. induction 2; constructor; auto. Qed.
Lemma Forall2_in_l {A B} (R : A -> B -> Prop) l m : Forall2 R l m -> forall x, In x l -> exists y, In y m /\ R x y.
Proof. induction 1; intros z; simpl; [tauto|]. intros [->|I]; [eauto|]. destruct (IHForall2 _ I) as (w & ? & ?). eauto. Qed.
Lemma Forall2_in_r {A B} (R : A -> B -> Prop) l m : Forall2 R l m -> forall y, In y m -> exists x, In x l /\ R x y.
Proof. induction 1; intros z; simpl; [tauto|]. intros [->|I]; [eauto|]. destruct (IHForall2 _ I) as (w & ? & ?). eauto. Qed.

Lemma dget_unique {L} (cs : list (str * L)) k v w : NoDup (map fst cs) -> In (k, v) cs -> In (k, w) cs -> v = w.
Proof. intros N A B. apply (dget_in _ _ _ N) in A. apply (dget_in _ _ _ N) in B. congruence. Qed.

Lemma leaf_unique {L} P (t : tree L) : wf P t -> forall p x y, leaf_at t p x -> leaf_at t p y -> x = y.
Proof.
  induction t as [z|cs IH] using tree_ind'; intros W p x y A B.
  - inversion A; inversion B; congruence.
  - inversion W as [|cs' ND F]; subst. inversion A as [|cs1 k c q x1 I1 L1]; subst. inversion B as [|cs2 k2 c2 q2 y1 I2 L2]; subst.
    assert (c2 = c) by (eapply dget_unique; eauto). subst c2. rewrite Forall_forall in IH, F. eapply (IH _ I1); eauto. apply (F _ I1).
Qed.

Lemma related_true_leaf {L M} (a : tree L) : forall (b : tree M) q, related (fun _ _ _ => True) q a b ->
  forall p x, leaf_at a p x -> exists y, leaf_at b p y.
Proof.
  induction a as [z|cs IH] using tree_ind'; intros b q H p x A.
  - inversion H; subst. inversion A; subst. eexists. constructor.
  - inversion H as [|q' cs' ds F]; subst. inversion A as [|cs1 k c r x1 I L1]; subst.
    destruct (Forall2_in_l _ _ _ F _ I) as ([k' d] & I2 & E & R). simpl in *. subst k'. rewrite Forall_forall in IH.
    destruct (IH _ I _ _ R _ _ L1) as [y Hy]. exists y. econstructor; eauto.
Qed.

Lemma tree_map2_node {A B C} (f : A -> B -> C) cs ds r : tree_map2 f (Node cs) (Node ds) = Ok r ->
  length cs = length ds /\ exists rs, r = Node rs /\
  Forall2 (fun kc kr => fst kr = fst kc /\ exists d, dget ds (fst kc) = Some d /\ tree_map2 f (snd kc) d = Ok (snd kr)) cs rs.
Proof.
  simpl. destruct (Nat.eqb_spec (length cs) (length ds)) as [E|]; [|discriminate]. intros H. split; auto.
  apply bind_ok in H. destruct H as (rs & H & K). apply Ok_inj in K. subst r. exists rs. split; auto.
  apply rmap_ok in H. eapply Forall2_weaken; [|exact H]. intros kc [k r] Q. simpl in *. destruct (dget ds (fst kc)) as [d|]; [|discriminate].
  apply bind_ok in Q. destruct Q as (x & Q & K). apply Ok_inj in K. injection K as <- <-. split; auto. exists d. auto.
Qed.

Lemma keys_same {V W} (cs : list (str * V)) (ds : list (str * W)) : NoDup (map fst cs) -> length cs = length ds ->
  (forall k, In k (map fst cs) -> In k (map fst ds)) -> NoDup (map fst ds) /\ forall k, In k (map fst ds) -> In k (map fst cs).
Proof.
  intros N E I. split.
  - eapply NoDup_incl_NoDup; [exact N| |exact I]. rewrite !map_length. lia.
  - apply NoDup_length_incl; auto. rewrite !map_length. lia.
Qed.
Lemma dget_in_keys {W} (ds : list (str * W)) k d : dget ds k = Some d -> In k (map fst ds) /\ In (k, d) ds.
Proof.
  induction ds as [|[k' d'] ds IH]; simpl; [discriminate|]. destruct (str_eqb_spec k' k) as [->|].
  - intros H. injection H as ->. auto.
  - intros H. destruct (IH H). auto.
Qed.

Lemma tree_map2_ok {A B C} (f : A -> B -> C) P (a : tree A) : forall b r q, tree_map2 f a b = Ok r -> wf P a ->
  wf P b /\ (nonempty a -> nonempty b) /\ related (fun _ _ _ => True) q a r /\
  (forall p x, leaf_at a p x -> exists y, leaf_at b p y /\ leaf_at r p (f x y)).
Proof.
  induction a as [x|cs IH] using tree_ind'; intros b r q H W; destruct b as [y|ds]; try (simpl in H; discriminate).
  - simpl in H. injection H as <-. repeat split; try constructor; auto. intros p z L. inversion L; subst. exists y. split; constructor.
  - apply tree_map2_node in H. destruct H as (E & rs & -> & F). inversion W as [|cs' ND WF]; subst.
    rewrite Forall_forall in IH, WF.
    assert (I : forall k, In k (map fst cs) -> In k (map fst ds)).
    { intros k Hk. apply in_map_iff in Hk. destruct Hk as (kc & <- & Hk). destruct (Forall2_in_l _ _ _ F _ Hk) as (kr & _ & _ & d & D & _).
      apply (dget_in_keys _ _ _ D). }
    destruct (keys_same _ _ ND E I) as [ND2 I2].
    assert (CH : forall k d, In (k, d) ds -> exists c r, In (k, c) cs /\ In (k, r) rs /\ tree_map2 f c d = Ok r).
    { intros k d Hd. assert (K : In k (map fst cs)) by (apply I2; apply (in_map fst) in Hd; exact Hd).
      apply in_map_iff in K. destruct K as ([k' c] & K & Hc). simpl in K. subst k'.
      destruct (Forall2_in_l _ _ _ F _ Hc) as ([k' r] & Hr & Ek & d' & D & T). simpl in *. subst k'.
      rewrite (dget_in _ _ _ ND2 Hd) in D. injection D as <-. eauto. }
    repeat split.
    + constructor; auto. apply Forall_forall. intros [k d] Hd. destruct (CH _ _ Hd) as (c & r & Hc & Hr & T). simpl.
      split; [apply (WF _ Hc)|]. apply (IH _ Hc _ _ [] T). apply (WF _ Hc).
    + intros N. inversion N as [|cs' NE NF]; subst. constructor. { intros ->. destruct cs; [congruence|discriminate]. }
      apply Forall_forall. intros [k d] Hd. destruct (CH _ _ Hd) as (c & r & Hc & Hr & T). simpl. rewrite Forall_forall in NF.
      apply (IH _ Hc _ _ [] T); [apply (WF _ Hc)|apply (NF _ Hc)].
    + constructor. clear - F IH WF. induction F as [|kc kr cs rs [E (d & D & T)] F IHF]; constructor.
      * split; auto. destruct (IH kc (or_introl eq_refl) _ _ (q ++ [fst kc]) T) as (_ & _ & R & _); [apply (WF kc); simpl; auto|auto].
      * apply IHF; intros; [apply IH|apply WF]; simpl; auto.
    + intros p x L. inversion L as [|cs1 k c p' x1 Hc L1]; subst.
      destruct (Forall2_in_l _ _ _ F _ Hc) as ([k' r] & Hr & Ek & d & D & T). simpl in *. subst k'.
      destruct (IH _ Hc _ _ [] T) as (_ & _ & _ & Q); [apply (WF _ Hc)|]. destruct (Q _ _ L1) as (y & Y1 & Y2).
      exists y. split; econstructor; eauto. apply (dget_in_keys _ _ _ D).
Qed.

(** Being alike does not depend on where the trees start. *)
Lemma alike_any {L M} (a : tree L) : forall (b : tree M) q q', related (fun _ _ _ => True) q a b -> related (fun _ _ _ => True) q' a b.
Proof.
  induction a as [x|cs IH] using tree_ind'; intros b q q' H; inversion H as [|? ? ds F]; subst; constructor; auto.
  clear H. induction F as [|kc kd cs ds [E R] F IHF]; constructor.
  - split; auto. inversion IH; subst. eauto.
  - apply IHF. inversion IH; auto.
Qed.
Lemma alike_refl {L} (a : tree L) : forall q, related (fun _ _ _ => True) q a a.
Proof.
  induction a as [x|cs IH] using tree_ind'; intros q; constructor; auto. induction IH; constructor; auto.
Qed.
Lemma alike_sym {L M} (a : tree L) : forall (b : tree M) q, related (fun _ _ _ => True) q a b -> related (fun _ _ _ => True) q b a.
Proof.
  induction a as [x|cs IH] using tree_ind'; intros b q H; inversion H as [|? ? ds F]; subst; constructor; auto.
  clear H. induction F as [|kc kd cs ds [E R] F IHF]; constructor.
  - split; auto. inversion IH; subst. rewrite <- E. eauto.
  - apply IHF. inversion IH; auto.
Qed.
Lemma alike_trans {L M N} (a : tree L) : forall (b : tree M) (c : tree N) q, related (fun _ _ _ => True) q a b ->
  related (fun _ _ _ => True) q b c -> related (fun _ _ _ => True) q a c.
Proof.
  induction a as [x|cs IH] using tree_ind'; intros b c q H H2; inversion H as [|? ? ds F]; subst; inversion H2 as [|? ? es F2]; subst; constructor; auto.
  clear H H2. revert es F2. induction F as [|kc kd cs ds [E R] F IHF]; intros es F2; inversion F2 as [|? ke ? es' [E2 R2] F3]; subst; constructor.
  - split; [congruence|]. inversion IH; subst. rewrite <- E in R2. eauto.
  - apply IHF; auto. inversion IH; auto.
Qed.
Lemma alike_wf {L M} P (a : tree L) : forall (b : tree M) q, related (fun _ _ _ => True) q a b -> wf P a -> wf P b.
Proof.
  induction a as [x|cs IH] using tree_ind'; intros b q H W; inversion H as [|? ? ds F]; subst; [constructor|].
  inversion W as [|? ND WF]; subst. constructor.
  - assert (E : map fst ds = map fst cs); [|rewrite E; auto]. clear - F. induction F as [|? ? ? ? [E _]]; simpl; congruence.
  - apply Forall_forall. intros kd Hd. destruct (Forall2_in_r _ _ _ F _ Hd) as (kc & Hc & E & R). rewrite Forall_forall in IH, WF.
    rewrite <- E. split; [apply (WF _ Hc)|]. eapply IH; eauto. apply (WF _ Hc).
Qed.
Lemma alike_nonempty {L M} (a : tree L) : forall (b : tree M) q, related (fun _ _ _ => True) q a b -> nonempty a -> nonempty b.
Proof.
  induction a as [x|cs IH] using tree_ind'; intros b q H W; inversion H as [|? ? ds F]; subst; [constructor|].
  inversion W as [|? NE WF]; subst. constructor.
  - intros ->. inversion F. congruence.
  - apply Forall_forall. intros kd Hd. destruct (Forall2_in_r _ _ _ F _ Hd) as (kc & Hc & E & R). rewrite Forall_forall in IH, WF.
    eapply IH; eauto.
Qed.
Lemma alike_mapt {L M} (f : list str -> L -> M) t : alike t (mapt f [] t).
Proof. apply related_mapt. apply Forall_forall. intros [q v] _. simpl. destruct v; auto. Qed.

Lemma mapt_leaf {L M} (f : list str -> L -> M) t : forall q p x, leaf_at t p x -> leaf_at (mapt f q t) p (f (q ++ p) x).
Proof.
  induction t as [z|cs IH] using tree_ind'; intros q p x H; inversion H as [|? k c r ? I L1]; subst; simpl.
  - rewrite app_nil_r. constructor.
  - rewrite Forall_forall in IH. econstructor; [apply in_map_iff; exists (k, c); split; [reflexivity|auto]|]. simpl.
    replace (q ++ k :: r) with ((q ++ [k]) ++ r) by (rewrite <- app_assoc; auto). apply (IH _ I). auto.
Qed.

(** If the map of two trees exists, it exists for trees like them. *)
Lemma tree_map2_alike {A B C B' C'} (f : A -> B -> C) (g : A -> B' -> C') (a : tree A) : forall b b' r q,
  tree_map2 f a b = Ok r -> related (fun _ _ _ => True) q b b' -> exists r', tree_map2 g a b' = Ok r'.
Proof.
  induction a as [x|cs IH] using tree_ind'; intros b b' r q H R; destruct b as [y|ds]; try (simpl in H; discriminate);
    inversion R as [|? ? ds' F]; subst.
  - simpl. eauto.
  - destruct (tree_map2_node _ _ _ _ H) as (E & rs & -> & F2). simpl. rewrite <- (Forall2_len _ _ _ F). rewrite (proj2 (Nat.eqb_eq _ _) E).
    assert (T : exists l, rmap (fun kc => match dget ds' (fst kc) with Some d => bind (tree_map2 g (snd kc) d) (fun r => Ok (fst kc, r)) | None => Raise ValueError end) cs = Ok l).
    { apply rmap_total. intros kc Hc. destruct (Forall2_in_l _ _ _ F2 _ Hc) as (kr & Hr & Ek & d & D & T).
      assert (D' : exists d', dget ds' (fst kc) = Some d' /\ related (fun _ _ _ => True) (q ++ [fst kc]) d d').
      { clear - D F. induction F as [|[k1 v1] [k2 v2] ds ds' [E R] F IHF]; simpl in *; [discriminate|]. subst k2.
        destruct (str_eqb_spec k1 (fst kc)) as [->|]; auto. injection D as ->. eauto. }
      destruct D' as (d' & -> & Rd). rewrite Forall_forall in IH. destruct (IH _ Hc _ _ _ _ T Rd) as [r' ->]. simpl. eauto. }
    destruct T as [l ->]. simpl. eauto.
Qed.
Lemma tree_map2_total {A B C} P (f : A -> B -> C) (a : tree A) : forall b q, related (fun _ _ _ => True) q a b -> wf P a -> exists r, tree_map2 f a b = Ok r.
Proof.
  induction a as [x|cs IH] using tree_ind'; intros b q R W; inversion R as [|? ? ds F]; subst.
  - simpl. eauto.
  - simpl. rewrite <- (Forall2_len _ _ _ F), Nat.eqb_refl. inversion W as [|? ND WF]; subst. rewrite Forall_forall in IH, WF.
    assert (ND2 : NoDup (map fst ds)).
    { assert (E : map fst ds = map fst cs); [|rewrite E; auto]. clear - F. induction F as [|? ? ? ? [E _]]; simpl; congruence. }
    assert (T : exists l, rmap (fun kc => match dget ds (fst kc) with Some d => bind (tree_map2 f (snd kc) d) (fun r => Ok (fst kc, r)) | None => Raise ValueError end) cs = Ok l).
    { apply rmap_total. intros kc Hc. destruct (Forall2_in_l _ _ _ F _ Hc) as ([k d] & Hd & Ek & T). simpl in *. subst k.
      rewrite (dget_in _ _ _ ND2 Hd). destruct (IH _ Hc _ _ T) as [r' ->]; [apply (WF _ Hc)|]. simpl. eauto. }
    destruct T as [l ->]. simpl. eauto.
Qed.
