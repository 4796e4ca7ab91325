(** Proofs of C97. *)
From Coq Require Import List Arith Bool Lia.
From Verif Require Import Py PyLemmas TreeModel TreeSpec TreeProofs TreeProofs2 ObxModel ObxSpec.
Import ListNotations.

Lemma Forall2_in_l {A B} (R : A -> B -> Prop) l m x : Forall2 R l m -> In x l -> exists y, In y m /\ R x y.
Proof. induction 1; intros []; [subst; eexists; split; [left; reflexivity|assumption]|]. destruct IHForall2 as [z []]; auto. exists z. split; [right|]; auto. Qed.

(** ** Flattening, mapping, unflattening *)
Definition through {L M} (f : str -> L -> res M) (t : tree L) : res (tree M) :=
  bind (flatten_dict t) (fun fl =>
  bind (rmap (fun kv => bind (match snd kv with FEmpty => Ok FEmpty | FLeaf x => bind (f (fst kv) x) (fun y => Ok (FLeaf y)) end)
                          (fun v => Ok (fst kv, v))) fl) (fun xs =>
  bind (unflatten_dict xs) (from_state_dict t))).

Lemma through_total {L M} (f : str -> L -> res M) (g : list str -> L -> M) cs : wf no_slash (Node cs) ->
  (forall q x, In (q, FLeaf x) (paths (Node cs)) -> f (join q) x = Ok (g q x)) ->
  through f (Node cs) = Ok (mapt g [] (Node cs)).
Proof.
  intros W H. destruct cs as [|kc cs]; [reflexivity|]. unfold through, flatten_dict. cbn [bind].
  rewrite (flatten_paths (Node (kc :: cs)) []); auto; [|eauto]. cbn [app].
  rewrite (proj2 (rmap_ok _ _ (map (fun qv => (join (fst qv), mapv g (fst qv) (snd qv))) (paths (Node (kc :: cs)))))).
  - cbn [bind].
    assert (G : map (fun qv => (join (fst qv), mapv g (fst qv) (snd qv))) (paths (Node (kc :: cs)))
                = map (fun pv => (join (fst pv), snd pv)) (paths (mapt g [] (Node (kc :: cs))))).
    { rewrite paths_mapt, map_map. simpl. auto. }
    rewrite G.
    rewrite (unflatten_flatten (mapt g [] (Node (kc :: cs))) (fst kc, mapt g ([] ++ [fst kc]) (snd kc))
              (map (fun kc => (fst kc, mapt g ([] ++ [fst kc]) (snd kc))) cs)); auto; [|apply wf_mapt; auto].
    cbn [bind]. apply (from_state_mapt no_slash); auto.
  - clear W. induction (paths (Node (kc :: cs))) as [|[q v] l IH]; simpl; constructor; [|apply IH; intros; apply H; simpl; auto].
    simpl. destruct v as [x|]; simpl; auto. rewrite (H q x (or_introl eq_refl)). auto.
Qed.
Lemma through_inv {L M} (f : str -> L -> res M) t r : wf (fun _ => True) t -> through f t = Ok r ->
  (exists cs, t = Node cs) /\ wf no_slash t /\ forall q x, In (q, FLeaf x) (paths t) -> exists y, f (join q) x = Ok y.
Proof.
  intros W0 E. assert (W : wf no_slash t).
  { apply wf_keys; auto. unfold through in E. apply bind_ok in E. destruct E as [fl [_ E]].
    apply bind_ok in E. destruct E as [ar [_ E]]. apply bind_ok in E. destruct E as [u [Eu E]].
    apply unflatten_keys in Eu; [|constructor; constructor]. eapply from_state_keys; eauto. }
  destruct t as [x|cs]. { discriminate. } split; [eauto|]. split; [auto|].
  destruct cs as [|kc cs]. { intros q x [I|[]]. discriminate. }
  unfold through in E. cbn [flatten_dict bind] in E. rewrite (flatten_paths _ []) in E; auto; [|eauto].
  apply bind_ok in E. destruct E as [ar [E _]]. apply rmap_ok in E. intros q x I. clear - E I.
  generalize dependent ar. induction (paths (Node (kc :: cs))) as [|qv l IH]; [contradiction|]. intros ar E. inversion E; subst.
  destruct I as [->|I]; [|eapply IH; eauto]. simpl in H1. apply bind_ok in H1. destruct H1 as [fv [H1 _]]. apply bind_ok in H1.
  destruct H1 as [s [H1 _]]. eauto.
Qed.

Lemma mapt_mapt {L M N} (f : list str -> L -> M) (g : list str -> M -> N) t : forall p,
  mapt g p (mapt f p t) = mapt (fun q x => g q (f q x)) p t.
Proof.
  induction t as [x|cs IH] using tree_ind'; intros p; [reflexivity|]. simpl. f_equal. rewrite map_map. apply map_ext_in. intros kc I. simpl. f_equal.
  rewrite Forall_forall in IH. apply IH. exact I.
Qed.
Lemma tmap_mapt {L M} (f : L -> M) t : forall p, tmap f t = mapt (fun _ x => f x) p t.
Proof.
  induction t as [x|cs IH] using tree_ind'; intros p; [reflexivity|]. simpl. f_equal. apply map_ext_in. intros kc I. f_equal.
  rewrite Forall_forall in IH. apply IH. exact I.
Qed.
Lemma mapt_ext {L M} (f g : list str -> L -> M) t : forall p,
  (forall q x, In (q, FLeaf x) (paths t) -> f (p ++ q) x = g (p ++ q) x) -> mapt f p t = mapt g p t.
Proof.
  induction t as [x|cs IH] using tree_ind'; intros p H. { simpl. specialize (H [] x (or_introl eq_refl)). rewrite app_nil_r in H. congruence. }
  simpl. f_equal. apply map_ext_in. intros [k c] I. simpl. f_equal. rewrite Forall_forall in IH. apply (IH (k, c) I).
  intros q x Iq. rewrite <- app_assoc. simpl. apply H. destruct cs as [|kc cs]; [contradiction|]. rewrite paths_node by discriminate.
  unfold paths_list. apply in_flat_map. exists (k, c). split; [exact I|]. apply in_map_iff. exists (q, FLeaf x). split; auto.
Qed.
Lemma paths_child {L} (cs : list (str * tree L)) k c q v : In (k, c) cs -> In (q, v) (paths c) -> In (k :: q, v) (paths (Node cs)).
Proof.
  intros I J. destruct cs as [|kc cs]; [contradiction|]. rewrite paths_node by discriminate. unfold paths_list. apply in_flat_map.
  exists (k, c). split; [exact I|]. apply in_map_iff. exists (q, v). split; auto.
Qed.
Lemma leaf_at_paths {L} (t : tree L) : forall q x, leaf_at t q x -> In (q, FLeaf x) (paths t).
Proof. intros q x A. induction A; [left; reflexivity|]. eapply paths_child; eauto. Qed.

Lemma zipt_mapt {A B C} (f : A -> B -> res C) (g : list str -> A -> B) (h : list str -> A -> C) P t : forall p, wf P t ->
  (forall q x, In (q, FLeaf x) (paths t) -> f x (g (p ++ q) x) = Ok (h (p ++ q) x)) -> zipt f t (mapt g p t) = Ok (mapt h p t).
Proof.
  induction t as [x|cs IH] using tree_ind'; intros p W H.
  { simpl. specialize (H [] x (or_introl eq_refl)). rewrite app_nil_r in H. rewrite H. reflexivity. }
  inversion W as [|? ND F]; subst. cbn [mapt zipt]. rewrite map_length, Nat.eqb_refl.
  rewrite (proj2 (rmap_ok _ _ (map (fun kc => (fst kc, mapt h (p ++ [fst kc]) (snd kc))) cs))); auto.
  assert (ND' : NoDup (map fst (map (fun kc => (fst kc, mapt g (p ++ [fst kc]) (snd kc))) cs))) by (rewrite map_map; auto).
  assert (G : forall l, incl l cs -> Forall2 (fun kc y => match dget (map (fun kc => (fst kc, mapt g (p ++ [fst kc]) (snd kc))) cs) (fst kc) with
      | None => Raise ValueError | Some d => bind (zipt f (snd kc) d) (fun z => Ok (fst kc, z)) end = Ok y) l
      (map (fun kc => (fst kc, mapt h (p ++ [fst kc]) (snd kc))) l)).
  { induction l as [|kc l IHl]; intros S; simpl; constructor.
    - assert (Ik : In kc cs) by (apply S; left; reflexivity).
      rewrite (dget_in _ (fst kc) (mapt g (p ++ [fst kc]) (snd kc))); auto.
      + rewrite Forall_forall in *. rewrite IH; auto. { apply F. exact Ik. }
        intros q x Iq. rewrite <- app_assoc. simpl. apply H. destruct kc as [k c]. eapply paths_child; eauto.
      + apply in_map_iff. exists kc. auto.
    - apply IHl. intros x I. apply S. right. exact I. }
  apply G. apply incl_refl.
Qed.
Lemma zipt_inv {A B C} (f : A -> B -> res C) (g : list str -> A -> B) P t : forall p r, wf P t -> zipt f t (mapt g p t) = Ok r ->
  forall q x, In (q, FLeaf x) (paths t) -> exists z, f x (g (p ++ q) x) = Ok z.
Proof.
  induction t as [x|cs IH] using tree_ind'; intros p r W E q y I.
  { destruct I as [I|[]]. injection I as <- <-. rewrite app_nil_r. simpl in E. apply bind_ok in E. destruct E as [z [E _]]. eauto. }
  inversion W as [|? ND F]; subst. cbn [mapt zipt] in E. rewrite map_length, Nat.eqb_refl in E. apply bind_ok in E. destruct E as [zs [E _]].
  apply rmap_ok in E. assert (ND' : NoDup (map fst (map (fun kc => (fst kc, mapt g (p ++ [fst kc]) (snd kc))) cs))) by (rewrite map_map; auto).
  destruct cs as [|kc0 cs0] eqn:Ecs. { destruct I as [I|[]]. discriminate. }
  rewrite paths_node in I by discriminate. unfold paths_list in I. rewrite <- Ecs in *. apply in_flat_map in I. destruct I as [[k c] [Ic I]].
  apply in_map_iff in I. destruct I as [[q' v] [Eq I]]. simpl in Eq. injection Eq as <- ->.
  destruct (Forall2_in_l _ _ _ _ E Ic) as [z [_ Ez]]. cbn [fst snd] in Ez.
  rewrite (dget_in _ k (mapt g (p ++ [k]) c)) in Ez; auto.
  2:{ apply in_map_iff. exists (k, c). auto. }
  apply bind_ok in Ez. destruct Ez as [d [Ez _]]. rewrite Forall_forall in *. 
  destruct (IH (k, c) Ic (p ++ [k]) d (proj2 (F _ Ic)) Ez q' y I) as [w Hw]. exists w. rewrite <- app_assoc in Hw. exact Hw.
Qed.

(** A tree that is related, and only it *)
Lemma related_det {L M} (R : list str -> L -> M -> Prop) (t : tree L) : (forall p x y z, R p x y -> R p x z -> y = z) ->
  forall p r r', related R p t r -> related R p t r' -> r = r'.
Proof.
  intros D. induction t as [x|cs IH] using tree_ind'; intros p r r' A B.
  - inversion A; subst. inversion B; subst. f_equal. eapply D; eauto.
  - inversion A as [|? ? ds Fd]; subst. inversion B as [|? ? es Fe]; subst. f_equal. clear A B.
    revert ds es Fd Fe. induction cs as [|kc cs IHc]; intros ds es Fd Fe; inversion Fd; subst; inversion Fe; subst; [reflexivity|].
    inversion IH; subst. f_equal; [|apply IHc; auto]. destruct H1 as [E1 R1], H2 as [E2 R2]. destruct y, y0; cbn [fst snd] in *. subst. f_equal. eauto.
Qed.
Lemma related_leaf {L M} (R : list str -> L -> M -> Prop) (t : tree L) : forall p r, related R p t r ->
  forall q x, In (q, FLeaf x) (paths t) -> exists y, R (p ++ q) x y.
Proof.
  induction t as [x|cs IH] using tree_ind'; intros p r A q y I.
  - destruct I as [I|[]]. injection I as <- <-. rewrite app_nil_r. inversion A; subst. eauto.
  - inversion A as [|? ? ds Fd]; subst. destruct cs as [|kc0 cs0] eqn:Ecs. { destruct I as [I|[]]. discriminate. }
    rewrite paths_node in I by discriminate. unfold paths_list in I. rewrite <- Ecs in *. apply in_flat_map in I. destruct I as [[k c] [Ic I]].
    apply in_map_iff in I. destruct I as [[q' v] [Eq I]]. simpl in Eq. injection Eq as <- ->.
    destruct (Forall2_in_l _ _ _ _ Fd Ic) as [z [_ [_ Rz]]]. cbn [fst snd] in Rz. rewrite Forall_forall in IH.
    destruct (IH (k, c) Ic (p ++ [k]) _ Rz q' y I) as [w Hw]. exists w. rewrite <- app_assoc in Hw. exact Hw.
Qed.
