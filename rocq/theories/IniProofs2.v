(** Lemmas about state dicts and pytrees. *)
From Coq Require Import List Arith ZArith Bool Permutation Lia Sorted.
From Verif Require CkptModel CkptSpec.
From Verif Require Import Py TreeModel TreeSpec TreeProofs TreeProofs2 MapModel MapSpec MapProofs IniModel IniSpec IniProofs.
Import ListNotations.
Local Open Scope nat_scope.

Fixpoint tree_rect' {L} (P : tree L -> Prop) (HL : forall x, P (Leaf x))
  (HN : forall cs, Forall (fun kc => P (snd kc)) cs -> P (Node cs)) (t : tree L) : P t :=
  match t with
  | Leaf x => HL x
  | Node cs => HN cs ((fix go cs : Forall (fun kc => P (snd kc)) cs :=
      match cs with [] => Forall_nil _ | kc :: r => Forall_cons kc (tree_rect' P HL HN (snd kc)) (go r) end) cs)
  end.

Lemma state_pmap {L M} (f : L -> M) t : state (pmap f t) = tmap f (state t).
Proof.
  induction t as [x|o cs IH] using ptree_rect'; simpl; [reflexivity|]. f_equal. rewrite !map_map. simpl.
  apply map_ext_Forall. revert IH. apply Forall_impl. intros kc ->. reflexivity.
Qed.
Lemma state_dict {L} (t : tree L) : state (dict t) = t.
Proof.
  induction t as [x|cs IH] using tree_rect'; simpl; [reflexivity|]. f_equal. rewrite map_map. simpl.
  rewrite <- (map_id cs) at 2. apply map_ext_Forall. revert IH. apply Forall_impl. intros [k c]; simpl; intros ->. reflexivity.
Qed.

Inductive isdict {L} : ptree L -> Prop :=
| id_leaf x : isdict (PLeaf x)
| id_node cs : Forall (fun kc => isdict (snd kc)) cs -> isdict (PNode false cs).
Lemma isdict_dict {L} (t : tree L) : isdict (dict t).
Proof. induction t as [x|cs IH] using tree_rect'; simpl; constructor. apply Forall_map. exact IH. Qed.
Lemma isdict_canon {L} (t : ptree L) : isdict t -> isdict (canon t).
Proof.
  induction t as [x|o cs IH] using ptree_rect'; intros H; [exact H|]. inversion H as [|? F]; subst. simpl. constructor.
  eapply Permutation_Forall; [symmetry; apply sort_by_perm|]. apply Forall_map. rewrite Forall_forall in *. intros kc Hk. apply IH; auto.
Qed.
Lemma isdict_pmap {L M} (f : L -> M) t : isdict (pmap f t) <-> isdict t.
Proof.
  induction t as [x|o cs IH] using ptree_rect'; simpl; [split; constructor|].
  split; intros H; inversion H as [|? F]; subst; constructor.
  - rewrite Forall_map in F. rewrite Forall_forall in *. intros kc Hk. apply IH; auto; apply F; auto.
  - apply Forall_map. rewrite Forall_forall in *. intros kc Hk. apply IH; auto; apply F; auto.
Qed.
Lemma isdict_eq {L} (t : ptree L) : isdict t -> dict (state t) = t.
Proof.
  induction t as [x|o cs IH] using ptree_rect'; intros H; [reflexivity|]. inversion H as [|? F]; subst. simpl. f_equal. rewrite map_map. simpl.
  rewrite <- (map_id cs) at 2. apply map_ext_Forall. rewrite Forall_forall in *. intros [k c] Hk. simpl. f_equal. apply (IH (k, c)); auto; apply (F (k, c)); auto.
Qed.

(** ** reordered *)
Lemma Forall2_refl_in {A} (R : A -> A -> Prop) l : Forall (fun x => R x x) l -> Forall2 R l l.
Proof. induction 1; constructor; auto. Qed.
Lemma reordered_refl {L} (t : tree L) : reordered t t.
Proof.
  induction t as [x|cs IH] using tree_rect'; [constructor|]. econstructor; [reflexivity|].
  apply Forall2_refl_in. revert IH. apply Forall_impl. auto.
Qed.
Lemma Forall2_perm_l {A B} (R : A -> B -> Prop) l l' m : Permutation l l' -> Forall2 R l m -> exists m', Permutation m m' /\ Forall2 R l' m'.
Proof.
  intros P. revert m. induction P; intros m F.
  - inversion F; subst. exists []. auto.
  - inversion F; subst. destruct (IHP _ H3) as (m' & P' & F'). exists (y :: m'). auto.
  - inversion F as [|? ? ? ? H1 F1]; subst. inversion F1 as [|? ? ? ? H2 F2]; subst. eexists. split; [apply perm_swap|]. auto.
  - destruct (IHP1 _ F) as (m1 & P1' & F1). destruct (IHP2 _ F1) as (m2 & P2' & F2). exists m2. split; [etransitivity; eauto|auto].
Qed.
Lemma Forall2_sym {A B} (R : A -> B -> Prop) l m : Forall2 R l m -> Forall2 (fun y x => R x y) m l.
Proof. induction 1; auto. Qed.
Lemma Forall2_sym' {A B} (R : A -> B -> Prop) l m : Forall2 (fun y x => R x y) m l -> Forall2 R l m.
Proof. induction 1; auto. Qed.
Lemma Forall2_perm_r {A B} (R : A -> B -> Prop) l m m' : Permutation m m' -> Forall2 R l m -> exists l', Permutation l l' /\ Forall2 R l' m'.
Proof. intros P F. apply Forall2_sym in F. destruct (Forall2_perm_l _ _ _ _ P F) as (l' & P' & F'). exists l'. split; auto. apply Forall2_sym'. auto. Qed.
Lemma Forall2_in_l {A B} (R : A -> B -> Prop) l m x : Forall2 R l m -> In x l -> exists y, In y m /\ R x y.
Proof. induction 1; simpl; intros [].
  - subst. eauto.
  - destruct (IHForall2 H1) as (y' & ? & ?). eauto. Qed.
Lemma Forall2_in_r {A B} (R : A -> B -> Prop) l m y : Forall2 R l m -> In y m -> exists x, In x l /\ R x y.
Proof. induction 1; simpl; intros [].
  - subst. eauto.
  - destruct (IHForall2 H1) as (y' & ? & ?). eauto. Qed.
Lemma reordered_trans {L} (t : tree L) : forall u v, reordered t u -> reordered u v -> reordered t v.
Proof.
  induction t as [x|cs IH] using tree_rect'; intros u v H1 H2; inversion H1 as [|? ds es P F]; subst; [exact H2|].
  inversion H2 as [|? ds' es' P' F']; subst. destruct (Forall2_perm_r _ _ _ _ P' F) as (ds2 & P2 & F2).
  econstructor; [etransitivity; eauto|].
  assert (IH2 : Forall (fun kc => forall u v, reordered (snd kc) u -> reordered u v -> reordered (snd kc) v) ds2).
  { eapply Permutation_Forall; [|exact IH]. etransitivity; eauto. }
  clear - F2 F' IH2. revert es' F'. induction F2 as [|a b l m [E R] F IHF]; intros es' F'; inversion F' as [|? c ? es2 [E' R'] F2']; subst; constructor.
  - inversion IH2; subst. split; [congruence|]. eauto.
  - inversion IH2; subst. auto.
Qed.
Lemma reordered_canon {L} (t : ptree L) : reordered (state t) (state (canon t)).
Proof.
  induction t as [x|o cs IH] using ptree_rect'; simpl; [constructor|].
  assert (F : Forall2 (fun kd ke : str * tree L => fst kd = fst ke /\ reordered (snd kd) (snd ke))
     (map (fun kc => (fst kc, state (snd kc))) cs) (map (fun kc => (fst kc, state (snd kc))) (map (fun kc => (fst kc, canon (snd kc))) cs))).
  { clear o. induction IH as [|kc r E F IH']; simpl; constructor; auto. }
  destruct o; [econstructor; [reflexivity|exact F]|].
  destruct (Forall2_perm_r _ _ _ (map (fun kc => (fst kc, state (snd kc))) (ksort (map (fun kc => (fst kc, canon (snd kc))) cs))) (Permutation_map _ (Permutation_sym (sort_by_perm _ _))) F) as (ds & P & F').
  econstructor; [exact P|exact F'].
Qed.
Lemma reordered_tmap {L M} (f : L -> M) t : forall u, reordered t u -> reordered (tmap f t) (tmap f u).
Proof.
  induction t as [x|cs IH] using tree_rect'; intros u H; inversion H as [|? ds es P F]; subst; simpl; [constructor|].
  econstructor; [apply Permutation_map; exact P|].
  assert (IH2 := Permutation_Forall P IH). clear - F IH2. induction F as [|a b l m [E R] F IHF]; simpl; [constructor|]. inversion IH2; subst. constructor; [split; [exact E|apply H1; exact R]|auto].
Qed.
Lemma reordered_wf {L} P (t : tree L) : forall u, reordered t u -> wf P t -> wf P u.
Proof.
  induction t as [x|cs IH] using tree_rect'; intros u H W; inversion H as [|? ds es Pm F]; subst; [constructor|].
  inversion W as [|? N A]; subst.
  assert (K : map fst ds = map fst es). { clear - F. induction F as [|a b l m [E R] F IHF]; simpl; congruence. }
  constructor.
  - rewrite <- K. eapply Permutation_NoDup; [apply Permutation_map; exact Pm|exact N].
  - assert (IH2 := Permutation_Forall Pm IH). assert (A2 := Permutation_Forall Pm A).
    clear - F IH2 A2. induction F as [|a b l m [E R] F IHF]; [constructor|]. inversion IH2 as [|? ? I1 I2]; inversion A2 as [|? ? [B1 B1'] B2]; subst. constructor; [|auto].
    rewrite <- E. split; [exact B1|]. eauto.
Qed.
Lemma reordered_leaf_at {L} (t : tree L) : forall u q x, reordered t u -> leaf_at t q x <-> leaf_at u q x.
Proof.
  induction t as [y|cs IH] using tree_rect'; intros u q x H; inversion H as [|? ds es Pm F]; subst; [reflexivity|].
  rewrite Forall_forall in IH.
  split; intros A; inversion A as [|? k c p ? I B]; subst.
  - apply (Permutation_in _ Pm) in I. destruct (Forall2_in_l _ _ _ _ F I) as ([k' e] & I' & E & R). simpl in *. subst k'.
    econstructor; [exact I'|]. eapply (IH (k, c)); [|exact R|exact B]. eapply Permutation_in; [symmetry; exact Pm|exact I].
  - destruct (Forall2_in_r _ _ _ _ F I) as ([k' e] & I' & E & R). simpl in *. subst k'.
    assert (I2 : In (k, e) cs) by (eapply Permutation_in; [symmetry; exact Pm|exact I']).
    econstructor; [exact I2|]. eapply (IH (k, e)); [exact I2|exact R|exact B].
Qed.
Lemma leaf_at_tmap {L M} (f : L -> M) t : forall q y, leaf_at (tmap f t) q y <-> exists x, leaf_at t q x /\ y = f x.
Proof.
  induction t as [x|cs IH] using tree_rect'; intros q y; simpl.
  - split; intros H; [inversion H; subst; exists x; split; [constructor|reflexivity]|]. destruct H as (x' & H & ->). inversion H; subst. constructor.
  - rewrite Forall_forall in IH. split; intros H.
    + inversion H as [|? k c p ? I B]; subst. apply in_map_iff in I. destruct I as ([k' c'] & E & I). simpl in E. inversion E; subst.
      apply (IH _ I) in B. destruct B as (x & B & ->). exists x. split; [econstructor; eauto|reflexivity].
    + destruct H as (x & H & ->). inversion H as [|? k c p ? I B]; subst. econstructor.
      * apply in_map_iff. exists (k, c). split; [reflexivity|exact I].
      * simpl. apply (IH _ I). eauto.
Qed.
Lemma wf_tmap {L M} P (f : L -> M) t : wf P (tmap f t) <-> wf P t.
Proof.
  induction t as [x|cs IH] using tree_rect'; simpl; [split; constructor|].
  assert (K : map fst (map (fun kc : str * tree L => (fst kc, tmap f (snd kc))) cs) = map fst cs) by (rewrite map_map; apply map_ext; auto).
  split; intros H; inversion H as [|? N A]; subst; constructor.
  - rewrite <- K. exact N.
  - rewrite Forall_map in A. rewrite Forall_forall in *. intros kc Hk. specialize (A _ Hk). simpl in A. destruct A. split; auto. apply IH; auto.
  - rewrite K. exact N.
  - apply Forall_map. rewrite Forall_forall in *. intros kc Hk. specialize (A _ Hk). simpl. destruct A. split; auto. apply IH; auto.
Qed.
Lemma dfs_leaf_at {L} (t : ptree L) x : In x (dfs t) -> exists q, leaf_at (state t) q x.
Proof.
  induction t as [y|o cs IH] using ptree_rect'; simpl; intros H.
  - destruct H as [->|[]]. eexists. constructor.
  - apply in_flat_map in H. destruct H as ([k c] & I & H). rewrite Forall_forall in IH. destruct (IH _ I H) as (q & B).
    exists (k :: q). econstructor; [|exact B]. apply in_map_iff. exists (k, c). auto.
Qed.

(** ** pfrom *)
Lemma rmap_ok {A B} (f : A -> res B) (g : A -> B) l : Forall (fun x => f x = Ok (g x)) l -> rmap f l = Ok (map g l).
Proof. induction 1; simpl; [reflexivity|]. rewrite H. simpl. rewrite IHForall. reflexivity. Qed.
Lemma pfrom_ok {L M N} (g : L -> M) (h : L -> N) z : wf (fun _ => True) (state z) ->
  forall s, reordered (state (pmap h z)) s -> pfrom (pmap g z) s = Ok (pmap h z).
Proof.
  induction z as [x|o cs IH] using ptree_rect'; simpl; intros W s H.
  - inversion H; subst. reflexivity.
  - inversion H as [|? ds es Pm F]; subst. inversion W as [|? ND A]; subst.
    assert (K : map fst ds = map fst es). { clear - F. induction F as [|a b l m [E R] F IHF]; simpl; congruence. }
    set (hs := map (fun kc : str * ptree N => (fst kc, state (snd kc))) (map (fun kc : str * ptree L => (fst kc, pmap h (snd kc))) cs)) in *.
    assert (Kh : map fst hs = map fst cs). { unfold hs. rewrite !map_map. apply map_ext. auto. }
    assert (NE : NoDup (map fst es)).
    { rewrite <- K. eapply Permutation_NoDup; [apply Permutation_map; exact Pm|]. rewrite Kh. rewrite map_map in ND. exact ND. }
    assert (LK : forall k c, In (k, c) cs -> exists e, dget es k = Some e /\ reordered (state (pmap h c)) e).
    { intros k c I. assert (I2 : In (k, state (pmap h c)) hs).
      { unfold hs. rewrite map_map. apply in_map_iff. exists (k, c). auto. }
      apply (Permutation_in _ Pm) in I2. destruct (Forall2_in_l _ _ _ _ F I2) as ([k' e] & I' & E & R). simpl in *. subst k'.
      exists e. split; auto. apply dget_in; auto. }
    assert (B : forallb (fun kc : str * ptree M => existsb (str_eqb (fst kc)) (map fst es)) (map (fun kc : str * ptree L => (fst kc, pmap g (snd kc))) cs) = true).
    { apply forallb_forall. intros kc I. apply in_map_iff in I. destruct I as ([k c] & <- & I). simpl.
      destruct (LK _ _ I) as (e & E & _). apply existsb_exists. exists k. split; [|apply str_eqb_refl].
      apply dget_some_in in E. apply in_map_iff. exists (k, e). auto. }
    rewrite B. simpl.
    assert (Len : length es = length (map (fun kc : str * ptree L => (fst kc, pmap g (snd kc))) cs)).
    { rewrite map_length, <- (map_length fst es), <- K, map_length, <- (Permutation_length Pm), <- (map_length fst hs), Kh, map_length. reflexivity. }
    rewrite Len, Nat.eqb_refl, orb_true_r.
    assert (RM : rmap (fun kc : str * ptree M => match dget es (fst kc) with
                        | None => Raise KeyError
                        | Some v => bind (pfrom (snd kc) v) (fun x => Ok (fst kc, x))
                        end) (map (fun kc : str * ptree L => (fst kc, pmap g (snd kc))) cs) = Ok (map (fun kc => (fst kc, pmap h (snd kc))) cs)).
    { clear B Len. assert (LK' : forall kc, In kc cs -> exists e, dget es (fst kc) = Some e /\ pfrom (pmap g (snd kc)) e = Ok (pmap h (snd kc))).
      { intros [k c] I. destruct (LK k c I) as (e & E & R). exists e. split; auto. rewrite Forall_forall in IH. apply (IH (k, c) I); auto.
        rewrite Forall_map in A. rewrite Forall_forall in A. apply (A (k, c) I). }
      clear - LK'. induction cs as [|kc r IHr]; [reflexivity|].
      destruct (LK' kc (or_introl eq_refl)) as (e & E1 & E2). simpl. rewrite E1, E2. simpl.
      rewrite IHr; auto. intros; apply LK'; right; auto. }
    rewrite RM. reflexivity.
Qed.

(** ** related *)
Lemma related_zip {L M N} (R : list str -> M -> N -> Prop) (f : L -> M) a : forall p r,
  related R p (state (pmap f a)) r ->
  exists z : ptree (L * N), pmap fst z = a /\ state (pmap snd z) = r /\
    forall q xy, leaf_at (state z) q xy -> R (p ++ q) (f (fst xy)) (snd xy).
Proof.
  induction a as [x|o cs IH] using ptree_rect'; simpl; intros p r H.
  - inversion H as [? ? y Rxy|]; subst. exists (PLeaf (x, y)). repeat split. intros q xy B. inversion B; subst. rewrite app_nil_r. exact Rxy.
  - inversion H as [|? ? ds F]; subst.
    assert (Z : exists zs : list (str * ptree (L * N)), map (fun kc => (fst kc, pmap fst (snd kc))) zs = cs /\
       map (fun kc => (fst kc, state (pmap snd (snd kc)))) zs = ds /\
       forall k c q xy, In (k, c) zs -> leaf_at (state c) q xy -> R (p ++ k :: q) (f (fst xy)) (snd xy)).
    { clear H. revert ds F. induction IH as [|[k c] r E F0 IH']; intros ds F; simpl in F; inversion F as [|? [k' d] ? ds' [E1 E2] F2]; subst.
      - exists []. repeat split. intros ? ? ? ? [].
      - simpl in *. subst k'. destruct (E _ _ E2) as (z & Z1 & Z2 & Z3). destruct (IH' _ F2) as (zs & Z4 & Z5 & Z6).
        exists ((k, z) :: zs). simpl. rewrite Z1, Z2, Z4, Z5. repeat split. intros k0 c0 q xy [I|I] B; [|eauto].
        inversion I; subst. specialize (Z3 _ _ B). rewrite <- app_assoc in Z3. exact Z3. }
    destruct Z as (zs & Z1 & Z2 & Z3). exists (PNode o zs). simpl. rewrite Z1. split; [reflexivity|]. split.
    + f_equal. rewrite map_map. exact Z2.
    + intros q xy B. inversion B as [|? k c q' ? I B']; subst. apply in_map_iff in I. destruct I as ([k' c'] & E & I). simpl in E. inversion E; subst. eauto.
Qed.
