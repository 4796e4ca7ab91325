(** Lemmas about pytrees. *)
From Coq Require Import List Arith ZArith Bool Permutation Lia Sorted.
From Verif Require Import Py TreeModel TreeSpec TreeProofs TreeProofs2 MapModel MapProofs IniModel.
Import ListNotations.
Local Open Scope nat_scope.

Fixpoint ptree_rect' {L} (P : ptree L -> Prop) (HL : forall x, P (PLeaf x))
  (HN : forall o cs, Forall (fun kc => P (snd kc)) cs -> P (PNode o cs)) (t : ptree L) : P t :=
  match t with
  | PLeaf x => HL x
  | PNode o cs => HN o cs ((fix go cs : Forall (fun kc => P (snd kc)) cs :=
      match cs with [] => Forall_nil _ | kc :: r => Forall_cons kc (ptree_rect' P HL HN (snd kc)) (go r) end) cs)
  end.

Lemma map_ext_Forall {A B} (f g : A -> B) l : Forall (fun x => f x = g x) l -> map f l = map g l.
Proof. induction 1; simpl; f_equal; auto. Qed.

Lemma pmap_pmap {L M N} (f : L -> M) (g : M -> N) t : pmap g (pmap f t) = pmap (fun x => g (f x)) t.
Proof.
  induction t as [x|o cs IH] using ptree_rect'; simpl; [reflexivity|]. f_equal. rewrite map_map. simpl.
  apply map_ext_Forall. revert IH. apply Forall_impl. intros kc E. rewrite E. reflexivity.
Qed.
Lemma pmap_id {L} (t : ptree L) : pmap (fun x => x) t = t.
Proof.
  induction t as [x|o cs IH] using ptree_rect'; simpl; [reflexivity|]. f_equal.
  rewrite <- (map_id cs) at 2. apply map_ext_Forall. revert IH. apply Forall_impl. intros [k c] E. simpl in *. rewrite E. reflexivity.
Qed.
Lemma pmap_ext_in {L M} (f g : L -> M) t : (forall x, In x (dfs t) -> f x = g x) -> pmap f t = pmap g t.
Proof.
  induction t as [x|o cs IH] using ptree_rect'; simpl; intros H; [rewrite H; auto|]. f_equal.
  induction IH as [|kc r E F IH']; simpl; [reflexivity|]. simpl in H. f_equal.
  - rewrite E; auto. intros x Hx. apply H. apply in_or_app. auto.
  - apply IH'. intros x Hx. apply H. apply in_or_app. auto.
Qed.

(** ** Sorting *)
Lemma sort_by_map {A B} (leb : A -> A -> bool) (leb' : B -> B -> bool) (g : A -> B) l :
  (forall a b, leb' (g a) (g b) = leb a b) -> sort_by leb' (map g l) = map g (sort_by leb l).
Proof.
  intros H. assert (I : forall x m, insert_by leb' (g x) (map g m) = map g (insert_by leb x m)).
  { intros x m. induction m as [|y m IH]; simpl; [reflexivity|]. rewrite H. destruct (leb x y); simpl; [|rewrite IH]; reflexivity. }
  induction l as [|x l IH]; simpl; [reflexivity|]. fold (sort_by leb l). unfold sort_by in *. rewrite IH, I. reflexivity.
Qed.

Lemma str_cmp_eq a : forall b, str_cmp a b = Eq -> a = b.
Proof.
  induction a as [|x a IH]; intros [|y b]; simpl; try discriminate; auto.
  destruct (Nat.compare x y) eqn:E; try discriminate. apply Nat.compare_eq in E. intros H. f_equal; auto.
Qed.
Lemma str_cmp_antisym a : forall b, str_cmp b a = CompOpp (str_cmp a b).
Proof.
  induction a as [|x a IH]; intros [|y b]; simpl; auto.
  rewrite (Nat.compare_antisym x y). destruct (Nat.compare x y); simpl; auto.
Qed.
Lemma str_cmp_lt_trans a : forall b c, str_cmp a b = Lt -> str_cmp b c = Lt -> str_cmp a c = Lt.
Proof.
  induction a as [|x a IH]; intros [|y b] [|z c]; simpl; try discriminate; auto.
  destruct (Nat.compare x y) eqn:E1; try discriminate; destruct (Nat.compare y z) eqn:E2; try discriminate; intros H1 H2.
  - apply Nat.compare_eq in E1, E2. subst. rewrite Nat.compare_refl. eauto.
  - apply Nat.compare_eq in E1. subst. rewrite E2. reflexivity.
  - apply Nat.compare_eq in E2. subst. rewrite E1. reflexivity.
  - apply Nat.compare_lt_iff in E1, E2. assert (E : x < z) by lia. apply Nat.compare_lt_iff in E. rewrite E. reflexivity.
Qed.
Lemma str_leb_total a b : str_leb a b = false -> str_leb b a = true.
Proof. unfold str_leb. rewrite (str_cmp_antisym a b). destruct (str_cmp a b); simpl; congruence. Qed.
Lemma str_leb_trans a b c : str_leb a b = true -> str_leb b c = true -> str_leb a c = true.
Proof.
  unfold str_leb. destruct (str_cmp a b) eqn:E1; try discriminate; destruct (str_cmp b c) eqn:E2; try discriminate; intros _ _.
  - apply str_cmp_eq in E1, E2. subst. pose proof (str_cmp_antisym c c). destruct (str_cmp c c); auto; discriminate.
  - apply str_cmp_eq in E1. subst. rewrite E2. reflexivity.
  - apply str_cmp_eq in E2. subst. rewrite E1. reflexivity.
  - rewrite (str_cmp_lt_trans _ _ _ E1 E2). reflexivity.
Qed.
Lemma str_leb_antisym a b : str_leb a b = true -> str_leb b a = true -> a = b.
Proof.
  unfold str_leb. rewrite (str_cmp_antisym a b). destruct (str_cmp a b) eqn:E; simpl; try discriminate.
  intros _ _. apply str_cmp_eq. auto.
Qed.

Definition kle {T} (a b : str * T) : Prop := str_leb (fst a) (fst b) = true.
Definition ksort {T} := sort_by (fun a b : str * T => str_leb (fst a) (fst b)).
Lemma ksort_sorted {T} (l : list (str * T)) : StronglySorted kle (ksort l).
Proof.
  unfold ksort. induction l as [|x l IH]; simpl; [constructor|]. fold (sort_by (fun a b : str * T => str_leb (fst a) (fst b)) l).
  set (m := sort_by _ l) in *. clearbody m. clear l. induction IH as [|y m S IH F]; simpl; [repeat constructor|].
  destruct (str_leb (fst x) (fst y)) eqn:E.
  - constructor; [constructor; auto|]. constructor; [exact E|]. revert F. apply Forall_impl. intros z Hz. unfold kle in *. eapply str_leb_trans; eauto.
  - constructor; [exact IH|]. eapply Permutation_Forall; [symmetry; apply insert_by_perm|]. constructor; [apply str_leb_total; exact E|exact F].
Qed.
Lemma ksort_id {T} (l : list (str * T)) : StronglySorted kle l -> ksort l = l.
Proof.
  induction 1 as [|x l S IH F]; [reflexivity|].
  change (insert_by (fun a b : str * T => str_leb (fst a) (fst b)) x (ksort l) = x :: l). rewrite IH.
  destruct l as [|y l]; simpl; [reflexivity|]. inversion F; subst. unfold kle in *. rewrite H1. reflexivity.
Qed.
Lemma ksorted_unique {T} (l l' : list (str * T)) : NoDup (map fst l) -> Permutation l l' -> StronglySorted kle l -> StronglySorted kle l' -> l = l'.
Proof.
  revert l'. induction l as [|x l IH]; intros l' N P S S'.
  - apply Permutation_nil in P. auto.
  - destruct l' as [|y l']; [symmetry in P; apply Permutation_nil in P; discriminate|].
    inversion S as [|? ? S1 F1]; subst. inversion S' as [|? ? S2 F2]; subst. inversion N as [|? ? N1 N2]; subst.
    assert (E : x = y).
    { assert (Hx : In x (y :: l')) by (eapply Permutation_in; [exact P|left; auto]).
      assert (Hy : In y (x :: l)) by (eapply Permutation_in; [symmetry; exact P|left; auto]).
      destruct Hx as [Hx|Hx]; [auto|]. destruct Hy as [Hy|Hy]; [auto|].
      rewrite Forall_forall in F1, F2. exfalso. apply N1.
      rewrite (str_leb_antisym (fst x) (fst y)); [apply in_map; auto|exact (F1 _ Hy)|exact (F2 _ Hx)]. }
    subst y. f_equal. apply IH; auto. apply Permutation_cons_inv in P. auto.
Qed.

(** ** canon *)
Lemma canon_pmap {L M} (f : L -> M) t : canon (pmap f t) = pmap f (canon t).
Proof.
  induction t as [x|o cs IH] using ptree_rect'; simpl; [reflexivity|]. f_equal. rewrite map_map. simpl.
  assert (E : map (fun kc : str * ptree L => (fst kc, canon (pmap f (snd kc)))) cs =
              map (fun kc => (fst kc, pmap f (snd kc))) (map (fun kc => (fst kc, canon (snd kc))) cs)).
  { rewrite map_map. simpl. apply map_ext_Forall. revert IH. apply Forall_impl. intros kc ->. reflexivity. }
  rewrite E. destruct o; [reflexivity|]. symmetry. rewrite <- (sort_by_map _ (fun a b : str * ptree M => str_leb (fst a) (fst b))); auto.
Qed.
Lemma dfs_pmap {L M} (f : L -> M) t : dfs (pmap f t) = map f (dfs t).
Proof.
  induction t as [x|o cs IH] using ptree_rect'; simpl; [reflexivity|].
  induction IH as [|kc r E F IH']; simpl; [reflexivity|]. rewrite map_app, E, IH'. reflexivity.
Qed.
Lemma leaves_pmap {L M} (f : L -> M) t : leaves (pmap f t) = map f (leaves t).
Proof. unfold leaves. rewrite canon_pmap, dfs_pmap. reflexivity. Qed.

(** The children of dicts are sorted. *)
Inductive sortedp {L} : ptree L -> Prop :=
| sp_leaf x : sortedp (PLeaf x)
| sp_node o cs : (o = false -> StronglySorted kle cs) -> Forall (fun kc => sortedp (snd kc)) cs -> sortedp (PNode o cs).
Lemma canon_sorted {L} (t : ptree L) : sortedp (canon t).
Proof.
  induction t as [x|o cs IH] using ptree_rect'; simpl; constructor.
  - intros ->. apply ksort_sorted.
  - assert (F : Forall (fun kc => sortedp (snd kc)) (map (fun kc : str * ptree L => (fst kc, canon (snd kc))) cs)) by (apply Forall_map; exact IH).
    destruct o; auto. eapply Permutation_Forall; [symmetry; apply sort_by_perm|exact F].
Qed.
Lemma canon_id {L} (t : ptree L) : sortedp t -> canon t = t.
Proof.
  induction t as [x|o cs IH] using ptree_rect'; simpl; intros H; [reflexivity|]. inversion H; subst.
  assert (E : map (fun kc : str * ptree L => (fst kc, canon (snd kc))) cs = cs).
  { rewrite <- (map_id cs) at 2. apply map_ext_Forall. rewrite Forall_forall in *. intros [k c] Hk. simpl. f_equal. apply (IH (k, c)); auto; apply (H3 (k, c)); auto. }
  rewrite E. destruct o; [reflexivity|]. f_equal. apply (ksort_id cs). auto.
Qed.
Lemma sorted_map_fst {A B} (f : str * A -> str * B) l : (forall x, fst (f x) = fst x) -> StronglySorted kle (map f l) <-> StronglySorted kle l.
Proof.
  intros H. induction l as [|x l IH]; simpl; [split; constructor|]. split; intros S; inversion S as [|? ? S1 F]; subst; constructor.
  - apply IH. auto.
  - rewrite Forall_map in F. revert F. apply Forall_impl. intros y. unfold kle. rewrite !H. auto.
  - apply IH. auto.
  - apply Forall_map. revert F. apply Forall_impl. intros y. unfold kle. rewrite !H. auto.
Qed.
Lemma sortedp_pmap {L M} (f : L -> M) t : sortedp (pmap f t) <-> sortedp t.
Proof.
  induction t as [x|o cs IH] using ptree_rect'; simpl; [split; constructor|].
  split; intros H; inversion H; subst; constructor.
  - intros E. eapply sorted_map_fst; [|exact (H2 E)]. auto.
  - rewrite Forall_map in H3. rewrite Forall_forall in *. intros kc Hk. apply IH; auto. apply (H3 kc); auto.
  - intros E. apply sorted_map_fst; auto.
  - apply Forall_map. rewrite Forall_forall in *. intros kc Hk. simpl. apply IH; auto.
Qed.

(** ** Zipping *)
Lemma zip_leaves {L M} (t : ptree L) : forall l r : list M, length l = length (dfs t) ->
  exists z : ptree (L * M), pmap fst z = t /\ map snd (dfs z) = l.
Proof.
  induction t as [x|o cs IH] using ptree_rect'; simpl; intros l r H.
  - destruct l as [|y [|]]; try discriminate. exists (PLeaf (x, y)). auto.
  - assert (E : exists zs : list (str * ptree (L * M)), map (fun kc => (fst kc, pmap fst (snd kc))) zs = cs /\ map snd (flat_map (fun kc => dfs (snd kc)) zs) = l).
    { revert l H. induction IH as [|[k c] cs E F IH']; simpl; intros l H.
      - destruct l; try discriminate. exists []. auto.
      - rewrite app_length in H. destruct (E (firstn (length (dfs c)) l) []) as (z & Z1 & Z2).
        { apply firstn_length_le. simpl in *. lia. }
        destruct (IH' (skipn (length (dfs c)) l)) as (zs & Z3 & Z4). { rewrite skipn_length. simpl in *. lia. }
        exists ((k, z) :: zs). simpl. rewrite Z1, Z3. split; [reflexivity|]. rewrite map_app, Z2, Z4. apply firstn_skipn. }
    destruct E as (zs & E1 & E2). exists (PNode o zs). simpl. rewrite E1. auto.
Qed.
Lemma fill_ok {L M N} (g : L -> M) (f : L -> N) z : forall r, fill_ (pmap g z) (map f (dfs z) ++ r) = Ok (pmap f z, r).
Proof.
  induction z as [x|o cs IH] using ptree_rect'; intros r; simpl; [reflexivity|].
  assert (E : forall r, (fix go (cs0 : list (str * ptree M)) (l0 : list N) {struct cs0} : res (list (str * ptree N) * list N) :=
        match cs0 with
        | [] => Ok ([], l0)
        | (k, c) :: cs1 => bind (fill_ c l0) (fun xr => bind (go cs1 (snd xr)) (fun yr => Ok ((k, fst xr) :: fst yr, snd yr)))
        end) (map (fun kc : str * ptree L => (fst kc, pmap g (snd kc))) cs) (map f (flat_map (fun kc : str * ptree L => dfs (snd kc)) cs) ++ r) =
        Ok (map (fun kc => (fst kc, pmap f (snd kc))) cs, r)).
  { induction IH as [|[k c] cs E F IH']; intros r'; simpl; [reflexivity|]. rewrite map_app, <- app_assoc. simpl in E. rewrite E. simpl. rewrite IH'. reflexivity. }
  rewrite E. reflexivity.
Qed.
(** For trees [t] over the sorted tree [z]. *)
Lemma unflatten_ok {L M N} (g : L -> M) (f : L -> N) z : sortedp z -> unflatten (pmap g z) (map f (dfs z)) = Ok (pmap f z).
Proof.
  intros S. unfold unflatten. rewrite canon_pmap, (canon_id z S), <- (app_nil_r (map f (dfs z))), fill_ok. reflexivity.
Qed.
Lemma unflatten_canon {L M N} (g : L -> M) (f : L -> N) t : unflatten (pmap g t) (map f (dfs (canon t))) = Ok (pmap f (canon t)).
Proof. unfold unflatten. rewrite canon_pmap, <- (app_nil_r (map f _)), fill_ok. reflexivity. Qed.
Lemma skeleton_refl {L M N} (f : L -> M) (g : L -> N) z : skeleton_eqb (pmap f z) (pmap g z) = true.
Proof.
  induction z as [x|o cs IH] using ptree_rect'; simpl; [reflexivity|]. rewrite eqb_reflx. simpl.
  induction IH as [|[k c] cs E F IH']; simpl; [reflexivity|]. simpl in E. rewrite str_eqb_refl, E, IH'. reflexivity.
Qed.
Lemma same_struct_ok {L M N} (f : L -> M) (g : L -> N) z : same_struct (pmap f z) (pmap g z) = true.
Proof. unfold same_struct. rewrite !canon_pmap. apply skeleton_refl. Qed.
Lemma skeleton_zip {L M} (a : ptree L) : forall b : ptree M, skeleton_eqb a b = true ->
  exists z : ptree (L * M), pmap fst z = a /\ pmap snd z = b.
Proof.
  induction a as [x|o cs IH] using ptree_rect'; intros [y|o' ds]; simpl; try discriminate.
  - intros _. exists (PLeaf (x, y)). auto.
  - intros H. apply andb_prop in H. destruct H as [E H]. apply eqb_prop in E. subst o'.
    assert (Z : exists zs : list (str * ptree (L * M)), map (fun kc => (fst kc, pmap fst (snd kc))) zs = cs /\ map (fun kc => (fst kc, pmap snd (snd kc))) zs = ds).
    { revert ds H. induction IH as [|[k c] cs E F IH']; intros [|[k' d] ds] H; try discriminate.
      - exists []. auto.
      - apply andb_prop in H. destruct H as [H1 H2]. apply andb_prop in H1. destruct H1 as [H0 H1].
        destruct (str_eqb_spec k k'); [subst k'|discriminate]. destruct (E d H1) as (z & Z1 & Z2). destruct (IH' ds H2) as (zs & Z3 & Z4).
        exists ((k, z) :: zs). simpl. simpl in Z1. rewrite Z1, Z2, Z3, Z4. auto. }
    destruct Z as (zs & Z1 & Z2). exists (PNode o zs). simpl. rewrite Z1, Z2. auto.
Qed.

Lemma tree_map2_ok {L M N K} (f : M -> N -> K) (g : L -> M) (h : L -> N) z :
  tree_map2 f (pmap g z) (pmap h z) = Ok (pmap (fun x => f (g x) (h x)) (canon z)).
Proof.
  unfold tree_map2. rewrite same_struct_ok, !leaves_pmap.
  assert (E : map (fun xy => f (fst xy) (snd xy)) (combine (map g (leaves z)) (map h (leaves z))) = map (fun x => f (g x) (h x)) (leaves z)).
  { induction (leaves z); simpl; congruence. }
  rewrite E. apply unflatten_canon.
Qed.
