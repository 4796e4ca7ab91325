(** Proofs of C85. *)
From Coq Require Import List Arith ZArith Bool Permutation Lia Sorted.
From Verif Require CkptModel CkptSpec CkptProofs CkptProofs2 CkptProps.
From Verif Require Import Py TreeModel TreeSpec TreeProofs TreeProofs2 TreeProps MapModel MapSpec MapProofs MapProps
  IniModel IniSpec IniProofs IniProofs2 IniProofs3.
Import ListNotations.
Local Open Scope nat_scope.

Lemma dict_tmap {L M} (f : L -> M) t : dict (tmap f t) = pmap f (dict t).
Proof.
  induction t as [x|cs IH] using tree_rect'; simpl; [reflexivity|]. f_equal. rewrite !map_map. simpl.
  apply map_ext_Forall. revert IH. apply Forall_impl. intros kc ->. reflexivity.
Qed.
Lemma canon_canon {L} (t : ptree L) : canon (canon t) = canon t.
Proof. apply canon_id, canon_sorted. Qed.

(** The canonical order only depends on the dict. *)
Lemma canon_reordered {L} (t : tree L) : forall u, wf (fun _ => True) t -> reordered t u -> canon (dict t) = canon (dict u).
Proof.
  induction t as [x|cs IH] using tree_rect'; intros u W H; inversion H as [|? ds es P F]; subst; [reflexivity|].
  inversion W as [|? N A]; subst. simpl. f_equal. rewrite !map_map. simpl.
  assert (E : map (fun kc : str * tree L => (fst kc, canon (dict (snd kc)))) ds = map (fun kc => (fst kc, canon (dict (snd kc)))) es).
  { assert (IH2 := Permutation_Forall P IH). assert (A2 := Permutation_Forall P A). clear - F IH2 A2.
    induction F as [|a b l m [E R] F IHF]; simpl; [reflexivity|]. inversion IH2; inversion A2 as [|? ? [_ B] B2]; subst. f_equal; [|auto].
    rewrite E. f_equal. auto. }
  rewrite <- E. apply ksorted_unique; try apply ksort_sorted.
  - eapply Permutation_NoDup; [apply Permutation_map, Permutation_sym, sort_by_perm|]. rewrite map_map. exact N.
  - etransitivity; [apply sort_by_perm|]. etransitivity; [|symmetry; apply sort_by_perm]. apply Permutation_map. exact P.
Qed.

(** A tree over the canonical order of [a], in the order of [a]. *)
Lemma unsort {L M} (a : ptree L) : forall zc : ptree (L * M), wf (fun _ => True) (state a) -> pmap fst zc = canon a ->
  exists b : ptree (L * M), pmap fst b = a /\ canon b = zc.
Proof.
  induction a as [x|o cs IH] using ptree_rect'; intros zc W E.
  - exists zc. destruct zc; simpl in *; [|discriminate]. auto.
  - destruct zc as [|o' zs]; simpl in E; [discriminate|]. inversion E; subst o'. clear E.
    inversion W as [|? N A]; subst. rewrite map_map in N. simpl in N. rewrite Forall_map in A.
    assert (Q : exists zs', map (fun kc : str * ptree (L * M) => (fst kc, pmap fst (snd kc))) zs' = map (fun kc => (fst kc, canon (snd kc))) cs /\
                 (if o then zs' else ksort zs') = zs).
    { destruct o; [exists zs; auto|].
      assert (Pm : Permutation (map (fun kc : str * ptree L => (fst kc, canon (snd kc))) cs) (map (fun kc => (fst kc, pmap fst (snd kc))) zs)).
      { rewrite H1. symmetry. apply sort_by_perm. }
      destruct (Permutation_map_inv _ _ Pm) as (zs' & E & P'). exists zs'. split; [auto|].
      apply ksorted_unique; try apply ksort_sorted.
      - eapply Permutation_NoDup; [apply Permutation_map, Permutation_sym, sort_by_perm|].
        assert (K : map fst zs' = map fst cs). { apply (f_equal (map fst)) in E. rewrite !map_map in E. simpl in E. symmetry. exact E. }
        rewrite K. exact N.
      - etransitivity; [apply sort_by_perm|]. symmetry. exact P'.
      - eapply (sorted_map_fst (fun kc : str * ptree (L * M) => (fst kc, pmap fst (snd kc)))); [reflexivity|]. rewrite H1. apply ksort_sorted. }
    destruct Q as (zs' & E1 & E2).
    assert (B : exists bs : list (str * ptree (L * M)), map (fun kc => (fst kc, pmap fst (snd kc))) bs = cs /\ map (fun kc => (fst kc, canon (snd kc))) bs = zs').
    { clear - IH A E1. revert zs' E1. induction IH as [|[k c] r E F IH']; intros [|[k' z] zs'] E1; simpl in E1; try discriminate.
      - exists []. auto.
      - inversion A as [|? ? [_ A1] A2]; subst. inversion E1; subst. destruct (E z A1 H1) as (b & B1 & B2). destruct (IH' A2 _ H2) as (bs & B3 & B4).
        exists ((k, b) :: bs). simpl. simpl in B1. rewrite B1, B2, B3, B4. auto. }
    destruct B as (bs & B1 & B2). exists (PNode o bs). simpl. rewrite B1, B2. split; [reflexivity|]. f_equal. exact E2.
Qed.

Lemma tree_map2_canon {L M N K} (f : M -> N -> K) (g : L -> M) (h : L -> N) z :
  tree_map2 f (pmap g z) (pmap h (canon z)) = Ok (pmap (fun x => f (g x) (h x)) (canon z)).
Proof.
  rewrite <- (tree_map2_ok f g h z). unfold tree_map2, same_struct, leaves. rewrite !canon_pmap, canon_canon. reflexivity.
Qed.
Lemma tree_map_pmap {L M N} (f : M -> N) (g : L -> M) z : tree_map f (pmap g z) = pmap (fun x => f (g x)) (canon z).
Proof. unfold tree_map. rewrite canon_pmap, pmap_pmap. reflexivity. Qed.

Section Init.
Variable V D array : Type.
Variable mk : list nat -> D -> list V -> array.
Variable zero : V.
Variable nproc : nat.
Variable places : spec -> list nat -> res (nat -> CkptModel.target).
Variable sched : nat -> list (CkptModel.chunk V) -> list (CkptModel.chunk V).
Variable pat : Type.
Variable search : pat -> str -> bool.
Variable sub : pat -> str -> str -> str.
Variable dtype_eqb : D -> D -> bool.
Variable shape_of : array -> list nat.
Variable dtype_of : array -> D.
Variable astype : array -> D -> array.
Variable broadcast_to : array -> list nat -> res array.
Variable transform : kind -> array -> array -> res array.
Variable stack : Z -> list array -> res array.
Variable regex : Type.
Variable rsearch : regex -> str -> bool.

Local Notation init := (initialize_from_vmoe V D array mk zero nproc places sched pat search sub dtype_eqb
  shape_of dtype_of astype broadcast_to transform stack regex rsearch).
Local Notation mapping := (map_state_dict pat search sub array D dtype_eqb shape_of dtype_of astype broadcast_to transform stack).
Local Notation arr := (array_of V D array mk).

(** The rules give each leaf its spec. *)
Lemma axis_ok {L M} (shape : M -> TreeModel.leaf) (g : L -> M) (z : ptree L) rules :
  wf no_slash (state z) -> (exists o cs, z = PNode o cs) ->
  (forall q x r u, leaf_at (state z) q x -> shape (g x) = None -> In (r, u) rules -> rsearch r (join q) = false) ->
  exists zz : ptree (L * spec), pmap fst zz = z /\ axis_resources regex rsearch shape (pmap g z) rules = Ok (pmap snd zz) /\
    forall q xs, leaf_at (state zz) q xs -> first_rule regex rsearch rules q (shape (g (fst xs))) (snd xs).
Proof.
  intros W (o & cs & E) H. unfold axis_resources. rewrite pmap_pmap.
  assert (W' : wf no_slash (state (pmap (fun x => shape (g x)) z))) by (rewrite state_pmap; apply wf_tmap; exact W).
  assert (T : exists r, tree_axis_resources_from_regexes regex rsearch (state (pmap (fun x => shape (g x)) z)) rules = Ok r).
  { subst z. apply C26_no_error; [exact W'|]. intros q r u B. change (leaf_at (state (pmap (fun x => shape (g x)) (PNode o cs))) q None) in B.
    rewrite state_pmap in B. apply leaf_at_tmap in B. destruct B as (x & B & Ex). intros I. eapply H; eauto. }
  destruct T as (r & T). rewrite T. cbn [bind].
  assert (WT : wf (fun _ => True) (state (pmap (fun x => shape (g x)) z))).
  { clear - W'. revert W'. generalize (state (pmap (fun x => shape (g x)) z)). intros t. induction t as [x|cs IH] using tree_rect'; intros W; [constructor|].
    inversion W as [|? N A]; subst. constructor; [exact N|]. rewrite Forall_forall in *. intros kc Hk. split; [exact I|]. apply IH; auto. apply (A kc Hk). }
  pose proof (C26_first_rule _ _ _ _ _ WT T) as R. apply related_zip in R. destruct R as (zz & Z1 & Z2 & Z3).
  exists zz. split; [exact Z1|]. split; [|intros q xs B; apply (Z3 q xs B)].
  rewrite <- Z1, pmap_pmap, <- Z2. apply pfrom_ok; [|apply reordered_refl].
  rewrite state_pmap in WT. apply wf_tmap in WT. rewrite <- Z1, state_pmap in WT. apply wf_tmap in WT. exact WT.
Qed.

Lemma wf_weak {L} P (t : tree L) : wf P t -> wf (fun _ => True) t.
Proof.
  induction t as [x|cs IH] using tree_rect'; intros W; [constructor|].
  inversion W as [|? N A]; subst. constructor; [exact N|]. rewrite Forall_forall in *. intros kc Hk. split; [exact I|]. apply IH; auto. apply (A kc Hk).
Qed.

(** The index file, for the leaves in the order of the sorted tree [z0]. *)
Lemma index_zip P (t : ptree (CkptModel.leaf V * D)) views ns mcb s :
  CkptSpec.all_saved P (map fst (leaves t)) views ns mcb s ->
  exists z1 : ptree ((CkptModel.leaf V * D) * CkptModel.index_info), pmap fst z1 = canon t /\
    map snd (dfs z1) = CkptModel.sv_index (s 0) /\
    unflatten t (combine (CkptModel.sv_index (s 0)) (map snd (leaves t))) = Ok (pmap (fun x => (snd x, snd (fst x))) z1).
Proof.
  intros AS. pose proof (CkptProofs2.index_shapes P _ _ _ _ _ AS) as SH.
  assert (Len : length (CkptModel.sv_index (s 0)) = length (dfs (canon t))).
  { apply (f_equal (@length _)) in SH. rewrite !map_length in SH. exact SH. }
  destruct (zip_leaves (canon t) (CkptModel.sv_index (s 0)) [] Len) as (z1 & Z1 & Z2). exists z1. split; [exact Z1|]. split; [exact Z2|].
  unfold unflatten, leaves. rewrite <- Z1, <- Z2, dfs_pmap, map_map, combine_map.
  rewrite <- (app_nil_r (map _ (dfs z1))), fill_ok. reflexivity.
Qed.

Hypothesis GP : good_places nproc places.
Hypothesis SC : forall p l, Permutation (sched p l) l.

Lemma vmoe_ok P t ck fl rules regexes target :
  saved V D P t ck -> no_empty_axes V D (state t) -> wf no_slash (state t) -> (exists cs, state t = Node cs) ->
  exists source, reordered (tmap arr (state t)) source /\
    (init fl rules regexes ck target = mapping fl rules source (state target) \/
     exists q ld s e, leaf_at (state t) q ld /\
       first_rule regex rsearch (rules_in regexes) q (Some (CkptModel.lf_shape (fst ld))) s /\
       places s (CkptModel.lf_shape (fst ld)) = Raise e /\ init fl rules regexes ck target = Raise e).
Proof.
  intros (views & ns & mcb & s & AS & OD & IX & VE) NE W (cs & N).
  unfold saved_leaves in *. unfold saved_index, saved_leaves in IX.
  destruct (index_zip P (dict (state t)) views ns mcb s AS) as (z1 & Z1 & Z2 & Z3).
  rewrite Z3 in IX. cbn [bind] in IX. inversion IX as [IX']. clear IX Z3.
  pose proof (CkptProofs2.index_shapes P _ _ _ _ _ AS) as SH.
  assert (S1 : sortedp z1). { apply (sortedp_pmap fst). rewrite Z1. apply canon_sorted. }
  assert (I1 : isdict z1). { apply (isdict_pmap fst). rewrite Z1. apply isdict_canon, isdict_dict. }
  assert (RO : reordered (state t) (state (pmap fst z1))). { rewrite Z1. rewrite <- (state_dict (state t)) at 1. apply reordered_canon. }
  assert (W1 : wf no_slash (state z1)). { apply (wf_tmap _ fst). rewrite <- state_pmap. eapply reordered_wf; eauto. }
  assert (N1 : exists o cs, z1 = PNode o cs).
  { rewrite N in RO. inversion RO as [|? ds es P1 F1 Q1 Q2]. destruct z1; [simpl in *; discriminate|eauto]. }
  unfold initialize_from_vmoe. rewrite VE. rewrite <- IX'.
  rewrite (isdict_eq (pmap _ z1)) by (apply isdict_pmap; exact I1).
  rewrite tree_map_pmap, (canon_id z1 S1). cbv zeta. fold (rules_in regexes). set (rg := rules_in regexes).
  destruct (axis_ok (fun x : list nat * D => Some (fst x)) (fun x => (CkptModel.ii_shape (fst (snd x, snd (fst x))), snd (snd x, snd (fst x)))) z1 rg W1 N1) as (z & E1 & E2 & E3).
  { intros; discriminate. }
  rewrite E2. cbn [bind fst snd]. cbn [fst snd] in E3.
  assert (S : sortedp z). { apply (sortedp_pmap fst). rewrite E1. exact S1. }
  assert (Wz : wf no_slash (state z)). { apply (wf_tmap _ fst). rewrite <- state_pmap, E1. exact W1. }
  assert (Iz : isdict z). { apply (isdict_pmap fst). rewrite E1. exact I1. }
  rewrite <- E1, pmap_pmap, tree_map_pmap, (canon_id z S), tree_map2_ok, (canon_id z S). cbn [bind].
  unfold restore_checkpoint. rewrite VE. rewrite tree_map_pmap, (canon_id z S), <- IX', <- E1, pmap_pmap.
  rewrite !isdict_eq by (apply isdict_pmap; exact Iz).
  assert (AS' : CkptSpec.all_saved P (map (fun x => fst (z_ld V D x)) (dfs z)) views ns mcb s).
  { assert (E : map (fun x => fst (z_ld V D x)) (dfs z) = map fst (leaves (dict (state t)))); [|rewrite E; exact AS].
    unfold leaves. rewrite <- Z1, <- E1, !dfs_pmap, !map_map. reflexivity. }
  assert (IXz : map (fun x => fst (z_info V D x)) (dfs z) = CkptModel.sv_index (s 0)).
  { rewrite <- Z2, <- E1, dfs_pmap, map_map. reflexivity. }
  assert (PS : forall x, In x (dfs z) -> Forall (lt 0) (CkptModel.lf_shape (fst (z_ld V D x)))).
  { intros x Ix. destruct (dfs_leaf_at z x Ix) as (q & B). apply (NE q). apply (reordered_leaf_at _ _ q (z_ld V D x) RO).
    rewrite state_pmap, <- E1, state_pmap. apply leaf_at_tmap. exists (fst x). split; [|reflexivity]. apply leaf_at_tmap. eauto. }
  match goal with |- context [restore_from_trees _ _ _ _ _ _ _ _ _ ?a ?b] =>
    change a with (pmap (z_info V D) z); change b with (pmap (z_spec V D) z) end.
  exists (state (pmap (fun x => arr (z_ld V D x)) z)).
  split.
  { rewrite <- (pmap_pmap (z_ld V D) arr). rewrite (state_pmap arr). apply reordered_tmap.
    assert (E : pmap (z_ld V D) z = pmap fst z1) by (rewrite <- E1, pmap_pmap; reflexivity). rewrite E. exact RO. }
  destruct (restore_core V D array mk zero nproc places sched GP SC P z views ns mcb s (ck_files V D ck) S PS AS' OD IXz) as [E|(x & e & Ix & PE & E)].
  - left. rewrite E. cbn [bind].
    rewrite (pfrom_ok _ (fun x => arr (z_ld V D x)) z); [reflexivity|eapply wf_weak; exact Wz|apply reordered_refl].
  - right. destruct (dfs_leaf_at z x Ix) as (q & B). exists q, (z_ld V D x), (z_spec V D x), e.
    split. { eapply reordered_leaf_at; [exact RO|]. rewrite state_pmap, <- E1, state_pmap. apply leaf_at_tmap. exists (fst x). split; [|reflexivity]. apply leaf_at_tmap. eauto. }
    split. { specialize (E3 _ _ B). replace (CkptModel.lf_shape (fst (z_ld V D x))) with (CkptModel.ii_shape (snd (fst x))); [exact E3|].
      clear - SH Ix Z1 Z2 E1. unfold leaves in SH. rewrite <- Z1, <- Z2, <- E1, !dfs_pmap, !map_map in SH.
      unfold zleaf in *. revert SH Ix. clear. induction (dfs z) as [|y l IH]; simpl; intros SH Ix; [contradiction|]. inversion SH. destruct Ix as [->|Ix]; auto. }
    split; [exact PE|]. rewrite E. reflexivity.
Qed.

Lemma old_ok P t ck fl rules regexes target :
  old_saved V D P t ck -> no_empty_axes V D (state t) -> same_struct target t = true -> wf no_slash (state t) -> wf no_slash (state target) ->
  (exists cs, state target = Node cs) ->
  exists source, reordered (tmap arr (state t)) source /\
    (init fl rules regexes ck target = mapping fl rules source (state target) \/
     exists q ld x s e, leaf_at (state t) q ld /\ leaf_at (state target) q x /\
       first_rule regex rsearch (rules_in regexes) q (Some (shape_of x)) s /\
       places s (CkptModel.lf_shape (fst ld)) = Raise e /\ init fl rules regexes ck target = Raise e).
Proof.
  intros (views & ns & mcb & s & AS & OD & IX & VE) NE SS W WT (cs & N).
  unfold old_saved_leaves in *. unfold old_saved_index, old_saved_leaves in IX.
  destruct (index_zip P t views ns mcb s AS) as (z1 & Z1 & Z2 & Z3).
  rewrite Z3 in IX. cbn [bind] in IX. inversion IX as [IX']. clear IX Z3.
  set (i1 := fun x : CkptModel.leaf V * D * CkptModel.index_info => (snd x, snd (fst x))) in *.
  set (k := fun i : CkptModel.index_info * D => (CkptModel.ii_shape (fst i), snd i)).
  assert (S1 : sortedp z1). { apply (sortedp_pmap fst). rewrite Z1. apply canon_sorted. }
  assert (RO : reordered (state t) (state (pmap fst z1))). { rewrite Z1. apply reordered_canon. }
  assert (SK : exists zc : ptree (array * (CkptModel.leaf V * D * CkptModel.index_info)), pmap fst zc = canon target /\ pmap snd zc = z1).
  { unfold same_struct in SS. rewrite <- Z1 in SS.
    apply skeleton_zip in SS. destruct SS as (y & Y1 & Y2). apply skeleton_zip. rewrite <- Y1.
    assert (G : forall L M (a : ptree L) (b : ptree M), skeleton_eqb a (pmap (fun x => x) b) = skeleton_eqb a b) by (intros; rewrite pmap_id; reflexivity).
    assert (G2 : exists y2 : ptree (array * (CkptModel.leaf V * D) * (CkptModel.leaf V * D * CkptModel.index_info)), pmap fst y2 = y /\ pmap snd y2 = z1).
    { clear - Y2. revert z1 Y2. induction y as [x|o cs IH] using ptree_rect'; intros [w|o' ds] E; simpl in E; inversion E.
      - exists (PLeaf (x, w)). auto.
      - subst o'. assert (Q : exists zs : list (str * ptree (array * (CkptModel.leaf V * D) * (CkptModel.leaf V * D * CkptModel.index_info))), map (fun kc => (fst kc, pmap fst (snd kc))) zs = cs /\ map (fun kc => (fst kc, pmap snd (snd kc))) zs = ds).
        { clear E. revert ds H1. induction IH as [|[k c] r E F IH']; intros [|[k' d] ds] H1; simpl in H1; try discriminate.
          - exists []. auto.
          - inversion H1; subst. destruct (E d H2) as (z & Z1 & Z2). destruct (IH' ds H3) as (zs & Z3 & Z4). exists ((k', z) :: zs). simpl. simpl in Z1. rewrite Z1, Z2, Z3, Z4. auto. }
        destruct Q as (zs & Q1 & Q2). exists (PNode o zs). simpl. rewrite Q1, Q2. auto. }
    destruct G2 as (y2 & <- & <-). rewrite !pmap_pmap. apply skeleton_refl. }
  destruct SK as (zc & C1 & C2).
  destruct (unsort target zc (wf_weak _ _ WT) C1) as (b & B1 & B2).
  assert (Wb : wf no_slash (state b)). { apply (wf_tmap _ fst). rewrite <- state_pmap, B1. exact WT. }
  assert (Nb : exists o cs, b = PNode o cs). { rewrite <- B1 in N. destruct b; [simpl in N; discriminate|eauto]. }
  assert (RS : reordered (tmap (fun x => k (i1 (snd x))) (state b)) (state (tree_map k (dict (state (pmap i1 z1)))))).
  { unfold tree_map. rewrite (state_pmap k), state_pmap, dict_tmap, canon_pmap, <- C2, <- B2, (state_pmap snd), dict_tmap, canon_pmap, !state_pmap.
    assert (E : tmap (fun x => k (i1 (snd x))) (state b) = tmap k (tmap i1 (tmap snd (state b)))).
    { rewrite <- !state_pmap, !pmap_pmap. reflexivity. }
    rewrite E. apply reordered_tmap, reordered_tmap, reordered_tmap. eapply reordered_trans; [apply reordered_canon|].
    rewrite <- (state_dict (state (canon b))) at 1. apply reordered_canon. }
  unfold initialize_from_vmoe. rewrite VE. rewrite <- IX'. fold k. cbv zeta. fold (rules_in regexes). set (rg := rules_in regexes).
  assert (SC1 : same_struct (dict (state target)) (tree_map k (dict (state (pmap i1 z1)))) = true).
  { unfold same_struct. rewrite <- B1. rewrite state_pmap, dict_tmap, canon_pmap.
    assert (E : canon (tree_map k (dict (state (pmap i1 z1)))) = pmap (fun x => k (i1 (snd x))) (canon (dict (state b)))).
    { unfold tree_map. rewrite canon_pmap, canon_canon, <- C2, <- B2. rewrite pmap_pmap, state_pmap, dict_tmap, canon_pmap, pmap_pmap.
      f_equal. symmetry. apply canon_reordered; [eapply wf_weak; exact Wb|apply reordered_canon]. }
    rewrite E. apply skeleton_refl. }
  rewrite SC1. cbn [negb].
  destruct (axis_ok (fun x : array => Some (shape_of x)) fst b rg Wb Nb) as (zz & E1 & E2 & E3).
  { intros; discriminate. }
  rewrite B1 in E2. rewrite E2. cbn [bind].
  assert (Wz : wf no_slash (state zz)). { apply (wf_tmap _ fst). rewrite <- state_pmap, E1. exact Wb. }
  assert (PF : pfrom target (state (tree_map k (dict (state (pmap i1 z1))))) = Ok (pmap (fun x => k (i1 (snd (fst x)))) zz)).
  { rewrite <- B1, <- E1, pmap_pmap. apply pfrom_ok; [eapply wf_weak; exact Wz|].
    rewrite <- (pmap_pmap fst (fun x => k (i1 (snd x)))), E1, state_pmap. exact RS. }
  rewrite PF. cbn [bind fst snd]. rewrite tree_map_pmap, tree_map2_canon. cbn [bind].
  set (zs := canon zz). assert (S : sortedp zs) by apply canon_sorted.
  assert (Ez : pmap fst zs = zc). { unfold zs. rewrite <- canon_pmap, E1. exact B2. }
  assert (Rz : reordered (state zz) (state zs)) by apply reordered_canon.
  assert (Wzs : wf no_slash (state zs)) by (eapply reordered_wf; eauto).
  unfold restore_checkpoint. rewrite VE. rewrite tree_map_pmap, (canon_id zs S).
  assert (PI : pfrom (pmap snd zs) (ck_index V D ck) = Ok (pmap (fun x => i1 (snd (fst x))) zs)).
  { apply pfrom_ok; [eapply wf_weak; exact Wzs|]. rewrite <- IX', <- C2, <- Ez, !pmap_pmap. apply reordered_refl. }
  match goal with |- context [pfrom ?a _] => change a with (pmap snd zs) end. rewrite PI. cbn [bind].
  set (z := pmap (fun x => (snd (fst x), snd x)) zs : ptree (zleaf V D)).
  assert (Sz : sortedp z) by (apply sortedp_pmap; exact S).
  assert (Q1 : pmap fst z = z1). { unfold z. rewrite pmap_pmap, <- C2, <- Ez, pmap_pmap. reflexivity. }
  assert (PS : forall x, In x (dfs z) -> Forall (lt 0) (CkptModel.lf_shape (fst (z_ld V D x)))).
  { intros x Ix. destruct (dfs_leaf_at z x Ix) as (q & B). apply (NE q). apply (reordered_leaf_at _ _ q (z_ld V D x) RO).
    rewrite state_pmap, <- Q1, state_pmap. apply leaf_at_tmap. exists (fst x). split; [|reflexivity]. apply leaf_at_tmap. eauto. }
  match goal with |- context [restore_from_trees _ _ _ _ _ _ _ _ _ ?a ?b] =>
    replace a with (pmap (z_info V D) z) by (unfold z; rewrite pmap_pmap; reflexivity);
    replace b with (pmap (z_spec V D) z) by (unfold z; rewrite pmap_pmap; reflexivity) end.
  assert (AS' : CkptSpec.all_saved P (map (fun x => fst (z_ld V D x)) (dfs z)) views ns mcb s).
  { assert (E : map (fun x => fst (z_ld V D x)) (dfs z) = map fst (leaves t)); [|rewrite E; exact AS].
    unfold leaves. rewrite <- Z1, <- Q1, !dfs_pmap, !map_map. reflexivity. }
  assert (IXz : map (fun x => fst (z_info V D x)) (dfs z) = CkptModel.sv_index (s 0)).
  { rewrite <- Z2, <- Q1, dfs_pmap, map_map. reflexivity. }
  exists (state (pmap (fun x => arr (z_ld V D x)) z)).
  split.
  { rewrite <- (pmap_pmap (z_ld V D) arr). rewrite (state_pmap arr). apply reordered_tmap.
    assert (E : pmap (z_ld V D) z = pmap fst z1) by (rewrite <- Q1, pmap_pmap; reflexivity). rewrite E. exact RO. }
  destruct (restore_core V D array mk zero nproc places sched GP SC P z views ns mcb s (ck_files V D ck) Sz PS AS' OD IXz) as [E|(x & e & Ix & PE & E)].
  - left. rewrite E. reflexivity.
  - right. unfold z in Ix. rewrite dfs_pmap in Ix. apply in_map_iff in Ix. destruct Ix as (y & <- & Ix).
    destruct (dfs_leaf_at zs y Ix) as (q & B). exists q, (fst (snd (fst y))), (fst (fst y)), (snd y), e.
    apply (reordered_leaf_at _ _ _ _ Rz) in B.
    split. { eapply reordered_leaf_at; [exact RO|]. rewrite <- C2, pmap_pmap, <- Ez, pmap_pmap, state_pmap. apply leaf_at_tmap. exists y. split; [|reflexivity].
      apply (reordered_leaf_at _ _ _ _ Rz). exact B. }
    split. { rewrite <- B1, <- E1, pmap_pmap, state_pmap. apply leaf_at_tmap. exists y. split; [exact B|reflexivity]. }
    split; [exact (E3 _ _ B)|]. split; [exact PE|]. rewrite E. reflexivity.
Qed.

(** A checkpoint with other names. *)
Lemma old_other P t ck fl rules regexes target q :
  old_saved V D P t ck ->
  ~ ((exists ld, leaf_at (state t) q ld) <-> (exists x, leaf_at (state target) q x)) ->
  init fl rules regexes ck target = Raise ValueError.
Proof.
  intros (views & ns & mcb & s & AS & OD & IX & VE) H.
  unfold old_saved_leaves in *. unfold old_saved_index, old_saved_leaves in IX.
  destruct (index_zip P t views ns mcb s AS) as (z1 & Z1 & Z2 & Z3).
  rewrite Z3 in IX. cbn [bind] in IX. inversion IX as [IX']. clear IX Z3.
  unfold initialize_from_vmoe. rewrite VE. cbv zeta.
  set (k := fun i : CkptModel.index_info * D => (CkptModel.ii_shape (fst i), snd i)). rewrite <- IX'.
  destruct (same_struct (dict (state target)) (tree_map k (dict (state (pmap (fun x => (snd x, snd (fst x))) z1))))) eqn:E; [|reflexivity].
  exfalso. apply H. unfold same_struct, tree_map in E. rewrite canon_pmap, canon_canon in E. apply skeleton_zip in E. destruct E as (y & Y1 & Y2).
  assert (L1 : (exists x, leaf_at (state target) q x) <-> exists v, leaf_at (state y) q v).
  { assert (R : reordered (state target) (state (pmap fst y))). { rewrite Y1. rewrite <- (state_dict (state target)) at 1. apply reordered_canon. }
    split.
    - intros (x & B). apply (reordered_leaf_at _ _ _ _ R) in B. rewrite state_pmap in B. apply leaf_at_tmap in B. destruct B as (v & B & _). eauto.
    - intros (v & B). exists (fst v). apply (reordered_leaf_at _ _ _ _ R). rewrite state_pmap. apply leaf_at_tmap. eauto. }
  assert (L2 : (exists ld, leaf_at (state t) q ld) <-> exists v, leaf_at (state z1) q v).
  { assert (R : reordered (state t) (state (pmap fst z1))). { rewrite Z1. apply reordered_canon. }
    split.
    - intros (x & B). apply (reordered_leaf_at _ _ _ _ R) in B. rewrite state_pmap in B. apply leaf_at_tmap in B. destruct B as (v & B & _). eauto.
    - intros (v & B). exists (fst v). apply (reordered_leaf_at _ _ _ _ R). rewrite state_pmap. apply leaf_at_tmap. eauto. }
  rewrite L1, L2.
  set (u := pmap (fun x : CkptModel.leaf V * D * CkptModel.index_info => (snd x, snd (fst x))) z1) in *.
  assert (R : reordered (tmap k (state u)) (state (pmap snd y))).
  { rewrite Y2, state_pmap. apply reordered_tmap. rewrite <- (state_dict (state u)) at 1. apply reordered_canon. }
  split.
  - intros (v & B). assert (B' : leaf_at (tmap k (state u)) q (k (snd v, snd (fst v)))).
    { apply leaf_at_tmap. eexists. split; [|reflexivity]. unfold u. rewrite state_pmap. apply leaf_at_tmap. eauto. }
    apply (reordered_leaf_at _ _ _ _ R) in B'. rewrite state_pmap in B'. apply leaf_at_tmap in B'. destruct B' as (w & B' & _). eauto.
  - intros (v & B). assert (B' : leaf_at (state (pmap snd y)) q (snd v)). { rewrite state_pmap. apply leaf_at_tmap. eauto. }
    apply (reordered_leaf_at _ _ _ _ R) in B'. apply leaf_at_tmap in B'. destruct B' as (w & B' & _). unfold u in B'. rewrite state_pmap in B'. apply leaf_at_tmap in B'. destruct B' as (w' & B' & _). eauto.
Qed.
End Init.
