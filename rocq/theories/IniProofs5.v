(** Proofs of C85: what is assigned, and VisionTransformer checkpoints. *)
From Coq Require Import List Arith ZArith Bool Permutation Lia Sorted.
From Verif Require CkptModel CkptSpec.
From Verif Require Import Py TreeModel TreeSpec TreeProofs TreeProofs2 TreeProps MapModel MapSpec MapProofs MapProps
  IniModel IniSpec IniProofs IniProofs2 IniProofs3 IniProofs4.
Import ListNotations.
Local Open Scope nat_scope.

Lemma related_impl {L M} (R R' : list str -> L -> M -> Prop) (t : tree L) : forall p u, (forall q x y, R q x y -> R' q x y) -> related R p t u -> related R' p t u.
Proof.
  induction t as [x|cs IH] using tree_rect'; intros p u H Q; inversion Q as [|? ? ds F]; subst; constructor; auto.
  clear Q. induction F as [|a b l m [E G] F IHF]; constructor; inversion IH; subst; auto.
Qed.

Section Init.
Variable V D array : Type.
Variable pat : Type.
Variable search : pat -> str -> bool.
Variable sub : pat -> str -> str -> str.
Variable dtype_eqb : D -> D -> bool.
Variable shape_of : array -> list nat.
Variable dtype_of : array -> D.
Variable astype : array -> D -> array.
Variable broadcast_to : array -> list nat -> res array.
Variable transform : kind -> array -> array -> res array.
Variable stack : Z -> list array -> res array.
Variable regex : Type.
Variable rsearch : regex -> str -> bool.
Local Notation mapping := (map_state_dict pat search sub array D dtype_eqb shape_of dtype_of astype broadcast_to transform stack).
Local Notation assigned := (assigned pat search sub array D shape_of dtype_of astype broadcast_to transform stack (fun _ => True)).

Lemma named_reordered (a b : tree array) key s : reordered a b -> named_array array a key s <-> named_array array b key s.
Proof. intros R. split; intros (p & A & E); exists p; split; auto; apply (reordered_leaf_at a b p s R); exact A. Qed.
Lemma assigned_reordered fl rules (a b : tree array) p x y : reordered a b -> assigned fl rules b p x y -> assigned fl rules a p x y.
Proof.
  intros R H. inversion H.
  - apply as_initialised; auto. intros key s k N. eapply H0. apply (named_reordered a b); eauto.
  - eapply as_single; eauto.
    + apply (named_reordered a b); eauto.
    + intros key' s' k' N. eapply H3. apply (named_reordered a b); eauto.
  - eapply as_stacked; eauto. intros key s. rewrite H2. rewrite (named_reordered a b key s R). reflexivity.
Qed.

Hypothesis DE : forall a b, reflect (a = b) (dtype_eqb a b).
Lemma mapping_assigned fl rules (a source target out : tree array) : reordered a source -> wf no_slash a -> wf (fun _ => True) target ->
  mapping fl rules source target = Ok out ->
  related (assigned fl rules a) [] target out /\
  (raise_source fl = true -> forall key s, named_array array a key s -> ~ no_rule pat search rules key).
Proof.
  intros R W WT E. destruct (C28_only_matched pat search sub array D dtype_eqb shape_of dtype_of astype broadcast_to transform stack DE fl rules source target out) as [A B]; auto.
  { eapply reordered_wf; eauto. }
  split.
  - revert A. apply related_impl. intros q x y. apply assigned_reordered. exact R.
  - intros H key s N. eapply B; auto. apply (named_reordered a source); eauto.
Qed.

Variable shape_if : array -> option (list nat).
Variable void_itemsize : array -> option nat.
Variable view : array -> array.
Variable fits : spec -> array -> option err.
Local Notation vit := (initialize_from_vit D array pat search sub dtype_eqb shape_of dtype_of astype broadcast_to transform stack
  regex rsearch shape_if void_itemsize view fits).
Local Notation fixed := (as_bfloat16 void_itemsize view).

Lemma leaves_leaf_at (t : tree array) x : In x (leaves (dict t)) <-> exists q, leaf_at t q x.
Proof.
  assert (R : reordered t (state (canon (dict t)))). { rewrite <- (state_dict t) at 1. apply reordered_canon. }
  split.
  - intros H. apply dfs_leaf_at in H. destruct H as (q & B). exists q. eapply reordered_leaf_at; eauto.
  - intros (q & B). apply (reordered_leaf_at _ _ q x R) in B. revert q B. unfold leaves. generalize (canon (dict t)). clear. intros t.
    induction t as [y|o cs IH] using ptree_rect'; intros q B; simpl in *; inversion B as [|? k c p ? I B']; subst; auto.
    apply in_map_iff in I. destruct I as ([k' c'] & E & I). inversion E; subst. apply in_flat_map. exists (k, c'). split; auto.
    rewrite Forall_forall in IH. eapply (IH _ I). exact B'.
Qed.

Lemma vit_void fl rules regexes ckpt target q x n : leaf_at ckpt q x -> void_itemsize x = Some n -> n <> 2 ->
  vit fl rules regexes ckpt target = Raise AssertionError.
Proof.
  intros B E Nn. unfold initialize_from_vit. cbv zeta.
  destruct (rmap_cases (fix_dtype array void_itemsize view) (leaves (dict ckpt))) as [(ys & _ & F)|(y & e & I & E1 & E2)].
  - exfalso. assert (I : In x (leaves (dict ckpt))) by (apply leaves_leaf_at; eauto).
    destruct (Forall2_in_l _ _ _ _ F I) as (y & _ & G). unfold fix_dtype in G. rewrite E in G. apply Nat.eqb_neq in Nn. rewrite Nn in G. discriminate.
  - rewrite E2. unfold fix_dtype in E1. destruct (void_itemsize y); [|discriminate]. destruct (n0 =? 2); inversion E1. reflexivity.
Qed.

Lemma vit_ok fl rules regexes ckpt target :
  (forall q x n, leaf_at ckpt q x -> void_itemsize x = Some n -> n = 2) ->
  (forall l, regexes = Some l -> wf no_slash ckpt /\ (exists cs, ckpt = Node cs) /\
     forall q x r u, leaf_at ckpt q x -> shape_if (fixed x) = None -> In (r, u) l -> rsearch r (join q) = false) ->
  exists source, reordered (tmap fixed ckpt) source /\
    (vit fl rules regexes ckpt target = mapping fl rules source (state target) \/
     exists q x s e, leaf_at ckpt q x /\
       match regexes with None => s = [] | Some l => first_rule regex rsearch l q (shape_if (fixed x)) s end /\
       fits s (fixed x) = Some e /\ vit fl rules regexes ckpt target = Raise e).
Proof.
  intros HV HR. set (z0 := canon (dict ckpt)).
  assert (S0 : sortedp z0) by apply canon_sorted.
  assert (RO : reordered ckpt (state z0)). { rewrite <- (state_dict ckpt) at 1. apply reordered_canon. }
  assert (FX : rmap (fix_dtype array void_itemsize view) (leaves (dict ckpt)) = Ok (map fixed (leaves (dict ckpt)))).
  { apply rmap_ok. apply Forall_forall. intros x I. apply leaves_leaf_at in I. destruct I as (q & B). unfold fix_dtype, as_bfloat16.
    destruct (void_itemsize x) as [n|] eqn:E; [|reflexivity]. rewrite (HV q x n B E). reflexivity. }
  unfold initialize_from_vit. cbv zeta. rewrite FX. cbn [bind].
  assert (UF : unflatten (dict ckpt) (map fixed (leaves (dict ckpt))) = Ok (pmap fixed z0)).
  { rewrite <- (pmap_id (dict ckpt)) at 1. apply unflatten_canon. }
  rewrite UF. cbn [bind].
  assert (AX : exists zz : ptree (array * spec), pmap fst zz = z0 /\
     match regexes with
     | Some regexes0 => axis_resources regex rsearch shape_if (pmap fixed z0) regexes0
     | None => Ok (tree_map (fun _ : array => []) (pmap fixed z0))
     end = Ok (pmap snd zz) /\
     forall q xs, leaf_at (state zz) q xs -> match regexes with None => snd xs = [] | Some l => first_rule regex rsearch l q (shape_if (fixed (fst xs))) (snd xs) end).
  { destruct regexes as [l|].
    - destruct (HR l eq_refl) as (W & (cs & N) & H). apply (axis_ok regex rsearch shape_if fixed z0 l).
      + eapply reordered_wf; eauto.
      + subst ckpt. unfold z0. simpl. eauto.
      + intros q x r u B. eapply H. eapply reordered_leaf_at; eauto.
    - exists (pmap (fun x => (x, [])) z0). rewrite !pmap_pmap. cbn [fst snd]. split; [apply pmap_id|]. split.
      + rewrite tree_map_pmap, (canon_id z0 S0). reflexivity.
      + intros q xs B. rewrite state_pmap in B. apply leaf_at_tmap in B. destruct B as (x & _ & ->). reflexivity. }
  destruct AX as (zz & E1 & E2 & E3). rewrite E2. cbn [bind].
  assert (S : sortedp zz). { apply (sortedp_pmap fst). rewrite E1. exact S0. }
  unfold leaves. rewrite <- E1, !canon_pmap, (canon_id zz S), !dfs_pmap, map_map, combine_map.
  set (G := fun sx : spec * array => match fits (fst sx) (snd sx) with None => Ok (snd sx) | Some e => Raise e end).
  exists (state (pmap (fun x => fixed (fst x)) zz)). split.
  { rewrite <- (pmap_pmap fst fixed), E1, state_pmap. apply reordered_tmap. exact RO. }
  destruct (rmap_cases G (map (fun x => (snd x, fixed (fst x))) (dfs zz))) as [(ys & F1 & F2)|(x & e & I & G1 & G2)].
  - left. rewrite F1. cbn [bind].
    assert (EY : ys = map (fun x => fixed (fst x)) (dfs zz)).
    { clear - F2. revert ys F2. induction (dfs zz) as [|a l IH]; intros ys F2; inversion F2; subst; [reflexivity|]. simpl. f_equal; [|auto].
      unfold G in H1. simpl in H1. destruct (fits (snd a) (fixed (fst a))); inversion H1. reflexivity. }
    rewrite EY, pmap_pmap, unflatten_ok by exact S. reflexivity.
  - right. rewrite G2. cbn [bind]. apply in_map_iff in I. destruct I as (y & <- & I). destruct (dfs_leaf_at zz y I) as (q & B).
    exists q, (fst y), (snd y), e. split. { eapply reordered_leaf_at; [exact RO|]. rewrite <- E1, state_pmap. apply leaf_at_tmap. eauto. }
    split; [exact (E3 _ _ B)|]. unfold G in G1. simpl in G1. destruct (fits (snd y) (fixed (fst y))); inversion G1. auto.
Qed.
End Init.
