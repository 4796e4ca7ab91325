(** Restoring trees of arrays. *)
From Coq Require Import List Arith ZArith Bool Permutation Lia Sorted.
From Verif Require CkptModel CkptSpec CkptProofs CkptProofs2 CkptProps.
From Verif Require Import Py TreeModel TreeSpec TreeProofs TreeProofs2 MapModel MapSpec MapProofs IniModel IniSpec IniProofs IniProofs2.
Import ListNotations.
Local Open Scope nat_scope.

Lemma rmap_cases {A B} (f : A -> res B) l :
  (exists ys, rmap f l = Ok ys /\ Forall2 (fun x y => f x = Ok y) l ys) \/
  (exists x e, In x l /\ f x = Raise e /\ rmap f l = Raise e).
Proof.
  induction l as [|x l IH]; [left; exists []; auto|]. destruct (f x) eqn:E.
  - destruct IH as [(ys & E1 & F)|(y & e & I & E1 & E2)].
    + left. exists (x0 :: ys). simpl. rewrite E. simpl. rewrite E1. auto.
    + right. exists y, e. simpl. rewrite E. simpl. rewrite E2. auto.
  - right. exists x, e. simpl. rewrite E. auto.
Qed.
Lemma rmap_forall2 {A B} (f : A -> res B) l ys : Forall2 (fun x y => f x = Ok y) l ys -> rmap f l = Ok ys.
Proof. induction 1; simpl; [reflexivity|]. rewrite H. simpl. rewrite IHForall2. reflexivity. Qed.
Lemma Forall2_nth {A B} (R : A -> B -> Prop) l m : length l = length m ->
  (forall i x y, nth_error l i = Some x -> nth_error m i = Some y -> R x y) -> Forall2 R l m.
Proof.
  revert m. induction l as [|a l IH]; intros [|b m] E H; try discriminate; constructor.
  - apply (H 0); reflexivity.
  - apply IH; [simpl in E; lia|]. intros i x y. apply (H (S i)).
Qed.
Lemma Forall2_nth_inv {A B} (R : A -> B -> Prop) l m i x : Forall2 R l m -> nth_error l i = Some x -> exists y, nth_error m i = Some y /\ R x y.
Proof.
  intros F. revert i. induction F; intros [|i] E; simpl in *; try discriminate; eauto. inversion E; subst. eauto.
Qed.
Lemma Forall2_nth_inv_r {A B} (R : A -> B -> Prop) l m i y : Forall2 R l m -> nth_error m i = Some y -> exists x, nth_error l i = Some x /\ R x y.
Proof.
  intros F. revert i. induction F; intros [|i] E; simpl in *; try discriminate; eauto. inversion E; subst. eauto.
Qed.
Lemma Forall2_len {A B} (R : A -> B -> Prop) l m : Forall2 R l m -> length l = length m.
Proof. induction 1; simpl; auto. Qed.
Lemma nth_error_combine {A B} (l : list A) : forall (m : list B) i xy, nth_error (combine l m) i = Some xy -> nth_error l i = Some (fst xy) /\ nth_error m i = Some (snd xy).
Proof.
  induction l as [|a l IH]; intros [|b m] [|i] xy E; simpl in *; try discriminate; auto. inversion E; subst. auto.
Qed.
Lemma nth_error_seq n : forall a i x, nth_error (seq a n) i = Some x -> x = a + i.
Proof. induction n as [|n IH]; intros a [|i] x E; simpl in *; try discriminate; [inversion E; lia|]. apply IH in E. lia. Qed.
Lemma combine_map {A B C} (f : A -> B) (g : A -> C) l : combine (map f l) (map g l) = map (fun x => (f x, g x)) l.
Proof. induction l; simpl; congruence. Qed.

(** ** Arrays *)
Lemma indices_row {V} (f : list nat -> V) shape : map f (indices shape) = row_major shape f.
Proof.
  revert f. induction shape as [|n r IH]; intros f; simpl; [reflexivity|].
  induction (seq 0 n) as [|i l IHl]; simpl; [reflexivity|]. rewrite map_app, IHl, map_map, IH. reflexivity.
Qed.
Lemma indices_in shape : forall x, In x (indices shape) -> CkptSpec.in_shape x shape.
Proof.
  induction shape as [|n r IH]; intros x H; simpl in H.
  - destruct H as [<-|[]]. constructor.
  - apply in_flat_map in H. destruct H as (i & Hi & H). apply in_map_iff in H. destruct H as (y & <- & Hy).
    apply in_seq in Hi. constructor; [lia|apply IH; auto].
Qed.
Lemma in_slices_selected s : forall x, in_slices x s = true <-> CkptSpec.selected x s.
Proof.
  unfold in_slices, CkptSpec.selected. induction s as [|[a b] s IH]; intros [|x l]; simpl; split; intros H; try discriminate; try constructor; try (inversion H; fail).
  - apply andb_prop in H. destruct H as [H1 H]. apply andb_prop in H. destruct H as [H2 H3]. apply andb_prop in H2. destruct H2 as [H2 H4]. unfold CkptSpec.selected1. simpl.
    split; [destruct a; [apply Nat.leb_le; exact H2|exact I]|destruct b; [apply Nat.ltb_lt; exact H4|exact I]].
  - apply IH. apply andb_prop in H. destruct H as [H1 H]. apply andb_prop in H. destruct H as [H2 H3]. rewrite H1, H3. reflexivity.
  - inversion H as [|? ? ? ? [A B] F]; subst. apply IH in F. apply andb_prop in F. destruct F as [F1 F2]. rewrite F1, F2. simpl in *. rewrite andb_true_r.
    apply andb_true_intro. split; [destruct a; [apply Nat.leb_le; exact A|reflexivity]|destruct b; [apply Nat.ltb_lt; exact B|reflexivity]].
Qed.
Lemma origin_eq idx : map (fun p : CkptModel.pyslice => CkptModel.or0 (fst p)) idx = CkptSpec.origin idx.
Proof. reflexivity. Qed.

Section Restore.
Variable V D array : Type.
Variable mk : list nat -> D -> list V -> array.
Variable zero : V.
Variable nproc : nat.
Variable places : spec -> list nat -> res (nat -> CkptModel.target).
Variable sched : nat -> list (CkptModel.chunk V) -> list (CkptModel.chunk V).
Hypothesis GP : good_places nproc places.
Hypothesis SC : forall p l, Permutation (sched p l) l.

Lemma make_array_ok shape d shards f :
  (forall x, CkptSpec.in_shape x shape -> exists s, In s shards /\ CkptSpec.selected x (fst s)) ->
  (forall s x, In s shards -> CkptSpec.in_shape x shape -> CkptSpec.selected x (fst s) ->
     snd s (CkptModel.idx_sub x (CkptSpec.origin (fst s))) = f x) ->
  make_array V D array mk shape d shards = Ok (mk shape d (row_major shape f)).
Proof.
  intros C H. unfold make_array. rewrite (rmap_ok _ f).
  - simpl. rewrite indices_row. reflexivity.
  - apply Forall_forall. intros x Hx. apply indices_in in Hx. destruct (find (fun s => in_slices x (fst s)) shards) as [s|] eqn:E.
    + apply find_some in E. destruct E as [I E]. apply in_slices_selected in E. f_equal. rewrite origin_eq. auto.
    + destruct (C x Hx) as (s & I & S). exfalso. apply find_none with (x := s) in E; auto. apply in_slices_selected in S. congruence.
Qed.

Definition zleaf : Type := (CkptModel.leaf V * D) * CkptModel.index_info * spec.
Definition z_ld (x : zleaf) := fst (fst x).
Definition z_info (x : zleaf) := (snd (fst x), snd (fst (fst x))).
Definition z_spec (x : zleaf) := snd x.

Lemma restore_core P (z : ptree zleaf) views ns mcb s files :
  sortedp z -> (forall x, In x (dfs z) -> Forall (lt 0) (CkptModel.lf_shape (fst (z_ld x)))) ->
  CkptSpec.all_saved P (map (fun x => fst (z_ld x)) (dfs z)) views ns mcb s ->
  CkptSpec.on_disk P s files -> map (fun x => fst (z_info x)) (dfs z) = CkptModel.sv_index (s 0) ->
  restore_from_trees V D array mk zero nproc places sched files (pmap z_info z) (pmap z_spec z) = Ok (pmap (fun x => array_of V D array mk (z_ld x)) z) \/
  exists x e, In x (dfs z) /\ places (z_spec x) (CkptModel.lf_shape (fst (z_ld x))) = Raise e /\
    restore_from_trees V D array mk zero nproc places sched files (pmap z_info z) (pmap z_spec z) = Raise e.
Proof.
  intros S PS AS OD IX. unfold restore_from_trees. rewrite same_struct_ok. cbn [negb]. cbv zeta.
  unfold leaves. rewrite !canon_pmap, !(canon_id z S), !dfs_pmap, combine_map.
  set (l := dfs z) in *.
  assert (HP : 0 < P) by apply AS.
  assert (SH : forall x, In x l -> CkptModel.ii_shape (fst (z_info x)) = CkptModel.lf_shape (fst (z_ld x))).
  { pose proof (CkptProofs2.index_shapes P _ _ _ _ _ AS) as E. rewrite <- IX, !map_map in E.
    clear - E. induction l as [|y l IH]; intros x []; simpl in E; inversion E; subst; auto. }
  set (F := fun si : spec * (CkptModel.index_info * D) => places (fst si) (CkptModel.ii_shape (fst (snd si)))).
  destruct (rmap_cases F (map (fun x => (z_spec x, z_info x)) l)) as [(ts & E & F2)|(x & e & I & E1 & E2)].
  2:{ right. apply in_map_iff in I. destruct I as (y & <- & I). exists y, e. split; [exact I|].
      split; [rewrite <- (SH y I); exact E1|]. rewrite E2. reflexivity. }
  left. rewrite E. cbn [bind]. clear E.
  assert (LT : length ts = length l). { apply Forall2_len in F2. rewrite map_length in F2. auto. }
  assert (NT : forall i x t, nth_error l i = Some x -> nth_error ts i = Some t -> places (z_spec x) (CkptModel.lf_shape (fst (z_ld x))) = Ok t).
  { intros i x t Ex Et. destruct (Forall2_nth_inv_r _ _ _ _ _ F2 Et) as (y & Ey & R).
    rewrite (map_nth_error _ _ _ Ex) in Ey. inversion Ey; subst. unfold F in R. cbn [fst snd] in R. rewrite SH in R; auto. eapply nth_error_In; eauto. }
  clear F F2.
  rewrite map_map, IX.
  assert (RO : forall p, p < nproc -> exists out, CkptModel.restore_from_index zero files (CkptModel.sv_index (s 0)) (map (fun t => t p) ts) (sched p) = CkptModel.Ok out /\
     Forall2 (fun o (t : CkptModel.target) => length o = length t) out (map (fun t => t p) ts) /\
      forall i lf t o j idx (data : list nat -> V),
        nth_error (map (fun x => fst (z_ld x)) l) i = Some lf -> nth_error (map (fun t => t p) ts) i = Some t -> nth_error out i = Some o ->
        nth_error t j = Some idx -> nth_error o j = Some data ->
        forall x, CkptSpec.in_shape x (CkptModel.lf_shape lf) -> CkptSpec.selected x idx ->
          data (CkptModel.idx_sub x (CkptSpec.origin idx)) = CkptModel.lf_value lf x).
  { intros p Hp. destruct (CkptProps.C12_save_restore_identity V P _ views ns mcb HP (proj1 (proj2 AS)) (proj1 (proj2 (proj2 AS)))) as [_ R].
    apply (R s AS); auto. unfold CkptSpec.good_targets. apply Forall2_nth; [rewrite !map_length; auto|].
    intros i lf t Ei Et. rewrite nth_error_map in Ei, Et. destruct (nth_error l i) as [x|] eqn:Ex; try discriminate. destruct (nth_error ts i) as [t'|] eqn:Et'; try discriminate.
    simpl in *. inversion Ei; inversion Et; subst. apply (GP _ _ _ (PS x (nth_error_In _ _ Ex)) (NT i x t' Ex Et')); auto. }
  assert (OUT : exists outs, rmap (fun p => lift (CkptModel.restore_from_index zero files (CkptModel.sv_index (s 0)) (map (fun t => t p) ts) (sched p))) (seq 0 nproc) = Ok outs /\
     Forall2 (fun p out => CkptModel.restore_from_index zero files (CkptModel.sv_index (s 0)) (map (fun t => t p) ts) (sched p) = CkptModel.Ok out) (seq 0 nproc) outs).
  { assert (Hs : forall p, In p (seq 0 nproc) -> p < nproc) by (intros p Hp; apply in_seq in Hp; lia).
    induction (seq 0 nproc) as [|p r IH]; [exists []; auto|]. destruct IH as (outs & E1 & F1); [intros; apply Hs; right; auto|].
    destruct (RO p (Hs p (or_introl eq_refl))) as (out & E & _). exists (out :: outs). simpl. rewrite E. simpl. rewrite E1. auto. }
  destruct OUT as (outs & E & FO). rewrite E. cbn [bind]. clear E.
  match goal with |- bind ?act _ = _ => assert (RA : act = Ok (map (fun x => array_of V D array mk (z_ld x)) l)) end.
  2:{ rewrite RA. cbn [bind]. apply unflatten_ok. exact S. }
  apply rmap_forall2. apply Forall2_nth.
  { rewrite !combine_length, seq_length, !map_length. lia. }
  intros i [n [info t]] y E1 E2. apply nth_error_combine in E1. destruct E1 as [E1 E3]. apply nth_error_combine in E3. destruct E3 as [E3 E4]. cbn [fst snd] in *.
  apply nth_error_seq in E1. subst n. rewrite Nat.add_0_l. rewrite nth_error_map in E2, E3. destruct (nth_error l i) as [x|] eqn:Ex; try discriminate. cbn [option_map] in *. inversion E2; inversion E3; subst. clear E2 E3.
  rewrite SH by (eapply nth_error_In; eauto). pose proof (NT i x t Ex E4) as PL. destruct (GP _ _ _ (PS x (nth_error_In _ _ Ex)) PL) as [G1 G2].
  assert (LEN : forall p out, p < nproc -> CkptModel.restore_from_index zero files (CkptModel.sv_index (s 0)) (map (fun t => t p) ts) (sched p) = CkptModel.Ok out ->
      nth_error out i = Some (nth i out []) /\ length (nth i out []) = length (t p) /\
      forall j idx data x0, nth_error (t p) j = Some idx -> nth_error (nth i out []) j = Some data -> CkptSpec.in_shape x0 (CkptModel.lf_shape (fst (z_ld x))) -> CkptSpec.selected x0 idx ->
        data (CkptModel.idx_sub x0 (CkptSpec.origin idx)) = CkptModel.lf_value (fst (z_ld x)) x0).
  { intros p out Hp Eo. destruct (RO p Hp) as (out' & Eo' & FL & VAL). rewrite Eo in Eo'. inversion Eo'; subst out'.
    assert (Et : nth_error (map (fun t => t p) ts) i = Some (t p)) by exact (map_nth_error (fun t => t p) _ _ E4).
    destruct (Forall2_nth_inv_r _ _ _ _ _ FL Et) as (o & Eo2 & Lo).
    rewrite (nth_error_nth _ _ _ Eo2). split; [exact Eo2|]. split; [exact Lo|]. intros j idx data x0 Hj Hd.
    eapply VAL; eauto. exact (map_nth_error (fun x => fst (z_ld x)) _ _ Ex). }
  apply make_array_ok.
  - intros x0 Hx. destruct (G2 x0 Hx) as (p & idx & Hp & I & Sel).
    apply In_nth_error in I. destruct I as (j & Ej).
    assert (EP : nth_error (seq 0 nproc) p = Some p). { rewrite (nth_error_nth' _ 0) by (rewrite seq_length; auto). rewrite seq_nth by auto. reflexivity. }
    destruct (Forall2_nth_inv _ _ _ _ _ FO EP) as (out & Eo & Ro). destruct (LEN p out Hp Ro) as (Q1 & Q2 & Q3).
    destruct (nth_error (nth i out []) j) as [data|] eqn:Ed.
    2:{ exfalso. apply nth_error_None in Ed. assert (j < length (t p)) by (apply nth_error_Some; congruence). lia. }
    exists (idx, data). split; [|exact Sel]. apply in_flat_map. exists (p, out). split.
    + clear - EP Eo. revert EP Eo. generalize (seq 0 nproc). intros m. revert outs. generalize p at 1 3 as k. intros k. revert k. induction m as [|a m IH]; intros k outs E1 E2; destruct k, outs; simpl in *; try discriminate.
      * inversion E1; inversion E2; subst. auto.
      * right. eapply IH; eauto.
    + cbn [fst snd]. clear - Ej Ed. revert j Ej Ed. generalize (t p), (nth i out []). intros a. induction a as [|u a IH]; intros b j; destruct j, b; simpl; intros; try discriminate.
      * inversion Ej; inversion Ed; subst; auto.
      * right. eapply IH; eauto.
  - intros [idx data] x0 I Hx Sel. apply in_flat_map in I. destruct I as ([p out] & I & J). cbn [fst snd] in *.
    apply In_nth_error in I. destruct I as (k & Ik). apply nth_error_combine in Ik. destruct Ik as [K1 K2]. cbn [fst snd] in *.
    destruct (Forall2_nth_inv _ _ _ _ _ FO K1) as (out' & Eo & Ro). rewrite K2 in Eo. inversion Eo; subst out'.
    apply nth_error_In, in_seq in K1. assert (Hp : p < nproc) by lia. destruct (LEN p out Hp Ro) as (Q1 & Q2 & Q3).
    apply In_nth_error in J. destruct J as (j & J). apply nth_error_combine in J. destruct J as [J1 J2]. cbn [fst snd] in *. eapply Q3; eauto.
Qed.
End Restore.
