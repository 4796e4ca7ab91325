From Coq Require Import List Arith Bool Permutation Lia.
From Verif Require Import Py PyLemmas TreeModel TreeSpec TreeProofs TreeProofs2 TreeProofs3 MapModel MapSpec MapProofs MapProofs2 OptModel OptSpec OptProofs.
Import ListNotations.

Section Optimizer.
Variable regex : Type.
Variable search : regex -> str -> bool.
Variable V F state : Type.
Variable add : V -> V -> V.
Variable scale : F -> V -> V.
Variable zeros_like : V -> V.
Variable zero one : F.
Variable is_zero : F -> bool.
Variable empty_state : state.
Variable clip_by_global_norm clip : F -> op V state.
Variable optimizer : optimizer_name -> op V state.
Notation op := (op V state).
Notation o_init := (o_init V state).
Notation o_update := (o_update V state).
Notation config := (config regex V F state).
Notation create := (create_optimizer regex search V F state add scale zeros_like zero one is_zero empty_state clip_by_global_norm clip optimizer).
Notation frozen_fn := (frozen_fn regex search V).
Notation masked_zero := (masked_zero V state zeros_like empty_state).
Notation freeze_weights := (freeze_weights regex search V state zeros_like empty_state).
Notation chain_update := (chain_update V state).
Notation chain_init := (chain_init V state).
Notation apply_gradients := (apply_gradients V state add).
Notation train := (train V state add).
Notation identity := (identity V state empty_state).

(** ** Masks *)
Definition mask_value (ps : list regex) (bt bf : bool) (q : list str) : bool :=
  if existsb (fun r => search r (join q)) ps then bt else bf.

Lemma nonempty_node {L} (t : tree L) fl : flat t = Ok fl -> exists cs, t = Node cs.
Proof. destruct t; [discriminate|eauto]. Qed.

Lemma frozen_fn_ok ps bt bf (t : tree V) cs : t = Node cs -> wf no_slash t -> nonempty t ->
  frozen_fn ps bt bf t = Ok (mapt (fun q _ => mask_value ps bt bf q) [] t).
Proof.
  intros E W N. unfold OptModel.frozen_fn.
  destruct (rebuild_map (fun k (_ : V) => if existsb (fun r => search r k) ps then bt else bf) t cs E W N) as (fl & -> & R).
  exact R.
Qed.
Lemma frozen_fn_node ps bt bf (t : tree V) m : frozen_fn ps bt bf t = Ok m -> exists cs, t = Node cs.
Proof. unfold OptModel.frozen_fn. intros H. apply bind_ok in H. destruct H as (fl & H & _). eapply nonempty_node; eauto. Qed.

Definition zmask (b : bool) (u : V) : V := if b then zeros_like u else u.

(** A masked update whose result can be added to well-formed parameters. *)
Lemma masked_step ps bt bf (params u0 u r : tree V) m (g : V -> V -> V) :
  wf no_slash params -> nonempty params -> frozen_fn ps bt bf u0 = Ok m -> tree_map2 zmask m u0 = Ok u -> tree_map2 g params u = Ok r ->
  wf no_slash u0 /\ nonempty u0 /\ alike u0 u /\ alike params r /\
  forall p x, leaf_at params p x -> exists y, leaf_at u0 p y /\ leaf_at r p (g x (zmask (mask_value ps bt bf p) y)).
Proof.
  intros W N Hm Hu Hr.
  destruct (tree_map2_ok g no_slash _ _ _ [] Hr W) as (Wu & Nu & Rr & Lr). specialize (Nu N).
  assert (Am : related (fun _ _ _ => True) [] m u).
  { clear - Hu. revert u0 u Hu. generalize (@nil str). induction m as [x|cs IH] using tree_ind'; intros q b r H; destruct b as [y|ds]; try (simpl in H; discriminate).
    - simpl in H. injection H as <-. constructor. auto.
    - apply tree_map2_node in H. destruct H as (E & rs & -> & F2). constructor. clear E. induction F2 as [|kc kr cs rs [E (d & D & T)] F2 IHF]; constructor.
      + split; auto. inversion IH; subst. eauto.
      + apply IHF. inversion IH; auto. }
  assert (Wm : wf no_slash m) by (eapply alike_wf; [apply alike_sym; eauto|auto]).
  assert (Nm : nonempty m) by (eapply alike_nonempty; [apply alike_sym; eauto|auto]).
  destruct (tree_map2_ok zmask no_slash _ _ _ [] Hu Wm) as (Wu0 & Nu0 & _ & Lu). specialize (Nu0 Nm).
  destruct (frozen_fn_node _ _ _ _ _ Hm) as [cs E]. rewrite (frozen_fn_ok ps bt bf u0 cs E Wu0 Nu0) in Hm. apply Ok_inj in Hm. subst m.
  repeat split; auto.
  - eapply alike_trans; [apply alike_mapt|exact Am].
  - intros p x L. destruct (Lr _ _ L) as (y & Y1 & Y2).
    destruct (related_true_leaf _ _ _ (alike_sym _ _ _ Am) _ _ Y1) as [b Hb].
    destruct (Lu _ _ Hb) as (y0 & Z1 & Z2). assert (B := mapt_leaf (fun q _ => mask_value ps bt bf q) u0 [] p y0 Z1). simpl in B.
    assert (b = mask_value ps bt bf p) by (eapply leaf_unique; eauto). subst b.
    assert (y = zmask (mask_value ps bt bf p) y0) by (eapply (leaf_unique no_slash u); eauto). subst y. eauto.
Qed.

(** ** Chains *)
Lemma chain_snoc ops o : forall u st params u' st', chain_update (ops ++ [o]) u st params = Ok (u', st') <->
  exists st0 s u0 st0' s', st = st0 ++ [s] /\ st' = st0' ++ [s'] /\
    chain_update ops u st0 params = Ok (u0, st0') /\ o_update o u0 s params = Ok (u', s').
Proof using.
  induction ops as [|a ops IH]; intros u st params u' st'; simpl.
  - split.
    + destruct st as [|s [|s2 st]]; try discriminate.
      * intros H. apply bind_ok in H. destruct H as ([u1 s1] & H & K). simpl in K. injection K as <- <-.
        exists [], s, u, [], s1. auto.
      * intros H. apply bind_ok in H. destruct H as ([u1 s1] & H & K). simpl in K. discriminate.
    + intros (st0 & s & u0 & st0' & s' & -> & -> & H & K). destruct st0; [|discriminate]. injection H as <- <-. simpl. rewrite K. auto.
  - split.
    + destruct st as [|s st]; [discriminate|]. intros H. apply bind_ok in H. destruct H as ([u1 s1] & H & K). apply bind_ok in K.
      destruct K as ([u2 s2] & K & K2). simpl in *. injection K2 as <- <-. apply IH in K.
      destruct K as (st0 & s0 & u0 & st0' & s' & -> & -> & A & B). exists (s :: st0), s0, u0, (s1 :: st0'), s'. repeat split; auto.
      rewrite H. simpl. rewrite A. auto.
    + intros (st0 & s & u0 & st0' & s' & -> & -> & H & K). destruct st0 as [|s0 st0]; [discriminate|]. simpl.
      apply bind_ok in H. destruct H as ([u1 s1] & H & A). apply bind_ok in A. destruct A as ([u2 s2] & A & B). simpl in *. injection B as <- <-.
      rewrite H. simpl. assert (X := proj2 (IH u1 (st0 ++ [s]) params u' (s2 ++ [s']))). rewrite X; [auto|]. exists st0, s, u2, s2, s'. auto.
Qed.

Lemma create_ok c ops : create c = Ok ops -> exists pre fr, ops = pre ++ [fr] /\ freeze_weights (frozen _ _ _ _ c) (trainable _ _ _ _ c) = Ok fr /\
  create (unfrozen _ _ _ _ c) = Ok (pre ++ [identity]).
Proof.
  unfold create_optimizer. simpl. intros H. apply bind_ok in H. destruct H as (cl & -> & H). simpl.
  destruct (name _ _ _ _ c); try discriminate; apply bind_ok in H; destruct H as (lr & -> & H); simpl;
    apply bind_ok in H; destruct H as (fr & H1 & H); apply Ok_inj in H; subst ops;
    match goal with |- context [[?a; ?b; ?c; ?d; ?e; fr]] => exists [a; b; c; d; e], fr end; auto.
Qed.

Lemma matched_spec ps q : existsb (fun r => search r (join q)) ps = true <-> matched regex search ps (join q).
Proof using. rewrite existsb_exists. split; intros (r & A & B); exists r; auto. Qed.

Hypothesis add_zeros : forall p u, add p (zeros_like u) = p.

(** One update *)
Lemma freeze_step c ops g params st params' st' : create c = Ok ops -> wf no_slash params -> nonempty params ->
  apply_gradients ops g (params, st) = Ok (params', st') ->
  alike params params' /\
  exists ops0 params0, create (unfrozen _ _ _ _ c) = Ok ops0 /\ apply_gradients ops0 g (params, st) = Ok (params0, st') /\
  forall p x, leaf_at params p x -> exists y z, leaf_at params' p y /\ leaf_at params0 p z /\
    (frozen_name regex search V F state c (join p) -> y = x) /\ (~ frozen_name regex search V F state c (join p) -> y = z).
Proof.
  intros C W N A. destruct (create_ok _ _ C) as (pre & fr & -> & FW & C0).
  unfold OptModel.apply_gradients in A. apply bind_ok in A. destruct A as ([u s1] & A & B). apply bind_ok in B. destruct B as (r & B & K). simpl in *.
  injection K as <- <-. assert (A' := A). apply chain_snoc in A. destruct A as (st0 & s & u0 & st0' & s' & -> & -> & A & U).
  assert (CI : chain_update (pre ++ [identity]) g (st0 ++ [s]) (Some params) = Ok (u0, st0' ++ [s])).
  { apply chain_snoc. exists st0, s, u0, st0', s. repeat split; auto. }
  unfold frozen_name.
  assert (MASK : forall ps bt bf, fr = masked_zero (frozen_fn ps bt bf) ->
    alike params r /\ exists params0, s' = s /\ tree_map2 add params u0 = Ok params0 /\
    forall p x, leaf_at params p x -> exists y z, leaf_at r p y /\ leaf_at params0 p z /\
      (mask_value ps bt bf p = true -> y = x) /\ (mask_value ps bt bf p = false -> y = z)).
  { intros ps bt bf ->. simpl in U. apply bind_ok in U. destruct U as (m & M & U). apply bind_ok in U. destruct U as (u' & U & K). injection K as <- <-.
    destruct (masked_step _ _ _ _ _ _ _ _ _ W N M U B) as (Wu & Nu & Au & Ar & L). split; auto.
    destruct (tree_map2_alike add add params u' u0 r [] B (alike_sym _ _ _ Au)) as [p0 P0]. exists p0. repeat split; auto.
    destruct (tree_map2_ok add no_slash _ _ _ [] P0 W) as (_ & _ & _ & L0).
    intros p x Lx. destruct (L _ _ Lx) as (y0 & Y1 & Y2). destruct (L0 _ _ Lx) as (y1 & Z1 & Z2).
    assert (y1 = y0) by (eapply leaf_unique; [exact Wu| |]; eauto). subst y1. exists (add x (zmask (mask_value ps bt bf p) y0)), (add x y0).
    repeat split; auto; unfold zmask; intros ->; auto. }
  unfold freeze_weights in FW.
  destruct (frozen _ _ _ _ c) as [|f0 fs] eqn:EF; destruct (trainable _ _ _ _ c) as [|t0 ts] eqn:ET; try discriminate; apply Ok_inj in FW; subst fr.
  - simpl in U. injection U as <- <-. destruct (tree_map2_ok add no_slash _ _ _ [] B W) as (_ & _ & Ar & L). split; auto.
    exists (pre ++ [identity]), r. split; [auto|]. split.
    { unfold OptModel.apply_gradients. simpl. rewrite CI. simpl. rewrite B. auto. }
    intros p x Lx. destruct (L _ _ Lx) as (y & Y1 & Y2). exists (add x y), (add x y). repeat split; auto. intros [[H _]|[H _]]; congruence.
  - destruct (MASK _ _ _ eq_refl) as (Ar & p0 & -> & P0 & L). split; auto. exists (pre ++ [identity]), p0. split; [auto|]. split.
    { unfold OptModel.apply_gradients. simpl. rewrite CI. simpl. rewrite P0. auto. }
    intros p x Lx. destruct (L _ _ Lx) as (y & z & Y & Z & A1 & A2). exists y, z. repeat split; auto; unfold mask_value in *.
    + intros [[H _]|[_ H]]; [congruence|]. apply A1. destruct (existsb _ _) eqn:X; auto. apply matched_spec in X. tauto.
    + intros H. apply A2. destruct (existsb _ _) eqn:X; auto. exfalso. apply H. right. split; [discriminate|]. intros M. apply matched_spec in M. congruence.
  - destruct (MASK _ _ _ eq_refl) as (Ar & p0 & -> & P0 & L). split; auto. exists (pre ++ [identity]), p0. split; [auto|]. split.
    { unfold OptModel.apply_gradients. simpl. rewrite CI. simpl. rewrite P0. auto. }
    intros p x Lx. destruct (L _ _ Lx) as (y & z & Y & Z & A1 & A2). exists y, z. repeat split; auto; unfold mask_value in *.
    + intros [[_ H]|[H _]]; [|congruence]. apply A1. apply matched_spec in H. rewrite H. auto.
    + intros H. apply A2. destruct (existsb _ _) eqn:X; auto. exfalso. apply H. left. split; [discriminate|]. apply matched_spec. auto.
Qed.

(** Any number of updates *)
Lemma freeze_train c ops : create c = Ok ops -> forall gs params st params' st', wf no_slash params -> nonempty params ->
  train ops gs (params, st) = Ok (params', st') ->
  alike params params' /\ forall p x, leaf_at params p x -> frozen_name regex search V F state c (join p) -> leaf_at params' p x.
Proof.
  intros C. induction gs as [|g gs IH]; intros params st params' st' W N T; unfold OptModel.train in T; simpl in T.
  - injection T as <- <-. split; [apply alike_refl|auto].
  - apply bind_ok in T. destruct T as ([p1 s1] & T1 & T). destruct (freeze_step _ _ _ _ _ _ _ C W N T1) as (A & ops0 & p0 & _ & _ & L).
    assert (W1 := alike_wf no_slash _ _ _ A W). assert (N1 := alike_nonempty _ _ _ A N).
    destruct (IH _ _ _ _ W1 N1 T) as (A2 & L2). split; [eapply alike_trans; eauto|].
    intros p x Lx Fx. destruct (L _ _ Lx) as (y & z & Y & _ & E & _). rewrite (E Fx) in Y. apply L2; auto.
Qed.

Lemma freeze_both c : frozen _ _ _ _ c <> [] -> trainable _ _ _ _ c <> [] -> (exists lr, scale_by_learning_rate _ _ _ _ c = Ok lr) ->
  create c = Raise ValueError.
Proof using.
  intros A B [lr E]. unfold create_optimizer, gradient_clipping. destruct (truthy _ _ _), (truthy _ _ _); simpl; auto;
  destruct (name _ _ _ _ c); auto; rewrite E; simpl; unfold OptModel.freeze_weights; destruct (frozen _ _ _ _ c), (trainable _ _ _ _ c); try congruence; auto.
Qed.
End Optimizer.
