From Coq Require Import List Arith Bool Permutation Lia.
From Verif Require Import Py PyLemmas TreeModel TreeSpec TreeProofs TreeProofs2 TreeProofs3 MapModel MapSpec MapProofs MapProofs2 OptModel OptSpec OptProofs OptProofs2.
Import ListNotations.

Lemma alike_zip {A B} (a : tree A) : forall (b : tree B) q, related (fun _ _ _ => True) q a b ->
  exists t : tree (A * B), forall q, mapt (fun _ => fst) q t = a /\ mapt (fun _ => snd) q t = b.
Proof.
  induction a as [x|cs IH] using tree_ind'; intros b q H; inversion H as [? ? y|? ? ds F]; subst.
  - exists (Leaf (x, y)). auto.
  - assert (T : exists ts : list (str * tree (A * B)), forall q, map (fun kc => (fst kc, mapt (fun _ => fst) (q ++ [fst kc]) (snd kc))) ts = cs /\
      map (fun kc => (fst kc, mapt (fun _ => snd) (q ++ [fst kc]) (snd kc))) ts = ds).
    { clear H. induction F as [|[k c] [k' d] cs ds [E R] F IHF]; [exists []; auto|]. simpl in *. subst k'. inversion IH as [|? ? I1 I2]; subst.
      destruct (IHF I2) as [ts T]. destruct (I1 _ _ R) as [t Ht]. simpl in *. exists ((k, t) :: ts). intros q'. simpl.
      destruct (T q') as [-> ->]. destruct (Ht (q' ++ [k])) as [-> ->]. auto. }
    destruct T as [ts T]. exists (Node ts). intros q'. simpl. destruct (T q') as [-> ->]. auto.
Qed.

Definition mapsnd {A B} (f : A -> B) (l : list (str * A)) : list (str * B) := map (fun kv => (fst kv, f (snd kv))) l.
Lemma mapsnd_dset {A B} (f : A -> B) (d : list (str * A)) k v : mapsnd f (dset d k v) = dset (mapsnd f d) k (f v).
Proof. induction d as [|[k' v'] d IH]; simpl; auto. destruct (str_eqb k' k); simpl; auto. unfold mapsnd in *. f_equal. auto. Qed.
Lemma mapsnd_dupdate {A B} (f : A -> B) (e d : list (str * A)) : mapsnd f (dupdate d e) = dupdate (mapsnd f d) (mapsnd f e).
Proof. revert d. unfold dupdate. induction e as [|[k v] e IH]; intros d; simpl; auto. rewrite IH, mapsnd_dset. auto. Qed.
Lemma mapsnd_dupdates {A B} (f : A -> B) (ls : list (list (str * A))) : forall d, mapsnd f (fold_left dupdate ls d) = fold_left dupdate (map (mapsnd f) ls) (mapsnd f d).
Proof. induction ls; intros; simpl; auto. rewrite IHls, mapsnd_dupdate. auto. Qed.
Lemma flat_mapt {A B} (f : A -> B) (t : tree A) : forall p q, flat_ p (mapt (fun _ => f) q t) = mapsnd f (flat_ p t).
Proof.
  induction t as [x|cs IH] using tree_ind'; intros p q; simpl; auto. rewrite mapsnd_dupdates, !map_map. f_equal.
  apply map_ext_in. intros a Ha. rewrite Forall_forall in IH. simpl. apply IH; auto.
Qed.

Lemma flat_node {A} (t : tree A) cs : t = Node cs -> flat t = Ok (flat_ [] t).
Proof. intros ->. auto. Qed.

Lemma from_state_alike {A B M} (a : tree A) : forall (b : tree B) (s : tree M) q, related (fun _ _ _ => True) q a b ->
  from_state_dict a s = from_state_dict b s.
Proof.
  induction a as [x|cs IH] using tree_ind'; intros b s q H; inversion H as [? ? y|? ? ds F]; subst; auto.
  simpl. destruct s as [|ss]; auto.
  assert (E1 : forallb (fun kc => existsb (str_eqb (fst kc)) (map fst ss)) cs = forallb (fun kc => existsb (str_eqb (fst kc)) (map fst ss)) ds).
  { clear - F. induction F as [|? ? ? ? [E _]]; simpl; auto. rewrite E, IHF. auto. }
  rewrite E1. destruct (forallb _ ds); auto. f_equal. clear E1 H. induction F as [|kc kd cs ds [E R] F IHF]; auto.
  simpl. inversion IH as [|? ? I1 I2]; subst. rewrite (IHF I2), <- E. destruct (dget ss (fst kc)); auto. rewrite (I1 _ _ _ R). auto.
Qed.

Section Optimizer.
Variable regex : Type.
Variable search : regex -> str -> bool.
Variable V F state : Type.
Variable add : V -> V -> V.
Variable scale : F -> V -> V.
Variable zeros_like : V -> V.
Variable zero one : F.
Variable is_zero : F -> bool.
Variable empty_state : state.
Variable clip_by_global_norm clip : F -> op V state.
Variable optimizer : optimizer_name -> op V state.
Notation op := (op V state).
Notation o_init := (o_init V state).
Notation o_update := (o_update V state).
Notation config := (config regex V F state).
Notation create := (create_optimizer regex search V F state add scale zeros_like zero one is_zero empty_state clip_by_global_norm clip optimizer).
Notation frozen_fn := (frozen_fn regex search V).
Notation masked_zero := (masked_zero V state zeros_like empty_state).
Notation freeze_weights := (freeze_weights regex search V state zeros_like empty_state).
Notation chain_update := (chain_update V state).
Notation chain_init := (chain_init V state).
Notation apply_gradients := (apply_gradients V state add).
Notation train := (train V state add).
Notation identity := (identity V state empty_state).
Notation decay_update := (decay_update V F state add scale empty_state).
Notation add_decayed_weights := (add_decayed_weights regex search V F state add scale zero is_zero empty_state).
Notation gradient_scaling := (gradient_scaling regex search V F state scale one empty_state).
Notation first_value := (first_value regex search F).
Notation first_match := (first_match regex search F).

Lemma first_value_match rules key d : first_match rules d key (first_value rules key d).
Proof using.
  induction rules as [|[r v] rules IH]; simpl; [right; auto|]. destruct (search r key) eqn:E.
  - left. exists [], r, rules. auto.
  - destruct IH as [(b & r' & a & E1 & E2 & E3)|[E1 E2]].
    + left. exists ((r, v) :: b), r', a. rewrite E1 at 1. repeat split; auto.
    + right. split; auto.
Qed.

Lemma safe_map3_map {A B C D T} (f : A -> B -> C -> D) (a : T -> A) (b : T -> B) (c : T -> C) l :
  safe_map3 f (map a l) (map b l) (map c l) = Ok (map (fun t => f (a t) (b t) (c t)) l).
Proof using. induction l; simpl; auto. rewrite IHl. auto. Qed.

Lemma decay_ok wd (u p : tree V) s cs : u = Node cs -> wf no_slash u -> nonempty u -> alike u p ->
  exists r, o_update (decay_update wd) u s (Some p) = Ok (r, s) /\ alike u r /\
  forall q g x, leaf_at u q g -> leaf_at p q x -> leaf_at r q (add g (scale (wd (join q)) x)).
Proof using.
  intros E W N A. destruct (alike_zip _ _ _ A) as [t T]. destruct (T []) as [T1 T2].
  assert (TN : exists ts, t = Node ts) by (destruct t; [subst; discriminate|eauto]). destruct TN as [ts TN].
  assert (AT : alike u t) by (rewrite <- T1; apply alike_sym, alike_mapt).
  assert (Wt := alike_wf no_slash _ _ _ AT W). assert (Nt := alike_nonempty _ _ _ AT N).
  set (h := fun k gp => add (fst gp) (scale (wd k) (snd gp))).
  destruct (rebuild_map h t ts TN Wt Nt) as (fl & FL & R).
  assert (FL' : fl = flat_ [] t) by (subst t; simpl in FL; apply Ok_inj in FL; auto).
  exists (mapt (fun q => h (join q)) [] t).
  assert (UP : o_update (decay_update wd) u s (Some p) = Ok (mapt (fun q => h (join q)) [] t, s)).
  { simpl. assert (FU : flat u = Ok (mapsnd fst fl)) by (rewrite (flat_node _ _ E), FL', <- T1; f_equal; apply (flat_mapt fst t [] [])).
    assert (FP : flat p = Ok (mapsnd snd fl)).
    { assert (PN : exists ds, p = Node ds) by (subst t p; simpl; eauto). destruct PN as [ds PN]. rewrite (flat_node _ _ PN), FL', <- T2. f_equal. apply (flat_mapt snd t [] []). }
    rewrite FU, FP. simpl. unfold mapsnd. rewrite !map_map. simpl. rewrite safe_map3_map. simpl.
    assert (RB : rebuild u (map (fun kv => (fst kv, h (fst kv) (snd kv))) fl) = Ok (mapt (fun q => h (join q)) [] t)).
    { rewrite <- R. unfold rebuild. destruct (unflatten_dict _); simpl; auto. eapply from_state_alike; eauto. }
    unfold h in RB at 1. rewrite RB. auto. }
  split; [exact UP|]. split; [eapply alike_trans; [exact AT|apply alike_mapt]|].
  intros q g x Lg Lx. destruct (related_true_leaf _ _ _ AT _ _ Lg) as [[g' x'] Lt].
  assert (L1 := mapt_leaf (fun _ => fst) t [] q _ Lt). rewrite T1 in L1. simpl in L1.
  assert (L2 := mapt_leaf (fun _ => snd) t [] q _ Lt). rewrite T2 in L2. simpl in L2.
  assert (g' = g) by (eapply (leaf_unique no_slash u); eauto). subst g'.
  assert (x' = x) by (eapply (leaf_unique no_slash p); eauto; eapply alike_wf; eauto). subst x'.
  apply (mapt_leaf (fun q => h (join q)) t [] q _ Lt).
Qed.

Lemma scaling_ok scales (u : tree V) s p cs : u = Node cs -> wf no_slash u -> nonempty u ->
  exists r, o_update (gradient_scaling scales) u s p = Ok (r, s) /\ alike u r /\
  forall q g, leaf_at u q g -> leaf_at r q (match scales with [] => g | _ => scale (first_value scales (join q) one) g end).
Proof using.
  intros E W N. destruct scales as [|sc scales].
  - exists u. repeat split; auto. apply alike_refl.
  - destruct (rebuild_map (fun k g => scale (first_value (sc :: scales) k one) g) u cs E W N) as (fl & FL & R).
    eexists. unfold OptModel.gradient_scaling. cbn [OptModel.o_update]. rewrite FL. cbn [bind]. rewrite R. cbn [bind]. split; [reflexivity|]. split; [apply alike_mapt|].
    intros q g L. apply (mapt_leaf (fun q g => scale (first_value (sc :: scales) (join q) one) g) u [] q g L).
Qed.

Notation decayed := (decayed regex search V F add scale zero is_zero).
Lemma c33_decay d (u p : tree V) s cs : u = Node cs -> wf no_slash u -> nonempty u -> alike u p ->
  exists r, o_update (add_decayed_weights d) u s (Some p) = Ok (r, s) /\ alike u r /\
  forall q g x, leaf_at u q g -> leaf_at p q x -> exists y, leaf_at r q y /\ decayed d (join q) g x y.
Proof using.
  intros E W N A. assert (ID : exists r, o_update identity u s (Some p) = Ok (r, s) /\ alike u r /\
    forall q g x, leaf_at u q g -> leaf_at p q x -> exists y, leaf_at r q y /\ y = g).
  { exists u. split; [auto|]. split; [apply alike_refl|eauto]. }
  destruct d as [|w|[|rv l]]; simpl add_decayed_weights; auto.
  - unfold OptSpec.decayed. destruct (is_zero w); auto. destruct (decay_ok (fun _ => w) u p s cs E W N A) as (r & R1 & R2 & R3).
    exists r. split; [exact R1|]. split; auto. intros. eexists. split; [apply R3; eauto|auto].
  - destruct (decay_ok (fun k => first_value (rv :: l) k zero) u p s cs E W N A) as (r & R1 & R2 & R3).
    exists r. split; [exact R1|]. split; auto. intros. eexists. split; [apply R3; eauto|]. unfold OptSpec.decayed. eexists. split; [apply first_value_match|auto].
Qed.
Lemma c33_scaling scales (u : tree V) s p cs : u = Node cs -> wf no_slash u -> nonempty u ->
  exists r, o_update (gradient_scaling scales) u s p = Ok (r, s) /\ alike u r /\
  forall q g, leaf_at u q g -> exists y, leaf_at r q y /\
    (scales = [] -> y = g) /\ (scales <> [] -> exists w, first_match scales one (join q) w /\ y = scale w g).
Proof using.
  intros E W N. destruct (scaling_ok scales u s p cs E W N) as (r & R1 & R2 & R3). exists r. split; [auto|]. split; [auto|].
  intros q g L. eexists. split; [apply R3; eauto|]. destruct scales as [|sc l]; split; intros H; try congruence.
  eexists. split; [apply first_value_match|auto].
Qed.

(** ** Totality of training *)
Section Total.
Variable params0 : tree V.
Variable cs0 : list (str * tree V).
Hypothesis E0 : params0 = Node cs0.
Hypothesis W0 : wf no_slash params0.
Hypothesis N0 : nonempty params0.
Notation keeps := (keeps_keys params0).

Lemma alike_node (u : tree V) : alike params0 u -> exists cs, u = Node cs.
Proof using E0. intros A. rewrite E0 in A. inversion A; eauto. Qed.
Lemma like_to (u p : tree V) : alike params0 u -> alike params0 p -> alike u p.
Proof using. intros A B. eapply alike_trans; [apply alike_sym; exact A|exact B]. Qed.

Lemma keeps_identity : keeps identity.
Proof using. split; simpl; eauto. Qed.
Lemma keeps_scaling scales : keeps (gradient_scaling scales).
Proof using E0 W0 N0.
  split; [destruct scales; simpl; eauto|]. intros u s p A B. destruct (alike_node _ A) as [cs E].
  destruct (scaling_ok scales u s (Some p) cs E (alike_wf _ _ _ _ A W0) (alike_nonempty _ _ _ A N0)) as (r & R1 & R2 & _).
  exists r, s. split; [exact R1|exact (alike_trans _ _ _ _ A R2)].
Qed.
Lemma keeps_decay d : keeps (add_decayed_weights d).
Proof using E0 W0 N0.
  split; [destruct d as [|w|[|]]; simpl; eauto; destruct (is_zero w); simpl; eauto|]. intros u s p A B. destruct (alike_node _ A) as [cs E].
  destruct (c33_decay d u p s cs E (alike_wf _ _ _ _ A W0) (alike_nonempty _ _ _ A N0) (like_to _ _ A B)) as (r & R1 & R2 & _).
  exists r, s. split; [exact R1|exact (alike_trans _ _ _ _ A R2)].
Qed.
Lemma keeps_freeze f t fr : freeze_weights f t = Ok fr -> keeps fr.
Proof using E0 W0 N0.
  assert (M : forall ps bt bf, keeps (masked_zero (frozen_fn ps bt bf))).
  { intros ps bt bf. split.
    - intros p A. destruct (alike_node _ A) as [cs E]. simpl. rewrite (frozen_fn_ok _ _ _ _ _ _ _ _ E (alike_wf _ _ _ _ A W0) (alike_nonempty _ _ _ A N0)). simpl. eauto.
    - intros u s p A B. destruct (alike_node _ A) as [cs E]. simpl. rewrite (frozen_fn_ok _ _ _ _ _ _ _ _ E (alike_wf _ _ _ _ A W0) (alike_nonempty _ _ _ A N0)). cbn [bind].
      set (m := mapt _ _ _). assert (Wm : wf no_slash m) by (apply wf_mapt; eapply alike_wf; eauto).
      destruct (tree_map2_total no_slash (fun (b : bool) u => if b then zeros_like u else u) m u [] (alike_sym _ _ _ (alike_mapt _ u)) Wm) as [r R].
      rewrite R. cbn [bind]. exists r, s. split; auto. destruct (tree_map2_ok _ no_slash _ _ _ [] R Wm) as (_ & _ & Q & _).
      eapply alike_trans; [exact A|]. eapply alike_trans; [apply alike_mapt|exact Q]. }
  unfold OptModel.freeze_weights. destruct f, t; intros H; try discriminate; apply Ok_inj in H; subst fr; auto using keeps_identity.
Qed.

Lemma keeps_clipping a b cl : gradient_clipping V F state is_zero empty_state clip_by_global_norm clip a b = Ok cl ->
  (forall x, keeps (clip_by_global_norm x)) -> (forall x, keeps (clip x)) -> keeps cl.
Proof using.
  unfold gradient_clipping. intros H A B. destruct (truthy _ _ a), (truthy _ _ b); try discriminate; apply Ok_inj in H; subst cl; auto using keeps_identity.
Qed.

Lemma chain_total ops : Forall keeps ops -> forall u st p, length st = length ops -> alike params0 u -> alike params0 p ->
  exists u' st', chain_update ops u st (Some p) = Ok (u', st') /\ length st' = length ops /\ alike params0 u'.
Proof using.
  induction 1 as [|o ops K _ IH]; intros u st p L A B; destruct st as [|s st]; try discriminate; simpl.
  - eauto.
  - destruct (proj2 K u s p A B) as (u1 & s1 & -> & A1). simpl. destruct (IH u1 st p ltac:(simpl in L; lia) A1 B) as (u2 & s2 & -> & L2 & A2).
    simpl. exists u2, (s1 :: s2). simpl. repeat split; auto.
Qed.

Lemma train_total ops : Forall keeps ops -> forall gs params st, length st = length ops -> alike params0 params ->
  Forall (alike params0) gs -> exists r, train ops gs (params, st) = Ok r.
Proof using W0.
  intros K gs. induction gs as [|g gs IH]; intros params st L A G; unfold OptModel.train; simpl; [eauto|].
  assert (G1 := Forall_inv G). assert (G2 := Forall_inv_tail G). unfold OptModel.apply_gradients at 1. cbn [fst snd].
  destruct (chain_total ops K g st params L G1 A) as (u & st' & -> & L' & A'). cbn [bind fst snd].
  assert (Wp := alike_wf no_slash _ _ _ A W0).
  destruct (tree_map2_total no_slash add params u [] (like_to _ _ A A') Wp) as [r R]. rewrite R. cbn [bind].
  destruct (tree_map2_ok _ no_slash _ _ _ [] R Wp) as (_ & _ & Q & _). apply IH; auto. exact (alike_trans _ _ _ _ A Q).
Qed.

Lemma c32_total c : (forall x, keeps (clip_by_global_norm x)) -> (forall x, keeps (clip x)) -> (forall n, keeps (optimizer n)) ->
  (exists lr, scale_by_learning_rate _ _ _ _ c = Ok lr /\ keeps lr) -> name _ _ _ _ c <> OtherName ->
  truthy F is_zero (clip_norm _ _ _ _ c) = None \/ truthy F is_zero (clip_value _ _ _ _ c) = None ->
  frozen _ _ _ _ c = [] \/ trainable _ _ _ _ c = [] ->
  forall gs, Forall (alike params0) gs ->
  exists ops st r, create c = Ok ops /\ chain_init ops params0 = Ok st /\ train ops gs (params0, st) = Ok r.
Proof using E0 W0 N0.
  intros K1 K2 K3 (lr & E & K4) NM CL FR gs G.
  assert (C : exists cl, gradient_clipping V F state is_zero empty_state clip_by_global_norm clip (clip_norm _ _ _ _ c) (clip_value _ _ _ _ c) = Ok cl).
  { unfold gradient_clipping. destruct CL as [-> | ->]; [destruct (truthy _ _ _); eauto|destruct (truthy _ _ _); eauto]. }
  destruct C as [cl C]. assert (KC := keeps_clipping _ _ _ C K1 K2).
  assert (Fz : exists fr, freeze_weights (frozen _ _ _ _ c) (trainable _ _ _ _ c) = Ok fr).
  { unfold OptModel.freeze_weights. destruct FR as [-> | ->]; [destruct (trainable _ _ _ _ c); eauto|destruct (frozen _ _ _ _ c); eauto]. }
  destruct Fz as [fr Fz]. assert (KF := keeps_freeze _ _ _ Fz).
  set (ops := [gradient_scaling (gradient_scale _ _ _ _ c); cl; optimizer (name _ _ _ _ c); add_decayed_weights (weight_decay _ _ _ _ c); lr; fr]).
  assert (CR : create c = Ok ops).
  { unfold create_optimizer. rewrite C. cbn [bind]. unfold ops. destruct (name _ _ _ _ c); try congruence; rewrite E; cbn [bind]; rewrite Fz; auto. }
  assert (K : Forall keeps ops) by (repeat constructor; try apply K3; auto; try apply keeps_scaling; try apply keeps_decay; try apply KC; try apply K4; try apply KF).
  assert (I : exists st, chain_init ops params0 = Ok st).
  { apply rmap_total. intros o Ho. rewrite Forall_forall in K. apply (K _ Ho). apply alike_refl. }
  destruct I as [st I]. assert (L : length st = length ops) by (unfold OptModel.chain_init in I; apply rmap_ok in I; apply Forall2_len in I; auto).
  destruct (train_total ops K gs params0 st L (alike_refl _ _) G) as [r R]. eauto 10.
Qed.
End Total.
End Optimizer.
