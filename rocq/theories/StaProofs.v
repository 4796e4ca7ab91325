(** Proofs of C81. *)
From Coq Require Import List Arith ZArith Bool Permutation Lia.
From Verif Require Import Py PyLemmas TreeModel TreeSpec TreeProofs TreeProofs2 TreeProofs3 MapModel MapSpec MapProofs MapProofs2 MapProofs3 StaModel StaSpec.
Import ListNotations.
Local Open Scope nat_scope.

Lemma inb_in k l : inb_str k l = true <-> In k l.
Proof.
  unfold inb_str. rewrite existsb_exists. split.
  - intros [x [I E]]. destruct (str_eqb_spec k x); [subst; auto|discriminate].
  - intros I. exists k. split; [exact I|apply str_eqb_refl].
Qed.
Lemma dset_keys {W} (d : list (str * W)) k v : In k (map fst d) -> map fst (dset d k v) = map fst d.
Proof. induction d as [|[k' w] d IH]; [contradiction|]. intros H. simpl. destruct (str_eqb_spec k' k) as [->|N]; [reflexivity|]. simpl. f_equal. apply IH. destruct H as [H|H]; [exfalso; apply N; exact H|exact H]. Qed.
Lemma dupdate_keys {W} (e : list (str * W)) : forall d, (forall k, In k (map fst e) -> In k (map fst d)) -> map fst (dupdate d e) = map fst d.
Proof.
  induction e as [|[k v] e IH]; intros d H; [reflexivity|]. unfold dupdate in *. cbn [fold_left fst snd]. rewrite IH.
  - apply dset_keys. apply H. left; reflexivity.
  - intros q Hq. rewrite dset_keys by (apply H; left; reflexivity). apply H. right; exact Hq.
Qed.
Lemma dget_dupdate {W} (e : list (str * W)) : NoDup (map fst e) -> forall d k, dget (dupdate d e) k = match dget e k with Some v => Some v | None => dget d k end.
Proof.
  induction e as [|[q v] e IH]; intros N d k; [reflexivity|]. cbn [map fst] in N. inversion N as [|? ? NI N']; subst. unfold dupdate in *. cbn [fold_left fst snd]. rewrite IH by auto.
  rewrite dget_dset. cbn [dget]. destruct (str_eqb_spec q k) as [->|]; [|reflexivity]. rewrite dget_none by auto. reflexivity.
Qed.
Lemma dict_form {W} (d : list (str * W)) : NoDup (map fst d) -> forall g, (forall k v, In (k, v) d -> dget d k = Some v -> g k = v) -> d = map (fun k => (k, g k)) (map fst d).
Proof. intros N g H. rewrite map_map. rewrite <- (map_id d) at 1. apply map_ext_in. intros [k v] I. cbn [fst]. f_equal. symmetry. apply H; auto. apply dget_in; auto. Qed.
Lemma dget_filter {W} (f : str -> bool) (d : list (str * W)) k : dget (filter (fun kv => f (fst kv)) d) k = if f k then dget d k else None.
Proof.
  induction d as [|[q v] d IH]; [destruct (f k); reflexivity|]. cbn [filter fst dget]. destruct (f q) eqn:E; cbn [dget]; destruct (str_eqb_spec q k) as [->|]; rewrite ?IH, ?E; auto.
Qed.
Lemma dget_map {W Z} (f : W -> Z) (d : list (str * W)) k : dget (map (fun kv => (fst kv, f (snd kv))) d) k = option_map f (dget d k).
Proof. induction d as [|[q v] d IH]; [reflexivity|]. cbn. destruct (str_eqb q k); auto. Qed.
Lemma filter_keys_nodup {W} (f : str * W -> bool) (d : list (str * W)) : NoDup (map fst d) -> NoDup (map fst (filter f d)).
Proof.
  induction d as [|x d IH]; intros N; [constructor|]. cbn [map] in N. inversion N as [|? ? NI N']; subst. cbn [filter]. destruct (f x); auto. cbn [map]. constructor; auto.
  intros I. apply NI. apply in_map_iff in I. destruct I as [y [E I]]. apply filter_In in I. apply in_map_iff. exists y. tauto.
Qed.

Section State.
Variable V D : Type.
Notation item := (item V D).
Notation create := (create_or_reuse_train_state V D).

Lemma flatten_node {L} (cs : list (str * tree L)) : exists f, flatten_dict (Node cs) = Ok f.
Proof. eexists. reflexivity. Qed.
Definition lift (v : flatv V) : flatv item := match v with FLeaf v => FLeaf (Array v) | FEmpty => FEmpty end.

(** The flat values of a tree *)
Lemma flat_get {L} (t : tree L) f : wf no_slash t -> flatten_dict t = Ok f -> forall p x, leaf_at t p x -> dget f (join p) = Some (FLeaf x).
Proof. intros W E p x H. destruct (flat_spec _ _ W E) as [_ [G _]]. apply G. eauto. Qed.

Lemma create_ok (ts : tree item) kc cs fresh : ts = Node (kc :: cs) -> wf no_slash ts -> wf no_slash fresh -> (exists cf, fresh = Node cf) ->
  (forall p, missing V D ts p -> exists v, leaf_at fresh p v) ->
  exists r, create ts (Ok fresh) = Ok r /\ related (reused V D fresh) [] ts r.
Proof.
  intros E W Wf [cf Ef] H. unfold create_or_reuse_train_state.
  destruct (flatten_node (kc :: cs)) as [f Hf]. rewrite <- E in Hf. rewrite Hf. cbn [bind].
  destruct (flatten_node cf) as [n Hn]. rewrite <- Ef in Hn. rewrite Hn. cbn [bind].
  set (out := map fst (filter (fun kv => is_struct V D (snd kv)) f)).
  set (new := filter (fun kv => inb_str (fst kv) out) n).
  destruct (flat_spec _ _ W Hf) as [Nf [Gf Ff]]. destruct (flat_spec _ _ Wf Hn) as [Nn [Gn _]]. specialize (Ff kc cs E).
  assert (Nnew : NoDup (map fst new)) by (apply filter_keys_nodup; auto).
  assert (OUT : forall k, In k out -> exists p s d, leaf_at ts p (Struct s d) /\ k = join p /\ dget f k = Some (FLeaf (Struct s d))).
  { intros k I. unfold out in I. apply in_map_iff in I. destruct I as [[k' v] [<- I]]. apply filter_In in I. destruct I as [I S]. cbn [snd fst] in *.
    destruct v as [[v|s d]|]; try discriminate. assert (Dg := dget_in _ _ _ Nf I). assert (Dg' := Dg). apply Gf in Dg. destruct Dg as [p [L ->]]. exists p, s, d. auto. }
  assert (OUT2 : forall p s d, leaf_at ts p (Struct s d) -> In (join p) out).
  { intros p s d L. unfold out. apply in_map_iff. exists (join p, FLeaf (Struct s d)). split; [reflexivity|]. apply filter_In. split; [|reflexivity].
    rewrite Ff. apply in_map_iff. exists (p, FLeaf (Struct s d)). split; [reflexivity|]. apply leaf_paths. exact L. }
  assert (NEW : forall k, dget new k = if inb_str k out then dget n k else None) by (intros k; unfold new; apply (dget_filter (fun k => inb_str k out))).
  assert (ALL : forallb (fun k => inb_str k (map fst new)) out = true).
  { apply forallb_forall. intros k I. apply inb_in. destruct (OUT k I) as (p & s & d & L & -> & _). destruct (H p ltac:(exists s, d; exact L)) as [v Lv].
    assert (G : dget new (join p) = Some (FLeaf v)). { rewrite NEW. rewrite (proj2 (inb_in _ _) I). apply (flat_get _ _ Wf Hn); auto. }
    apply dget_some_in in G. apply in_map_iff. exists (join p, FLeaf v). auto. }
  rewrite ALL.
  set (e := map (fun kv => (fst kv, match snd kv with FLeaf v => FLeaf (Array v) | FEmpty => FEmpty end)) new).
  assert (Ne : NoDup (map fst e)) by (unfold e; rewrite map_map; cbn [fst]; exact Nnew).
  assert (Ke : forall k, In k (map fst e) -> In k (map fst f)).
  { intros k I. unfold e in I. rewrite map_map in I. cbn [fst] in I. apply in_map_iff in I. destruct I as [kv [<- I]]. unfold new in I. apply filter_In in I. destruct I as [_ I].
    apply inb_in in I. destruct (OUT _ I) as (p & s & d & L & -> & Dg). apply dget_some_in in Dg. apply in_map_iff. eexists. split; [|exact Dg]. reflexivity. }
  assert (De : forall k, dget e k = option_map lift (dget new k)) by (intros k; unfold e; apply (dget_map lift)).
  set (g := fun p (x : item) => match x with Array v => Array v | Struct _ _ => match dget n (join p) with Some (FLeaf v) => Array v | _ => x end end).
  assert (P : dupdate f e = map (fun qv => (join (fst qv), mapv g (fst qv) (snd qv))) (paths ts)).
  { assert (K : map fst (dupdate f e) = map fst f) by (apply dupdate_keys; exact Ke).
    assert (N2 : NoDup (map fst (dupdate f e))) by (rewrite K; exact Nf).
    transitivity (map (fun k => (k, match dget (dupdate f e) k with Some v => v | None => FEmpty end)) (map fst f)).
    - rewrite <- K. apply dict_form; auto. intros k v _ Q. rewrite Q. reflexivity.
    - assert (Kf : map fst f = map (fun qv => join (fst qv)) (paths ts)) by (rewrite Ff, map_map; reflexivity). rewrite Kf, map_map. cbn [fst]. apply map_ext_in. intros [p v] I. cbn [fst snd]. f_equal.
      rewrite dget_dupdate by exact Ne. rewrite De, NEW.
      assert (Dp : dget f (join p) = Some v). { apply dget_in; auto. rewrite Ff. apply in_map_iff. exists (p, v). split; [reflexivity|exact I]. }
      destruct v as [[v|s d]|]; cbn [mapv].
      + destruct (inb_str (join p) out) eqn:I2; [|cbn [option_map]; rewrite Dp; reflexivity]. apply inb_in in I2. destruct (OUT _ I2) as (p' & s & d & L & Ej & Dg). rewrite Dg in Dp. discriminate.
      + assert (L : leaf_at ts p (Struct s d)) by (apply leaf_paths; exact I). rewrite (proj2 (inb_in _ _) (OUT2 p s d L)).
        destruct (H p ltac:(exists s, d; exact L)) as [w Lw]. rewrite (flat_get _ _ Wf Hn p w Lw). cbn [option_map lift g]. rewrite (flat_get _ _ Wf Hn p w Lw). reflexivity.
      + destruct (inb_str (join p) out) eqn:I2; [|cbn [option_map]; rewrite Dp; reflexivity]. apply inb_in in I2. destruct (OUT _ I2) as (p' & s & d & L & Ej & Dg). rewrite Dg in Dp. discriminate. }
  exists (mapt g [] ts). split.
  - apply (unflatten_any g ts kc cs _ E W). rewrite P. apply Permutation_refl.
  - apply related_mapt. apply Forall_forall. intros [p v] I. cbn [fst snd app]. destruct v as [[v|s d]|]; cbn; auto.
    assert (L : leaf_at ts p (Struct s d)) by (apply leaf_paths; exact I). destruct (H p ltac:(exists s, d; exact L)) as [w Lw].
    rewrite (flat_get _ _ Wf Hn p w Lw). eauto.
Qed.
Lemma create_missing (ts : tree item) cs fresh p : ts = Node cs -> wf no_slash ts -> wf no_slash fresh -> (exists cf, fresh = Node cf) ->
  missing V D ts p -> (forall v, ~ leaf_at fresh p v) -> nonempty fresh ->
  create ts (Ok fresh) = Raise ValueError.
Proof.
  intros E W Wf [cf Ef] [s [d L]] H NE0.
  assert (NE : forall p', ~ In (p', FEmpty) (paths fresh)) by (intros p' I; pose proof (nonempty_paths fresh NE0) as F; rewrite Forall_forall in F; apply (F _ I); reflexivity).
  unfold create_or_reuse_train_state.
  destruct (flatten_node cs) as [f Hf]. rewrite <- E in Hf. rewrite Hf. cbn [bind].
  destruct (flatten_node cf) as [n Hn]. rewrite <- Ef in Hn. rewrite Hn. cbn [bind].
  set (out := map fst (filter (fun kv => is_struct V D (snd kv)) f)).
  assert (I : In (join p) out).
  { unfold out. apply in_map_iff. exists (join p, FLeaf (Struct s d)). split; [reflexivity|]. apply filter_In. split; [|reflexivity]. apply dget_some_in. apply (flat_get _ _ W Hf); auto. }
  destruct (forallb _ out) eqn:A; [|reflexivity]. exfalso. rewrite forallb_forall in A. specialize (A _ I). apply inb_in in A. apply in_map_iff in A. destruct A as [[k v] [Ek J]]. cbn [fst] in Ek. subst k.
  apply filter_In in J. destruct J as [J _]. destruct (flat_spec _ _ Wf Hn) as [Nn [Gn Fn]].
  assert (P1 : p <> [] /\ Forall no_slash p).
  { split; [intros ->; subst ts; inversion L|]. apply leaf_paths in L. pose proof (paths_noslash _ W) as F. rewrite Forall_forall in F. apply (F _ L). }
  destruct cf as [|c0 cf]; [subst fresh; cbn in Hn; injection Hn as <-; contradiction|].
  rewrite (Fn c0 cf Ef) in J. apply in_map_iff in J. destruct J as [[q w] [Eq J]]. cbn [fst snd] in Eq. injection Eq as Eq ->.
  assert (P2 : q <> [] /\ Forall no_slash q).
  { split.
    - pose proof (paths_list_nonempty_paths (c0 :: cf)) as F. rewrite <- paths_node in F by discriminate. rewrite <- Ef in F. rewrite Forall_forall in F. apply (F _ J).
    - pose proof (paths_noslash _ Wf) as F. rewrite Forall_forall in F. apply (F _ J). }
  apply join_inj in Eq; try tauto. subst q. destruct v as [v|]; [apply (H v); apply leaf_paths; exact J|apply (NE p J)].
Qed.

(** *** restore_or_create *)
Variable shape_of : V -> list nat.
Variable dtype_of : V -> D.
Notation eval_shape := (eval_shape V D shape_of dtype_of).
Notation restore := (restore_or_create_train_state V D shape_of dtype_of).
Lemma eval_shape_mapt t : forall p, eval_shape t = mapt (fun _ v => Struct (shape_of v) (dtype_of v)) p t.
Proof. induction t as [x|cs IH] using tree_ind'; intros p; [reflexivity|]. cbn [StaModel.eval_shape mapt]. f_equal. apply map_ext_in. intros kc I. rewrite Forall_forall in IH. f_equal. apply IH; auto. Qed.
Lemma eval_leaf t p x : leaf_at (eval_shape t) p x <-> exists v, leaf_at t p v /\ x = Struct (shape_of v) (dtype_of v).
Proof.
  rewrite (eval_shape_mapt t []), leaf_paths, paths_mapt. cbn [app]. rewrite in_map_iff. split.
  - intros [[q w] [E I]]. cbn [fst snd] in E. injection E as -> E. destruct w as [v|]; [|discriminate]. cbn [mapv] in E. injection E as <-. exists v. split; auto. apply leaf_paths; auto.
  - intros [v [L ->]]. exists (p, FLeaf v). split; [reflexivity|]. apply leaf_paths; auto.
Qed.
Lemma related_flip {L M} (R : list str -> L -> M -> Prop) : forall t p r, related R p t r -> forall {N} (Q : list str -> M -> N -> Prop) u, related Q p r u ->
  related (fun p x z => exists y, R p x y /\ Q p y z) p t u.
Proof.
  induction t as [x|cs IH] using tree_ind'; intros p r H N Q u G; inversion H; subst; inversion G; subst; constructor; eauto.
  clear H G. match goal with A : Forall2 _ cs ?d, B : Forall2 _ ?d ?e |- _ => rename d into ds; rename e into es; rename A into FA; rename B into FB end.
  revert es FB. induction FA as [|c d cs ds [E1 H1] F IHF]; intros es FB; inversion FB as [|? e ? es' [E2 H2] FB']; subst; constructor.
  - inversion IH; subst. split; [congruence|]. rewrite <- E1 in H2. eapply H3; eauto.
  - apply IHF; auto. inversion IH; auto.
Qed.
Lemma related_impl {L M} (R Q : list str -> L -> M -> Prop) : forall t p r, related R p t r -> (forall q x y, leaf_at t q x -> R (p ++ q) x y -> Q (p ++ q) x y) -> related Q p t r.
Proof.
  induction t as [x|cs IH] using tree_ind'; intros p r H G; inversion H; subst; constructor.
  - specialize (G [] x y). rewrite app_nil_r in G. apply G; [constructor|auto].
  - match goal with A : Forall2 _ cs ?d |- _ => rename d into ds; rename A into FA end. clear H.
    assert (G' : forall k c, In (k, c) cs -> forall q x y, leaf_at c q x -> R (p ++ k :: q) x y -> Q (p ++ k :: q) x y) by (intros k c I q x y HL; apply G; econstructor; eauto). clear G.
    induction FA as [|c d cs ds [E1 H1] F IHF]; constructor.
    + split; [exact E1|]. inversion IH; subst. apply (H2 _ _ H1). intros q x y HL HR. destruct c as [k c]. cbn [fst snd] in *. rewrite <- app_assoc in *. cbn [app] in *. apply (G' k c); auto. left; reflexivity.
    + inversion IH; subst. apply IHF; auto. intros k c' I. apply G'. right; exact I.
Qed.
Lemma related_unmapt {L M N} (f : list str -> L -> M) (Q : list str -> M -> N -> Prop) : forall t p u, related Q p (mapt f p t) u -> related (fun p x z => Q p (f p x) z) p t u.
Proof.
  induction t as [x|cs IH] using tree_ind'; intros p u H; cbn [mapt] in H; inversion H; subst; constructor; auto.
  match goal with A : Forall2 _ _ ?d |- _ => rename d into ds; rename A into FA end. clear H. revert ds FA.
  induction cs as [|c cs IHc]; intros ds FA; inversion FA as [|? d ? ds' [E1 H1] F']; subst; constructor.
  - cbn [fst snd] in *. inversion IH; subst. auto.
  - inversion IH; subst. auto.
Qed.
Lemma wf_eval P t : wf P t -> wf P (eval_shape t).
Proof. rewrite (eval_shape_mapt t []). apply wf_mapt. Qed.
Lemma restore_latest state i fresh init : exists r, restore (Some (state, i)) (Ok fresh) init = Ok (r, Some i) /\ as_arrays V D state r.
Proof.
  unfold restore_or_create_train_state. cbn [bind]. eexists. split; [reflexivity|]. unfold as_arrays. generalize (@nil str). induction state as [v|cs IH] using tree_ind'; intros p; constructor; [reflexivity|].
  induction IH as [|kc cs H F IHF]; constructor; auto.
Qed.
Lemma restore_fresh fresh kc cs : fresh = Node (kc :: cs) -> wf no_slash fresh -> exists r, restore None (Ok fresh) None = Ok (r, None) /\ as_arrays V D fresh r.
Proof.
  intros E W. unfold restore_or_create_train_state. cbn [bind].
  destruct (create_ok (eval_shape fresh) (fst kc, eval_shape (snd kc)) (map (fun kc => (fst kc, eval_shape (snd kc))) cs) fresh) as [r [Er Hr]].
  - subst fresh. reflexivity.
  - apply wf_eval; auto.
  - auto.
  - eauto.
  - intros p [s [d L]]. apply eval_leaf in L. destruct L as [v [L _]]. eauto.
  - exists r. rewrite Er. cbn [bind]. split; [reflexivity|]. rewrite (eval_shape_mapt fresh []) in Hr. apply related_unmapt in Hr.
    apply (related_impl _ _ _ _ _ Hr). intros q x y L [v [L2 ->]]. cbn [app] in *. f_equal.
    apply leaf_paths in L, L2. pose proof (paths_nodup _ _ W) as N.
    clear - N L L2. induction (paths fresh) as [|[a b] l IH]; [contradiction|]. cbn [map fst] in N. inversion N as [|? ? NI N']; subst.
    destruct L as [L|L], L2 as [L2|L2]; try congruence; auto.
    + exfalso. injection L as -> ->. apply NI. apply in_map_iff. eexists. split; [|exact L2]. reflexivity.
    + exfalso. injection L2 as -> ->. apply NI. apply in_map_iff. eexists. split; [|exact L]. reflexivity.
Qed.
End State.

(** *** Initialization from another checkpoint *)
Section Warm.
Variable pat : Type.
Variable search : pat -> str -> bool.
Variable sub : pat -> str -> str -> str.
Variable V D : Type.
Notation item := (item V D).
Variable dtype_eqb : D -> D -> bool.
Variable shape_of : item -> list nat.
Variable dtype_of : item -> D.
Variable astype : item -> D -> item.
Variable broadcast_to : item -> list nat -> res item.
Variable transform : kind -> item -> item -> res item.
Variable stack : Z -> list item -> res item.
Variable vshape : V -> list nat.
Variable vdtype : V -> D.
Notation map_state := (map_state_dict pat search sub item D dtype_eqb shape_of dtype_of astype broadcast_to transform stack).
Notation assigned := (assigned pat search sub item D shape_of dtype_of astype broadcast_to transform stack (fun _ => True)).
Lemma related_all {L M} (R : list str -> L -> M -> Prop) : forall t p r, related R p t r -> forall q y, leaf_at r q y -> exists x, leaf_at t q x /\ R (p ++ q) x y.
Proof.
  induction t as [x|cs IH] using tree_ind'; intros p r H q z HL; inversion H; subst; inversion HL; subst.
  - exists x. rewrite app_nil_r. split; [constructor|auto].
  - match goal with A : Forall2 _ cs _ |- _ => rename A into FA end. clear H HL.
    match goal with I : In (?k, ?c) ds |- _ => rename I into J end.
    assert (G : exists c', In (k, c') cs /\ related R (p ++ [k]) c' c).
    { clear IH. induction FA as [|a b cs ds [E1 H1] F IHF]; [contradiction|]. destruct J as [->|J].
      - destruct a as [k' c']. cbn [fst snd] in *. subst k'. exists c'. split; [left; reflexivity|exact H1].
      - destruct (IHF J) as [c' [I2 H2]]. exists c'. split; [right; exact I2|exact H2]. }
    destruct G as [c' [I2 H2]]. rewrite Forall_forall in IH. destruct (IH (k, c') I2 _ _ H2 _ _ ltac:(eassumption)) as [x [L2 HR]].
    exists x. rewrite <- app_assoc in HR. cbn [app] in HR. split; [econstructor; eauto|exact HR].
Qed.
Lemma related_wf {L M} (R : list str -> L -> M -> Prop) P : forall t p (r : tree M), related R p t r -> wf P t -> wf P r.
Proof.
  induction t as [x|cs IH] using tree_ind'; intros p r H W; inversion H; subst; [constructor|]. inversion W as [|? ND F]; subst.
  match goal with A : Forall2 _ cs _ |- _ => rename A into FA end. constructor.
  - replace (map fst ds) with (map fst cs); auto. clear - FA. induction FA as [|a b cs ds [E _] F IH]; [reflexivity|]. cbn. congruence.
  - clear H W ND. induction FA as [|a b cs ds [E H] F2 IHF]; constructor; inversion F; inversion IH; subst.
    + split; [rewrite <- E; tauto|]. eapply H6; eauto. tauto.
    + apply IHF; auto.
Qed.
Lemma assigned_array fl rules source p x y :
  (forall p x, leaf_at source p x -> is_array V D x) ->
  (forall a d, is_array V D a -> is_array V D (astype a d)) -> (forall a s b, is_array V D a -> broadcast_to a s = Ok b -> is_array V D b) ->
  (forall k a x b, is_array V D a -> transform k a x = Ok b -> is_array V D b) ->
  (forall axis l b, Forall (is_array V D) l -> l <> [] -> stack axis l = Ok b -> is_array V D b) ->
  assigned fl rules source p x y ->
  (y = x /\ raise_target fl = false /\ forall key s k, named_array item source key s -> ~ goes pat search sub rules key k (join p)) \/ is_array V D y.
Proof.
  intros As Hast Hb Ht Hs A.
  assert (FT : forall w x0 y0, is_array V D w -> fitted item D shape_of dtype_of astype broadcast_to fl w x0 y0 -> is_array V D y0).
  { intros w x0 y0 Hw [w1 [A1 A2]]. assert (is_array V D w1) by (destruct A1 as [[_ ->]|[_ [_ ->]]]; auto). destruct A2 as [[_ ->]|[_ [_ Hbr]]]; eauto. }
  inversion A as [N1 N2|key s k w y0 Nk G NS U T F|first t axis l w y0 ND O Hl Hst Hd G St F]; subst.
  - left. auto.
  - right. destruct Nk as [p0 [L0 _]]. apply As in L0. eapply FT; [|exact F]. destruct T as [[t [_ ->]]|[_ T]]; auto. eapply Ht; eauto.
  - right. eapply FT; [|exact F]. apply (Hs axis (map snd l)).
    + apply Forall_forall. intros z I. apply in_map_iff in I. destruct I as [[k z'] [<- I]]. apply Hl in I. destruct I as [[p0 [L0 _]] _]. apply (As _ _ L0).
    + intros Z. destruct l; discriminate.
    + exact St.
Qed.
Lemma warm_start fl rules (source : tree item) fresh kc cs r :
  (forall a b, reflect (a = b) (dtype_eqb a b)) ->
  wf no_slash source -> (forall p x, leaf_at source p x -> is_array V D x) ->
  (forall a d, is_array V D a -> is_array V D (astype a d)) -> (forall a s b, is_array V D a -> broadcast_to a s = Ok b -> is_array V D b) ->
  (forall k a x b, is_array V D a -> transform k a x = Ok b -> is_array V D b) ->
  (forall axis l b, Forall (is_array V D) l -> l <> [] -> stack axis l = Ok b -> is_array V D b) ->
  fresh = Node (kc :: cs) -> wf no_slash fresh ->
  restore_or_create_train_state V D vshape vdtype None (Ok fresh) (Some (map_state fl rules source)) = Ok (r, None) ->
  related (fun p v y => is_array V D y /\
     (assigned fl rules source p (Struct (vshape v) (vdtype v)) y \/
      (y = Array v /\ raise_target fl = false /\ forall key s k, named_array item source key s -> ~ goes pat search sub rules key k (join p)))) [] fresh r.
Proof.
  intros DT Ws As Hast Hb Ht Hs E Wf H. unfold restore_or_create_train_state in H. cbn [bind] in H.
  apply bind_ok in H. destruct H as [ts [Em H]]. apply bind_ok in H. destruct H as [r' [Ec H]]. apply Ok_inj in H. injection H as ->.
  assert (We : wf no_slash (eval_shape V D vshape vdtype fresh)) by (apply wf_eval; auto).
  assert (We' : wf (fun _ => True) (eval_shape V D vshape vdtype fresh)).
  { rewrite (eval_shape_mapt V D vshape vdtype fresh []). apply wf_mapt. clear - Wf. induction fresh as [x|l IH] using tree_ind'; [constructor|]. inversion Wf as [|? ND F0]; subst. constructor; auto.
    rewrite Forall_forall in *. intros kc0 I. split; auto. apply IH; auto. apply (F0 _ I). }
  destruct (map_only_matched pat search sub item D dtype_eqb shape_of dtype_of astype broadcast_to transform stack DT fl rules source _ ts Ws We' Em) as [Rm _].
  assert (Wts : wf no_slash ts) by (eapply related_wf; eauto).
  assert (Nts : exists c0 cs0, ts = Node (c0 :: cs0)).
  { subst fresh. cbn [StaModel.eval_shape map] in Rm. inversion Rm; subst. inversion H1; subst. eauto. }
  destruct Nts as (c0 & cs0 & Ets).
  destruct (create_ok V D ts c0 cs0 fresh Ets Wts Wf) as [r2 [E2 R2]]; [eauto| |].
  - intros p [s [d L]]. destruct (related_all _ _ _ _ Rm _ _ L) as [x [L2 _]]. apply eval_leaf in L2. destruct L2 as [v [L2 _]]. eauto.
  - rewrite E2 in Ec. apply Ok_inj in Ec. subst r2.
    assert (C := related_flip _ _ _ _ Rm _ _ R2). rewrite (eval_shape_mapt V D vshape vdtype fresh []) in C. apply related_unmapt in C.
    apply (related_impl _ _ _ _ _ C). intros q v y L [x [A B]]. cbn [app] in *.
    destruct (assigned_array fl rules source q _ x As Hast Hb Ht Hs A) as [[-> [RT NG]]|[w ->]].
    + cbn in B. destruct B as [w [Lw ->]].
      assert (w = v). { apply leaf_paths in L, Lw. pose proof (paths_nodup _ _ Wf) as N. clear - N L Lw. induction (paths fresh) as [|[a b] l IH]; [contradiction|]. cbn [map fst] in N. inversion N as [|? ? NI N']; subst.
        destruct L as [L|L], Lw as [L2|L2]; try congruence; auto; exfalso.
        - injection L as -> ->. apply NI. apply in_map_iff. eexists. split; [|exact L2]. reflexivity.
        - injection L2 as -> ->. apply NI. apply in_map_iff. eexists. split; [|exact L]. reflexivity. }
      subst w. split; [eexists; reflexivity|]. right. auto.
    + cbn in B. subst y. split; [eexists; reflexivity|]. left. exact A.
Qed.
End Warm.
