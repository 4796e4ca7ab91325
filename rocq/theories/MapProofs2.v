(** Proof of C28, continued. *)
From Coq Require Import List Arith ZArith Bool Lia Permutation.
From Verif Require Import Py PyLemmas TreeModel TreeSpec TreeProofs TreeProofs2 TreeProofs3 MapModel MapSpec MapProofs.
Import ListNotations.
Local Open Scope nat_scope.

Lemma leaf_at_paths {L} (t : tree L) q x : leaf_at t q x -> In (q, FLeaf x) (paths t).
Proof.
  induction 1 as [x|cs k c p x I H IH]. { simpl; auto. }
  rewrite paths_node; [|intros ->; destruct I]. unfold paths_list. apply in_flat_map. exists (k, c). split; auto.
  apply in_map_iff. exists (p, FLeaf x). auto.
Qed.
Lemma leaf_paths {L} (t : tree L) q x : leaf_at t q x <-> In (q, FLeaf x) (paths t).
Proof. split; [apply leaf_at_paths|apply paths_leaf_at]. Qed.

Lemma flat_spec {L} (t : tree L) fl : wf no_slash t -> flatten_dict t = Ok fl ->
  NoDup (map fst fl) /\ (forall key x, dget fl key = Some (FLeaf x) <-> exists p, leaf_at t p x /\ key = join p) /\
  (forall kc cs, t = Node (kc :: cs) -> fl = map (fun qv => (join (fst qv), snd qv)) (paths t)).
Proof.
  intros W E. destruct t as [y|[|kc cs]]; [discriminate| |].
  - injection E as <-. simpl. split; [constructor|]. split; [|discriminate]. intros key x. split; [discriminate|].
    intros [p [H _]]. inversion H; subst. contradiction.
  - unfold flatten_dict in E. rewrite (flatten_paths _ []) in E; eauto. apply Ok_inj in E. subst fl. cbn [app].
    assert (Pn : forall qv, In qv (paths (Node (kc :: cs))) -> fst qv <> [] /\ Forall no_slash (fst qv)).
    { pose proof (paths_noslash _ W) as F1. pose proof (paths_list_nonempty_paths (kc :: cs)) as F2. rewrite <- paths_node in F2 by discriminate.
      rewrite Forall_forall in *. auto. }
    assert (ND : NoDup (map fst (map (fun qv => (join (fst qv), snd qv)) (paths (Node (kc :: cs)))))).
    { rewrite map_map. cbn [fst]. rewrite <- map_map with (f := fst) (g := join). apply NoDup_map_inj; [|eapply paths_nodup; eauto].
      intros p q Ip Iq Ej. apply in_map_iff in Ip, Iq. destruct Ip as [a [<- Ia]], Iq as [b [<- Ib]].
      apply Pn in Ia, Ib. apply join_inj; tauto. }
    split; auto. split; [|auto]. intros key x. split.
    + intros D. apply dget_some_in in D. apply in_map_iff in D. destruct D as [[q v] [Eq I]]. simpl in Eq. injection Eq as <- ->.
      exists q. split; auto. apply leaf_paths. auto.
    + intros [p [H ->]]. apply dget_in; auto. apply leaf_paths in H. apply in_map_iff. exists (p, FLeaf x). auto.
Qed.

Section P.
Variable pat : Type.
Variable search : pat -> str -> bool.
Variable sub : pat -> str -> str -> str.
Variable array : Type.
Variable dtype : Type.
Variable dtype_eqb : dtype -> dtype -> bool.
Variable shape_of : array -> list nat.
Variable dtype_of : array -> dtype.
Variable astype : array -> dtype -> array.
Variable broadcast_to : array -> list nat -> res array.
Variable transform : kind -> array -> array -> res array.
Variable stack : Z -> list array -> res array.
Hypothesis dtype_eqb_spec : forall a b, reflect (a = b) (dtype_eqb a b).
Notation goes := (goes pat search sub).
Notation tx := (tx array).
Notation build := (build pat search sub array).
Notation apply_one := (apply_one array dtype dtype_eqb shape_of dtype_of astype broadcast_to transform stack).
Notation apply := (MapModel.apply array dtype dtype_eqb shape_of dtype_of astype broadcast_to transform stack).
Notation run_tx := (run_tx array transform stack).
Notation map_state_dict := (map_state_dict pat search sub array dtype dtype_eqb shape_of dtype_of astype broadcast_to transform stack).
Notation fitted := (fitted array dtype shape_of dtype_of astype broadcast_to).
Notation transformed := (transformed array transform).
Notation assigned := (assigned pat search sub array dtype shape_of dtype_of astype broadcast_to transform stack).
Notation named_array := (named_array array).
Notation hits := (hits pat search sub array).
Notation hit := (hit pat search sub array).
Notation dest := (dest pat search sub).
Notation inv := (inv pat search sub array).

Lemma apply_one_ok fl x y : apply_one fl x = Ok y <-> exists w, run_tx x = Ok w /\ fitted fl w (tx_target array x) y.
Proof.
  unfold MapModel.apply_one, MapSpec.fitted. set (t := tx_target array x). clearbody t. split.
  - intros E. apply bind_ok in E. destruct E as [w [Ew E]]. exists w. split; auto. apply bind_ok in E. destruct E as [w1 [E1 E]]. exists w1. split.
    + destruct (dtype_eqb_spec (dtype_of w) (dtype_of t)) as [Ed|Nd]; [apply Ok_inj in E1; auto|].
      right. destruct (raise_dtype fl); [discriminate|]. apply Ok_inj in E1. auto.
    + destruct (list_eq_dec _ _ _); [apply Ok_inj in E; auto|]. right. destruct (raise_shape fl); [discriminate|]. auto.
  - intros [w [-> [w1 [H1 H2]]]]. cbn [bind].
    assert (E1 : (if dtype_eqb (dtype_of w) (dtype_of t) then Ok w else if raise_dtype fl then Raise ValueError else Ok (astype w (dtype_of t))) = Ok w1).
    { destruct (dtype_eqb_spec (dtype_of w) (dtype_of t)); destruct H1 as [[? ->]|[? [Ef ->]]]; try contradiction; auto. rewrite Ef. auto. }
    rewrite E1. cbn [bind]. destruct (list_eq_dec _ _ _); destruct H2 as [[? ->]|[? [Ef H2]]]; try contradiction; auto. rewrite Ef. auto.
Qed.

Lemma run_tx1 k s t w : stacksb k = false -> run_tx (Tx1 array k s t) = Ok w <-> transformed k s t w.
Proof.
  intros B. unfold MapSpec.transformed. destruct k; simpl; try (split; [intros E; right; split; [congruence|auto]|intros [[? [? ?]]|[_ E]]; [discriminate|auto]]).
  split. { intros E. injection E as ->. left. eauto. } intros [[? [? ->]]|[H _]]; auto. destruct (H replacement); auto.
Qed.

(** One parameter. *)
Lemma described_assigned fl us rs source sf tf used txs q x (y : array) :
  Forall2 (fun u r => written pat u (r_pattern _ r) (r_kind _ r)) us rs -> NoDup (map fst sf) ->
  (forall key s, dget sf key = Some (FLeaf s) <-> named_array source key s) ->
  inv fl rs sf tf (natural_sort (map fst sf)) (used, txs) ->
  (raise_target fl = true -> In (join q) used) ->
  dget tf (join q) = Some (FLeaf x) ->
  match dget txs (join q) with Some t => apply_one fl t = Ok y | None => y = x end ->
  assigned (fun ks => exists f l, ks = filter f (natural_sort l)) fl us source q x y.
Proof.
  intros F ND Hs [Iu Io Is In_ Ia] Ru Dx Hy. set (d := join q) in *. cbn [fst snd] in *.
  assert (Hh : forall key, In key (hits rs sf (natural_sort (map fst sf)) d) <-> exists k s, dest rs key = Some (k, d) /\ dget sf key = Some (FLeaf s)).
  { intros key. unfold MapProofs.hits. rewrite filter_In. unfold MapProofs.hit. split.
    - intros [_ H]. destruct (dest rs key) as [[k d']|]; [|discriminate]. apply andb_true_iff in H. destruct H as [H1 H2]. apply str_eqb_eq in H1. subst d'.
      destruct (dget sf key) as [[s|]|]; try discriminate. eauto.
    - intros [k [s [E D]]]. split.
      + apply Permutation_in with (map fst sf); [apply Permutation_sym, natural_sort_perm|]. apply dget_some_in in D. apply in_map_iff. exists (key, FLeaf s). auto.
      + rewrite E, D, str_eqb_refl. auto. }
  specialize (Io d). destruct (dget txs d) as [t|] eqn:Dt.
  - destruct Io as [x' [Dx' De]]. assert (x' = x) by congruence. subst x'.
    apply apply_one_ok in Hy. destruct Hy as [w [Ew Fw]].
    destruct De as [[key [k [s [Eh [D [S [B ->]]]]]]]|[h [hs' [rep [a [ss [Eh [D [F2 [Fk ->]]]]]]]]]].
    + eapply as_single with (key := key) (s := s) (k := k).
      * apply Hs. auto.
      * eapply goes_dest; eauto.
      * intros St. apply stacksb_true in St. congruence.
      * intros key' s' k' N' G'. apply (goes_dest _ _ _ _ _ _ _ _ F) in G'. apply Hs in N'.
        assert (I : In key' [key]) by (rewrite <- Eh; apply Hh; eauto). destruct I as [->|[]]. auto.
      * apply run_tx1; eauto.
      * exact Fw.
    + set (l := combine (hits rs sf (natural_sort (map fst sf)) d) ss).
      assert (Len : length (hits rs sf (natural_sort (map fst sf)) d) = length ss) by (eapply Forall2_len; eauto).
      assert (Lf : map fst l = hits rs sf (natural_sort (map fst sf)) d).
      { apply map_fst_combine; auto. }
      assert (Ls : map snd l = ss).
      { apply map_snd_combine; auto. }
      assert (Li : forall key s, In (key, s) l -> dget sf key = Some (FLeaf s) /\ In key (hits rs sf (natural_sort (map fst sf)) d)).
      { intros key s I. split; [|rewrite <- Lf; apply in_map_iff; exists (key, s); auto]. unfold l in I. clear - F2 I.
        induction F2; simpl in I; [contradiction|]. destruct I as [I|I]; auto. congruence. }
      eapply as_stacked with (l := l) (first := h) (t := rep) (axis := a).
      * rewrite Lf. unfold MapProofs.hits. apply NoDup_filter. apply (Permutation_NoDup (Permutation_sym (natural_sort_perm _))). auto.
      * rewrite Lf. unfold MapProofs.hits. eauto.
      * intros key s. split.
        -- intros I. apply Li in I. destruct I as [I1 I2]. split; [apply Hs; auto|]. apply Hh in I2. destruct I2 as [k [s' [D' _]]]. exists k. eapply goes_dest; eauto.
        -- intros [N' [k G']]. apply (goes_dest _ _ _ _ _ _ _ _ F) in G'. apply Hs in N'.
           assert (I : In key (map fst l)) by (rewrite Lf; apply Hh; eauto). apply in_map_iff in I. destruct I as [[key' s'] [E I]]. simpl in E. subst key'.
           destruct (Li _ _ I) as [D' _]. congruence.
      * intros key s k I G. apply stacksb_true. apply (goes_dest _ _ _ _ _ _ _ _ F) in G. apply Li in I. destruct I as [_ I]. rewrite Forall_forall in Fk.
        destruct (Fk _ I) as [k' [D' B]]. congruence.
      * rewrite Lf, Eh. auto.
      * eapply goes_dest; eauto.
      * rewrite Ls. exact Ew.
      * exact Fw.
  - subst y. assert (NH : forall key k s, dest rs key = Some (k, d) -> dget sf key = Some (FLeaf s) -> False).
    { intros key k s E D. assert (I : In key []) by (rewrite <- Io; apply Hh; eauto). destruct I. }
    apply as_initialised.
    + intros key s k N G. apply (goes_dest _ _ _ _ _ _ _ _ F) in G. apply Hs in N. eauto.
    + destruct (raise_target fl); auto. exfalso. specialize (Ru eq_refl). apply Iu in Ru. destruct Ru as [key [k [I E]]].
      destruct (Ia _ _ _ I E) as [sv [tv [D [T Ev]]]]. assert (tv = FLeaf x) by congruence. subst tv. destruct sv as [s|]; [eauto|].
      destruct Ev as [Ev _]. discriminate (Ev eq_refl).
Qed.

Lemma apply_perm fl (target : tree array) kc cs txs tf fo : target = Node (kc :: cs) -> wf no_slash target -> flatten_dict target = Ok tf ->
  NoDup (map fst txs) -> (forall d x, In (d, x) txs -> exists t, dget tf d = Some (FLeaf t)) -> apply fl txs tf = Ok fo ->
  let f := fun q x => match dget fo (join q) with Some (FLeaf y) => y | _ => x end in
  Permutation fo (map (fun qv => (join (fst qv), mapv f (fst qv) (snd qv))) (paths target)) /\
  forall q x, leaf_at target q x -> match dget txs (join q) with Some t => apply_one fl t = Ok (f q x) | None => f q x = x end.
Proof.
  intros Et W Ef ND Hx E f. destruct (flat_spec _ _ W Ef) as [NT [HT Etf]]. specialize (Etf _ _ Et).
  unfold MapModel.apply in E. apply bind_ok in E. destruct E as [outs [Eo E]]. apply Ok_inj in E. apply rmap_ok in Eo.
  set (kept := filter (fun kv : str * flatv array => negb (inb_str (fst kv) (map fst txs))) tf) in *.
  assert (Ko : map fst outs = map fst txs).
  { clear - Eo. induction Eo as [|a b l l' H F IH]; simpl; auto. apply bind_ok in H. destruct H as [v [_ H]]. apply Ok_inj in H. subst b. simpl. congruence. }
  assert (Ho : forall d w, In (d, w) outs <-> exists t y, In (d, t) txs /\ apply_one fl t = Ok y /\ w = FLeaf y).
  { clear - Eo. intros d w. induction Eo as [|[k t] b l l' H F IH]; simpl. { split; [tauto|intros [? [? [[] _]]]]. }
    apply bind_ok in H. destruct H as [v [Hv H]]. apply Ok_inj in H. subst b. simpl in *. rewrite IH. split.
    - intros [I|[t' [y [I [A ->]]]]]; [|eauto 6]. injection I as <- <-. eauto 6.
    - intros [t' [y [[I|I] [A ->]]]]; [|eauto 6]. injection I as <- <-. left. congruence. }
  assert (Nk : NoDup (map fst kept)).
  { unfold kept. clear - NT. induction tf as [|[k v] l IH]; simpl in *; [constructor|]. inversion NT; subst. destruct (negb _); simpl; auto. constructor; auto.
    intros I. apply H1. apply in_map_iff in I. destruct I as [a [<- I]]. apply filter_In in I. apply in_map. tauto. }
  assert (NDo : NoDup (map fst (kept ++ outs))).
  { rewrite map_app, Ko. clear - Nk ND. assert (D : forall k, In k (map fst kept) -> ~ In k (map fst txs)).
    { intros k I J. apply in_map_iff in I. destruct I as [a [<- I]]. unfold kept in I. apply filter_In in I. destruct I as [_ I]. apply inb_str_true in J. rewrite J in I. discriminate. }
    revert Nk D. generalize (map fst kept). induction l as [|a l IH]; simpl; auto. intros N D. inversion N; subst. constructor; auto.
    intros I. apply in_app_or in I. destruct I as [I|I]; [auto|]. apply (D a); auto. }
  rewrite dupdate_new in E by auto. subst fo.
  assert (Dk : forall k v, In (k, v) (kept ++ outs) -> dget (kept ++ outs) k = Some v) by (intros; apply dget_in; auto).
  assert (Itf : forall k v, In (k, v) tf <-> exists q, In (q, v) (paths target) /\ k = join q).
  { intros k v. rewrite Etf, in_map_iff. split.
    - intros [[q v'] [Eq I]]. simpl in Eq. injection Eq as <- ->. eauto.
    - intros [q [I ->]]. exists (q, v). auto. }
  assert (Both : forall q v, In (q, v) (paths target) -> 
     (dget txs (join q) = None /\ In (join q, v) kept) \/
     exists x t y, v = FLeaf x /\ dget txs (join q) = Some t /\ apply_one fl t = Ok y /\ In (join q, FLeaf y) outs).
  { intros q v I. assert (J : In (join q, v) tf) by (apply Itf; eauto). destruct (dget txs (join q)) as [t|] eqn:D.
    - right. pose proof (dget_some_in _ _ _ D) as I2. destruct (Hx _ _ I2) as [x Dx]. pose proof (dget_in _ _ _ NT J) as Dv.
      assert (I3 : In (join q) (map fst outs)) by (rewrite Ko; apply in_map_iff; exists (join q, t); auto).
      apply in_map_iff in I3. destruct I3 as [[k' w] [Ek I3]]. simpl in Ek. subst k'. pose proof I3 as I4. apply Ho in I3. destruct I3 as [t' [y [It [A ->]]]].
      assert (t' = t) by (apply (dget_in _ _ _ ND) in It; congruence). subst t'. exists x, t, y. repeat split; auto. congruence.
    - left. split; auto. unfold kept. apply filter_In. split; auto. simpl. destruct (inb_str (join q) (map fst txs)) eqn:B; auto.
      apply inb_str_true in B. apply dget_none_in in D. contradiction. }
  split.
  - apply NoDup_Permutation.
    + eapply NoDup_map_inv. exact NDo.
    + assert (N2 : NoDup (map (fun qv => join (fst qv)) (paths target))) by (rewrite Etf, map_map in NT; exact NT).
      apply NoDup_map_inv with (f := fst). rewrite map_map. exact N2.
    + intros [k w]. rewrite in_map_iff. split.
      * intros I. pose proof (Dk _ _ I) as Dw. apply in_app_or in I. destruct I as [I|I].
        -- unfold kept in I. apply filter_In in I. destruct I as [I _]. apply Itf in I. destruct I as [q [I ->]]. exists (q, w). split; auto. simpl. f_equal.
           destruct w as [x|]; simpl; auto. unfold f. rewrite Dw. auto.
        -- apply Ho in I. destruct I as [t [y [I [A ->]]]]. destruct (Hx _ _ I) as [x Dx]. apply dget_some_in in Dx. apply Itf in Dx. destruct Dx as [q [Iq ->]].
           exists (q, FLeaf x). split; auto. simpl. unfold f. rewrite Dw. auto.
      * intros [[q v] [Eq I]]. simpl in Eq. injection Eq as <- <-. destruct (Both q v I) as [[_ K]|[x [t [y [-> [_ [_ K]]]]]]].
        -- assert (K' : In (join q, v) (kept ++ outs)) by (apply in_or_app; auto). replace (mapv f q v) with v; auto. destruct v as [x|]; simpl; auto. unfold f. rewrite (Dk _ _ K'). auto.
        -- assert (K' : In (join q, FLeaf y) (kept ++ outs)) by (apply in_or_app; auto). simpl. unfold f. rewrite (Dk _ _ K'). auto.
  - intros q x H. apply leaf_paths in H. destruct (Both q _ H) as [[-> K]|[x' [t [y [Ex [-> [A K]]]]]]]; unfold f.
    + rewrite (Dk (join q) (FLeaf x)); [auto|apply in_or_app; auto].
    + rewrite (Dk (join q) (FLeaf y)); [auto|apply in_or_app; auto].
Qed.

Lemma mem_entry {V} (d : list (str * V)) k : In k (map fst d) -> exists v, dget d k = Some v.
Proof. intros I. destruct (dget d k) eqn:E; eauto. apply dget_none_in in E. contradiction. Qed.

Lemma map_parts fl us source target out : map_state_dict fl us source target = Ok out ->
  exists sf tf rs txs fo u, flatten_dict source = Ok sf /\ flatten_dict target = Ok tf /\ parse_rules pat us = Ok rs /\
    build fl rs sf tf = Ok txs /\ apply fl txs tf = Ok fo /\ unflatten_dict fo = Ok u /\ from_state_dict target u = Ok out.
Proof.
  unfold MapModel.map_state_dict. intros E.
  apply bind_ok in E. destruct E as [sf [E1 E]]. apply bind_ok in E. destruct E as [tf [E2 E]]. apply bind_ok in E. destruct E as [rs [E3 E]].
  apply bind_ok in E. destruct E as [txs [E4 E]]. apply bind_ok in E. destruct E as [fo [E5 E]]. apply bind_ok in E. destruct E as [u [E6 E]].
  exists sf, tf, rs, txs, fo, u. auto 10.
Qed.
Lemma inv_targets fl rs sf tf used txs : inv fl rs sf tf (natural_sort (map fst sf)) (used, txs) ->
  forall d x, In (d, x) txs -> exists t, dget tf d = Some (FLeaf t).
Proof.
  intros I d x J. pose proof (i_out _ _ _ _ _ _ _ _ _ _ I d) as Io. pose proof (i_nodup _ _ _ _ _ _ _ _ _ _ I) as N. cbn [snd] in *. rewrite (dget_in _ _ _ N J) in Io.
  destruct Io as [t [D _]]. eauto.
Qed.

Lemma map_ok fl us source target out : wf no_slash source -> wf (fun _ => True) target ->
  map_state_dict fl us source target = Ok out ->
  related (assigned (fun ks => exists f l, ks = filter f (natural_sort l)) fl us source) [] target out /\
  (raise_source fl = true -> forall key s, named_array source key s -> ~ no_rule pat search us key).
Proof.
  intros Ws Wt0 E. apply map_parts in E. destruct E as [sf [tf [rs [txs [fo [u [E1 [E2 [E3 [E4 [E5 [E6 E7]]]]]]]]]]]].
  assert (Wt : wf no_slash target).
  { apply wf_keys; auto. apply unflatten_keys in E6; [|constructor; constructor]. eapply from_state_keys; eauto. }
  apply parse_forall in E3. apply build_inv in E4. destruct E4 as [used [I Ru]].
  destruct (flat_spec _ _ Ws E1) as [Ns [Hs _]]. destruct (flat_spec _ _ Wt E2) as [Nt [Ht Et]]. split.
  - destruct target as [x|[|kc cs]]. { discriminate. } { simpl in E7. destruct u; [discriminate|]. injection E7 as <-. constructor. constructor. }
    specialize (Et _ _ eq_refl).
    destruct (apply_perm fl _ kc cs txs tf fo eq_refl Wt E2) as [Pm Hf]; auto. { exact (i_nodup _ _ _ _ _ _ _ _ _ _ I). } { eapply inv_targets; eauto. }
    set (f := fun q x => match dget fo (join q) with Some (FLeaf y) => y | _ => x end) in *.
    pose proof (unflatten_any f _ kc cs fo eq_refl Wt Pm) as U. rewrite E6 in U. cbn [bind] in U. rewrite E7 in U. apply Ok_inj in U. rewrite U.
    apply related_mapt. apply Forall_forall. intros [q v] J. simpl. destruct v as [x|]; auto.
    assert (Dx : dget tf (join q) = Some (FLeaf x)). { apply Ht. exists q. split; auto. apply leaf_paths. auto. }
    apply (described_assigned fl us rs source sf tf used txs q x (f q x)); auto.
    + intros R. eapply Ru; auto. apply dget_some_in. exact Dx.
    + apply Hf. apply leaf_paths. auto.
  - intros R key s N NR. apply Hs in N. apply (find_no_rule _ _ _ _ _ E3) in NR. enough (K : raise_source fl = false) by congruence. apply (i_src _ _ _ _ _ _ _ _ _ _ I key); auto.
    apply Permutation_in with (map fst sf); [apply Permutation_sym, natural_sort_perm|]. apply dget_some_in in N. apply in_map_iff. exists (key, FLeaf s). auto.
Qed.

(** ** Totality *)
Lemma nonempty_paths {L} (t : tree L) : nonempty t -> Forall (fun qv => snd qv <> FEmpty) (paths t).
Proof.
  induction t as [x|cs IH] using tree_ind'; intros N; [repeat constructor; discriminate|]. inversion N as [|? Ne F]; subst. rewrite paths_node by auto.
  apply Forall_forall. intros qv I. unfold paths_list in I. apply in_flat_map in I. destruct I as [kc [I J]]. apply in_map_iff in J. destruct J as [pv [<- J]].
  rewrite Forall_forall in *. specialize (IH kc I (F kc I)). rewrite Forall_forall in IH. apply (IH pv J).
Qed.

Lemma map_total fl us cs_s target :
  wf no_slash (Node cs_s) -> wf no_slash target -> (exists cs, target = Node cs) -> Forall (fun kc => nonempty (snd kc)) cs_s ->
  let source := Node cs_s in
  Forall (fun u => exists p k, written pat u p k) us ->
  (raise_source fl = true -> forall key s, named_array source key s -> ~ no_rule pat search us key) ->
  (forall key s k dst, named_array source key s -> goes us key k dst -> exists p x, leaf_at target p x /\ dst = join p) ->
  (forall key1 s1 k1 key2 s2 k2 dst, named_array source key1 s1 -> named_array source key2 s2 -> goes us key1 k1 dst -> goes us key2 k2 dst ->
     key1 <> key2 -> stacks k1) ->
  (raise_target fl = true -> forall p x, leaf_at target p x -> exists key s k, named_array source key s /\ goes us key k (join p)) ->
  (forall p x key s k, leaf_at target p x -> named_array source key s -> goes us key k (join p) -> ~ stacks k ->
     exists w y, transformed k s x w /\ fitted fl w x y) ->
  (forall p x key t axis l, leaf_at target p x -> (forall k s, In (k, s) l <-> named_array source k s /\ exists c, goes us k c (join p)) ->
     goes us key (KStack t axis) (join p) -> exists w y, stack axis (map snd l) = Ok w /\ fitted fl w x y) ->
  exists out, map_state_dict fl us source target = Ok out.
Proof.
  intros Ws Wt Nt0 Ne source Hp Hsrc Hdst Huniq Htgt H1 H2.
  unfold MapModel.map_state_dict. destruct (flatten_dict source) as [sf|] eqn:E1; [|discriminate]. cbn [bind].
  destruct Nt0 as [cs Et0]. destruct (flatten_dict target) as [tf|] eqn:E2; [|subst target; discriminate]. cbn [bind].
  assert (Pr : exists rs, parse_rules pat us = Ok rs).
  { apply rmap_total. rewrite Forall_forall in Hp. intros u J. destruct (Hp u J) as [p [k W]]. exists {| r_pattern := p; r_kind := k |}. apply parse_written; auto. }
  destruct Pr as [rs Pr]. rewrite Pr. cbn [bind]. apply parse_forall in Pr.
  destruct (flat_spec _ _ Ws E1) as [Ns [Hs Es]]. destruct (flat_spec _ _ Wt E2) as [Nt [Ht Et]].
  assert (Sl : forall key, In key (map fst sf) -> exists s, dget sf key = Some (FLeaf s)).
  { intros key I. destruct (mem_entry _ _ I) as [[s|] D]; eauto. exfalso. destruct cs_s as [|kc cs_s]; [injection E1 as <-; discriminate|].
    rewrite (Es _ _ eq_refl) in D. apply dget_some_in in D. apply in_map_iff in D. destruct D as [qv [Eq J]]. injection Eq as _ Eq.
    assert (NN : nonempty source) by (constructor; [discriminate|auto]). apply nonempty_paths in NN. rewrite Forall_forall in NN. apply (NN qv J). auto. }
  assert (Step : forall l done st, Permutation (done ++ l) (map fst sf) -> inv fl rs sf tf done st ->
     exists st', rfold (build_step pat search sub array fl rs sf tf) l st = Ok st' /\ inv fl rs sf tf (done ++ l) st').
  { induction l as [|key l IH]; intros done st Pm I. { exists st. rewrite app_nil_r. auto. }
    assert (Ik : In key (map fst sf)). { apply Permutation_in with (done ++ key :: l); auto. apply in_or_app; simpl; auto. }
    assert (Nk : ~ In key done). { assert (ND : NoDup (done ++ key :: l)) by (eapply Permutation_NoDup; [apply Permutation_sym; exact Pm|auto]).
      apply NoDup_remove_2 in ND. intros J. apply ND. apply in_or_app. auto. }
    destruct (Sl key Ik) as [s Ds]. pose proof (proj1 (Hs _ _) Ds) as Nm.
    assert (G : exists st1, build_step pat search sub array fl rs sf tf st key = Ok st1).
    { destruct I as [Iu Io Is In_ Ia]. destruct st as [used o]. cbn [fst snd] in *. unfold build_step.
      destruct (find_rule pat search rs key) as [r|] eqn:Fr.
      - destruct (new_name (r_kind pat r)) as [t|] eqn:Nn; [|destruct (r_kind pat r); try discriminate; eauto].
        assert (De : dest rs key = Some (r_kind pat r, sub (r_pattern pat r) t key)) by (unfold MapProofs.dest; rewrite Fr, Nn; auto).
        assert (R : rename pat sub r key = sub (r_pattern pat r) t key) by (unfold rename; destruct (r_kind pat r); simpl in Nn; try discriminate; injection Nn as ->; auto).
        rewrite R. set (d := sub (r_pattern pat r) t key) in *. clearbody d.
        pose proof (proj2 (goes_dest _ _ _ us rs key _ d Pr) De) as Go.
        destruct (Hdst _ _ _ _ Nm Go) as [p [x [Lx Ed]]]. assert (Dx : dget tf d = Some (FLeaf x)) by (apply Ht; eauto).
        rewrite Dx, Ds.
        assert (Us : forall key' k', In key' done -> dest rs key' = Some (k', d) -> stacks (r_kind pat r) /\ stacks k').
        { intros key' k' J De'. pose proof (proj2 (goes_dest _ _ _ us rs key' _ d Pr) De') as Go'.
          assert (Ik' : In key' (map fst sf)) by (apply Permutation_in with (done ++ key :: l); auto; apply in_or_app; auto).
          destruct (Sl _ Ik') as [s' Ds']. apply Hs in Ds'. split; [eapply (Huniq key s _ key' s'); eauto; congruence|].
          eapply (Huniq key' s' _ key s); eauto. congruence. }
        assert (B : inb_str d used && negb (stacksb (r_kind pat r)) = false).
        { destruct (inb_str d used) eqn:U; auto. apply inb_str_true in U. apply Iu in U. destruct U as [key' [k' [J De']]].
          destruct (Us _ _ J De') as [S1 _]. apply stacksb_true in S1. rewrite S1. auto. }
        assert (T : exists x', new_tx array (r_kind pat r) (dget o d) s x = Ok x').
        { unfold new_tx. specialize (Io d). destruct (r_kind pat r); try discriminate; try (eexists; reflexivity).
          destruct (dget o d) as [[k1 s1 t1|a l1 t1]|]; try (eexists; reflexivity). exfalso.
          destruct Io as [t' [_ [[key' [k' [s' [Eh [D' [_ [B' _]]]]]]]|[? [? [? [? [? [_ [_ [_ [_ ?]]]]]]]]]]]]; [|discriminate].
          assert (J : In key' done). { assert (J : In key' [key']) by (simpl; auto). rewrite <- Eh in J. unfold MapProofs.hits in J. apply filter_In in J. tauto. }
          destruct (Us _ _ J D') as [_ S1]. apply stacksb_true in S1. congruence. }
        destruct T as [x' T].
        destruct (r_kind pat r); try discriminate; cbn [stacksb] in B; rewrite B, T; eexists; reflexivity.
      - assert (Rf : raise_source fl = false).
        { destruct (raise_source fl) eqn:R; auto. exfalso. apply (Hsrc eq_refl _ _ Nm). eapply find_no_rule; eauto. }
        rewrite Rf. unfold identity_rename.
        assert (De : dest rs key = Some (KRegex [], key)) by (unfold MapProofs.dest; rewrite Fr; auto).
        pose proof (proj2 (goes_dest _ _ _ us rs key _ key Pr) De) as Go.
        destruct (Hdst _ _ _ _ Nm Go) as [p [x [Lx Ed]]]. assert (Dx : dget tf key = Some (FLeaf x)) by (apply Ht; eauto). rewrite Dx, Ds.
        assert (B : inb_str key used = false).
        { destruct (inb_str key used) eqn:U; auto. exfalso. apply inb_str_true in U. apply Iu in U. destruct U as [key' [k' [J De']]].
          pose proof (proj2 (goes_dest _ _ _ us rs key' _ key Pr) De') as Go'.
          assert (Ik' : In key' (map fst sf)) by (apply Permutation_in with (done ++ key :: l); auto; apply in_or_app; auto).
          destruct (Sl _ Ik') as [s' Ds']. apply Hs in Ds'.
          assert (S1 : stacks (KRegex [])) by (eapply (Huniq key s _ key' s'); eauto; congruence). destruct S1 as [? [? ?]]. discriminate. }
        rewrite B. simpl. eauto. }
    destruct G as [st1 G]. pose proof (inv_step _ _ _ _ _ _ _ _ _ _ _ _ I G) as I1.
    destruct (IH (done ++ [key]) st1) as [st' [E' I']]; auto. { rewrite <- app_assoc. auto. }
    exists st'. simpl. rewrite G. simpl. rewrite E'. split; auto. rewrite <- app_assoc in I'. auto. }
  destruct (Step (natural_sort (map fst sf)) [] ([], [])) as [[used txs] [E3 I]].
  { simpl. apply natural_sort_perm. }
  { apply inv_start. }
  simpl in I.
  assert (Bd : build fl rs sf tf = Ok txs).
  { unfold MapModel.build. rewrite E3. cbn [bind]. destruct (existsb _ tf) eqn:B; auto. exfalso. apply existsb_exists in B.
    destruct B as [[d v] [J B]]. simpl in B. apply andb_true_iff in B. destruct B as [B1 B2]. destruct v as [x|]; [|discriminate].
    assert (Dx : dget tf d = Some (FLeaf x)) by (apply dget_in; auto). apply Ht in Dx. destruct Dx as [p [Lx ->]].
    destruct (Htgt B2 p x Lx) as [key [s [k [Nm Go]]]]. apply (goes_dest _ _ _ us rs _ _ _ Pr) in Go. apply Hs in Nm.
    assert (U : In (join p) used). { apply (i_used _ _ _ _ _ _ _ _ _ _ I). exists key, k. split; auto.
      apply Permutation_in with (map fst sf); [apply Permutation_sym, natural_sort_perm|]. apply dget_some_in in Nm. apply in_map_iff. exists (key, FLeaf s). auto. }
    apply inb_str_true in U. rewrite U in B1. discriminate. }
  rewrite Bd. cbn [bind].
  assert (Ap : forall d x, In (d, x) txs -> exists y, apply_one fl x = Ok y).
  { intros d x J. pose proof (i_out _ _ _ _ _ _ _ _ _ _ I d) as Io. pose proof (i_nodup _ _ _ _ _ _ _ _ _ _ I) as N. cbn [snd] in *. rewrite (dget_in _ _ _ N J) in Io.
    destruct Io as [t [Dt De]]. pose proof (proj1 (Ht _ _) Dt) as [p [Lp Ed]]. subst d.
    destruct De as [[key [k [s [Eh [D [S [B ->]]]]]]]|[h [hs' [rep [a [ss [Eh [D [F2 [Fk ->]]]]]]]]]].
    - destruct (H1 p t key s k Lp) as [w [y [T F]]].
      + apply Hs; auto.
      + eapply goes_dest; eauto.
      + intros St. apply stacksb_true in St. congruence.
      + exists y. apply apply_one_ok. exists w. split; auto. apply run_tx1; auto.
    - set (hl := hits rs sf (natural_sort (map fst sf)) (join p)) in *.
      destruct (H2 p t h rep a (combine hl ss) Lp) as [w [y [T F]]].
      + intros key s. assert (Hs' : dget sf key = Some (FLeaf s) <-> named_array source key s) by apply Hs. rewrite <- Hs'. split.
        * intros J'. assert (K : In key hl /\ dget sf key = Some (FLeaf s)).
          { split; [eapply in_combine_l; eauto|]. clear - F2 J'. induction F2; simpl in J'; [contradiction|]. destruct J' as [J'|J']; auto. congruence. }
          destruct K as [K1 K2]. split; auto. unfold hl, MapProofs.hits in K1. apply filter_In in K1. destruct K1 as [_ K1]. unfold MapProofs.hit in K1.
          destruct (dest rs key) as [[c d]|] eqn:Dd; [|discriminate]. apply andb_true_iff in K1. destruct K1 as [K1 _]. apply str_eqb_eq in K1. subst d.
          exists c. eapply goes_dest; eauto.
        * intros [K2 [c Go]]. apply (goes_dest _ _ _ us rs _ _ _ Pr) in Go.
          assert (K1 : In key hl).
          { unfold hl, MapProofs.hits. apply filter_In. split.
            - apply Permutation_in with (map fst sf); [apply Permutation_sym, natural_sort_perm|]. apply dget_some_in in K2. apply in_map_iff. exists (key, FLeaf s). auto.
            - unfold MapProofs.hit. rewrite Go, K2, str_eqb_refl. auto. }
          clear - F2 K1 K2. induction F2; simpl in *; [contradiction|]. destruct K1 as [->|K1]; [left; congruence|auto].
      + eapply goes_dest; eauto.
      + exists y. apply apply_one_ok. exists w. split; auto. simpl. rewrite map_snd_combine in T; auto. eapply Forall2_len; eauto. }
  assert (Apl : exists fo, apply fl txs tf = Ok fo).
  { unfold MapModel.apply. assert (G : exists outs, rmap (fun kt => bind (apply_one fl (snd kt)) (fun v => Ok (fst kt, FLeaf v))) txs = Ok outs).
    { apply rmap_total. intros [d x] J. destruct (Ap d x J) as [y Ey]. simpl. rewrite Ey. simpl. eauto. }
    destruct G as [outs ->]. simpl. eauto. }
  destruct Apl as [fo Apl]. rewrite Apl. cbn [bind].
  destruct cs as [|kc cs].
  - subst target. injection E2 as <-.
    assert (txs = []). { destruct txs as [|[d x] txs]; auto. destruct (inv_targets _ _ _ _ _ _ I d x (or_introl eq_refl)) as [? ?]. discriminate. }
    subst txs. unfold MapModel.apply in Apl. simpl in Apl. apply Ok_inj in Apl. subst fo. simpl. eauto.
  - destruct (apply_perm fl target kc cs txs tf fo Et0 Wt E2) as [Pm Hf]; auto. { exact (i_nodup _ _ _ _ _ _ _ _ _ _ I). } { eapply inv_targets; eauto. }
    eexists. eapply unflatten_any; eauto.
Qed.
End P.
