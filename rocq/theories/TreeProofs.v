(** Proofs about nested dicts (C26). *)
From Coq Require Import List Arith Bool Lia FinFun.
From Verif Require Import Py PyLemmas TreeModel TreeSpec.
Import ListNotations.

Lemma str_eqb_spec a b : reflect (a = b) (str_eqb a b).
Proof. unfold str_eqb. destruct (list_eq_dec Nat.eq_dec a b); constructor; auto. Qed.
Lemma str_eqb_refl a : str_eqb a a = true.
Proof. destruct (str_eqb_spec a a); auto. Qed.

(** ** Dicts *)
Lemma dset_new {V} (d : list (str * V)) k v : ~ In k (map fst d) -> dset d k v = d ++ [(k, v)].
Proof.
  induction d as [|[k' v'] d IH]; simpl; intros N; auto. destruct (str_eqb_spec k' k); [subst; tauto|]. rewrite IH by tauto. auto.
Qed.
Lemma dset_last {V} (d : list (str * V)) k v w : ~ In k (map fst d) -> dset (d ++ [(k, v)]) k w = d ++ [(k, w)].
Proof.
  induction d as [|[k' v'] d IH]; simpl; intros N. { rewrite str_eqb_refl; auto. }
  destruct (str_eqb_spec k' k); [subst; tauto|]. rewrite IH by tauto. auto.
Qed.
Lemma dget_last {V} (d : list (str * V)) k v : ~ In k (map fst d) -> dget (d ++ [(k, v)]) k = Some v.
Proof.
  induction d as [|[k' v'] d IH]; simpl; intros N. { rewrite str_eqb_refl; auto. }
  destruct (str_eqb_spec k' k); [subst; tauto|]. rewrite IH by tauto. auto.
Qed.
Lemma dget_none {V} (d : list (str * V)) k : ~ In k (map fst d) -> dget d k = None.
Proof.
  induction d as [|[k' v'] d IH]; simpl; intros N; auto. destruct (str_eqb_spec k' k); [subst; tauto|]. apply IH. tauto.
Qed.
Lemma dget_in {V} (d : list (str * V)) k v : NoDup (map fst d) -> In (k, v) d -> dget d k = Some v.
Proof.
  induction d as [|[k' v'] d IH]; simpl; intros N I; [contradiction|]. inversion N; subst. destruct I as [I|I].
  - injection I as -> ->. rewrite str_eqb_refl. auto.
  - destruct (str_eqb_spec k' k) as [->|_]; auto. exfalso. apply H1. apply in_map_iff. exists (k, v). auto.
Qed.
Lemma dupdate_new {V} (e d : list (str * V)) : NoDup (map fst (d ++ e)) -> dupdate d e = d ++ e.
Proof.
  unfold dupdate. revert d. induction e as [|[k v] e IH]; simpl; intros d N. { rewrite app_nil_r; auto. }
  rewrite dset_new. 2:{ rewrite map_app in N. apply NoDup_remove_2 in N. intros I. apply N. apply in_or_app; auto. }
  rewrite IH; rewrite <- app_assoc; auto.
Qed.
Lemma dupdates_new {V} (ls : list (list (str * V))) : forall d, NoDup (map fst (d ++ concat ls)) ->
  fold_left dupdate ls d = d ++ concat ls.
Proof.
  induction ls as [|l ls IH]; simpl; intros d N. { rewrite app_nil_r; auto. }
  rewrite dupdate_new.
  - rewrite IH; rewrite <- app_assoc; auto.
  - rewrite app_assoc, map_app in N. clear - N. induction (map fst (concat ls)) as [|x m IH] using rev_ind.
    + rewrite app_nil_r in N. auto.
    + rewrite app_assoc in N. apply NoDup_remove_1 in N. rewrite app_nil_r in N. auto.
Qed.

(** ** Joining and splitting *)
Lemma split_nonempty s : split s <> [].
Proof. destruct s as [|c s]; simpl; [discriminate|]. destruct (c =? slash); [discriminate|]. destruct (split s); discriminate. Qed.
Lemma split_noslash k : no_slash k -> split k = [k].
Proof.
  unfold no_slash. induction k as [|c k IH]; simpl; intros N; auto. destruct (Nat.eqb_spec c slash); [subst; tauto|].
  rewrite IH by tauto. auto.
Qed.
Lemma split_cons k s : no_slash k -> split (k ++ slash :: s) = k :: split s.
Proof.
  unfold no_slash. induction k as [|c k IH]; simpl; intros N; auto. destruct (Nat.eqb_spec c slash); [subst; tauto|].
  rewrite IH by tauto. auto.
Qed.
Lemma split_join p : p <> [] -> Forall no_slash p -> split (join p) = p.
Proof.
  intros N F. induction F as [|k p Hk F IH]; [contradiction|]. destruct p as [|k' p].
  - simpl. apply split_noslash; auto.
  - change (join (k :: k' :: p)) with (k ++ slash :: join (k' :: p)). rewrite split_cons by auto. rewrite IH by discriminate. auto.
Qed.
Lemma split_no_slash s : Forall no_slash (split s).
Proof.
  induction s as [|c s IH]; simpl. { constructor; [intros []|constructor]. }
  destruct (Nat.eqb_spec c slash) as [->|N]. { constructor; auto. intros []. }
  destruct (split s) as [|k ks]. { constructor; auto. unfold no_slash. simpl. intros [H|[]]; auto. }
  inversion IH; subst. constructor; auto. unfold no_slash in *. simpl. intros [H|H]; auto.
Qed.

(** ** Induction on trees *)
Section TreeInd.
  Context {L : Type} (P : tree L -> Prop).
  Hypothesis Hleaf : forall x, P (Leaf x).
  Hypothesis Hnode : forall cs, Forall (fun kc => P (snd kc)) cs -> P (Node cs).
  Fixpoint tree_ind' (t : tree L) : P t.
  Proof.
    destruct t as [x|cs]; [apply Hleaf|]. apply Hnode. induction cs as [|[k c] cs IH]; constructor; auto. 
  Defined.
End TreeInd.

(** Paths and values in depth-first order. *)
Fixpoint paths {L} (t : tree L) : list (list str * flatv L) :=
  match t with
  | Leaf x => [([], FLeaf x)]
  | Node [] => [([], FEmpty)]
  | Node cs => flat_map (fun kc => map (fun pv => (fst kc :: fst pv, snd pv)) (paths (snd kc))) cs
  end.
Definition paths_list {L} (cs : list (str * tree L)) : list (list str * flatv L) :=
  flat_map (fun kc => map (fun pv => (fst kc :: fst pv, snd pv)) (paths (snd kc))) cs.
Lemma paths_node {L} (cs : list (str * tree L)) : cs <> [] -> paths (Node cs) = paths_list cs.
Proof.
  intros N. destruct cs as [|kc cs]; [contradiction|]. reflexivity.
Qed.

Lemma paths_noslash {L} (t : tree L) : wf no_slash t -> Forall (fun pv => Forall no_slash (fst pv)) (paths t).
Proof.
  induction t as [x|cs IH] using tree_ind'; intros W. { repeat constructor. }
  destruct cs as [|kc cs]; [repeat constructor|]. rewrite paths_node by discriminate. inversion W as [|? ND F]; subst. clear W ND.
  revert IH F. generalize (kc :: cs). intros l IH F. unfold paths_list. induction l as [|[k c] l IHl]; simpl; [constructor|].
  inversion IH; inversion F; subst. apply Forall_app. split; [|auto]. destruct H5 as [Hk Wc]. specialize (H1 Wc). simpl in *.
  rewrite Forall_forall in *. intros pv I. apply in_map_iff in I. destruct I as [qv [<- I]]. simpl. constructor; auto.
Qed.
Lemma paths_nodup {L} (P : str -> Prop) (t : tree L) : wf P t -> NoDup (map fst (paths t)).
Proof.
  induction t as [x|cs IH] using tree_ind'; intros W. { simpl. constructor; [intros []|constructor]. }
  destruct cs as [|kc cs]. { simpl. constructor; [intros []|constructor]. }
  rewrite paths_node by discriminate. inversion W as [|? ND F]; subst. clear W.
  revert IH ND F. generalize (kc :: cs). intros l IH ND F. unfold paths_list. induction l as [|[k c] l IHl]; simpl; [constructor|].
  inversion IH; inversion F; inversion ND; subst. destruct H5 as [Hk Wc]. specialize (H1 Wc). simpl in *.
  rewrite map_app, map_map. simpl.
  assert (G : NoDup (map (fun x : list str * flatv L => k :: fst x) (paths c))).
  { rewrite <- map_map with (f := fst) (g := cons k). apply FinFun.Injective_map_NoDup; auto. intros a b E; congruence. }
  specialize (IHl H2 H10 H6).
  assert (D : forall x, In x (map (fun x : list str * flatv L => k :: fst x) (paths c)) -> ~ In x (map fst (flat_map (fun kc => map (fun pv => (fst kc :: fst pv, snd pv)) (paths (snd kc))) l))).
  { intros x I J. apply in_map_iff in I. destruct I as [y [<- _]]. apply in_map_iff in J. destruct J as [z [E J]].
    apply in_flat_map in J. destruct J as [[k' c'] [J J']]. apply in_map_iff in J'. destruct J' as [w [<- _]]. simpl in E. injection E as E _.
    subst k'. apply H9. apply in_map_iff. exists (k, c'). auto. }
  revert G D. generalize (map (fun x : list str * flatv L => k :: fst x) (paths c)). induction l0 as [|x l0 IH0]; simpl; auto.
  intros G D. inversion G; subst. constructor.
  - rewrite in_app_iff. intros [K|K]; [contradiction|]. exact (D x (or_introl eq_refl) K).
  - apply IH0; auto.
Qed.

Lemma NoDup_map_inj {A B} (f : A -> B) (l : list A) : (forall x y, In x l -> In y l -> f x = f y -> x = y) -> NoDup l -> NoDup (map f l).
Proof.
  induction l as [|x l IH]; simpl; intros H N; [constructor|]. inversion N; subst. constructor.
  - intros I. apply in_map_iff in I. destruct I as [y [E I]]. rewrite (H x y) in H2; auto.
  - apply IH; auto.
Qed.
Lemma join_inj p q : p <> [] -> q <> [] -> Forall no_slash p -> Forall no_slash q -> join p = join q -> p = q.
Proof. intros Np Nq Fp Fq E. rewrite <- (split_join p), <- (split_join q); auto. congruence. Qed.

Lemma flatten_paths {L} (t : tree L) : forall prefix, wf no_slash t -> Forall no_slash prefix -> 
  (prefix = [] -> exists kc cs, t = Node (kc :: cs)) ->
  flatten_ prefix t = map (fun pv => (join (prefix ++ fst pv), snd pv)) (paths t).
Proof.
  induction t as [x|cs IH] using tree_ind'; intros prefix W Fp NE.
  - simpl. rewrite app_nil_r. auto.
  - destruct cs as [|kc cs].
    { simpl. destruct prefix; [destruct NE as [? [? ?]]; [auto|discriminate]|]. rewrite app_nil_r. auto. }
    assert (ND : NoDup (map fst (map (fun pv => (join (prefix ++ fst pv), snd pv)) (paths (Node (kc :: cs)))))).
    { rewrite map_map. simpl fst. rewrite <- map_map with (f := fst) (g := fun p => join (prefix ++ p)). apply NoDup_map_inj.
      - intros p q Ip Iq E. pose proof (paths_noslash _ W) as Fs. rewrite Forall_forall in Fs.
        assert (K : forall x, In x (map fst (paths (Node (kc :: cs)))) -> x <> [] /\ Forall no_slash x).
        { intros x I. apply in_map_iff in I. destruct I as [pv [<- I]]. split; [|auto]. rewrite paths_node in I by discriminate.
          unfold paths_list in I. apply in_flat_map in I. destruct I as [kc' [_ I]]. apply in_map_iff in I. destruct I as [? [<- _]]. discriminate. }
        destruct (K p Ip) as [N1 F1], (K q Iq) as [N2 F2].
        apply join_inj in E; try (apply Forall_app; auto); try (destruct prefix; simpl; [auto|discriminate]).
        apply app_inv_head in E. auto.
      - apply (paths_nodup no_slash); auto. }
    rewrite paths_node in * by discriminate. inversion W as [|? _ F]; subst. clear W NE.
    change (flatten_ prefix (Node (kc :: cs))) with (fold_left dupdate (map (fun kc => flatten_ (prefix ++ [fst kc]) (snd kc)) (kc :: cs)) []).
    revert ND IH F. generalize (kc :: cs) as l. clear kc cs. intros l ND IH F.
    assert (G : map (fun kc => flatten_ (prefix ++ [fst kc]) (snd kc)) l = map (fun kc => map (fun pv => (join (prefix ++ fst kc :: fst pv), snd pv)) (paths (snd kc))) l).
    { clear ND. induction l as [|[k c] l IHl]; auto. inversion IH; inversion F; subst. simpl. rewrite IHl by auto. f_equal.
      destruct H5 as [Hk Wc]. rewrite H1; auto.
      - apply map_ext. intros pv. rewrite <- app_assoc. auto.
      - apply Forall_app; auto.
      - destruct prefix; discriminate. }
    rewrite G. clear G.
    assert (G : concat (map (fun kc => map (fun pv => (join (prefix ++ fst kc :: fst pv), snd pv)) (paths (snd kc))) l)
                = map (fun pv => (join (prefix ++ fst pv), snd pv)) (paths_list l)).
    { clear. unfold paths_list. induction l as [|kc l IH]; simpl; auto. rewrite map_app, IH, map_map. auto. }
    rewrite dupdates_new; simpl; rewrite G; auto.
Qed.

(** ** Rebuilding a tree from its paths *)
Definition ins {L} (t : tree L) (pv : list str * flatv L) : res (tree L) := insert (fst pv) (of_flat (snd pv)) t.

Lemma ins_below {L} k (l : list (list str * flatv L)) : Forall (fun pv => fst pv <> []) l ->
  forall r s s', ~ In k (map fst r) -> rfold ins l s = Ok s' ->
  rfold ins (map (fun pv => (k :: fst pv, snd pv)) l) (Node (r ++ [(k, s)])) = Ok (Node (r ++ [(k, s')])).
Proof.
  induction 1 as [|[p v] l Hp F IH]; intros r s s' N E; simpl in *. { injection E as <-. auto. }
  apply bind_ok in E. destruct E as [s1 [E1 E]]. unfold ins at 1. cbn [fst snd insert].
  destruct p as [|k' p]; [contradiction|]. rewrite dget_last by auto. unfold ins in E1. cbn [fst snd] in E1. rewrite E1. cbn [bind].
  rewrite dset_last by auto. apply IH; auto.
Qed.
Lemma ins_first {L} k (p : list str) (v : flatv L) r : p <> [] -> ~ In k (map fst r) ->
  ins (Node r) (k :: p, v) = ins (Node (r ++ [(k, Node [])])) (k :: p, v).
Proof.
  intros Np N. unfold ins. cbn [fst snd insert]. destruct p as [|k' p]; [contradiction|]. rewrite dget_none, dget_last by auto.
  destruct (insert (k' :: p) (of_flat v) (Node [])) as [c|e]; cbn [bind]; auto. rewrite dset_new, dset_last by auto. auto.
Qed.
Lemma paths_list_nonempty_paths {L} (cs : list (str * tree L)) : Forall (fun pv => fst pv <> []) (paths_list cs).
Proof.
  apply Forall_forall. intros pv I. unfold paths_list in I. apply in_flat_map in I. destruct I as [kc [_ I]].
  apply in_map_iff in I. destruct I as [? [<- _]]. discriminate.
Qed.
Lemma paths_some {L} (t : tree L) : paths t <> [].
Proof.
  induction t as [x|cs IH] using tree_ind'; [discriminate|]. destruct cs as [|kc cs]; [discriminate|]. rewrite paths_node by discriminate.
  inversion IH; subst. unfold paths_list. simpl. destruct (paths (snd kc)); [contradiction|discriminate].
Qed.

Lemma rebuild_children {L} (l : list (str * tree L)) :
  Forall (fun kc => forall k r, ~ In k (map fst r) ->
    rfold ins (map (fun pv => (k :: fst pv, snd pv)) (paths (snd kc))) (Node r) = Ok (Node (r ++ [(k, snd kc)]))) l ->
  forall a, NoDup (map fst (a ++ l)) -> rfold ins (paths_list l) (Node a) = Ok (Node (a ++ l)).
Proof.
  induction 1 as [|[k c] l H F IH]; intros a ND. { rewrite app_nil_r. auto. }
  unfold paths_list. cbn [flat_map fst snd] in *. rewrite rfold_app, H.
  - cbn [bind]. fold (paths_list l). rewrite IH; rewrite <- app_assoc; auto.
  - rewrite map_app in ND. apply NoDup_remove_2 in ND. intros I. apply ND. apply in_or_app; auto.
Qed.
Lemma rebuild {L} (P : str -> Prop) (t : tree L) : wf P t -> forall k r, ~ In k (map fst r) ->
  rfold ins (map (fun pv => (k :: fst pv, snd pv)) (paths t)) (Node r) = Ok (Node (r ++ [(k, t)])).
Proof.
  induction t as [x|cs IH] using tree_ind'; intros W k r N.
  - simpl. unfold ins. simpl. rewrite dset_new by auto. auto.
  - destruct cs as [|kc cs]. { simpl. unfold ins. simpl. rewrite dset_new by auto. auto. }
    rewrite paths_node by discriminate.
    assert (G : rfold ins (paths_list (kc :: cs)) (Node []) = Ok (Node (kc :: cs))).
    { inversion W as [|? ND F]; subst. apply (rebuild_children (kc :: cs)) with (a := []); auto.
      rewrite Forall_forall in *. intros x I. apply IH; auto. apply F; auto. }
    pose proof (paths_list_nonempty_paths (kc :: cs)) as FP.
    assert (NE : paths_list (kc :: cs) <> []). { rewrite <- paths_node by discriminate. apply paths_some. }
    destruct (paths_list (kc :: cs)) as [|[p v] l] eqn:E; [contradiction|]. inversion FP; subst. cbn [map rfold].
    cbn [fst snd] in *. rewrite ins_first by auto.
    apply (ins_below k ((p, v) :: l) FP r (Node []) _ N G).
Qed.
Lemma unflatten_flatten {L} (t : tree L) kc cs : wf no_slash t -> t = Node (kc :: cs) ->
  unflatten_dict (map (fun pv => (join (fst pv), snd pv)) (paths t)) = Ok t.
Proof.
  intros W E. unfold unflatten_dict.
  assert (K : forall l, Forall (fun pv : list str * flatv L => fst pv <> [] /\ Forall no_slash (fst pv)) l -> forall s,
     rfold (fun t kv => insert (split (fst kv)) (of_flat (snd kv)) t) (map (fun pv => (join (fst pv), snd pv)) l) s = rfold ins l s).
  { induction 1 as [|pv l [N F] Fl IH]; intros s; auto. cbn [map rfold fst snd]. rewrite split_join by auto.
    unfold ins at 1. destruct (insert _ _ s); cbn [bind]; auto. }
  pose proof (paths_noslash t W) as F. subst t. rewrite paths_node in * by discriminate. rewrite K.
  2:{ pose proof (paths_list_nonempty_paths (kc :: cs)) as F2. rewrite Forall_forall in *. auto. }
  inversion W as [|? ND Fc]; subst. apply (rebuild_children (kc :: cs)) with (a := []); auto.
  rewrite Forall_forall in *. intros x I. apply (rebuild no_slash). apply Fc; auto.
Qed.
