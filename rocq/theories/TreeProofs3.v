(** Unflattening in any order of the keys. *)
From Coq Require Import List Arith Bool Lia Permutation.
From Verif Require Import Py PyLemmas TreeModel TreeSpec TreeProofs TreeProofs2.
Import ListNotations.

Fixpoint tget {L} (t : tree L) (p : list str) : option (tree L) :=
  match p with
  | [] => Some t
  | k :: r => match t with
              | Leaf _ => None
              | Node cs => match dget cs k with Some c => tget c r | None => None end
              end
  end.
Lemma dget_dset {V} (d : list (str * V)) k v j : dget (dset d k v) j = if str_eqb k j then Some v else dget d j.
Proof.
  induction d as [|[k' v'] d IH]; simpl; auto. destruct (str_eqb_spec k' k) as [->|N]; simpl.
  - destruct (str_eqb k j); auto.
  - rewrite IH. destruct (str_eqb_spec k' j) as [->|]; auto. destruct (str_eqb_spec k j); [congruence|auto].
Qed.
Definition prefix (p q : list str) : Prop := exists r, q = p ++ r.
Definition apart (p q : list str) : Prop := ~ prefix p q /\ ~ prefix q p.
Lemma prefix_cons k p q : prefix p q -> prefix (k :: p) (k :: q).
Proof. intros [r ->]. exists r. auto. Qed.

Lemma insert_get {L} p : forall (v t u : tree L), insert p v t = Ok u -> tget u p = Some v.
Proof.
  induction p as [|k p IH]; intros v t u E; destruct t as [x|cs]; try discriminate. cbn [insert] in E. destruct p as [|k' p].
  - injection E as <-. simpl. rewrite dget_dset, str_eqb_refl. auto.
  - apply bind_ok in E. destruct E as [c [Ec E]]. injection E as <-. apply IH in Ec. cbn [tget]. rewrite dget_dset, str_eqb_refl. exact Ec.
Qed.
Lemma insert_get_other {L} p : forall q (v t u : tree L), apart p q -> insert p v t = Ok u -> tget u q = tget t q.
Proof.
  induction p as [|k p IH]; intros q v t u A E; destruct t as [x|cs]; try discriminate. cbn [insert] in E. destruct q as [|k2 q].
  { destruct A as [_ A]. exfalso. apply A. exists (k :: p). auto. }
  assert (G : k = k2 -> apart p q).
  { intros <-. destruct A as [A1 A2]. split; intros P; [apply A1|apply A2]; apply prefix_cons; auto. }
  destruct p as [|k' p].
  - injection E as <-. cbn [tget]. rewrite dget_dset. destruct (str_eqb_spec k k2) as [->|]; auto. destruct (G eq_refl) as [G1 _]. exfalso. apply G1. exists q. auto.
  - apply bind_ok in E. destruct E as [c [Ec E]]. injection E as <-. cbn [tget]. rewrite dget_dset. destruct (str_eqb_spec k k2) as [->|]; auto.
    rewrite (IH q _ _ _ (G eq_refl) Ec). destruct (dget cs k2) eqn:D; auto.
    destruct q; simpl; auto. destruct (G eq_refl) as [_ G2]. exfalso. apply G2. exists (k' :: p). auto.
Qed.

(** Leaves are only at the paths in [S]. *)
Definition leaves_in {L} (S : list (list str)) (t : tree L) : Prop := forall q x, tget t q = Some (Leaf x) -> In q S.
Lemma insert_ok {L} p : forall (v t : tree L), p <> [] -> (forall q x, tget t q = Some (Leaf x) -> prefix q p -> q = p) ->
  (exists cs, t = Node cs) -> exists u, insert p v t = Ok u.
Proof.
  induction p as [|k p IH]; intros v t N H [cs ->]; [contradiction|]. cbn [insert]. destruct p as [|k' p]; [eauto|].
  destruct (IH v (match dget cs k with Some c => c | None => Node [] end)) as [u ->]; [discriminate| | |simpl; eauto].
  - intros q x E P. destruct (dget cs k) as [c|] eqn:D.
    + assert (E' : k :: q = k :: k' :: p). { apply (H _ x); [simpl; rewrite D; auto|apply prefix_cons; auto]. } injection E' as ->. auto.
    + destruct q; simpl in E; discriminate.
  - destruct (dget cs k) as [[x|cs']|] eqn:D; eauto. exfalso. assert (E' : [k] = k :: k' :: p).
    { apply (H _ x); [simpl; rewrite D; auto|exists (k' :: p); auto]. } discriminate.
Qed.
Lemma prefix_dec (p q : list str) : {prefix p q} + {~ prefix p q}.
Proof.
  revert q. induction p as [|k p IH]; intros q. { left. exists q. auto. }
  destruct q as [|k' q]. { right. intros [r E]. discriminate. }
  destruct (list_eq_dec Nat.eq_dec k k') as [<-|N].
  - destruct (IH q) as [P|P]; [left; apply prefix_cons; auto|right]. intros [r E]. apply P. exists r. injection E as ->. auto.
  - right. intros [r E]. injection E as ? ?. congruence.
Qed.
Lemma insert_leaf {L} p : forall q (v t u : tree L) x, insert p v t = Ok u -> tget u q = Some (Leaf x) ->
  (exists r, q = p ++ r /\ tget v r = Some (Leaf x)) \/ tget t q = Some (Leaf x).
Proof.
  induction p as [|k p IH]; intros q v t u x E G; destruct t as [y|cs]; try discriminate. cbn [insert] in E.
  destruct p as [|k' p].
  - injection E as <-. destruct q as [|k2 q]; [discriminate|]. cbn [tget] in G. rewrite dget_dset in G.
    destruct (str_eqb_spec k k2) as [->|]; [|right; auto]. left. exists q. auto.
  - apply bind_ok in E. destruct E as [c [Ec E]]. injection E as <-. destruct q as [|k2 q]; [discriminate|]. cbn [tget] in G. rewrite dget_dset in G.
    destruct (str_eqb_spec k k2) as [->|]; [|right; auto]. destruct (IH _ _ _ _ _ Ec G) as [[r [-> E]]|E].
    + left. exists r. auto.
    + right. cbn [tget]. clear - E. destruct (dget cs k2) as [c'|] eqn:D; auto. exfalso. destruct q; simpl in E; discriminate.
Qed.
Lemma insert_node {L} p (v t u : tree L) : insert p v t = Ok u -> exists cs, u = Node cs.
Proof.
  intros E. destruct t; [destruct p; discriminate|]. destruct p as [|k [|k' p]]; cbn [insert] in E; [discriminate|apply Ok_inj in E; subst u; eauto|].
  apply bind_ok in E. destruct E as [c [_ E]]. apply Ok_inj in E. subst u. eauto.
Qed.

Lemma ins_any {L} (l : list (list str * flatv L)) : forall (done : list (list str * flatv L)) t,
  ForallOrdPairs (fun a b => apart (fst a) (fst b)) (done ++ l) -> Forall (fun pv => fst pv <> []) l ->
  (exists cs, t = Node cs) -> leaves_in (map fst done) t -> (forall p v, In (p, v) done -> tget t p = Some (of_flat v)) ->
  exists u, rfold ins l t = Ok u /\ (forall p v, In (p, v) (done ++ l) -> tget u p = Some (of_flat v)) /\ (exists cs, u = Node cs).
Proof.
  induction l as [|[p v] l IH]; intros done t A Ne Nt LI G.
  - exists t. rewrite app_nil_r. auto.
  - inversion Ne as [|? ? Np Ne']; subst. simpl in Np.
    assert (Ap : forall q w, In (q, w) done -> apart q p).
    { intros q w I. clear - A I. induction done as [|a done IH]; [contradiction|]. simpl in A. inversion A; subst. destruct I as [->|I]; auto.
      rewrite Forall_forall in H1. apply (H1 (p, v)). apply in_or_app. simpl; auto. }
    destruct (insert_ok p (of_flat v) t Np) as [u Eu]; auto.
    { intros q x E P. apply LI in E. apply in_map_iff in E. destruct E as [[q' w] [<- I]]. simpl in *. destruct (Ap _ _ I) as [A1 _]. contradiction. }
    destruct (IH (done ++ [(p, v)]) u) as [u' [E' [G' N']]]; auto.
    + rewrite <- app_assoc. auto.
    + eapply insert_node; eauto.
    + intros q x E. destruct (insert_leaf _ _ _ _ _ _ Eu E) as [[r [-> Er]]|E1].
      * destruct v as [y|]; simpl in Er; [|destruct r; discriminate]. destruct r; [|discriminate]. rewrite app_nil_r, map_app. apply in_or_app. simpl; auto.
      * rewrite map_app. apply in_or_app. left. apply LI in E1. auto.
    + intros q w I. apply in_app_or in I. destruct I as [I|[I|[]]].
      * rewrite (insert_get_other p q _ _ _ (conj (proj2 (Ap q w I)) (proj1 (Ap q w I))) Eu). auto.
      * injection I as <- <-. eapply insert_get; eauto.
    + exists u'. simpl. unfold ins at 1. simpl. rewrite Eu. simpl. rewrite E'. split; auto. split; auto. intros q w I. apply G'. rewrite <- app_assoc. auto.
Qed.

(** The paths of a tree are apart from each other. *)
Lemma paths_apart {L} P (t : tree L) : wf P t -> ForallOrdPairs (fun a b => apart (fst a) (fst b)) (paths t).
Proof.
  induction t as [x|cs IH] using tree_ind'; intros W. { repeat constructor. }
  destruct cs as [|kc cs]; [repeat constructor|]. rewrite paths_node by discriminate. inversion W as [|? ND F]; subst. clear W.
  revert IH ND F. generalize (kc :: cs). intros l IH ND F. unfold paths_list. induction l as [|[k c] l IHl]; simpl; [constructor|].
  inversion IH; inversion F; inversion ND; subst. destruct H5 as [Hk Wc]. specialize (H1 Wc). specialize (IHl H2 H10 H6). simpl in *.
  assert (D : forall x y, In x (map (fun pv => (k :: fst pv, snd pv)) (paths c)) -> In y (flat_map (fun kc => map (fun pv => (fst kc :: fst pv, snd pv)) (paths (snd kc))) l) ->
     apart (fst x) (fst y)).
  { intros x y I J. apply in_map_iff in I. destruct I as [x' [<- _]]. apply in_flat_map in J. destruct J as [[k' c'] [J J']].
    apply in_map_iff in J'. destruct J' as [y' [<- _]]. simpl.
    assert (k <> k') by (intros ->; apply H9; apply in_map_iff; exists (k', c'); auto).
    split; intros [r E]; simpl in E; congruence. }
  revert D IHl. generalize (flat_map (fun kc => map (fun pv => (fst kc :: fst pv, snd pv)) (paths (snd kc))) l). intros M D IHl.
  clear - D IHl H1. induction H1 as [|a m Fa H1 IH]; simpl; auto. constructor.
  - apply Forall_app. split.
    + rewrite Forall_forall in *. intros b I. apply in_map_iff in I. destruct I as [b' [<- I]]. simpl. apply Fa in I. destruct I as [I1 I2].
      split; intros [r E]; simpl in E; injection E as E; [apply I1|apply I2]; exists r; auto.
    + apply Forall_forall. intros b I. apply (D (k :: fst a, snd a)); simpl; auto.
  - apply IH. intros x y I. apply D. simpl. auto.
Qed.

Lemma FOP_perm {A} (R : A -> A -> Prop) l l' : (forall a b, R a b -> R b a) -> Permutation l l' -> ForallOrdPairs R l -> ForallOrdPairs R l'.
Proof.
  intros Sy Pm. induction Pm; intros H; auto.
  - inversion H; subst. constructor; auto. rewrite Forall_forall in *. intros b I. apply H2. apply Permutation_in with l'; auto. apply Permutation_sym; auto.
  - inversion H; subst. inversion H3; subst. inversion H2; subst. constructor; constructor; auto.
Qed.

(** The state holds, at each path of the target, the value that [f] gives. *)
Lemma from_state_get {L M} P (f : list str -> L -> M) (t : tree L) : forall p (u : tree M), wf P t ->
  (forall q v, In (q, v) (paths t) -> tget u q = Some (of_flat (mapv f (p ++ q) v))) ->
  from_state_dict t u = Ok (mapt f p t).
Proof.
  induction t as [x|cs IH] using tree_ind'; intros p u W H.
  - simpl. specialize (H [] (FLeaf x) (or_introl eq_refl)). simpl in H. rewrite app_nil_r in H. congruence.
  - cbn [from_state_dict mapt]. destruct cs as [|kc cs].
    { specialize (H [] FEmpty (or_introl eq_refl)). simpl in H. injection H as ->. auto. }
    inversion W as [|? ND F]; subst. rewrite paths_node in H by discriminate.
    assert (Hc : forall k c q v, In (k, c) (kc :: cs) -> In (q, v) (paths c) -> tget u (k :: q) = Some (of_flat (mapv f ((p ++ [k]) ++ q) v))).
    { intros k c q v I J. rewrite <- app_assoc. apply H. unfold paths_list. apply in_flat_map. exists (k, c). split; auto.
      apply in_map_iff. exists (q, v). auto. }
    destruct u as [y|ss].
    { destruct kc as [k c]. destruct (paths c) as [|[q v] l] eqn:E; [destruct (paths_some c); auto|].
      specialize (Hc k c q v (or_introl eq_refl)). rewrite E in Hc. specialize (Hc (or_introl eq_refl)). discriminate. }
    assert (Hd : forall k c, In (k, c) (kc :: cs) -> exists s, dget ss k = Some s /\ from_state_dict c s = Ok (mapt f (p ++ [k]) c)).
    { intros k c I. destruct (paths c) as [|[q0 v0] l] eqn:E; [destruct (paths_some c); auto|].
      destruct (dget ss k) as [s|] eqn:D.
      - exists s. split; auto. rewrite Forall_forall in *. apply (IH (k, c) I); [apply F in I; apply I|].
        intros q v J. specialize (Hc k c q v I J). cbn [tget] in Hc. rewrite D in Hc. auto.
      - specialize (Hc k c q0 v0 I). rewrite E in Hc. specialize (Hc (or_introl eq_refl)). cbn [tget] in Hc. rewrite D in Hc. discriminate. }
    clear H Hc IH W ND F. revert Hd. generalize (kc :: cs) as l. intros l Hd.
    rewrite (proj2 (forallb_forall _ _)).
    2:{ intros [k c] I. destruct (Hd k c I) as [s [D _]]. simpl. apply existsb_exists. exists k. split; [|apply str_eqb_refl].
        clear - D. induction ss as [|[k' v'] ss IH]; [discriminate|]. simpl in *. destruct (str_eqb_spec k' k); auto. }
    rewrite (proj2 (rmap_ok _ _ (map (fun kc => (fst kc, mapt f (p ++ [fst kc]) (snd kc))) l))); auto.
    induction l as [|[k c] l IHl]; simpl; constructor.
    + destruct (Hd k c (or_introl eq_refl)) as [s [D E]]. simpl. rewrite D, E. auto.
    + apply IHl. intros k' c' I. apply Hd. simpl; auto.
Qed.

(** Any flat dict with the keys of [t] whose values are those given by [f]. *)
Lemma unflatten_any {L M} (f : list str -> L -> M) (t : tree L) kc cs (xs : list (str * flatv M)) :
  t = Node (kc :: cs) -> wf no_slash t -> 
  Permutation xs (map (fun qv => (join (fst qv), mapv f (fst qv) (snd qv))) (paths t)) ->
  bind (unflatten_dict xs) (from_state_dict t) = Ok (mapt f [] t).
Proof.
  intros E W Pm. apply Permutation_map_inv in Pm. destruct Pm as [ps [-> Pm]].
  assert (Fp : Forall (fun qv => fst qv <> [] /\ Forall no_slash (fst qv)) (paths t)).
  { pose proof (paths_noslash t W) as F1. pose proof (paths_list_nonempty_paths (kc :: cs)) as F2. rewrite <- paths_node, <- E in F2 by discriminate.
    rewrite Forall_forall in *. intros; split; auto. }
  assert (Fp' : Forall (fun qv => fst qv <> [] /\ Forall no_slash (fst qv)) ps).
  { rewrite Forall_forall in *. intros x I. apply Fp. apply Permutation_in with ps; auto. apply Permutation_sym; auto. }
  assert (G : forall l t0, Forall (fun qv : list str * flatv L => fst qv <> [] /\ Forall no_slash (fst qv)) l ->
     rfold (fun t kv => insert (split (fst kv)) (of_flat (snd kv)) t) (map (fun qv => (join (fst qv), mapv f (fst qv) (snd qv))) l) t0
     = rfold ins (map (fun qv => (fst qv, mapv f (fst qv) (snd qv))) l) t0).
  { intros l. induction l as [|[q v] l IH]; intros t0 F; simpl; auto. inversion F as [|? ? [N1 N2] F']; subst. simpl in *.
    unfold ins at 1. simpl. rewrite split_join by auto. destruct (insert q (of_flat (mapv f q v)) t0); simpl; auto. }
  unfold unflatten_dict. rewrite G by auto. clear G.
  destruct (ins_any (map (fun qv => (fst qv, mapv f (fst qv) (snd qv))) ps) [] (Node [])) as [u [-> [Gu Nu]]].
  - simpl. apply FOP_perm with (l := map (fun qv => (fst qv, mapv f (fst qv) (snd qv))) (paths t)).
    + intros a b [A1 A2]. split; auto.
    + apply Permutation_map. auto.
    + pose proof (paths_apart _ t W) as A. clear - A. induction A as [|a l Fa A IH]; simpl; constructor; auto.
      rewrite Forall_forall in *. intros b I. apply in_map_iff in I. destruct I as [b' [<- I]]. simpl. auto.
  - apply Forall_forall. intros x I. apply in_map_iff in I. destruct I as [y [<- I]]. simpl. rewrite Forall_forall in Fp'. apply Fp' in I. apply I.
  - eauto.
  - intros q x Eq. destruct q; discriminate.
  - intros ? ? [].
  - cbn [bind]. apply (from_state_get no_slash); auto. intros q v I. simpl. apply Gu. simpl. apply in_map_iff. exists (q, v). split; auto.
    apply Permutation_in with (paths t); auto.
Qed.
