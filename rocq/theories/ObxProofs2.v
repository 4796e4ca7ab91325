(** Proofs of C97, continued. *)
From Coq Require Import List Arith ZArith Bool Lia.
From Verif Require Import Py PyLemmas TreeModel TreeSpec TreeProofs TreeProofs2 MapModel ObxModel ObxSpec ObxProofs.
Import ListNotations.
Local Open Scope nat_scope.

(** ** Strings *)
Lemma startswith_ok p : forall s, startswith s p = true <-> exists r, s = p ++ r.
Proof.
  induction p as [|c p IH]; intros s; simpl. { split; [intros _; exists s; reflexivity|reflexivity]. }
  destruct s as [|d s]. { split; [discriminate|intros [r H]; discriminate]. }
  rewrite andb_true_iff, Nat.eqb_eq, IH. split.
  - intros [-> [r ->]]. exists r. reflexivity.
  - intros [r H]. injection H as -> ->. split; [reflexivity|exists r; reflexivity].
Qed.
Lemma skipn_prefix {A} (p r : list A) : skipn (length p) (p ++ r) = r.
Proof. induction p; simpl; auto. Qed.
Lemma rev_last (s : str) : s <> [] -> exists l, rev s = last s 0 :: l.
Proof.
  intros H. destruct (rev s) as [|c l] eqn:E. { exfalso. apply H. rewrite <- (rev_involutive s), E. reflexivity. }
  exists l. f_equal. rewrite <- (rev_involutive s), E. simpl. rewrite last_last. reflexivity.
Qed.
Lemma join_plain a b : plain a -> b <> [] -> hd 0 b <> slash -> os_path_join a b = a ++ slash :: b.
Proof.
  intros [A B] N H. unfold os_path_join. destruct b as [|c b]; [contradiction|]. simpl in H. apply Nat.eqb_neq in H. rewrite H.
  destruct (rev_last a A) as [l ->]. apply Nat.eqb_neq in B. rewrite B. reflexivity.
Qed.
Lemma last_app_cons (a : str) c b : last (a ++ c :: b) 0 = last (c :: b) 0.
Proof. induction a as [|x a IH]; [reflexivity|]. simpl app. rewrite <- IH. simpl. destruct (a ++ c :: b) eqn:E; [destruct a; discriminate|reflexivity]. Qed.
Lemma file_path dir name : plain dir -> relative name -> os_path_join (os_path_join dir name) dot_zarray = zarray_file dir name.
Proof.
  intros D [[N L] H]. rewrite (join_plain dir name D N H). rewrite join_plain.
  - unfold zarray_file. rewrite <- app_assoc. reflexivity.
  - split; [destruct dir; discriminate|]. rewrite last_app_cons. destruct name as [|c name]; [contradiction|]. exact L.
  - discriminate.
  - discriminate.
Qed.

Section Rules.
Context {regex : Type} (search : regex -> str -> bool).
Notation rules_of := (map (fun ru : regex * uspec => (fst ru, parse_partition_spec (snd ru)))).
Lemma search_rules_conv rules p v s : first_rule regex search rules p v s -> search_rules regex search (rules_of rules) (join p) v = Ok s.
Proof.
  intros [(before & r & u & after & shape & -> & S & B & -> & Z & M)|[-> [F|(shape & -> & Z)]]].
  - induction B as [|[r' u'] before H B IH]; cbn [map app search_rules fst snd] in *.
    + rewrite S. apply Nat.ltb_lt in Z. rewrite Z. inversion M; reflexivity.
    + rewrite H. exact IH.
  - induction F as [|[r u] rules H F IH]; cbn [map search_rules fst snd] in *; [reflexivity|]. rewrite H. exact IH.
  - assert (Z' : 1 <? size shape = false) by (apply Nat.ltb_ge; exact Z).
    induction rules as [|[r u] rules IH]; cbn [map search_rules fst snd]; [reflexivity|]. rewrite Z', IH. destruct (search r (join p)); reflexivity.
Qed.
Lemma search_rules_iff rules p v s : search_rules regex search (rules_of rules) (join p) v = Ok s <-> first_rule regex search rules p v s.
Proof. split; [apply search_rules_ok|apply search_rules_conv]. Qed.
End Rules.

Lemma related_impl {L M} (R R' : list str -> L -> M -> Prop) (t : tree L) : forall p r,
  (forall q x y, In (q, FLeaf x) (paths t) -> R (p ++ q) x y -> R' (p ++ q) x y) -> related R p t r -> related R' p t r.
Proof.
  induction t as [x|cs IH] using tree_ind'; intros p r H A; inversion A; subst.
  - constructor. specialize (H [] x y (or_introl eq_refl)). rewrite app_nil_r in H. auto.
  - constructor. rename ds into ds0. assert (G : forall l ds, incl l cs ->
      Forall2 (fun kc kd => fst kc = fst kd /\ related R (p ++ [fst kc]) (snd kc) (snd kd)) l ds ->
      Forall2 (fun kc kd => fst kc = fst kd /\ related R' (p ++ [fst kc]) (snd kc) (snd kd)) l ds).
    { intros l ds S F. induction F as [|[k c] kd l ds [E1 E2] F IHF]; constructor.
      - split; [exact E1|]. rewrite Forall_forall in IH. apply (IH (k, c)); [apply S; left; reflexivity| |exact E2].
        intros q x y I Q. simpl in *. rewrite <- app_assoc in *. apply H; [|exact Q]. eapply paths_child; [apply S; left; reflexivity|exact I].
      - apply IHF. intros z Z. apply S. right. exact Z. }
    apply G; [apply incl_refl|assumption].
Qed.
Lemma related_iff {L M} (R R' : list str -> L -> M -> Prop) (t : tree L) p r :
  (forall q x y, In (q, FLeaf x) (paths t) -> R (p ++ q) x y <-> R' (p ++ q) x y) -> related R p t r <-> related R' p t r.
Proof. intros H. split; apply related_impl; intros; apply H; assumption. Qed.

Section Orbax.
Context {V D array : Type} (zarray : str -> res (list nat * D)) (shape_if : V -> option (list nat)) (named : spec -> option err)
  {regex : Type} (rsearch : regex -> str -> bool).
Notation rules_of := (map (fun ru : regex * uspec => (fst ru, parse_partition_spec (snd ru)))).

Definition leaf_args (dir : str) (rules : list (regex * uspec)) (q : list str) (x : oleaf V) : res (rargs D) :=
  bind (shape_dtype_struct V D zarray dir x) (fun y =>
  bind (search_rules regex rsearch (rules_of rules) (join q) (leaf_shape V D shape_if y)) (fun s =>
  array_restore_args V D named y s)).

Lemma structure_through dir t : structure_of V D zarray dir t = through (fun _ x => shape_dtype_struct V D zarray dir x) t.
Proof. reflexivity. Qed.
Lemma resources_through rules (t : tree leaf) :
  tree_axis_resources_from_regexes regex rsearch t rules = through (fun k x => search_rules regex rsearch (rules_of rules) k x) t.
Proof. reflexivity. Qed.

Let g1 dir (q : list str) (x : oleaf V) : sleaf V D := match shape_dtype_struct V D zarray dir x with Ok y => y | Raise _ => SVal x end.
Let g3 rules (q : list str) (v : leaf) : spec := match search_rules regex rsearch (rules_of rules) (join q) v with Ok s => s | Raise _ => [] end.
Let g4 rules (q : list str) (y : sleaf V D) : spec := g3 rules q (leaf_shape V D shape_if y).
Let g5 rules (q : list str) (y : sleaf V D) : rargs D := match array_restore_args V D named y (g4 rules q y) with Ok a => a | Raise _ => RPlain end.

Lemma in_mapt {L M} (f : list str -> L -> M) t q y : In (q, FLeaf y) (paths (mapt f [] t)) -> exists x, In (q, FLeaf x) (paths t) /\ y = f q x.
Proof.
  rewrite paths_mapt. intros I. apply in_map_iff in I. destruct I as [[q' v] [E I]]. cbn [fst snd app] in E. destruct v as [x|]; [|discriminate].
  injection E as -> <-. exists x. auto.
Qed.
Lemma to_mapt {L M} (f : list str -> L -> M) t q x : In (q, FLeaf x) (paths t) -> In (q, FLeaf (f q x)) (paths (mapt f [] t)).
Proof. rewrite paths_mapt. intros I. apply in_map_iff. exists (q, FLeaf x). auto. Qed.
Lemma node_mapt {L M} (f : list str -> L -> M) cs p : exists ds, mapt f p (Node cs) = Node ds.
Proof. eexists. reflexivity. Qed.

Lemma args_total dir o cs : wf no_slash (Node cs) ->
  (forall q x, In (q, FLeaf x) (paths (Node cs)) -> exists a, leaf_args dir (the_rules o) q x = Ok a) ->
  exists r, restore_args V D zarray shape_if named regex rsearch dir o (Node cs) = Ok r
    /\ related (fun p x a => leaf_args dir (the_rules o) p x = Ok a) [] (Node cs) r.
Proof.
  intros W H. set (t := Node cs) in *. set (rules := the_rules o) in *.
  assert (H1 : forall q x, In (q, FLeaf x) (paths t) -> shape_dtype_struct V D zarray dir x = Ok (g1 dir q x)
      /\ search_rules regex rsearch (rules_of rules) (join q) (leaf_shape V D shape_if (g1 dir q x)) = Ok (g4 rules q (g1 dir q x))
      /\ array_restore_args V D named (g1 dir q x) (g4 rules q (g1 dir q x)) = Ok (g5 rules q (g1 dir q x))).
  { intros q x I. destruct (H q x I) as [a A]. unfold leaf_args in A. apply bind_ok in A. destruct A as [y [Y A]].
    apply bind_ok in A. destruct A as [s [S A]]. assert (G : g1 dir q x = y) by (unfold g1; rewrite Y; reflexivity). rewrite G.
    assert (G4 : g4 rules q y = s) by (unfold g4, g3; rewrite S; reflexivity). unfold g5. rewrite G4, A. auto. }
  exists (mapt (g5 rules) [] (mapt (g1 dir) [] t)). split.
  - unfold restore_args. rewrite structure_through. unfold t at 1. rewrite (through_total _ (g1 dir) cs W) by (intros q x I; apply (H1 q x I)).
    cbn [bind]. fold t. change (match o with Some l => l | None => [] end) with rules. rewrite resources_through.
    rewrite (tmap_mapt (leaf_shape V D shape_if) _ []).
    assert (E2 : through (fun k x => search_rules regex rsearch (rules_of rules) k x) (mapt (fun _ y => leaf_shape V D shape_if y) [] (mapt (g1 dir) [] t))
      = Ok (mapt (g3 rules) [] (mapt (fun _ y => leaf_shape V D shape_if y) [] (mapt (g1 dir) [] t)))).
    { apply (through_total (fun k x => search_rules regex rsearch (rules_of rules) k x) (g3 rules)).
      - apply (wf_mapt no_slash (fun _ y => leaf_shape V D shape_if y) (mapt (g1 dir) [] t) []). apply (wf_mapt no_slash (g1 dir) t []). exact W.
      - intros q v I. apply (in_mapt (fun _ y => leaf_shape V D shape_if y) (mapt (g1 dir) [] t)) in I. destruct I as [y [I ->]].
        apply (in_mapt (g1 dir) t) in I. destruct I as [x [I ->]]. apply (H1 q x I). }
    rewrite E2. cbn [bind]. rewrite mapt_mapt. change (fun q x => g3 rules q (leaf_shape V D shape_if x)) with (g4 rules).
    apply (zipt_mapt _ (g4 rules) (g5 rules) no_slash _ []). { apply wf_mapt. exact W. }
    intros q y I. apply in_mapt in I. destruct I as [x [I ->]]. apply (H1 q x I).
  - rewrite mapt_mapt. apply related_mapt. apply Forall_forall. intros [q v] I. cbn [fst snd app]. destruct v as [x|]; [|exact Logic.I].
    destruct (H1 q x I) as (A1 & A2 & A3). unfold leaf_args. rewrite A1. cbn [bind]. rewrite A2. cbn [bind]. exact A3.
Qed.
Lemma args_inv dir o t r : wf (fun _ => True) t -> restore_args V D zarray shape_if named regex rsearch dir o t = Ok r ->
  (exists cs, t = Node cs) /\ wf no_slash t /\ forall q x, In (q, FLeaf x) (paths t) -> exists a, leaf_args dir (the_rules o) q x = Ok a.
Proof.
  intros W E. unfold restore_args in E. apply bind_ok in E. destruct E as [t1 [E1 E]]. rewrite structure_through in E1.
  destruct (through_inv _ t t1 W E1) as ([cs ->] & W' & H). split; [eauto|]. split; [exact W'|].
  assert (H1 : forall q x, In (q, FLeaf x) (paths (Node cs)) -> shape_dtype_struct V D zarray dir x = Ok (g1 dir q x)).
  { intros q x I. destruct (H q x I) as [y Y]. unfold g1. rewrite Y. reflexivity. }
  rewrite (through_total _ (g1 dir) cs W' H1) in E1. apply Ok_inj in E1. subst t1. apply bind_ok in E. destruct E as [t2 [E2 E]].
  change (match o with Some l => l | None => [] end) with (the_rules o) in E2. rewrite resources_through in E2.
  rewrite (tmap_mapt (leaf_shape V D shape_if) _ []) in E2.
  assert (W1 : wf no_slash (mapt (g1 dir) [] (Node cs))) by (apply wf_mapt; exact W').
  assert (W2 : wf no_slash (mapt (fun _ y => leaf_shape V D shape_if y) [] (mapt (g1 dir) [] (Node cs)))) by (apply wf_mapt; exact W1).
  assert (W3 : wf (fun _ => True) (mapt (fun _ y => leaf_shape V D shape_if y) [] (mapt (g1 dir) [] (Node cs)))) by (apply wf_mapt; apply wf_mapt; exact W).
  destruct (through_inv _ _ t2 W3 E2) as (_ & _ & H2).
  assert (H3 : forall q v, In (q, FLeaf v) (paths (mapt (fun _ y => leaf_shape V D shape_if y) [] (mapt (g1 dir) [] (Node cs)))) ->
     search_rules regex rsearch (rules_of (the_rules o)) (join q) v = Ok (g3 (the_rules o) q v)).
  { intros q v I. destruct (H2 q v I) as [s S]. unfold g3. rewrite S. reflexivity. }
  assert (E2' : through (fun k x => search_rules regex rsearch (rules_of (the_rules o)) k x) (mapt (fun _ y => leaf_shape V D shape_if y) [] (mapt (g1 dir) [] (Node cs)))
      = Ok (mapt (g3 (the_rules o)) [] (mapt (fun _ y => leaf_shape V D shape_if y) [] (mapt (g1 dir) [] (Node cs))))).
  { apply (through_total (fun k x => search_rules regex rsearch (rules_of (the_rules o)) k x) (g3 (the_rules o))); [exact W2|exact H3]. }
  rewrite E2' in E2. apply Ok_inj in E2. subst t2. rewrite mapt_mapt in E.
  change (fun q x => g3 (the_rules o) q (leaf_shape V D shape_if x)) with (g4 (the_rules o)) in E.
  intros q x I. pose proof (zipt_inv _ (g4 (the_rules o)) no_slash _ [] r W1 E q (g1 dir q x) (to_mapt (g1 dir) _ q x I)) as [a A]. cbn [app] in A.
  exists a. unfold leaf_args. rewrite (H1 q x I). cbn [bind].
  pose proof (H3 q _ (to_mapt (fun _ y => leaf_shape V D shape_if y) _ q _ (to_mapt (g1 dir) _ q x I))) as S. cbn beta in S. rewrite S. cbn [bind]. exact A.
Qed.
Lemma args_iff dir o t r : wf (fun _ => True) t ->
  restore_args V D zarray shape_if named regex rsearch dir o t = Ok r <->
  (exists cs, t = Node cs) /\ wf no_slash t /\ related (fun p x a => leaf_args dir (the_rules o) p x = Ok a) [] t r.
Proof.
  intros W. split.
  - intros E. destruct (args_inv dir o t r W E) as ([cs ->] & W' & H). split; [eauto|]. split; [exact W'|].
    destruct (args_total dir o cs W' H) as (r' & E' & R). congruence.
  - intros ([cs ->] & W' & R). destruct (args_total dir o cs W') as (r' & E' & R').
    + intros q x I. exact (related_leaf _ _ _ _ R q x I).
    + rewrite E'. f_equal. eapply related_det; [|exact R'|exact R]. intros p x y z A B. cbn beta in *. congruence.
Qed.

Lemma asked_iff dir rules p (x : oleaf V) a : plain dir -> (forall name, stands_for x name -> relative name) ->
  leaf_args dir rules p x = Ok a <-> asked zarray shape_if named rsearch dir rules p x a.
Proof.
  intros Dp Rn. unfold leaf_args. split.
  - intros E. apply bind_ok in E. destruct E as [y [Y E]]. apply bind_ok in E. destruct E as [s [S E]]. apply search_rules_iff in S.
    destruct x as [|v|v]; cbn [shape_dtype_struct] in Y.
    + apply Ok_inj in Y. subst y. cbn in E, S. apply Ok_inj in E. subst a. constructor. destruct S as [(? & ? & ? & ? & ? & ? & ? & ? & F & ?)|[-> S]]; [discriminate|right; auto].
    + destruct (startswith v placeholder) eqn:P.
      * apply startswith_ok in P. destruct P as [name ->]. apply bind_ok in Y. destruct Y as [[shape dt] [Z Y]]. apply Ok_inj in Y. subst y.
        rewrite skipn_prefix in Z. rewrite file_path in Z by (auto; apply Rn; reflexivity). cbn [fst snd array_restore_args leaf_shape] in *.
        destruct (named s) eqn:N; [discriminate|]. apply Ok_inj in E. subst a. eapply as_array; eauto. reflexivity.
      * apply Ok_inj in Y. subst y. cbn in E. apply Ok_inj in E. subst a. apply (as_value _ _ _ _ _ _ _ _ s).
        { intros name H. injection H as H. assert (F : startswith v placeholder = true) by (apply startswith_ok; exists name; exact H). congruence. }
        { discriminate. } exact S.
    + apply Ok_inj in Y. subst y. cbn in E. apply Ok_inj in E. subst a. apply (as_value _ _ _ _ _ _ _ _ s); [intros name; discriminate|discriminate|exact S].
  - intros A. inversion A as [x' name shape dt s St Z F N|F|x' s K N F]; subst.
    + unfold stands_for in St. subst x. cbn [shape_dtype_struct]. rewrite (proj2 (startswith_ok placeholder (placeholder ++ name))) by (exists name; reflexivity).
      rewrite skipn_prefix, file_path by (auto; apply Rn; reflexivity). rewrite Z. cbn [bind fst snd leaf_shape]. apply search_rules_iff in F. rewrite F.
      cbn [bind array_restore_args]. rewrite N. reflexivity.
    + apply search_rules_iff in F. cbn [shape_dtype_struct bind leaf_shape]. rewrite F. reflexivity.
    + apply search_rules_iff in F. destruct x as [|v|v]; [contradiction| |].
      * cbn [shape_dtype_struct]. destruct (startswith v placeholder) eqn:P.
        { apply startswith_ok in P. destruct P as [name ->]. exfalso. exact (K name eq_refl). }
        cbn [bind leaf_shape]. cbn [shape_kept] in F. rewrite F. reflexivity.
      * cbn [shape_dtype_struct bind leaf_shape]. cbn [shape_kept] in F. rewrite F. reflexivity.
Qed.

Lemma restore_args_iff dir o (t : tree (oleaf V)) r : wf (fun _ => True) t -> plain dir -> names_relative t ->
  restore_args V D zarray shape_if named regex rsearch dir o t = Ok r <->
  (exists cs, t = Node cs) /\ wf no_slash t /\ related (asked zarray shape_if named rsearch dir (the_rules o)) [] t r.
Proof.
  intros W Dp N. rewrite args_iff by exact W.
  assert (H : related (fun p x a => leaf_args dir (the_rules o) p x = Ok a) [] t r <-> related (asked zarray shape_if named rsearch dir (the_rules o)) [] t r).
  { apply related_iff. intros q x y I. apply asked_iff; [exact Dp|]. intros name S. apply paths_leaf_at in I. exact (N q x name I S). }
  rewrite H. reflexivity.
Qed.

(** ** Restoring *)
Context (stored : str -> res array) (value : oleaf V -> array) (cast : D -> array -> array) (resize : list nat -> array -> array)
  (fits : spec -> list nat -> option err) (shape_of : array -> list nat) (dtype_of : array -> D).

Lemma restored_iff dir o (t : tree (oleaf V)) c : wf (fun _ => True) t -> plain dir -> names_relative t ->
  consistent zarray stored shape_of dtype_of cast resize dir t ->
  restore_orbax V D array zarray shape_if named regex rsearch stored value cast resize fits dir o t = Ok c <->
  (exists cs, t = Node cs) /\ wf no_slash t /\
  related (fun p x y => restored stored value x y /\ exists a, asked zarray shape_if named rsearch dir (the_rules o) p x a /\ fits_args fits a) [] t c.
Proof.
  intros W Dp N [C1 C2].
  assert (L : forall q x y, In (q, FLeaf x) (paths t) ->
     ((exists a, leaf_args dir (the_rules o) q x = Ok a /\ restore_leaf V D array stored value cast resize fits x a = Ok y) <->
      (restored stored value x y /\ exists a, asked zarray shape_if named rsearch dir (the_rules o) q x a /\ fits_args fits a))).
  { intros q x y I. assert (Rn : forall name, stands_for x name -> relative name) by (intros name S; apply paths_leaf_at in I; exact (N q x name I S)).
    split.
    - intros (a & A & B). apply asked_iff in A; auto. inversion A as [x' name shape dt s St Z F Nn|F|x' s K Nn F]; subst.
      + pose proof St as St'. unfold stands_for in St. subst x. cbn [restore_leaf] in B. rewrite skipn_prefix in B. apply bind_ok in B. destruct B as [z [Sz B]].
        destruct (fits s shape) eqn:Ft; [discriminate|]. apply Ok_inj in B. subst y.
        pose proof (C1 q _ name z (paths_leaf_at _ _ _ I) St' Sz) as Z'. rewrite Z in Z'. apply Ok_inj in Z'. injection Z' as -> ->.
        destruct (C2 z) as [Cc Cr]. rewrite Cc, Cr. split; [eapply re_array; eauto|]. eexists. split; [exact A|]. intros d s' sh H. injection H as _ <- <-. exact Ft.
      + cbn in B. apply Ok_inj in B. subst y. split; [apply re_value; intros name; discriminate|]. exists RNone. split; [exact A|]. intros d s sh H. discriminate.
      + assert (y = value x) by (destruct x; cbn in B; congruence). subst y. split; [apply re_value; exact K|]. exists RPlain. split; [exact A|]. intros d s' sh H. discriminate.
    - intros (R & a & A & Ft). exists a. split; [apply asked_iff; auto|]. inversion A as [x' name shape dt s St Z F Nn|F|x' s K Nn F]; subst.
      + inversion R as [x' name' z St' Sz|x' K]; subst; [|exfalso; exact (K name St)].
        pose proof (C1 q _ name' y (paths_leaf_at _ _ _ I) St' Sz) as Z'.
        assert (name' = name) by (unfold stands_for in *; rewrite St in St'; injection St' as St'; congruence). subst name'.
        rewrite Z in Z'. apply Ok_inj in Z'. injection Z' as -> ->. unfold stands_for in St. subst x. cbn [restore_leaf]. rewrite skipn_prefix, Sz. cbn [bind].
        rewrite (Ft _ _ _ eq_refl). destruct (C2 y) as [-> ->]. reflexivity.
      + inversion R as [x' name' z St' Sz|x' K]; subst; [discriminate|]. reflexivity.
      + inversion R as [x' name' z St' Sz|x' K']; subst; [exfalso; exact (K _ St')|]. destruct x; reflexivity. }
  transitivity ((exists cs, t = Node cs) /\ wf no_slash t /\ related (fun p x y => exists a, leaf_args dir (the_rules o) p x = Ok a /\ restore_leaf V D array stored value cast resize fits x a = Ok y) [] t c).
  2:{ assert (H : related (fun p x y => exists a, leaf_args dir (the_rules o) p x = Ok a /\ restore_leaf V D array stored value cast resize fits x a = Ok y) [] t c <->
        related (fun p x y => restored stored value x y /\ exists a, asked zarray shape_if named rsearch dir (the_rules o) p x a /\ fits_args fits a) [] t c)
      by (apply related_iff; intros q x y I; exact (L q x y I)). rewrite H. reflexivity. }
  set (ga := fun (q : list str) (x : oleaf V) => match leaf_args dir (the_rules o) q x with Ok a => a | Raise _ => RPlain end).
  set (gv := fun (q : list str) (x : oleaf V) => match restore_leaf V D array stored value cast resize fits x (ga q x) with Ok a => a | Raise _ => value x end).
  assert (Ga : forall r, related (fun p x a => leaf_args dir (the_rules o) p x = Ok a) [] t r -> r = mapt ga [] t).
  { intros r R. eapply related_det; [|exact R|]. { intros p x y z A B. cbn beta in *. congruence. }
    apply related_mapt. apply Forall_forall. intros [q v] I. cbn [fst snd app]. destruct v as [x|]; [|exact Logic.I].
    destruct (related_leaf _ _ _ _ R q x I) as [a A]. cbn [app] in A. unfold ga. rewrite A. reflexivity. }
  assert (M : forall ts, t = Node ts -> wf no_slash t -> (forall q x, In (q, FLeaf x) (paths t) -> exists y a, leaf_args dir (the_rules o) q x = Ok a /\ restore_leaf V D array stored value cast resize fits x a = Ok y) ->
     restore_orbax V D array zarray shape_if named regex rsearch stored value cast resize fits dir o t = Ok (mapt gv [] t)
     /\ related (fun p x y => exists a, leaf_args dir (the_rules o) p x = Ok a /\ restore_leaf V D array stored value cast resize fits x a = Ok y) [] t (mapt gv [] t)).
  { intros ts Et W' H. unfold restore_orbax. subst t. destruct (args_total dir o ts W') as (r & E & R). { intros q x I. destruct (H q x I) as (y & a & A & _). eauto. }
    rewrite E. cbn [bind]. rewrite (Ga r R). 
    assert (H' : forall q x, In (q, FLeaf x) (paths (Node ts)) -> leaf_args dir (the_rules o) q x = Ok (ga q x) /\ restore_leaf V D array stored value cast resize fits x (ga q x) = Ok (gv q x)).
    { intros q x I. destruct (H q x I) as (y & a & A & B). unfold gv. assert (G : ga q x = a) by (unfold ga; rewrite A; reflexivity). rewrite G, B. auto. }
    split. { apply (zipt_mapt _ ga gv no_slash _ [] W'). intros q x I. cbn [app]. apply (H' q x I). }
    apply related_mapt. apply Forall_forall. intros [q v] I. cbn [fst snd app]. destruct v as [x|]; [|exact Logic.I]. exists (ga q x). apply H'. exact I. }
  split.
  - intros E. pose proof E as E0. unfold restore_orbax in E. apply bind_ok in E. destruct E as [r [E1 E]]. apply args_iff in E1; [|exact W]. destruct E1 as ([cs Et] & W' & R).
    split; [eauto|]. split; [exact W'|]. destruct (M cs Et W') as [E' R'].
    + intros q x I. rewrite (Ga r R) in E. destruct (zipt_inv _ ga no_slash _ [] c W' E q x I) as [y Y]. cbn [app] in Y.
      destruct (related_leaf _ _ _ _ R q x I) as [a A]. cbn [app] in A. exists y, a. split; [exact A|]. unfold ga in Y. rewrite A in Y. exact Y.
    + congruence.
  - intros ([cs Et] & W' & R). destruct (M cs Et W') as [E' R'].
    + intros q x I. exact (related_leaf _ _ _ _ R q x I).
    + rewrite E'. f_equal. eapply related_det; [|exact R'|exact R]. intros p x y z (a & A & A') (b & B & B'). congruence.
Qed.
Lemma restored_det (x : oleaf V) (y z : array) : restored stored value x y -> restored stored value x z -> y = z.
Proof.
  intros A B. inversion A as [x1 n1 a1 S1 T1|x1 K1]; inversion B as [x2 n2 a2 S2 T2|x2 K2]; subst.
  - unfold stands_for in *. rewrite S1 in S2. injection S2 as S2. subst. congruence.
  - exfalso. exact (K2 _ S1).
  - exfalso. exact (K1 _ S2).
  - reflexivity.
Qed.
Lemma restored_same dir o o' (t : tree (oleaf V)) c c' : wf (fun _ => True) t -> plain dir -> names_relative t ->
  consistent zarray stored shape_of dtype_of cast resize dir t ->
  restore_orbax V D array zarray shape_if named regex rsearch stored value cast resize fits dir o t = Ok c ->
  restore_orbax V D array zarray shape_if named regex rsearch stored value cast resize fits dir o' t = Ok c' -> c = c'.
Proof.
  intros W Dp N C E E'. apply (restored_iff dir o t c W Dp N C) in E. apply (restored_iff dir o' t c' W Dp N C) in E'.
  destruct E as (_ & _ & R), E' as (_ & _ & R').
  apply (related_det (fun _ x y => restored stored value x y) t (fun _ x y z => restored_det x y z) []).
  - eapply related_impl; [|exact R]. intros q x y _ [H _]. exact H.
  - eapply related_impl; [|exact R']. intros q x y _ [H _]. exact H.
Qed.
Lemma related_exists {L M} (R : list str -> L -> M -> Prop) (t : tree L) : forall p,
  (forall q x, In (q, FLeaf x) (paths t) -> exists y, R (p ++ q) x y) -> exists r, related R p t r.
Proof.
  induction t as [x|cs IH] using tree_ind'; intros p H.
  - destruct (H [] x (or_introl eq_refl)) as [y Y]. rewrite app_nil_r in Y. exists (Leaf y). constructor. exact Y.
  - assert (G : forall l, incl l cs -> exists ds, Forall2 (fun kc kd => fst kc = fst kd /\ related R (p ++ [fst kc]) (snd kc) (snd kd)) l ds).
    { induction l as [|[k c] l IHl]; intros S; [exists []; constructor|]. destruct IHl as [ds F]; [intros z Z; apply S; right; exact Z|].
      assert (Ic : In (k, c) cs) by (apply S; left; reflexivity). rewrite Forall_forall in IH. destruct (IH (k, c) Ic (p ++ [k])) as [d Rd].
      { intros q x I. cbn [snd] in I. rewrite <- app_assoc. simpl. apply H. eapply paths_child; eauto. }
      exists ((k, d) :: ds). constructor; [split; [reflexivity|exact Rd]|exact F]. }
    destruct (G cs (incl_refl cs)) as [ds F]. exists (Node ds). constructor. exact F.
Qed.
Lemma restored_accepts dir cs : wf no_slash (Node cs) -> plain dir -> names_relative (Node cs) ->
  consistent zarray stored shape_of dtype_of cast resize dir (Node cs) -> named [] = None -> (forall sh, fits [] sh = None) ->
  (forall p x name, leaf_at (Node cs) p x -> stands_for x name -> exists a, stored name = Ok a) ->
  exists c, restore_orbax V D array zarray shape_if named regex rsearch stored value cast resize fits dir None (Node cs) = Ok c.
Proof.
  intros W Dp N C Nm Ft St.
  destruct (related_exists (fun p x y => restored stored value x y /\ exists a, asked zarray shape_if named rsearch dir (@the_rules regex None) p x a /\ fits_args fits a) (Node cs) []) as [c R].
  - intros q x I. apply paths_leaf_at in I.
    assert (F0 : forall v, first_rule regex rsearch [] q v []) by (intros v; right; split; [reflexivity|left; constructor]).
    assert (K : (exists name, stands_for x name) \/ kept x).
    { destruct x as [|v|v]; [right; intros name; discriminate| |right; intros name; discriminate].
      destruct (startswith v placeholder) eqn:E. { apply startswith_ok in E. destruct E as [name ->]. left. exists name. reflexivity. }
      right. intros name H. injection H as H. assert (F : startswith v placeholder = true) by (apply startswith_ok; exists name; exact H). congruence. }
    destruct K as [[name S]|K].
    + destruct (St q x name I S) as [a A]. exists a. split; [eapply re_array; eauto|]. exists (RArray (dtype_of a) [] (shape_of a)). split.
      * eapply as_array; eauto. exact (proj1 C q x name a I S A).
      * intros d s sh H. injection H as _ <- <-. apply Ft.
    + exists (value x). split; [apply re_value; exact K|]. destruct x as [|v|v].
      * exists RNone. split; [constructor; apply F0|intros d s sh H; discriminate].
      * exists RPlain. split; [eapply as_value; [exact K|discriminate|apply F0]|intros d s sh H; discriminate].
      * exists RPlain. split; [eapply as_value; [exact K|discriminate|apply F0]|intros d s sh H; discriminate].
  - exists c. apply restored_iff; auto. 2:{ split; [eauto|]. split; [exact W|exact R]. }
    clear - W. revert W. generalize (Node cs). intros t. induction t as [x|l IH] using tree_ind'; intros W; [constructor|]. inversion W as [|? ND F]; subst. constructor; [exact ND|].
    rewrite Forall_forall in *. intros kc I. split; [exact Logic.I|]. apply IH; [exact I|]. apply F. exact I.
Qed.
End Orbax.
