(** Proofs of C26 and C27. *)
From Coq Require Import List Arith Bool Lia.
From Verif Require Import Py PyLemmas TreeModel TreeSpec TreeProofs.
Import ListNotations.

(** ** C26 *)
Fixpoint mapt {L M} (f : list str -> L -> M) (p : list str) (t : tree L) : tree M :=
  match t with
  | Leaf x => Leaf (f p x)
  | Node cs => Node (map (fun kc => (fst kc, mapt f (p ++ [fst kc]) (snd kc))) cs)
  end.
Definition mapv {L M} (f : list str -> L -> M) (p : list str) (v : flatv L) : flatv M :=
  match v with FLeaf x => FLeaf (f p x) | FEmpty => FEmpty end.

Lemma paths_mapt {L M} (f : list str -> L -> M) t : forall p,
  paths (mapt f p t) = map (fun qv => (fst qv, mapv f (p ++ fst qv) (snd qv))) (paths t).
Proof.
  induction t as [x|cs IH] using tree_ind'; intros p. { simpl. rewrite app_nil_r. auto. }
  destruct cs as [|kc cs]; auto.
  change (mapt f p (Node (kc :: cs))) with (Node (map (fun kc => (fst kc, mapt f (p ++ [fst kc]) (snd kc))) (kc :: cs))).
  rewrite !paths_node by discriminate. unfold paths_list. induction IH as [|x l Hx F IH]; auto.
  cbn [flat_map map fst snd]. rewrite map_app, <- IH. f_equal. rewrite Hx, !map_map. apply map_ext. intros qv. simpl.
  rewrite <- app_assoc. auto.
Qed.
Lemma wf_mapt {L M} P (f : list str -> L -> M) t : forall p, wf P t -> wf P (mapt f p t).
Proof.
  induction t as [x|cs IH] using tree_ind'; intros p W; [constructor|]. inversion W as [|? ND F]; subst. simpl. constructor.
  - rewrite map_map. simpl. auto.
  - rewrite Forall_forall in *. intros kd I. apply in_map_iff in I. destruct I as [kc [<- I]]. simpl. split; [apply F; auto|].
    apply IH; auto. apply F; auto.
Qed.
Lemma from_state_mapt {L M} P (f : list str -> L -> M) t : forall p, wf P t ->
  from_state_dict t (mapt f p t) = Ok (mapt f p t).
Proof.
  induction t as [x|cs IH] using tree_ind'; intros p W; auto. inversion W as [|? ND F]; subst. cbn [mapt from_state_dict].
  rewrite (proj2 (forallb_forall _ _)).
  2:{ intros kc I. apply existsb_exists. exists (fst kc). split; [|apply str_eqb_refl]. rewrite map_map. simpl. apply in_map; auto. }
  rewrite (proj2 (rmap_ok _ _ (map (fun kc => (fst kc, mapt f (p ++ [fst kc]) (snd kc))) cs))); auto.
  assert (ND' : NoDup (map fst (map (fun kc => (fst kc, mapt f (p ++ [fst kc]) (snd kc))) cs))) by (rewrite map_map; auto).
  assert (G : forall l, incl l cs -> Forall2 (fun x y => match dget (map (fun kc => (fst kc, mapt f (p ++ [fst kc]) (snd kc))) cs) (fst x) with
      | Some s => bind (from_state_dict (snd x) s) (fun x0 => Ok (fst x, x0)) | None => Raise KeyError end = Ok y) l
      (map (fun kc => (fst kc, mapt f (p ++ [fst kc]) (snd kc))) l)).
  { induction l as [|kc l IHl]; intros S; simpl; constructor.
    - rewrite (dget_in _ (fst kc) (mapt f (p ++ [fst kc]) (snd kc))); auto.
      + rewrite Forall_forall in *. rewrite IH; auto; [apply S; simpl; auto|]. apply F. apply S. simpl; auto.
      + apply in_map_iff. exists kc. split; auto. apply S. simpl; auto.
    - apply IHl. intros x I. apply S. simpl; auto. }
  apply G. apply incl_refl.
Qed.

(** No key of an unflattened dict has a slash. *)
Lemma dset_in {V} (d : list (str * V)) k v kv : In kv (dset d k v) -> In kv d \/ kv = (k, v).
Proof.
  induction d as [|[k' v'] d IH]; simpl; [intuition|]. destruct (str_eqb_spec k' k) as [->|N]; simpl; intuition.
Qed.
Inductive keys {L} (P : str -> Prop) : tree L -> Prop :=
| k_leaf x : keys P (Leaf x)
| k_node cs : Forall (fun kc => P (fst kc) /\ keys P (snd kc)) cs -> keys P (Node cs).
Lemma dget_keys {L} P (cs : list (str * tree L)) k c : Forall (fun kc => P (fst kc) /\ keys P (snd kc)) cs -> dget cs k = Some c -> keys P c.
Proof.
  induction 1 as [|[k' c'] cs [H1 H2] F IH]; simpl; [discriminate|]. destruct (str_eqb k' k); auto. intros E. injection E as <-. auto.
Qed.
Lemma insert_keys {L} P p : forall (v t u : tree L), Forall P p -> keys P v -> keys P t -> insert p v t = Ok u -> keys P u.
Proof.
  induction p as [|k p IH]; intros v t u Fp Kv Kt E; destruct t as [x|cs]; try discriminate. inversion Fp; subst. inversion Kt; subst.
  cbn [insert] in E. destruct p as [|k' p].
  - injection E as <-. constructor. rewrite Forall_forall in *. intros kv I. apply dset_in in I. destruct I as [I| ->]; auto.
  - apply bind_ok in E. destruct E as [c [Ec E]]. injection E as <-. apply IH in Ec; auto.
    + constructor. rewrite Forall_forall in *. intros kv I. apply dset_in in I. destruct I as [I| ->]; auto.
    + destruct (dget cs k) as [s|] eqn:D; [|constructor; constructor]. eapply dget_keys; eauto.
Qed.
Lemma unflatten_keys {L} (xs : list (str * flatv L)) : forall t u, keys no_slash t ->
  rfold (fun t kv => insert (split (fst kv)) (of_flat (snd kv)) t) xs t = Ok u -> keys no_slash u.
Proof.
  induction xs as [|[k v] xs IH]; simpl; intros t u K E. { injection E as <-. auto. }
  apply bind_ok in E. destruct E as [t1 [E1 E]]. eapply IH; [|exact E]. eapply insert_keys; [apply split_no_slash| |exact K|exact E1].
  destruct v; simpl; repeat constructor.
Qed.
Lemma from_state_keys {L M} P (t : tree L) : forall u r : tree M, keys P u -> from_state_dict t u = Ok r -> keys P t.
Proof.
  induction t as [x|cs IH] using tree_ind'; intros u r K E; [constructor|]. cbn [from_state_dict] in E. destruct u as [y|ss]; [discriminate|].
  destruct (forallb _ cs) eqn:B; [|discriminate]. apply bind_ok in E. destruct E as [xs [E _]]. apply rmap_ok in E. rewrite forallb_forall in B.
  inversion K; subst. constructor. rewrite Forall_forall in *. intros kc I. split.
  - apply B in I. apply existsb_exists in I. destruct I as [k [I Ek]]. destruct (str_eqb_spec (fst kc) k) as [->|]; [|discriminate].
    apply in_map_iff in I. destruct I as [s [<- I]]. apply H0; auto.
  - assert (G : exists s x, dget ss (fst kc) = Some s /\ from_state_dict (snd kc) s = Ok x).
    { clear - E I. induction E as [|a b l l' Ea F IHF]; [contradiction|]. destruct I as [->|I]; [|auto].
      destruct (dget ss (fst kc)) as [s|]; [|discriminate]. apply bind_ok in Ea. destruct Ea as [x [Ex _]]. eauto. }
    destruct G as [s [x [D Ex]]]. apply (IH kc I s x); auto. eapply dget_keys; [|exact D]. apply Forall_forall. auto.
Qed.
Lemma wf_keys {L} P (t : tree L) : wf (fun _ => True) t -> keys P t -> wf P t.
Proof.
  induction t as [x|cs IH] using tree_ind'; intros W K; [constructor|]. inversion W as [|? ND F1]; inversion K as [|? F2]; subst. constructor; auto.
  rewrite Forall_forall in *. intros kc I. destruct (F1 kc I), (F2 kc I). split; auto.
Qed.

Section Rules.
Variable regex : Type.
Variable search : regex -> str -> bool.
Notation rules_of := (map (fun ru : regex * uspec => (fst ru, parse_partition_spec (snd ru)))).

Lemma search_rules_ok rules : forall p v s, search_rules regex search (rules_of rules) (join p) v = Ok s ->
  first_rule regex search rules p v s.
Proof.
  induction rules as [|[r u] rules IH]; intros p v s E; simpl in E. { injection E as <-. right. split; auto. }
  destruct (search r (join p)) eqn:S.
  - destruct v as [shape|]; [|discriminate]. destruct (Nat.ltb_spec 1 (size shape)).
    + injection E as <-. left. exists [], r, u, rules, shape. repeat split; auto. destruct u as [|[|]|]; constructor.
    + right. assert (Es : s = []).
      { clear - E H. assert (H' : 1 <? size shape = false) by (apply Nat.ltb_ge; auto).
        induction rules as [|[r' u'] rules IH]; simpl in E; [congruence|]. rewrite H' in E. destruct (search r' (join p)); auto. }
      split; auto. right. eauto.
  - apply IH in E. destruct E as [[b [r' [u' [a [sh [E1 [E2 [E3 E4]]]]]]]]|[E1 E2]].
    + left. exists ((r, u) :: b), r', u', a, sh. subst rules. repeat split; auto; try tauto.
    + right. split; auto. destruct E2 as [E2|E2]; auto.
Qed.
Lemma search_rules_total rules p v :
  (forall r u, In (r, u) rules -> search r (join p) = true -> v <> None) ->
  exists s, search_rules regex search (rules_of rules) (join p) v = Ok s.
Proof.
  induction rules as [|[r u] rules IH]; intros H; simpl; [eauto|]. destruct (search r (join p)) eqn:S; [|apply IH; intros; eapply H; simpl; eauto].
  destruct v as [shape|]; [|exfalso; eapply H; simpl; eauto]. destruct (1 <? size shape); [eauto|]. apply IH. intros; discriminate.
Qed.

Lemma related_mapt {L M} (R : list str -> L -> M -> Prop) f t : forall p,
  Forall (fun qv => match snd qv with FLeaf x => R (p ++ fst qv) x (f (p ++ fst qv) x) | FEmpty => True end) (paths t) ->
  related R p t (mapt f p t).
Proof.
  induction t as [x|cs IH] using tree_ind'; intros p F. { simpl. inversion F; subst. simpl in H1. rewrite app_nil_r in H1. constructor; auto. }
  simpl. constructor. destruct cs as [|kc cs]; [constructor|]. rewrite paths_node in F by discriminate.
  revert IH F. generalize (kc :: cs) as l. unfold paths_list. induction l as [|[k c] l IHl]; intros IH F; simpl; constructor; inversion IH; subst.
  - simpl. split; auto. apply H1. simpl in F. apply Forall_app in F. destruct F as [F _]. rewrite Forall_forall in *. intros qv I. simpl in *.
    specialize (F (k :: fst qv, snd qv)). simpl in F. rewrite <- app_assoc. simpl. apply F. apply in_map_iff. exists qv; auto.
  - apply IHl; auto. simpl in F. apply Forall_app in F. apply F.
Qed.

Definition spec_fun (rules : list (regex * uspec)) (p : list str) (v : leaf) : spec :=
  match search_rules regex search (rules_of rules) (join p) v with Ok s => s | Raise _ => [] end.

Lemma tree_resources rules (t : tree leaf) kc cs : t = Node (kc :: cs) -> wf no_slash t ->
  (forall q x, In (q, FLeaf x) (paths t) -> exists s, search_rules regex search (rules_of rules) (join q) x = Ok s) ->
  tree_axis_resources_from_regexes regex search t rules = Ok (mapt (spec_fun rules) [] t).
Proof.
  intros E W H. unfold tree_axis_resources_from_regexes. rewrite E at 1. unfold flatten_dict. rewrite <- E. cbn [bind].
  rewrite (flatten_paths t []); auto; [|eauto]. cbn [app].
  rewrite (proj2 (rmap_ok _ _ (map (fun qv => (join (fst qv), mapv (spec_fun rules) (fst qv) (snd qv))) (paths t)))).
  - cbn [bind].
    assert (G : map (fun qv => (join (fst qv), mapv (spec_fun rules) (fst qv) (snd qv))) (paths t)
                = map (fun pv => (join (fst pv), snd pv)) (paths (mapt (spec_fun rules) [] t))).
    { rewrite paths_mapt, map_map. simpl. auto. }
    rewrite G. subst t.
    rewrite (unflatten_flatten (mapt (spec_fun rules) [] (Node (kc :: cs))) (fst kc, mapt (spec_fun rules) ([] ++ [fst kc]) (snd kc))
              (map (fun kc => (fst kc, mapt (spec_fun rules) ([] ++ [fst kc]) (snd kc))) cs)); auto; [|apply wf_mapt; auto].
    cbn [bind]. apply (from_state_mapt no_slash); auto.
  - clear E W. induction (paths t) as [|[q v] l IH]; simpl; constructor; [|apply IH; intros; apply H; simpl; auto].
    simpl. destruct v as [x|]; simpl; auto. destruct (H q x (or_introl eq_refl)) as [s Es]. unfold spec_fun. rewrite Es. auto.
Qed.

Lemma axis_resources_ok rules t r : wf (fun _ => True) t ->
  tree_axis_resources_from_regexes regex search t rules = Ok r -> related (first_rule regex search rules) [] t r.
Proof.
  intros W0 E. assert (W : wf no_slash t).
  { apply wf_keys; auto. unfold tree_axis_resources_from_regexes in E. apply bind_ok in E. destruct E as [fl [_ E]].
    apply bind_ok in E. destruct E as [ar [_ E]]. apply bind_ok in E. destruct E as [u [Eu E]].
    apply unflatten_keys in Eu; [|constructor; constructor]. eapply from_state_keys; eauto. }
  destruct t as [x|[|kc cs]]. { discriminate. }
  { simpl in E. injection E as <-. constructor. constructor. }
  assert (H : forall q x, In (q, FLeaf x) (paths (Node (kc :: cs))) -> exists s, search_rules regex search (rules_of rules) (join q) x = Ok s).
  { unfold tree_axis_resources_from_regexes in E. cbn [flatten_dict bind] in E. rewrite (flatten_paths _ []) in E; auto; [|eauto].
    apply bind_ok in E. destruct E as [ar [E _]]. apply rmap_ok in E. intros q x I. clear - E I.
    generalize dependent ar. induction (paths (Node (kc :: cs))) as [|qv l IH]; [contradiction|]. intros ar E. inversion E; subst.
    destruct I as [->|I]; [|eapply IH; eauto]. simpl in H1. apply bind_ok in H1. destruct H1 as [fv [H1 _]]. apply bind_ok in H1.
    destruct H1 as [s [H1 _]]. eauto. }
  rewrite (tree_resources rules _ kc cs eq_refl W H) in E. apply Ok_inj in E. subst r. apply related_mapt. apply Forall_forall.
  intros [q v] I. simpl. destruct v as [x|]; auto. destruct (H q x I) as [s Es]. unfold spec_fun. rewrite Es. apply search_rules_ok; auto.
Qed.

Lemma paths_leaf_at {L} (t : tree L) : forall q x, In (q, FLeaf x) (paths t) -> leaf_at t q x.
Proof.
  induction t as [y|cs IH] using tree_ind'; intros q x I. { simpl in I. destruct I as [I|[]]. injection I as <- <-. constructor. }
  destruct cs as [|kc cs]. { simpl in I. destruct I as [I|[]]. discriminate. }
  rewrite paths_node in I by discriminate. unfold paths_list in I. apply in_flat_map in I. destruct I as [[k c] [Ic I]].
  apply in_map_iff in I. destruct I as [[p v] [E I]]. simpl in E. injection E as <- ->. rewrite Forall_forall in IH.
  econstructor; [exact Ic|]. apply (IH (k, c)); auto.
Qed.
Lemma axis_resources_total rules cs : wf no_slash (Node cs) ->
  (forall q r u, leaf_at (Node cs) q None -> In (r, u) rules -> search r (join q) = false) ->
  exists r, tree_axis_resources_from_regexes regex search (Node cs) rules = Ok r.
Proof.
  intros W H. destruct cs as [|kc cs]; [eexists; reflexivity|]. eexists. eapply tree_resources; eauto.
  intros q x I. apply search_rules_total. intros r u Ir Es ->. apply paths_leaf_at in I. rewrite (H q r u I Ir) in Es. discriminate.
Qed.
End Rules.

(** ** C27 *)
Section Zip.
Context {T : Type}.
Notation next := (next T).
Notation next_loop := (next_loop T).

Lemma next_loop_stopped its : forall i s els, exists s' els' its', next_loop i its (Some s) els = (Some s', els', its') /\
  (els' = els -> Forall (fun l => l = []) its) /\ (exists more, els' = els ++ more).
Proof.
  induction its as [|l its IH]; intros i s els; simpl. { exists s, els, []. repeat split; auto. exists []. rewrite app_nil_r; auto. }
  destruct l as [|x l].
  - destruct (IH (S i) i els) as [s' [els' [its' [E [H1 H2]]]]]. rewrite E. exists s', els', ([] :: its'). repeat split; auto.
  - exists s, (els ++ [x]), (l :: its). repeat split; eauto. intros E. apply (f_equal (@length T)) in E. rewrite app_length in E. simpl in E. lia.
Qed.
Lemma next_loop_running its : forall i els, 
  (exists heads, its = map (fun hl => fst hl :: snd hl) heads /\ next_loop i its None els = (None, els ++ map fst heads, map snd heads)) \/
  (exists s els' its', next_loop i its None els = (Some s, els', its') /\ In [] its /\ (els' = els -> Forall (fun l => l = []) its) /\ (exists more, els' = els ++ more)).
Proof.
  induction its as [|l its IH]; intros i els; simpl. { left. exists []. simpl. rewrite app_nil_r. auto. }
  destruct l as [|x l].
  - right. destruct (next_loop_stopped its (S i) i els) as [s' [els' [its' [E [H1 H2]]]]]. rewrite E. exists s', els', ([] :: its'). repeat split; auto.
  - destruct (IH (S i) (els ++ [x])) as [[heads [E1 E2]]|[s' [els' [its' [E [H0 [H1 [more H2]]]]]]]].
    + left. exists ((x, l) :: heads). subst its. rewrite E2. simpl. rewrite <- app_assoc. auto.
    + right. rewrite E. exists s', els', (l :: its'). repeat split; auto.
      * intros K. subst els'. rewrite <- app_assoc in K. apply (f_equal (@length T)) in K. rewrite !app_length in K. simpl in K. lia.
      * exists (x :: more). rewrite H2, <- app_assoc. auto.
Qed.

Lemma nil_dec (l : list T) : {l = []} + {l <> []}.
Proof. destruct l; [left; auto|right; discriminate]. Qed.
Lemma next_cases its :
  (Forall (fun l => l = []) its /\ fst (next its) = SStop T) \/
  (exists heads, heads <> [] /\ its = map (fun hl => fst hl :: snd hl) heads /\ next its = (SElems T (map fst heads), map snd heads)) \/
  (exists i, In [] its /\ (exists l, In l its /\ l <> []) /\ fst (next its) = SError T i).
Proof.
  unfold TreeModel.next. destruct (next_loop_running its 0 []) as [[heads [E1 E2]]|[s [els [its' [E [H0 [H1 [more H2]]]]]]]].
  - rewrite E2. simpl. destruct heads as [|h heads].
    + left. subst its. split; [constructor|auto].
    + right. left. exists (h :: heads). split; [discriminate|]. split; auto.
  - rewrite E. simpl in H2. subst more. destruct els as [|x els].
    + left. split; [apply H1; auto|auto].
    + right. right. exists s. split; auto. split; auto.
      destruct (Forall_dec (fun l : list T => l = []) nil_dec its) as [F|F].
      * exfalso. assert (G : forall its i s0 , Forall (fun l : list T => l = []) its -> snd (fst (next_loop i its s0 [])) = []).
        { clear. induction its as [|l its IH]; intros i s0 F; auto. inversion F; subst. simpl.
          specialize (IH (S i) (Some i) H2). destruct (next_loop (S i) its (Some i) []) as [[? ?] ?]. auto. }
        specialize (G its 0 None F). rewrite E in G. discriminate.
      * apply Exists_Forall_neg in F; [|intros l; destruct (nil_dec l); auto]. apply Exists_exists in F. auto.
Qed.

Lemma iterates_ended its out o : iterates T its out o -> o = Ended ->
  Forall (fun l => length l = length out) its /\ (its = [] -> out = []) /\
  forall k d, k < length out -> nth k out [] = map (fun l => nth k l d) its.
Proof.
  induction 1 as [its its' E|its its' i E|its its' e out o E R IH]; intros Eo; try discriminate.
  - split; [|split; auto; simpl; intros; lia]. destruct (next_cases its) as [[F _]|[[h [N [_ E2]]]|[i [_ [_ E2]]]]].
    + eapply Forall_impl; [|exact F]. intros l ->; auto.
    + rewrite E in E2. discriminate.
    + rewrite E in E2. discriminate.
  - destruct (IH Eo) as [F [Z G]]. destruct (next_cases its) as [[_ E2]|[[h [N [E1 E2]]]|[i [_ [_ E2]]]]];
      [rewrite E in E2; discriminate| |rewrite E in E2; discriminate].
    rewrite E in E2. injection E2 as -> ->. subst its. split; [|split].
    + rewrite Forall_forall in *. intros l I. apply in_map_iff in I. destruct I as [hl [<- I]]. simpl. f_equal. apply F. apply in_map; auto.
    + destruct h; [contradiction|discriminate].
    + intros k d Hk. destruct k as [|k]; simpl; [rewrite map_map; auto|]. rewrite G with (d := d) by (simpl in Hk; lia). rewrite !map_map. auto.
Qed.
Lemma iterates_failed its out o : iterates T its out o -> forall i, o = Failed i ->
  (exists l l', In l its /\ In l' its /\ length l = length out /\ length out < length l') /\
  Forall (fun l => length out <= length l) its /\
  forall k d, k < length out -> nth k out [] = map (fun l => nth k l d) its.
Proof.
  induction 1 as [its its' E|its its' i E|its its' e out o E R IH]; intros j Eo; try discriminate.
  - destruct (next_cases its) as [[_ E2]|[[h [N [_ E2]]]|[i' [I [[l [Il Nl]] _]]]]]; [rewrite E in E2; discriminate|rewrite E in E2; discriminate|].
    split; [|split; [apply Forall_forall; intros; simpl; lia|simpl; intros; lia]]. exists [], l. repeat split; auto. destruct l; [contradiction|simpl; lia].
  - destruct (IH j Eo) as [[l [l' [I1 [I2 [L1 L2]]]]] [F G]]. destruct (next_cases its) as [[_ E2]|[[h [N [E1 E2]]]|[i [_ [_ E2]]]]];
      [rewrite E in E2; discriminate| |rewrite E in E2; discriminate].
    rewrite E in E2. injection E2 as -> ->. subst its. split; [|split].
    + apply in_map_iff in I1, I2. destruct I1 as [h1 [<- I1]], I2 as [h2 [<- I2]]. exists (fst h1 :: snd h1), (fst h2 :: snd h2). simpl.
      repeat split; try lia; apply in_map_iff; eauto.
    + rewrite Forall_forall in *. intros l0 I. apply in_map_iff in I. destruct I as [hl [<- I]]. simpl. apply le_n_S. apply F. apply in_map; auto.
    + intros k d Hk. destruct k as [|k]; simpl; [rewrite map_map; auto|]. rewrite G with (d := d) by (simpl in Hk; lia). rewrite !map_map. auto.
Qed.
Lemma iterates_total : forall n (its : list (list T)), length (concat its) <= n -> exists out o, iterates T its out o.
Proof.
  induction n as [|n IH]; intros its L; destruct (next_cases its) as [[_ E2]|[[h [N [E1 E2]]]|[i [_ [_ E2]]]]].
  1,4: exists [], Ended; apply (it_stop T its (snd (next its))); rewrite <- E2; apply surjective_pairing.
  2,4: exists [], (Failed i); apply (it_error T its (snd (next its)) i); rewrite <- E2; apply surjective_pairing.
  - subst its. destruct h as [|hl h]; [contradiction|]. simpl in L. lia.
  - destruct (IH (map snd h)) as [out [o R]].
    { subst its. clear E2. destruct h as [|hl h]; [contradiction|]. simpl in L. rewrite app_length in L. simpl. rewrite app_length.
      assert (length (concat (map snd h)) <= length (concat (map (fun hl => fst hl :: snd hl) h))).
      { clear. induction h as [|a h IH]; simpl; auto. rewrite !app_length. lia. } lia. }
    eexists _, o. eapply it_elems; eauto.
Qed.
Lemma iterates_det its out o : iterates T its out o -> forall out' o', iterates T its out' o' -> out = out' /\ o = o'.
Proof.
  induction 1 as [its its' E|its its' i E|its its' e out o E R IH]; intros out' o' R'; inversion R'; subst; try congruence; auto.
  - rewrite E in H. injection H as ->. auto.
  - rewrite E in H. injection H as -> ->. destruct (IH _ _ H0) as [-> ->]. auto.
Qed.
Lemma iterates_spec (its : list (list T)) : exists out o, iterates T its out o /\
  (forall out' o', iterates T its out' o' -> out' = out /\ o' = o) /\
  (o = Ended <-> (forall l l', In l its -> In l' its -> length l = length l')) /\
  (forall k d, k < length out -> nth k out [] = map (fun l => nth k l d) its) /\
  (o = Ended -> Forall (fun l => length l = length out) its /\ (its = [] -> out = [])) /\
  (o <> Ended -> (exists l, In l its /\ length l = length out) /\ exists l, In l its /\ length out < length l).
Proof.
  destruct (iterates_total (length (concat its)) its (le_n _)) as [out [o R]]. exists out, o. split; auto.
  split. { intros out' o' R'. destruct (iterates_det _ _ _ R _ _ R'). auto. }
  destruct o as [|i].
  - destruct (iterates_ended _ _ _ R eq_refl) as [F [Z G]]. repeat split; auto; try congruence.
    intros _ l l' I I'. rewrite Forall_forall in F. rewrite (F l I), (F l' I'). auto.
  - destruct (iterates_failed _ _ _ R i eq_refl) as [[l [l' [I1 [I2 [L1 L2]]]]] [F G]]. repeat split; auto; try discriminate.
    + intros H. specialize (H l l' I1 I2). lia.
    + exists l; auto.
    + exists l'; auto.
Qed.
End Zip.
