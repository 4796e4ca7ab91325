(** Proofs of C22, C23: names. *)
From Coq Require Import DecimalN DecimalFacts Ascii String List Arith NArith Bool Lia Sorted Permutation.
From Verif Require Import BaseModel BaseSpec.
Import ListNotations.
Local Open Scope list_scope.
Local Open Scope N_scope.

Lemma str_eqb_spec a b : str_eqb a b = true <-> a = b.
Proof. unfold str_eqb. destruct (list_eq_dec N.eq_dec a b); split; auto; discriminate. Qed.

Lemma strip_lit_spec l s r : strip_lit l s = Some r <-> s = (l ++ r)%list.
Proof.
  revert s. induction l as [|c l IH]; intros [|d s]; simpl.
  - split; [intros [= <-]; auto|intros <-; auto].
  - split; [intros [= <-]; auto|intros <-; auto].
  - split; discriminate.
  - destruct (N.eqb_spec c d) as [->|Hn].
    + rewrite IH. split; [intros ->; auto|intros [= ->]; auto].
    + split; [discriminate|]. intros [= E _]. congruence.
Qed.

(** ** Digits *)
Lemma is_digit_spec c : is_digit c = true <-> 48 <= c <= 57.
Proof. unfold is_digit. rewrite andb_true_iff, !N.leb_le. tauto. Qed.
Lemma is_letter_spec c : is_letter c = true <-> 97 <= c <= 122 \/ 65 <= c <= 90.
Proof. unfold is_letter. rewrite orb_true_iff, !andb_true_iff, !N.leb_le. tauto. Qed.

Lemma class_prefixes_spec p s a b : In (a, b) (class_prefixes p s) <-> s = (a ++ b)%list /\ forallb p a = true.
Proof.
  revert a b. induction s as [|c s IH]; intros a b; simpl.
  - split.
    + intros [E|[]]. injection E as <- <-. auto.
    + intros [E _]. symmetry in E. apply app_eq_nil in E. destruct E as [-> ->]. auto.
  - split.
    + intros [E|I]. { injection E as <- <-. auto. }
      destruct (p c) eqn:Pc; [|contradiction]. apply in_map_iff in I. destruct I as [[a' b'] [E I]].
      simpl in E. injection E as <- <-. apply IH in I. destruct I as [-> F]. simpl. rewrite Pc. auto.
    + intros [E F]. destruct a as [|d a]; simpl in *. { subst b. auto. }
      injection E as <- E. apply andb_true_iff in F. destruct F as [Pc F]. rewrite Pc. right.
      apply in_map_iff. exists (a, b). split; auto. apply IH. auto.
Qed.

Lemma class_prefixes_sorted p s : StronglySorted (fun a b : pystr * pystr => (length (fst a) <= length (fst b))%nat) (class_prefixes p s).
Proof.
  induction s as [|c s IH]; simpl; constructor; try constructor.
  - destruct (p c); [|constructor]. clear - IH. induction IH as [|x l S IH F]; simpl; constructor; auto.
    rewrite Forall_forall in *. intros y I. apply in_map_iff in I. destruct I as [z [<- I]]. simpl. apply le_n_S. apply (F z I).
  - destruct (p c); [|constructor]. rewrite Forall_forall. intros y I. simpl. apply Nat.le_0_l.
Qed.

(** ** Matches *)
Lemma plus_spec p s c t r : In (c, t, r) (matches (Plus p) s) <-> c = [] /\ s = (t ++ r)%list /\ t <> [] /\ forallb p t = true.
Proof.
  simpl. rewrite in_map_iff. split.
  - intros [[a b] [E I]]. simpl in E. injection E as <- <- <-. apply filter_In in I. destruct I as [I N].
    apply in_rev in I. apply class_prefixes_spec in I. destruct I as [-> F]. simpl in N. repeat split; auto.
    intros ->. discriminate.
  - intros [-> [-> [N F]]]. exists (t, r). split; auto. apply filter_In. split.
    + apply -> in_rev. apply class_prefixes_spec; auto.
    + simpl. destruct (str_eqb t []) eqn:E; auto. apply str_eqb_spec in E. contradiction.
Qed.

Lemma lit_spec l s c t r : In (c, t, r) (matches (Lit l) s) <-> c = [] /\ t = l /\ s = (l ++ r)%list.
Proof.
  simpl. destruct (strip_lit l s) as [x|] eqn:E.
  - apply strip_lit_spec in E. subst s. split.
    + intros [[= <- <- <-]|[]]. auto.
    + intros [-> [-> E]]. apply app_inv_head in E. subst. left; auto.
  - split; [contradiction|]. intros [_ [_ E']]. apply strip_lit_spec in E'. congruence.
Qed.

Lemma cat_spec a b s c t r : In (c, t, r) (matches (Cat a b) s) <->
  exists c1 t1 s1 c2 t2, In (c1, t1, s1) (matches a s) /\ In (c2, t2, r) (matches b s1) /\ c = (c1 ++ c2)%list /\ t = (t1 ++ t2)%list.
Proof.
  simpl. rewrite in_flat_map. split.
  - intros [[[c1 t1] s1] [I1 I2]]. apply in_map_iff in I2. destruct I2 as [[[c2 t2] s2] [E I2]].
    injection E as <- <- <-. exists c1, t1, s1, c2, t2. auto.
  - intros [c1 [t1 [s1 [c2 [t2 [I1 [I2 [-> ->]]]]]]]]. exists (c1, t1, s1). split; auto.
    apply in_map_iff. exists (c2, t2, r). auto.
Qed.

Lemma opt_spec a s c t r : In (c, t, r) (matches (Opt a) s) <-> In (c, t, r) (matches a s) \/ (c = [] /\ t = [] /\ r = s).
Proof.
  simpl. rewrite in_app_iff. simpl. split.
  - intros [I|[[= <- <- <-]|[]]]; auto.
  - intros [I|[-> [-> ->]]]; auto.
Qed.

Lemma grp_spec n a s c t r : In (c, t, r) (matches (Grp n a) s) <-> exists c', In (c', t, r) (matches a s) /\ c = (n, t) :: c'.
Proof.
  simpl. rewrite in_map_iff. split.
  - intros [[[c' t'] s'] [[= <- <- <-] I]]. eauto.
  - intros [c' [I ->]]. exists (c', t, r). auto.
Qed.

(** Texts of the groups. *)
Definition g2_ok (o : option pystr) : Prop := match o with None => True | Some x => exists d, digits d /\ x = (s_ "_" ++ d)%list end.
Definition g3_ok (o : option pystr) : Prop := suffix_ok o.
Definition g4_ok (o : option pystr) : Prop :=
  match o with None => True | Some x => exists a b, digits a /\ digits b /\ x = (s_ "-" ++ a ++ s_ "-of-" ++ b)%list end.

Lemma digits_iff d : digits d <-> d <> [] /\ forallb is_digit d = true.
Proof.
  unfold digits. rewrite forallb_forall, Forall_forall.
  split; intros [H1 H2]; split; auto; intros x I; apply is_digit_spec; auto.
Qed.
Lemma letters_iff d : letters d <-> d <> [] /\ forallb is_letter d = true.
Proof.
  unfold letters. rewrite forallb_forall, Forall_forall.
  split; intros [H1 H2]; split; auto; intros x I; apply is_letter_spec; auto.
Qed.

Lemma m2 s c t r : In (c, t, r) (matches (Opt (Grp 2 (Cat (Lit (s_ "_")) (Plus is_digit)))) s) <->
  exists o, g2_ok o /\ t = or_empty o /\ s = (t ++ r)%list /\ c = match o with Some x => [(2%nat, x)] | None => [] end.
Proof.
  rewrite opt_spec, grp_spec. split.
  - intros [[c' [I ->]]|[-> [-> ->]]].
    + apply cat_spec in I. destruct I as [c1 [t1 [s1 [c2 [t2 [I1 [I2 [-> ->]]]]]]]].
      apply lit_spec in I1. apply plus_spec in I2. destruct I1 as [-> [-> ->]], I2 as [-> [-> [N F]]].
      exists (Some (s_ "_" ++ t2)%list). split; [exists t2; split; auto; apply digits_iff; auto|]. repeat split; auto.
    + exists None. simpl. auto.
  - intros [[x|] [G [-> [-> ->]]]]; simpl in G; unfold or_empty.
    + left. destruct G as [d [D ->]]. apply digits_iff in D. destruct D. exists []. split; auto. apply cat_spec.
      exists [], (s_ "_"), (d ++ r)%list, [], d. rewrite lit_spec, plus_spec. repeat split; auto.
    + right. auto.
Qed.

Lemma m3 s c t r : In (c, t, r) (matches (Opt (Grp 3 (Cat (Lit (s_ ".")) (Plus is_letter)))) s) <->
  exists o, g3_ok o /\ t = or_empty o /\ s = (t ++ r)%list /\ c = match o with Some x => [(3%nat, x)] | None => [] end.
Proof.
  rewrite opt_spec, grp_spec. split.
  - intros [[c' [I ->]]|[-> [-> ->]]].
    + apply cat_spec in I. destruct I as [c1 [t1 [s1 [c2 [t2 [I1 [I2 [-> ->]]]]]]]].
      apply lit_spec in I1. apply plus_spec in I2. destruct I1 as [-> [-> ->]], I2 as [-> [-> [N F]]].
      exists (Some (s_ "." ++ t2)%list). split; [exists t2; split; auto; apply letters_iff; auto|]. repeat split; auto.
    + exists None. simpl. auto.
  - intros [[x|] [G [-> [-> ->]]]]; simpl in G; unfold or_empty.
    + left. destruct G as [d [D ->]]. apply letters_iff in D. destruct D. exists []. split; auto. apply cat_spec.
      exists [], (s_ "."), (d ++ r)%list, [], d. rewrite lit_spec, plus_spec. repeat split; auto.
    + right. auto.
Qed.

Lemma m4 s c t r : In (c, t, r) (matches (Opt (Grp 4 (Cat (Lit (s_ "-")) (Cat (Plus is_digit)
                   (Cat (Lit (s_ "-of-")) (Plus is_digit)))))) s) <->
  exists o, g4_ok o /\ t = or_empty o /\ s = (t ++ r)%list /\ c = match o with Some x => [(4%nat, x)] | None => [] end.
Proof.
  rewrite opt_spec, grp_spec. split.
  - intros [[c' [I ->]]|[-> [-> ->]]].
    + apply cat_spec in I. destruct I as [c1 [t1 [s1 [c2 [t2 [I1 [I2 [-> ->]]]]]]]].
      apply cat_spec in I2. destruct I2 as [c3 [t3 [s3 [c4 [t4 [I3 [I4 [-> ->]]]]]]]].
      apply cat_spec in I4. destruct I4 as [c5 [t5 [s5 [c6 [t6 [I5 [I6 [-> ->]]]]]]]].
      apply lit_spec in I1, I5. apply plus_spec in I3, I6.
      destruct I1 as [-> [-> ->]], I3 as [-> [-> [N F]]], I5 as [-> [-> ->]], I6 as [-> [-> [N' F']]].
      exists (Some (s_ "-" ++ t3 ++ s_ "-of-" ++ t6)%list). split.
      { exists t3, t6. rewrite !digits_iff. auto. }
      simpl. rewrite <- !app_assoc. auto.
    + exists None. simpl. auto.
  - intros [[x|] [G [-> [-> ->]]]]; simpl in G.
    + left. destruct G as [a [b [D [D' ->]]]]. apply digits_iff in D, D'. destruct D, D'. exists []. split; auto.
      unfold or_empty. apply cat_spec. exists [], (s_ "-"), (a ++ s_ "-of-" ++ b ++ r)%list, [], (a ++ s_ "-of-" ++ b)%list.
      split; [rewrite lit_spec; split; [auto|split; [auto|simpl; rewrite <- app_assoc; reflexivity]]|]. split; [|auto].
      apply cat_spec. exists [], a, (s_ "-of-" ++ b ++ r)%list, [], (s_ "-of-" ++ b)%list.
      split; [rewrite plus_spec; auto|]. split; [|auto].
      apply cat_spec. exists [], (s_ "-of-"), (b ++ r)%list, [], b. rewrite lit_spec, plus_spec. auto 10.
    + right. auto.
Qed.

Definition capsof (b : pystr) (o2 o3 o4 : option pystr) : caps :=
  ((1%nat, b) :: match o2 with Some x => [(2%nat, x)] | None => [] end ++
     match o3 with Some x => [(3%nat, x)] | None => [] end ++
     match o4 with Some x => [(4%nat, x)] | None => [] end)%list.

Definition no_newline (s : pystr) : Prop := forallb is_any s = true.

Definition decomp (s b : pystr) o2 o3 o4 (r : pystr) : Prop :=
  no_newline b /\ g2_ok o2 /\ g3_ok o3 /\ g4_ok o4 /\ s = (b ++ or_empty o2 ++ or_empty o3 ++ or_empty o4 ++ r)%list.

Lemma regex_spec s c t r : In (c, t, r) (matches CHECKPOINT_REGEX s) <->
  exists b o2 o3 o4, decomp s b o2 o3 o4 r /\ c = capsof b o2 o3 o4 /\ t = (b ++ or_empty o2 ++ or_empty o3 ++ or_empty o4)%list.
Proof.
  unfold CHECKPOINT_REGEX. split.
  - intros I. apply cat_spec in I. destruct I as [c1 [t1 [s1 [c2 [t2 [I1 [I2 [-> ->]]]]]]]].
    apply grp_spec in I1. destruct I1 as [c' [I1 ->]]. simpl in I1. apply in_map_iff in I1. destruct I1 as [[b s'] [E I1]].
    simpl in E. injection E as <- <- <-. apply class_prefixes_spec in I1. destruct I1 as [-> NL].
    apply cat_spec in I2. destruct I2 as [c3 [t3 [s3 [c4 [t4 [I3 [I4 [-> ->]]]]]]]].
    apply m2 in I3. destruct I3 as [o2 [G2 [-> [-> ->]]]].
    apply cat_spec in I4. destruct I4 as [c5 [t5 [s5 [c6 [t6 [I5 [I6 [-> ->]]]]]]]].
    apply m3 in I5. destruct I5 as [o3 [G3 [-> [-> ->]]]].
    apply m4 in I6. destruct I6 as [o4 [G4 [-> [-> ->]]]].
    exists b, o2, o3, o4. unfold decomp, capsof. simpl. rewrite ?app_nil_r. auto 10.
  - intros [b [o2 [o3 [o4 [[NL [G2 [G3 [G4 ->]]]] [-> ->]]]]]].
    apply cat_spec. exists [(1%nat, b)], b, (or_empty o2 ++ or_empty o3 ++ or_empty o4 ++ r)%list.
    eexists. eexists. split; [|split].
    + apply grp_spec. exists []. split; auto. simpl. apply in_map_iff. exists (b, or_empty o2 ++ or_empty o3 ++ or_empty o4 ++ r)%list.
      split; auto. apply class_prefixes_spec. auto.
    + apply cat_spec. do 5 eexists. split; [apply m2; exists o2; repeat split; eauto|]. split; [|split; reflexivity].
      apply cat_spec. do 5 eexists. split; [apply m3; exists o3; repeat split; eauto|]. split; [|split; reflexivity].
      apply m4. exists o4. repeat split; eauto.
    + unfold capsof. simpl. auto.
Qed.

(** Shortest first group first. *)
Definition len1 (m : caps * pystr * pystr) : nat := match fst (fst m) with (_, b) :: _ => length b | [] => 0 end.

Lemma sorted_app {A} (R : A -> A -> Prop) l l' : StronglySorted R l -> StronglySorted R l' ->
  (forall x y, In x l -> In y l' -> R x y) -> StronglySorted R (l ++ l').
Proof.
  induction 1 as [|x l S IH F]; simpl; intros S' H; auto. constructor; auto.
  rewrite Forall_forall in *. intros y I. apply in_app_iff in I. destruct I; auto.
Qed.

Lemma regex_sorted s : StronglySorted (fun a b => (len1 a <= len1 b)%nat) (matches CHECKPOINT_REGEX s).
Proof.
  unfold CHECKPOINT_REGEX. match goal with |- context [Cat (Grp 1 _) ?x] => generalize x end. intros x.
  simpl. rewrite map_map, !flat_map_concat_map, map_map, <- flat_map_concat_map.
  pose proof (class_prefixes_sorted is_any s) as S. induction S as [|[a b] l S IH F]; simpl; [constructor|].
  apply sorted_app; auto.
  - generalize (matches x b). intros ms. induction ms as [|[[c t] r] ms IHm]; simpl; constructor; auto.
    rewrite Forall_forall. intros y I. apply in_map_iff in I. destruct I as [[[c' t'] r'] [<- _]]. unfold len1. simpl. auto.
  - intros y z I J. apply in_map_iff in I. destruct I as [[[c t] r] [<- _]].
    apply in_flat_map in J. destruct J as [[a' b'] [J1 J]]. apply in_map_iff in J. destruct J as [[[c' t'] r'] [<- _]].
    rewrite Forall_forall in F. specialize (F _ J1). unfold len1. simpl in *. auto.
Qed.

Lemma find_first {A} (f : A -> bool) (m : A -> nat) l x : StronglySorted (fun a b => (m a <= m b)%nat) l ->
  find f l = Some x -> In x l /\ f x = true /\ forall y, In y l -> f y = true -> (m x <= m y)%nat.
Proof.
  induction 1 as [|a l S IH F]; simpl; [discriminate|]. destruct (f a) eqn:E.
  - intros [= <-]. repeat split; auto. intros y [<-|I] _; auto. rewrite Forall_forall in F. auto.
  - intros H. destruct (IH H) as [I [Fx M]]. repeat split; auto. intros y [<-|J] Hy; [congruence|]. auto.
Qed.

Lemma fullmatch_some s c : fullmatch CHECKPOINT_REGEX s = Some c ->
  exists b o2 o3 o4, c = capsof b o2 o3 o4 /\ decomp s b o2 o3 o4 [] /\
    forall b' o2' o3' o4', decomp s b' o2' o3' o4' [] -> (length b <= length b')%nat.
Proof.
  unfold fullmatch. destruct (find _ _) as [[[c' t] r]|] eqn:E; [|discriminate]. intros [= <-]. simpl.
  apply (find_first _ len1 _ _ (regex_sorted s)) in E. destruct E as [I [R M]]. simpl in R. apply str_eqb_spec in R. subst r.
  apply regex_spec in I. destruct I as [b [o2 [o3 [o4 [D [-> ->]]]]]]. exists b, o2, o3, o4. split; auto. split; auto.
  intros b' o2' o3' o4' D'.
  specialize (M (capsof b' o2' o3' o4', (b' ++ or_empty o2' ++ or_empty o3' ++ or_empty o4')%list, [])). apply M.
  - apply regex_spec. exists b', o2', o3', o4'. auto.
  - reflexivity.
Qed.

Lemma fullmatch_none s : no_newline s -> fullmatch CHECKPOINT_REGEX s <> None.
Proof.
  intros NL. unfold fullmatch. destruct (find _ _) as [m|] eqn:E; [discriminate|]. intros _.
  assert (I : In (capsof s None None None, (s ++ [])%list, []) (matches CHECKPOINT_REGEX s)).
  { apply regex_spec. exists s, None, None, None. unfold decomp. simpl. rewrite app_nil_r. auto 10. }
  apply (find_none _ _ E) in I. discriminate.
Qed.

Lemma match_dollar_some s : no_newline s ->
  exists b o2 o3 o4, match_dollar CHECKPOINT_REGEX s = Some (capsof b o2 o3 o4, []) /\ decomp s b o2 o3 o4 [] /\
    forall b' o2' o3' o4', decomp s b' o2' o3' o4' [] -> (length b <= length b')%nat.
Proof.
  intros NL. unfold match_dollar. destruct (find _ _) as [[[c' t] r]|] eqn:E.
  - apply (find_first _ len1 _ _ (regex_sorted s)) in E. destruct E as [I [R M]]. simpl in R.
    apply regex_spec in I. destruct I as [b [o2 [o3 [o4 [D [-> ->]]]]]].
    assert (r = []) as ->.
    { apply orb_true_iff in R. destruct R as [R|R]; apply str_eqb_spec in R; auto. subst r.
      destruct D as [_ [_ [_ [_ E]]]]. unfold no_newline in NL. rewrite E, !forallb_app in NL.
      rewrite !andb_true_iff in NL. destruct NL as [_ [_ [_ [_ X]]]]. discriminate. }
    exists b, o2, o3, o4. split; auto. split; auto. intros b' o2' o3' o4' D'.
    specialize (M (capsof b' o2' o3' o4', (b' ++ or_empty o2' ++ or_empty o3' ++ or_empty o4')%list, [])). apply M.
    + apply regex_spec. exists b', o2', o3', o4'. auto.
    + reflexivity.
  - exfalso.
    assert (I : In (capsof s None None None, (s ++ [])%list, []) (matches CHECKPOINT_REGEX s)).
    { apply regex_spec. exists s, None, None, None. unfold decomp. simpl. rewrite app_nil_r. auto 10. }
    apply (find_none _ _ E) in I. discriminate.
Qed.
