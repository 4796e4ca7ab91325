(** Complete steps (C22) and saving (C20, C21). *)
From Coq Require Import Ascii String List Arith NArith Bool Lia Sorted Permutation.
From Verif Require Import BaseModel BaseSpec BaseProofs BaseProofs2.
Import ListNotations.
Local Open Scope list_scope.
Local Open Scope N_scope.

(** ** Paths *)
Lemma split_path_go base : ~ In 47 base -> forall r acc,
  (fix go (r : pystr) (base : pystr) :=
    match r with
    | [] => ([], base)
    | c :: r' => if c =? c_slash then (rev r, base) else go r' (c :: base)
    end) (rev base ++ r) acc =
  (fix go (r : pystr) (base : pystr) :=
    match r with
    | [] => ([], base)
    | c :: r' => if c =? c_slash then (rev r, base) else go r' (c :: base)
    end) r (base ++ acc).
Proof.
  induction base as [|c base IH] using rev_ind; intros N r acc; auto.
  rewrite rev_app_distr. cbn [rev app]. rewrite in_app_iff in N. simpl in N.
  destruct (N.eqb_spec c c_slash) as [->|Hc]. { exfalso. apply N. right. left. auto. }
  rewrite IH by tauto. rewrite <- app_assoc. reflexivity.
Qed.

Lemma split_path_in dir base : good_path dir base ->
  split_path (path_in dir base) = (match dir with [] => [] | _ => dir ++ [47] end, base).
Proof.
  intros [Nd Nb]. unfold split_path, path_in. destruct dir as [|d dir].
  - rewrite <- (app_nil_r (rev base)). rewrite (split_path_go base Nb []). rewrite app_nil_r. reflexivity.
  - change (s_ "/") with [47]. set (D := d :: dir). rewrite !rev_app_distr, <- app_assoc.
    rewrite (split_path_go base Nb). cbn [rev app]. rewrite app_nil_r. cbn. rewrite rev_app_distr, rev_involutive. reflexivity.
Qed.

Lemma last_case (dir : pystr) : dir <> [] -> (forall d, dir <> d ++ [47]) -> exists d x, dir = d ++ [x] /\ x <> 47.
Proof.
  intros N H. destruct (exists_last N) as [d [x ->]]. exists d, x. split; auto. intros ->. apply (H d). auto.
Qed.

Lemma dirname_in dir base : good_path dir base -> dirname (path_in dir base) = dir.
Proof.
  intros G. unfold dirname. rewrite split_path_in by auto. cbn [fst]. destruct dir as [|d0 dir0] eqn:Ed; auto.
  rewrite <- Ed in *. destruct G as [Nd _]. destruct (last_case dir) as [d [x [E Hx]]]; auto; try congruence.
  rewrite E. replace (all_slashes ((d ++ [x]) ++ [47])) with false.
  - rewrite !rev_app_distr. cbn [rev app drop_slashes]. change (47 =? c_slash) with true. cbn iota.
    change c_slash with 47. destruct (N.eqb_spec x 47); [contradiction|]. cbn [rev]. rewrite rev_involutive. reflexivity.
  - symmetry. unfold all_slashes. rewrite !forallb_app. cbn [forallb]. destruct (N.eqb_spec c_slash x) as [E'|_].
    + exfalso. apply Hx. symmetry. exact E'.
    + destruct (forallb (N.eqb c_slash) d); reflexivity.
Qed.

Lemma temp_path_in dir base : good_path dir base -> temp_path (path_in dir base) = temp_in dir base.
Proof.
  intros G. unfold temp_path. rewrite dirname_in by auto. unfold basename. rewrite split_path_in by auto. cbn [snd].
  unfold temp_in, path_in. destruct dir as [|d0 dir0] eqn:Ed; auto.
  rewrite <- Ed in *. destruct G as [Nd _]. destruct (last_case dir) as [d [x [E Hx]]]; auto; try congruence.
  rewrite E. unfold path_join. cbn [s_ map list_ascii_of_string app]. rewrite rev_app_distr. cbn [rev app]. change (46 =? c_slash) with false. change c_slash with 47.
  destruct (N.eqb_spec x 47); [contradiction|]. reflexivity.
Qed.

(** ** Complete steps *)
Lemma glob_spec prefix files f : In f (glob_prefix prefix files) <-> file_of prefix files f.
Proof.
  unfold glob_prefix, file_of. rewrite filter_In. split.
  - intros [I H]. split; auto. destruct (strip_lit prefix f) as [r|] eqn:E; [|discriminate].
    apply strip_lit_spec in E. exists r. split; auto. intros J. rewrite forallb_forall in H. specialize (H _ J). discriminate.
  - intros [I [r [E N]]]. split; auto. apply strip_lit_spec in E. rewrite E. apply forallb_forall. intros x J.
    destruct (N.eqb_spec x c_slash) as [->|]; auto.
Qed.

Lemma rmap_parse l : (forall f, In f l -> ~ In 10 f) ->
  (exists out, rmap parse_step_and_suffix l = Ok out /\
     (forall n o, In (n, o) out <-> exists f, In f l /\ has_step f n o) /\
     (forall f, In f l -> exists n o, has_step f n o)) \/
  (rmap parse_step_and_suffix l = Raise ValueError /\ exists f, In f l /\ forall n o, ~ has_step f n o).
Proof.
  induction l as [|f l IH]; intros NL; simpl.
  - left. exists []. split; auto. split; [|contradiction]. intros n o. split; [contradiction|]. intros [f [[] _]].
  - destruct (parse_cases f) as [[n [o [E H]]]|[E H]]; [apply NL; left; auto| |]; rewrite E; simpl.
    + destruct IH as [[out [E' [H1 H2]]]|[E' [f' [I H']]]]; [intros; apply NL; right; auto| |]; rewrite E'; simpl.
      * left. exists ((n, o) :: out). split; auto. split.
        -- intros n' o'. split.
           ++ intros [[= <- <-]|I]; [exists f; auto|]. apply H1 in I. destruct I as [f' [I H']]. exists f'; auto.
           ++ intros [f' [[<-|I] H']].
              ** left. apply (has_step_unique f n o n' o') in H'; auto. destruct H' as [-> ->]; auto. apply NL. left; auto.
              ** right. apply H1. exists f'; auto.
        -- intros f' [<-|I]; eauto.
      * right. split; auto. exists f'; auto.
    + right. split; auto. exists f; auto.
Qed.

Lemma incomparable_spec l : incomparable l = true <-> exists n x, In (n, None) l /\ In (n, Some x) l.
Proof.
  unfold incomparable. rewrite existsb_exists. split.
  - intros [[n [x|]] [I H]]; simpl in H; [discriminate|]. apply existsb_exists in H. destruct H as [[m [y|]] [J H]]; simpl in H.
    + rewrite andb_true_r in H. apply N.eqb_eq in H. subst m. exists n, y. auto.
    + rewrite andb_false_r in H. discriminate.
  - intros [n [x [I J]]]. exists (n, None). split; auto. simpl. apply existsb_exists. exists (n, Some x). split; auto.
    simpl. rewrite N.eqb_refl. auto.
Qed.

Lemma insert_step_perm x l : Permutation (insert_step x l) (x :: l).
Proof.
  induction l as [|y l IH]; simpl; auto. destruct (fst x <=? fst y); auto.
  eapply perm_trans; [apply perm_skip, IH|]. apply perm_swap.
Qed.
Lemma sort_steps_perm l : Permutation (sort_steps l) l.
Proof. induction l; simpl; auto. eapply perm_trans; [apply insert_step_perm|]. auto. Qed.

Definition le1 (a b : stepsuf) : Prop := fst a <= fst b.
Lemma insert_step_sorted x l : StronglySorted le1 l -> StronglySorted le1 (insert_step x l).
Proof.
  induction 1 as [|y l S IH F]; simpl. { repeat constructor. }
  unfold le1 in *. destruct (N.leb_spec (fst x) (fst y)).
  - constructor; [constructor; auto|]. constructor; auto. eapply Forall_impl; [|apply F]. simpl; intros; lia.
  - constructor; auto. rewrite Forall_forall in *. intros z I. apply (Permutation_in _ (insert_step_perm x l)) in I.
    destruct I as [<-|I]; auto. lia.
Qed.
Lemma sort_steps_sorted l : StronglySorted le1 (sort_steps l).
Proof. induction l; simpl; [constructor|]. apply insert_step_sorted; auto. Qed.

Lemma sorted_snoc {A} (R : A -> A -> Prop) l x : StronglySorted R l -> (forall y, In y l -> R y x) -> StronglySorted R (l ++ [x]).
Proof.
  intros S H. apply sorted_app; auto. repeat constructor. intros y z I [<-|[]]. auto.
Qed.
Lemma sorted_rev {A} (R : A -> A -> Prop) l : StronglySorted R l -> StronglySorted (fun a b => R b a) (rev l).
Proof.
  induction 1 as [|x l S IH F]; simpl; [constructor|]. apply sorted_snoc; auto. intros y I. apply in_rev in I.
  rewrite Forall_forall in F. auto.
Qed.

Lemma groupby_spec (R : N -> N -> Prop) (Rtr : forall a b c, R a b -> R b c -> R a c)
  (Ras : forall a b, R a b -> R b a -> a = b) l :
  StronglySorted (fun a b => R (fst a) (fst b)) l ->
  StronglySorted (fun a b => R (fst a) (fst b) /\ fst a <> fst b) (groupby_step l) /\
  forall n o, In (n, o) l <-> exists g, In (n, g) (groupby_step l) /\ In o g.
Proof.
  induction 1 as [|x l S [IH1 IH2] F].
  - simpl. split; [constructor|]. intros n o. split; [contradiction|]. intros [g [[] _]].
  - simpl. rewrite Forall_forall in F.
    assert (K : forall s g, In (s, g) (groupby_step l) -> g <> [] -> R (fst x) s).
    { intros s g I N. destruct g as [|o g]; [contradiction|]. assert (J : In (s, o) l). { apply IH2. exists (o :: g). simpl; auto. }
      apply F in J. auto. }
    assert (NE : forall l s g, In (s, g) (groupby_step l) -> g <> []).
    { clear. induction l as [|y l IH]; simpl; [contradiction|]. intros s g.
      destruct (groupby_step l) as [|[s' g'] gs].
      - intros [[= <- <-]|[]]; discriminate.
      - destruct (fst y =? s').
        + intros [[= <- <-]|I]; [discriminate|]. apply (IH s g). right; auto.
        + intros [[= <- <-]|I]; [discriminate|]. apply (IH s g); auto. }
    assert (K' : forall s g, In (s, g) (groupby_step l) -> R (fst x) s) by (intros; eapply K; eauto).
    clear K.
    destruct (groupby_step l) as [|[s g] gs] eqn:Eg.
    + split; [repeat constructor|]. intros n o. split.
      * intros [->|I]; [exists [o]; simpl; auto|]. apply IH2 in I. destruct I as [g [[] _]].
      * intros [g [[[= <- <-]|[]] [<-|[]]]]. left. destruct x; auto.
    + inversion IH1 as [|? ? S' F']; subst. rewrite Forall_forall in F'.
      destruct (N.eqb_spec (fst x) s) as [E|E].
      * split.
        -- constructor; auto. rewrite Forall_forall. simpl. intros y I. apply F' in I. simpl in I. auto.
        -- intros n o. split.
           ++ intros [->|I].
              ** exists (o :: g). simpl in *. subst s. auto.
              ** apply IH2 in I. destruct I as [g' [[[= <- <-]|I] J]].
                 --- exists (snd x :: g). simpl. auto.
                 --- exists g'. simpl. auto.
           ++ intros [g' [[[= <- <-]|I] J]].
              ** destruct J as [<-|J]. { left. destruct x; simpl in *; congruence. }
                 right. apply IH2. exists g. simpl. auto.
              ** right. apply IH2. exists g'. simpl. auto.
      * split.
        -- constructor; [constructor; auto; rewrite Forall_forall; auto|]. rewrite Forall_forall. intros y [<-|I]; simpl.
           ++ split; auto. apply (K' s g). left; auto.
           ++ specialize (F' y I). simpl in F'. destruct F' as [F1 F2].
              pose proof (K' s g (or_introl eq_refl)) as K1. split; [eauto|].
              intros E'. apply E. apply Ras; auto. rewrite E'. auto.
        -- intros n o. split.
           ++ intros [->|I]; [exists [o]; simpl; auto|]. apply IH2 in I. destruct I as [g' [I J]]. exists g'. simpl in *; auto.
           ++ intros [g' [[[= <- <-]|I] J]].
              ** destruct J as [<-|[]]. left; destruct x; auto.
              ** right. apply IH2. exists g'. auto.
Qed.

Lemma opt_eqb_spec a b : opt_eqb a b = true <-> a = b.
Proof.
  destruct a as [x|], b as [y|]; simpl; split; intros H; auto; try discriminate.
  - apply str_eqb_spec in H. congruence.
  - injection H as ->. apply str_eqb_spec; auto.
Qed.

Lemma sorted_keys {T} (R : N -> N -> Prop) (l : list (N * T)) : StronglySorted (fun a b => R (fst a) (fst b)) l -> StronglySorted R (map fst l).
Proof.
  induction 1 as [|x l S IH F]; simpl; constructor; auto. rewrite Forall_forall in *. intros y I.
  apply in_map_iff in I. destruct I as [z [<- I]]. auto.
Qed.
Lemma sorted_filter {T} (R : T -> T -> Prop) f l : StronglySorted R l -> StronglySorted R (filter f l).
Proof.
  induction 1 as [|x l S IH F]; simpl; [constructor|]. destruct (f x); auto. constructor; auto.
  rewrite Forall_forall in *. intros y I. apply filter_In in I. apply F; tauto.
Qed.
Lemma sorted_fst_unique {T} (R : N -> N -> Prop) (l : list (N * T)) n a b :
  StronglySorted (fun a b => R (fst a) (fst b) /\ fst a <> fst b) l -> In (n, a) l -> In (n, b) l -> a = b.
Proof.
  induction 1 as [|x l S IH F]; [contradiction|]. rewrite Forall_forall in F.
  intros [->|I] [E|J].
  - congruence.
  - destruct (F _ J) as [_ N]. simpl in N. congruence.
  - subst x. destruct (F _ I) as [_ N]. simpl in N. congruence.
  - auto.
Qed.

Lemma complete_groups (R : N -> N -> Prop) (Rtr : forall a b c, R a b -> R b c -> R a c)
  (Ras : forall a b, R a b -> R b a -> a = b) l suffixes :
  StronglySorted (fun a b => R (fst a) (fst b)) l ->
  let out := map fst (filter (fun g => forallb (fun s => existsb (opt_eqb s) (snd g)) (required suffixes)) (groupby_step l)) in
  StronglySorted (fun a b => R a b /\ a <> b) out /\
  forall n, In n out <-> forall o, In o (required suffixes) -> In (n, o) l.
Proof.
  intros S out. destruct (groupby_spec R Rtr Ras l S) as [G1 G2]. split.
  - apply (sorted_keys (fun a b => R a b /\ a <> b)). apply sorted_filter. auto.
  - intros n. unfold out. rewrite in_map_iff. split.
    + intros [[n' g] [E I]] o Io. simpl in E. subst n'. apply filter_In in I. destruct I as [I F].
      rewrite forallb_forall in F. specialize (F o Io). apply existsb_exists in F. destruct F as [o' [J E]].
      apply opt_eqb_spec in E. subst o'. apply G2. exists g. auto.
    + intros H. assert (exists o0, In o0 (required suffixes)) as [o0 I0].
      { destruct suffixes as [|o0 r]; [exists None|exists o0]; left; auto. }
      pose proof (H o0 I0) as J. apply G2 in J. destruct J as [g [Ig Jg]]. exists (n, g). split; auto.
      apply filter_In. split; auto. apply forallb_forall. intros o Io. apply existsb_exists. exists o. split; [|apply opt_eqb_spec; auto].
      specialize (H o Io). apply G2 in H. destruct H as [g' [Ig' Jg']]. 
      rewrite (sorted_fst_unique R _ n g g' G1 Ig Ig'). auto.
Qed.

Lemma file_of_newline p files f : (forall f, In f files -> ~ In 10 f) -> file_of p files f -> ~ In 10 f.
Proof. intros H [I _]. auto. Qed.

Lemma iterate_spec dir base suffixes decreasing files : good_path dir base ->
  (forall f, In f files -> ~ In 10 f) ->
  let candidate f := file_of (path_in dir base) files f \/ file_of (temp_in dir base) files f in
  match iterate_complete_steps (path_in dir base) suffixes decreasing files with
  | Ok steps =>
      (forall f, candidate f -> exists n o, has_step f n o) /\
      (forall n x, step_done dir base files n None -> step_done dir base files n (Some x) -> False) /\
      StronglySorted (fun a b => if decreasing then b < a else a < b) steps /\
      forall n, In n steps <-> forall o, In o (required suffixes) -> step_done dir base files n o
  | Raise ValueError => exists f, candidate f /\ forall n o, ~ has_step f n o
  | Raise TypeError =>
      (forall f, candidate f -> exists n o, has_step f n o) /\
      exists n x, step_done dir base files n None /\ step_done dir base files n (Some x)
  | Raise _ => False
  end.
Proof.
  intros Gp NL candidate. unfold iterate_complete_steps. rewrite (temp_path_in dir base Gp). fold (required suffixes).
  destruct (rmap_parse (glob_prefix (path_in dir base) files)) as [[l1 [-> [A1 A2]]]|[-> [f [I H]]]].
  { intros f I. apply glob_spec in I. eapply file_of_newline; eauto. }
  2:{ simpl. exists f. apply glob_spec in I. split; [left; auto|auto]. }
  simpl.
  destruct (rmap_parse (glob_prefix (temp_in dir base) files)) as [[l2 [-> [B1 B2]]]|[-> [f [I H]]]].
  { intros f I. apply glob_spec in I. eapply file_of_newline; eauto. }
  2:{ simpl. exists f. apply glob_spec in I. split; [right; auto|auto]. }
  simpl.
  set (rem := filter _ _).
  assert (Hrem : forall n o, In (n, o) rem <-> step_done dir base files n o).
  { intros n o. unfold rem, step_done. rewrite filter_In, nodup_In, A1.
    destruct (in_dec stepsuf_eq_dec (n, o) l2) as [i|i]; rewrite B1 in i; split.
    - intros [_ H]; discriminate.
    - intros [_ H]. exfalso. apply H. destruct i as [f [I Hf]]. exists f. rewrite <- glob_spec. auto.
    - intros [[f [I Hf]] _]. split; [exists f; rewrite <- glob_spec; auto|]. intros [f' [I' Hf']]. apply i. exists f'.
      rewrite glob_spec. auto.
    - intros [[f [I Hf]] _]. split; auto. exists f. rewrite glob_spec. auto. }
  assert (HS : forall f, candidate f -> exists n o, has_step f n o).
  { intros f [I|I]; apply glob_spec in I; auto. }
  destruct (incomparable rem) eqn:Inc.
  - apply incomparable_spec in Inc. destruct Inc as [n [x [I J]]]. split; auto. exists n, x. rewrite <- !Hrem. auto.
  - split; auto. split.
    { intros n x D1 D2. assert (incomparable rem = true); [|congruence]. apply incomparable_spec. exists n, x. rewrite !Hrem. auto. }
    destruct decreasing.
    + pose proof (complete_groups (fun a b => b <= a) ltac:(cbv beta; intros; lia) ltac:(cbv beta; intros; lia) (rev (sort_steps rem)) suffixes) as C.
      destruct C as [C1 C2]. { apply (sorted_rev le1). apply sort_steps_sorted. }
      split.
      { clear - C1. induction C1 as [|x l S IH F]; constructor; auto. eapply Forall_impl; [|apply F]. simpl. intros a [H1 H2]. lia. }
      intros n. rewrite C2. split; intros H o Io; specialize (H o Io).
      * apply Hrem. apply in_rev in H. apply (Permutation_in _ (sort_steps_perm rem)) in H. auto.
      * apply -> in_rev. apply (Permutation_in _ (Permutation_sym (sort_steps_perm rem))). apply Hrem; auto.
    + pose proof (complete_groups (fun a b => a <= b) ltac:(cbv beta; intros; lia) ltac:(cbv beta; intros; lia) (sort_steps rem) suffixes) as C.
      destruct C as [C1 C2]. { apply sort_steps_sorted. }
      split.
      { clear - C1. induction C1 as [|x l S IH F]; constructor; auto. eapply Forall_impl; [|apply F]. simpl. intros a [H1 H2]. lia. }
      intros n. rewrite C2. split; intros H o Io; specialize (H o Io).
      * apply Hrem. apply (Permutation_in _ (sort_steps_perm rem)) in H. auto.
      * apply (Permutation_in _ (Permutation_sym (sort_steps_perm rem))). apply Hrem; auto.
Qed.

Lemma latest_spec dir base suffixes files r : good_path dir base ->
  (forall f, In f files -> ~ In 10 f) ->
  find_latest_complete (path_in dir base) suffixes files = Ok r ->
  match r with
  | Some p => exists n, p = (path_in dir base ++ s_ "_" ++ str_of_N n)%list /\
      (forall o, In o (required suffixes) -> step_done dir base files n o) /\
      forall m, (forall o, In o (required suffixes) -> step_done dir base files m o) -> m <= n
  | None => forall m, ~ (forall o, In o (required suffixes) -> step_done dir base files m o)
  end.
Proof.
  intros Gp NL. unfold find_latest_complete. pose proof (iterate_spec dir base suffixes true files Gp NL) as H. simpl in H.
  destruct (iterate_complete_steps (path_in dir base) suffixes true files) as [steps|e]; simpl; [|discriminate].
  destruct H as [_ [_ [S H]]]. intros [= <-]. destruct steps as [|n steps].
  - intros m Hm. apply H in Hm. contradiction.
  - exists n. split; auto. split. { apply H. left; auto. }
    intros m Hm. apply H in Hm. destruct Hm as [->|I]; [lia|]. inversion S as [|? ? ? F]; subst. rewrite Forall_forall in F.
    apply F in I. simpl in I. lia.
Qed.
