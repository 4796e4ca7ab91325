(** Proofs about the training loop with its hooks (C82). *)
From Coq Require Import Reals ZArith String List Arith Bool Sorted Lia Lra.
From Verif Require Import HookModel HookSpec HookProofs PyLemmas Py.
Import ListNotations.
Local Open Scope list_scope.
Local Open Scope nat_scope.

Lemma clu_good skips a : every_steps a <> Some 0 -> good (clu_trigger skips) a.
Proof.
  intros H a' s t E. unfold clu_trigger. destruct (skips && _); [eauto|]. apply should_trigger_ok. congruence.
Qed.

Definition reporting (process_index : option nat) (me : nat) : Prop := process_index = None \/ process_index = Some me.

Lemma report_good skips pi me a : (reporting pi me -> every_steps a <> Some 0) -> good (report_trigger skips pi me) a.
Proof.
  intros H a' s t E. unfold report_trigger. destruct pi as [i|].
  - destruct (Nat.eqb_spec me i); cbn [negb]; [|eauto]. subst. apply (clu_good skips a); [|auto]. apply H. right; auto.
  - apply (clu_good skips a); [|auto]. apply H. left; auto.
Qed.

Lemma acting_ext t1 t2 clock n : (forall a s t, t1 a s t = t2 a s t) -> forall a step, acting t1 clock a step n = acting t2 clock a step n.
Proof.
  intros H. induction n as [|n IH]; intros a step; [reflexivity|]. cbn [acting]. unfold call.
  destruct (init_and_check a step (clock step)) as [a1|]; cbn [bind]; [|reflexivity]. rewrite H.
  destruct (t2 a1 step (clock step)) as [b|]; cbn [bind]; [|reflexivity]. rewrite IH. reflexivity.
Qed.

Lemma report_same skips pi me a s t : reporting pi me -> report_trigger skips pi me a s t = clu_trigger skips a s t.
Proof. unfold reporting, report_trigger. intros [->| ->]; [reflexivity|]. rewrite Nat.eqb_refl. reflexivity. Qed.

Lemma report_none skips pi me clock n : ~ reporting pi me -> forall a step, acting (report_trigger skips pi me) clock a step n = [].
Proof.
  intros H. induction n as [|n IH]; intros a step; [reflexivity|]. cbn [acting]. unfold call.
  destruct (init_and_check a step (clock step)) as [a1|]; cbn [bind]; [|reflexivity].
  assert (E : report_trigger skips pi me a1 step (clock step) = Ok false).
  { unfold report_trigger. destruct pi as [i|]; [|exfalso; apply H; left; auto].
    destruct (Nat.eqb_spec me i); [exfalso; apply H; right; congruence|reflexivity]. }
  rewrite E. cbn [bind app]. apply IH.
Qed.

Lemma acting_clu_later skips clock n : forall a step, every_steps a <> Some 0 -> ready a step -> previous a <> None ->
  acting (clu_trigger skips) clock a step n = acting should_trigger clock a step n.
Proof.
  induction n as [|n IH]; intros a step H0 Hr Hp; [reflexivity|]. cbn [acting].
  assert (G : good should_trigger a) by (intros x st t E; apply should_trigger_ok; congruence).
  destruct (call_ok should_trigger a step (clock step) G Hr) as (b & a' & E & Hr' & E1 & E2 & E3 & Ht & Ep & Hn).
  assert (Ec : call (clu_trigger skips) a step (clock step) = call should_trigger a step (clock step)).
  { unfold call. rewrite (init_ok a step (clock step) Hr). cbn [bind].
    unfold clu_trigger. cbn [previous].
    replace (skips && _) with false; [reflexivity|]. symmetry. apply andb_false_intro2.
    unfold ready in Hr. destruct (previous a) as [[r t0]|]; [|congruence]. apply Nat.eqb_neq. lia. }
  rewrite Ec, E. f_equal. apply IH; auto. congruence.
Qed.

Lemma acting_report_new skips clock first last o n : nonzero o ->
  forall s, In s (acting (clu_trigger skips) clock (create_action first last o) first n) <->
    first <= s < first + n /\ (skips = true -> s <> first) /\
    (due o first last s \/ late o clock (first :: acting (clu_trigger skips) clock (create_action first last o) first n) s).
Proof.
  intros H0 s. destruct skips.
  2:{ assert (E : forall a step, acting (clu_trigger false) clock a step n = acting should_trigger clock a step n) by (intros; apply acting_ext; reflexivity).
      rewrite !E. rewrite (acting_new clock first last o n H0 s).
      assert (Q : n <> 0 -> (late o clock (acting should_trigger clock (create_action first last o) first n) s <->
                  late o clock (first :: acting should_trigger clock (create_action first last o) first n) s)).
      { intros Hn.
        assert (F : In first (acting should_trigger clock (create_action first last o) first n)).
        { apply acting_new; auto. split; [lia|]. left. left. auto. }
        unfold late. split; intros (secs & r & H1 & H2 & H3 & H4 & H5); exists secs, r; repeat split; auto.
        - right; auto.
        - intros q [<-|Hq] ?; auto.
        - destruct H2 as [<-|]; auto.
        - intros q Hq ?. apply H4; auto. right; auto. }
      destruct n as [|n]; [split; intros [? _]; lia|]. rewrite Q by lia. split.
      - intros [? ?]. split; auto. split; auto. discriminate.
      - intros (? & _ & ?). auto. }
  destruct n as [|n]; [cbn; split; [tauto|intros [? _]; lia]|].
  set (a := create_action first last o).
  assert (Hr : ready a first) by exact I.
  set (a1 := Action (o_every_steps o) (o_every_secs o) (on_steps a) (Some (first, clock first)) first).
  assert (E : acting (clu_trigger true) clock a first (S n) = acting should_trigger clock a1 (S first) n).
  { cbn [acting]. unfold call. rewrite (init_ok a first (clock first) Hr). cbn [bind previous a create_action].
    assert (E : forall x, previous x = Some (first, clock first) -> clu_trigger true x first (clock first) = Ok false).
    { intros x Ex. unfold clu_trigger. rewrite Ex, Nat.eqb_refl. reflexivity. }
    rewrite E by reflexivity. cbn [bind app].
    rewrite acting_clu_later; [reflexivity|exact H0|unfold ready; cbn; lia|discriminate]. }
  rewrite E. clear E.
  set (L := acting should_trigger clock a1 (S first) n).
  assert (RL : forall q, In q L -> S first <= q) by (intros q Hq; apply acting_range in Hq; lia).
  assert (D : forall x, asks a1 x <-> due o first last x).
  { intros x. unfold asks, due, a1, a, create_action. cbn [on_steps every_steps]. rewrite in_app_iff. cbn [In].
    destruct (o_on_steps o) as [l|].
    - split.
      + intros [[?|[?|[?|[]]]]|?]; auto. right; right; left; eauto.
      + intros [?|[?|[(l' & E & ?)|?]]]; auto. injection E as <-. auto.
    - cbn [In]. split.
      + intros [[[]|[?|[?|[]]]]|?]; auto.
      + intros [?|[?|[(l' & E & ?)|?]]]; auto. discriminate. }
  unfold L at 1. rewrite (acting_char clock n a1 (S first) s); [|exact H0|unfold ready, a1; cbn; lia|discriminate]. fold L.
  rewrite D. change (every_secs a1) with (o_every_secs o). change (previous a1) with (Some (first, clock first)). unfold late.
  assert (Q : first < s -> forall secs, (exists t, last_time (Some (first, clock first)) clock L s t /\ (secs < clock s - t)%Z) <->
     (exists r, In r (first :: L) /\ r < s /\ (forall q, In q (first :: L) -> q < s -> q <= r) /\ (secs < clock s - clock r)%Z)).
  { intros Hlt secs. unfold last_time. split.
    - intros (t & [(r & H1 & H2 & H3 & H4)|[H1 (r & Er)]] & Hs).
      + exists r. subst t. repeat split; auto; [right; auto|]. intros q [<-|Hq] Hqs; [apply RL in H1; lia|auto].
      + injection Er as <- <-. exists first. repeat split; auto; [left; auto|]. intros q [<-|Hq] Hqs; [lia|]. apply H1 in Hq. lia.
    - intros (r & [<-|H1] & H2 & H3 & H4).
      + exists (clock first). split; auto. right. split; [|eauto]. intros q Hq. destruct (le_lt_dec s q); auto. specialize (H3 q (or_intror Hq) l). apply RL in Hq. lia.
      + exists (clock r). split; auto. left. exists r. repeat split; auto. intros q Hq Hqs. apply H3; [right|]; auto. }
  split.
  - intros [Hs H]. split; [lia|]. split; [intros; lia|]. destruct H as [?|(secs & t & H1 & H2)]; [auto|]. right.
    assert (H3 : exists t, last_time (Some (first, clock first)) clock L s t /\ (secs < clock s - t)%Z) by eauto.
    apply Q in H3; [|lia]. destruct H3 as (r & ?). exists secs, r. auto.
  - intros (Hs & Hf & H). specialize (Hf eq_refl). split; [lia|]. destruct H as [?|(secs & r & H1 & H2)]; [auto|]. right.
    assert (H3 : exists t, last_time (Some (first, clock first)) clock L s t /\ (secs < clock s - t)%Z) by (apply Q; [lia|eauto]).
    destruct H3 as (t & ?). exists secs, t. auto.
Qed.

Section Loop.
Context {batch T P M : Type}.
Variable params : T -> P.
Variable train_step : T -> batch -> T * M.
Variable skips : bool.
Variable proc : process.
Variable cost : nat -> list (string * R).
Variable train_steps : nat.
Notation after := (state_after train_step).

Lemma evaluations_app (l l' : list (event T P M)) : evaluations (l ++ l') = evaluations l ++ evaluations l'.
Proof. apply flat_map_app. Qed.
Lemma fewshots_app (l l' : list (event T P M)) : fewshots (l ++ l') = fewshots l ++ fewshots l'.
Proof. apply flat_map_app. Qed.
Lemma reports_app (l l' : list (event T P M)) : reports (l ++ l') = reports l ++ reports l'.
Proof. apply flat_map_app. Qed.
Lemma saves_app (l l' : list (event T P M)) : saves (l ++ l') = saves l ++ saves l'.
Proof. apply flat_map_app. Qed.

Lemma after_S ts b bs k : after ts (b :: bs) (S k) = after (fst (train_step ts b)) bs k.
Proof. reflexivity. Qed.

Definition h_ok (h : hooks) (step : nat) : Prop :=
  (reporting (progress_index h) (me proc) -> every_steps (progress_hook h) <> Some 0) /\ ready (progress_hook h) step /\
  every_steps (evaluation_hook h) <> Some 0 /\ ready (evaluation_hook h) step /\
  (forall a, fewshot_hook h = Some a -> every_steps a <> Some 0 /\ ready a step).

Definition few_acting (h : hooks) (step n : nat) : list nat :=
  match fewshot_hook h with None => [] | Some a => acting should_trigger (fewshot_clock proc) a step n end.

Lemma loop_spec : forall batches step h ts, h_ok h step ->
  let n := Nat.min (S train_steps - step) (length batches) in
  exists l, loop params train_step skips proc cost train_steps step h ts batches = (l, Ok (after ts batches n)) /\
    evaluations l = map (fun s => (s, params (after ts batches (S s - step)), cost s)) (acting should_trigger (eval_clock proc) (evaluation_hook h) step n) /\
    fewshots l = map (fun s => (s, params (after ts batches (S s - step)), cost s)) (few_acting h step n) /\
    saves l = map (fun s => (s, after ts batches (S s - step), false)) (seq step n) /\
    (forall s m c, In (s, m, c) (reports l) <->
       In s (acting (report_trigger skips (progress_index h) (me proc)) (progress_clock proc) (progress_hook h) step n) /\
       c = cost s /\ exists b, nth_error batches (s - step) = Some b /\ m = snd (train_step (after ts batches (s - step)) b)) /\
    map (fun smc => fst (fst smc)) (reports l) =
       acting (report_trigger skips (progress_index h) (me proc)) (progress_clock proc) (progress_hook h) step n.
Proof.
  induction batches as [|b bs IH]; intros step h ts Hok n.
  - assert (n = 0) by (unfold n; cbn; lia). clearbody n. subst n. exists []. cbn [loop]. repeat split; auto.
    + unfold few_acting. destruct (fewshot_hook h); reflexivity.
    + cbn in *; firstorder contradiction.
    + cbn in *; firstorder contradiction.
    + cbn in *; firstorder contradiction.
  - cbn [loop]. destruct (Nat.ltb_spec train_steps step) as [Hlt|Hle].
    + assert (n = 0) by (unfold n; cbn [length]; lia). clearbody n. subst n. exists []. repeat split; auto.
      * unfold few_acting. destruct (fewshot_hook h); reflexivity.
      * cbn in *; firstorder contradiction.
      * cbn in *; firstorder contradiction.
      * cbn in *; firstorder contradiction.
    + assert (En : n = S (Nat.min (S train_steps - S step) (length bs))) by (unfold n; cbn [length]; lia).
      clearbody n. subst n. set (n := Nat.min (S train_steps - S step) (length bs)) in *.
      destruct Hok as (Hp0 & Hpr & He0 & Her & Hf).
      unfold body. destruct (train_step ts b) as [ts1 m1] eqn:Ets.
      destruct (call_ok (report_trigger skips (progress_index h) (me proc)) (progress_hook h) step (progress_clock proc step)
                  (report_good skips _ _ _ Hp0) Hpr) as (bp & ap & Ep & Hpr' & Ep1 & _).
      rewrite Ep. cbn [lift tbind emit].
      assert (Ge : good should_trigger (evaluation_hook h)) by (intros x st t E; apply should_trigger_ok; congruence).
      destruct (call_ok should_trigger (evaluation_hook h) step (eval_clock proc step) Ge Her) as (be & ae & Ee & Her' & Ee1 & _).
      rewrite Ee. cbn [lift tbind emit].
      assert (Hfew : exists lf few', call_fewshot params proc cost step (fewshot_hook h) ts1 = ((lf : list (event T P M)), Ok few') /\
          (forall a, few' = Some a -> every_steps a <> Some 0 /\ ready a (S step)) /\
          evaluations lf = [] /\ saves lf = [] /\ reports lf = [] /\
          exists w, fewshots lf = map (fun s => (s, params ts1, cost s)) w /\ (forall s, In s w -> s = step) /\
          few_acting h step (S n) = w ++ few_acting (Hooks (progress_index h) ap ae few') (S step) n).
      { unfold few_acting, call_fewshot. destruct (fewshot_hook h) as [few|] eqn:Eh.
        - destruct (Hf few eq_refl) as [Hf0 Hfr].
          assert (Gf : good should_trigger few) by (intros x st t E; apply should_trigger_ok; congruence).
          destruct (call_ok should_trigger few step (fewshot_clock proc step) Gf Hfr) as (bf & af & Ef & Hfr' & Ef1 & _).
          cbn [acting]. rewrite Ef. cbn [lift tbind emit app].
          exists (if bf then [FewShot step (params ts1) (cost step)] else []), (Some af).
          split; [rewrite app_nil_r; reflexivity|]. cbn [fewshot_hook].
          split; [intros a Ea; injection Ea as <-; split; [congruence|auto]|].
          destruct bf; repeat split; auto.
          + exists [step]. repeat split; auto. intros s [<-|[]]; auto.
          + exists []. repeat split; auto. intros s [].
        - exists [], None. cbn [fewshot_hook]. repeat split; auto; try discriminate.
          exists []. repeat split; auto. intros s []. }
      destruct Hfew as (lf & few' & Efew & Hf' & Q1 & Q2 & Q3 & w & Q4 & Q5 & Q6).
      rewrite Efew. cbn [tbind].
      destruct (IH (S step) (Hooks (progress_index h) ap ae few') ts1) as (l & El & I1 & I2 & I3 & I4 & I5).
      { repeat split; cbn [progress_index progress_hook evaluation_hook fewshot_hook]; auto; try congruence.
        - intros Hrep. rewrite Ep1. auto.
        - destruct (Hf' a H); auto.
        - destruct (Hf' a H); auto. }
      fold n in El, I1, I2, I3, I4, I5. rewrite El.
      eexists. split; [rewrite after_S, Ets; reflexivity|].
      assert (Hidx : forall s, S step <= s -> S s - step = S (S s - S step)) by (intros; lia).
      assert (Hmap : forall A (g : nat -> T -> A) L, (forall s, In s L -> S step <= s) ->
         map (fun s => g s (after ts (b :: bs) (S s - step))) L = map (fun s => g s (after ts1 bs (S s - S step))) L).
      { intros A g L HL. apply map_ext_in. intros s Hs. rewrite (Hidx s (HL s Hs)), after_S, Ets. reflexivity. }
      cbn [progress_index progress_hook evaluation_hook fewshot_hook] in *.
      cbn [acting]. rewrite Ee, Ep.
      split; [|split; [|split; [|split]]].
      * rewrite !evaluations_app, I1, Q1. rewrite map_app.
        rewrite (Hmap _ (fun s t => (s, params t, cost s)) (acting should_trigger (eval_clock proc) ae (S step) n)) by (intros s Hs; apply acting_range in Hs; lia).
        replace (evaluations (if bp then [Report step (cost step) m1] else [])) with (@nil (nat * P * list (string * R))) by (destruct bp; reflexivity).
        cbn [app evaluations flat_map]. rewrite !app_nil_r. f_equal.
        destruct be; [|reflexivity]. cbn [evaluations flat_map map app]. replace (S step - step) with 1 by lia. rewrite after_S, Ets. reflexivity.
      * rewrite !fewshots_app, I2, Q4, Q6. rewrite map_app.
        rewrite (Hmap _ (fun s t => (s, params t, cost s)) (few_acting (Hooks (progress_index h) ap ae few') (S step) n)).
        2:{ intros s Hs. unfold few_acting in Hs. cbn [fewshot_hook] in Hs. destruct few'; [apply acting_range in Hs; lia|destruct Hs]. }
        replace (fewshots (if bp then [Report step (cost step) m1] else [])) with (@nil (nat * P * list (string * R))) by (destruct bp; reflexivity).
        replace (fewshots (if be then [Evaluate step (params ts1) (cost step)] else [])) with (@nil (nat * P * list (string * R))) by (destruct be; reflexivity).
        cbn [app fewshots flat_map]. rewrite ?app_nil_r. f_equal. apply map_ext_in. intros s Hs. rewrite (Q5 s Hs). replace (S step - step) with 1 by lia. rewrite after_S, Ets. reflexivity.
      * rewrite !saves_app, I3, Q2. cbn [seq map].
        rewrite (Hmap _ (fun s t => (s, t, false))) by (intros s Hs; apply in_seq in Hs; lia).
        replace (saves (if bp then [Report step (cost step) m1] else [])) with (@nil (nat * T * bool)) by (destruct bp; reflexivity).
        replace (saves (if be then [Evaluate step (params ts1) (cost step)] else [])) with (@nil (nat * T * bool)) by (destruct be; reflexivity).
        cbn [app saves flat_map]. replace (S step - step) with 1 by lia. rewrite after_S, Ets. reflexivity.
      * intros s m c. rewrite !reports_app, Q3.
        replace (reports (if be then [Evaluate step (params ts1) (cost step)] else [])) with (@nil (nat * M * list (string * R))) by (destruct be; reflexivity).
        cbn [app reports flat_map]. rewrite ?app_nil_r, !in_app_iff, I4. split.
        -- intros [Hin|Hin].
           ++ destruct bp; [|destruct Hin]. cbn in Hin. destruct Hin as [Hin|[]]. injection Hin as <- <- <-.
              split; [left; left; auto|]. split; auto. exists b. rewrite Nat.sub_diag. cbn [nth_error]. split; auto. cbn [firstn]. unfold state_after. cbn [firstn fold_left]. rewrite Ets. auto.
           ++ destruct Hin as (H1 & -> & bb & H2 & ->). split; [right; auto|]. split; auto.
              assert (S step <= s) by (apply acting_range in H1; lia). replace (s - step) with (S (s - S step)) by lia.
              cbn [nth_error]. rewrite after_S, Ets. eauto.
        -- intros ([Hin|H1] & -> & bb & H2 & ->).
           ++ left. destruct bp; [|destruct Hin]. destruct Hin as [<-|[]]. rewrite Nat.sub_diag in *. cbn [nth_error] in H2. injection H2 as <-.
              left. unfold state_after. cbn [firstn fold_left]. rewrite Ets. auto.
           ++ right. assert (S step <= s) by (apply acting_range in H1; lia).
              replace (s - step) with (S (s - S step)) in * by lia. cbn [nth_error] in H2. rewrite after_S, Ets. split; auto. split; auto. eauto.
      * rewrite !reports_app, Q3.
        replace (reports (if be then [Evaluate step (params ts1) (cost step)] else [])) with (@nil (nat * M * list (string * R))) by (destruct be; reflexivity).
        cbn [app reports flat_map]. rewrite ?app_nil_r, map_app, I5. f_equal. destruct bp; reflexivity.
Qed.

Variable has : nat -> bool.

Lemma run_spec pi progress evaluate fewshot init ts batches :
  options_ok pi (me proc) progress evaluate fewshot ->
  let n := executed init train_steps (length batches) in
  let first := init + 1 in
  exists l, run params train_step skips proc cost train_steps has pi progress evaluate fewshot init ts batches = (l, Ok (after ts batches n)) /\
    evaluations l = map (fun s => (s, params (after ts batches (s - init)), cost s)) (acting should_trigger (eval_clock proc) (create_action first train_steps evaluate) first n) /\
    fewshots l = map (fun s => (s, params (after ts batches (s - init)), cost s))
      (match fewshot with None => [] | Some o => acting should_trigger (fewshot_clock proc) (create_action first train_steps o) first n end) /\
    saves l = (if (init =? 0) && negb (has 0) then [(0, ts, true)] else []) ++
              map (fun s => (s, after ts batches (s - init), false)) (seq first n) ++
              (if has train_steps then [] else [(train_steps, after ts batches n, true)]) /\
    (forall s m c, In (s, m, c) (reports l) <->
       In s (acting (report_trigger skips pi (me proc)) (progress_clock proc) (create_action first train_steps progress) first n) /\
       c = cost s /\ exists b, nth_error batches (s - first) = Some b /\ m = snd (train_step (after ts batches (s - first)) b)) /\
    map (fun smc => fst (fst smc)) (reports l) =
       acting (report_trigger skips pi (me proc)) (progress_clock proc) (create_action first train_steps progress) first n.
Proof.
  intros (H1 & H2 & H3) n first. unfold run. fold first.
  set (h := Hooks pi (create_action first train_steps progress) (create_action first train_steps evaluate) (create_fewshot_hook first train_steps fewshot)).
  destruct (loop_spec batches first h ts) as (l & El & I1 & I2 & I3 & I4 & I5).
  { repeat split; cbn; auto; destruct fewshot as [o|]; cbn in H; try discriminate; injection H as <-.
    - apply (H3 o eq_refl).
    - exact I. }
  replace (Nat.min (S train_steps - first) (length batches)) with n in * by (unfold n, executed, first; f_equal; lia).
  assert (Hs : forall A (g : nat -> T -> A) L, map (fun s => g s (after ts batches (S s - first))) L = map (fun s => g s (after ts batches (s - init))) L).
  { intros. apply map_ext. intros s. replace (S s - first) with (s - init) by (unfold first; lia). reflexivity. }
  rewrite (Hs _ (fun s t => (s, params t, cost s))) in I1, I2. rewrite (Hs _ (fun s t => (s, t, false))) in I3.
  rewrite El. cbn [emit tbind app]. eexists. split; [reflexivity|].
  assert (Z : forall b k t f,
    evaluations (if b : bool then [@Save T P M k t f] else []) = [] /\ fewshots (if b : bool then [@Save T P M k t f] else []) = [] /\
    reports (if b : bool then [@Save T P M k t f] else []) = [] /\ saves (if b : bool then [@Save T P M k t f] else []) = (if b then [(k, t, f)] else [])) by (intros [] ? ? ?; auto).
  destruct (Z ((init =? 0) && negb (has 0)) 0 ts true) as (Z1 & Z2 & Z3 & Z4).
  assert (Z' : forall b k t f,
    evaluations (if b : bool then [] else [@Save T P M k t f]) = [] /\ fewshots (if b : bool then [] else [@Save T P M k t f]) = [] /\
    reports (if b : bool then [] else [@Save T P M k t f]) = [] /\ saves (if b : bool then [] else [@Save T P M k t f]) = (if b then [] else [(k, t, f)])) by (intros [] ? ? ?; auto).
  destruct (Z' (has train_steps) train_steps (after ts batches n) true) as (Y1 & Y2 & Y3 & Y4).
  cbn [progress_index progress_hook evaluation_hook fewshot_hook h] in *.
  rewrite !evaluations_app, !fewshots_app, !reports_app, !saves_app, Z1, Z2, Z3, Z4, Y1, Y2, Y3, Y4, I1, I2, I3.
  cbn [app flat_map evaluations fewshots reports saves]. rewrite !app_nil_r.
  split; [reflexivity|]. split; [|split; [reflexivity|split; [exact I4|exact I5]]].
  unfold few_acting, create_fewshot_hook, h. cbn [fewshot_hook]. destruct fewshot; reflexivity.
Qed.
End Loop.
