(** The statements of C82 from the description of the loop. *)
From Coq Require Import Reals ZArith String List Arith Bool Sorted Lia Lra.
From Verif Require Import HookModel HookSpec HookProofs HookProofs2 PyLemmas Py.
Import ListNotations.
Local Open Scope list_scope.
Local Open Scope nat_scope.

Section Loop.
Context {batch T P M : Type}.
Variable params : T -> P.
Variable train_step : T -> batch -> T * M.
Variable skips : bool.
Variable cost : nat -> list (string * R).
Variable train_steps : nat.
Variable has : nat -> bool.
Notation after := (state_after train_step).
Notation the_run proc := (run params train_step skips proc cost train_steps has).
Notation step_of := (fun x : nat * P * list (string * R) => fst (fst x)).

Lemma map_steps (f : nat -> P) (L : list nat) : map step_of (map (fun s => (s, f s, cost s)) L) = L.
Proof. rewrite map_map. cbn. apply map_id. Qed.

Lemma in_map_steps (f : nat -> P) (L : list nat) s p c :
  In (s, p, c) (map (fun s => (s, f s, cost s)) L) <-> In s L /\ p = f s /\ c = cost s.
Proof.
  rewrite in_map_iff. split.
  - intros (x & E & H). injection E as -> <- <-. auto.
  - intros (H & -> & ->). eauto.
Qed.

Lemma from_acting clock o init n (E : list (nat * P * list (string * R))) (f : nat -> P) : nonzero o ->
  E = map (fun s => (s, f s, cost s)) (acting should_trigger clock (create_action (init + 1) train_steps o) (init + 1) n) ->
  increasing (map step_of E) /\
  forall s p c, In (s, p, c) E <->
    init < s <= init + n /\ (due o (init + 1) train_steps s \/ late o clock (map step_of E) s) /\ p = f s /\ c = cost s.
Proof.
  intros H0 ->. rewrite map_steps. split; [apply acting_sorted|]. intros s p c.
  rewrite in_map_steps, (acting_new clock (init + 1) train_steps o n H0 s). split.
  - intros ((A & B) & C & D). repeat split; auto; lia.
  - intros (A & B & C & D). repeat split; auto; lia.
Qed.

Lemma run_evaluations proc pi progress evaluate fewshot init ts batches :
  options_ok pi (me proc) progress evaluate fewshot ->
  let n := executed init train_steps (length batches) in
  exists l, the_run proc pi progress evaluate fewshot init ts batches = (l, Ok (after ts batches n)) /\
    increasing (map step_of (evaluations l)) /\
    (forall s p c, In (s, p, c) (evaluations l) <->
      init < s <= init + n /\
      (due evaluate (init + 1) train_steps s \/ late evaluate (eval_clock proc) (map step_of (evaluations l)) s) /\
      p = params (after ts batches (s - init)) /\ c = cost s).
Proof.
  intros H n. destruct (run_spec params train_step skips proc cost train_steps has pi progress evaluate fewshot init ts batches H) as (l & E & I1 & _).
  exists l. split; [exact E|]. apply (from_acting (eval_clock proc) evaluate init n (evaluations l) (fun s => params (after ts batches (s - init)))); [exact (proj1 (proj2 H))|exact I1].
Qed.

Lemma run_fewshots proc pi progress evaluate o init ts batches :
  options_ok pi (me proc) progress evaluate (Some o) ->
  let n := executed init train_steps (length batches) in
  exists l, the_run proc pi progress evaluate (Some o) init ts batches = (l, Ok (after ts batches n)) /\
    increasing (map step_of (fewshots l)) /\
    (forall s p c, In (s, p, c) (fewshots l) <->
      init < s <= init + n /\
      (due o (init + 1) train_steps s \/ late o (fewshot_clock proc) (map step_of (fewshots l)) s) /\
      p = params (after ts batches (s - init)) /\ c = cost s).
Proof.
  intros H n. destruct (run_spec params train_step skips proc cost train_steps has pi progress evaluate (Some o) init ts batches H) as (l & E & _ & I2 & _).
  exists l. split; [exact E|]. apply (from_acting (fewshot_clock proc) o init n (fewshots l) (fun s => params (after ts batches (s - init)))); [exact (proj2 (proj2 H) o eq_refl)|exact I2].
Qed.

Lemma call_fewshot_none proc step ts : call_fewshot params proc cost step None ts = (([] : list (event T P M)), Ok None).
Proof. reflexivity. Qed.

Lemma run_no_fewshots proc pi progress evaluate init ts batches l r :
  the_run proc pi progress evaluate None init ts batches = (l, r) -> fewshots l = [].
Proof.
  assert (L : forall bs step h t l r, fewshot_hook h = None ->
    loop params train_step skips proc cost train_steps step h t bs = (l, r) -> fewshots l = []).
  { induction bs as [|b bs IH]; intros step h t l0 r0 Hh E; cbn [loop] in E; [injection E as <- <-; reflexivity|].
    destruct (train_steps <? step); [injection E as <- <-; reflexivity|].
    unfold body in E. destruct (train_step t b) as [t1 m1].
    destruct (call _ (progress_hook h) step _) as [[bp ap]|]; cbn [lift tbind emit] in E; [|injection E as <- <-; reflexivity].
    destruct (call _ (evaluation_hook h) step _) as [[be ae]|]; cbn [lift tbind emit] in E.
    2:{ injection E as <- <-. destruct bp; reflexivity. }
    rewrite Hh, call_fewshot_none in E. cbn [tbind] in E.
    destruct (loop _ _ _ _ _ _ (S step) _ t1 bs) as [l1 r1] eqn:E1. apply IH in E1; [|reflexivity].
    injection E as <- <-. rewrite !fewshots_app, E1. destruct bp, be; reflexivity. }
  unfold run. cbn [emit tbind]. intros E.
  destruct (loop _ _ _ _ _ _ _ _ ts batches) as [l1 r1] eqn:E1. apply L in E1; [|reflexivity].
  destruct r1 as [t1|]; cbn [tbind] in E.
  - injection E as <- <-. rewrite !fewshots_app, E1. destruct ((init =? 0) && negb (has 0)), (has train_steps); reflexivity.
  - injection E as <- <-. rewrite fewshots_app, E1. destruct ((init =? 0) && negb (has 0)); reflexivity.
Qed.

Lemma run_reports proc pi progress evaluate fewshot init ts batches :
  options_ok pi (me proc) progress evaluate fewshot ->
  let n := executed init train_steps (length batches) in
  exists l, the_run proc pi progress evaluate fewshot init ts batches = (l, Ok (after ts batches n)) /\
    increasing (map (fun x => fst (fst x)) (reports l)) /\
    (forall s m c, In (s, m, c) (reports l) <->
      (pi = None \/ pi = Some (me proc)) /\ init < s <= init + n /\ (skips = true -> s <> init + 1) /\
      (due progress (init + 1) train_steps s \/
       late progress (progress_clock proc) (init + 1 :: map (fun x => fst (fst x)) (reports l)) s) /\
      c = cost s /\
      exists b, nth_error batches (s - (init + 1)) = Some b /\ m = snd (train_step (after ts batches (s - (init + 1))) b)).
Proof.
  intros H n. destruct (run_spec params train_step skips proc cost train_steps has pi progress evaluate fewshot init ts batches H) as (l & E & _ & _ & _ & I4 & I5).
  exists l. split; [exact E|]. fold n in I4, I5. rewrite I5. split; [apply acting_sorted|]. intros s m c. rewrite I4.
  assert (D : reporting pi (me proc) \/ ~ reporting pi (me proc)).
  { unfold reporting. destruct pi as [i|]; [|auto]. destruct (Nat.eq_dec i (me proc)); [subst; auto|]. right. intros [?|E2]; [discriminate|injection E2; auto]. }
  destruct D as [D|D].
  - rewrite !(acting_ext (report_trigger skips pi (me proc)) (clu_trigger skips)) by (intros; apply report_same; auto).
    rewrite (acting_report_new skips (progress_clock proc) (init + 1) train_steps progress n); [|exact (proj1 H D)].
    unfold reporting in D. split.
    + intros ((A & B & C) & F & G). repeat split; auto; lia.
    + intros (_ & A & B & C & F & G). repeat split; auto; lia.
  - rewrite report_none by auto. split; [intros [[] _]|]. intros (F & _). contradiction.
Qed.

Lemma run_saves proc pi progress evaluate fewshot init ts batches :
  options_ok pi (me proc) progress evaluate fewshot ->
  let n := executed init train_steps (length batches) in
  exists l, the_run proc pi progress evaluate fewshot init ts batches = (l, Ok (after ts batches n)) /\
    saves l = (if (init =? 0) && negb (has 0) then [(0, ts, true)] else []) ++
              map (fun s => (s, after ts batches (s - init), false)) (seq (S init) n) ++
              (if has train_steps then [] else [(train_steps, after ts batches n, true)]).
Proof.
  intros H n. destruct (run_spec params train_step skips proc cost train_steps has pi progress evaluate fewshot init ts batches H) as (l & E & _ & _ & I3 & _).
  exists l. split; [exact E|]. rewrite I3. rewrite Nat.add_1_r. reflexivity.
Qed.

Lemma run_agree proc proc' pi pi' progress progress' evaluate fewshot init ts batches :
  options_ok pi (me proc) progress evaluate fewshot -> options_ok pi' (me proc') progress' evaluate fewshot ->
  o_every_secs evaluate = None -> (forall o, fewshot = Some o -> o_every_secs o = None) ->
  exists l l' t, the_run proc pi progress evaluate fewshot init ts batches = (l, Ok t) /\
    the_run proc' pi' progress' evaluate fewshot init ts batches = (l', Ok t) /\
    evaluations l = evaluations l' /\ fewshots l = fewshots l' /\ saves l = saves l'.
Proof.
  intros H H' N N'.
  destruct (run_spec params train_step skips proc cost train_steps has pi progress evaluate fewshot init ts batches H) as (l & E & I1 & I2 & I3 & _).
  destruct (run_spec params train_step skips proc' cost train_steps has pi' progress' evaluate fewshot init ts batches H') as (l' & E' & I1' & I2' & I3' & _).
  exists l, l'. eexists. split; [exact E|]. split; [exact E'|]. rewrite I1, I1', I2, I2', I3, I3'.
  split; [|split; [|reflexivity]].
  - f_equal. apply acting_noclock; cbn; auto. tauto.
  - destruct fewshot as [o|]; [|reflexivity]. f_equal. apply acting_noclock; cbn; auto. tauto.
Qed.

Lemma run_zero proc pi progress evaluate fewshot init ts b batches :
  ((pi = None \/ pi = Some (me proc)) -> nonzero progress) -> o_every_steps evaluate = Some 0 -> init < train_steps ->
  exists l, the_run proc pi progress evaluate fewshot init ts (b :: batches) = (l, Raise ZeroDivisionError) /\ evaluations l = [].
Proof.
  intros H1 H2 H3. unfold run. set (h := Hooks _ _ _ _).
  cbn [loop]. destruct (Nat.ltb_spec train_steps (init + 1)); [lia|].
  unfold body. destruct (train_step ts b) as [t1 m1].
  destruct (call_ok (report_trigger skips (progress_index h) (me proc)) (progress_hook h) (init + 1) (progress_clock proc (init + 1))
                  (report_good skips pi (me proc) (progress_hook h) H1) I) as (bp & ap & Ep & _).
  rewrite Ep. cbn [lift tbind emit].
  assert (Ee : call should_trigger (evaluation_hook h) (init + 1) (eval_clock proc (init + 1)) = Raise ZeroDivisionError).
  { unfold call, h, init_and_check, create_action, should_trigger. cbn [previous evaluation_hook bind every_steps]. rewrite H2. reflexivity. }
  rewrite Ee. cbn [tbind]. eexists. split; [reflexivity|].
  rewrite !evaluations_app. destruct ((init =? 0) && negb (has 0)), bp; reflexivity.
Qed.

Lemma run_last proc pi progress evaluate fewshot init ts batches :
  options_ok pi (me proc) progress evaluate fewshot -> init < train_steps -> train_steps - init <= length batches ->
  let final := after ts batches (train_steps - init) in
  exists l, the_run proc pi progress evaluate fewshot init ts batches = (l, Ok final) /\
    In (init + 1, params (after ts batches 1), cost (init + 1)) (evaluations l) /\
    In (train_steps, params final, cost train_steps) (evaluations l) /\
    (fewshot <> None -> In (train_steps, params final, cost train_steps) (fewshots l)) /\
    In (train_steps, final, false) (saves l) /\
    (has train_steps = false -> In (train_steps, final, true) (saves l)).
Proof.
  intros H H1 H2 final.
  assert (En : executed init train_steps (length batches) = train_steps - init) by (unfold executed; lia).
  destruct (run_spec params train_step skips proc cost train_steps has pi progress evaluate fewshot init ts batches H) as (l & E & I1 & I2 & I3 & _).
  rewrite En in *. exists l. split; [exact E|].
  assert (A : forall clock o, nonzero o -> forall s, (s = init + 1 \/ s = train_steps) -> In s (acting should_trigger clock (create_action (init + 1) train_steps o) (init + 1) (train_steps - init))).
  { intros clock o Ho s Hs. apply acting_new; auto. split; [lia|]. left. unfold due. tauto. }
  rewrite I1, I2, I3. split; [|split; [|split; [|split]]].
  - apply in_map_iff. exists (init + 1). split; [|apply A; [exact (proj1 (proj2 H))|auto]]. replace (init + 1 - init) with 1 by lia. reflexivity.
  - apply in_map_iff. exists train_steps. split; [reflexivity|]. apply A; [exact (proj1 (proj2 H))|auto].
  - destruct fewshot as [o|]; [|congruence]. intros _. apply in_map_iff. exists train_steps. split; [reflexivity|]. apply A; [exact (proj2 (proj2 H) o eq_refl)|auto].
  - apply in_or_app. right. apply in_or_app. left. apply in_map_iff. exists train_steps. split; [reflexivity|]. apply in_seq. lia.
  - intros ->. apply in_or_app. right. apply in_or_app. right. left. reflexivity.
Qed.
End Loop.

Lemma positive_some x v : positive x = Some v <-> x = Some v /\ (0 < v)%R.
Proof.
  unfold positive. destruct x as [y|]; [|split; [discriminate|intros [? _]; discriminate]].
  destruct (Rle_dec y 0) as [H|H].
  - split; [discriminate|]. intros [E ?]. injection E as ->. lra.
  - split; [intros E; injection E as ->; split; [auto|lra]|intros [E _]; auto].
Qed.

Lemma cost_fn devices c step name v :
  In (name, v) (make_train_cost_fn devices c step) <->
  (name = "flops"%string /\ exists f, ca_flops c = Some f /\ (0 < f)%R /\ v = total_cost ca_flops [(step, devices, c)]) \/
  (name = "device_seconds"%string /\ exists f, ca_seconds c = Some f /\ (0 < f)%R /\ v = total_cost ca_seconds [(step, devices, c)]).
Proof.
  unfold make_train_cost_fn, get_flops_and_seconds_per_device.
  assert (K : forall (n : string) x (V : R), (forall f, x = Some f -> V = INR step * INR devices * f + 0)%R ->
     (In (name, v) (match positive x with Some f => [(n, (f * INR step * INR devices)%R)] | None => [] end) <->
      (name = n /\ exists f, x = Some f /\ (0 < f)%R /\ v = V))).
  { intros n x V HV. destruct (positive x) as [f|] eqn:E.
    - apply positive_some in E. destruct E as [-> Hf]. rewrite (HV f eq_refl). split.
      + intros [Q|[]]. injection Q as -> <-. split; auto. exists f. repeat split; auto. ring.
      + intros (-> & f' & Q & _ & ->). left. f_equal. ring.
    - split; [intros []|]. intros (_ & f & -> & Hf & _). assert (positive (Some f) = Some f) by (apply positive_some; auto). congruence. }
  rewrite in_app_iff. rewrite (K "flops"%string (ca_flops c) (total_cost ca_flops [(step, devices, c)])).
  2:{ intros f E. cbn [total_cost fold_right]. rewrite E. reflexivity. }
  rewrite (K "device_seconds"%string (ca_seconds c) (total_cost ca_seconds [(step, devices, c)])).
  2:{ intros f E. cbn [total_cost fold_right]. rewrite E. reflexivity. }
  tauto.
Qed.

Lemma cost_resumed : exists history devices c v,
  steps_of history = 3 /\ In (2, devices, c) history /\
  (forall n d c', In (n, d, c') history -> ca_flops c' = ca_flops c) /\
  In ("flops"%string, v) (make_train_cost_fn devices c 3) /\ v <> total_cost ca_flops history.
Proof.
  set (c := CostAnalysis (Some 1%R) None).
  exists [(1, 1, c); (2, 2, c)], 2, c, (total_cost ca_flops [(3, 2, c)]).
  split; [reflexivity|]. split; [right; left; reflexivity|]. split.
  { intros n d c' [E|[E|[]]]; injection E as <- <- <-; reflexivity. }
  split.
  - apply cost_fn. left. split; auto. exists 1%R. repeat split; auto. lra.
  - cbn [total_cost fold_right c ca_flops]. cbn [INR]. lra.
Qed.
