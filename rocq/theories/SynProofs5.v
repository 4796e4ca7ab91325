(** The training loop and the saving of checkpoints are orderly. *)
From Coq Require Import String List Arith NArith Bool Lia.
From Verif Require Import BaseModel Py SynModel SynSpec SynProofs SynProofs2 SynProofs3 SynProofs4.
Import ListNotations.
Local Open Scope list_scope.
Local Open Scope nat_scope.

Lemma str_eqb_refl s : str_eqb s s = true.
Proof. unfold str_eqb. destruct (list_eq_dec N.eq_dec s s); congruence. Qed.

Lemma bytes_b (l : pystr) : forallb (fun b => N.ltb b 256) l = true -> bytes l.
Proof. intros H. apply Forall_forall. intros b I. rewrite forallb_forall in H. apply N.ltb_lt. apply H. exact I. Qed.

(** ** The first process acts while the others wait *)
Section Alone.
Variable Q : world -> Prop.
Notation W ps d f s p := (World ps d f s p [] []).
Definition waits (rest : list prog) : Prop := forall p, In p rest -> exists x k, p = Psum x k.

Lemma alone_isdir x k rest d f s : waits rest ->
  Safe Q (W (k (existsb (str_eqb x) d) :: rest) d f s None) -> Safe Q (W (IsDir x k :: rest) d f s None).
Proof.
  intros R SF. constructor; [|reflexivity| |].
  - intros e [E|I]; [discriminate|]. destruct (R _ I) as (? & ? & E). discriminate.
  - left. eexists. apply (st_isdir _ 0 x k). reflexivity.
  - intros w' S.
    inversion S as [? i ? ? E|? i ? ? E|? i ? ? E|? i ? E|? i ? E E2|? i ? ? E|? xs E|? c' ks E|? s' ks E|? m keep E K|? fl l r E|? fl l r E];
      subst; cbn [procs dirs files steps pending writes failed] in *;
      try (destruct i as [|i]; [try discriminate E|exfalso; cbn [nth_error] in E; apply nth_error_In in E; destruct (R _ E) as (? & ? & E'); discriminate]);
      try discriminate.
    + cbn in E. injection E as -> ->. exact SF.
    + destruct xs; discriminate.
    + destruct ks; discriminate.
    + destruct ks; discriminate.
    + destruct l; discriminate.
    + destruct l; discriminate.
Qed.
Lemma alone_makedirs x k rest d f s : waits rest ->
  Safe Q (W (k :: rest) (x :: d) f s None) -> Safe Q (W (Makedirs x k :: rest) d f s None).
Proof.
  intros R SF. constructor; [|reflexivity| |].
  - intros e [E|I]; [discriminate|]. destruct (R _ I) as (? & ? & E). discriminate.
  - left. eexists. apply (st_makedirs _ 0 x k). reflexivity.
  - intros w' S.
    inversion S as [? i ? ? E|? i ? ? E|? i ? ? E|? i ? E|? i ? E E2|? i ? ? E|? xs E|? c' ks E|? s' ks E|? m keep E K|? fl l r E|? fl l r E];
      subst; cbn [procs dirs files steps pending writes failed] in *;
      try (destruct i as [|i]; [try discriminate E|exfalso; cbn [nth_error] in E; apply nth_error_In in E; destruct (R _ E) as (? & ? & E'); discriminate]);
      try discriminate.
    + cbn in E. injection E as -> ->. exact SF.
    + destruct xs; discriminate.
    + destruct ks; discriminate.
    + destruct ks; discriminate.
    + destruct l; discriminate.
    + destruct l; discriminate.
Qed.
End Alone.

Lemma waits_sync devices name k a n : (forall i, a <= i < a + n -> 0 < devices i) ->
  waits (map (fun i => sync_devices devices i name 0 (k i)) (seq a n)).
Proof.
  intros D p I. apply in_map_iff in I. destruct I as (i & <- & I). apply in_seq in I. rewrite sync_psum by (apply D; exact I). eauto.
Qed.

(** ** Training *)
Section Train.
Variable devices : nat -> nat.
Variable ckpt_dir : pystr.
Variables train_steps fresh : nat.
Variable should_save : option nat -> nat -> bool.
Variable evaluates fewshots : nat -> nat -> bool.
Variable P : nat.
Hypothesis P0 : 0 < P.
Hypothesis DEV : forall i, i < P -> 0 < devices i.
Hypothesis EV : forall i s, i < P -> evaluates i s = evaluates 0 s.
Hypothesis FS : forall i s, i < P -> fewshots i s = fewshots 0 s.
Definition done (w : world) : Prop := In train_steps (steps w) /\ pending w = None /\ is_dir w ckpt_dir = true.

Section Dirs.
Variable d : list pystr.
Hypothesis D : existsb (str_eqb ckpt_dir) d = true.
Notation OK := (ok done P d).
Definition quiet : cond := fun _ p => p = None.
Definition anything : cond := fun _ _ => True.
Lemma stable_anything : stable anything. Proof. red. intros. exact I. Qed.

Lemma completed_ok (Pre : cond) : (forall s p, Pre s p -> p = None) -> (forall s, Pre s None -> In train_steps s) ->
  OK Pre (fun i => sync_devices devices i (s_ "training:completed"%string) 0 Return).
Proof.
  intros PN H. apply sync_ok; [exact P0|exact DEV|apply bytes_b; reflexivity| |].
  - intros s n keep _ X. apply PN in X. discriminate.
  - apply return_ok; [exact P0|exact PN|]. intros f s HP. split; [apply H; exact HP|]. split; [reflexivity|exact D].
Qed.

Lemma finish_ok : OK anything (finish devices train_steps).
Proof.
  unfold finish. apply (wait_ok done P P0 d anything quiet); [apply stable_anything|reflexivity|].
  apply (has_ok done P P0 d quiet train_steps
    (fun i has => if has then _ else _)); [intros s p E; exact E|].
  intros [|].
  - apply completed_ok; [intros s p [E _]; exact E|]. intros s [_ E]. apply existsb_exists in E. destruct E as (x & I & E).
    apply Nat.eqb_eq in E. subst x. exact I.
  - apply sync_ok; [exact P0|exact DEV|apply bytes_b; reflexivity|intros s n keep _ [X _]; discriminate|].
    apply (save_at_ok done P P0 d _ (fun s p => p = Some train_steps \/ (p = None /\ In train_steps s))).
    + intros s n keep _ [X _]. discriminate.
    + intros s _. left. reflexivity.
    + apply (wait_ok done P P0 d _ (fun s p => p = None /\ In train_steps s)).
      * intros s n keep _ [X|[X _]]; [|discriminate]. injection X as ->. right. split; [reflexivity|left; reflexivity].
      * intros s [X|X]; [discriminate|exact X].
      * apply completed_ok; [intros s p [E _]; exact E|intros s [_ I]; exact I].
Qed.

Lemma loop_ok n : forall step last, OK anything (fun i => train_loop should_save evaluates fewshots i n step last (finish devices train_steps i)).
Proof.
  induction n as [|n IH]; intros step last; [exact finish_ok|]. cbn [train_loop].
  apply compute_ok; [exact P0|apply stable_anything|].
  set (next := fun i => if fewshots i step then Compute (FewShot step) (train_loop should_save evaluates fewshots i n (S step) (if should_save last step then Some step else last) (finish devices train_steps i))
     else train_loop should_save evaluates fewshots i n (S step) (if should_save last step then Some step else last) (finish devices train_steps i)).
  assert (N1 : OK anything next).
  { destruct (fewshots 0 step) eqn:F.
    - apply (ok_ext done P P0 d _ (fun i => Compute (FewShot step) (train_loop should_save evaluates fewshots i n (S step) (if should_save last step then Some step else last) (finish devices train_steps i)))).
      + intros i Hi. unfold next. rewrite FS, F by exact Hi. reflexivity.
      + apply compute_ok; [exact P0|apply stable_anything|apply IH].
    - apply (ok_ext done P P0 d _ (fun i => train_loop should_save evaluates fewshots i n (S step) (if should_save last step then Some step else last) (finish devices train_steps i))).
      + intros i Hi. unfold next. rewrite FS, F by exact Hi. reflexivity.
      + apply IH. }
  assert (N2 : OK anything (fun i => if evaluates i step then Compute (Evaluation step) (next i) else next i)).
  { destruct (evaluates 0 step) eqn:F.
    - apply (ok_ext done P P0 d _ (fun i => Compute (Evaluation step) (next i))).
      + intros i Hi. rewrite EV, F by exact Hi. reflexivity.
      + apply compute_ok; [exact P0|apply stable_anything|exact N1].
    - apply (ok_ext done P P0 d _ next); [|exact N1]. intros i Hi. rewrite EV, F by exact Hi. reflexivity. }
  destruct (should_save last step).
  - apply (save_at_ok done P P0 d anything anything); [apply stable_anything|intros; exact I|exact N2].
  - exact N2.
Qed.

Lemma after_latest_ok latest : OK quiet (fun i =>
  let init_step := match latest with Some s => s | None => fresh end in
  let loop last := train_loop should_save evaluates fewshots i (train_steps - init_step) (S init_step) last (finish devices train_steps i) in
  if init_step =? 0 then
    HasStep 0 (fun has =>
      if has then loop latest
      else sync_devices devices i (s_ "training:ckpt-first"%string) 0 (save_at 0 (loop (Some 0))))
  else loop latest).
Proof.
  cbv zeta. set (st := match latest with Some s => s | None => fresh end).
  destruct (st =? 0).
  - apply (has_ok done P P0 d quiet 0 (fun i has => if has then _ else _)); [intros s p E; exact E|]. intros [|].
    + eapply ok_weak; [|apply loop_ok]. intros; exact I.
    + apply sync_ok; [exact P0|exact DEV|apply bytes_b; reflexivity|intros s n keep _ [X _]; discriminate|].
      apply (save_at_ok done P P0 d _ anything); [intros s n keep _ [X _]; discriminate|intros; exact I|apply loop_ok].
  - eapply ok_weak; [|apply loop_ok]. intros; exact I.
Qed.
Lemma restored_ok : OK quiet (fun i => sync_devices devices i (s_ "create-ckpt-dir"%string) 0 (LatestStep (fun latest =>
  let init_step := match latest with Some s => s | None => fresh end in
  let loop last := train_loop should_save evaluates fewshots i (train_steps - init_step) (S init_step) last (finish devices train_steps i) in
  if init_step =? 0 then
    HasStep 0 (fun has =>
      if has then loop latest
      else sync_devices devices i (s_ "training:ckpt-first"%string) 0 (save_at 0 (loop (Some 0))))
  else loop latest))).
Proof.
  apply sync_ok; [exact P0|exact DEV|apply bytes_b; reflexivity|intros s n keep _ X; discriminate|].
  apply (latest_ok done P P0 d quiet (fun i latest => _)); [intros s p E; exact E|]. intros b. apply after_latest_ok.
Qed.
End Dirs.

Lemma training_safe d f s : Safe done (begin P (train_and_evaluate devices ckpt_dir train_steps fresh should_save evaluates fewshots) d f s).
Proof.
  unfold begin, train_and_evaluate, create_checkpoint_manager.
  set (rest := fun i => LatestStep (fun latest =>
    let init_step := match latest with Some s => s | None => fresh end in
    let loop last := train_loop should_save evaluates fewshots i (train_steps - init_step) (S init_step) last (finish devices train_steps i) in
    if init_step =? 0 then
      HasStep 0 (fun has =>
        if has then loop latest
        else sync_devices devices i (s_ "training:ckpt-first"%string) 0 (save_at 0 (loop (Some 0))))
    else loop latest)).
  assert (G : forall d, existsb (str_eqb ckpt_dir) d = true ->
    Safe done (World (map (fun i => sync_devices devices i (s_ "create-ckpt-dir"%string) 0 (rest i)) (seq 0 P)) d f s None [] [])).
  { intros d' D. destruct (restored_ok d' D) as [A _]. apply A; [reflexivity|apply lag_refl]. }
  destruct P as [|p]; [lia|]. cbn [seq map] in *. cbn [Nat.eqb]. fold (rest 0).
  assert (EQ : map (fun me => if me =? 0 then IsDir ckpt_dir (fun e => if e then sync_devices devices me (s_ "create-ckpt-dir"%string) 0 (rest me)
         else Makedirs ckpt_dir (sync_devices devices me (s_ "create-ckpt-dir"%string) 0 (rest me)))
       else sync_devices devices me (s_ "create-ckpt-dir"%string) 0 (rest me)) (seq 1 p) =
     map (fun me => sync_devices devices me (s_ "create-ckpt-dir"%string) 0 (rest me)) (seq 1 p)).
  { apply map_ext_in. intros i I. apply in_seq in I. destruct i; [lia|]. reflexivity. }
  change (Safe done (World (IsDir ckpt_dir (fun e => if e then sync_devices devices 0 (s_ "create-ckpt-dir"%string) 0 (rest 0)
      else Makedirs ckpt_dir (sync_devices devices 0 (s_ "create-ckpt-dir"%string) 0 (rest 0))) ::
    map (fun me => if me =? 0 then IsDir ckpt_dir (fun e => if e then sync_devices devices me (s_ "create-ckpt-dir"%string) 0 (rest me)
         else Makedirs ckpt_dir (sync_devices devices me (s_ "create-ckpt-dir"%string) 0 (rest me)))
       else sync_devices devices me (s_ "create-ckpt-dir"%string) 0 (rest me)) (seq 1 p)) d f s None [] [])).
  rewrite EQ.
  assert (WT : waits (map (fun me => sync_devices devices me (s_ "create-ckpt-dir"%string) 0 (rest me)) (seq 1 p))).
  { apply waits_sync. intros i Hi. apply DEV. lia. }
  apply alone_isdir; [exact WT|]. destruct (existsb (str_eqb ckpt_dir) d) eqn:E.
  - apply G. exact E.
  - apply alone_makedirs; [exact WT|]. apply G. cbn [existsb]. rewrite str_eqb_refl. reflexivity.
Qed.
End Train.
