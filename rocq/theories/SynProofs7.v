(** Processes that disagree wait for each other forever. *)
From Coq Require Import String List Arith NArith Bool Lia.
From Verif Require Import BaseModel Py SynModel SynSpec SynProofs SynProofs2 SynProofs3 SynProofs4 SynProofs5 SynProofs6.
Import ListNotations.
Local Open Scope list_scope.
Local Open Scope nat_scope.

Definition c_dir : pystr := s_ "c"%string.
Definition ev0 (i s : nat) : bool := (i =? 0) && (s =? 1).
Definition dev1 (_ : nat) : nat := 1.
Definition no (_ : option nat) (_ : nat) : bool := false.
Definition no2 (_ _ : nat) : bool := false.
Definition w0 : world := begin 2 (train_and_evaluate dev1 c_dir 1 0 no ev0 no2) [c_dir] [] [0].
Definition ckl (me : nat) : prog := LatestStep (fun latest =>
  let init_step := match latest with Some s => s | None => 0 end in
  let loop last := train_loop no ev0 no2 me (1 - init_step) (S init_step) last (finish dev1 1 me) in
  if init_step =? 0 then
    HasStep 0 (fun has =>
      if has then loop latest
      else sync_devices dev1 me (s_ "training:ckpt-first"%string) 0 (save_at 0 (loop (Some 0))))
  else loop latest).
Definition wd (ps : list prog) : world := World ps [c_dir] [] [0] None [] [].
Definition last1 (me : nat) : prog := sync_devices dev1 me (s_ "training:ckpt-last"%string) 0
  (save_at 1 (Wait (sync_devices dev1 me (s_ "training:completed"%string) 0 Return))).
Definition stuck : world := wd [Compute (Evaluation 1) (finish dev1 1 0); last1 1].

Lemma stuck_run : run w0 stuck.
Proof.
  assert (R1 : run w0 (wd (map (fun i => sync_devices dev1 i (s_ "create-ckpt-dir"%string) 0 (ckl i)) (seq 0 2)))).
  { eapply run_step; [apply run_refl|].
    exact (st_isdir w0 0 c_dir (fun e => if e then sync_devices dev1 0 (s_ "create-ckpt-dir"%string) 0 (ckl 0)
      else Makedirs c_dir (sync_devices dev1 0 (s_ "create-ckpt-dir"%string) 0 (ckl 0))) eq_refl). }
  assert (R2 : run w0 (wd [ckl 0; ckl 1])).
  { eapply run_step; [exact R1|].
    destruct (barrier_goes dev1 0 (fun _ => s_ "create-ckpt-dir"%string) ckl 2
      (wd (map (fun i => sync_devices dev1 i (s_ "create-ckpt-dir"%string) 0 (ckl i)) (seq 0 2)))) as (w' & S1 & ->);
      [lia|intros; unfold dev1; lia|apply bytes_b; reflexivity|reflexivity|].
    cbn [seq map] in S1. unfold after_barrier in S1. rewrite N.eqb_refl in S1. exact S1. }
  set (hs i := HasStep 0 (fun has => if has then train_loop no ev0 no2 i 1 1 (Some 0) (finish dev1 1 i)
    else sync_devices dev1 i (s_ "training:ckpt-first"%string) 0 (save_at 0 (train_loop no ev0 no2 i 1 1 (Some 0) (finish dev1 1 i))))).
  assert (R3 : run w0 (wd [hs 0; ckl 1])) by (eapply run_step; [exact R2|]; apply (st_latest (wd [ckl 0; ckl 1]) 0 _ eq_refl)).
  assert (R4 : run w0 (wd [hs 0; hs 1])) by (eapply run_step; [exact R3|]; apply (st_latest (wd [hs 0; ckl 1]) 1 _ eq_refl)).
  set (tl i := train_loop no ev0 no2 i 1 1 (Some 0) (finish dev1 1 i)).
  assert (R5 : run w0 (wd [tl 0; hs 1])) by (eapply run_step; [exact R4|]; apply (st_hasstep (wd [hs 0; hs 1]) 0 _ _ eq_refl)).
  assert (R6 : run w0 (wd [tl 0; tl 1])) by (eapply run_step; [exact R5|]; apply (st_hasstep (wd [tl 0; hs 1]) 1 _ _ eq_refl)).
  assert (R7 : run w0 (wd [Compute (Evaluation 1) (finish dev1 1 0); finish dev1 1 1])).
  { eapply run_step; [exact R6|].
    refine (st_compute (wd [tl 0; tl 1]) (TrainStep 1) [Compute (Evaluation 1) (finish dev1 1 0); finish dev1 1 1] eq_refl _). discriminate. }
  set (fh := HasStep 1 (fun has => if has then sync_devices dev1 1 (s_ "training:completed"%string) 0 Return else last1 1)).
  assert (R8 : run w0 (wd [Compute (Evaluation 1) (finish dev1 1 0); fh])).
  { eapply run_step; [exact R7|]. apply (st_wait (wd [Compute (Evaluation 1) (finish dev1 1 0); finish dev1 1 1]) 1 _ eq_refl eq_refl). }
  eapply run_step; [exact R8|]. apply (st_hasstep (wd [Compute (Evaluation 1) (finish dev1 1 0); fh]) 1 _ _ eq_refl).
Qed.

Lemma stuck_forever w' : ~ step stuck w'.
Proof.
  unfold stuck, last1. rewrite sync_psum by (unfold dev1; lia).
  set (p := Psum _ _). set (c := Compute _ _). intros ST.
  assert (NTH : forall i q, nth_error [c; p] i = Some q -> q = c \/ q = p).
  { intros [|[|[|i]]] q E; cbn in E; inversion E; auto. }
  inversion ST as [? i ? ? X|? i ? ? X|? i ? ? X|? i ? X|? i ? X E2|? i ? ? X|? xs X|? c' ks X|? s' ks X|? m keep X K|? fl l r X|? fl l r X];
    subst; cbn [wd procs dirs files steps pending writes failed] in *;
    try (apply NTH in X; destruct X as [X|X]; discriminate X); try discriminate.
  - destruct xs; discriminate.
  - destruct ks as [|k1 [|k2 ks]]; discriminate.
  - destruct ks as [|k1 ks]; discriminate.
  - destruct l; discriminate.
  - destruct l; discriminate.
Qed.
Lemma stuck_not_finished p : In p (procs stuck) -> p <> Return.
Proof.
  unfold stuck, last1. rewrite sync_psum by (unfold dev1; lia). intros [<-|[<-|[]]]; discriminate.
Qed.

(** ** A process that is late *)
Lemma nth_set (ps : list prog) j q : forall i p, nth_error ps j = Some p -> i <> j -> nth_error (firstn j ps ++ q :: skipn (S j) ps) i = nth_error ps i.
Proof.
  intros i p E N. destruct (set_at ps j p q E) as (a & b & -> & L & ->). subst j.
  destruct (Nat.lt_ge_cases i (length a)) as [LT|GE].
  - rewrite !nth_error_app1 by exact LT. reflexivity.
  - rewrite !nth_error_app2 by exact GE. destruct (i - length a) eqn:X; [lia|]. reflexivity.
Qed.
Lemma barrier_waits devices main name rest P w j p :
  (forall i, i < P -> 0 < devices i) ->
  length (procs w) = P -> nth_error (procs w) j = Some p -> (forall x k, p <> Psum x k) ->
  (forall i, i < P -> i <> j -> nth_error (procs w) i = Some (sync_devices devices i (name i) main (rest i))) ->
  forall w', step w w' -> forall i, i < P -> i <> j -> nth_error (procs w') i = nth_error (procs w) i.
Proof.
  intros D L E NP H w' ST i Hi NE.
  assert (NTH : forall m q, nth_error (procs w) m = Some q -> (forall x k, q <> Psum x k) -> m = j).
  { intros m q X NQ. destruct (Nat.eq_dec m j) as [|N]; [assumption|]. exfalso.
    assert (m < P) by (rewrite <- L; apply nth_error_Some; congruence).
    rewrite H in X by assumption. rewrite sync_psum in X by (apply D; assumption). injection X as X. exact (NQ _ _ (eq_sym X)). }
  assert (LOC : forall m q q', nth_error (procs w) m = Some q -> (forall x k, q <> Psum x k) ->
     nth_error (firstn m (procs w) ++ q' :: skipn (S m) (procs w)) i = nth_error (procs w) i).
  { intros m q q' X NQ. pose proof (NTH m q X NQ). subst m. apply (nth_set _ _ _ _ _ X). exact NE. }
  assert (OTHERS : forall q, nth_error (procs w) i = Some q -> exists x k, q = Psum x k).
  { intros q X. rewrite H in X by assumption. rewrite sync_psum in X by (apply D; assumption). injection X as <-. eauto. }
  inversion ST as [? m ? ? X|? m ? ? X|? m ? ? X|? m ? X|? m ? X E2|? m ? ? X|? xs X|? c' ks X|? s' ks X|? n keep X K|? fl l r X|? fl l r X];
    subst; cbn [procs set_proc set_procs] in *; try (apply (LOC _ _ _ X); discriminate); try reflexivity.
  - exfalso. apply nth_error_In in E. rewrite X in E. apply in_map_iff in E. destruct E as (y & E & _). exact (NP _ _ (eq_sym E)).
  - exfalso. assert (LI : i < length (procs w)) by exact Hi. apply nth_error_Some in LI.
    destruct (nth_error (procs w) i) as [q|] eqn:Q; [|congruence]. destruct (OTHERS q eq_refl) as (? & ? & ->).
    apply nth_error_In in Q. rewrite X in Q. apply in_map_iff in Q. destruct Q as (? & Q & _). discriminate.
  - exfalso. assert (LI : i < length (procs w)) by exact Hi. apply nth_error_Some in LI.
    destruct (nth_error (procs w) i) as [q|] eqn:Q; [|congruence]. destruct (OTHERS q eq_refl) as (? & ? & ->).
    apply nth_error_In in Q. rewrite X in Q. apply in_map_iff in Q. destruct Q as (? & Q & _). discriminate.
Qed.

(** ** Names with the same checksum *)
Definition dirA : pystr := s_ "/w/bubanxn"%string.
Definition dirB : pystr := s_ "/w/nidmovh"%string.
Definition own (i : nat) : pystr := if i =? 0 then dirA else dirB.
Definition barname (i : nat) : pystr := s_ "checkpoints:mkdir:"%string ++ own i.
Definition after (i : nat) : prog := Spawn [(own i, s_ "c"%string)] Return.
Lemma names_collide :
  exists dir0 dir1 w, dir0 <> dir1 /\
    run (begin 2 (fun me => save_checkpoint (fun _ => 1) me (if me =? 0 then dir0 else dir1) [s_ "c"%string] true Return) [] [] []) w /\
    (forall e, ~ In (Raises e) (procs w)) /\ failed w <> [].
Proof.
  exists dirA, dirB, (World [after 0; Return] [dirA] [] [] None [] [(dirB, s_ "c"%string)]).
  split; [discriminate|]. split; [|split; [intros e [X|[X|[]]]; discriminate|discriminate]].
  set (b := begin 2 _ _ _ _).
  assert (R1 : run b (World (map (fun i => sync_devices (fun _ => 1) i (barname i) 0 (after i)) (seq 0 2)) [dirA] [] [] None [] [])).
  { eapply run_step; [apply run_refl|].
    exact (st_makedirs b 0 dirA (sync_devices (fun _ => 1) 0 (barname 0) 0 (after 0)) eq_refl). }
  assert (R2 : run b (World [after 0; after 1] [dirA] [] [] None [] [])).
  { eapply run_step; [exact R1|].
    destruct (barrier_goes (fun _ => 1) 0 barname after 2
      (World (map (fun i => sync_devices (fun _ => 1) i (barname i) 0 (after i)) (seq 0 2)) [dirA] [] [] None [] [])) as (w' & S1 & ->);
      [lia|intros; lia|apply bytes_b; reflexivity|reflexivity|].
    replace (World [after 0; after 1] [dirA] [] [] None [] []) with
      (set_procs (World (map (fun i => sync_devices (fun _ => 1) i (barname i) 0 (after i)) (seq 0 2)) [dirA] [] [] None [] [])
        (map (after_barrier (fun i => crc32 (barname i)) 0 after) (seq 0 2))); [exact S1|].
    unfold set_procs. cbn [seq map dirs files steps pending writes failed]. unfold after_barrier.
    replace (crc32 (barname 1)) with (crc32 (barname 0)) by (vm_compute; reflexivity). rewrite N.eqb_refl. reflexivity. }
  eapply run_step; [eapply run_step; [exact R2|]|].
  - exact (st_spawn (World [after 0; after 1] [dirA] [] [] None [] []) 1 [(dirB, s_ "c"%string)] Return eq_refl).
  - exact (st_write_fails (World [after 0; Return] [dirA] [] [] None [(dirB, s_ "c"%string)] []) (dirB, s_ "c"%string) [] [] eq_refl eq_refl).
Qed.
