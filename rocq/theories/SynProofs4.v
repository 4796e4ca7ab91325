(** The training loop is orderly. *)
From Coq Require Import String List Arith NArith Bool Lia.
From Verif Require Import BaseModel Py SynModel SynSpec SynProofs SynProofs2 SynProofs3.
Import ListNotations.
Local Open Scope list_scope.
Local Open Scope nat_scope.

Section Ok.
Variable Q : world -> Prop.
Variable P : nat.
Hypothesis P0 : 0 < P.
Notation W ps d f s p := (World ps d f s p [] []).
Notation all k := (map k (seq 0 P)).

(** The directories of a world do not change any more: they are [d]. *)
Variable d : list pystr.
Definition cond := list nat -> option nat -> Prop.
Definition ok (Pre : cond) (k : nat -> prog) : Prop :=
  (forall f s ps, Pre s None -> lag s ps (all k) -> Safe Q (W ps d f s None)) /\
  (forall f s n, Pre s (Some n) -> Safe Q (W (all k) d f s (Some n))).
Definition stable (Pre : cond) : Prop :=
  forall s n keep, (forall k, In k s -> n <= k -> keep k = true) -> Pre s (Some n) -> Pre (n :: filter keep s) None.

Lemma lag_refl s cs : lag s cs cs.
Proof. induction cs; constructor; [exists 0; constructor|assumption]. Qed.
Lemma lag_more s k j : (forall i, i < P -> exists n, goes s n (k i) (j i)) -> forall ps, lag s ps (all k) -> lag s ps (all j).
Proof.
  intros H ps L. unfold lag in *. rewrite <- (map_id ps) in L |- *.
  assert (G : forall l, incl l (seq 0 P) -> forall ps, Forall2 (fun p c => exists n, goes s n p c) ps (map k l) -> Forall2 (fun p c => exists n, goes s n p c) ps (map j l)).
  { clear L. induction l as [|i l IH]; intros IN qs F; inversion F as [|? ? ? ? [n N] F']; subst; constructor.
    - destruct (H i) as [m G]; [specialize (IN i (or_introl eq_refl)); apply in_seq in IN; lia|]. exists (n + m). eapply goes_trans; eauto.
    - apply IH; [|assumption]. intros y Y. apply IN. right. exact Y. }
  apply G; [apply incl_refl|exact L].
Qed.
Lemma ok_weak (Pre Pre' : cond) k : (forall s p, Pre' s p -> Pre s p) -> ok Pre k -> ok Pre' k.
Proof. intros H [A B]. split; intros; [eapply A; eauto|eapply B; eauto]. Qed.
Lemma ok_ext Pre k j : (forall i, i < P -> k i = j i) -> ok Pre k -> ok Pre j.
Proof.
  intros E. assert (EE : all k = all j) by (apply map_ext_in; intros i I; apply in_seq in I; apply E; lia).
  unfold ok. rewrite EE. auto.
Qed.

Lemma seq_nonempty : seq 0 P <> [].
Proof. destruct P; [lia|discriminate]. Qed.
Lemma all_in (k : nat -> prog) : In (k 0) (all k).
Proof. apply in_map. apply in_seq. lia. Qed.
Lemma all_nth (k : nat -> prog) i p : nth_error (all k) i = Some p -> exists j, j < P /\ p = k j.
Proof. intros E. apply nth_error_In, in_map_iff in E. destruct E as (j & <- & I). apply in_seq in I. exists j. split; [lia|reflexivity]. Qed.

(** From nonlocal programs with lagging processes to the processes all there. *)
Lemma none_safe f s k ps : (forall i, i < P -> nonlocal (k i)) -> lag s ps (all k) ->
  Safe Q (W (all k) d f s None) -> Safe Q (W ps d f s None).
Proof.
  intros NL L S. destruct (lag_numbers _ _ _ L) as (l & <- & E & G).
  apply (local_safe Q (total l)); [lia|exact G| |rewrite E; exact S].
  apply Forall_forall. intros t I. assert (IN : In (snd t) (all k)) by (rewrite <- E; apply in_map; exact I).
  apply in_map_iff in IN. destruct IN as (i & <- & Ii). apply in_seq in Ii. apply NL. lia.
Qed.

(** All processes at computations [k]; [next] is what they are left with. *)
Lemma collective_ok Pre k next :
  stable Pre ->
  (forall i, i < P -> match k i with Psum _ _ | Compute _ _ => True | _ => False end) ->
  (forall w w', procs w = all k -> step w w' -> pending w = None -> writes w = [] -> w' = set_procs w (all next)) ->
  (forall w w', procs w = all k -> step w w' -> writes w = [] ->
     w' = set_procs w (all next) \/ exists n keep, pending w = Some n /\ (forall k, In k (steps w) -> n <= k -> keep k = true) /\
       w' = World (procs w) (dirs w) (files w) (n :: filter keep (steps w)) None (writes w) (failed w)) ->
  (forall w, procs w = all k -> exists w', step w w') ->
  ok Pre next -> ok Pre k.
Proof.
  intros ST NL S1 S2 EX [N1 N2].
  assert (NR : forall e, ~ In (Raises e) (all k)).
  { intros e I. apply in_map_iff in I. destruct I as (i & E & Ii). apply in_seq in Ii. specialize (NL i). rewrite E in NL. apply NL. lia. }
  assert (A : forall f s, Pre s None -> Safe Q (W (all k) d f s None)).
  { intros f s H. constructor; [exact NR|reflexivity|left; apply EX; reflexivity|].
    intros w' X. rewrite (S1 (W (all k) d f s None) w' eq_refl X eq_refl eq_refl). apply N1; [exact H|apply lag_refl]. }
  split.
  - intros f s ps H L. apply (none_safe f s k); [|exact L|apply A; exact H].
    intros i Hi. specialize (NL i Hi). destruct (k i); try contradiction; exact I.
  - intros f s n H. constructor; [exact NR|reflexivity|left; apply EX; reflexivity|].
    intros w' X. destruct (S2 (W (all k) d f s (Some n)) w' eq_refl X eq_refl) as [->|(m & keep & E & K & ->)].
    + apply N2. exact H.
    + cbn in E. injection E as <-. apply A. cbn in *. apply ST; assumption.
Qed.

Ltac notlocal E := exfalso; apply all_nth in E; destruct E as (? & ? & E); discriminate E.

Lemma compute_ok Pre c k : stable Pre -> ok Pre k -> ok Pre (fun i => Compute c (k i)).
Proof.
  intros ST OK. assert (X : forall w w', procs w = all (fun i => Compute c (k i)) -> step w w' -> writes w = [] ->
     w' = set_procs w (all k) \/ exists n keep, pending w = Some n /\ (forall k, In k (steps w) -> n <= k -> keep k = true) /\
       w' = World (procs w) (dirs w) (files w) (n :: filter keep (steps w)) None (writes w) (failed w)).
  { intros w w' E S WR. inversion S as [? ? ? ? H|? ? ? ? H|? ? ? ? H|? ? ? H|? ? ? H|? ? ? ? H|? xs H|? c' ks H|? s' ks H|? n keep H K|? fl l r H|? fl l r H];
      subst; try (rewrite E in H; notlocal H).
    - rewrite E in H. exfalso. assert (IN : In (Compute c (k 0)) (map (fun xk => Psum (fst xk) (snd xk)) xs)) by (rewrite <- H; apply (all_in (fun i => Compute c (k i)))).
      apply in_map_iff in IN. destruct IN as (? & IN & _). discriminate.
    - left. f_equal. rewrite E in H. assert (c' = c).
      { assert (IN : In (Compute c (k 0)) (map (Compute c') ks)) by (rewrite <- H; apply (all_in (fun i => Compute c (k i)))).
        apply in_map_iff in IN. destruct IN as (? & IN & _). congruence. }
      subst c'. rewrite <- (map_map k (Compute c)) in H. symmetry. apply (map_compute_inj c). exact H.
    - exfalso. rewrite E in H. assert (IN : In (Compute c (k 0)) (map (Save s') ks)) by (rewrite <- H; apply (all_in (fun i => Compute c (k i)))).
      apply in_map_iff in IN. destruct IN as (? & IN & _). discriminate.
    - right. exists n, keep. auto.
    - rewrite WR in H. destruct l; discriminate.
    - rewrite WR in H. destruct l; discriminate. }
  apply (collective_ok Pre _ k ST); [intros; exact I| | exact X| |exact OK].
  - intros w w' E S PN WR. destruct (X w w' E S WR) as [->|(n & keep & PS & _)]; [reflexivity|congruence].
  - intros w E. eexists. apply (st_compute w c (all k)); [rewrite E, map_map; reflexivity|].
    intros N. apply map_eq_nil in N. exact (seq_nonempty N).
Qed.

Variable devices : nat -> nat.
Hypothesis DEV : forall i, i < P -> 0 < devices i.

Lemma sync_ok Pre name k : bytes name -> stable Pre -> ok Pre k -> ok Pre (fun i => sync_devices devices i name 0 (k i)).
Proof.
  intros BN ST OK.
  destruct (barrier_psum devices 0 (fun _ => name) k P DEV) as [xs0 X0].
  assert (NL : forall i, i < P -> match sync_devices devices i name 0 (k i) with Psum _ _ | Compute _ _ => True | _ => False end).
  { intros i Hi. rewrite sync_psum by (apply DEV; exact Hi). exact I. }
  assert (NTH : forall i p, nth_error (all (fun i => sync_devices devices i name 0 (k i))) i = Some p -> exists x r, p = Psum x r).
  { intros i p E. apply all_nth in E. destruct E as (j & Hj & ->). specialize (NL j Hj). rewrite sync_psum in * by (apply DEV; exact Hj). eauto. }
  assert (X : forall w w', procs w = all (fun i => sync_devices devices i name 0 (k i)) -> step w w' -> writes w = [] ->
     w' = set_procs w (all k) \/ exists n keep, pending w = Some n /\ (forall k, In k (steps w) -> n <= k -> keep k = true) /\
       w' = World (procs w) (dirs w) (files w) (n :: filter keep (steps w)) None (writes w) (failed w)).
  { intros w w' E S WR. pose proof (all_in (fun i => sync_devices devices i name 0 (k i))) as IN0.
    cbv beta in IN0. rewrite sync_psum in IN0 by (apply DEV; exact P0).
    inversion S as [? ? ? ? H|? ? ? ? H|? ? ? ? H|? ? ? H|? ? ? H|? ? ? ? H|? xs H|? c' ks H|? s' ks H|? n keep H K|? fl l r H|? fl l r H];
      subst; try (rewrite E in H; exfalso; apply NTH in H; destruct H as (? & ? & H); discriminate H).
    - left. f_equal. rewrite (barrier_fires devices 0 (fun _ => name) k P w xs P0 DEV BN E H).
      apply map_ext. intros i. unfold after_barrier. rewrite N.eqb_refl. reflexivity.
    - exfalso. rewrite E in H. rewrite H in IN0. apply in_map_iff in IN0. destruct IN0 as (? & IN & _). discriminate.
    - exfalso. rewrite E in H. rewrite H in IN0. apply in_map_iff in IN0. destruct IN0 as (? & IN & _). discriminate.
    - right. exists n, keep. auto.
    - rewrite WR in H. destruct l; discriminate.
    - rewrite WR in H. destruct l; discriminate. }
  apply (collective_ok Pre _ k ST NL); [| exact X| |exact OK].
  - intros w w' E S PN WR. destruct (X w w' E S WR) as [->|(n & keep & PS & _)]; [reflexivity|congruence].
  - intros w E. eexists. apply (st_psum w xs0); [rewrite E; exact X0|]. intros ->. simpl in X0.
    apply map_eq_nil in X0. exact (seq_nonempty X0).
Qed.

(** Waiting while a checkpoint is being saved. *)
Lemma wait_some Pre k : stable Pre -> (forall f s, Pre s None -> Safe Q (W (all (fun i => Wait (k i))) d f s None)) ->
  forall f s n, Pre s (Some n) -> Safe Q (W (all (fun i => Wait (k i))) d f s (Some n)).
Proof.
  intros ST A f s n H. constructor; [|reflexivity| |].
  - intros e I. apply in_map_iff in I. destruct I as (i & E & _). discriminate.
  - left. eexists. apply (st_commit _ n (fun _ => true)); [reflexivity|reflexivity].
  - intros w' S. pose proof (all_in (fun i => Wait (k i))) as IN0.
    inversion S as [? ? ? ? E|? ? ? ? E|? ? ? ? E|? ? ? E|? ? ? E E2|? ? ? ? E|? xs E|? c' ks E|? s' ks E|? m keep E K|? fl l r E|? fl l r E];
      subst; cbn [procs dirs files steps pending writes failed] in *; try (notlocal E); try discriminate.
    + rewrite E in IN0. apply in_map_iff in IN0. destruct IN0 as (? & IN & _). discriminate.
    + rewrite E in IN0. apply in_map_iff in IN0. destruct IN0 as (? & IN & _). discriminate.
    + injection E as <-. apply A. apply ST; assumption.
    + destruct l; discriminate.
    + destruct l; discriminate.
Qed.

Lemma wait_ok (Pre Pre' : cond) k : stable Pre -> (forall s, Pre s None -> Pre' s None) -> ok Pre' k -> ok Pre (fun i => Wait (k i)).
Proof.
  intros ST H [A B].
  assert (X : forall f s ps, Pre s None -> lag s ps (all (fun i => Wait (k i))) -> Safe Q (W ps d f s None)).
  { intros f s ps HP L. apply A; [apply H; exact HP|]. apply (lag_more s (fun i => Wait (k i))); [|exact L].
    intros i _. exists 1. repeat constructor. }
  split; [exact X|]. apply (wait_some Pre); [exact ST|]. intros f s HP. apply X; [exact HP|apply lag_refl].
Qed.

Lemma save_ok (Pre Pre' : cond) n k : (forall s p, Pre s p -> p = None) -> (forall s, Pre s None -> Pre' s (Some n)) -> ok Pre' k -> ok Pre (fun i => Save n (k i)).
Proof.
  intros PN H [_ B].
  assert (A : forall f s, Pre s None -> Safe Q (W (all (fun i => Save n (k i))) d f s None)).
  { intros f s HP. constructor; [|reflexivity| |].
    - intros e I. apply in_map_iff in I. destruct I as (i & E & _). discriminate.
    - left. eexists. apply (st_save _ n (all k)); [cbn; rewrite map_map; reflexivity| |reflexivity].
      intros N. apply map_eq_nil in N. exact (seq_nonempty N).
    - intros w' S. pose proof (all_in (fun i => Save n (k i))) as IN0.
      inversion S as [? ? ? ? E|? ? ? ? E|? ? ? ? E|? ? ? E|? ? ? E E2|? ? ? ? E|? xs E|? c' ks E|? s' ks E|? m keep E K|? fl l r E|? fl l r E];
        subst; cbn [procs dirs files steps pending writes failed] in *; try (notlocal E); try discriminate.
      + rewrite E in IN0. apply in_map_iff in IN0. destruct IN0 as (? & IN & _). discriminate.
      + rewrite E in IN0. apply in_map_iff in IN0. destruct IN0 as (? & IN & _). discriminate.
      + assert (s' = n). { rewrite E in IN0. apply in_map_iff in IN0. destruct IN0 as (? & IN & _). congruence. }
        subst s'. rewrite <- (map_map k (Save n)) in E. apply map_save_inj in E. subst ks. apply B. apply H. exact HP.
      + destruct l; discriminate.
      + destruct l; discriminate. }
  split.
  - intros f s ps HP L. apply (none_safe f s (fun i => Save n (k i))); [intros; exact I|exact L|apply A; exact HP].
  - intros f s m HP. apply PN in HP. discriminate.
Qed.
Lemma save_at_ok (Pre Pre' : cond) n k : stable Pre -> (forall s, Pre s None -> Pre' s (Some n)) -> ok Pre' k -> ok Pre (fun i => save_at n (k i)).
Proof.
  intros ST H OK. unfold save_at. apply (wait_ok Pre (fun s p => Pre s None /\ p = None)); [exact ST|auto|].
  apply (save_ok _ Pre'); [intros s p [_ E]; exact E|intros s [HP _]; apply H; exact HP|exact OK].
Qed.

(** Reading whether a step is there, when nothing is being saved. *)
Lemma has_ok (Pre : cond) x k : (forall s p, Pre s p -> p = None) ->
  (forall b, ok (fun s p => Pre s p /\ existsb (Nat.eqb x) s = b) (fun i => k i b)) -> ok Pre (fun i => HasStep x (k i)).
Proof.
  intros PN H. split.
  - intros f s ps HP L. destruct (H (existsb (Nat.eqb x) s)) as [A _]. apply A; [auto|].
    apply (lag_more s (fun i => HasStep x (k i))); [|exact L]. intros i _. exists 1. repeat constructor.
  - intros f s n HP. apply PN in HP. discriminate.
Qed.
Lemma latest_ok (Pre : cond) k : (forall s p, Pre s p -> p = None) ->
  (forall b, ok Pre (fun i => k i b)) -> ok Pre (fun i => LatestStep (k i)).
Proof.
  intros PN H. split.
  - intros f s ps HP L. destruct (H (latest_of s)) as [A _]. apply A; [auto|].
    apply (lag_more s (fun i => LatestStep (k i))); [|exact L]. intros i _. exists 1. repeat constructor.
  - intros f s n HP. apply PN in HP. discriminate.
Qed.
Lemma return_ok (Pre : cond) : (forall s p, Pre s p -> p = None) ->
  (forall f s, Pre s None -> Q (W (all (fun _ => Return)) d f s None)) -> ok Pre (fun _ => Return).
Proof.
  intros PN H.
  assert (A : forall f s, Pre s None -> Safe Q (W (all (fun _ => Return)) d f s None)).
  { intros f s HP. constructor; [|reflexivity| |].
    - intros e I. apply in_map_iff in I. destruct I as (i & E & _). discriminate.
    - right. split; [|apply H; exact HP]. intros p I. apply in_map_iff in I. destruct I as (i & E & _). auto.
    - intros w' S. pose proof (all_in (fun _ => Return)) as IN0.
      inversion S as [? ? ? ? E|? ? ? ? E|? ? ? ? E|? ? ? E|? ? ? E E2|? ? ? ? E|? xs E|? c' ks E|? s' ks E|? m keep E K|? fl l r E|? fl l r E];
        subst; cbn [procs dirs files steps pending writes failed] in *; try (notlocal E); try discriminate.
      + rewrite E in IN0. apply in_map_iff in IN0. destruct IN0 as (? & IN & _). discriminate.
      + rewrite E in IN0. apply in_map_iff in IN0. destruct IN0 as (? & IN & _). discriminate.
      + rewrite E in IN0. apply in_map_iff in IN0. destruct IN0 as (? & IN & _). discriminate.
      + destruct l; discriminate.
      + destruct l; discriminate. }
  split.
  - intros f s ps HP L. apply (none_safe f s (fun _ => Return)); [intros; exact I|exact L|apply A; exact HP].
  - intros f s m HP. apply PN in HP. discriminate.
Qed.
End Ok.
