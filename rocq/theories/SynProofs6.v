(** The saving of checkpoints is orderly; processes that disagree. *)
From Coq Require Import String List Arith NArith Bool Lia.
From Verif Require Import BaseModel Py SynModel SynSpec SynProofs SynProofs2 SynProofs3 SynProofs4 SynProofs5.
Import ListNotations.
Local Open Scope list_scope.
Local Open Scope nat_scope.

Section Save.
Variable devices : nat -> nat.
Variable workdir : pystr.
Variable mine : nat -> list pystr.
Variable P : nat.
Hypothesis P0 : 0 < P.
Hypothesis DEV : forall i, i < P -> 0 < devices i.
Hypothesis BYTES : bytes workdir.
Variable old : list (pystr * pystr).
Definition saved (w : world) : Prop :=
  incl old (files w) /\ writes w = [] /\ forall i f, i < P -> In f (mine i) -> In (workdir, f) (files w).

Definition wr (i : nat) : prog := Spawn (map (fun f => (workdir, f)) (mine i)) Return.
(** Process [a + i] has begun to write, or not. *)
Definition proc_at (b : bool) (i : nat) : prog := if b then Return else wr i.
Definition ps_of (bs : list bool) : list prog := map (fun bi => proc_at (fst bi) (snd bi)) (combine bs (seq 0 P)).
Definition weight (bs : list bool) : nat := list_sum (map (fun bi : bool * nat => if fst bi then 0 else S (length (mine (snd bi)))) (combine bs (seq 0 P))).

Lemma combine_split (bs : list bool) i q : length bs = P -> nth_error (ps_of bs) i = Some q ->
  exists l r, bs = l ++ nth i bs true :: r /\ length l = i /\ i < P /\ q = proc_at (nth i bs true) i.
Proof.
  intros L E. assert (I : i < P).
  { assert (nth_error (ps_of bs) i <> None) by congruence. apply nth_error_Some in H. unfold ps_of in H.
    rewrite map_length, combine_length, seq_length in H. lia. }
  assert (X : nth_error bs i = Some (nth i bs true)) by (apply nth_error_nth'; lia).
  destruct (nth_error_split _ _ X) as (l & r & E1 & E2). exists l, r. split; [exact E1|]. split; [exact E2|]. split; [exact I|].
  unfold ps_of in E. rewrite nth_error_map in E.
  assert (Y : nth_error (combine bs (seq 0 P)) i = Some (nth i bs true, i)).
  { rewrite (nth_error_nth' _ (true, 0)) by (rewrite combine_length, seq_length; lia).
    rewrite combine_nth by (rewrite seq_length; lia). rewrite seq_nth by lia. reflexivity. }
  rewrite Y in E. simpl in E. congruence.
Qed.
Lemma sum_cons x l : list_sum (x :: l) = x + list_sum l.
Proof. reflexivity. Qed.
Lemma combine_app {A B} (l1 l2 : list A) : forall (m1 m2 : list B), length l1 = length m1 -> combine (l1 ++ l2) (m1 ++ m2) = combine l1 m1 ++ combine l2 m2.
Proof. induction l1 as [|a l1 IH]; intros [|b m1] m2 E; simpl in *; try discriminate; [reflexivity|]. rewrite IH by lia. reflexivity. Qed.
Lemma combine_pivot (l r : list bool) b : length (l ++ b :: r) = P ->
  combine (l ++ b :: r) (seq 0 P) = combine l (seq 0 (length l)) ++ (b, length l) :: combine r (seq (S (length l)) (length r)).
Proof.
  intros L. rewrite app_length in L. simpl in L. rewrite <- L, seq_app. simpl seq. rewrite combine_app by (rewrite seq_length; reflexivity).
  reflexivity.
Qed.

Lemma spawned_safe N : forall bs d f s w, length bs = P -> weight bs + length w <= N ->
  existsb (str_eqb workdir) d = true ->
  Forall (fun x => fst x = workdir) w -> incl old f ->
  (forall i x, i < P -> In x (mine i) -> nth i bs true = true -> In (workdir, x) w \/ In (workdir, x) f) ->
  Safe saved (World (ps_of bs) d f s None w []).
Proof.
  induction N as [N IH] using lt_wf_ind. intros bs d f s w L LN D FW OLD ALL. constructor.
  - intros e I. cbn [procs] in I. unfold ps_of in I. apply in_map_iff in I. destruct I as ([b i] & E & _). destruct b; discriminate.
  - reflexivity.
  - destruct w as [|[wd x] w].
    + destruct (forallb id bs) eqn:FB.
      * right. rewrite forallb_forall in FB. split.
        -- intros p I. cbn [procs] in I. apply in_map_iff in I. destruct I as ([b i] & <- & I). apply in_combine_l in I.
           apply FB in I. cbn [id] in I. unfold id in I. subst b. reflexivity.
        -- split; [exact OLD|]. split; [reflexivity|]. intros i x Hi I. cbn [files].
           destruct (ALL i x Hi I) as [[]|X]; [|exact X]. apply FB. apply nth_In. lia.
      * left. assert (EX : exists i, i < P /\ nth i bs true = false).
        { clear - FB L. revert P L. induction bs as [|b bs IHb]; intros n L; [discriminate|]. simpl in FB.
          destruct b; [|exists 0; split; [simpl in L; lia|reflexivity]]. simpl in FB. destruct n; [discriminate|].
          destruct (IHb FB n) as (i & Hi & E); [simpl in L; lia|]. exists (S i). split; [lia|exact E]. }
        destruct EX as (i & Hi & E). eexists. apply (st_spawn _ i (map (fun f => (workdir, f)) (mine i)) Return).
        cbn [procs]. unfold ps_of. rewrite nth_error_map.
        rewrite (nth_error_nth' _ (true, 0)) by (rewrite combine_length, seq_length; lia).
        rewrite combine_nth by (rewrite seq_length; lia). rewrite seq_nth by lia. cbn. rewrite E. reflexivity.
    + left. inversion FW as [|? ? FX _]; subst. cbn [fst] in FX. subst wd. eexists. apply (st_write _ (workdir, x) [] w); [reflexivity|exact D].
  - intros w' ST.
    assert (NOT : forall A (g : A -> prog) xs, (forall x, g x <> Return /\ forall i, g x <> wr i) -> xs <> [] -> ps_of bs <> map g xs).
    { intros A g [|x xs] H NE E; [contradiction|]. destruct (H x) as [H1 H2]. cbn [map] in E.
      assert (I : In (g x) (ps_of bs)) by (rewrite E; left; reflexivity). apply in_map_iff in I. destruct I as ([[|] j] & E2 & _); [apply H1|apply (H2 j)]; rewrite <- E2; reflexivity. }
    inversion ST as [? i ? ? E|? i ? ? E|? i ? ? E|? i ? E|? i ? E E2|? i fs k E|? xs E NE|? c' ks E NE|? s' ks E NE|? m keep E K|? fl l r E DD|? fl l r E DD];
      subst; cbn [procs dirs files steps pending writes failed] in *;
      try (destruct (combine_split _ _ _ L E) as (l & r & E1 & E3 & Hi & E4); destruct (nth i bs true) eqn:NB; discriminate E4).
    + (* begins to write *)
      destruct (combine_split _ _ _ L E) as (l & r & E1 & E3 & Hi & E4). destruct (nth i bs true) eqn:NB; [discriminate|].
      unfold proc_at, wr in E4. injection E4 as -> ->. subst i.
      pose proof L as L2. rewrite E1 in L2.
      assert (C : ps_of (l ++ true :: r) = firstn (length l) (ps_of bs) ++ Return :: skipn (S (length l)) (ps_of bs)).
      { destruct (set_at _ _ _ Return E) as (a & b & Eab & La & ->).
        assert (L3 : length (l ++ true :: r) = P) by (rewrite app_length in *; exact L2).
        unfold ps_of in *. rewrite E1, combine_pivot, map_app in Eab by exact L2. cbn [map fst snd] in Eab.
        rewrite combine_pivot, map_app by exact L3. cbn [map fst snd]. unfold proc_at at 2. 
        assert (a = map (fun bi : bool * nat => proc_at (fst bi) (snd bi)) (combine l (seq 0 (length l))) /\ b = map (fun bi : bool * nat => proc_at (fst bi) (snd bi)) (combine r (seq (S (length l)) (length r)))) as [-> ->].
        { apply (pivot _ _ _ _ _ (eq_sym Eab)). rewrite map_length, combine_length, seq_length. lia. }
        reflexivity. }
      cbn [set_proc procs] in *. rewrite <- C.
      assert (L3 : length (l ++ true :: r) = P) by (rewrite app_length in *; exact L2).
      assert (WT : weight bs = weight (l ++ true :: r) + S (length (mine (length l)))).
      { unfold weight. rewrite E1, !combine_pivot by assumption. rewrite !map_app, !list_sum_app. cbn [map fst snd].
        rewrite !sum_cons. lia. }
      assert (LN' : weight (l ++ true :: r) + length (w ++ map (fun f => (workdir, f)) (mine (length l))) < N).
      { rewrite app_length, map_length. lia. }
      apply (IH _ LN'); [exact L3|lia|exact D| |exact OLD|].
      * apply Forall_app. split; [exact FW|]. apply Forall_forall. intros x I. apply in_map_iff in I. destruct I as (? & <- & _). reflexivity.
      * intros j x Hj I NJ. destruct (Nat.eq_dec j (length l)) as [->|NEQ].
        -- left. apply in_or_app. right. apply in_map. exact I.
        -- assert (NJ' : nth j bs true = true).
           { rewrite E1. destruct (Nat.lt_ge_cases j (length l)) as [LT|GE].
             - rewrite app_nth1 in * by exact LT. exact NJ.
             - rewrite app_nth2 in * by exact GE. destruct (j - length l) eqn:JL; [lia|]. exact NJ. }
           destruct (ALL j x Hj I NJ') as [X|X]; [left; apply in_or_app; left; exact X|right; exact X].
    + exfalso. refine (NOT _ _ xs _ NE E). intros x. split; intros; discriminate.
    + exfalso. refine (NOT _ _ ks _ NE E). intros x. split; intros; discriminate.
    + exfalso. refine (NOT _ _ ks _ NE E). intros x. split; intros; discriminate.
    + discriminate.
    + (* a file is written *)
      subst w. rewrite app_length in LN. simpl in LN.
      assert (LN' : weight bs + length (l ++ r) < N) by (rewrite app_length; lia).
      apply (IH _ LN'); [exact L|lia|exact D| | |].
      * apply Forall_app in FW. destruct FW as [F1 F2]. inversion F2; subst. apply Forall_app. split; assumption.
      * intros x I. right. apply OLD. exact I.
      * intros i x Hi I NB. destruct (ALL i x Hi I NB) as [X|X]; [|right; right; exact X].
        apply in_app_or in X. destruct X as [X|[X|X]]; [left; apply in_or_app; left; exact X|right; left; exact X|left; apply in_or_app; right; exact X].
    + exfalso. subst w. apply Forall_app in FW. destruct FW as [_ F2]. inversion F2; subst. unfold is_dir in DD. cbn [dirs] in DD. congruence.
Qed.

Lemma ps_of_begin n : forall a, map (fun bi : bool * nat => proc_at (fst bi) (snd bi)) (combine (repeat false n) (seq a n)) = map wr (seq a n).
Proof. induction n; intros a; [reflexivity|]. cbn. f_equal. apply IHn. Qed.
Lemma nth_false n : forall i, i < n -> nth i (repeat false n) true = false.
Proof. induction n; intros [|i] H; try lia; [reflexivity|]. cbn. apply IHn. lia. Qed.

Lemma written_safe d s : existsb (str_eqb workdir) d = true -> Safe saved (World (map wr (seq 0 P)) d old s None [] []).
Proof.
  intros D. rewrite <- ps_of_begin. apply (spawned_safe (weight (repeat false P) + 0)); [apply repeat_length|simpl; lia|exact D|constructor|apply incl_refl|].
  intros i x Hi _ E. rewrite nth_false in E by exact Hi. discriminate.
Qed.

Lemma mkdir_safe d s : Safe saved (begin P (fun me => save_checkpoint devices me workdir (mine me) true Return) d old s).
Proof.
  unfold begin, save_checkpoint, make_dir_sync. fold (wr 0).
  set (name := s_ "checkpoints:mkdir:"%string ++ workdir).
  assert (BN : bytes name) by (apply Forall_app; split; [apply bytes_b; reflexivity|exact BYTES]).
  assert (G : forall d, existsb (str_eqb workdir) d = true ->
    Safe saved (World (map (fun i => sync_devices devices i name 0 (wr i)) (seq 0 P)) d old s None [] [])).
  { intros d' D.
    destruct (barrier_psum devices 0 (fun _ => name) wr P DEV) as [xs0 X0].
    constructor; [|reflexivity| |].
    - cbn [procs]. intros e I. apply in_map_iff in I. destruct I as (i & E & I). apply in_seq in I. rewrite sync_psum in E by (apply DEV; lia). discriminate.
    - left. eexists. apply (st_psum _ xs0); [exact X0|]. intros ->. destruct P; [lia|discriminate].
    - intros w' ST.
      assert (NTH : forall i p, nth_error (map (fun i => sync_devices devices i name 0 (wr i)) (seq 0 P)) i = Some p -> exists x r, p = Psum x r).
      { intros i p E. apply nth_error_In, in_map_iff in E. destruct E as (j & <- & I). apply in_seq in I. rewrite sync_psum by (apply DEV; lia). eauto. }
      assert (IN0 : In (sync_devices devices 0 name 0 (wr 0)) (map (fun i => sync_devices devices i name 0 (wr i)) (seq 0 P))).
      { apply in_map_iff. exists 0. split; [reflexivity|]. apply in_seq. lia. }
      rewrite sync_psum in IN0 by (apply DEV; exact P0).
      inversion ST as [? i ? ? E|? i ? ? E|? i ? ? E|? i ? E|? i ? E E2|? i ? ? E|? xs E|? c' ks E|? s' ks E|? m keep E K|? fl l r E|? fl l r E];
        subst; cbn [procs dirs files steps pending writes failed] in *;
        try (exfalso; apply NTH in E; destruct E as (? & ? & E); discriminate E); try discriminate.
      + unfold set_procs. cbn [procs dirs files steps pending writes failed].
        rewrite (barrier_fires devices 0 (fun _ => name) wr P (World (map (fun i => sync_devices devices i name 0 (wr i)) (seq 0 P)) d' old s None [] []) xs P0 DEV BN eq_refl E).
        rewrite (map_ext _ wr); [apply written_safe; exact D|]. intros i. unfold after_barrier. rewrite N.eqb_refl. reflexivity.
      + exfalso. rewrite E in IN0. apply in_map_iff in IN0. destruct IN0 as (? & IN & _). discriminate.
      + exfalso. rewrite E in IN0. apply in_map_iff in IN0. destruct IN0 as (? & IN & _). discriminate.
      + destruct l; discriminate.
      + destruct l; discriminate. }
  assert (EQ : forall n a, 0 < a -> map (fun me => if me =? 0 then Makedirs workdir (sync_devices devices me name 0 (wr me)) else sync_devices devices me name 0 (wr me)) (seq a n) =
     map (fun me => sync_devices devices me name 0 (wr me)) (seq a n)).
  { intros n a A. apply map_ext_in. intros i I. apply in_seq in I. destruct i; [lia|]. reflexivity. }
  change (Safe saved (World (map (fun me => if me =? 0 then Makedirs workdir (sync_devices devices me name 0 (wr me)) else sync_devices devices me name 0 (wr me)) (seq 0 P)) d old s None [] [])).
  destruct P as [|p] eqn:EP; [lia|]. cbn [seq map Nat.eqb]. rewrite EQ by lia.
  apply alone_makedirs; [apply waits_sync; intros i Hi; apply DEV; lia|]. apply (G (workdir :: d)). cbn [existsb]. rewrite str_eqb_refl. reflexivity.
Qed.
End Save.

(** ** One barrier *)
Lemma barrier_step devices main name rest P w w' :
  main < P -> (forall i, i < P -> 0 < devices i) -> bytes (name main) ->
  procs w = map (fun i => sync_devices devices i (name i) main (rest i)) (seq 0 P) ->
  step w w' -> procs w' = procs w \/ procs w' = map (after_barrier (fun i => crc32 (name i)) main rest) (seq 0 P).
Proof.
  intros M D B E ST.
  assert (NTH : forall i p, nth_error (procs w) i = Some p -> exists x r, p = Psum x r).
  { intros i p X. rewrite E in X. apply nth_error_In, in_map_iff in X. destruct X as (j & <- & I). apply in_seq in I. rewrite sync_psum by (apply D; lia). eauto. }
  assert (IN0 : In (sync_devices devices main (name main) main (rest main)) (procs w)).
  { rewrite E. apply in_map_iff. exists main. split; [reflexivity|]. apply in_seq. lia. }
  rewrite sync_psum in IN0 by (apply D; exact M).
  inversion ST as [? i ? ? X|? i ? ? X|? i ? ? X|? i ? X|? i ? X E2|? i ? ? X|? xs X|? c' ks X|? s' ks X|? m keep X K|? fl l r X|? fl l r X];
    subst; cbn [procs dirs files steps pending writes failed] in *;
    try (exfalso; apply NTH in X; destruct X as (? & ? & X); discriminate X); try (left; reflexivity).
  - right. unfold set_procs. cbn [procs]. apply (barrier_fires devices main name rest P w xs M D B E X).
  - exfalso. rewrite X in IN0. apply in_map_iff in IN0. destruct IN0 as (? & IN & _). discriminate.
  - exfalso. rewrite X in IN0. apply in_map_iff in IN0. destruct IN0 as (? & IN & _). discriminate.
Qed.
Lemma barrier_goes devices main name rest P w :
  main < P -> (forall i, i < P -> 0 < devices i) -> bytes (name main) ->
  procs w = map (fun i => sync_devices devices i (name i) main (rest i)) (seq 0 P) ->
  exists w', step w w' /\ w' = set_procs w (map (after_barrier (fun i => crc32 (name i)) main rest) (seq 0 P)).
Proof.
  intros M D B E. destruct (barrier_psum devices main name rest P D) as [xs X]. rewrite <- E in X.
  eexists. split; [apply (st_psum w xs X)|].
  - intros ->. rewrite X in E. destruct P; [lia|discriminate].
  - f_equal. apply (barrier_fires devices main name rest P w xs M D B E X).
Qed.
