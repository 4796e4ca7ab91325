(** Barriers, and a way to prove that programs are orderly. *)
From Coq Require Import List Arith NArith Bool Lia.
From Verif Require Import BaseModel Py SynModel SynSpec SynProofs.
Import ListNotations.
Local Open Scope nat_scope.

(** ** The sum of a barrier *)
Section Barrier.
Variable devices : nat -> nat.
Variable main : nat.
Variable h : N.
Definition vec (i : nat) : list N := if i =? main then h :: repeat 0%N (pred (devices i)) else repeat 0%N (devices i).
Definition nsum (l : list N) : N := fold_right N.add 0%N l.
Lemma nsum_app a b : nsum (a ++ b) = (nsum a + nsum b)%N.
Proof. induction a; simpl; [reflexivity|]. unfold nsum in *. simpl. rewrite IHa. lia. Qed.
Lemma nsum_zero n : nsum (repeat 0%N n) = 0%N.
Proof. induction n; [reflexivity|]. exact IHn. Qed.
Lemma nsum_vec i : nsum (vec i) = if i =? main then h else 0%N.
Proof. unfold vec. destruct (i =? main); [|apply nsum_zero]. change (h + nsum (repeat 0%N (pred (devices i))) = h)%N. rewrite nsum_zero. lia. Qed.
Lemma nsum_vecs n : forall a, nsum (concat (map vec (seq a n))) = if (a <=? main) && (main <? a + n) then h else 0%N.
Proof.
  induction n as [|n IH]; intros a.
  - simpl. destruct (Nat.leb_spec a main), (Nat.ltb_spec main (a + 0)); simpl; try reflexivity; lia.
  - cbn [seq map concat]. rewrite nsum_app, IH, nsum_vec.
    destruct (Nat.eqb_spec a main), (Nat.leb_spec (S a) main), (Nat.leb_spec a main), (Nat.ltb_spec main (S a + n)), (Nat.ltb_spec main (a + S n));
      cbn [andb]; lia.
Qed.
Lemma vec_length i : (0 < devices i) -> length (vec i) = devices i.
Proof. intros D. unfold vec. destruct (i =? main); [|apply repeat_length]. simpl. rewrite repeat_length. lia. Qed.
End Barrier.

Lemma sync_psum devices main name k i : 0 < devices i ->
  sync_devices devices i name main k =
  Psum (vec devices main (crc32 name) i) (fun x => if forallb (N.eqb (crc32 name)) x then k else Raises ValueError).
Proof.
  intros D. unfold sync_devices, vec. destruct (i =? main); [|reflexivity]. destruct (devices i); [lia|]. reflexivity.
Qed.
Lemma forallb_repeat h s n : 0 < n -> forallb (N.eqb h) (repeat s n) = N.eqb h s.
Proof.
  intros D. destruct n; [lia|]. clear D. cbn [repeat forallb]. destruct (N.eqb_spec h s) as [->|]; [|reflexivity].
  simpl. induction n; [reflexivity|]. simpl. rewrite N.eqb_refl. exact IHn.
Qed.

Lemma map_psum_inj (xs ys : list (list N * (list N -> prog))) :
  map (fun xk => Psum (fst xk) (snd xk)) xs = map (fun xk => Psum (fst xk) (snd xk)) ys -> xs = ys.
Proof.
  revert ys. induction xs as [|[x k] xs IH]; intros [|[y j] ys] E; try discriminate; [reflexivity|].
  simpl in E. injection E as -> -> E. f_equal. apply IH. exact E.
Qed.
Lemma map_compute_inj c (xs ys : list prog) : map (Compute c) xs = map (Compute c) ys -> xs = ys.
Proof.
  revert ys. induction xs as [|x xs IH]; intros [|y ys] E; try discriminate; [reflexivity|].
  simpl in E. injection E as -> E. f_equal. apply IH. exact E.
Qed.
Lemma map_save_inj c (xs ys : list prog) : map (Save c) xs = map (Save c) ys -> xs = ys.
Proof.
  revert ys. induction xs as [|x xs IH]; intros [|y ys] E; try discriminate; [reflexivity|].
  simpl in E. injection E as -> E. f_equal. apply IH. exact E.
Qed.

(** All processes at a barrier: the sum is the checksum of the main process. *)
Lemma barrier_fires devices main name rest P w xs :
  main < P -> (forall i, i < P -> 0 < devices i) -> bytes (name main) ->
  procs w = map (fun i => sync_devices devices i (name i) main (rest i)) (seq 0 P) ->
  procs w = map (fun xk => Psum (fst xk) (snd xk)) xs ->
  map (fun xk => snd xk (repeat (sum32 (concat (map fst xs))) (length (fst xk)))) xs =
  map (after_barrier (fun i => crc32 (name i)) main rest) (seq 0 P).
Proof.
  intros M D B E E'.
  set (k i := fun x => if forallb (N.eqb (crc32 (name i))) x then rest i else Raises ValueError).
  assert (X : xs = map (fun i => (vec devices main (crc32 (name i)) i, k i)) (seq 0 P)).
  { apply map_psum_inj. rewrite <- E', E, map_map. apply map_ext_in. intros i I. apply in_seq in I.
    cbn [fst snd]. rewrite sync_psum by (apply D; lia). reflexivity. }
  assert (SUM : sum32 (concat (map fst xs)) = crc32 (name main)).
  { rewrite X, map_map. cbn [fst]. unfold sum32. fold (nsum (concat (map (fun i => vec devices main (crc32 (name i)) i) (seq 0 P)))).
    rewrite (map_ext (fun i => vec devices main (crc32 (name i)) i) (vec devices main (crc32 (name main)))).
    - rewrite nsum_vecs. destruct (Nat.leb_spec 0 main); [|lia]. destruct (Nat.ltb_spec main (0 + P)); [|lia].
      cbn [andb]. apply N.mod_small. exact (crc32_word _ B).
    - intros i. unfold vec. destruct (Nat.eqb_spec i main) as [->|]; reflexivity. }
  rewrite SUM, X, map_map. apply map_ext_in. intros i I. apply in_seq in I. cbn [fst snd]. unfold k, after_barrier.
  rewrite vec_length by (apply D; lia). rewrite forallb_repeat by (apply D; lia). reflexivity.
Qed.
Lemma barrier_psum devices main name rest P :
  (forall i, i < P -> 0 < devices i) ->
  exists xs, map (fun i => sync_devices devices i (name i) main (rest i)) (seq 0 P) = map (fun xk => Psum (fst xk) (snd xk)) xs.
Proof.
  intros D. exists (map (fun i => (vec devices main (crc32 (name i)) i,
    fun x => if forallb (N.eqb (crc32 (name i))) x then rest i else Raises ValueError)) (seq 0 P)).
  rewrite map_map. apply map_ext_in. intros i I. apply in_seq in I. cbn [fst snd]. apply sync_psum. apply D. lia.
Qed.

(** ** Safe worlds *)
Section Safe.
Variable Q : world -> Prop.
Inductive Safe : world -> Prop :=
| safe w : (forall e, ~ In (Raises e) (procs w)) -> failed w = [] ->
    ((exists w', step w w') \/ (finished w /\ Q w)) -> (forall w', step w w' -> Safe w') -> Safe w.

Lemma safe_run w w' : run w w' -> Safe w -> Safe w'.
Proof. induction 1 as [|w w' w'' _ IH S]; intros H; [exact H|]. specialize (IH H). inversion IH; subst. auto. Qed.
Lemma safe_orderly w : Safe w -> orderly Q w.
Proof.
  intros H. split.
  - intros w' R. pose proof (safe_run _ _ R H) as H'. inversion H'; subst. auto.
  - induction H as [w _ _ _ _ IH]. constructor. exact IH.
Qed.
End Safe.
