From Coq Require Import List Arith Bool Lia Permutation.
From Verif Require Import Py PyLemmas NdArray.
Import ListNotations.

(** An index within the dimensions. *)
Definition inb (ds idx : list nat) : Prop := Forall2 (fun i d => i < d) idx ds.

Lemma prod_app a b : prod (a ++ b) = prod a * prod b.
Proof. unfold prod. induction a; simpl; lia. Qed.
Lemma prod_perm a b : Permutation a b -> prod a = prod b.
Proof. unfold prod. induction 1; simpl; lia. Qed.

Lemma indices_in ds : forall idx, In idx (indices ds) <-> inb ds idx.
Proof.
  unfold inb. induction ds as [|d ds IH]; simpl; intros idx.
  - split; [intros [<-|[]]; constructor|]. intros H. inversion H. auto.
  - rewrite in_flat_map. split.
    + intros [i [Hi H]]. apply in_map_iff in H. destruct H as [idx' [<- H]]. apply in_seq in Hi.
      constructor; [lia|apply IH; auto].
    + intros H. inversion H as [|i d' idx' ds' Hi F]; subst. exists i. split; [apply in_seq; lia|].
      apply in_map. apply IH. auto.
Qed.
Lemma indices_length ds : length (indices ds) = prod ds.
Proof.
  induction ds as [|d ds IH]; auto. simpl. generalize 0 at 1. induction d as [|d IHd]; simpl; auto. intros n.
  rewrite app_length, map_length, IH, IHd. reflexivity.
Qed.
Lemma NoDup_app_intro {T} (a b : list T) : NoDup a -> NoDup b -> (forall x, In x a -> ~ In x b) -> NoDup (a ++ b).
Proof.
  induction a as [|x a IH]; simpl; auto. intros Na Nb D. inversion Na; subst. constructor.
  - rewrite in_app_iff. intros [K|K]; [contradiction|]. exact (D x (or_introl eq_refl) K).
  - apply IH; auto.
Qed.
Lemma indices_nodup ds : NoDup (indices ds).
Proof.
  induction ds as [|d ds IH]; simpl. { constructor; [intros []|constructor]. }
  assert (G : forall l, NoDup l -> NoDup (flat_map (fun i => map (cons i) (indices ds)) l)).
  { induction l as [|i l IHl]; simpl; intros N; [constructor|]. inversion N; subst.
    apply NoDup_app_intro; auto.
    - apply FinFun.Injective_map_NoDup; auto. intros x y E. congruence.
    - intros x Hx Hy. apply in_map_iff in Hx. destruct Hx as [y [<- _]]. apply in_flat_map in Hy. destruct Hy as [j [Hj Hy]].
      apply in_map_iff in Hy. destruct Hy as [z [E _]]. injection E as E1 E2. subst. auto. }
  apply G. apply seq_NoDup.
Qed.

Lemma ravel_lt ds : forall idx, inb ds idx -> ravel ds idx < prod ds.
Proof.
  induction ds as [|d ds IH]; intros idx H; inversion H; subst; [cbn; lia|]. specialize (IH _ H4). cbn [ravel prod fold_right].
  fold (prod ds). nia.
Qed.
Lemma unravel_ravel ds : forall idx, inb ds idx -> unravel ds (ravel ds idx) = idx.
Proof.
  induction ds as [|d ds IH]; intros idx H; inversion H as [|i d' idx' ds' Hi F]; subst; auto. cbn [unravel ravel].
  pose proof (ravel_lt ds idx' F) as L.
  rewrite Nat.add_comm, Nat.div_add, Nat.div_small, Nat.add_0_l, Nat.mod_small by lia.
  rewrite Nat.mod_add, Nat.mod_small, IH by (auto; lia). reflexivity.
Qed.
Lemma map_add_seq k n : forall a, map (Nat.add k) (seq a n) = seq (k + a) n.
Proof. induction n as [|n IH]; intros a; simpl; auto. rewrite IH. f_equal. f_equal. lia. Qed.
Lemma ravel_indices ds : map (ravel ds) (indices ds) = seq 0 (prod ds).
Proof.
  induction ds as [|d ds IH]; auto. cbn [indices prod fold_right]. fold (prod ds).
  assert (G : forall n s, map (ravel (d :: ds)) (flat_map (fun i => map (cons i) (indices ds)) (seq s n)) = seq (s * prod ds) (n * prod ds)).
  { induction n as [|n IHn]; intros s; auto. cbn [seq flat_map]. rewrite map_app, IHn, map_map. cbn [ravel].
    rewrite <- map_map with (f := ravel ds) (g := Nat.add (s * prod ds)), IH, map_add_seq. cbn [Nat.mul]. rewrite seq_app.
    f_equal; f_equal; lia. }
  rewrite G. reflexivity.
Qed.
Lemma ravel_unravel ds n : n < prod ds -> ravel ds (unravel ds n) = n /\ inb ds (unravel ds n).
Proof.
  intros H. assert (I : In n (map (ravel ds) (indices ds))). { rewrite ravel_indices. apply in_seq. lia. }
  apply in_map_iff in I. destruct I as [idx [<- I]]. apply indices_in in I. rewrite unravel_ravel; auto.
Qed.

(** Reshaping keeps the flat order. *)
Lemma flatten_reshape {T} shape (a b : nda T) : reshape shape a = Ok b -> flatten b = flatten a /\ dims b = shape.
Proof.
  unfold reshape. destruct (Nat.eqb_spec (prod shape) (prod (dims a))) as [E|]; [|discriminate].
  intros H. injection H as <-. split; auto. unfold flatten. cbn [dims at_].
  rewrite <- map_map with (f := ravel shape) (g := fun n => at_ a (unravel (dims a) n)), ravel_indices, E, <- ravel_indices, map_map.
  apply map_ext_in. intros idx I. apply indices_in in I. rewrite unravel_ravel by auto. reflexivity.
Qed.
Lemma reshape_at {T} shape (a b : nda T) idx : reshape shape a = Ok b -> inb (dims a) idx ->
  at_ b (unravel shape (ravel (dims a) idx)) = at_ a idx.
Proof.
  unfold reshape. destruct (Nat.eqb_spec (prod shape) (prod (dims a))) as [E|]; [|discriminate].
  intros H I. injection H as <-. cbn [at_].
  destruct (ravel_unravel shape (ravel (dims a) idx)) as [R _]. { rewrite E. apply ravel_lt; auto. }
  rewrite R, unravel_ravel; auto.
Qed.

(** Transposing permutes. *)
Lemma index_of_nth i l : In i l -> nth (index_of i l) l 0 = i /\ index_of i l < length l.
Proof.
  induction l as [|x l IH]; simpl; [intros []|]. intros H. destruct (Nat.eqb_spec x i) as [->|N]; [split; [auto|lia]|].
  destruct H as [->|H]; [congruence|]. destruct (IH H). split; [auto|lia].
Qed.
Lemma index_of_inj l j : NoDup l -> j < length l -> index_of (nth j l 0) l = j.
Proof.
  revert j. induction l as [|x l IH]; simpl; intros j N H; [lia|]. inversion N; subst. destruct j as [|j].
  - rewrite Nat.eqb_refl. auto.
  - destruct (Nat.eqb_spec x (nth j l 0)) as [->|_]. { exfalso. apply H2. apply nth_In. lia. }
    rewrite IH by (auto; lia). auto.
Qed.
Lemma Forall2_nth {A B} (P : A -> B -> Prop) (da : A) (db : B) (l : list A) : forall l' : list B,
  Forall2 P l l' <-> length l = length l' /\ (forall i, i < length l -> P (nth i l da) (nth i l' db)).
Proof.
  induction l as [|x l IH]; intros l'.
  - split; [intros H; inversion H; subst; split; auto; simpl; intros; lia|]. intros [L _]. destruct l'; [constructor|discriminate].
  - split.
    + intros H. inversion H; subst. apply IH in H4. destruct H4 as [L F]. split; [simpl; lia|]. intros [|i] Hi; simpl; auto. apply F. simpl in Hi; lia.
    + destruct l' as [|y l']; [intros [L _]; discriminate|]. intros [L F]. constructor; [apply (F 0); simpl; lia|].
      apply IH. split; [simpl in L; lia|]. intros i Hi. apply (F (S i)). simpl; lia.
Qed.
Lemma nth_map_in {A B} (f : A -> B) d d' (l : list A) : forall i, i < length l -> nth i (map f l) d = f (nth i l d').
Proof. induction l as [|x l IH]; simpl; intros [|i] H; try lia; auto. apply IH. lia. Qed.
Definition unperm (n : nat) (axes idx : list nat) : list nat := map (fun i => nth (index_of i axes) idx 0) (seq 0 n).
Lemma unperm_inb ds axes idx : Permutation axes (seq 0 (length ds)) ->
  inb (map (fun x => nth x ds 0) axes) idx -> inb ds (unperm (length ds) axes idx).
Proof.
  intros P H. pose proof (Permutation_length P) as L. rewrite seq_length in L.
  apply (Forall2_nth _ 0 0) in H. destruct H as [Hl H]. rewrite map_length in Hl. apply (Forall2_nth _ 0 0). unfold unperm.
  rewrite map_length, seq_length. split; auto. intros i Hi.
  rewrite (nth_map_in _ 0 0), seq_nth by (rewrite ?seq_length; auto). cbn [Nat.add].
  assert (I : In i axes). { apply Permutation_in with (seq 0 (length ds)); [symmetry; auto|]. apply in_seq. lia. }
  destruct (index_of_nth i axes I) as [E Li]. specialize (H (index_of i axes)). rewrite Hl in H. specialize (H Li).
  rewrite (nth_map_in _ 0 0), E in H by auto. exact H.
Qed.
Lemma unperm_perm (ds axes idx : list nat) : Permutation axes (seq 0 (length ds)) -> length idx = length ds ->
  map (fun x => nth x (unperm (length ds) axes idx) 0) axes = idx.
Proof.
  intros P Hl. pose proof (Permutation_length P) as L. rewrite seq_length in L.
  assert (N : NoDup axes). { eapply Permutation_NoDup; [symmetry; exact P|apply seq_NoDup]. }
  apply nth_ext with (d := 0) (d' := 0); [rewrite map_length; lia|]. intros j Hj. rewrite map_length in Hj.
  rewrite (nth_map_in _ 0 0) by auto. unfold unperm.
  assert (Hx : nth j axes 0 < length ds).
  { assert (I : In (nth j axes 0) (seq 0 (length ds))). { eapply Permutation_in; [exact P|]. apply nth_In; auto. } apply in_seq in I. lia. }
  rewrite (nth_map_in _ 0 0), seq_nth by (rewrite ?seq_length; auto). cbn [Nat.add]. rewrite index_of_inj; auto.
Qed.
Lemma perm_unperm (ds axes idx : list nat) : Permutation axes (seq 0 (length ds)) -> length idx = length ds ->
  unperm (length ds) axes (map (fun x => nth x idx 0) axes) = idx.
Proof.
  intros P Hl. pose proof (Permutation_length P) as L. rewrite seq_length in L.
  apply nth_ext with (d := 0) (d' := 0). { unfold unperm. rewrite map_length, seq_length. auto. }
  intros i Hi. unfold unperm in *. rewrite map_length, seq_length in Hi.
  rewrite (nth_map_in _ 0 0), seq_nth by (rewrite ?seq_length; auto). cbn [Nat.add].
  assert (I : In i axes). { apply Permutation_in with (seq 0 (length ds)); [symmetry; auto|]. apply in_seq. lia. }
  destruct (index_of_nth i axes I) as [E Li].
  rewrite (nth_map_in _ 0 0), E by auto. reflexivity.
Qed.
Lemma inb_length ds idx : inb ds idx -> length idx = length ds.
Proof. intros H. apply (Forall2_nth _ 0 0) in H. apply H. Qed.
Lemma inb_permute ds axes idx : Permutation axes (seq 0 (length ds)) -> inb ds idx ->
  inb (map (fun x => nth x ds 0) axes) (map (fun x => nth x idx 0) axes).
Proof.
  intros P H. apply (Forall2_nth _ 0 0) in H. destruct H as [Hl H].
  assert (Hax : Forall (fun x => x < length idx) axes).
  { apply Forall_forall. intros x I. apply (Permutation_in _ P) in I. apply in_seq in I. lia. }
  clear P. unfold inb. induction Hax; simpl; constructor; auto.
Qed.

Lemma transposed_at {T} axes (a : nda T) idx : Permutation axes (seq 0 (length (dims a))) -> inb (dims a) idx ->
  at_ (transposed axes a) (map (fun x => nth x idx 0) axes) = at_ a idx.
Proof.
  intros P I. cbn [transposed at_]. f_equal. apply perm_unperm; auto. apply inb_length; auto.
Qed.
Lemma flatten_transposed {T} axes (a : nda T) : Permutation axes (seq 0 (length (dims a))) ->
  Permutation (flatten (transposed axes a)) (flatten a).
Proof.
  intros P. unfold flatten. cbn [transposed dims at_].
  change (Permutation (map (fun idx => at_ a (unperm (length (dims a)) axes idx)) (indices (map (fun x => nth x (dims a) 0) axes))) (map (at_ a) (indices (dims a)))).
  rewrite <- map_map. apply Permutation_map. pose proof (Permutation_length P) as L. rewrite seq_length in L.
  apply NoDup_Permutation.
  - assert (G : forall l, (forall x, In x l -> inb (map (fun x => nth x (dims a) 0) axes) x) -> NoDup l -> NoDup (map (unperm (length (dims a)) axes) l)).
    { induction l as [|x l IH]; simpl; intros B N; constructor.
      - intros I. apply in_map_iff in I. destruct I as [y [E I]]. inversion N; subst. apply H1.
        pose proof (inb_length _ _ (B x (or_introl eq_refl))) as Lx. pose proof (inb_length _ _ (B y (or_intror I))) as Ly. rewrite map_length in Lx, Ly.
        rewrite <- (unperm_perm (dims a) axes x P), <- E, (unperm_perm (dims a) axes y P) by lia. auto.
      - inversion N; subst. apply IH; auto. }
    apply G; [intros x I; apply indices_in; auto|apply indices_nodup].
  - apply indices_nodup.
  - intros idx. rewrite indices_in, in_map_iff. split.
    + intros [x [<- I]]. apply indices_in in I. apply unperm_inb; auto.
    + intros I. exists (map (fun x => nth x idx 0) axes). split.
      * apply perm_unperm; auto. apply inb_length; auto.
      * apply indices_in. apply inb_permute; auto.
Qed.

Lemma transpose_ok {T} axes (a b : nda T) : transpose axes a = Ok b ->
  Permutation axes (seq 0 (length (dims a))) /\ b = transposed axes a.
Proof.
  unfold transpose. destruct (_ && _) eqn:E; [|discriminate]. intros H. injection H as <-. split; auto.
  apply andb_prop in E. destruct E as [E1 E2]. apply Nat.eqb_eq in E1. rewrite forallb_forall in E2.
  symmetry. apply NoDup_Permutation_bis; [apply seq_NoDup|rewrite seq_length; lia|].
  intros x I. apply E2 in I. apply existsb_exists in I. destruct I as [y [I E]]. apply Nat.eqb_eq in E. subst; auto.
Qed.
Lemma transpose_intro {T} axes (a : nda T) : Permutation axes (seq 0 (length (dims a))) ->
  transpose axes a = Ok (transposed axes a).
Proof.
  intros P. unfold transpose. pose proof (Permutation_length P) as L. rewrite seq_length in L. rewrite L, Nat.eqb_refl. cbn [andb].
  rewrite (proj2 (forallb_forall _ _)); auto. intros x I. apply existsb_exists. exists x. split; [|apply Nat.eqb_refl].
  eapply Permutation_in; [symmetry; exact P|auto].
Qed.
Lemma flatten_transpose {T} axes (a b : nda T) : transpose axes a = Ok b -> Permutation (flatten b) (flatten a).
Proof. intros H. apply transpose_ok in H. destruct H as [P ->]. apply flatten_transposed; auto. Qed.
