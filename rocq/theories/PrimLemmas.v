(** Facts about the array primitives of Prim.v. *)
From Coq Require Import List Arith ZArith Bool Lia Permutation Sorted ZifyBool ZifyNat.
From Verif Require Import Prim.
Import ListNotations.

Ltac Zify.zify_post_hook ::= Z.div_mod_to_equations.

(* ---------- stable sort ---------- *)
Section Sort.
  Variable cmp : nat -> nat -> bool.
  Hypothesis total : forall i j, cmp i j = true \/ cmp j i = true.
  Hypothesis trans : forall i j k, cmp i j = true -> cmp j k = true -> cmp i k = true.

  (** [i] strictly before [j] in a stable sort. *)
  Definition before (i j : nat) : Prop :=
    cmp i j = true /\ (cmp j i = true -> i < j).

  Lemma before_trans i j k : before i j -> before j k -> before i k.
  Proof using cmp trans.
    clear total. intros [H1 H2] [H3 H4]; split; [eauto|].
    intros Hki.
    assert (cmp j i = true) by eauto. assert (cmp k j = true) by eauto.
    specialize (H2 H). specialize (H4 H0). lia.
  Qed.

  Lemma before_irrefl i : ~ before i i.
  Proof using cmp. clear total trans. intros [H1 H2]. specialize (H2 H1). lia. Qed.

  Lemma before_total i j : i <> j -> before i j \/ before j i.
  Proof using cmp total.
    clear trans. intros Hne. unfold before.
    destruct (cmp i j) eqn:E1, (cmp j i) eqn:E2;
      try (destruct (total i j); congruence).
    - destruct (lt_dec i j); [left|right]; split; auto; intros; lia.
    - left; split; auto; congruence.
    - right; split; auto; congruence.
  Qed.

  Lemma insert_perm x l : Permutation (x :: l) (insert_idx cmp x l).
  Proof using cmp. clear total trans.
    induction l as [|y l IH]; simpl; auto.
    destruct (cmp x y); auto.
    eapply perm_trans; [apply perm_swap|]. constructor. exact IH.
  Qed.

  Lemma sort_perm_gen l : Permutation l (fold_right (insert_idx cmp) [] l).
  Proof using cmp. clear total trans.
    induction l as [|x l IH]; simpl; auto.
    eapply perm_trans; [constructor; exact IH|]. apply insert_perm.
  Qed.

  Lemma sort_idx_perm n : Permutation (seq 0 n) (sort_idx cmp n).
  Proof using cmp. clear total trans. apply sort_perm_gen. Qed.

  Lemma insert_sorted x l :
    Forall (fun y => x < y) l -> StronglySorted before l ->
    StronglySorted before (insert_idx cmp x l).
  Proof.
    induction l as [|y l IH]; intros Hlt Hs; simpl.
    - repeat constructor.
    - inversion Hlt; subst. inversion Hs; subst.
      destruct (cmp x y) eqn:Exy.
      + constructor; [constructor; auto|].
        assert (before x y) by (split; auto).
        constructor; auto.
        eapply Forall_impl; [|exact H4]. intros z Hz. eapply before_trans; eauto.
      + constructor; [auto|].
        assert (before y x).
        { destruct (before_total x y) as [[]|]; [lia|congruence|auto]. }
        apply Forall_forall. intros z Hz.
        eapply Permutation_in in Hz; [|apply Permutation_sym, insert_perm].
        destruct Hz as [<-|Hz]; auto.
        rewrite Forall_forall in H4. auto.
  Qed.

  Lemma sort_gen_sorted n : forall a,
    StronglySorted before (fold_right (insert_idx cmp) [] (seq a n)).
  Proof.
    induction n; intros a; simpl; [constructor|].
    apply insert_sorted; auto.
    apply Forall_forall. intros y Hy.
    eapply Permutation_in in Hy; [|apply Permutation_sym, sort_perm_gen].
    apply in_seq in Hy. lia.
  Qed.

  Lemma sort_idx_sorted n : StronglySorted before (sort_idx cmp n).
  Proof. apply sort_gen_sorted. Qed.

  Lemma sort_idx_length n : length (sort_idx cmp n) = n.
  Proof using cmp. clear total trans. rewrite <- (Permutation_length (sort_idx_perm n)). apply seq_length. Qed.

  Lemma sort_idx_in n i : In i (sort_idx cmp n) <-> i < n.
  Proof using cmp. clear total trans.
    split; intros H.
    - eapply Permutation_in in H; [|apply Permutation_sym, sort_idx_perm].
      apply in_seq in H. lia.
    - eapply Permutation_in; [apply sort_idx_perm|]. apply in_seq. lia.
  Qed.

  Lemma sort_idx_nodup n : NoDup (sort_idx cmp n).
  Proof using cmp. clear total trans. eapply Permutation_NoDup; [apply sort_idx_perm|apply seq_NoDup]. Qed.

  Lemma ssorted_app (R : nat -> nat -> Prop) l1 l2 :
    StronglySorted R (l1 ++ l2) ->
    StronglySorted R l1 /\ StronglySorted R l2 /\ (forall x y, In x l1 -> In y l2 -> R x y).
  Proof using cmp. clear total trans.
    induction l1 as [|a l1 IH]; simpl; intros H.
    - repeat split; auto. constructor. intros; contradiction.
    - inversion H; subst. destruct (IH H2) as (A & B & D).
      apply Forall_app in H3. destruct H3 as [F1 F2].
      repeat split; auto. constructor; auto.
      intros x y [<-|Hx] Hy; auto. rewrite Forall_forall in F2; auto.
  Qed.

  Lemma ssorted_nth (R : nat -> nat -> Prop) l i j d :
    StronglySorted R l -> i < j -> j < length l -> R (nth i l d) (nth j l d).
  Proof using cmp. clear total trans.
    intros H; revert i j. induction H as [|a l Hs IH Hf]; simpl; intros i j Hij Hj; [lia|].
    destruct j; [lia|]. destruct i.
    - rewrite Forall_forall in Hf. apply Hf. apply nth_In. lia.
    - apply IH; lia.
  Qed.

  (** Position order in the sorted list = [before]. *)
  Lemma sort_nth_before n p q :
    p < n -> q < n ->
    (p < q <-> before (nth p (sort_idx cmp n) 0) (nth q (sort_idx cmp n) 0)).
  Proof.
    intros Hp Hq. split; intros H.
    - apply ssorted_nth; auto. apply sort_idx_sorted. rewrite sort_idx_length; auto.
    - destruct (lt_eq_lt_dec p q) as [[?|Heq]|Hlt]; [auto|subst q|].
      + exfalso. eapply before_irrefl; eauto.
      + exfalso. assert (before (nth q (sort_idx cmp n) 0) (nth p (sort_idx cmp n) 0)).
        { apply ssorted_nth; auto. apply sort_idx_sorted. rewrite sort_idx_length; auto. }
        eapply before_irrefl. eapply before_trans; eauto.
  Qed.

  Lemma sort_firstn n k :
    k <= n ->
    let l := firstn k (sort_idx cmp n) in
    length l = k /\ NoDup l /\ (forall x, In x l -> x < n) /\
    StronglySorted before l /\
    (forall x y, In x l -> y < n -> ~ In y l -> before x y).
  Proof.
    intros Hk l.
    pose proof (firstn_skipn k (sort_idx cmp n)) as Hfs.
    pose proof (sort_idx_nodup n) as Hnd. rewrite <- Hfs in Hnd.
    pose proof (sort_idx_sorted n) as Hss. rewrite <- Hfs in Hss.
    apply ssorted_app in Hss. destruct Hss as (S1 & _ & S3).
    repeat split; auto.
    - unfold l. rewrite firstn_length, sort_idx_length. lia.
    - unfold l. clear - Hnd. induction (firstn k (sort_idx cmp n)); [constructor|].
      simpl in Hnd. inversion Hnd; subst. constructor; auto.
      intros H. apply H1. apply in_or_app; auto.
    - intros x Hx. apply sort_idx_in. rewrite <- Hfs. apply in_or_app. left; exact Hx.
    - apply S3; auto. apply sort_idx_in in H0. rewrite <- Hfs in H0.
      apply in_app_or in H0. tauto.
    - intros Hc. assert (before x y); [|destruct H2; auto].
      apply S3; auto. apply sort_idx_in in H0. rewrite <- Hfs in H0.
      apply in_app_or in H0. tauto.
  Qed.
End Sort.

(** argsort of a permutation is its inverse. *)
Lemma argsort_inverse n (perm : list nat) :
  Permutation (seq 0 n) perm ->
  let inv := argsort Nat.leb n (fun p => nth p perm 0) in
  forall s, s < n -> nth s inv 0 < n /\ nth (nth s inv 0) perm 0 = s.
Proof.
  intros Hp inv.
  assert (Hlen : length perm = n) by (rewrite <- (Permutation_length Hp); apply seq_length).
  set (cmp := fun i j => Nat.leb (nth i perm 0) (nth j perm 0)).
  assert (Ht : forall i j, cmp i j = true \/ cmp j i = true)
    by (intros; unfold cmp; rewrite !Nat.leb_le; lia).
  assert (Htr : forall i j k, cmp i j = true -> cmp j k = true -> cmp i k = true)
    by (intros i j k; unfold cmp; rewrite !Nat.leb_le; lia).
  assert (Hinv : inv = sort_idx cmp n) by reflexivity.
  assert (Hbound : forall s, s < n -> nth s inv 0 < n).
  { intros s Hs. rewrite Hinv. apply (sort_idx_in cmp n). apply nth_In.
    rewrite sort_idx_length; auto. }
  (* g s := perm[inv[s]] is strictly increasing with values < n, hence the identity *)
  set (g := fun s => nth (nth s inv 0) perm 0).
  assert (Hnd : NoDup perm) by (eapply Permutation_NoDup; [exact Hp|apply seq_NoDup]).
  assert (Hg : forall s, s < n -> g s < n).
  { intros s Hs. unfold g.
    assert (In (nth (nth s inv 0) perm 0) perm) by (apply nth_In; rewrite Hlen; auto).
    eapply Permutation_in in H; [|apply Permutation_sym, Hp]. apply in_seq in H. lia. }
  assert (Hinc : forall s t, s < t -> t < n -> g s < g t).
  { intros s t Hst Htn. unfold g.
    assert (H : before cmp (nth s inv 0) (nth t inv 0)).
    { rewrite Hinv. apply sort_nth_before; auto; lia. }
    destruct H as [H1 H2]. unfold cmp in H1, H2. rewrite Nat.leb_le in H1.
    destruct (Nat.eq_dec (nth (nth s inv 0) perm 0) (nth (nth t inv 0) perm 0)) as [He|]; [|lia].
    rewrite NoDup_nth in Hnd. apply Hnd in He; try (rewrite Hlen; apply Hbound; lia).
    pose proof (sort_idx_nodup cmp n) as Hn2. rewrite NoDup_nth in Hn2.
    rewrite <- Hinv in Hn2. apply Hn2 in He; try lia;
      rewrite Hinv, sort_idx_length; lia. }
  assert (Hge : forall s, s < n -> s <= g s).
  { induction s; intros; [lia|]. specialize (IHs ltac:(lia)).
    specialize (Hinc s (S s) ltac:(lia) H). lia. }
  assert (Hle : forall d s, s + d < n -> g s + d < n).
  { induction d; intros s H. specialize (Hg s ltac:(lia)); lia.
    specialize (IHd (S s) ltac:(lia)). specialize (Hinc s (S s) ltac:(lia) ltac:(lia)). lia. }
  intros s Hs. split; auto.
  change (g s = s). specialize (Hge s Hs). specialize (Hle (n - 1 - s) s ltac:(lia)). lia.
Qed.

Lemma perm_nth_map (l : list nat) : map (fun p => nth p l 0) (seq 0 (length l)) = l.
Proof.
  apply nth_ext with (d := 0) (d' := 0).
  - rewrite map_length, seq_length; auto.
  - intros i Hi. rewrite map_length, seq_length in Hi.
    erewrite nth_indep; [|rewrite map_length, seq_length; auto].
    rewrite map_nth with (f := fun p => nth p l 0) (d := 0).
    rewrite seq_nth; auto.
Qed.

(* ---------- cumsum and maxima ---------- *)
Lemma cumsum_count (f : nat -> nat) e i :
  cumsum (fun j => one_hot (f j) e) i
  = Z.of_nat (length (filter (fun j => f j =? e) (seq 0 (S i)))).
Proof.
  induction i.
  - simpl. unfold one_hot. destruct (f 0 =? e); reflexivity.
  - cbn [cumsum]. rewrite IHi. replace (seq 0 (S (S i))) with (seq 0 (S i) ++ [S i]).
    + rewrite filter_app, app_length. cbn [filter].
      unfold one_hot. destruct (f (S i) =? e); simpl length; lia.
    + rewrite (seq_S (S i)). reflexivity.
Qed.

Lemma zmax_spec n f : 1 <= n ->
  (exists i, i < n /\ zmax n f = f i) /\ (forall i, i < n -> (f i <= zmax n f)%Z).
Proof.
  intros Hn. unfold zmax.
  assert (G : forall m a acc,
    let r := fold_left (fun m i => Z.max m (f i)) (seq a m) acc in
    (r = acc \/ exists i, a <= i < a + m /\ r = f i) /\ (acc <= r)%Z /\
    (forall i, a <= i < a + m -> (f i <= r)%Z)).
  { induction m; intros a acc; simpl.
    - repeat split; auto; lia.
    - destruct (IHm (S a) (Z.max acc (f a))) as (H1 & H2 & H3).
      simpl in *. repeat split.
      + destruct H1 as [H1|(i & Hi & H1)].
        * destruct (Z.max_spec acc (f a)) as [[? E]|[? E]]; rewrite E in H1 at 2.
          right; exists a; split; [lia|auto]. left; auto.
        * right; exists i; split; [lia|auto].
      + lia.
      + intros i Hi. destruct (Nat.eq_dec i a) as [->|]; [lia|]. apply H3; lia. }
  destruct (G (n - 1) 1 (f 0)) as (H1 & H2 & H3). simpl in *. split.
  - destruct H1 as [H1|(i & Hi & H1)]; [exists 0|exists i]; split; auto; lia.
  - intros i Hi. destruct i; auto. apply H3; lia.
Qed.

Lemma zmin_spec n f : 1 <= n ->
  (exists i, i < n /\ zmin n f = f i) /\ (forall i, i < n -> (zmin n f <= f i)%Z).
Proof.
  intros Hn. unfold zmin.
  assert (G : forall m a acc,
    let r := fold_left (fun m i => Z.min m (f i)) (seq a m) acc in
    (r = acc \/ exists i, a <= i < a + m /\ r = f i) /\ (r <= acc)%Z /\
    (forall i, a <= i < a + m -> (r <= f i)%Z)).
  { induction m; intros a acc; simpl.
    - repeat split; auto; lia.
    - destruct (IHm (S a) (Z.min acc (f a))) as (H1 & H2 & H3).
      simpl in *. repeat split.
      + destruct H1 as [H1|(i & Hi & H1)].
        * destruct (Z.min_spec acc (f a)) as [[? E]|[? E]]; rewrite E in H1 at 2.
          left; auto. right; exists a; split; [lia|auto].
        * right; exists i; split; [lia|auto].
      + lia.
      + intros i Hi. destruct (Nat.eq_dec i a) as [->|]; [lia|]. apply H3; lia. }
  destruct (G (n - 1) 1 (f 0)) as (H1 & H2 & H3). simpl in *. split.
  - destruct H1 as [H1|(i & Hi & H1)]; [exists 0|exists i]; split; auto; lia.
  - intros i Hi. destruct i; auto. apply H3; lia.
Qed.

(* ---------- row-major arithmetic ---------- *)
Lemma divmod_lin a b n : b < n -> (a * n + b) / n = a /\ (a * n + b) mod n = b.
Proof.
  intros H. split.
  - rewrite Nat.div_add_l by lia. rewrite Nat.div_small by auto. lia.
  - rewrite Nat.add_comm, Nat.mod_add by lia. apply Nat.mod_small; auto.
Qed.

Lemma ravel2_at {T} d1 (f : nat -> nat -> T) a b :
  b < d1 -> ravel2 d1 f (a * d1 + b) = f a b.
Proof. intros H. unfold ravel2. destruct (divmod_lin a b d1 H) as [-> ->]. reflexivity. Qed.

Lemma ravel3_at {T} d1 d2 (f : nat -> nat -> nat -> T) a b c :
  b < d1 -> c < d2 -> ravel3 d1 d2 f ((a * d1 + b) * d2 + c) = f a b c.
Proof.
  intros Hb Hc. unfold ravel3.
  destruct (divmod_lin (a * d1 + b) c d2 Hc) as [E1 E2].
  destruct (divmod_lin a b d1 Hb) as [E3 E4].
  rewrite E2, E1, E4. rewrite (Nat.mul_comm d1 d2), <- Nat.div_div, E1, E3 by lia.
  reflexivity.
Qed.

Lemma ravel4_at {T} d1 d2 d3 (f : nat -> nat -> nat -> nat -> T) a b c d :
  b < d1 -> c < d2 -> d < d3 ->
  ravel4 d1 d2 d3 f (((a * d1 + b) * d2 + c) * d3 + d) = f a b c d.
Proof.
  intros Hb Hc Hd. unfold ravel4.
  destruct (divmod_lin ((a * d1 + b) * d2 + c) d d3 Hd) as [E1 E2].
  destruct (divmod_lin (a * d1 + b) c d2 Hc) as [E3 E4].
  destruct (divmod_lin a b d1 Hb) as [E5 E6].
  rewrite E2, E1, E4.
  rewrite (Nat.mul_comm d2 d3), <- (Nat.div_div _ d3 d2), E1, E3, E6 by lia.
  replace (d1 * d2 * d3) with (d3 * (d2 * d1)) by lia.
  rewrite <- (Nat.div_div _ d3 (d2 * d1)), E1, <- (Nat.div_div _ d2 d1), E3, E5 by nia.
  reflexivity.
Qed.
