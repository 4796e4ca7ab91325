(** Lemmas about slices, dictionaries and chunking. *)
From Coq Require Import List Arith ZArith Bool Lia Permutation.
From Verif Require Import Prim PrimLemmas CkptModel CkptSpec.
Import ListNotations.
Local Open Scope nat_scope.

Lemma Forall2_len {A B} (R : A -> B -> Prop) l l' : Forall2 R l l' -> length l = length l'.
Proof. induction 1; simpl; congruence. Qed.

Lemma F2_cons_r {A B} (R : A -> B -> Prop) x b l : Forall2 R x (b :: l) ->
  exists a x', x = a :: x' /\ R a b /\ Forall2 R x' l.
Proof. intros H; inversion H; subst; eauto. Qed.
Lemma F2_cons {A B} (R : A -> B -> Prop) a x b l : Forall2 R (a :: x) (b :: l) ->
  R a b /\ Forall2 R x l.
Proof. intros H; inversion H; subst; eauto. Qed.

(** ** C18 *)
Lemma intersect_spec : forall a b, length a = length b ->
  (exists r, intersect_slicend a b = Ok (Some r) /\ length r = length a /\
     (forall x, selected x r <-> selected x a /\ selected x b) /\ exists x, selected x r)
  \/ (intersect_slicend a b = Ok None /\ forall x, selected x a -> selected x b -> False).
Proof.
  induction a as [|[a1 a2] a IH]; intros [|[b1 b2] b] H; try discriminate.
  - left. exists []. simpl. split; [auto|split; [auto|split]].
    + intros x; split; [intros; split; assumption | tauto].
    + exists []. constructor.
  - injection H as H. simpl.
    set (start := Nat.max (or0 a1) (or0 b1)).
    set (stop := min_stop a2 b2).
    assert (P1 : forall n, selected1 n (Some start, stop) <->
                           selected1 n (a1, a2) /\ selected1 n (b1, b2)).
    { intros n. unfold selected1, start, stop, or0, min_stop; simpl.
      destruct a1, a2, b1, b2; simpl; lia. }
    destruct (match stop with Some t => t <=? start | None => false end) eqn:E.
    + right. split; auto. intros x Ha Hb.
      apply F2_cons_r in Ha. destruct Ha as [n [x' [-> [Ha _]]]]. apply F2_cons in Hb. destruct Hb as [Hb _].
      destruct (P1 n) as [_ P2]. specialize (P2 (conj Ha Hb)). unfold selected1 in P2. simpl in P2.
      destruct stop; [|discriminate]. apply Nat.leb_le in E. lia.
    + destruct (IH b H) as [[r [E1 [L1 [S1 [x Sx]]]]] | [E1 N1]]; rewrite E1; simpl.
      * left. exists ((Some start, stop) :: r). split; [auto|]. split; [simpl; auto|]. split.
        -- intros y. split.
           ++ intros Hy. apply F2_cons_r in Hy. destruct Hy as [n [y' [-> [H1 H2]]]].
              apply P1 in H1. apply S1 in H2. split; constructor; tauto.
           ++ intros [Ha Hb]. apply F2_cons_r in Ha. destruct Ha as [n [y' [-> [H1 H2]]]].
              apply F2_cons in Hb. destruct Hb as [H3 H4]. constructor. apply P1; auto. apply S1; auto.
        -- exists (start :: x). constructor; auto. unfold selected1; simpl.
           destruct stop; [apply Nat.leb_gt in E|]; lia.
      * right. split; auto. intros y Ha Hb. apply F2_cons_r in Ha. destruct Ha as [n [y' [-> [H1 H2]]]].
        apply F2_cons in Hb. destruct Hb as [H3 H4]. eauto.
Qed.

Lemma intersect_rank_mismatch : forall a b, length a <> length b ->
  intersect_slicend a b = Raise RuntimeError \/ intersect_slicend a b = Ok None.
Proof.
  induction a as [|[a1 a2] a IH]; intros [|[b1 b2] b] H; simpl in *; auto; try lia.
  destruct (match min_stop a2 b2 with Some t => _ | None => _ end); auto.
  destruct (IH b ltac:(lia)) as [-> | ->]; simpl; auto.
Qed.

(** ** Boxes *)
Lemma within_len x s : within x s -> length x = length s.
Proof. apply Forall2_len. Qed.

Lemma selected_of_c x s : selected x (map of_c s) <-> within x s.
Proof.
  unfold selected, within. split.
  - revert s. induction x as [|a x IH]; intros [|p s] H; simpl in *; inversion H; subst; constructor; auto.
  - induction 1; simpl; constructor; auto.
Qed.

Lemma in_slicend_spec x s : in_slicend x s = true <-> within x s.
Proof.
  unfold in_slicend, within. revert s. induction x as [|a x IH]; intros [|p s]; simpl.
  - split; auto.
  - split; [discriminate | intros H; inversion H].
  - split; [discriminate | intros H; inversion H].
  - specialize (IH s). rewrite !andb_true_iff in *. rewrite Nat.eqb_eq in *.
    rewrite Nat.leb_le, Nat.ltb_lt. split.
    + intros [E [[L1 L2] F]]. constructor; [lia|]. apply IH. split; auto.
    + intros H. apply F2_cons in H. destruct H as [H1 H2]. apply IH in H2. destruct H2. repeat split; auto; lia.
Qed.

Lemma slicend_eqb_spec a b : slicend_eqb a b = true <-> a = b.
Proof.
  revert b. induction a as [|[x y] a IH]; intros [|[u v] b]; simpl; split; try discriminate; auto.
  - rewrite !andb_true_iff, !Nat.eqb_eq, IH. intros [[-> ->] ->]; auto.
  - intros H; injection H as -> -> ->. rewrite !Nat.eqb_refl. simpl. apply IH; auto.
Qed.
Lemma slicend_eqb_refl a : slicend_eqb a a = true.
Proof. apply slicend_eqb_spec; auto. Qed.
Lemma slicend_eqb_neq a b : a <> b -> slicend_eqb a b = false.
Proof. destruct (slicend_eqb a b) eqn:E; auto. apply slicend_eqb_spec in E; congruence. Qed.
Lemma slicend_dec (a b : slicend) : {a = b} + {a <> b}.
Proof. destruct (slicend_eqb a b) eqn:E; [left; apply slicend_eqb_spec; auto | right].
  intros ->. rewrite slicend_eqb_refl in E; discriminate. Qed.

(** Non-empty boxes are determined by their elements. *)
Definition nonempty (s : slicend) : Prop := Forall (fun p => fst p < snd p) s.

Lemma nonempty_lo s : nonempty s -> within (map fst s) s.
Proof. induction 1; simpl; constructor; auto; lia. Qed.
Lemma nonempty_hi s : nonempty s -> within (map (fun p => snd p - 1) s) s.
Proof. induction 1; simpl; constructor; auto; lia. Qed.

Lemma box_incl a b : nonempty a -> (forall x, within x a -> within x b) ->
  Forall2 (fun p q => fst q <= fst p /\ snd p <= snd q) a b.
Proof.
  intros N H. pose proof (H _ (nonempty_lo _ N)) as L. pose proof (H _ (nonempty_hi _ N)) as U.
  clear H. revert b L U. induction N; intros b L U.
  - inversion L; constructor.
  - destruct b as [|q b]; [inversion L|]. simpl in L, U. apply F2_cons in L. apply F2_cons in U.
    destruct L, U. constructor. lia. apply IHN; auto.
Qed.

Lemma box_ext a b : nonempty a -> nonempty b -> (forall x, within x a <-> within x b) -> a = b.
Proof.
  intros Na Nb H. pose proof (box_incl a b Na (fun x => proj1 (H x))) as I1.
  pose proof (box_incl b a Nb (fun x => proj2 (H x))) as I2.
  clear Na Nb H. induction I1 as [|[] [] ? ? [] ? IH]; auto. inversion I2; subst; simpl in *.
  f_equal; auto. f_equal; lia.
Qed.

Lemma nonempty_intersect a b : length a = length b ->
  (exists r, intersect_slicend (map of_c a) (map of_c b) = Ok (Some r) /\ length r = length a /\
     (forall x, selected x r <-> within x a /\ within x b) /\ exists x, selected x r)
  \/ (intersect_slicend (map of_c a) (map of_c b) = Ok None /\ disjoint a b).
Proof.
  intros L. destruct (intersect_spec (map of_c a) (map of_c b)) as [[r [E [Lr [S X]]]]|[E N]].
  - rewrite !map_length; auto.
  - left. exists r. rewrite map_length in Lr. repeat split; auto; try (apply S in H; destruct H as [H1 H2]; rewrite selected_of_c in *; auto).
    intros [H1 H2]. apply S. rewrite !selected_of_c; auto.
  - right. split; auto. intros x H1 H2. apply (N x); rewrite selected_of_c; auto.
Qed.

(** ** Shard indices *)
Lemma shard_index_ok shape index : valid_index shape index ->
  exists s, shard_index_to_slicend index shape = Ok s /\ nonempty s /\ map fst s = origin index /\
    length s = length shape /\
    Forall2 (fun p n => snd p <= n) s shape /\
    (forall x, within x s <-> in_shape x shape /\ selected x index).
Proof.
  unfold shard_index_to_slicend, valid_index, in_shape, selected, within, nonempty.
  induction 1 as [|[a b] n index shape [H1 H2] HF IH]; simpl.
  - exists []. do 5 (split; [simpl; auto|]). intros x. split.
    + intros H; inversion H; split; constructor.
    + intros [H _]; inversion H; constructor.
  - destruct IH as [s [E [N [O [L [B W]]]]]].
    destruct (safe_zip index shape) as [z|]; simpl in *; [|discriminate].
    injection E as E. eexists. split; [reflexivity|]. simpl in *. rewrite E.
    split; [constructor; auto; destruct a, b; simpl in *; lia|].
    split; [simpl; rewrite O; destruct a; reflexivity|].
    split; [simpl; congruence|].
    split; [constructor; auto; destruct b; simpl in *; lia|].
    intros x; split.
    + intros H. apply F2_cons_r in H. destruct H as [m [x' [-> [H3 H4]]]]. apply W in H4.
      destruct H4. split; constructor; auto; unfold selected1; destruct a, b; simpl in *; lia.
    + intros [Hs Hi]. apply F2_cons_r in Hs. destruct Hs as [m [x' [-> [Hs1 Hs2]]]].
      apply F2_cons in Hi. destruct Hi as [Hi1 Hi2].
      constructor. unfold selected1 in *; destruct a, b; simpl in *; lia. apply W; auto.
Qed.

(** ** Chunking (C13) *)
Definition count_in (x : list nat) (l : list slicend) : nat :=
  length (filter (in_slicend x) l).

Lemma count_app x a b : count_in x (a ++ b) = count_in x a + count_in x b.
Proof. unfold count_in. rewrite filter_app, app_length; auto. Qed.

Lemma prod_volume s : prod (slice_sizes s) = volume s.
Proof. induction s as [|p s IH]; simpl; auto. Qed.

Lemma nonempty_volume s : nonempty s <-> 0 < volume s.
Proof.
  unfold nonempty. induction s as [|[a b] s IH]; simpl; split; intros H; auto; try constructor.
  - inversion H; subst; simpl in *. apply IH in H3. nia.
  - simpl. nia.
  - apply IH. nia.
Qed.

(** One dimension: a range cut in equal steps. *)
Lemma py_range_count a k step x : 0 < step ->
  length (filter (fun j => (j <=? x) && (x <? j + step)) (py_range a (a + k * step) step)) =
  if (a <=? x) && (x <? a + k * step) then 1 else 0.
Proof.
  intros Hs. unfold py_range.
  replace (a + k * step - a + step - 1) with ((step - 1) + k * step) by lia.
  rewrite Nat.div_add by lia. rewrite (Nat.div_small (step - 1)) by lia. simpl.
  clear. induction k as [|k IH].
  - simpl. destruct (a <=? x) eqn:E, (x <? a + 0) eqn:E2; simpl; auto.
    apply Nat.leb_le in E. apply Nat.ltb_lt in E2. lia.
  - rewrite seq_S, map_app, filter_app, app_length, IH. simpl.
    destruct (a <=? x) eqn:E1, (x <? a + k * step) eqn:E2, (x <? a + (step + k * step)) eqn:E3,
       (a + k * step <=? x) eqn:E4, (x <? a + k * step + step) eqn:E5; simpl; auto;
    rewrite ?Nat.leb_le, ?Nat.ltb_lt, ?Nat.leb_gt, ?Nat.ltb_ge in *; lia.
Qed.

Lemma set_nth_length i p (c : slicend) : i < length c -> length (set_nth i p c) = length c.
Proof. intros. unfold set_nth. rewrite !app_length, firstn_length, skipn_length. simpl. lia. Qed.

Lemma set_nth_cons i p q (c : slicend) : set_nth (S i) p (q :: c) = q :: set_nth i p c.
Proof. reflexivity. Qed.

Lemma nth_set_nth i k p (c : slicend) d : i < length c -> nth k (set_nth i p c) d = if k =? i then p else nth k c d.
Proof.
  revert i k. induction c as [|q c IH]; intros i k H; simpl in H; [lia|].
  destruct i; [destruct k; reflexivity|]. rewrite set_nth_cons.
  destruct k; simpl; auto. apply IH. lia.
Qed.

Lemma volume_set_nth i p (c : slicend) : i < length c ->
  volume (set_nth i p c) * (snd (nth i c (0,0)) - fst (nth i c (0,0))) = volume c * (snd p - fst p).
Proof.
  revert i. induction c as [|q c IH]; intros i H; simpl in H; [lia|].
  destruct i.
  - unfold set_nth; simpl. ring.
  - rewrite set_nth_cons. simpl. specialize (IH i ltac:(lia)).
    rewrite <- Nat.mul_assoc, IH. ring.
Qed.

Lemma in_set_nth x i p (c : slicend) : i < length c ->
  in_slicend x (set_nth i p c) = true <->
  (length x = length c /\ fst p <= nth i x 0 < snd p /\
   forall k, k < length c -> k <> i -> fst (nth k c (0,0)) <= nth k x 0 < snd (nth k c (0,0))).
Proof.
  intros H. rewrite in_slicend_spec. unfold within.
  assert (G : forall (s : slicend), Forall2 (fun a p => fst p <= a < snd p) x s <->
     (length x = length s /\ forall k, k < length s -> fst (nth k s (0,0)) <= nth k x 0 < snd (nth k s (0,0)))).
  { clear. revert x. intros x s. revert x. induction s as [|q s IH]; intros [|a x]; simpl; split; intros F.
    - split; auto; intros; lia.
    - constructor.
    - inversion F.
    - destruct F; discriminate.
    - inversion F.
    - destruct F; discriminate.
    - apply F2_cons in F. destruct F as [F1 F2]. apply IH in F2. destruct F2 as [L K]. split; [congruence|].
      intros [|k] Hk; auto. apply K. lia.
    - destruct F as [L K]. constructor. apply (K 0); lia. apply IH. split; [lia|].
      intros k Hk. apply (K (S k)). lia. }
  rewrite G, set_nth_length by auto. split.
  - intros [L K]. repeat split; auto.
    + specialize (K i H). rewrite nth_set_nth, Nat.eqb_refl in K by auto. lia.
    + specialize (K i H). rewrite nth_set_nth, Nat.eqb_refl in K by auto. lia.
    + specialize (K k H0). rewrite nth_set_nth in K by auto. apply Nat.eqb_neq in H1. rewrite H1 in K. lia.
    + specialize (K k H0). rewrite nth_set_nth in K by auto. apply Nat.eqb_neq in H1. rewrite H1 in K. lia.
  - intros [L [Hp K]]. split; auto. intros k Hk. rewrite nth_set_nth by auto.
    destruct (Nat.eqb_spec k i); subst; auto.
Qed.

Lemma set_nth_self i (c : slicend) : i < length c -> set_nth i (nth i c (0,0)) c = c.
Proof.
  revert i. induction c as [|q c IH]; intros i H; simpl in H; [lia|].
  destruct i; [reflexivity|]. rewrite set_nth_cons. simpl. f_equal. apply IH. lia.
Qed.

Lemma split_dim_count x i (c : slicend) k step : i < length c -> 0 < step ->
  snd (nth i c (0,0)) = fst (nth i c (0,0)) + k * step ->
  count_in x (map (fun j => set_nth i (j, j + step) c)
                  (py_range (fst (nth i c (0,0))) (snd (nth i c (0,0))) step))
  = if in_slicend x c then 1 else 0.
Proof.
  intros Hi Hs E. unfold count_in. rewrite E.
  set (a := fst (nth i c (0,0))) in *.
  destruct (in_slicend x c) eqn:I.
  - rewrite <- (set_nth_self i c Hi) in I. apply in_set_nth in I; auto. destruct I as [L [B K]].
    transitivity (length (filter (fun j => (j <=? nth i x 0) && (nth i x 0 <? j + step)) (py_range a (a + k * step) step))).
    + generalize (py_range a (a + k * step) step). induction l as [|j l IH]; simpl; auto.
      replace (in_slicend x (set_nth i (j, j + step) c)) with ((j <=? nth i x 0) && (nth i x 0 <? j + step)).
      destruct (_ && _); simpl; auto.
      apply eq_true_iff_eq. rewrite in_set_nth by auto. simpl.
      rewrite andb_true_iff, Nat.leb_le, Nat.ltb_lt. split; [intros []; repeat split; auto; apply K; auto | intros [_ [[] _]]; auto].
    + rewrite py_range_count by auto.
      replace ((a <=? nth i x 0) && (nth i x 0 <? a + k * step)) with true; auto.
      symmetry. rewrite andb_true_iff, Nat.leb_le, Nat.ltb_lt. fold a in B. lia.
  - transitivity 0; auto. assert (Z : forall l, (forall j, In j l -> a <= j /\ j + step <= a + k * step) ->
       length (filter (in_slicend x) (map (fun j => set_nth i (j, j + step) c) l)) = 0).
    { induction l as [|j l IH]; intros Hl; simpl; auto.
      destruct (in_slicend x (set_nth i (j, j + step) c)) eqn:J; [|apply IH; intros; apply Hl; right; auto].
      exfalso. apply in_set_nth in J; auto. destruct J as [L [B K]]. simpl in B.
      assert (in_slicend x c = true); [|congruence].
      rewrite <- (set_nth_self i c Hi). apply in_set_nth; auto. split; [auto|split; [|auto]].
      destruct (Hl j (or_introl eq_refl)); fold a; lia. }
    apply Z. intros j Hj. unfold py_range in Hj. apply in_map_iff in Hj. destruct Hj as [t [<- Ht]].
    apply in_seq in Ht.
    replace (a + k * step - a + step - 1) with ((step - 1) + k * step) in Ht by lia.
    rewrite Nat.div_add in Ht by lia. rewrite (Nat.div_small (step - 1)) in Ht by lia. nia.
Qed.

Lemma choose_splits_spec size items m : 1 < size ->
  let s := choose_splits size items m in
  (0 < s /\ size mod s = 0) /\ (s = size \/ items / s <= m).
Proof.
  intros H s. unfold s, choose_splits.
  destruct (filter _ (seq 2 8)) as [|t l] eqn:E.
  - split; [split; [lia | apply Nat.mod_same; lia] | auto].
  - assert (In t (filter (fun s => (size mod s =? 0) && (items / s <=? m)) (seq 2 8))) as I by (rewrite E; left; auto).
    apply filter_In in I. destruct I as [I1 I2]. apply in_seq in I1.
    apply andb_true_iff in I2. destruct I2 as [I2 I3]. apply Nat.eqb_eq in I2. apply Nat.leb_le in I3.
    split; auto. split; auto. lia.
Qed.

Record chunks_inv (sl : slicend) (rest : list nat) (chunks : list slicend) (items : nat) : Prop := {
  ci_len : forall c, In c chunks -> length c = length sl;
  ci_vol : forall c, In c chunks -> volume c = items;
  ci_rest : forall c k, In c chunks -> In k rest -> nth k c (0,0) = nth k sl (0,0);
  ci_done : forall c k, In c chunks -> k < length sl -> ~ In k rest -> snd (nth k c (0,0)) - fst (nth k c (0,0)) = 1;
  ci_count : forall x, count_in x chunks = if in_slicend x sl then 1 else 0 }.

Lemma volume_ones (c : slicend) : (forall k, k < length c -> snd (nth k c (0,0)) - fst (nth k c (0,0)) = 1) -> volume c = 1.
Proof.
  induction c as [|p c IH]; intros H; simpl; auto.
  rewrite IH. specialize (H 0 ltac:(simpl; lia)). simpl in H. lia.
  intros k Hk. apply (H (S k)). simpl; lia.
Qed.

Lemma split_loop_inv sl m : 1 <= m -> nonempty sl -> forall rest chunks items,
  NoDup rest -> (forall k, In k rest -> k < length sl) ->
  chunks_inv sl rest chunks items ->
  let out := split_loop sl (slice_sizes sl) m rest chunks items in
  (forall c, In c out -> length c = length sl /\ 0 < volume c <= m) /\
  (forall x, count_in x out = if in_slicend x sl then 1 else 0).
Proof.
  intros Hm N. induction rest as [|i rest IH]; intros chunks items ND Hr [I1 I2 I3 I4 I5]; simpl.
  - split; auto. intros c Hc. split; auto.
    rewrite volume_ones; [lia|]. intros k Hk. apply I4; auto. rewrite <- (I1 c); auto.
  - assert (Hi : i < length sl) by (apply Hr; left; auto).
    inversion ND; subst.
    assert (Sz : nth i (slice_sizes sl) 0 = snd (nth i sl (0,0)) - fst (nth i sl (0,0))).
    { unfold slice_sizes. exact (map_nth (fun p => snd p - fst p) sl (0,0) i). }
    assert (Pos : fst (nth i sl (0,0)) < snd (nth i sl (0,0))).
    { unfold nonempty in N. rewrite Forall_forall in N. apply N. apply nth_In; auto. }
    destruct (nth i (slice_sizes sl) 0 =? 1) eqn:E1.
    + apply Nat.eqb_eq in E1. apply IH; auto. { intros; apply Hr; right; auto. }
      constructor; auto.
      * intros; apply I3; auto. right; auto.
      * intros c k Hc Hk Hn. destruct (Nat.eq_dec k i) as [->|Ne].
        -- rewrite (I3 c i Hc) by (left; auto). lia.
        -- apply I4; auto. intros [?|?]; congruence.
    + apply Nat.eqb_neq in E1.
      set (size := nth i (slice_sizes sl) 0) in *.
      set (s := choose_splits size items m).
      destruct (choose_splits_spec size items m ltac:(lia)) as [[Ps Ds] Cs]. fold s in Ps, Ds, Cs.
      set (step := size / s).
      assert (Es : size = s * step) by (unfold step; apply Nat.div_exact; lia).
      assert (Pstep : 0 < step) by nia.
      set (ch := flat_map _ chunks).
      assert (Hch : forall c', In c' ch -> exists c j, In c chunks /\ c' = set_nth i (j, j + step) c).
      { intros c' Hc'. unfold ch in Hc'. apply in_flat_map in Hc'. destruct Hc' as [c [Hc Hm']].
        apply in_map_iff in Hm'. destruct Hm' as [j [<- Hj]]. exists c, j; auto. }
      assert (Hcount : forall x, count_in x ch = if in_slicend x sl then 1 else 0).
      { intros x. rewrite <- I5. unfold ch. clear Hch ch I2 I4 I5.
        induction chunks as [|c l IHl]; simpl; auto.
        rewrite count_app, IHl.
        - pose proof (split_dim_count x i c s step) as SD. rewrite (I3 c i) in SD by (left; auto).
          rewrite SD; auto.
          + unfold count_in at 2. simpl. fold (count_in x l). destruct (in_slicend x c); simpl; auto.
          + rewrite (I1 c) by (left; auto); auto.
          + lia.
        - intros; apply I1; right; auto.
        - intros; apply I3; auto. right; auto. }
      assert (Hvol : forall c, In c ch -> volume c = items / s).
      { intros c' Hc'. destruct (Hch _ Hc') as [c [j [Hc ->]]].
        pose proof (volume_set_nth i (j, j + step) c ltac:(rewrite I1; auto)) as V.
        rewrite (I3 c i) in V by (simpl; auto). rewrite <- Sz in V. simpl in V.
        rewrite (I2 c Hc) in V. replace (j + step - j) with step in V by lia.
        assert (volume (set_nth i (j, j + step) c) * s = items) as Q by nia.
        rewrite <- Q, Nat.div_mul; lia. }
      assert (Hlen : forall c, In c ch -> length c = length sl).
      { intros c' Hc'. destruct (Hch _ Hc') as [c [j [Hc ->]]].
        rewrite set_nth_length; rewrite I1; auto. }
      assert (Hne : forall c, In c ch -> 0 < volume c).
      { intros c' Hc'. destruct (Hch _ Hc') as [c [j [Hc ->]]].
        pose proof (volume_set_nth i (j, j + step) c ltac:(rewrite I1; auto)) as V.
        rewrite (I3 c i) in V by (simpl; auto). rewrite <- Sz in V. simpl in V.
        assert (0 < volume c).
        { destruct (Nat.eq_dec (volume c) 0) as [Z0|]; [|lia].
          exfalso.
          (* every remaining axis is that of sl, every other has one element *)
          assert (nonempty c) as Nc.
          { apply Forall_forall. intros p Hp. destruct (In_nth (A:=cslice) c p (0,0) Hp) as [k [Hk <-]].
            pose proof (I1 c Hc) as Lc. unfold slicend in *. rewrite Lc in Hk.
            destruct (in_dec Nat.eq_dec k (i :: rest)) as [Hin|Hout].
            - rewrite (I3 c k Hc Hin). unfold nonempty in N. rewrite Forall_forall in N. apply N. apply nth_In; auto.
            - specialize (I4 c k Hc Hk Hout). lia. }
          apply nonempty_volume in Nc. lia. }
        replace (j + step - j) with step in V by lia. nia. }
      destruct (items / s <=? m) eqn:E2.
      * split; auto. intros c Hc. split; auto. split; auto. rewrite Hvol by auto.
        apply Nat.leb_le; auto.
      * apply Nat.leb_gt in E2. destruct Cs as [Cs|Cs]; [|lia].
        apply IH; auto. { intros; apply Hr; right; auto. }
        constructor; auto.
        -- intros c' k Hc' Hk. destruct (Hch _ Hc') as [c [j [Hc ->]]].
           rewrite nth_set_nth by (rewrite I1; auto).
           destruct (Nat.eqb_spec k i); [subst; contradiction|]. apply I3; auto. right; auto.
        -- intros c' k Hc' Hk Hn. destruct (Hch _ Hc') as [c [j [Hc ->]]].
           rewrite nth_set_nth by (rewrite I1; auto).
           destruct (Nat.eqb_spec k i).
           ++ simpl. assert (step = 1) by nia. lia.
           ++ apply I4; auto. intros [?|?]; congruence.
Qed.

Lemma count_one x l : count_in x l <= 1 -> ForallOrdPairs (fun a b => ~ (within x a /\ within x b)) l.
Proof.
  induction l as [|a l IH]; intros H; constructor.
  - apply Forall_forall. intros b Hb [Ha Hb'].
    unfold count_in in H. simpl in H. apply in_slicend_spec in Ha, Hb'. rewrite Ha in H. simpl in H.
    assert (In b (filter (in_slicend x) l)) as I by (apply filter_In; auto).
    destruct (filter (in_slicend x) l); [contradiction|simpl in H; lia].
  - apply IH. unfold count_in in *. simpl in H. destruct (in_slicend x a); simpl in H; lia.
Qed.

Lemma pairs_forall {A X} (R : X -> A -> A -> Prop) (l : list A) :
  (forall x, ForallOrdPairs (R x) l) -> ForallOrdPairs (fun a b => forall x, R x a b) l.
Proof.
  induction l as [|a l IH]; intros H; constructor.
  - apply Forall_forall. intros b Hb x. specialize (H x). inversion H; subst.
    rewrite Forall_forall in H2; auto.
  - apply IH. intros x. specialize (H x). inversion H; auto.
Qed.

Lemma split_slicend_spec sl m : nonempty sl ->
  let out := split_slicend sl m in
  ForallOrdPairs disjoint out /\
  (forall x, within x sl <-> exists c, In c out /\ within x c) /\
  (forall c, In c out -> nonempty c /\ length c = length sl) /\
  match m with Some (S n) => forall c, In c out -> volume c <= S n | _ => out = [sl] end.
Proof.
  intros N out.
  assert (G : (forall c, In c out -> length c = length sl /\ 0 < volume c) /\
     (forall x, count_in x out = if in_slicend x sl then 1 else 0) /\
     match m with Some (S n) => forall c, In c out -> volume c <= S n | _ => out = [sl] end).
  { assert (Self : (forall c, In c [sl] -> length c = length sl /\ 0 < volume c) /\
     (forall x, count_in x [sl] = if in_slicend x sl then 1 else 0)).
    { split. - intros c [<-|[]]. split; auto. apply nonempty_volume; auto.
      - intros x. unfold count_in. simpl. destruct (in_slicend x sl); auto. }
    unfold out, split_slicend. destruct m as [[|n]|]; try (destruct Self as [S1 S2]; exact (conj S1 (conj S2 eq_refl))).
    destruct (prod (slice_sizes sl) <=? S n) eqn:E.
    - destruct Self as [S1 S2]. split; [auto|split; [auto|]].
      intros c [<-|[]]. rewrite <- prod_volume. apply Nat.leb_le; auto.
    - set (cmp := fun i j => nth i (slice_sizes sl) 0 <=? nth j (slice_sizes sl) 0).
      pose proof (split_loop_inv sl (S n) ltac:(lia) N (sort_idx cmp (length (slice_sizes sl))) [sl] (prod (slice_sizes sl))) as SL.
      destruct SL as [SL1 SL2].
      + apply sort_idx_nodup.
      + intros k Hk. apply sort_idx_in in Hk. unfold slice_sizes in Hk. rewrite map_length in Hk; auto.
      + constructor.
        * intros c [<-|[]]; auto.
        * intros c [<-|[]]. rewrite prod_volume; auto.
        * intros c k [<-|[]]; auto.
        * intros c k [<-|[]] Hk Hn. exfalso. apply Hn. apply sort_idx_in. unfold slice_sizes; rewrite map_length; auto.
        * apply Self.
      + split; [|split]; [intros c Hc; apply SL1 in Hc; tauto | exact SL2 | intros c Hc; apply SL1 in Hc; tauto]. }
  destruct G as [G1 [G2 G3]]. split; [|split; [intros x; split|split; [intros c Hc; split|exact G3]]].
  - assert (P : ForallOrdPairs (fun a b => forall x, ~ (within x a /\ within x b)) out).
    { apply pairs_forall. intros x. apply count_one. rewrite G2. destruct (in_slicend x sl); auto. }
    clear - P. induction P; constructor; auto.
    eapply Forall_impl; [|exact H]. intros b Hb x H1 H2. apply (Hb x); auto.
  - intros H. apply in_slicend_spec in H. specialize (G2 x). rewrite H in G2.
    unfold count_in in G2. destruct (filter (in_slicend x) out) as [|c l] eqn:E; [discriminate|].
    assert (In c (filter (in_slicend x) out)) as I by (rewrite E; left; auto).
    apply filter_In in I. exists c. rewrite <- in_slicend_spec. auto.
  - intros [c [Hc Hx]]. apply in_slicend_spec in Hx. apply in_slicend_spec.
    destruct (in_slicend x sl) eqn:E; auto. specialize (G2 x). rewrite E in G2. unfold count_in in G2.
    assert (In c (filter (in_slicend x) out)) as I by (apply filter_In; auto).
    destruct (filter (in_slicend x) out); [contradiction|discriminate].
  - apply nonempty_volume. apply G1; auto.
  - apply G1; auto.
Qed.
