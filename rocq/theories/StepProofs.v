From Coq Require Import List Arith ZArith Reals QArith Qround Qabs Lra Lia Permutation Bool.
From Verif Require Import Py PyLemmas NdArray NdLemmas StepModel StepSpec.
Import ListNotations.
Local Open Scope nat_scope.

(** ** Strided batches *)
Lemma flat_opt_map {T} (l : list T) (f : nat -> nat) d : forall n, (forall j, In j n -> f j < length l) ->
  flat_map (fun j => match nth_error l (f j) with Some x => [x] | None => [] end) n = map (fun j => nth (f j) l d) n.
Proof.
  induction n as [|a n IH]; intros H; simpl; auto. rewrite (nth_error_nth' l d) by (apply H; simpl; auto). simpl. rewrite IH; auto.
  intros j Hj. apply H. simpl. auto.
Qed.
Lemma take_map {T} m (l : list T) i d : 0 < m -> i < m -> length l mod m = 0 ->
  take m l i = map (fun j => nth (j * m + i) l d) (seq 0 (length l / m)).
Proof.
  intros Hm Hi Hd. unfold take. apply (flat_opt_map l (fun j => j * m + i) d). intros j Hj. apply in_seq in Hj.
  assert (E := Nat.div_mod (length l) m ltac:(lia)). nia.
Qed.
Lemma take_length {T} m (l : list T) i : 0 < m -> i < m -> length l mod m = 0 -> length (take m l i) = length l / m.
Proof.
  intros Hm Hi Hd. destruct l as [|d l].
  - unfold take. simpl length. rewrite Nat.div_0_l by lia. auto.
  - rewrite (take_map m _ i d) by auto. rewrite map_length, seq_length. auto.
Qed.
Lemma combine_map2 {A B C} (f : A -> B) (g : A -> C) (l : list A) : combine (map f l) (map g l) = map (fun x => (f x, g x)) l.
Proof. induction l; simpl; congruence. Qed.
Lemma nth_all {T} (l : list T) d : map (fun i => nth i l d) (seq 0 (length l)) = l.
Proof.
  induction l as [|a l IH]; simpl; auto. f_equal. rewrite <- seq_shift, map_map. auto.
Qed.

Lemma seq_grid m k : Permutation (flat_map (fun i => map (fun j => j * m + i) (seq 0 k)) (seq 0 m)) (seq 0 (k * m)).
Proof.
  destruct (Nat.eq_dec m 0) as [->|Hm]; [rewrite Nat.mul_0_r; simpl; auto|].
  apply NoDup_Permutation.
  - assert (G : forall s, NoDup s -> (forall i, In i s -> i < m) -> NoDup (flat_map (fun i => map (fun j => j * m + i) (seq 0 k)) s)).
    { induction 1 as [|a s NI ND IH]; intros B; simpl; [constructor|]. apply NoDup_app_intro.
      - apply FinFun.Injective_map_NoDup; [|apply seq_NoDup]. intros x y E. nia.
      - apply IH. intros; apply B; simpl; auto.
      - intros x H1 H2. apply in_map_iff in H1. destruct H1 as (j & <- & _). apply in_flat_map in H2. destruct H2 as (i & Hi & H2).
        apply in_map_iff in H2. destruct H2 as (j' & E & _). assert (i < m) by (apply B; simpl; auto). assert (a < m) by (apply B; simpl; auto).
        assert (i = a). { rewrite (Nat.mod_unique (j * m + a) m j a), (Nat.mod_unique (j' * m + i) m j' i) by lia. congruence. } subst. auto. }
    apply G; [apply seq_NoDup|]. intros i Hi. apply in_seq in Hi. lia.
  - apply seq_NoDup.
  - intros x. rewrite in_flat_map, in_seq. split.
    + intros (i & Hi & H). apply in_seq in Hi. apply in_map_iff in H. destruct H as (j & <- & Hj). apply in_seq in Hj. nia.
    + intros H. exists (x mod m). split; [apply in_seq; split; [lia|]; apply Nat.mod_upper_bound; auto|].
      apply in_map_iff. exists (x / m). split; [rewrite Nat.mul_comm; symmetry; apply Nat.div_mod; auto|].
      apply in_seq. split; [lia|]. apply Nat.div_lt_upper_bound; auto. nia.
Qed.

Lemma take_all {X Y} m (xs : list X) (ys : list Y) : 0 < m -> length xs = length ys -> length xs mod m = 0 ->
  Permutation (flat_map (fun i => combine (take m xs i) (take m ys i)) (seq 0 m)) (combine xs ys).
Proof.
  intros Hm E Hd. destruct xs as [|dx xs'].
  { destruct ys; [|discriminate]. simpl combine at 2. induction (seq 0 m) as [|i s IH]; simpl; auto. unfold take at 1. simpl length.
    rewrite Nat.div_0_l by lia. simpl. auto. }
  destruct ys as [|dy ys']; [discriminate|]. set (xs := dx :: xs') in *. set (ys := dy :: ys') in *. clearbody xs ys.
  set (k := length xs / m).
  assert (Ek : length xs = k * m) by (assert (D := Nat.div_mod (length xs) m ltac:(lia)); unfold k; lia).
  assert (EQ : flat_map (fun i => combine (take m xs i) (take m ys i)) (seq 0 m) =
    map (fun n => (nth n xs dx, nth n ys dy)) (flat_map (fun i => map (fun j => j * m + i) (seq 0 k)) (seq 0 m))).
  { assert (G : forall s, (forall i, In i s -> i < m) -> flat_map (fun i => combine (take m xs i) (take m ys i)) s =
      map (fun n => (nth n xs dx, nth n ys dy)) (flat_map (fun i => map (fun j => j * m + i) (seq 0 k)) s)).
    { induction s as [|i s IH]; intros H; simpl; auto. rewrite map_app, <- IH by (intros; apply H; simpl; auto). f_equal.
      rewrite (take_map m xs i dx), (take_map m ys i dy) by (auto; try (apply H; simpl; auto); rewrite <- E; auto). rewrite <- E, combine_map2, map_map. auto. }
    apply G. intros i Hi. apply in_seq in Hi. lia. }
  rewrite EQ. assert (P := seq_grid m k). rewrite <- Ek in P. apply (Permutation_map (fun n => (nth n xs dx, nth n ys dy))) in P.
  eapply Permutation_trans; [exact P|]. rewrite <- combine_map2. rewrite nth_all. rewrite E, nth_all. auto.
Qed.

(** ** Sums *)
Lemma sum_app a b : (sum (a ++ b) = sum a + sum b)%R.
Proof. induction a; simpl; lra. Qed.
Lemma sum_perm a b : Permutation a b -> sum a = sum b.
Proof. induction 1; simpl; lra. Qed.
Lemma sum_div l (c : R) : (sum (map (fun x => x / c) l) = sum l / c)%R.
Proof. induction l; simpl; unfold Rdiv in *; [ring|]. rewrite IHl. ring. Qed.
Lemma sum_flat_map {A} (f : A -> list R) l : sum (flat_map f l) = sum (map (fun a => sum (f a)) l).
Proof. induction l; simpl; auto. rewrite sum_app, IHl. auto. Qed.

Lemma add_all_ok a : forall b c, add_all a b = Ok c -> length b = length a /\ length c = length a /\ forall j, (nth j c 0 = nth j a 0 + nth j b 0)%R.
Proof.
  induction a as [|x a IH]; intros [|y b] c H; try discriminate; simpl in H.
  - apply Ok_inj in H. subst. repeat split; auto. intros [|j]; simpl; lra.
  - apply bind_ok in H. destruct H as (r & H & K). apply Ok_inj in K. subst c. destruct (IH _ _ H) as (A & B & C). simpl. repeat split; auto.
    intros [|j]; simpl; auto.
Qed.
Lemma add_all_total a b : length a = length b -> exists c, add_all a b = Ok c.
Proof.
  revert b. induction a as [|x a IH]; intros [|y b] H; try discriminate; simpl; [eauto|].
  destruct (IH b) as [c ->]; [simpl in H; lia|]. simpl. eauto.
Qed.

Section Microsteps.
Variable X Y params_t rngs_t : Type.
Variable fn : fn_t X Y params_t rngs_t.
Variable params : params_t.
Notation calls := (calls X Y params_t rngs_t fn params).

Lemma calls_lengths r bs gs ms r' : calls r bs gs ms r' -> length gs = length bs /\ length ms = length bs.
Proof. induction 1; simpl; lia. Qed.

Lemma loop_calls m (xs : list X) (ys : list Y) idx : forall g0 r0 m0 g r mm,
  rfold (fun state i => let '(grad, (rngs, metrics)) := state in
           bind (fn params (take m xs i) (take m ys i) rngs) (fun new =>
           bind (add_all grad (fst new)) (fun grad =>
           bind (add_all metrics (snd (snd new))) (fun metrics =>
           Ok (grad, (fst (snd new), metrics)))))) idx (g0, (r0, m0)) = Ok (g, (r, mm)) ->
  exists gs ms, calls r0 (map (fun i => (take m xs i, take m ys i)) idx) gs ms r /\
    Forall (fun x => length x = length g0) gs /\ Forall (fun x => length x = length m0) ms /\ length g = length g0 /\ length mm = length m0 /\
    (forall j, (nth j g 0 = nth j g0 0 + sum (map (fun x => nth j x 0) gs))%R) /\
    (forall j, (nth j mm 0 = nth j m0 0 + sum (map (fun x => nth j x 0) ms))%R).
Proof.
  induction idx as [|i idx IH]; intros g0 r0 m0 g r mm H; simpl in H.
  - injection H as <- <- <-. exists [], []. repeat split; try constructor; auto; intros j; simpl; lra.
  - apply bind_ok in H. destruct H as (st & H & K). apply bind_ok in H. destruct H as ([g1 [r1 m1]] & F & H). simpl in H.
    apply bind_ok in H. destruct H as (g2 & G2 & H). apply bind_ok in H. destruct H as (m2 & M2 & H). apply Ok_inj in H. subst st.
    destruct (add_all_ok _ _ _ G2) as (A1 & A2 & A3). destruct (add_all_ok _ _ _ M2) as (B1 & B2 & B3).
    destruct (IH _ _ _ _ _ _ K) as (gs & ms & C & F1 & F2 & L1 & L2 & S1 & S2).
    exists (g1 :: gs), (m1 :: ms). rewrite A2 in *. rewrite B2 in *. repeat split; auto.
    + simpl. econstructor; eauto.
    + intros j. rewrite S1, A3. simpl. lra.
    + intros j. rewrite S2, B3. simpl. lra.
Qed.

Lemma nth_div j l (c : R) : (nth j (map (fun x => x / c) l) 0 = nth j l 0 / c)%R.
Proof.
  transitivity (nth j (map (fun x => x / c)%R l) (0 / c)%R); [f_equal; unfold Rdiv; ring|]. apply (map_nth (fun x => (x / c)%R)).
Qed.

Lemma accumulate_ok dc z xs ys r out : (0 < z)%Z -> length xs = length ys ->
  accumulate_gradients_and_metrics X Y params_t rngs_t dc fn (Some z) params xs ys r = Ok out ->
  exists bs gs ms, calls r bs gs ms (fst (snd out)) /\ length bs = Z.to_nat z /\
    Forall (fun b => length (fst b) = length xs / Z.to_nat z /\ length (snd b) = length xs / Z.to_nat z) bs /\
    length xs = Z.to_nat z * (length xs / Z.to_nat z) /\
    Permutation (flat_map (fun b => combine (fst b) (snd b)) bs) (combine xs ys) /\
    average gs (fst out) /\ average ms (snd (snd out)).
Proof.
  intros Hz E H. unfold accumulate_gradients_and_metrics in H. destruct (Z.leb_spec z 0); [lia|].
  set (m := Z.to_nat z) in *. assert (Hm : 0 < m) by (unfold m; lia). clearbody m.
  destruct (negb _) eqn:Q0; [discriminate|]. clear Q0.
  destruct (negb (length xs mod m =? 0)) eqn:Q1; [discriminate|]. apply negb_false_iff, Nat.eqb_eq in Q1.
  destruct (negb (length ys mod m =? 0)) eqn:Q2; [discriminate|]. clear Q2.
  apply bind_ok in H. destruct H as ([g0 [r0 m0]] & F & H). apply bind_ok in H. destruct H as ([g [r1 mm]] & L & H). simpl in H. apply Ok_inj in H. subst out. simpl.
  destruct (loop_calls _ _ _ _ _ _ _ _ _ _ L) as (gs & ms & C & F1 & F2 & L1 & L2 & S1 & S2).
  assert (SQ : seq 0 m = 0 :: seq 1 (m - 1)) by (destruct m; [lia|simpl; rewrite Nat.sub_0_r; auto]).
  exists (map (fun i => (take m xs i, take m ys i)) (seq 0 m)), (g0 :: gs), (m0 :: ms).
  assert (CL := calls_lengths _ _ _ _ _ C). rewrite map_length, seq_length in CL. destruct CL as [CL1 CL2].
  split; [|split; [|split; [|split; [|split; [|split]]]]].
  - rewrite SQ. simpl. econstructor; eauto.
  - rewrite map_length, seq_length. auto.
  - apply Forall_forall. intros b Hb. apply in_map_iff in Hb. destruct Hb as (i & <- & Hi). apply in_seq in Hi. simpl.
    rewrite !take_length by (auto; try lia; rewrite <- E; auto). rewrite <- E. auto.
  - assert (D := Nat.div_mod (length xs) m ltac:(lia)). lia.
  - rewrite flat_map_concat_map, map_map, <- flat_map_concat_map. simpl. apply take_all; auto.
  - split.
    + rewrite map_length, L1. constructor; auto.
    + intros j _. rewrite nth_div, S1. simpl map. simpl sum. f_equal. f_equal. simpl length. rewrite CL1. lia.
  - split.
    + rewrite map_length, L2. constructor; auto.
    + intros j _. rewrite nth_div, S2. simpl map. simpl sum. f_equal. f_equal. simpl length. rewrite CL2. lia.
Qed.

(** A function whose results are means over the examples *)
Variable dg dm : nat.
Variable g h : nat -> X * Y -> R.
Definition is_mean : Prop := forall xs ys r, length xs = length ys -> xs <> [] ->
  exists r', fn params xs ys r = Ok (means dg g (combine xs ys), (r', means dm h (combine xs ys))).

Lemma means_length {E} d (f : nat -> E -> R) l : length (means d f l) = d.
Proof. unfold means. rewrite map_length, seq_length. auto. Qed.
Lemma means_nth {E} d (f : nat -> E -> R) l j : j < d -> nth j (means d f l) 0%R = (sum (map (f j) l) / INR (length l))%R.
Proof.
  intros H. unfold means. set (F := fun j => _). rewrite (nth_indep _ 0%R (F 0)) by (rewrite map_length, seq_length; auto).
  rewrite map_nth, seq_nth by auto. auto.
Qed.

Lemma average_means {E} d (f : nat -> E -> R) (bs : list (list E)) k a l : 0 < k -> bs <> [] ->
  Forall (fun b => length b = k) bs -> Permutation (concat bs) l -> length l = length bs * k ->
  average (map (means d f) bs) a -> a = means d f l.
Proof.
  intros Hk NB FB P L [A1 A2].
  assert (La : length a = d). { destruct bs as [|b bs]; [congruence|]. simpl in A1. apply Forall_inv in A1. rewrite means_length in A1. auto. }
  apply (nth_ext _ _ 0%R 0%R). { rewrite means_length; auto. }
  intros j Hj. rewrite A2, means_nth by lia. rewrite map_map, map_length.
  assert (S1 : map (fun b => nth j (means d f b) 0%R) bs = map (fun x => (x / INR k)%R) (map (fun b => sum (map (f j) b)) bs)).
  { rewrite map_map. apply map_ext_in. intros b Hb. rewrite Forall_forall in FB. rewrite means_nth by lia. rewrite (FB _ Hb). auto. }
  rewrite S1, sum_div. rewrite (sum_perm (map (f j) l) (map (f j) (concat bs))) by (apply Permutation_map, Permutation_sym; auto).
  rewrite concat_map, <- (map_id (map (map (f j)) bs)), <- flat_map_concat_map, sum_flat_map, map_map.
  rewrite L, mult_INR. assert (0 < INR k)%R by (apply lt_0_INR; auto).
  assert (0 < INR (length bs))%R. { apply lt_0_INR. destruct bs; [congruence|simpl; lia]. }
  field. lra.
Qed.

Lemma calls_mean (MN : is_mean) r bs gs ms r' : calls r bs gs ms r' -> Forall (fun b => length (fst b) = length (snd b) /\ fst b <> []) bs ->
  gs = map (fun b => means dg g (combine (fst b) (snd b))) bs /\ ms = map (fun b => means dm h (combine (fst b) (snd b))) bs.
Proof.
  induction 1 as [|r xs ys g0 r' m0 bs gs ms r'' F C IH]; intros FB; auto. inversion FB as [|? ? [L N] FB']; subst. simpl in *.
  destruct (MN xs ys r L N) as [r1 E]. rewrite E in F. injection F as <- <- <-. destruct (IH FB') as [-> ->]. auto.
Qed.

Lemma accumulate_mean dc z xs ys r out : is_mean -> length xs = length ys -> xs <> [] ->
  accumulate_gradients_and_metrics X Y params_t rngs_t dc fn z params xs ys r = Ok out ->
  fst out = means dg g (combine xs ys) /\ snd (snd out) = means dm h (combine xs ys).
Proof.
  intros MN E N H. assert (FULL : accumulate_gradients_and_metrics X Y params_t rngs_t dc fn z = fn \/ exists z', z = Some z' /\ (0 < z')%Z).
  { destruct z as [z'|]; [|auto]. simpl. destruct (Z.leb_spec z' 0); [auto|right; eauto]. }
  destruct FULL as [FULL|(z' & -> & Hz)].
  - rewrite FULL in H. destruct (MN xs ys r E N) as [r1 E1]. rewrite E1 in H. apply Ok_inj in H. subst out. auto.
  - destruct (accumulate_ok _ _ _ _ _ _ Hz E H) as (bs & gs & ms & C & LB & FB & D & P & A1 & A2).
    set (m := Z.to_nat z') in *. assert (Hm : 0 < m) by (unfold m; lia). set (k := length xs / m) in *.
    assert (Hk : 0 < k). { destruct xs; [congruence|]. simpl length in D. destruct k; lia. }
    assert (FB' : Forall (fun b => length (fst b) = length (snd b) /\ fst b <> []) bs).
    { eapply Forall_impl; [|exact FB]. intros b [B1 B2]. split; [congruence|]. intros Z0. rewrite Z0 in B1. simpl in B1. lia. }
    destruct (calls_mean MN _ _ _ _ _ C FB') as [-> ->].
    assert (NB : map (fun b => combine (fst b) (snd b)) bs <> []) by (destruct bs; [simpl in LB; lia|discriminate]).
    assert (FC : Forall (fun b => length b = k) (map (fun b => combine (fst b) (snd b)) bs)).
    { apply Forall_map. eapply Forall_impl; [|exact FB]. intros b [B1 B2]. rewrite combine_length. lia. }
    rewrite flat_map_concat_map in P.
    assert (LC : length (combine xs ys) = length (map (fun b => combine (fst b) (snd b)) bs) * k).
    { rewrite combine_length, map_length, LB. lia. }
    split.
    + eapply (average_means dg g (map (fun b => combine (fst b) (snd b)) bs) k); eauto. rewrite map_map. auto.
    + eapply (average_means dm h (map (fun b => combine (fst b) (snd b)) bs) k); eauto. rewrite map_map. auto.
Qed.

(** It does not fail if the batch can be split. *)
Lemma accumulate_total dc z xs ys r : (forall xs ys r, length xs = length ys -> exists g0 r' m0, fn params xs ys r = Ok (g0, (r', m0)) /\ length g0 = dg /\ length m0 = dm) ->
  0 < dc -> length xs = length ys -> (forall n, z = Some n -> (0 < n)%Z -> (exists q, length xs = dc * (Z.to_nat n * q))) ->
  exists out, accumulate_gradients_and_metrics X Y params_t rngs_t dc fn z params xs ys r = Ok out.
Proof using.
  intros T Hdc E D. destruct z as [z|]; unfold accumulate_gradients_and_metrics.
  2:{ destruct (T xs ys r E) as (g0 & r' & m0 & -> & _). eauto. }
  destruct (Z.leb_spec z 0). { destruct (T xs ys r E) as (g0 & r' & m0 & -> & _). eauto. }
  destruct (D z eq_refl ltac:(lia)) as [q Q]. set (m := Z.to_nat z) in *. assert (Hm : 0 < m) by (unfold m; lia). clearbody m.
  assert (M1 : (length xs / dc) mod m = 0) by (rewrite Q, (Nat.mul_comm dc), Nat.div_mul, (Nat.mul_comm m q), Nat.mod_mul by lia; auto).
  cbv zeta. rewrite M1.
  assert (M0 : length xs mod m = 0). { rewrite Q. replace (dc * (m * q)) with (dc * q * m) by lia. apply Nat.mod_mul. lia. }
  rewrite <- E, M0. cbn [Nat.eqb negb].
  assert (TL : forall i r, i < m -> exists g0 r' m0, fn params (take m xs i) (take m ys i) r = Ok (g0, (r', m0)) /\ length g0 = dg /\ length m0 = dm).
  { intros i r1 Hi. apply T. rewrite !take_length by (auto; rewrite <- E; auto). congruence. }
  destruct (TL 0 r Hm) as (g0 & r0 & m0 & -> & Lg & Lm). cbn [bind].
  assert (LP : forall idx, (forall i, In i idx -> i < m) -> forall g0 r0 m0, length g0 = dg -> length m0 = dm -> exists st,
    rfold (fun state i => let '(grad, (rngs, metrics)) := state in
           bind (fn params (take m xs i) (take m ys i) rngs) (fun new =>
           bind (add_all grad (fst new)) (fun grad =>
           bind (add_all metrics (snd (snd new))) (fun metrics =>
           Ok (grad, (fst (snd new), metrics)))))) idx (g0, (r0, m0)) = Ok st).
  { induction idx as [|i idx IH]; intros B g1 r1 m1 L1 L2; [simpl; eauto|]. cbn [rfold].
    destruct (TL i r1) as (g2 & r2 & m2 & -> & L3 & L4); [apply B; simpl; auto|]. cbn [bind fst snd].
    destruct (add_all_total g1 g2 ltac:(congruence)) as [g3 G3]. rewrite G3. cbn [bind].
    destruct (add_all_total m1 m2 ltac:(congruence)) as [m3 M3]. rewrite M3. cbn [bind].
    apply IH; [intros; apply B; simpl; auto| |].
    - rewrite <- L1. apply (add_all_ok _ _ _ G3).
    - rewrite <- L2. apply (add_all_ok _ _ _ M3). }
  destruct (LP (seq 1 (m - 1)) ltac:(intros i Hi; apply in_seq in Hi; lia) g0 r0 m0 Lg Lm) as [[g1 [r1 m1]] ->]. simpl. eauto.
Qed.
End Microsteps.

(** ** Steps and epochs *)
Local Open Scope Q_scope.
Lemma steps_from_epochs b n e steps epochs : (0 < b)%Z -> get_train_steps_and_epochs b n None (Some e) = Ok (steps, epochs) ->
  inject_Z ((steps - 1) * b) < e * inject_Z n /\ e * inject_Z n <= inject_Z (steps * b) /\ epochs * inject_Z n == inject_Z (steps * b).
Proof.
  unfold get_train_steps_and_epochs. simpl. intros Hb. destruct (Qeq_bool e 0) eqn:Q; [discriminate|].
  destruct (Z.eqb_spec b 0); [lia|]. simpl. destruct (Z.eqb_spec n 0) as [|N]; [discriminate|]. intros H. injection H as <- <-.
  set (c := Qceiling _).
  assert (B : 0 < inject_Z b) by (change 0 with (inject_Z 0); rewrite <- Zlt_Qlt; auto).
  assert (C1 : e * inject_Z n / inject_Z b <= inject_Z c) by apply Qle_ceiling.
  assert (C2 : inject_Z (c - 1) < e * inject_Z n / inject_Z b) by apply Qceiling_lt.
  assert (EQ : e * inject_Z n / inject_Z b * inject_Z b == e * inject_Z n).
  { field. intros K. rewrite K in B. apply (Qlt_irrefl 0 B). }
  split; [|split].
  - rewrite inject_Z_mult. apply (Qmult_lt_r _ _ (inject_Z b)) in C2; auto. rewrite EQ in C2. auto.
  - rewrite inject_Z_mult. apply (Qmult_le_r _ _ (inject_Z b)) in C1; auto. rewrite EQ in C1. auto.
  - field. intros K. unfold Qeq in K. simpl in K. lia.
Qed.
Lemma epochs_from_steps b n s steps epochs : get_train_steps_and_epochs b n (Some s) None = Ok (steps, epochs) ->
  steps = s /\ epochs * inject_Z n == inject_Z (s * b).
Proof.
  unfold get_train_steps_and_epochs. simpl. destruct (Z.eqb_spec s 0); [discriminate|]. simpl. destruct (Z.eqb_spec n 0) as [|N]; [discriminate|].
  intros H. injection H as <- <-. split; auto. field. intros K. unfold Qeq in K. simpl in K. lia.
Qed.
Lemma steps_exactly_one b n s e : (0 < b)%Z -> (0 < n)%Z ->
  ((exists r, get_train_steps_and_epochs b n s e = Ok r) <->
   (exists z, s = Some z /\ z <> 0%Z /\ e = None) \/ (exists q, e = Some q /\ ~ q == 0 /\ s = None)) /\
  (forall x, get_train_steps_and_epochs b n s e = Raise x -> x = ValueError).
Proof.
  intros Hb Hn. unfold get_train_steps_and_epochs. destruct (Z.eqb_spec n 0); [lia|]. destruct (Z.eqb_spec b 0); [lia|].
  destruct s as [z|], e as [q|]; simpl.
  - split; [|destruct (_ && _); congruence]. split; [intros [r H]; destruct (_ && _); discriminate|].
    intros [(z' & _ & _ & H)|(q' & _ & _ & H)]; discriminate.
  - destruct (Z.eqb_spec z 0) as [->|]; simpl; (split; [|try congruence]).
    + split; [intros [r H]; discriminate|]. intros [(z' & E & N & _)|(q' & H & _)]; [congruence|discriminate].
    + split; [|eauto]. left. exists z. auto.
  - destruct (Qeq_bool q 0) eqn:Q; simpl; (split; [|try congruence]).
    + apply Qeq_bool_iff in Q. split; [intros [r H]; discriminate|]. intros [(z' & E & _)|(q' & H & N2 & _)]; [discriminate|]. injection H as <-. tauto.
    + split; [|eauto]. right. exists q. split; auto. split; auto. intros K. apply Qeq_bool_iff in K. congruence.
  - split; [|congruence]. split; [intros [r H]; discriminate|]. intros [(z' & E & _)|(q' & H & _)]; discriminate.
Qed.
