(** Proofs for C60 and C61. *)
From Coq Require Import List Arith ZArith Bool Reals Lia Lra Permutation.
From Verif Require Import Py PyLemmas NdArray NdLemmas TfModel TfSpec.
Import ListNotations.
Local Open Scope nat_scope.

(** ** Axes *)
Lemma canon_ok n z p : is_axis n z p -> canon n z = Ok p.
Proof.
  intros (H & E). unfold canon. destruct ((- Z.of_nat n <=? z)%Z && (z <? Z.of_nat n)%Z) eqn:B.
  - f_equal. destruct (Z.ltb_spec z 0); destruct E; lia.
  - apply andb_false_iff in B. destruct B as [B|B]; [apply Z.leb_gt in B|apply Z.ltb_ge in B]; destruct E; lia.
Qed.
Lemma canon_inv n z p : canon n z = Ok p -> is_axis n z p.
Proof.
  unfold canon. destruct ((- Z.of_nat n <=? z)%Z && (z <? Z.of_nat n)%Z) eqn:B; [|discriminate]. intros E. injection E as <-.
  apply andb_true_iff in B. destruct B as [B1 B2]. apply Z.leb_le in B1. apply Z.ltb_lt in B2. unfold is_axis. destruct (Z.ltb_spec z 0); split; try lia.
Qed.
Lemma canon_err n z : (forall p, ~ is_axis n z p) -> canon n z = Raise ValueError.
Proof.
  intros H. destruct (canon n z) as [p|e] eqn:E; [exfalso; exact (H p (canon_inv n z p E))|]. unfold canon in E. destruct (_ && _) in E; congruence.
Qed.
Lemma canon_cases n z : (exists p, is_axis n z p /\ canon n z = Ok p) \/ ((forall p, ~ is_axis n z p) /\ canon n z = Raise ValueError).
Proof.
  destruct (canon n z) as [p|e] eqn:E; [left; exists p; split; auto; apply canon_inv; auto|]. right. split.
  - intros p H. rewrite (canon_ok n z p H) in E. discriminate.
  - unfold canon in E. destruct (_ && _) in E; congruence.
Qed.
Lemma canon_all n axes ps : Forall2 (is_axis n) axes ps -> rmap (canon n) axes = Ok ps.
Proof. intros H. apply rmap_ok. induction H; constructor; auto. apply canon_ok. auto. Qed.
Lemma canon_all_inv n axes ps : rmap (canon n) axes = Ok ps -> Forall2 (is_axis n) axes ps.
Proof. intros H. apply rmap_ok in H. induction H; constructor; auto. apply canon_inv. auto. Qed.
Lemma rmap_raise n axes e : rmap (canon n) axes = Raise e -> e = ValueError.
Proof.
  induction axes as [|z axes IH]; simpl; [discriminate|]. fold (rmap (canon n)). destruct (canon_cases n z) as [(p & _ & ->)|(_ & ->)]; simpl; [|congruence].
  destruct (rmap (canon n) axes); simpl; [discriminate|]. auto.
Qed.
Lemma memb_in i l : memb i l = true <-> In i l.
Proof. unfold memb. rewrite existsb_exists. split; [intros (x & H & E); apply Nat.eqb_eq in E; congruence|]. intros H. exists i. split; auto. apply Nat.eqb_refl. Qed.
Lemma memb_not i l : memb i l = false <-> ~ In i l.
Proof. rewrite <- memb_in. destruct (memb i l); split; congruence. Qed.
Lemma distinct_nodup l : distinct l = true <-> NoDup l.
Proof.
  induction l as [|x l IH]; simpl; [split; auto; constructor|]. rewrite andb_true_iff, negb_true_iff, memb_not, IH. split; [intros []; constructor; auto|]. intros H. inversion H; auto.
Qed.

(** ** Entries at other positions *)
Lemma others_drop ps l : others ps l = drop_axes ps 0 l.
Proof.
  unfold others. generalize 0. induction l as [|x l IH]; intros i; simpl; auto.
  destruct (in_dec Nat.eq_dec i ps) as [H|H]; simpl; rewrite IH.
  - apply memb_in in H. rewrite H. auto.
  - apply memb_not in H. rewrite H. auto.
Qed.
Lemma drop_valid ps : forall ds i idx, valid ds idx -> valid (drop_axes ps i ds) (drop_axes ps i idx).
Proof. intros ds i idx H. revert i. induction H as [|x d idx ds H F IH]; intros i; simpl; [constructor|]. destruct (memb i ps); [apply IH|constructor; auto; apply IH]. Qed.
Lemma valid_length ds idx : valid ds idx -> length idx = length ds.
Proof. induction 1; simpl; auto. Qed.
Lemma valid_nth ds idx : valid ds idx -> forall p, p < length ds -> nth p idx 0 < nth p ds 0.
Proof. induction 1; intros [|p] Hp; simpl in *; auto; try lia. apply IHForall2. lia. Qed.

Lemma insert_ones_spec ps : forall k i ds, length (filter (fun j => negb (memb j ps)) (seq i k)) = length ds ->
  length (insert_ones ps i k ds) = k /\ drop_axes ps i (insert_ones ps i k ds) = ds /\
  forall j, j < k -> In (i + j) ps -> nth j (insert_ones ps i k ds) 0 = 1.
Proof.
  induction k as [|k IH]; intros i ds H; cbn [insert_ones seq filter] in *.
  - destruct ds; [|discriminate]. repeat split; auto. intros; lia.
  - destruct (memb i ps) eqn:M; cbn [negb] in H.
    + destruct (IH (S i) ds H) as (A & B & C). cbn [length drop_axes]. rewrite M. split; [congruence|]. split; [auto|]. intros [|j] Hj I; cbn [nth]; auto.
      apply C; [lia|]. replace (S i + j) with (i + S j) by lia. auto.
    + destruct ds as [|d ds]; [discriminate|]. cbn [length] in H. injection H as H. destruct (IH (S i) ds H) as (A & B & C). cbn [length drop_axes]. rewrite M.
      split; [congruence|]. split; [congruence|]. intros [|j] Hj I; cbn [nth].
      * exfalso. rewrite Nat.add_0_r in I. apply memb_not in M. auto.
      * apply C; [lia|]. replace (S i + j) with (i + S j) by lia. auto.
Qed.
Lemma filter_neg {T} (P : T -> bool) l : length (filter P l) + length (filter (fun x => negb (P x)) l) = length l.
Proof. induction l as [|x l IH]; simpl; auto. destruct (P x); simpl; lia. Qed.
Lemma count_others n ps : NoDup ps -> Forall (fun p => p < n) ps -> length (filter (fun j => negb (memb j ps)) (seq 0 n)) = n - length ps.
Proof.
  intros N F. assert (P : Permutation (filter (fun j => memb j ps) (seq 0 n)) ps).
  { apply NoDup_Permutation; auto; [apply NoDup_filter, seq_NoDup|]. intros x. rewrite filter_In, memb_in, in_seq. rewrite Forall_forall in F. split; [tauto|]. intros H. specialize (F x H). split; auto; lia. }
  assert (Q := filter_neg (fun j => memb j ps) (seq 0 n)). rewrite seq_length in Q. rewrite (Permutation_length P) in Q. lia.
Qed.

(** ** Repetitions *)
Lemma set_nth_length k x l : length (set_nth k x l) = length l.
Proof. revert k. induction l as [|y l IH]; intros [|k]; simpl; auto. Qed.
Lemma set_nth_at k x l : k < length l -> nth k (set_nth k x l) 0 = x.
Proof. revert k. induction l as [|y l IH]; intros [|k] H; simpl in *; auto; try lia. apply IH. lia. Qed.
Lemma set_nth_other k j x l : j <> k -> nth j (set_nth k x l) 0 = nth j l 0.
Proof. revert k j. induction l as [|y l IH]; intros [|k] [|j] H; simpl; auto; try lia. Qed.

Lemma make_reps_fold n axis ps : Forall2 (is_axis n) axis ps -> NoDup ps -> forall reps out, length reps = length axis -> length out = n ->
  exists out', rfold (fun output ar => bind (canon n (fst ar)) (fun p => Ok (set_nth p (snd ar) output))) (combine axis reps) out = Ok out' /\
    length out' = n /\ (forall j, j < length axis -> nth (nth j ps 0) out' 0 = nth j reps 0) /\ (forall p, ~ In p ps -> nth p out' 0 = nth p out 0).
Proof.
  induction 1 as [|z p axis ps A F IH]; intros N reps out L Lo.
  - exists out. destruct reps; [|discriminate]. repeat split; auto. intros j Hj. simpl in Hj. lia.
  - destruct reps as [|r reps]; [discriminate|]. inversion N as [|? ? N1 N2]; subst. simpl in L. injection L as L.
    cbn [combine rfold fst snd]. rewrite (canon_ok _ _ _ A). cbn [bind].
    destruct (IH N2 reps (set_nth p r out) L ltac:(rewrite set_nth_length; auto)) as (out' & E & E1 & E2 & E3). exists out'. split; [exact E|]. split; [auto|]. split.
    + intros [|j] Hj; cbn [nth]; [|apply E2; simpl in Hj; lia]. rewrite E3 by auto. apply set_nth_at. destruct A. lia.
    + intros q Hq. rewrite E3 by (intros I; apply Hq; right; auto). apply set_nth_other. intros ->. apply Hq. left. auto.
Qed.

(** ** Tiles *)
Lemma drop_times ps : forall l r i, length r = length l -> (forall j, j < length l -> ~ In (i + j) ps -> nth j r 0 = 1) ->
  drop_axes ps i (map (fun p => fst p * snd p) (combine l r)) = drop_axes ps i l.
Proof.
  induction l as [|d l IH]; intros [|x r] i L H; simpl in *; try discriminate; auto. injection L as L.
  rewrite (IH r (S i) L). 2: { intros j Hj I. apply (H (S j)); [lia|]. replace (i + S j) with (S i + j) by lia. auto. }
  destruct (memb i ps) eqn:M; auto. assert (E : x = 1). { apply (H 0); [lia|]. rewrite Nat.add_0_r. apply memb_not. auto. } subst. rewrite Nat.mul_1_r. auto.
Qed.
Lemma drop_mod ps : forall l idx r i, length r = length l -> (forall j, j < length l -> ~ In (i + j) ps -> nth j r 0 = 1) ->
  valid (map (fun p => fst p * snd p) (combine l r)) idx ->
  drop_axes ps i (map (fun p => fst p mod snd p) (combine idx l)) = drop_axes ps i idx.
Proof.
  induction l as [|d l IH]; intros idx [|x r] i L H V; simpl in *; try discriminate; inversion V as [|y ? idx' ? V1 V2]; subst; auto. injection L as L.
  simpl. rewrite (IH idx' r (S i) L); auto. 2: { intros j Hj I. apply (H (S j)); [lia|]. replace (i + S j) with (S i + j) by lia. auto. }
  destruct (memb i ps) eqn:M; auto. assert (E : x = 1). { apply (H 0); [lia|]. rewrite Nat.add_0_r. apply memb_not. auto. } subst. f_equal. apply Nat.mod_small. lia.
Qed.
Lemma nth_times l r j : j < length l -> length r = length l -> nth j (map (fun p => fst p * snd p) (combine l r)) 0 = nth j l 0 * nth j r 0.
Proof. revert r j. induction l as [|d l IH]; intros [|x r] [|j] H L; simpl in *; try lia; auto. apply IH; lia. Qed.

Lemma Forall2_left {A B} (R : A -> B -> Prop) (Q : B -> Prop) l l' : Forall2 R l l' -> (forall a b, R a b -> Q b) -> Forall Q l'.
Proof. induction 1; constructor; eauto. Qed.

Lemma expand_tile_copies {T} (axis reps : list Z) (a : nda T) ps :
  Forall2 (is_axis (length (dims a) + length axis)) axis ps -> NoDup ps -> length reps = length axis -> Forall (fun r => (0 <= r)%Z) reps ->
  exists w, expand_tile axis reps a = Ok w /\ length (dims w) = length (dims a) + length axis /\ others ps (dims w) = dims a /\
    (forall j, j < length axis -> Z.of_nat (nth (nth j ps 0) (dims w) 0) = nth j reps 0%Z) /\
    forall idx, valid (dims w) idx -> valid (dims a) (others ps idx) /\ at_ w idx = at_ a (others ps idx).
Proof.
  intros A N L R. unfold expand_tile, expand_dims. set (n := length (dims a) + length axis) in *. rewrite (canon_all _ _ _ A). cbn [bind].
  assert (B : Forall (fun p => p < n) ps) by (apply (Forall2_left _ _ _ _ A); intros x y []; auto).
  assert (Lp : length axis = length ps) by (apply (Forall2_len _ _ _ A)).
  assert (Cn : length (filter (fun j => negb (memb j ps)) (seq 0 n)) = length (dims a)) by (rewrite count_others; auto; unfold n; lia).
  destruct (insert_ones_spec ps n 0 (dims a) Cn) as (I1 & I2 & I3). assert (D := proj2 (distinct_nodup ps) N). rewrite D. cbn [bind dims].
  set (ins := insert_ones ps 0 n (dims a)) in *. rewrite I1. unfold make_reps. rewrite map_length, L, Nat.eqb_refl. cbn [negb].
  destruct (make_reps_fold n axis ps A N (map Z.to_nat reps) (repeat 1 n) ltac:(rewrite map_length; auto) (repeat_length 1 n)) as (out & E & O1 & O2 & O3). rewrite E. cbn [bind].
  replace (existsb (fun r => (r <? 0)%Z) reps) with false.
  2: { symmetry. apply not_true_iff_false. intros X. apply existsb_exists in X. destruct X as (r & Ir & Hr). rewrite Forall_forall in R. specialize (R r Ir). apply Z.ltb_lt in Hr. lia. }
  assert (O4 : forall j, j < length ins -> ~ In (0 + j) ps -> nth j out 0 = 1). { intros j Hj I. rewrite O3 by auto. rewrite I1 in Hj. clear - Hj. revert j Hj. induction n; intros [|j] Hj; simpl; auto; try lia. apply IHn. lia. }
  assert (Lo : length out = length ins) by congruence. unfold tile. cbn [dims at_]. eexists. split; [reflexivity|]. cbn [dims at_]. repeat split.
  - rewrite map_length, combine_length. lia.
  - rewrite others_drop, drop_times; auto.
  - intros j Hj. assert (Pj : nth j ps 0 < n). { rewrite Forall_forall in B. apply B. apply nth_In. lia. }
    rewrite nth_times by (auto; lia). rewrite I3; [|auto|simpl; apply nth_In; lia]. rewrite O2 by auto. rewrite Nat.mul_1_l.
    rewrite (nth_map_in Z.to_nat 0 0%Z) by lia. rewrite Z2Nat.id; auto. rewrite Forall_forall in R. apply R. apply nth_In. lia.
  - rewrite others_drop. rewrite <- I2. rewrite <- (drop_times ps ins out 0); auto. apply drop_valid. auto.
  - rewrite others_drop. f_equal. apply (drop_mod ps ins idx out 0); auto.
Qed.
Lemma expand_tile_errors {T} (axis reps : list Z) (a : nda T) :
  let axes := Forall2 (is_axis (length (dims a) + length axis)) axis in
  ((forall ps, axes ps -> ~ NoDup ps) -> expand_tile axis reps a = Raise ValueError) /\
  (forall ps, axes ps -> NoDup ps -> length reps <> length axis -> expand_tile axis reps a = Raise RuntimeError) /\
  (forall w, expand_tile axis reps a = Ok w -> Forall (fun r => (0 <= r)%Z) reps).
Proof.
  intros axes. unfold axes. clear axes. repeat split.
  - intros H. unfold expand_tile, expand_dims. destruct (rmap (canon _) axis) as [ps|e] eqn:E; cbn [bind].
    + destruct (distinct ps) eqn:D; [|reflexivity]. exfalso. apply (H ps (canon_all_inv _ _ _ E)). apply distinct_nodup. auto.
    + rewrite (rmap_raise _ _ _ E). reflexivity.
  - intros ps A N L. unfold expand_tile, expand_dims. rewrite (canon_all _ _ _ A). cbn [bind]. rewrite (proj2 (distinct_nodup ps) N). cbn [bind]. unfold make_reps. rewrite map_length.
    destruct (Nat.eqb_spec (length axis) (length reps)); [congruence|]. reflexivity.
  - intros w E. unfold expand_tile in E. apply bind_ok in E. destruct E as (b & _ & E). apply bind_ok in E. destruct E as (r & _ & E).
    destruct (existsb _ reps) eqn:X; [discriminate|]. apply Forall_forall. intros z Hz. apply not_true_iff_false in X. destruct (Z.leb_spec 0 z); auto. exfalso. apply X. apply existsb_exists. exists z. split; auto. apply Z.ltb_lt. lia.
Qed.

(** ** One axis *)
Lemma without_drop p : forall l i, drop_axes [i + p] i l = without p l.
Proof.
  unfold without. induction p as [|p IH]; intros [|x l] i; cbn [drop_axes firstn skipn app]; auto.
  - rewrite Nat.add_0_r. cbn [memb existsb]. rewrite Nat.eqb_refl. cbn [orb].
    assert (G : forall m k, i < k -> drop_axes [i] k m = m). { induction m as [|y m IHl]; intros k Hk; cbn [drop_axes]; auto. cbn [memb existsb]. destruct (Nat.eqb_spec k i); [lia|]. cbn [orb]. rewrite IHl; auto. }
    apply G. lia.
  - cbn [memb existsb]. destruct (Nat.eqb_spec i (i + S p)); [lia|]. cbn [orb]. f_equal. replace (i + S p) with (S i + p) by lia. apply IH.
Qed.
Lemma others_one p l : others [p] l = without p l.
Proof. rewrite others_drop. apply (without_drop p l 0). Qed.
Lemma put_without p l : p < length l -> put p (nth p l 0) (without p l) = l.
Proof. unfold put, without. revert p. induction l as [|x l IH]; intros [|p] H; simpl in *; try lia; auto. f_equal. apply IH. lia. Qed.
Lemma without_put p x l : p <= length l -> without p (put p x l) = l.
Proof. unfold put, without. revert p. induction l as [|y l IH]; intros [|p] H; simpl in *; try lia; auto. f_equal. apply IH. lia. Qed.
Lemma nth_put p x l : p <= length l -> nth p (put p x l) 0 = x.
Proof. unfold put. revert p. induction l as [|y l IH]; intros [|p] H; simpl in *; try lia; auto. apply IH. lia. Qed.
Lemma valid_put p x n ds idx : p <= length ds -> x < n -> valid ds idx -> valid (put p n ds) (put p x idx).
Proof. unfold put. intros H X V. revert p H. induction V as [|i d idx ds I V IH]; intros [|p] H; simpl in *; try lia; repeat constructor; auto. apply IH. lia. Qed.
Lemma valid_without p ds idx : valid ds idx -> valid (without p ds) (without p idx).
Proof. intros V. unfold without. revert p. induction V as [|i d idx ds I V IH]; intros [|p]; simpl; try constructor; auto. apply IH. Qed.

Lemma expand_tile_one {T} z r p (a : nda T) : is_axis (S (length (dims a))) z p ->
  exists w, expand_tile [z] [Z.of_nat r] a = Ok w /\ dims w = put p r (dims a) /\
    forall i idx, i < r -> valid (dims a) idx -> at_ w (put p i idx) = at_ a idx.
Proof.
  intros A. destruct (expand_tile_copies [z] [Z.of_nat r] a [p]) as (w & E & L & O & R & C).
  - constructor; [|constructor]. cbn [length]. rewrite Nat.add_1_r. auto.
  - constructor; [simpl; auto|constructor].
  - reflexivity.
  - constructor; [lia|constructor].
  - exists w. split; auto. specialize (R 0 ltac:(simpl; lia)). cbn [nth] in R. apply Nat2Z.inj in R. rewrite others_one in O. destruct A as (A & _). cbn [length] in L.
    assert (D : dims w = put p r (dims a)). { rewrite <- O, <- R. symmetry. apply put_without. lia. }
    split; auto. intros i idx Hi V. assert (Lv := valid_length _ _ V). destruct (C (put p i idx)) as (_ & E'). { rewrite D. apply valid_put; auto. lia. }
    rewrite E', others_one, without_put; auto. lia.
Qed.

(** ** Squeeze, stack and reshape *)
Lemma squeeze_removes {T} z (a : nda T) :
  (forall p, is_axis (length (dims a)) z p ->
    (nth p (dims a) 0 = 1 -> exists w, squeeze z a = Ok w /\ dims w = without p (dims a) /\
       forall idx, valid (dims w) idx -> at_ w idx = at_ a (put p 0 idx)) /\
    (nth p (dims a) 0 <> 1 -> squeeze z a = Raise ValueError)) /\
  ((forall p, ~ is_axis (length (dims a)) z p) -> squeeze z a = Raise ValueError).
Proof.
  unfold squeeze. split.
  - intros p A. rewrite (canon_ok _ _ _ A). cbn [bind]. destruct (Nat.eqb_spec (nth p (dims a) 0) 1) as [E|E]; split; intros H; try contradiction; auto.
    eexists. split; [reflexivity|]. split; reflexivity.
  - intros H. rewrite (canon_err _ _ H). reflexivity.
Qed.
Lemma squeeze_expand {T} z p (a : nda T) : is_axis (S (length (dims a))) z p ->
  exists b w, expand_dims [z] a = Ok b /\ squeeze z b = Ok w /\ same w a.
Proof.
  intros A. assert (A' := A). destruct A' as (B & _). unfold expand_dims. cbn [length]. rewrite Nat.add_1_r. rewrite (canon_all _ [z] [p]) by (constructor; [auto|constructor]). cbn [bind distinct memb existsb negb andb].
  assert (N : NoDup [p]) by (constructor; [simpl; auto|constructor]).
  assert (Cn : length (filter (fun j => negb (memb j [p])) (seq 0 (S (length (dims a))))) = length (dims a)) by (rewrite count_others; auto; simpl; lia).
  destruct (insert_ones_spec [p] (S (length (dims a))) 0 (dims a) Cn) as (I1 & I2 & I3). set (ins := insert_ones [p] 0 (S (length (dims a))) (dims a)) in *.
  eexists. set (b := {| dims := ins; at_ := _ |}). assert (Lb : length (dims b) = S (length (dims a))) by exact I1.
  assert (W : without p ins = dims a) by (rewrite <- others_one, others_drop; auto).
  destruct (squeeze_removes z b) as (Q & _). destruct (Q p ltac:(rewrite Lb; auto)) as (Q1 & _). destruct Q1 as (w & E & D & C). { apply I3; simpl; auto. }
  exists w. split; [reflexivity|]. split; [exact E|]. split; [rewrite D; exact W|]. intros idx V. rewrite C by auto. change (at_ a (drop_axes [p] 0 (put p 0 idx)) = at_ a idx).
  rewrite <- others_drop, others_one, without_put; auto. rewrite (valid_length _ _ V), D. change (dims b) with ins. rewrite W. lia.
Qed.

Lemma stack_parts {T} z (l : list (nda T)) ds p d : l <> [] -> Forall (fun b => dims b = ds) l -> is_axis (S (length ds)) z p ->
  exists w, stack_arrays z l = Ok w /\ dims w = put p (length l) ds /\
    forall i idx, i < length l -> valid ds idx -> at_ w (put p i idx) = at_ (nth i l d) idx.
Proof.
  intros NE F A. destruct l as [|a l]; [contradiction|]. assert (Da : dims a = ds) by (inversion F; auto). assert (A' := A). destruct A' as (B & _). cbn [stack_arrays].
  replace (forallb _ (a :: l)) with true. 2: { symmetry. apply forallb_forall. intros b Hb. rewrite Forall_forall in F. rewrite (F b Hb), Da. destruct (list_eq_dec Nat.eq_dec ds ds); congruence. }
  rewrite Da, (canon_ok _ _ _ A). cbn [bind]. eexists. split; [reflexivity|]. cbn [dims at_]. split; [reflexivity|]. intros i idx Hi V. assert (Lv := valid_length _ _ V).
  rewrite nth_put by lia. change (firstn p (put p i idx) ++ skipn (S p) (put p i idx)) with (without p (put p i idx)). rewrite without_put by lia. f_equal. apply nth_indep. auto.
Qed.
Lemma stack_errors {T} z (l : list (nda T)) :
  (l = [] \/ (exists a b, In a l /\ In b l /\ dims a <> dims b) \/ (exists a, In a l /\ forall p, ~ is_axis (S (length (dims a))) z p)) ->
  stack_arrays z l = Raise ValueError.
Proof.
  intros H. destruct l as [|c l]; [reflexivity|]. cbn [stack_arrays]. destruct (forallb _ (c :: l)) eqn:Fb; [|reflexivity].
  assert (F : forall b, In b (c :: l) -> dims b = dims c). { intros b Hb. assert (G := proj1 (forallb_forall _ _) Fb b Hb). cbv beta in G. destruct (list_eq_dec Nat.eq_dec (dims b) (dims c)); congruence. }
  destruct H as [H|[(a & b & Ha & Hb & N)|(a & Ha & H)]]; [discriminate| |].
  - exfalso. apply N. rewrite (F a Ha), (F b Hb). auto.
  - rewrite (F a Ha) in H. rewrite (canon_err _ _ H). reflexivity.
Qed.

Lemma filter_none {T} (P : T -> bool) l : filter P l = [] -> forall x, In x l -> P x = false.
Proof. intros H x Hx. destruct (P x) eqn:E; auto. assert (I : In x (filter P l)) by (apply filter_In; auto). rewrite H in I. contradiction. Qed.
Lemma resolve_ok size shape ds : resolve_shape size shape = Ok ds -> Forall2 (fun z d => z = Z.of_nat d \/ z = (-1)%Z) shape ds.
Proof.
  unfold resolve_shape. destruct (existsb _ shape) eqn:X; [discriminate|].
  assert (P : forall z, In z shape -> (-1 <= z)%Z). { intros z Hz. destruct (Z.leb_spec (-1) z); auto. exfalso. apply not_true_iff_false in X. apply X. apply existsb_exists. exists z. split; auto. apply Z.ltb_lt. lia. }
  assert (G : forall f l, (forall z, In z l -> (-1 <= z)%Z) -> (forall z, In z l -> z <> (-1)%Z -> f z = Z.to_nat z) -> Forall2 (fun z d => z = Z.of_nat d \/ z = (-1)%Z) l (map f l)).
  { intros f l. induction l as [|z l IH]; intros Q R; cbn [map]; constructor; [|apply IH; intros; [apply Q|apply R]; simpl; auto].
    destruct (Z.eq_dec z (-1)); [auto|]. left. rewrite R by (simpl; auto). specialize (Q z (or_introl eq_refl)). lia. }
  destruct (filter (fun z => (z =? -1)%Z) shape) as [|m [|m' ms]] eqn:Fm; [| |discriminate].
  - intros E. injection E as <-. apply G; auto.
  - destruct (_ || _); [discriminate|]. intros E. injection E as <-. apply G; auto. intros z Hz Nz. destruct (Z.eqb_spec z (-1)); congruence.
Qed.
Lemma reshape_order {T} shape (a w : nda T) : reshape_z shape a = Ok w ->
  flatten w = flatten a /\ prod (dims w) = prod (dims a) /\ Forall2 (fun z d => z = Z.of_nat d \/ z = (-1)%Z) shape (dims w).
Proof.
  unfold reshape_z. intros E. apply bind_ok in E. destruct E as (ds & E1 & E2). destruct (flatten_reshape _ _ _ E2) as (F & D). split; auto. split.
  - unfold reshape in E2. destruct (Nat.eqb_spec (prod ds) (prod (dims a))); [|discriminate]. congruence.
  - rewrite D. apply (resolve_ok _ _ _ E1).
Qed.
Lemma nat_shape ds : filter (fun z => (z =? -1)%Z) (map Z.of_nat ds) = [] /\ existsb (fun z => (z <? -1)%Z) (map Z.of_nat ds) = false /\ map Z.to_nat (map Z.of_nat ds) = ds /\
  filter (fun z => negb (z =? -1)%Z) (map Z.of_nat ds) = map Z.of_nat ds.
Proof.
  induction ds as [|d ds (A & B & C & D)]; cbn [map filter existsb]; auto. destruct (Z.eqb_spec (Z.of_nat d) (-1)); [lia|]. destruct (Z.ltb_spec (Z.of_nat d) (-1)); [lia|]. rewrite Nat2Z.id, C. cbn [negb orb]. rewrite D. auto.
Qed.
Lemma reshape_known {T} ds (a : nda T) :
  (prod ds = prod (dims a) -> exists w, reshape_z (map Z.of_nat ds) a = Ok w /\ dims w = ds) /\
  (prod ds <> prod (dims a) -> exists e, reshape_z (map Z.of_nat ds) a = Raise e).
Proof.
  destruct (nat_shape ds) as (A & B & C & _). unfold reshape_z, resolve_shape. rewrite A, B, C. cbn [bind]. unfold reshape. destruct (Nat.eqb_spec (prod ds) (prod (dims a))); split; intros; try contradiction; eexists; try split; reflexivity.
Qed.
Lemma reshape_inferred {T} ds ds' k (a : nda T) : prod (ds ++ k :: ds') = prod (dims a) -> prod (ds ++ ds') <> 0 ->
  exists w, reshape_z (map Z.of_nat ds ++ (-1)%Z :: map Z.of_nat ds') a = Ok w /\ dims w = ds ++ k :: ds'.
Proof.
  intros P N. destruct (nat_shape ds) as (A & B & C & D). destruct (nat_shape ds') as (A' & B' & C' & D'). unfold reshape_z, resolve_shape.
  rewrite existsb_app, B. cbn [existsb orb]. rewrite B'. rewrite !filter_app, A. cbn [filter app]. change (-1 =? -1)%Z with true. cbn [negb]. change (-1 <? -1)%Z with false. cbn [orb]. cbv iota. rewrite A', D, D'. rewrite map_app, C, C'.
  assert (Q : prod (dims a) = k * prod (ds ++ ds')). { rewrite <- P, !prod_app. cbn [prod fold_right]. fold (prod ds'). nia. }
  rewrite Q, Nat.mod_mul, Nat.div_mul by auto. destruct (Nat.eqb_spec (prod (ds ++ ds')) 0); [contradiction|]. cbn [orb negb Nat.eqb bind].
  assert (G : forall l, map (fun z => if (z =? -1)%Z then k else Z.to_nat z) (map Z.of_nat l) = l). { induction l as [|d l IH]; cbn [map]; auto. destruct (Z.eqb_spec (Z.of_nat d) (-1)); [lia|]. rewrite Nat2Z.id, IH. auto. }
  rewrite map_app. cbn [map]. change (-1 =? -1)%Z with true. cbv iota. rewrite !G. unfold reshape. rewrite P, Nat.eqb_refl. eexists. split; reflexivity.
Qed.

(** ** Interpolation *)
Lemma interp_resized o n f i : 1 <= o -> i < n -> resized o n f i (interp o n f i).
Proof.
  intros Ho Hi. unfold interp, resized. destruct (Nat.leb_spec n 1) as [H|H]; [left; split; [lia|auto]|]. right. split; [lia|].
  set (u := i * (o - 1)). set (v := n - 1). assert (Hv : v <> 0) by (unfold v; lia). assert (D := Nat.div_mod u v Hv). assert (M := Nat.mod_upper_bound u v Hv).
  set (q := u / v) in *. set (r := u mod v) in *. assert (U : u <= v * (o - 1)) by (unfold u, v; nia). assert (V : (0 < INR v)%R) by (apply lt_0_INR; lia).
  assert (E : (INR q + INR r / INR v = INR i * INR (o - 1) / INR v)%R). { rewrite <- mult_INR. fold u. rewrite D, plus_INR, mult_INR. field. lra. }
  exists q, (INR r / INR v)%R. split; [|split; [exact E|]].
  - split; [apply Rmult_le_pos; [apply pos_INR|left; apply Rinv_0_lt_compat; auto]|]. apply (Rmult_lt_reg_r (INR v)); auto. unfold Rdiv. rewrite Rmult_assoc, Rinv_l, Rmult_1_r, Rmult_1_l by lra. apply lt_INR. auto.
  - destruct (Nat.eqb_spec r 0) as [Z|Z].
    + left. split; [rewrite Z; unfold Rdiv; simpl; lra|]. split; auto. assert (q <= o - 1) by nia. lia.
    + right. split; auto. assert (q < o - 1) by nia. lia.
Qed.
Lemma interp_same o f i : i < o -> interp o o f i = f i.
Proof.
  intros H. unfold interp. destruct (Nat.leb_spec o 1); [f_equal; lia|]. assert (o - 1 <> 0) by lia. rewrite Nat.mod_mul, Nat.div_mul by auto. reflexivity.
Qed.
Lemma resized_range o n f i y lo hi : resized o n f i y -> 1 <= o -> (forall j, j < o -> (lo <= f j <= hi)%R) -> (lo <= y <= hi)%R.
Proof.
  intros [(_ & ->)|(_ & q & w & W & _ & [(_ & Q & ->)|(Q & ->)])] Ho F; [apply F; lia|apply F; auto|].
  assert (A := F q ltac:(lia)). assert (B := F (S q) Q). nra.
Qed.
Lemma resized_unique o n f i y y' : resized o n f i y -> resized o n f i y' -> y = y'.
Proof.
  intros [(N & ->)|(N & q & w & W & C & Y)] [(N' & ->)|(N' & q' & w' & W' & C' & Y')]; try lia; auto.
  assert (E : (INR q + w = INR q' + w')%R) by congruence. assert (Q : q = q').
  { destruct (Nat.lt_total q q') as [L|[L|L]]; auto; exfalso; apply le_INR in L; rewrite S_INR in L; lra. }
  subst q'. assert (w = w') by lra. subst w'. destruct Y as [(Z & _ & ->)|(_ & ->)]; destruct Y' as [(Z' & _ & ->)|(_ & ->)]; auto; try rewrite Z; try rewrite Z'; lra.
Qed.
Lemma resized_ends o n f y : 1 <= o -> (resized o n f 0 y -> y = f 0) /\ (2 <= n -> resized o n f (n - 1) y -> y = f (o - 1)).
Proof.
  intros Ho. split.
  - intros H. apply (resized_unique o n f 0); auto. destruct H as [(N & _)|(N & _)]; [left; auto|]. right. split; auto. exists 0, 0%R. split; [lra|]. split; [simpl; unfold Rdiv; lra|]. left. repeat split; auto.
  - intros N H. apply (resized_unique o n f (n - 1)); auto. right. split; auto. exists (o - 1), 0%R. split; [lra|]. split; [field; apply not_0_INR; lia|]. left. repeat split; auto. lia.
Qed.
Lemma resized_same o f i y : i < o -> resized o o f i y -> y = f i.
Proof. intros H R. rewrite <- (interp_same o f i H). apply (resized_unique o o f i); auto. apply interp_resized; lia. Qed.

Lemma grid_unique o n f r c y y' : resized_grid o n f r c y -> resized_grid o n f r c y' -> 1 <= o -> y = y'.
Proof.
  intros (row & A & B) (row' & A' & B') Ho. apply (resized_unique o n row c); auto.
  assert (E : forall j, j < o -> row j = row' j) by (intros j Hj; apply (resized_unique o n (fun i => f i j) r); auto).
  destruct B' as [(N & ->)|(N & q & w & W & C & Y)]; [left; split; auto; symmetry; apply E; lia|]. right. split; auto. exists q, w. split; auto. split; auto.
  destruct Y as [(Z & Q & ->)|(Q & ->)]; [left|right]; repeat split; auto; rewrite !E by lia; auto.
Qed.
Lemma grid_range o n f r c y lo hi : resized_grid o n f r c y -> 1 <= o -> (forall i j, i < o -> j < o -> (lo <= f i j <= hi)%R) -> (lo <= y <= hi)%R.
Proof. intros (row & A & B) Ho F. apply (resized_range o n row c); auto. intros j Hj. apply (resized_range o n (fun i => f i j) r); auto. Qed.
Lemma grid_same o f r c y : r < o -> c < o -> resized_grid o o f r c y -> y = f r c.
Proof. intros Hr Hc (row & A & B). rewrite (resized_same o row c y Hc B). apply (resized_same o (fun i => f i c) r); auto. Qed.
Lemma grid_corners o n f r c y : 1 <= o -> 2 <= n -> (r = 0 \/ r = n - 1) -> (c = 0 \/ c = n - 1) -> resized_grid o n f r c y ->
  y = f (if r =? 0 then 0 else o - 1) (if c =? 0 then 0 else o - 1).
Proof.
  intros Ho N Hr Hc (row & A & B). assert (Y : y = row (if c =? 0 then 0 else o - 1)). { destruct Hc as [-> | ->]; [apply (resized_ends o n row y Ho); auto|]. destruct (Nat.eqb_spec (n - 1) 0); [lia|]. apply (resized_ends o n row y Ho); auto. }
  rewrite Y. set (j := if c =? 0 then 0 else o - 1). assert (Hj : j < o) by (unfold j; destruct (c =? 0); lia). clearbody j. specialize (A j Hj).
  destruct Hr as [-> | ->]; [apply (resized_ends o n (fun i => f i j) _ Ho); auto|]. destruct (Nat.eqb_spec (n - 1) 0); [lia|]. apply (resized_ends o n (fun i => f i j) _ Ho); auto.
Qed.

(** ** Zoom *)
Lemma valid_set k n j ds idx : valid (set_nth k n ds) idx -> j < nth k ds 0 -> valid ds (set_nth k j idx).
Proof.
  unfold valid. revert k idx. induction ds as [|d ds IH]; intros [|k] idx V Hj; simpl in *; try lia; inversion V as [|x ? idx' ? V1 V2]; subst; simpl; constructor; auto.
Qed.
Lemma valid_set_nth k n ds idx : valid (set_nth k n ds) idx -> k < length ds -> nth k idx 0 < n.
Proof. intros V H. assert (Q := valid_nth _ _ V k). rewrite set_nth_length in Q. rewrite set_nth_at in Q by auto. auto. Qed.
Lemma set_nth_same k l : set_nth k (nth k l 0) l = l.
Proof. revert k. induction l as [|x l IH]; intros [|k]; simpl; auto. f_equal. auto. Qed.

Lemma zoom_fold : forall shape j a, length (dims a) = j + length shape -> (forall k, j <= k -> k < length (dims a) -> 1 <= nth k (dims a) 0) ->
  let w := fold_left zoom_axis (combine (seq j (length shape)) shape) a in
  dims w = firstn j (dims a) ++ shape /\
  (forall lo hi, (forall idx, valid (dims a) idx -> (lo <= at_ a idx <= hi)%R) -> forall idx, valid (dims w) idx -> (lo <= at_ w idx <= hi)%R) /\
  (shape = skipn j (dims a) -> forall idx, valid (dims w) idx -> at_ w idx = at_ a idx).
Proof.
  induction shape as [|n shape IH]; intros j a L P; cbn [length seq combine fold_left].
  - simpl. simpl in L. rewrite Nat.add_0_r in L. rewrite app_nil_r, <- L, firstn_all. repeat split; auto; apply (H idx); auto.
  - cbn [length] in L. set (b := zoom_axis a (j, n)). assert (Db : dims b = set_nth j n (dims a)) by reflexivity.
    assert (Lb : length (dims b) = S j + length shape) by (rewrite Db, set_nth_length; lia).
    destruct (IH (S j) b Lb) as (D & R & Sm). { intros k Hk Hl. rewrite Db, set_nth_other by lia. apply P; [lia|]. rewrite Db, set_nth_length in Hl. auto. }
    assert (Pj : 1 <= nth j (dims a) 0) by (apply P; lia). assert (F : firstn (S j) (dims b) = firstn j (dims a) ++ [n]).
    { rewrite Db. assert (Hj : j < length (dims a)) by lia. clear - Hj. revert j Hj. induction (dims a) as [|d ds IHd]; intros [|j] Hj; simpl in *; try lia; auto. f_equal. apply (IHd j). lia. }
    assert (Sk : skipn (S j) (dims b) = skipn (S j) (dims a)).
    { rewrite Db. clear. revert j. induction (dims a) as [|d ds IHd]; intros [|j]; simpl; auto. apply (IHd j). }
    split; [rewrite D, F, <- app_assoc; reflexivity|]. split.
    + intros lo hi H. apply R. intros idx V. rewrite Db in V. unfold b, zoom_axis. cbn [at_].
      apply (resized_range (nth j (dims a) 0) n (fun i => at_ a (set_nth j i idx)) (nth j idx 0)); auto.
      * apply interp_resized; auto. apply (valid_set_nth j n (dims a)); auto. lia.
      * intros i Hi. apply H. apply (valid_set j n); auto.
    + intros E. assert (Sj : skipn j (dims a) = nth j (dims a) 0 :: skipn (S j) (dims a)).
      { assert (Hj : j < length (dims a)) by lia. clear - Hj. revert j Hj. induction (dims a) as [|d ds IHd]; intros [|j] Hj; simpl in *; try lia; auto. apply (IHd j). lia. }
      rewrite Sj in E. injection E as En Es. intros idx V. rewrite Sm; [|rewrite Sk; exact Es|exact V]. unfold b, zoom_axis. cbn [at_].
      assert (Vi : nth j idx 0 < n).
      { rewrite D, F, <- app_assoc in V. assert (Q := valid_nth _ _ V j). rewrite app_length, firstn_length_le, app_nth2 in Q by (rewrite ?firstn_length_le; lia). rewrite firstn_length_le, Nat.sub_diag in Q by lia. cbn [app nth length] in Q. apply Q. lia. }
      rewrite <- En, interp_same by auto. rewrite set_nth_same. reflexivity.
Qed.
Lemma zoom_values shape a : (In 0 (dims a) -> zoom shape a = Raise ZeroDivisionError) /\
  (~ In 0 (dims a) -> length shape <> length (dims a) -> exists e, zoom shape a = Raise e) /\
  (~ In 0 (dims a) -> length shape = length (dims a) ->
    exists w, zoom shape a = Ok w /\ dims w = shape /\
      (forall lo hi, (forall idx, valid (dims a) idx -> (lo <= at_ a idx <= hi)%R) -> forall idx, valid (dims w) idx -> (lo <= at_ w idx <= hi)%R) /\
      (shape = dims a -> same w a)).
Proof.
  unfold zoom. split; [|split].
  - intros H. replace (existsb _ _) with true; auto. symmetry. apply existsb_exists. exists 0. auto.
  - intros H L. replace (existsb _ _) with false; [|symmetry; apply not_true_iff_false; intros X; apply existsb_exists in X; destruct X as (x & I & E); apply Nat.eqb_eq in E; subst; auto].
    destruct (Nat.eqb_spec (length shape) (length (dims a))); [contradiction|]. eexists. reflexivity.
  - intros H L. replace (existsb _ _) with false; [|symmetry; apply not_true_iff_false; intros X; apply existsb_exists in X; destruct X as (x & I & E); apply Nat.eqb_eq in E; subst; auto].
    rewrite L, Nat.eqb_refl. cbn [negb]. rewrite <- L.
    destruct (zoom_fold shape 0 a ltac:(simpl; auto)) as (D & R & Sm).
    { intros k _ Hk. destruct (Nat.eq_dec (nth k (dims a) 0) 0) as [Z|Z]; [|lia]. exfalso. apply H. rewrite <- Z. apply nth_In. auto. }
    eexists. split; [reflexivity|]. simpl firstn in D. simpl app in D. split; [exact D|]. split; [exact R|]. intros E. split; [rewrite D; auto|]. intros idx V. apply Sm; auto.
Qed.

(** ** Position embeddings *)
Lemma tokens_ok tok g n : tokens_of tok g n <-> tok_and_grid n = Ok (tok, g).
Proof.
  unfold tokens_of, tok_and_grid. assert (Q := Nat.sqrt_spec n (Nat.le_0_l n)). cbv zeta in Q. destruct Q as (Q1 & Q2). set (s := Nat.sqrt n) in *. clearbody s. split.
  - intros (E & G). assert (g = s). { destruct tok; [specialize (G eq_refl)|]; nia. } subst g.
    destruct tok; cbn [negb].
    + replace (n =? s * s) with false by (symmetry; apply Nat.eqb_neq; lia). replace (n =? s * s + 1) with true by (symmetry; apply Nat.eqb_eq; lia). cbn [orb negb]. replace (s * s =? n) with false by (symmetry; apply Nat.eqb_neq; lia). reflexivity.
    + replace (n =? s * s) with true by (symmetry; apply Nat.eqb_eq; lia). cbn [orb negb]. replace (s * s =? n) with true by (symmetry; apply Nat.eqb_eq; lia). reflexivity.
  - destruct (Nat.eqb_spec n (s * s)); destruct (Nat.eqb_spec n (s * s + 1)); cbn [orb negb]; try discriminate; intros E; injection E as E1 E2; subst g.
    + lia.
    + destruct (Nat.eqb_spec (s * s) n); cbn [negb] in E1; subst tok; [|lia]. split; [lia|discriminate].
    + destruct (Nat.eqb_spec (s * s) n); cbn [negb] in E1; subst tok; [lia|]. split; [lia|]. intros _. nia.
Qed.
Lemma tokens_bad n : (forall tok g, ~ tokens_of tok g n) -> tok_and_grid n = Raise ValueError.
Proof.
  intros H. destruct (tok_and_grid n) as [[tok g]|e] eqn:E; [exfalso; apply (H tok g), tokens_ok; auto|]. unfold tok_and_grid in E. cbv zeta in E. destruct (negb ((n =? _) || _)) in E; [injection E as <-; reflexivity|discriminate].
Qed.

Lemma prod4 g h : prod [1; g; g; h] = g * g * h.
Proof. unfold prod. simpl. nia. Qed.
Lemma prod3 n h : prod [1; n; h] = n * h.
Proof. unfold prod. simpl. nia. Qed.
Lemma ravel_grid g h r c k : ravel [1; g * g; h] [0; r * g + c; k] = ravel [1; g; g; h] [0; r; c; k].
Proof. simpl. nia. Qed.
Lemma to_grid g h (a b : nda R) r c k : dims a = [1; g * g; h] -> reshape [1; g; g; h] a = Ok b -> r < g -> c < g -> k < h ->
  at_ b [0; r; c; k] = at_ a [0; r * g + c; k].
Proof.
  intros D E Hr Hc Hk. unfold reshape in E. destruct (_ =? _); [|discriminate]. apply Ok_inj in E. subst b. cbn [at_]. rewrite D, <- ravel_grid, unravel_ravel; auto. repeat constructor; auto; nia.
Qed.
Lemma from_grid g h (a b : nda R) r c k : dims a = [1; g; g; h] -> reshape [1; g * g; h] a = Ok b -> r < g -> c < g -> k < h ->
  at_ b [0; r * g + c; k] = at_ a [0; r; c; k].
Proof.
  intros D E Hr Hc Hk. unfold reshape in E. destruct (_ =? _); [|discriminate]. apply Ok_inj in E. subst b. cbn [at_]. rewrite D, ravel_grid, unravel_ravel; auto. repeat constructor; auto.
Qed.
Lemma zoom_grid gs gt h (a b : nda R) : dims a = [1; gs; gs; h] -> 1 <= gs -> zoom [1; gt; gt; h] a = Ok b -> forall r c k, r < gt -> c < gt -> k < h ->
  resized_grid gs gt (fun i j => at_ a [0; i; j; k]) r c (at_ b [0; r; c; k]).
Proof.
  intros D Hg E r c k Hr Hc Hk. unfold zoom in E. destruct (existsb _ _); [discriminate|]. destruct (negb _); [discriminate|]. apply Ok_inj in E. subst b.
  cbn [length seq combine fold_left zoom_axis dims at_ set_nth nth]. rewrite D. cbn [set_nth nth]. rewrite interp_same by auto.
  exists (fun j => interp gs gt (fun i => at_ a [0; i; j; k]) r). split; [intros j Hj; apply interp_resized; auto|].
  change (resized gs gt (fun j => interp gs gt (fun i => at_ a [0; i; j; k]) r) c (interp gs gt (fun j => interp gs gt (fun i => interp 1 1 (fun z => at_ a [z; i; j; k]) 0) r) c)).
  assert (I1 : forall i j, interp 1 1 (fun z => at_ a [z; i; j; k]) 0 = at_ a [0; i; j; k]) by reflexivity.
  apply interp_resized; auto.
Qed.
Lemma vit_zoom_values normal target ns nt h ts tt gs gt (source : nda R) :
  dims source = [1; ns; h] -> tokens_of ts gs ns -> tokens_of tt gt nt -> 1 <= gs -> 1 <= h ->
  exists w, vit_zoom normal [1; nt; h] target source = Ok w /\ dims w = [1; nt; h] /\
    (forall r c k, r < gt -> c < gt -> k < h -> resized_grid gs gt (fun i j => grid_at ts gs source i j k) r c (grid_at tt gt w r c k)) /\
    (tt = true -> forall k, k < h -> at_ w [0; 0; k] =
       if ts then at_ source [0; 0; k] else match target with Some t => t [0; 0; k] | None => normal k end).
Proof.
  intros D Ts Tt Hg Hh. unfold vit_zoom. rewrite D. rewrite Nat.eqb_refl. cbn [negb]. rewrite (proj1 (tokens_ok _ _ _) Ts). cbn [bind].
  set (src := if ts then slice1 1 ns source else source). assert (Ds : dims src = [1; gs * gs; h]).
  { unfold src, slice1. destruct Ts as (E & _). destruct ts; cbv iota in E; cbn [dims]; rewrite D; cbn [set_nth]; do 2 f_equal; lia. }
  destruct (reshape [1; gs; gs; h] src) as [sg|] eqn:Es. 2: { unfold reshape in Es. rewrite Ds, prod4, prod3, Nat.eqb_refl in Es. discriminate. }
  assert (Dg : dims sg = [1; gs; gs; h]) by (apply (flatten_reshape _ _ _ Es)). cbn [bind]. rewrite (proj1 (tokens_ok _ _ _) Tt). cbn [bind].
  destruct (zoom_values [1; gt; gt; h] sg) as (_ & _ & Z). destruct Z as (og & Eo & Do & _). { rewrite Dg. intros [X|[X|[X|[X|[]]]]]; lia. } { rewrite Dg. auto. }
  rewrite Eo. cbn [bind]. destruct (reshape [1; gt * gt; h] og) as [o2|] eqn:E2. 2: { unfold reshape in E2. rewrite Do, prod4, prod3, Nat.eqb_refl in E2. discriminate. }
  assert (D2 : dims o2 = [1; gt * gt; h]) by (apply (flatten_reshape _ _ _ E2)). cbn [bind].
  assert (G : forall r c k, r < gt -> c < gt -> k < h -> resized_grid gs gt (fun i j => grid_at ts gs source i j k) r c (at_ o2 [0; r * gt + c; k])).
  { intros r c k Hr Hc Hk. rewrite (from_grid gt h og o2) by auto. destruct (zoom_grid gs gt h sg og Dg Hg Eo r c k Hr Hc Hk) as (row & A & B). exists row. split; auto. intros j Hj. specialize (A j Hj).
    assert (X : forall i, i < gs -> at_ sg [0; i; j; k] = grid_at ts gs source i j k).
    { intros i Hi. rewrite (to_grid gs h src sg) by auto. unfold grid_at, src, slice1. destruct ts; reflexivity. }
    destruct A as [(N & A)|(N & q & w & W & Cq & A)]; [left; split; auto; rewrite A; apply X; lia|]. right. split; auto. exists q, w. split; auto. split; auto.
    destruct A as [(Zw & Q & A)|(Q & A)]; [left; split; auto; split; auto; rewrite A; apply X; auto|right; split; auto; rewrite A, !X by lia; auto]. }
  destruct Tt as (Et & _). destruct tt; cbv iota in Et.
  - eexists. split; [reflexivity|]. split; [|split].
    + unfold concat1. cbn [dims]. rewrite D2. cbn [nth]. destruct ts; [|destruct target]; unfold slice1; cbn [dims set_nth nth]; rewrite ?D; cbn [set_nth nth]; do 2 f_equal; lia.
    + intros r c k Hr Hc Hk. assert (Q := G r c k Hr Hc Hk). unfold grid_at at 2. unfold concat1. cbn [dims at_ nth].
      match goal with |- resized_grid _ _ _ _ _ (if 1 + (r * gt + c) <? ?m then _ else _) => replace m with 1 end.
      2: { destruct ts; [|destruct target]; unfold slice1; cbn [dims set_nth nth]; rewrite ?D; reflexivity. }
      replace (1 + (r * gt + c) <? 1) with false by (symmetry; apply Nat.ltb_ge; lia). cbn [set_nth]. replace (1 + (r * gt + c) - 1) with (r * gt + c) by lia. exact Q.
    + intros _ k Hk. unfold concat1. cbn [dims at_ nth]. destruct ts; [|destruct target]; unfold slice1; cbn [dims set_nth nth at_]; rewrite ?D; cbn [set_nth nth]; reflexivity.
  - exists o2. split; auto. split; [rewrite D2; repeat f_equal; lia|]. split; [|discriminate]. intros r c k Hr Hc Hk. unfold grid_at at 2. cbn [Nat.add]. apply G; auto.
Qed.
Lemma vit_zoom_errors normal tshape target (source : nda R) :
  let fails e := vit_zoom normal tshape target source = Raise e in
  ((forall n h, dims source <> [1; n; h]) \/ (forall n h, tshape <> [1; n; h]) -> fails ValueError) /\
  forall ns hs nt ht, dims source = [1; ns; hs] -> tshape = [1; nt; ht] ->
    (hs <> ht -> fails ValueError) /\
    (hs = ht -> (forall tok g, ~ tokens_of tok g ns) \/ (forall tok g, ~ tokens_of tok g nt) -> fails ValueError) /\
    (hs = ht -> (exists tok g, tokens_of tok g nt) -> ns = 0 \/ (hs = 0 /\ exists tok g, tokens_of tok g ns) -> fails ZeroDivisionError).
Proof.
  intros fails. unfold fails. clear fails. unfold vit_zoom. split.
  - intros [H|H]; destruct (dims source) as [|[|[|]] [|? [|? [|]]]]; try reflexivity; destruct tshape as [|[|[|]] [|? [|? [|]]]]; try reflexivity; exfalso; eapply H; reflexivity.
  - intros ns hs nt ht D ->. rewrite D. split; [|split].
    + intros N. destruct (Nat.eqb_spec hs ht); [contradiction|]. reflexivity.
    + intros -> H. rewrite Nat.eqb_refl. cbn [negb]. destruct (tok_and_grid ns) as [[ts gs]|e] eqn:E.
      * cbn [bind]. assert (Ts := proj2 (tokens_ok _ _ _) E). destruct H as [H|H]; [exfalso; eapply H; eauto|].
        destruct (reshape _ _) as [sg|e] eqn:Er; cbn [bind]; [rewrite (tokens_bad nt H); reflexivity|]. unfold reshape in Er. destruct (_ =? _); congruence.
      * cbn [bind]. unfold tok_and_grid in E. cbv zeta in E. destruct (negb ((ns =? _) || _)) in E; [injection E as <-; reflexivity|discriminate].
    + intros -> (tt & gt & Tt) H. rewrite Nat.eqb_refl. cbn [negb]. assert (Ts : exists ts gs, tokens_of ts gs ns). { destruct H as [-> |(_ & H)]; auto. exists false, 0. split; auto; discriminate. }
      destruct Ts as (ts & gs & Ts). rewrite (proj1 (tokens_ok _ _ _) Ts). cbn [bind].
      set (src := if ts then slice1 1 ns source else source). assert (Ds : dims src = [1; gs * gs; ht]).
      { unfold src, slice1. destruct Ts as (E & _). destruct ts; cbv iota in E; cbn [dims]; rewrite D; cbn [set_nth]; do 2 f_equal; lia. }
      destruct (reshape [1; gs; gs; ht] src) as [sg|] eqn:Es. 2: { unfold reshape in Es. rewrite Ds, prod4, prod3, Nat.eqb_refl in Es. discriminate. }
      assert (Dg : dims sg = [1; gs; gs; ht]) by (apply (flatten_reshape _ _ _ Es)). cbn [bind]. rewrite (proj1 (tokens_ok _ _ _) Tt). cbn [bind].
      destruct (zoom_values [1; gt; gt; ht] sg) as (Z & _). rewrite Z; [reflexivity|]. rewrite Dg. simpl. destruct H as [-> |(-> & _)]; [|auto]. destruct Ts as (E & G). assert (gs = 0) by (destruct ts; [specialize (G eq_refl)|]; nia). auto.
Qed.

(** ** In map_state_dict *)
From Verif Require Import TreeModel TreeSpec MapModel MapSpec MapProofs MapProofs2 MapProofs3.
From Verif Require Import Py.
Section Link.
Variable pat : Type.
Variable search : pat -> str -> bool.
Variable sub : pat -> str -> str -> str.
Variable dtype : Type.
Variable dtype_eqb : dtype -> dtype -> bool.
Variable cast : dtype -> R -> R.
Variable promote : list dtype -> dtype.
Variable normal : nat -> R.
Hypothesis dtype_eqb_spec : forall a b, reflect (a = b) (dtype_eqb a b).
Notation map_typed := (map_state_dict pat search sub (typed dtype) dtype dtype_eqb (typed_shape dtype) (t_dtype dtype) (typed_astype dtype cast)
  (typed_broadcast dtype) (typed_transform dtype normal) (typed_stack dtype dtype_eqb cast promote)).
Lemma single_source fl rules source target out p x key s k : wf no_slash source -> wf (fun _ => True) target ->
  map_typed fl rules source target = Ok out -> leaf_at target p x -> named_array _ source key s -> goes pat search sub rules key k (join p) ->
  ~ stacks k -> (forall t, k <> KRegex t) ->
  exists w y, leaf_at out p y /\ typed_transform dtype normal k s x = Ok w /\
    fitted _ dtype (typed_shape dtype) (t_dtype dtype) (typed_astype dtype cast) (typed_broadcast dtype) fl w x y.
Proof using dtype_eqb_spec.
  intros Ws Wt E Lx Nm0 Go0 NS NR. destruct (map_ok _ _ _ _ _ _ _ _ _ _ _ _ dtype_eqb_spec _ _ _ _ _ Ws Wt E) as [R _].
  destruct (related_leaf _ _ _ _ R Wt p x Lx) as [y [Ly A]]. simpl in A. destruct A as [No _|key1 s1 k1 w y Nm Go Ns Un T F|first t axis l w y ND Ord Iff St Hd Go Es F].
  - exfalso. apply (No key s k); auto.
  - pose proof (Un key s k Nm0 Go0). subst key1.
    destruct (map_parts _ _ _ _ _ _ _ _ _ _ _ _ _ _ _ _ _ E) as [sf [tf [rs [txs [fo [u [E1 [_ [E3 _]]]]]]]]].
    apply parse_forall in E3. apply (goes_dest _ _ _ _ _ _ _ _ E3) in Go, Go0. assert (k1 = k) by congruence. subst k1.
    destruct (flat_spec source sf Ws E1) as (_ & Fs & _). assert (X1 := proj2 (Fs key s1) Nm). assert (X2 := proj2 (Fs key s) Nm0). assert (s1 = s) by congruence. subst s1.
    exists w, y. split; auto. split; auto. destruct T as [(t & -> & _)|(_ & T)]; auto. exfalso. apply (NR t). auto.
  - exfalso. apply NS. apply (St key s k); auto. apply Iff. split; eauto.
Qed.
Lemma upcycled fl rules source target out p x key s t z q E : wf no_slash source -> wf (fun _ => True) target ->
  map_typed fl rules source target = Ok out -> raise_shape fl = true -> leaf_at target p x -> named_array _ source key s ->
  goes pat search sub rules key (KExpandTile t [z] [Z.of_nat E]) (join p) -> is_axis (S (length (dims (t_nd _ s)))) z q ->
  exists y, leaf_at out p y /\ t_dtype _ y = t_dtype _ x /\ dims (t_nd _ y) = dims (t_nd _ x) /\ dims (t_nd _ y) = put q E (dims (t_nd _ s)) /\
    forall e idx, e < E -> valid (dims (t_nd _ s)) idx ->
      (t_dtype _ s = t_dtype _ x -> at_ (t_nd _ y) (put q e idx) = at_ (t_nd _ s) idx) /\
      (t_dtype _ s <> t_dtype _ x -> raise_dtype fl = false /\ at_ (t_nd _ y) (put q e idx) = cast (t_dtype _ x) (at_ (t_nd _ s) idx)).
Proof using dtype_eqb_spec.
  intros Ws Wt E0 Rs Lx Nm Go Ax. destruct (single_source fl rules source target out p x key s _ Ws Wt E0 Lx Nm Go) as (w & y & Ly & T & F).
  { intros (a & b & Q). discriminate. } { intros a Q. discriminate. }
  destruct (expand_tile_one z E q (t_nd _ s) Ax) as (v & Ev & Dv & Cv). unfold typed_transform, lift in T. rewrite Ev in T. cbn [bind] in T. apply Ok_inj in T. subst w.
  exists y. split; auto. destruct F as (w1 & Fd & Fs). destruct Fs as [(Sh & ->)|(_ & X & _)]; [|congruence]. unfold typed_shape in Sh.
  destruct Fd as [(Td & ->)|(Td & Rd & ->)]; cbn [t_dtype t_nd typed_astype dims at_] in *.
  - repeat split; auto; contradiction.
  - repeat split; auto; try contradiction. rewrite Cv; auto.
Qed.
Lemma fitted_same fl w x y : raise_shape fl = true -> t_dtype dtype w = t_dtype dtype x ->
  fitted _ dtype (typed_shape dtype) (t_dtype dtype) (typed_astype dtype cast) (typed_broadcast dtype) fl w x y -> y = w /\ dims (t_nd _ w) = dims (t_nd _ x).
Proof using.
  intros Rs Td (w1 & Fd & Fs). destruct Fd as [(_ & ->)|(X & _)]; [|contradiction]. destruct Fs as [(Sh & ->)|(_ & X & _)]; [|congruence]. auto.
Qed.
(** The result of a rule, for arrays of the type of the parameter *)
Lemma rule_result fl rules source target out p x key s k : wf no_slash source -> wf (fun _ => True) target ->
  map_typed fl rules source target = Ok out -> raise_shape fl = true -> leaf_at target p x -> named_array _ source key s -> t_dtype _ s = t_dtype _ x ->
  goes pat search sub rules key k (join p) -> ~ stacks k -> (forall t, k <> KRegex t) ->
  exists y, leaf_at out p y /\ t_dtype _ y = t_dtype _ x /\ dims (t_nd _ y) = dims (t_nd _ x) /\ typed_transform dtype normal k s x = Ok y.
Proof using dtype_eqb_spec.
  intros Ws Wt E0 Rs Lx Nm Td Go NS NR. destruct (single_source fl rules source target out p x key s k Ws Wt E0 Lx Nm Go NS NR) as (w & y & Ly & T & F).
  assert (Tw : t_dtype _ w = t_dtype _ s) by (unfold typed_transform, lift in T; apply bind_ok in T; destruct T as (v & _ & Ev); injection Ev as <-; reflexivity).
  destruct (fitted_same fl w x y Rs ltac:(congruence) F) as (-> & D). exists w. repeat split; auto. congruence.
Qed.
Lemma rule_reshape fl rules source target out p x key s t shape : wf no_slash source -> wf (fun _ => True) target ->
  map_typed fl rules source target = Ok out -> raise_shape fl = true -> leaf_at target p x -> named_array _ source key s -> t_dtype _ s = t_dtype _ x ->
  goes pat search sub rules key (KReshape t shape) (join p) ->
  exists y, leaf_at out p y /\ dims (t_nd _ y) = dims (t_nd _ x) /\ flatten (t_nd _ y) = flatten (t_nd _ s) /\
    forall l, shape = Some l -> l <> [] -> Forall2 (fun z d => z = Z.of_nat d \/ z = (-1)%Z) l (dims (t_nd _ x)).
Proof using dtype_eqb_spec.
  intros Ws Wt E0 Rs Lx Nm Td Go. destruct (rule_result fl rules source target out p x key s _ Ws Wt E0 Rs Lx Nm Td Go) as (y & Ly & _ & D & T).
  { intros (a & b & Q). discriminate. } { intros a Q. discriminate. }
  exists y. split; auto. split; auto. unfold typed_transform, lift in T. apply bind_ok in T. destruct T as (v & Ev & Ey). apply Ok_inj in Ey. subst y. cbn [t_nd] in *.
  assert (Q : reshape (typed_shape dtype x) (t_nd _ s) = Ok v -> flatten v = flatten (t_nd _ s)) by (intros H; apply (flatten_reshape _ _ _ H)).
  destruct shape as [[|z l]|]; [split; auto; intros l E; injection E as <-; contradiction| |split; auto; discriminate].
  destruct (reshape_order _ _ _ Ev) as (F & _ & S2). split; auto. intros l' E _. injection E as <-. rewrite <- D. auto.
Qed.
Lemma rule_squeeze fl rules source target out p x key s t z : wf no_slash source -> wf (fun _ => True) target ->
  map_typed fl rules source target = Ok out -> raise_shape fl = true -> leaf_at target p x -> named_array _ source key s -> t_dtype _ s = t_dtype _ x ->
  goes pat search sub rules key (KSqueeze t z) (join p) ->
  exists y q, leaf_at out p y /\ is_axis (length (dims (t_nd _ s))) z q /\ nth q (dims (t_nd _ s)) 0 = 1 /\ dims (t_nd _ y) = without q (dims (t_nd _ s)) /\
    forall idx, valid (dims (t_nd _ y)) idx -> at_ (t_nd _ y) idx = at_ (t_nd _ s) (put q 0 idx).
Proof using dtype_eqb_spec.
  intros Ws Wt E0 Rs Lx Nm Td Go. destruct (rule_result fl rules source target out p x key s _ Ws Wt E0 Rs Lx Nm Td Go) as (y & Ly & _ & D & T).
  { intros (a & b & Q). discriminate. } { intros a Q. discriminate. }
  unfold typed_transform, lift in T. apply bind_ok in T. destruct T as (v & Ev & Ey). apply Ok_inj in Ey. subst y. cbn [t_nd] in *.
  destruct (squeeze_removes z (t_nd _ s)) as (Q1 & Q2). destruct (canon_cases (length (dims (t_nd _ s))) z) as [(q & A & _)|(A & _)]; [|rewrite (Q2 A) in Ev; discriminate].
  destruct (Q1 q A) as (P1 & P2). destruct (Nat.eq_dec (nth q (dims (t_nd _ s)) 0) 1) as [O|O]; [|rewrite (P2 O) in Ev; discriminate].
  destruct (P1 O) as (w & Ew & Dw & Cw). assert (w = v) by congruence. subst w. eexists. exists q. split; [exact Ly|]. cbn [t_nd]. auto.
Qed.
Lemma fitted_shape fl w x y : t_dtype dtype w = t_dtype dtype x -> dims (t_nd _ w) = dims (t_nd _ x) ->
  fitted _ dtype (typed_shape dtype) (t_dtype dtype) (typed_astype dtype cast) (typed_broadcast dtype) fl w x y -> y = w.
Proof using.
  intros Td Sh (w1 & Fd & Fs). destruct Fd as [(_ & ->)|(X & _)]; [|contradiction]. destruct Fs as [(_ & ->)|(X & _)]; auto. contradiction.
Qed.
Lemma rule_zoom fl rules source target out p x key s t : wf no_slash source -> wf (fun _ => True) target ->
  map_typed fl rules source target = Ok out -> leaf_at target p x -> named_array _ source key s -> t_dtype _ s = t_dtype _ x ->
  goes pat search sub rules key (KZoom t) (join p) -> length (dims (t_nd _ x)) = length (dims (t_nd _ s)) -> ~ In 0 (dims (t_nd _ s)) ->
  exists y, leaf_at out p y /\ dims (t_nd _ y) = dims (t_nd _ x) /\
    (forall lo hi, (forall idx, valid (dims (t_nd _ s)) idx -> (lo <= at_ (t_nd _ s) idx <= hi)%R) -> forall idx, valid (dims (t_nd _ x)) idx -> (lo <= at_ (t_nd _ y) idx <= hi)%R) /\
    (dims (t_nd _ x) = dims (t_nd _ s) -> same (t_nd _ y) (t_nd _ s)).
Proof using dtype_eqb_spec.
  intros Ws Wt E0 Lx Nm Td Go L Z. destruct (single_source fl rules source target out p x key s (KZoom t) Ws Wt E0 Lx Nm Go) as (w & y & Ly & T & F).
  { intros (a & b & Q). discriminate. } { intros a Q. discriminate. }
  unfold typed_transform, lift, typed_shape in T. apply bind_ok in T. destruct T as (v & Ev & Ey). apply Ok_inj in Ey. subst w.
  destruct (zoom_values (dims (t_nd _ x)) (t_nd _ s)) as (_ & _ & H). destruct (H Z L) as (w & Ew & D & R1 & R2). assert (w = v) by congruence. subst w. rewrite D in R1.
  apply fitted_shape in F; [|exact Td|exact D]. subst y. eexists. split; [exact Ly|]. cbn [t_nd]. split; auto.
Qed.
Lemma rule_vit_zoom fl rules source target out p x key s t ns nt h ts tt gs gt : wf no_slash source -> wf (fun _ => True) target ->
  map_typed fl rules source target = Ok out -> leaf_at target p x -> named_array _ source key s -> t_dtype _ s = t_dtype _ x ->
  goes pat search sub rules key (KVitZoom t) (join p) ->
  dims (t_nd _ s) = [1; ns; h] -> dims (t_nd _ x) = [1; nt; h] -> tokens_of ts gs ns -> tokens_of tt gt nt -> 1 <= gs -> 1 <= h ->
  exists y, leaf_at out p y /\ dims (t_nd _ y) = dims (t_nd _ x) /\
    (forall r c k, r < gt -> c < gt -> k < h -> resized_grid gs gt (fun i j => grid_at ts gs (t_nd _ s) i j k) r c (grid_at tt gt (t_nd _ y) r c k)) /\
    (tt = true -> forall k, k < h -> at_ (t_nd _ y) [0; 0; k] = at_ (t_nd _ (if ts then s else x)) [0; 0; k]).
Proof using dtype_eqb_spec.
  intros Ws Wt E0 Lx Nm Td Go Ds Dx Ts Tt Hg Hh. destruct (single_source fl rules source target out p x key s (KVitZoom t) Ws Wt E0 Lx Nm Go) as (w & y & Ly & T & F).
  { intros (a & b & Q). discriminate. } { intros a Q. discriminate. }
  unfold typed_transform, lift, typed_shape in T. apply bind_ok in T. destruct T as (v & Ev & Ey). apply Ok_inj in Ey. subst w. rewrite Dx in Ev.
  match type of Ev with vit_zoom _ _ ?o _ = _ => destruct (vit_zoom_values normal o ns nt h ts tt gs gt (t_nd _ s) Ds Ts Tt Hg Hh) as (w & Ew & Dw & Gw & Tw) end. assert (w = v) by congruence. subst w.
  apply fitted_shape in F; [|exact Td|cbn [t_nd]; congruence]. subst y.
  eexists. split; [exact Ly|]. cbn [t_nd]. split; [congruence|]. split; auto. intros Q k Hk. rewrite (Tw Q k Hk). destruct ts; reflexivity.
Qed.
Lemma stack_inv {T} z (l : list (nda T)) w : stack_arrays z l = Ok w -> exists a, In a l /\ Forall (fun b => dims b = dims a) l /\ exists q, is_axis (S (length (dims a))) z q.
Proof using.
  clear. intros E. destruct l as [|c l]; [discriminate|]. exists c. split; [left; auto|]. cbn [stack_arrays] in E. destruct (forallb _ (c :: l)) eqn:Fb; [|discriminate]. split.
  - apply Forall_forall. intros b Hb. assert (G := proj1 (forallb_forall _ _) Fb b Hb). cbv beta in G. destruct (list_eq_dec Nat.eq_dec (dims b) (dims c)); congruence.
  - apply bind_ok in E. destruct E as (q & Eq & _). exists q. apply canon_inv. auto.
Qed.
(** jnp.stack of arrays of one type has this type *)
Hypothesis promote_same : forall d l, l <> [] -> Forall (eq d) l -> promote l = d.
Lemma rule_stack fl rules source target out p x key0 s0 t0 z0 : wf no_slash source -> wf (fun _ => True) target ->
  map_typed fl rules source target = Ok out -> raise_shape fl = true -> leaf_at target p x -> named_array _ source key0 s0 ->
  goes pat search sub rules key0 (KStack t0 z0) (join p) ->
  (forall key s k, named_array _ source key s -> goes pat search sub rules key k (join p) -> t_dtype _ s = t_dtype _ x /\ exists t, k = KStack t z0) ->
  exists y l ds q, leaf_at out p y /\ NoDup (map fst l) /\
    (forall key s, In (key, s) l <-> named_array _ source key s /\ exists k, goes pat search sub rules key k (join p)) /\
    is_axis (S (length ds)) z0 q /\ dims (t_nd _ y) = put q (length l) ds /\
    forall i key s, nth_error l i = Some (key, s) -> dims (t_nd _ s) = ds /\ forall idx, valid ds idx -> at_ (t_nd _ y) (put q i idx) = at_ (t_nd _ s) idx.
Proof using dtype_eqb_spec promote_same.
  intros Ws Wt E0 Rs Lx Nm Go Same. destruct (map_ok _ _ _ _ _ _ _ _ _ _ _ _ dtype_eqb_spec _ _ _ _ _ Ws Wt E0) as [R _].
  destruct (related_leaf _ _ _ _ R Wt p x Lx) as [y [Ly A]]. simpl in A. destruct A as [No _|key1 s1 k1 w y Nm1 Go1 Ns Un T F|first t axis l w y ND Ord Iff St Hd Go1 Es F].
  - exfalso. apply (No key0 s0 (KStack t0 z0)); auto.
  - exfalso. apply Ns. destruct (Same key1 s1 k1 Nm1 Go1) as (_ & t1 & ->). exists t1, z0. auto.
  - assert (Ta : forall key s, In (key, s) l -> t_dtype _ s = t_dtype _ x). { intros key s I. apply Iff in I. destruct I as (I1 & k & I2). apply (Same key s k I1 I2). }
    assert (NE : l <> []) by (destruct l; [discriminate|congruence]).
    assert (Ax : axis = z0). { destruct l as [|[k1 s1] l']; [discriminate|]. cbn [map hd_error fst] in Hd. injection Hd as <-. assert (I : In (k1, s1) ((k1, s1) :: l')) by (left; auto). apply Iff in I. destruct I as (I1 & _). destruct (Same _ _ _ I1 Go1) as (_ & t1 & Q). congruence. }
    subst axis. unfold typed_stack, lift in Es. cbv zeta in Es. rewrite (promote_same (t_dtype _ x)) in Es.
    2: { destruct l; [contradiction|discriminate]. }
    2: { apply Forall_forall. intros d I. apply in_map_iff in I. destruct I as (s & <- & I). apply in_map_iff in I. destruct I as ([key s'] & E & I). cbn [snd] in E. subst s'. symmetry. eauto. }
    assert (Eq : map (fun a => t_nd _ (if dtype_eqb (t_dtype _ a) (t_dtype _ x) then a else typed_astype dtype cast a (t_dtype _ x))) (map snd l) = map (fun ks => t_nd _ (snd ks)) l).
    { rewrite map_map. apply map_ext_in. intros [key s] I. cbn [snd]. destruct (dtype_eqb_spec (t_dtype _ s) (t_dtype _ x)) as [|N]; auto. exfalso. apply N. eauto. }
    rewrite Eq in Es. apply bind_ok in Es. destruct Es as (v & Ev & Ew). apply Ok_inj in Ew. subst w.
    destruct (stack_inv _ _ _ Ev) as (a & Ia & Fa & q & Aq). set (L := map (fun ks => t_nd _ (snd ks)) l) in *.
    assert (NL : L <> []) by (unfold L; destruct l; [contradiction|discriminate]). destruct (stack_parts z0 L (dims a) q a NL Fa Aq) as (w & Ew & Dw & Cw). assert (w = v) by congruence. subst w.
    destruct (fitted_same fl {| t_dtype := t_dtype _ x; t_nd := v |} x y Rs eq_refl F) as (-> & _). assert (LL : length L = length l) by (unfold L; apply map_length).
    eexists. exists l, (dims a), q. split; [exact Ly|]. cbn [t_nd]. split; auto. split; auto. split; auto. split; [congruence|]. intros i key s Hi.
    assert (Li : i < length l) by (apply nth_error_Some; congruence). assert (Ni : nth i L a = t_nd _ s).
    { apply nth_error_nth. unfold L. rewrite nth_error_map, Hi. reflexivity. }
    split; [|intros idx V; rewrite Cw by (auto; lia); congruence]. rewrite Forall_forall in Fa. apply Fa. rewrite <- Ni. apply nth_In. lia.
Qed.
End Link.

(** ** Layers whose experts are copies *)
From Verif Require Import MoeModel MoeSpec MoeProofs SoftModel EnsProofs CwModel OtModel OtSpec OtProofs.
From Verif Require Import Py.
Lemma sum_over_R K (f : nat -> nat -> R) d : sum_over (A := Ralg) K f d = sumf K (fun k => f k d).
Proof.
  rewrite (sum_over_vsum Ralg_laws). induction K as [|K IH]; auto. cbn [sumf]. rewrite <- IH. reflexivity.
Qed.
Lemma sumf_scale n f c : sumf n (fun i => (f i * c)%R) = (sumf n f * c)%R.
Proof. induction n as [|n IH]; simpl; [lra|]. rewrite IH. lra. Qed.
Lemma sumf_same n f g : (forall i, i < n -> f i = g i) -> sumf n f = sumf n g.
Proof. induction n as [|n IH]; simpl; intros H; auto. rewrite IH, H by auto. auto. Qed.
Section Copies.
Variable mlp : nda R -> (nat -> R) -> nat -> R.
Hypothesis mlp_same : forall p p' x d, same p p' -> mlp p x d = mlp p' x d.
Lemma parts_same E (a w : nda R) : expand_tile [0%Z] [Z.of_nat E] a = Ok w -> forall e, e < E -> same (part e w) a.
Proof.
  intros Ew e He. destruct (expand_tile_one 0%Z E 0 a) as (v & Ev & Dv & Cv). { split; [lia|left; reflexivity]. }
  rewrite Ev in Ew. apply Ok_inj in Ew. subst v. assert (D : tl (dims w) = dims a) by (rewrite Dv; reflexivity). split; [exact D|].
  intros idx V. change (at_ w (e :: idx) = at_ a idx). apply (Cv e idx He). rewrite <- D. exact V.
Qed.
Lemma copies_layer G S E K C name bp bf (gates : nat -> nat -> nat -> R) (a w : nda R) : 1 <= S -> 1 <= K -> K <= E -> name <> NameOther ->
  expand_tile [0%Z] [Z.of_nat E] a = Ok w ->
  exists disp, experts_dispatcher (A := Ralg) G S E K C name bp bf gates None = Ok disp /\
  forall ch, (forall g s, s < S -> best_choices (A := Ralg) E K (gates g s) (ch g s)) ->
  forall data g s d, g < G -> s < S ->
    layer disp (fun e buf j => mlp (part e w) (buf j)) data g s d =
    (sumf K (fun k => if competitors (A := Ralg) bp S E K (gates g) (ch g) s k <? C then gates g s (ch g s k) else 0%R) * mlp a (data g s) d)%R.
Proof using mlp_same.
  intros HS HK HE N Ew. destruct (kept_experts Ralg_laws G S E K C name bp bf gates HS HK HE N) as (disp & Hd & Hl). exists disp. split; auto. intros ch Hch data g s d Hg Hs.
  rewrite (Hl ch Hch (fun e => mlp (part e w)) _ (fun e buf j => eq_refl) data g s Hg Hs). unfold routed_output. rewrite sum_over_R, <- sumf_scale. apply sumf_same. intros k Hk.
  destruct (competitors (A := Ralg) bp S E K (gates g) (ch g) s k <? C); [|simpl; lra]. cbn [vscale Ralg]. f_equal. apply mlp_same. apply (parts_same E a w Ew). destruct (Hch g s Hs) as (B & _). auto.
Qed.
Lemma copies_dense G S E K C name bp bf (gates : nat -> nat -> nat -> R) (a w : nda R) : 1 <= S -> 1 <= K -> K <= E -> name <> NameOther -> S <= C ->
  (forall g s, s < S -> sparse_simplex E K (gates g s)) -> expand_tile [0%Z] [Z.of_nat E] a = Ok w ->
  exists disp, experts_dispatcher (A := Ralg) G S E K C name bp bf gates None = Ok disp /\
  forall data g s d, g < G -> s < S -> layer disp (fun e buf j => mlp (part e w) (buf j)) data g s d = mlp a (data g s) d.
Proof using mlp_same.
  intros HS HK HE N HC HG Ew. destruct (kept_experts Ralg_laws G S E K C name bp bf gates HS HK HE N) as (disp & Hd & Hl). exists disp. split; auto. intros data g s d Hg Hs.
  destruct (choices_exist Ralg_laws S E K gates HE) as (ch & Hch). rewrite (Hl ch Hch (fun e => mlp (part e w)) _ (fun e buf j => eq_refl) data g s Hg Hs).
  rewrite (experts_mixture S E K C bp (gates g) (ch g)); auto. unfold mixture. rewrite sum_over_R. cbn [vscale Ralg].
  rewrite (sumf_same E _ (fun e => (gates g s e * mlp a (data g s) d)%R)). 2: { intros e He. f_equal. apply mlp_same. apply (parts_same E a w Ew e He). }
  rewrite sumf_scale. destruct (HG g s Hs) as (_ & -> & _). lra.
Qed.
End Copies.
