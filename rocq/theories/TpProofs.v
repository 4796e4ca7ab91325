(** Proofs for C84. *)
From Coq Require Import String List Arith ZArith Bool Lia Permutation.
From Verif Require Import Py TpModel TpSpec.
Import ListNotations.
Local Open Scope list_scope.
Local Open Scope nat_scope.

Section W.
Context {T : Type}.
Lemma replace_length (i : nat) (x : T) l : i < length l -> length (replace_nth i x l) = length l.
Proof. intros H. unfold replace_nth. rewrite app_length. cbn [length]. rewrite firstn_length, skipn_length. lia. Qed.
Lemma replace_perm i (x d : T) l : i < length l -> Permutation (nth i l d :: replace_nth i x l) (x :: l).
Proof.
  intros H. unfold replace_nth. rewrite <- (firstn_skipn i l) at 4.
  assert (E : skipn i l = nth i l d :: skipn (S i) l).
  { clear x. revert l H. induction i; intros [|a l] H; cbn in *; try lia; auto. apply IHi. lia. }
  rewrite E. transitivity (nth i l d :: x :: firstn i l ++ skipn (S i) l).
  - constructor. symmetry. apply Permutation_middle.
  - transitivity (x :: nth i l d :: firstn i l ++ skipn (S i) l); [constructor|]. constructor. apply Permutation_middle.
Qed.
Lemma buffer_length B c (s : nat -> T) k : 1 <= B -> length (buffer B c s k) = B.
Proof.
  intros HB. induction k; cbn [buffer]; [rewrite map_length, seq_length; auto|]. rewrite replace_length; auto. rewrite IHk. apply Nat.mod_upper_bound. lia.
Qed.
Lemma window_perm B c (s : nat -> T) k : 1 <= B -> Permutation (map (window B c s) (seq 0 k) ++ buffer B c s k) (map s (seq 0 (B + k))).
Proof.
  intros HB. induction k.
  - cbn [seq map app buffer]. rewrite Nat.add_0_r. reflexivity.
  - rewrite seq_S, map_app, <- app_assoc. cbn [map app plus]. rewrite Nat.add_succ_r, seq_S, map_app. cbn [map plus].
    unfold window at 2. cbn [buffer].
    transitivity (map (window B c s) (seq 0 k) ++ s (B + k) :: buffer B c s k).
    + apply Permutation_app_head. apply replace_perm. rewrite buffer_length by auto. apply Nat.mod_upper_bound. lia.
    + transitivity (s (B + k) :: map (window B c s) (seq 0 k) ++ buffer B c s k); [symmetry; apply Permutation_middle|].
      transitivity (s (B + k) :: map s (seq 0 (B + k))); [constructor; auto|]. apply Permutation_cons_append.
Qed.
End W.
Lemma buffer_map {T U} (f : T -> U) B c s k : buffer B c (fun t => f (s t)) k = map f (buffer B c s k).
Proof.
  induction k; cbn [buffer].
  - rewrite map_map. reflexivity.
  - rewrite IHk. unfold replace_nth. rewrite map_app. cbn [map]. rewrite firstn_map, skipn_map. reflexivity.
Qed.
Lemma window_map {T U} (f : T -> U) B c s k : window B c (fun t => f (s t)) k = f (window B c s k).
Proof. unfold window. rewrite buffer_map. apply map_nth. Qed.

(** Indices of the examples drawn through both windows *)
Definition drawn_index (B P : nat) (c r : nat -> nat) (k : nat) : nat := window B c (fun t => t) (window P r (fun t => t) k).
Lemma drawn_perm B P c r K : 1 <= B -> 1 <= P -> exists rest, Permutation (map (drawn_index B P c r) (seq 0 K) ++ rest) (seq 0 (K + B + P)).
Proof.
  intros HB HP. pose proof (window_perm P r (fun t => t) K HP) as A. pose proof (window_perm B c (fun t => t) (P + K) HB) as D. rewrite map_id in A, D.
  exists (map (window B c (fun t => t)) (buffer P r (fun t => t) K) ++ buffer B c (fun t => t) (P + K)).
  replace (K + B + P) with (B + (P + K)) by lia. rewrite <- D. rewrite app_assoc. apply Permutation_app_tail.
  rewrite <- A, map_app, map_map. reflexivity.
Qed.

Lemma count_perm {T} (p : T -> bool) l l' : Permutation l l' -> count p l = count p l'.
Proof. intros H. unfold count. induction H; cbn; auto; try (destruct (p x); cbn; congruence). - destruct (p x), (p y); cbn; auto. - congruence. Qed.
Lemma count_app {T} (p : T -> bool) l l' : count p (l ++ l') = count p l + count p l'.
Proof. unfold count. rewrite filter_app, app_length. auto. Qed.
Lemma count_le {T} (p : T -> bool) l : count p l <= length l.
Proof. unfold count. induction l; cbn; auto. destruct (p a); cbn; lia. Qed.

(** A stream of passes over the same data *)
Section Passes.
Context {X : Type} (data : list X) (src : nat -> X).
Let n := length data.
Hypothesis N : 1 <= n.
Hypothesis passes : forall e, Permutation (map src (seq (e * n) n)) data.
Lemma full_passes p q : count p (map src (seq 0 (q * n))) = q * count p data.
Proof.
  induction q; auto. replace (S q * n) with (q * n + n) by lia. rewrite seq_app, map_app, count_app, IHq. cbn [plus]. rewrite (count_perm p _ _ (passes q)). lia.
Qed.
Lemma prefix_count p T : T / n * count p data <= count p (map src (seq 0 T)) <= ceil_div T n * count p data.
Proof.
  assert (E : T = T / n * n + T mod n) by (rewrite Nat.mul_comm; apply Nat.div_mod; lia). pose proof (Nat.mod_upper_bound T n ltac:(lia)) as U.
  set (q := T / n) in *. set (r := T mod n) in *. unfold ceil_div. fold q. fold r. clearbody q r. subst T.
  rewrite seq_app, map_app, count_app, full_passes. split; [lia|]. destruct (Nat.eqb_spec r 0) as [->|R].
  - cbn. lia.
  - assert (count p (map src (seq (0 + q * n) r)) <= count p data); [|lia].
    rewrite <- (count_perm p _ _ (passes q)). replace n with (r + (n - r)) at 3 by lia. rewrite seq_app, map_app, count_app. cbn [plus]. lia.
Qed.
End Passes.

Lemma source_passes {X} (order : nat -> nat -> list X -> list X) loaded i data x0 : (forall i e l, Permutation (order i e l) l) -> data <> [] ->
  forall e, Permutation (map (source X order loaded i data x0) (seq (e * length data) (length data))) data.
Proof.
  intros PO ND e. set (n := length data). assert (1 <= n) by (destruct data; [congruence|unfold n; cbn; lia]).
  set (o := order i (if loaded then 0 else e) data). transitivity o; [|apply PO].
  replace (map (source X order loaded i data x0) (seq (e * n) n)) with o; auto.
  assert (LO : length o = n) by (apply Permutation_length, PO).
  apply nth_ext with x0 x0; [rewrite map_length, seq_length; auto|]. intros j Hj. rewrite LO in Hj.
  rewrite (nth_indep (map _ _) x0 (source X order loaded i data x0 0)) by (rewrite map_length, seq_length; auto). rewrite map_nth, seq_nth by auto.
  unfold source. fold n. replace (e * n + j) with (j + e * n) by lia. rewrite Nat.mod_add, Nat.div_add by lia. rewrite Nat.mod_small, Nat.div_small by auto. reflexivity.
Qed.

Lemma concat_blocks {T} (f : nat -> T) b N : concat (map (fun k => map (fun j => f (k * b + j)) (seq 0 b)) (seq 0 N)) = map f (seq 0 (N * b)).
Proof.
  induction N; auto. rewrite seq_S, map_app, concat_app, IHN. cbn [map concat plus]. rewrite app_nil_r. replace (S N * b) with (N * b + b) by lia.
  rewrite seq_app, map_app. f_equal. cbn [plus]. clear. generalize (N * b). intros a. replace (map f (seq a b)) with (map f (map (fun j => a + j) (seq 0 b))).
  - rewrite map_map. reflexivity.
  - f_equal. clear f. revert a. induction b; intros a; auto. cbn [seq map]. f_equal; [lia|]. rewrite <- seq_shift, map_map. rewrite <- (IHb (S a)). apply map_ext. intros. lia.
Qed.

Section Main.
Context {X Y : Type} (process : nat -> X -> Y) (order : nat -> nat -> list X -> list X).
Hypothesis PO : forall i e l, Permutation (order i e l) l.

Lemma drawn choose ready device_count batch_size f loaded P B parts i batch :
  train_batches X Y process order choose ready device_count batch_size f loaded P (Some B) parts i = Ok (Some batch) ->
  let b := batch_size / length parts in
  let data := match f with Some f => filter f (nth i parts []) | None => nth i parts [] end in
  exists src : nat -> X, exists at_ : nat -> nat,
    (forall e, Permutation (map src (seq (e * length data) (length data))) data) /\
    (loaded = true -> forall t, src (t + length data) = src t) /\
    forall N,
      concat (map batch (seq 0 N)) = map (fun k => process (at_ k) (src (at_ k))) (seq 0 (N * b)) /\
      (exists rest, Permutation (map at_ (seq 0 (N * b)) ++ rest) (seq 0 (N * b + B + P))) /\
      (forall p, let T := N * b + B + P in
         count p (map (fun k => src (at_ k)) (seq 0 (N * b))) <= ceil_div T (length data) * count p data /\
         T / length data * count p data <= count p (map (fun k => src (at_ k)) (seq 0 (N * b))) + (B + P)).
Proof.
  unfold train_batches. destruct (_ || _); [discriminate|]. destruct B as [|B]; [discriminate|]. destruct P as [|P]; [destruct (match f with Some f => _ | None => _ end); discriminate|].
  intros H. cbv zeta. set (b := batch_size / length parts) in *. set (data := match f with Some f0 => filter f0 (nth i parts []) | None => nth i parts [] end) in *. clearbody data.
  destruct data as [|x0 data'] eqn:ED; [discriminate|]. rewrite <- ED in *. assert (ND : data <> []) by congruence. clear ED data'.
  injection H as H.
  exists (source X order loaded i data x0), (drawn_index (S B) (S P) (choose i) (ready i)).
  set (src := source X order loaded i data x0) in *.
  assert (PS : forall e, Permutation (map src (seq (e * length data) (length data))) data) by (apply source_passes; auto).
  assert (N1 : 1 <= length data) by (destruct data; [congruence|cbn; lia]).
  split; [exact PS|]. split.
  - intros -> t. unfold src, source. rewrite <- (Nat.mul_1_l (length data)) at 1. rewrite Nat.mod_add by lia. reflexivity.
  - intros N. split; [|split].
    + rewrite <- H. rewrite (concat_blocks (window (S P) (ready i) (fun k => process (fst (window (S B) (choose i) (fun t => (t, src t)) k)) (snd (window (S B) (choose i) (fun t => (t, src t)) k)))) b N).
      apply map_ext. intros k.
      rewrite (window_map (fun k => process (fst (window (S B) (choose i) (fun t => (t, src t)) k)) (snd (window (S B) (choose i) (fun t => (t, src t)) k))) (S P) (ready i) (fun t => t) k).
      rewrite (window_map (fun t => (t, src t)) (S B) (choose i) (fun t => t)). reflexivity.
    + apply drawn_perm; lia.
    + intros p. cbv zeta. destruct (drawn_perm (S B) (S P) (choose i) (ready i) (N * b) ltac:(lia) ltac:(lia)) as [rest R].
      set (T := N * b + S B + S P) in *.
      pose proof (prefix_count data src N1 PS p T) as [L1 L2].
      assert (E : count p (map src (seq 0 T)) = count p (map (fun k => src (drawn_index (S B) (S P) (choose i) (ready i) k)) (seq 0 (N * b))) + count p (map src rest)).
      { rewrite <- (count_perm p _ _ (Permutation_map src R)). rewrite map_app, count_app, map_map. reflexivity. }
      assert (LR : length rest = S B + S P).
      { pose proof (Permutation_length R) as LL. rewrite app_length, map_length, !seq_length in LL. unfold T in LL. lia. }
      pose proof (count_le p (map src rest)) as CL. rewrite map_length, LR in CL. split; lia.
Qed.

(** Every example is drawn within so many steps. *)
Lemma all_seen choose ready device_count batch_size f loaded P B parts i batch N x :
  train_batches X Y process order choose ready device_count batch_size f loaded P (Some B) parts i = Ok (Some batch) ->
  let b := batch_size / length parts in
  let data := match f with Some f => filter f (nth i parts []) | None => nth i parts [] end in
  In x data -> length data * (B + P + 1) <= N * b + B + P -> (forall y z : X, {y = z} + {y <> z}) ->
  exists t, In (process t x) (concat (map batch (seq 0 N))).
Proof.
  intros H b data Hx HN dec. destruct (drawn _ _ _ _ _ _ _ _ _ _ _ H) as (src & at_ & _ & _ & D). fold b data in D. destruct (D N) as (E & _ & C). rewrite E.
  specialize (C (fun y => if dec y x then true else false)). cbv zeta in C. destruct C as [_ C].
  set (p := fun y => if dec y x then true else false) in *.
  assert (CD : 1 <= count p data).
  { unfold count. assert (In x (filter p data)) by (apply filter_In; split; auto; unfold p; destruct (dec x x); congruence). destruct (filter p data); [contradiction|cbn; lia]. }
  assert (Q : B + P + 1 <= (N * b + B + P) / length data). { apply Nat.div_le_lower_bound; [|lia]. destruct data; [contradiction|cbn; lia]. }
  assert (1 <= count p (map (fun k => src (at_ k)) (seq 0 (N * b)))) as K by nia.
  unfold count in K. destruct (filter p (map (fun k => src (at_ k)) (seq 0 (N * b)))) as [|y l] eqn:F; [cbn in K; lia|].
  assert (In y (filter p (map (fun k => src (at_ k)) (seq 0 (N * b))))) as Hy by (rewrite F; left; auto).
  apply filter_In in Hy. destruct Hy as [Hy py]. unfold p in py. destruct (dec y x) as [->|]; [|discriminate]. apply in_map_iff in Hy. destruct Hy as (k & Ek & Hk).
  exists (at_ k). apply in_map_iff. exists k. rewrite Ek. auto.
Qed.

Lemma train_errors choose ready device_count batch_size f loaded P B parts i :
  batch_size mod length parts <> 0 \/ batch_size mod device_count <> 0 \/ B = None \/ B = Some 0 \/ P = 0 <->
  train_batches X Y process order choose ready device_count batch_size f loaded P B parts i = Raise ValueError.
Proof.
  unfold train_batches. destruct (Nat.eqb_spec (batch_size mod length parts) 0) as [A|A]; cbn [negb orb]; [|split; auto].
  destruct (Nat.eqb_spec (batch_size mod device_count) 0) as [A'|A']; cbn [negb]; [|split; auto].
  destruct B as [[|B]|]; [split; auto| |split; auto]. destruct P as [|P]; [split; auto|].
  split.
  - intros [K|[K|[K|[K|K]]]]; try contradiction; discriminate.
  - destruct (match f with Some f => _ | None => _ end); discriminate.
Qed.
Lemma train_empty choose ready device_count batch_size f loaded P B parts i :
  batch_size mod length parts = 0 -> batch_size mod device_count = 0 -> 1 <= B -> 1 <= P ->
  (train_batches X Y process order choose ready device_count batch_size f loaded P (Some B) parts i = Ok None <->
   match f with Some f => filter f (nth i parts []) | None => nth i parts [] end = []).
Proof.
  intros A A' HB HP. unfold train_batches. rewrite A, A'. cbn [Nat.eqb negb orb]. destruct B; [lia|]. destruct P; [lia|].
  destruct (match f with Some f => _ | None => _ end); split; congruence.
Qed.
End Main.

(** ** Options *)
Lemma existsb_eqb k l : existsb (String.eqb k) l = true <-> In k l.
Proof. rewrite existsb_exists. split; [intros (x & H & E); apply String.eqb_eq in E; subst; auto|]. intros H. exists k. split; auto. apply String.eqb_refl. Qed.
Lemma options keys : get_dataset_accepts keys = true -> get_data_num_examples_accepts keys = true.
Proof.
  unfold get_dataset_accepts, get_data_num_examples_accepts, get_dataset_builder, binds. cbv zeta. rewrite !andb_true_iff. intros [[[V RQ] _] [_ OPT]].
  rewrite forallb_forall in OPT, RQ. rewrite negb_true_iff in V. split.
  - apply forallb_forall. intros k Hk. apply existsb_eqb. unfold without. apply filter_In. split.
    + assert (K : In k ["name"; "split"; "batch_size"; "process"]%string) by (cbn in *; intuition auto). apply RQ in K. apply existsb_eqb in K. apply filter_In in K. tauto.
    + cbn in Hk. destruct Hk as [<-|[<-|[]]]; reflexivity.
  - apply forallb_forall. intros k Hk. apply filter_In in Hk. destruct Hk as [Hk NK]. rewrite negb_true_iff in NK.
    destruct (existsb (String.eqb k) ["name"; "split"; "batch_size"; "process"; "cache"; "num_parallel_calls"; "pre_filter_fn"; "prefetch"; "shuffle_buffer"; "shuffle_seed"]%string) eqn:O.
    + apply existsb_eqb in O. cbn in O. repeat (destruct O as [<-|O]; [first [discriminate NK|reflexivity]|]). contradiction.
    + apply OPT. apply in_or_app. right. unfold without. apply filter_In. rewrite O. split; auto. apply filter_In. split; auto.
      rewrite negb_true_iff. destruct (existsb (String.eqb k) ["prefetch_device"%string]) eqn:PD; auto. apply existsb_eqb in PD. destruct PD as [<-|[]]. discriminate NK.
Qed.

(** ** Epochs *)
Lemma concat_bounds {X} (parts : list (list X)) lo hi : (forall p, In p parts -> lo <= length p <= hi) -> length parts * lo <= length (concat parts) <= length parts * hi.
Proof.
  induction parts as [|p parts IH]; intros H; cbn [concat length]; [lia|]. rewrite app_length. pose proof (H p (or_introl eq_refl)). specialize (IH (fun q Q => H q (or_intror Q))). lia.
Qed.
Lemma epochs {X} (parts : list (list X)) batch_size e N i :
  (forall i j, i < length parts -> j < length parts -> length (nth i parts []) <= length (nth j parts []) + 1) ->
  i < length parts -> batch_size mod length parts = 0 ->
  let b := batch_size / length parts in let n := length (nth i parts []) in
  (e * get_data_num_examples X parts <= N * batch_size -> e * n <= N * b + e) /\
  (N * batch_size < e * get_data_num_examples X parts + batch_size -> N * b < e * (n + 1) + b).
Proof.
  intros EV Hi HB b n. assert (NP : 0 < length parts) by lia. assert (BB : batch_size = length parts * b). { unfold b. pose proof (Nat.div_mod batch_size (length parts) ltac:(lia)). lia. }
  clearbody b. subst batch_size.
  assert (A : length parts * (n - 1) <= length (concat parts) <= length parts * (n + 1)).
  { apply concat_bounds. intros p Hp. destruct (In_nth _ _ [] Hp) as (j & Hj & <-). pose proof (EV i j Hi Hj). pose proof (EV j i Hj Hi). fold n in H, H0. lia. }
  unfold get_data_num_examples. set (t := length (concat parts)) in *. set (np := length parts) in *. clearbody t np n. split; intros H.
  - assert (e * (np * (n - 1)) <= e * t) by (apply Nat.mul_le_mono_l; lia).
    assert (e * (n - 1) <= N * b). { apply Nat.mul_le_mono_pos_l with np; nia. }
    destruct n; [nia|]. replace (S n - 1) with n in * by lia. nia.
  - assert (e * t <= e * (np * (n + 1))) by (apply Nat.mul_le_mono_l; lia).
    apply Nat.mul_lt_mono_pos_l with np; nia.
Qed.
