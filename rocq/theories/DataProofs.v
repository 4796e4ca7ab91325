(** Proofs for C39 and C40. *)
From Coq Require Import List Arith ZArith Bool Lia Permutation.
From Verif Require Import Py PyLemmas DataModel DataSpec.
Import ListNotations.

(** ** Batches *)
Lemma batches_exact {T} b : 0 < b -> forall k fuel (l : list T), k < fuel -> length l = k * b ->
  length (batches_ fuel b l) = k /\ Forall (fun x => length x = b) (batches_ fuel b l) /\ concat (batches_ fuel b l) = l.
Proof.
  intros Hb. induction k as [|k IH]; intros [|fuel] l F L; try lia.
  - destruct l; [|simpl in L; lia]. simpl. destruct (Nat.ltb_spec 0 b); [|lia]. auto.
  - cbn [batches_]. destruct (Nat.ltb_spec (length l) b); [nia|].
    assert (L1 : length (firstn b l) = b) by (rewrite firstn_length; lia).
    destruct (IH fuel (skipn b l)) as (A & B & C); [lia|rewrite skipn_length; nia|].
    cbn [length concat]. split; [lia|]. split; [constructor; auto|]. rewrite C. apply firstn_skipn.
Qed.

Lemma fold_max_ge l : forall a, (a <= fold_left Z.max l a)%Z /\ Forall (fun x => (x <= fold_left Z.max l a)%Z) l.
Proof.
  induction l as [|x l IH]; intros a; simpl; [split; [lia|auto]|]. destruct (IH (Z.max a x)) as [A B]. split; [lia|]. constructor; [lia|auto].
Qed.
Lemma fold_max_in l : forall a, fold_left Z.max l a = a \/ In (fold_left Z.max l a) l.
Proof.
  induction l as [|x l IH]; intros a; simpl; auto. destruct (IH (Z.max a x)) as [H|H]; auto. rewrite H.
  destruct (Z.max_spec a x) as [[_ ->]|[_ ->]]; auto.
Qed.
Lemma fold_max_same l a b : In a l -> In b l -> fold_left Z.max l a = fold_left Z.max l b.
Proof.
  intros Ha Hb. assert (K : forall a b, In a l -> In b l -> (fold_left Z.max l a <= fold_left Z.max l b)%Z).
  { intros x y Hx Hy. destruct (fold_max_ge l y) as [G F]. rewrite Forall_forall in F. destruct (fold_max_in l x) as [->|I]; [apply F; auto|apply F; auto]. }
  apply Z.le_antisymm; auto.
Qed.

Definition lens {X} (parts : list (list X)) : list Z := map (fun p => Z.of_nat (length p)) parts.
(** The number of batches *)
Definition top {X} (parts : list (list X)) : nat := fold_right Nat.max 0 (map (@length X) parts).
Lemma top_ge {X} (parts : list (list X)) p : In p parts -> length p <= top parts.
Proof. unfold top. induction parts; simpl; [tauto|]. intros [->|H]; [lia|]. apply IHparts in H. lia. Qed.
Lemma top_in {X} (parts : list (list X)) : parts <> [] -> exists p, In p parts /\ length p = top parts.
Proof.
  unfold top. induction parts as [|p parts IH]; [congruence|]. intros _. destruct parts as [|q parts].
  - exists p. simpl. split; auto. lia.
  - destruct (IH ltac:(congruence)) as (x & I & E). cbn [map fold_right] in *. destruct (Nat.max_spec (length p) (Nat.max (length q) (fold_right Nat.max 0 (map (length (A:=X)) parts)))) as [[_ ->]|[_ ->]].
    + exists x. split; [right; auto|auto].
    + exists p. split; [left; auto|auto].
Qed.
Lemma max_top {X} (parts : list (list X)) p : In p parts -> fold_left Z.max (lens parts) (Z.of_nat (length p)) = Z.of_nat (top parts).
Proof.
  intros I. assert (N : parts <> []) by (intros ->; destruct I). destruct (top_in parts N) as (q & Iq & Eq).
  assert (L : forall x, In x parts -> In (Z.of_nat (length x)) (lens parts)) by (intros x Hx; unfold lens; apply in_map_iff; eauto).
  apply Z.le_antisymm.
  - destruct (fold_max_in (lens parts) (Z.of_nat (length p))) as [->|H]; [apply Nat2Z.inj_le, top_ge; auto|].
    unfold lens in H at 2. apply in_map_iff in H. destruct H as (x & <- & Hx). apply Nat2Z.inj_le, top_ge. auto.
  - destruct (fold_max_ge (lens parts) (Z.of_nat (length p))) as [_ F]. rewrite Forall_forall in F. rewrite <- Eq. apply F. auto.
Qed.

(** The smallest multiple of b that is at least m, divided by b *)
Definition up (m b : nat) : nat := (m + b - 1) / b.
Lemma up_spec m b : 0 < b -> Z.of_nat (up m b * b) = (Z.of_nat m + (- Z.of_nat m) mod Z.of_nat b)%Z.
Proof.
  intros Hb. unfold up. assert (D := Nat.div_mod (m + b - 1) b ltac:(lia)). assert (M := Nat.mod_upper_bound (m + b - 1) b ltac:(lia)).
  set (k := (m + b - 1) / b) in *. set (r := (m + b - 1) mod b) in *. clearbody k r.
  assert (E : (- Z.of_nat m)%Z = (Z.of_nat b * (- Z.of_nat k) + (Z.of_nat b - 1 - Z.of_nat r))%Z) by nia.
  rewrite <- (Z.mod_unique (- Z.of_nat m) (Z.of_nat b) (- Z.of_nat k) (Z.of_nat b - 1 - Z.of_nat r)); [nia|left; lia|auto].
Qed.
Lemma up_least m b k : 0 < b -> m <= k * b -> up m b <= k.
Proof. intros Hb L. unfold up. apply Nat.lt_succ_r. apply Nat.div_lt_upper_bound; lia. Qed.
Lemma up_enough m b : 0 < b -> m <= up m b * b.
Proof. intros Hb. assert (E := up_spec m b Hb). assert (M := Z.mod_pos_bound (- Z.of_nat m) (Z.of_nat b) ltac:(lia)). lia. Qed.

Section Pipeline.
Variable X Y : Type.
Variable process : X -> Y * option bool.
Variable zeros : Y.
Variable shuffled : nat -> list (Y * bool) -> list (Y * bool).
Hypothesis SH : forall i l, Permutation (shuffled i l) l.
Variable device_count batch_size : nat.
Notation get := (get_dataset X Y process zeros shuffled device_count batch_size None).

Lemma fake_count (parts : list (list X)) i b : i < length parts -> 0 < b ->
  get_num_fake_examples i (Z.of_nat b) (lens parts) = Ok (Z.of_nat (up (top parts) b * b - length (nth i parts []))).
Proof using.
  clear SH. intros Hi Hb. unfold get_num_fake_examples. unfold lens at 1. rewrite nth_error_map.
  rewrite (nth_error_nth' parts []) by auto. cbn [option_map].
  assert (I : In (nth i parts []) parts) by (apply nth_In; auto).
  destruct (Z.eqb_spec (Z.of_nat b) 0); [lia|]. rewrite max_top by auto. f_equal.
  assert (L := top_ge _ _ I). assert (E := up_enough (top parts) b Hb). assert (S := up_spec (top parts) b Hb). lia.
Qed.

Lemma get_ok parts i : i < length parts -> 0 < batch_size -> batch_size mod length parts = 0 -> batch_size mod device_count = 0 ->
  let b := batch_size / length parts in let k := up (top parts) b in
  exists bs, get parts i = Ok bs /\ length bs = k /\ Forall (fun x => length x = b) bs /\
    Permutation (concat bs) (map (processed process) (nth i parts []) ++ repeat (zeros, false) (k * b - length (nth i parts []))).
Proof using SH.
  intros Hi Hbs M1 M2. assert (Hb : 0 < batch_size / length parts) by (assert (D := Nat.div_mod batch_size (length parts) ltac:(lia)); nia).
  unfold get_dataset. rewrite M1, M2. cbn [Nat.eqb negb orb]. set (b := batch_size / length parts) in *.
  cbv zeta. fold (lens parts). rewrite fake_count by auto. cbn [bind]. set (k := up (top parts) b).
  set (n := k * b - length (nth i parts [])).
  set (data := shuffled i (map _ (nth i parts []))).
  assert (P : Permutation data (map (processed process) (nth i parts []))) by apply SH.
  assert (L : length (nth i parts []) <= k * b).
  { assert (E := up_enough (top parts) b Hb). assert (T := top_ge parts (nth i parts []) (nth_In _ _ Hi)). lia. }
  assert (D : (if (0 <? Z.of_nat n)%Z then data ++ repeat (zeros, false) (Z.to_nat (Z.of_nat n)) else data) = data ++ repeat (zeros, false) n).
  { rewrite Nat2Z.id. destruct (Z.ltb_spec 0 (Z.of_nat n)); auto. replace n with 0 by lia. simpl. rewrite app_nil_r. auto. }
  rewrite D. destruct (batches_exact b Hb k (S (length (data ++ repeat (zeros, false) n))) (data ++ repeat (zeros, false) n)) as (A & B & C).
  - rewrite app_length, repeat_length, (Permutation_length P), map_length. unfold n. nia.
  - rewrite app_length, repeat_length, (Permutation_length P), map_length. unfold n. lia.
  - eexists. split; [reflexivity|]. unfold batches. split; auto. split; auto. rewrite C. apply Permutation_app_tail. auto.
Qed.

Lemma all_ok parts : parts <> [] -> 0 < batch_size -> batch_size mod length parts = 0 -> batch_size mod device_count = 0 ->
  let b := batch_size / length parts in
  exists bss k n, rmap (get parts) (seq 0 (length parts)) = Ok bss /\ length bss = length parts /\
    Forall (fun bs => length bs = k /\ Forall (fun x => length x = b) bs) bss /\
    Permutation (concat (concat bss)) (map (processed process) (concat parts) ++ repeat (zeros, false) n) /\
    length parts * (k * b) = length (concat parts) + n /\
    forall k', Forall (fun p => length p <= k' * b) parts -> k <= k'.
Proof using SH.
  intros N Hbs M1 M2 b. set (k := up (top parts) b).
  assert (Hb : 0 < b). { unfold b. assert (length parts <> 0) by (destruct parts; simpl; [congruence|lia]). assert (D := Nat.div_mod batch_size (length parts) ltac:(lia)). nia. }
  assert (K : forall is_, Forall (fun i => i < length parts) is_ -> exists bss n, rmap (get parts) is_ = Ok bss /\ length bss = length is_ /\
    Forall (fun bs => length bs = k /\ Forall (fun x => length x = b) bs) bss /\
    Permutation (concat (concat bss)) (map (processed process) (concat (map (fun i => nth i parts []) is_)) ++ repeat (zeros, false) n) /\
    length is_ * (k * b) = length (concat (map (fun i => nth i parts []) is_)) + n).
  { induction is_ as [|i is_ IH]; intros F.
    - exists [], 0. simpl. auto.
    - inversion F; subst. destruct (IH ltac:(auto)) as (bss & n & E & L & FB & P & C).
      destruct (get_ok parts i ltac:(auto) Hbs M1 M2) as (bs & G & Lb & Fb & Pb). fold b in Lb, Fb, Pb. fold k in Lb, Pb.
      assert (Li : length (nth i parts []) <= k * b). { assert (E' := up_enough (top parts) b Hb). assert (T := top_ge parts (nth i parts []) (nth_In _ _ ltac:(eassumption))). lia. }
      exists (bs :: bss), (k * b - length (nth i parts []) + n). cbn [rmap]. rewrite G. cbn [bind]. rewrite E. cbn [bind].
      split; auto. split; [simpl; auto|]. split; [auto|]. split.
      + cbn [concat map]. rewrite concat_app, map_app, repeat_app. rewrite Pb, P.
        rewrite <- !app_assoc. apply Permutation_app_head. rewrite !app_assoc. apply Permutation_app_tail. apply Permutation_app_comm.
      + cbn [length map concat]. rewrite app_length. lia. }
  destruct (K (seq 0 (length parts))) as (bss & n & E & L & FB & P & C).
  { apply Forall_forall. intros i Hi. apply in_seq in Hi. lia. }
  assert (Q : map (fun i => nth i parts []) (seq 0 (length parts)) = parts).
  { clear. induction parts as [|p parts IH]; auto. simpl. f_equal. rewrite <- seq_shift, map_map. auto. }
  rewrite Q in *. rewrite seq_length in *. exists bss, k, n. repeat split; auto.
  intros k' F. unfold k. apply up_least; auto. destruct (top_in parts N) as (p & I & <-). rewrite Forall_forall in F. auto.
Qed.

Lemma get_own parts i : i < length parts -> 0 < batch_size -> batch_size mod length parts = 0 -> batch_size mod device_count = 0 ->
  exists bs n, get parts i = Ok bs /\ Permutation (concat bs) (map (processed process) (nth i parts []) ++ repeat (zeros, false) n).
Proof using SH. intros A B C D. destruct (get_ok parts i A B C D) as (bs & E & _ & _ & P). eauto. Qed.
Lemma get_error f parts i : batch_size mod length parts <> 0 \/ batch_size mod device_count <> 0 ->
  get_dataset X Y process zeros shuffled device_count batch_size f parts i = Raise ValueError.
Proof using.
  clear SH. unfold get_dataset. intros [H|H].
  - destruct (Nat.eqb_spec (batch_size mod length parts) 0); [contradiction|auto].
  - destruct (Nat.eqb_spec (batch_size mod device_count) 0); [contradiction|]. rewrite orb_true_r. auto.
Qed.
End Pipeline.

(** ** Prefetching *)
Section Prefetch.
Variable T U : Type.
Variable to_global : T -> U.
Variable source : nat -> next_t T.
Notation direct := (direct to_global source).
Notation enqueue := (enqueue T U to_global source).
Notation prefetch_next := (prefetch_next T U to_global source).
Notation prefetch_run := (prefetch_run T U to_global source).

Lemma enqueue_spec n : forall t q, exists m fail, enqueue n t q = (t + m, snd (fst (enqueue n t q)), fail) /\
  m <= n /\ map Item (snd (fst (enqueue n t q))) = map Item q ++ map direct (seq t m) /\
  (fail = true -> source (t + m) = Fails) /\ (fail = false -> m < n -> source (t + m) = Stop) /\ (0 < m -> source t <> Stop).
Proof using.
  induction n as [|n IH]; intros t q.
  - exists 0, false. cbn [DataModel.enqueue fst snd seq map]. rewrite Nat.add_0_r, app_nil_r. repeat split; auto; try discriminate; lia.
  - cbn [DataModel.enqueue]. destruct (source t) as [x| |] eqn:E.
    + destruct (IH (S t) (q ++ [to_global x])) as (m & fail & A & B & C & D & G & _). exists (S m), fail.
      split; [rewrite A at 1; f_equal; f_equal; lia|]. split; [lia|]. split; [|split; [|split; [|discriminate]]].
      * rewrite C, map_app, <- app_assoc. cbn [map app seq]. unfold DataSpec.direct at 2. rewrite E. auto.
      * intros H. rewrite <- D by auto. f_equal. lia.
      * intros H1 H2. rewrite <- G by (auto; lia). f_equal. lia.
    + exists 0, false. cbn [fst snd seq map]. rewrite Nat.add_0_r, app_nil_r. repeat split; auto; try discriminate; lia.
    + exists 0, true. cbn [fst snd seq map]. rewrite Nat.add_0_r, app_nil_r. repeat split; auto; try discriminate; lia.
Qed.

Definition width (size : option Z) : nat := match size with Some z => if (0 <? z)%Z then Z.to_nat z else 1 | None => 1 end.

(** What is known of the generator after [n] calls *)
Definition gen_ok (size : option Z) (n : nat) (g : gen U) : Prop :=
  match g with
  | NotStarted => n = 0
  | Yielded t q => 0 < n /\ n <= t /\ t < n + width size /\ map Item q = map direct (seq n (t - n)) /\
                   (t < n + width size - 1 -> source t = Stop)
  | Finished t => 0 < n /\ t < n + width size /\ (never_fails source -> stops_for_good source -> source (n - 1) = Stop)
  end.
Definition good_out (size : option Z) (n : nat) (gx : gen U * next_t U) : Prop :=
  gen_ok size (S n) (fst gx) /\ (forall y, snd gx = Item y -> direct n = Item y) /\ (never_fails source -> stops_for_good source -> snd gx = direct n).

Lemma direct_eq n : direct n = match source n with Item x => Item (to_global x) | Stop => Stop | Fails => Fails end.
Proof using. reflexivity. Qed.
Lemma width_pos size : 0 < width size.
Proof using. unfold width. destruct size as [z|]; [destruct (Z.ltb_spec 0 z)|]; lia. Qed.

Lemma next_finished size n t : gen_ok size n (Finished t) -> good_out size n (Finished t, Stop).
Proof using.
  intros (A & B & C). split; [|split; [intros y Hy; cbn in Hy; discriminate|]]; cbn [fst snd].
  - split; [lia|]. split; [lia|]. intros NF SG. specialize (C NF SG). apply SG in C. replace (S n - 1) with (S (n - 1)) by lia. auto.
  - intros NF SG. specialize (C NF SG). apply SG in C. rewrite direct_eq. replace (S (n - 1)) with n in C by lia. rewrite C. auto.
Qed.
Lemma next_one size n : width size = 1 -> good_out size n (match source n with
               | Item x => (Yielded (S n) [], Item (to_global x))
               | Stop => (Finished n, Stop)
               | Fails => (Finished n, Fails)
               end).
Proof using.
  intros W1. destruct (source n) as [x| |] eqn:E.
  - split; [|split; cbn [fst snd]; rewrite direct_eq, E; auto]. cbn [fst gen_ok]. rewrite W1, Nat.sub_diag. repeat split; auto; lia.
  - split; [|split; cbn [fst snd]; rewrite direct_eq, E; auto]. cbn [fst gen_ok]. rewrite W1. repeat split; try lia. intros _ _. replace (S n - 1) with n by lia. auto.
  - split; [|split; cbn [fst snd]; rewrite direct_eq, E; auto]. cbn [fst gen_ok]. rewrite W1. repeat split; try lia. intros NF. exfalso. apply (NF n). auto.
Qed.
Lemma next_queue size n t0 q0 k : n <= t0 -> map Item q0 = map direct (seq n (t0 - n)) -> 1 <= k -> t0 + k <= n + width size ->
  (t0 + k < n + width size -> source t0 = Stop) -> good_out size n (while_queue U (enqueue k t0 q0)).
Proof using.
  intros L Q K1 K2 ST. destruct (enqueue_spec k t0 q0) as (m & fail & A & B & C & F1 & F2 & F3).
  set (q := snd (fst (enqueue k t0 q0))) in *. rewrite A. clearbody q. rewrite Q, <- map_app in C.
  assert (SQ : seq n (t0 - n) ++ seq t0 m = seq n (t0 + m - n)).
  { replace (t0 + m - n) with ((t0 - n) + m) by lia. rewrite seq_app. f_equal. f_equal. lia. }
  rewrite SQ in C. destruct fail.
  - assert (WQ : while_queue U (t0 + m, q, true) = (Finished (t0 + m), Fails)) by (destruct q; auto). rewrite WQ. split; [|split; [intros y Hy; cbn in Hy; discriminate|]]; cbn [fst snd].
    + cbn [gen_ok]. repeat split; try lia. intros NF. exfalso. apply (NF (t0 + m)). auto.
    + intros NF. exfalso. apply (NF (t0 + m)). auto.
  - cbn [while_queue]. destruct q as [|x q].
    + cbn [map] in C. destruct (t0 + m - n) as [|j] eqn:J; [|discriminate]. assert (E : t0 + m = n) by lia.
      assert (S0 : source n = Stop). { rewrite <- E. apply F2; auto. lia. }
      split; [|split; [intros y Hy; cbn in Hy; discriminate|]]; cbn [fst snd].
      * cbn [gen_ok]. repeat split; try lia. intros _ _. replace (S n - 1) with n by lia. auto.
      * intros _ _. rewrite direct_eq, S0. auto.
    + destruct (t0 + m - n) as [|j] eqn:J; [discriminate|]. cbn [map seq] in C. injection C as C1 C2.
      split; [|split]; cbn [fst snd].
      * cbn [gen_ok]. replace (t0 + m - S n) with j by lia. repeat split; auto; try lia.
        intros H. destruct (Nat.eq_dec m k) as [->|]; [|apply F2; auto; lia].
        exfalso. apply F3; [lia|]. apply ST. lia.
      * intros y Hy. rewrite <- Hy. auto.
      * intros _ _. auto.
Qed.
Lemma next_ok size n g : gen_ok size n g -> good_out size n (prefetch_next size g).
Proof using.
  intros I. assert (ONE : width size = 1 -> good_out size n (match g with
      | Finished n => (Finished n, Stop)
      | g => match source (taken g) with
             | Item x => (Yielded (S (taken g)) [], Item (to_global x))
             | Stop => (Finished (taken g), Stop)
             | Fails => (Finished (taken g), Fails)
             end
      end)).
  { intros W. destruct g as [|t q|t]; cbn [taken].
    - simpl in I. subst n. apply next_one. auto.
    - destruct I as (A & B & C & _). replace t with n by lia. apply next_one. auto.
    - apply next_finished. auto. }
  unfold DataModel.prefetch_next. destruct size as [z|]; [|apply ONE; auto].
  destruct (Z.ltb_spec 0 z) as [Z0|Z0].
  - assert (Wz : width (Some z) = Z.to_nat z) by (unfold width; destruct (Z.ltb_spec 0 z); lia).
    destruct g as [|t q|t].
    + simpl in I. subst n. apply next_queue; auto; try lia.
    + destruct I as (A & B & C & Q & ST). apply next_queue; auto; try lia. intros H. apply ST. lia.
    + apply next_finished. auto.
  - apply ONE. unfold width. destruct (Z.ltb_spec 0 z); lia.
Qed.

Lemma run_ok size n : gen_ok size n (fst (prefetch_run size n)) /\ length (snd (prefetch_run size n)) = n /\
  (forall k y, nth_error (snd (prefetch_run size n)) k = Some (Item y) -> direct k = Item y) /\
  (never_fails source -> stops_for_good source -> snd (prefetch_run size n) = map direct (seq 0 n)).
Proof using.
  induction n as [|n (I & L & S & E)].
  - cbn. repeat split; auto. intros [|k] y H; discriminate.
  - cbn [DataModel.prefetch_run]. destruct (prefetch_run size n) as [g out]. cbn [fst snd] in *.
    assert (N := next_ok size n g I). destruct (prefetch_next size g) as [g' x]. destruct N as (N1 & N2 & N3). cbn [fst snd] in *.
    split; [auto|]. split; [rewrite app_length; simpl; lia|]. split.
    + intros k y H. destruct (Nat.lt_ge_cases k (length out)) as [Lk|Lk].
      * rewrite nth_error_app1 in H by auto. apply S. auto.
      * rewrite nth_error_app2 in H by auto. destruct (k - length out) as [|j] eqn:J; [|destruct j; discriminate].
        simpl in H. injection H as H. replace k with n by lia. apply N2. auto.
    + intros NF SG. rewrite E, N3 by auto. rewrite seq_S, map_app. auto.
Qed.
Lemma run_taken size n : taken (fst (prefetch_run size n)) <= n + width size - 1.
Proof using.
  destruct (run_ok size n) as [I _]. assert (W := width_pos size). destruct (fst (prefetch_run size n)) as [|t q|t]; cbn [taken gen_ok] in *; [lia| |]; destruct I as (A & I); [destruct I as (B & C & _)|destruct I as (C & _)]; lia.
Qed.
End Prefetch.

(** ** Rows on devices *)
Lemma part_map {A B} (f : A -> B) n k l : map f (part n k l) = part n k (map f l).
Proof. unfold part. rewrite map_length, skipn_map, firstn_map. auto. Qed.
Lemma skipn_add {A} a : forall b (l : list A), skipn a (skipn b l) = skipn (b + a) l.
Proof. induction b as [|b IH]; intros l; auto. destruct l; [destruct a; auto|]. apply IH. Qed.
Lemma concat_parts {A} n : forall (l : list A) s, length l = n * s -> concat (map (fun k => firstn s (skipn (k * s) l)) (seq 0 n)) = l.
Proof.
  induction n as [|n IH]; intros l s L; [destruct l; [auto|simpl in L; lia]|].
  cbn [seq map concat]. rewrite <- seq_shift, map_map. cbn [Nat.mul skipn]. transitivity (firstn s l ++ skipn s l); [|apply firstn_skipn]. f_equal.
  transitivity (concat (map (fun k => firstn s (skipn (k * s) (skipn s l))) (seq 0 n))); [|apply IH; rewrite skipn_length; lia].
  f_equal. apply map_ext. intros k. f_equal. rewrite skipn_add. auto.
Qed.
Lemma put_ok {A} (x : list A) d : 0 < d -> length x mod d = 0 ->
  put_to_devices x d = Ok (map (fun k => part d k x) (seq 0 d)) /\ concat (map (fun k => part d k x) (seq 0 d)) = x /\
  Forall (fun r => length r = length x / d) (map (fun k => part d k x) (seq 0 d)).
Proof.
  intros Hd M. unfold put_to_devices. destruct (Nat.eqb_spec d 0); [lia|]. rewrite M. cbn [Nat.eqb].
  assert (L : length x = d * (length x / d)) by (assert (D := Nat.div_mod (length x) d ltac:(lia)); lia).
  split; auto. split; [apply concat_parts; auto|]. apply Forall_forall. intros r Hr. apply in_map_iff in Hr. destruct Hr as (k & <- & Hk). apply in_seq in Hk.
  unfold part. rewrite firstn_length, skipn_length. nia.
Qed.

Lemma flat_map_insert {A} (q : A) k (g : nat -> list A) L : NoDup L -> In k L ->
  Permutation (flat_map (fun i => if k =? i then q :: g i else g i) L) (q :: flat_map g L).
Proof.
  intros N. induction L as [|i L IH]; [intros []|]. inversion N; subst. intros [->|I].
  - simpl. rewrite Nat.eqb_refl. simpl. constructor. apply Permutation_app_head.
    apply eq_ind with (P := fun l => Permutation (flat_map (fun i => if k =? i then q :: g i else g i) L) l) (x := flat_map (fun i => if k =? i then q :: g i else g i) L); [apply Permutation_refl|].
    apply flat_map_ext_in || (clear IH N H2; induction L as [|j L IH]; auto; simpl; destruct (Nat.eqb_spec k j) as [->|]; [exfalso; apply H1; left; auto|]; f_equal; apply IH; intros H; apply H1; right; auto).
  - simpl. destruct (Nat.eqb_spec k i) as [->|]; [contradiction|]. rewrite IH by auto. symmetry. apply Permutation_middle.
Qed.
Lemma group_perm (f : nat -> nat) p l : Forall (fun q => f q < p) l -> Permutation (flat_map (fun i => filter (fun q => f q =? i) l) (seq 0 p)) l.
Proof.
  induction 1 as [|q l Hq F IH]; simpl.
  - assert (K : forall s, flat_map (fun _ : nat => @nil nat) s = []) by (induction s; auto). rewrite K. constructor.
  - rewrite flat_map_insert; [constructor; auto|apply seq_NoDup|apply in_seq; lia].
Qed.
Lemma index_of_app x a b : ~ In x a -> index_of x (a ++ b) = length a + index_of x b.
Proof. induction a as [|y a IH]; simpl; auto. intros H. destruct (Nat.eqb_spec x y) as [->|]; [exfalso; auto|]. rewrite IH; auto. Qed.
Lemma index_of_all l : NoDup l -> map (fun q => index_of q l) l = seq 0 (length l).
Proof.
  induction 1 as [|x l N D IH]; auto. simpl. rewrite Nat.eqb_refl. f_equal. rewrite <- seq_shift, <- IH, map_map.
  apply map_ext_in. intros y Hy. destruct (Nat.eqb_spec y x) as [->|]; [contradiction|auto].
Qed.
Lemma index_of_lt x l : In x l -> index_of x l < length l.
Proof. induction l as [|y l IH]; simpl; [tauto|]. intros H. destruct (Nat.eqb_spec x y); [lia|]. destruct H; [congruence|]. apply IH in H. lia. Qed.

Lemma global_rows {A} mesh p d r (xs : list (list A)) : 0 < d -> same_devices mesh p d -> length xs = p -> Forall (fun x => length x = r) xs -> r mod d = 0 ->
  exists g, to_global_array mesh xs = Ok g /\ Permutation g (concat xs) /\
    g = concat (map (fun q => let i := nth q mesh 0 in part d (index_of q (local_devices mesh i)) (nth i xs [])) (seq 0 (length mesh))).
Proof.
  intros Hd (LM & PM & DM) LX FX M. unfold to_global_array.
  assert (XL : forall i, i < p -> length (nth i xs []) = r) by (intros i Hi; rewrite Forall_forall in FX; apply FX, nth_In; lia).
  assert (B : rmap (fun i => put_to_devices (nth i xs []) (length (local_devices mesh i))) (seq 0 (length xs)) =
              Ok (map (fun i => map (fun k => part d k (nth i xs [])) (seq 0 d)) (seq 0 (length xs)))).
  { apply rmap_ok. assert (F : Forall (fun i => i < p) (seq 0 (length xs))) by (apply Forall_forall; intros i Hi; apply in_seq in Hi; lia).
    revert F. generalize (seq 0 (length xs)) as is_. induction is_ as [|i is_ IH]; intros F; constructor; inversion F; subst; auto.
    unfold local_devices. rewrite DM by auto. apply put_ok; auto. rewrite XL by auto. auto. }
  rewrite B. cbn [bind]. rewrite LX.
  assert (DR : map (fun q => let i := nth q mesh 0 in nth (index_of q (local_devices mesh i)) (nth i (map (fun i0 => map (fun k => part d k (nth i0 xs [])) (seq 0 d)) (seq 0 p)) []) []) (seq 0 (length mesh)) =
               map (fun q => let i := nth q mesh 0 in part d (index_of q (local_devices mesh i)) (nth i xs [])) (seq 0 (length mesh))).
  { apply map_ext_in. intros q Hq. apply in_seq in Hq. cbv zeta. set (i := nth q mesh 0). assert (Hi : i < p) by (apply PM; lia).
    rewrite (nth_indep _ [] (map (fun k => part d k (nth 0 xs [])) (seq 0 d))) by (rewrite map_length, seq_length; auto).
    rewrite (map_nth (fun i0 => map (fun k => part d k (nth i0 xs [])) (seq 0 d)) (seq 0 p) 0). rewrite seq_nth by auto. cbn [Nat.add].
    assert (K : index_of q (local_devices mesh i) < d).
    { rewrite <- (DM i Hi). apply index_of_lt. unfold local_devices. apply filter_In. split; [apply in_seq; lia|apply Nat.eqb_eq; auto]. }
    rewrite (nth_indep _ [] (part d 0 (nth i xs []))) by (rewrite map_length, seq_length; auto).
    rewrite (map_nth (fun k => part d k (nth i xs [])) (seq 0 d) 0). rewrite seq_nth by auto. auto. }
  cbv zeta. cbv zeta in DR. rewrite DR. set (rows := map _ (seq 0 (length mesh))).
  assert (FB : forallb (fun r0 => length r0 * length mesh =? length (nth 0 xs []) * p) rows = true).
  { apply forallb_forall. intros x Hx. unfold rows in Hx. apply in_map_iff in Hx. destruct Hx as (q & <- & Hq). apply in_seq in Hq. cbv zeta.
    assert (Hi : nth q mesh 0 < p) by (apply PM; lia). set (i := nth q mesh 0) in *.
    destruct (put_ok (nth i xs []) d Hd) as (_ & _ & F); [rewrite XL by auto; auto|]. rewrite Forall_forall in F.
    assert (K : index_of q (local_devices mesh i) < d).
    { rewrite <- (DM i Hi). apply index_of_lt. unfold local_devices. apply filter_In. split; [apply in_seq; lia|apply Nat.eqb_eq; auto]. }
    rewrite F; [|apply in_map_iff; eexists; split; [reflexivity|apply in_seq; lia]].
    rewrite !XL by lia. apply Nat.eqb_eq. rewrite LM. assert (D := Nat.div_mod r d ltac:(lia)). nia. }
  rewrite FB. eexists. split; [reflexivity|]. split; [|reflexivity].
  unfold rows. rewrite <- flat_map_concat_map.
  rewrite (Permutation_flat_map _ (Permutation_sym (group_perm (fun q => nth q mesh 0) p (seq 0 (length mesh)) ltac:(apply Forall_forall; intros q Hq; apply in_seq in Hq; apply PM; lia)))).
  apply eq_ind with (P := fun l => Permutation l (concat xs)) (x := concat xs); [apply Permutation_refl|].
  assert (Q : map (fun i => nth i xs []) (seq 0 p) = xs).
  { rewrite <- LX. clear. induction xs as [|x xs IH]; auto. simpl. f_equal. rewrite <- seq_shift, map_map. auto. }
  rewrite <- Q at 1. rewrite <- flat_map_concat_map.
  assert (F : Forall (fun i => i < p) (seq 0 p)) by (apply Forall_forall; intros i Hi; apply in_seq in Hi; lia).
  revert F. generalize (seq 0 p) as is_. induction is_ as [|i is_ IH]; intros F; auto. inversion F; subst.
  cbn [flat_map]. rewrite flat_map_app, <- IH by auto. f_equal.
  rewrite flat_map_concat_map. rewrite (map_ext_in _ (fun q => part d (index_of q (local_devices mesh i)) (nth i xs []))).
  2:{ intros q Hq. apply filter_In in Hq. destruct Hq as [_ Hq]. apply Nat.eqb_eq in Hq. rewrite Hq. auto. }
  rewrite <- (map_map (fun q => index_of q (local_devices mesh i)) (fun k => part d k (nth i xs []))).
  fold (local_devices mesh i). rewrite index_of_all by (apply NoDup_filter, seq_NoDup). unfold local_devices. rewrite DM by auto.
  symmetry. apply put_ok; auto. rewrite XL by auto. auto.
Qed.
Lemma global_map {A B} (f : A -> B) mesh p d r (xs : list (list A)) g : 0 < d -> same_devices mesh p d -> length xs = p -> Forall (fun x => length x = r) xs -> r mod d = 0 ->
  to_global_array mesh xs = Ok g -> to_global_array mesh (map (map f) xs) = Ok (map f g).
Proof.
  intros Hd SD LX FX M G. destruct (global_rows mesh p d r xs) as (g0 & G0 & _ & ->); auto. rewrite G in G0. apply Ok_inj in G0. subst g.
  destruct (global_rows mesh p d r (map (map f) xs)) as (g1 & G1 & _ & ->); auto.
  { rewrite map_length. auto. } { apply Forall_forall. intros x Hx. apply in_map_iff in Hx. destruct Hx as (y & <- & Hy). rewrite map_length. rewrite Forall_forall in FX. auto. }
  rewrite G1. f_equal. rewrite concat_map, map_map. f_equal. apply map_ext. intros q. cbv zeta. rewrite part_map. f_equal.
  change (@nil B) with (map f []). apply map_nth.
Qed.
Lemma global_all {A} mesh p d r (xs : list (list A)) : 0 < d -> same_devices mesh p d -> length xs = p -> Forall (fun x => length x = r) xs -> r mod d = 0 ->
  exists g, to_global_array mesh xs = Ok g /\ Permutation g (concat xs) /\ forall B (f : A -> B), to_global_array mesh (map (map f) xs) = Ok (map f g).
Proof.
  intros Hd SD LX FX M. destruct (global_rows mesh p d r xs) as (g & G & P & _); auto. exists g. split; auto. split; auto.
  intros B f. eapply global_map; eauto.
Qed.
Lemma put_error {A} (x : list A) d : 0 < d -> put_to_devices x d = Raise ValueError \/ length x mod d = 0 /\ exists y, put_to_devices x d = Ok y.
Proof. intros Hd. unfold put_to_devices. destruct (Nat.eqb_spec d 0); [lia|]. destruct (Nat.eqb_spec (length x mod d) 0); eauto. Qed.
Lemma global_error {A} mesh p d (xs : list (list A)) i : 0 < d -> same_devices mesh p d -> length xs = p -> i < p ->
  length (nth i xs []) mod d <> 0 -> to_global_array mesh xs = Raise ValueError.
Proof.
  intros Hd (_ & _ & DM) LX Hi M. unfold to_global_array.
  assert (K : forall is_, Forall (fun i => i < p) is_ -> In i is_ -> rmap (fun i => put_to_devices (nth i xs []) (length (local_devices mesh i))) is_ = Raise ValueError).
  { induction is_ as [|j is_ IH]; intros F I; [destruct I|]. inversion F; subst. cbn [rmap]. unfold local_devices at 1. rewrite DM by auto.
    destruct (put_error (nth j xs []) d Hd) as [->|(Mj & y & ->)]; auto. cbn [bind]. destruct I as [->|I]; [contradiction|]. rewrite IH; auto. }
  rewrite K; auto; [apply Forall_forall; intros j Hj|]; [apply in_seq in Hj; lia|apply in_seq; lia].
Qed.
