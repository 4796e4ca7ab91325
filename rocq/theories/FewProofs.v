(** Proofs for C48. *)
From Coq Require Import List Arith Bool Reals Lia Lra Permutation.
From Verif Require Import PyLemmas SoftSpec ElmModel ElmSpec FewModel FewSpec.
From Verif Require Import Py.
Import ListNotations.
Local Open Scope nat_scope.

(** ** Representations *)
Section Repr.
Context {St Img Feat : Type}.
Variable step : St -> list Img -> St * list Feat.
Hypothesis step_rows : forall s x, length (snd (step s x)) = length x.
Lemma masked_rows_ok {A} (x : list A) : forall mask, length x = length mask -> masked_rows x mask = Ok (map fst (filter snd (combine x mask))).
Proof.
  induction x as [|a x IH]; intros [|m mask] H; try discriminate; auto. cbn [masked_rows]. rewrite IH by (simpl in H; lia). cbn [bind combine filter snd]. destruct m; reflexivity.
Qed.
Lemma representation_ok s batches : (forall b, List.In b batches -> well_formed b) -> batches <> [] ->
  compute_representation step s batches = Ok (state_after step s batches, batch_features step s batches, valid_rows b_labels batches).
Proof using step_rows.
  intros W N. unfold compute_representation.
  set (F := fun st b => _).
  assert (K : forall bs s0 fs ls, (forall b, List.In b bs -> well_formed b) -> exists fs' ls',
            rfold F bs (s0, fs, ls) = Ok (state_after step s0 bs, fs ++ fs', ls ++ ls') /\ length fs' = length bs /\ length ls' = length bs /\
            concat fs' = batch_features step s0 bs /\ concat ls' = valid_rows b_labels bs).
  { induction bs as [|b bs IH]; intros s0 fs ls Wb.
    - exists [], []. cbn [rfold]. rewrite !app_nil_r. auto.
    - destruct (Wb b (or_introl eq_refl)) as (W1 & W2). cbn [rfold]. unfold F at 1. assert (SR := step_rows s0 (b_images b)). destruct (step s0 (b_images b)) as [s1 feats] eqn:ES. cbn [snd] in SR.
      rewrite !masked_rows_ok by congruence. cbn [bind].
      edestruct (IH s1 (fs ++ [map fst (filter snd (combine feats (b_valid b)))]) (ls ++ [map fst (filter snd (combine (b_labels b) (b_valid b)))])) as (fs' & ls' & E & L1 & L2 & C1 & C2); [intros; apply Wb; right; auto|].
      rewrite E. eexists (_ :: fs'), (_ :: ls'). rewrite <- !app_assoc. cbn [app]. cbn [state_after batch_features]. rewrite ES. cbn [fst snd]. split; [reflexivity|]. cbn [length concat]. rewrite C1, C2, L1, L2. auto. }
  destruct (K batches s [] [] W) as (fs' & ls' & E & L1 & L2 & C1 & C2). rewrite E. cbn [bind app]. destruct batches as [|b0 bs]; [contradiction|]. destruct fs', ls'; try discriminate. cbn [concatenate bind]. rewrite C1, C2. reflexivity.
Qed.
Lemma features_length s batches : (forall b, List.In b batches -> well_formed b) -> length (batch_features step s batches) = length (valid_rows b_labels batches).
Proof using step_rows.
  intros W. revert s. induction batches as [|b bs IH]; intros s; auto. cbn [batch_features]. unfold valid_rows in *. cbn [map concat]. rewrite !app_length. rewrite IH by (intros; apply W; right; auto). f_equal.
  destruct (W b (or_introl eq_refl)) as (W1 & W2). rewrite !map_length. assert (SR := step_rows s (b_images b)).
  assert (K : forall {A B} (x : list A) (y : list B) m, length x = length m -> length y = length m -> length (filter snd (combine x m)) = length (filter snd (combine y m))).
  { clear. intros A B. induction x as [|a x IH]; intros [|b y] [|v m] H1 H2; try discriminate; auto. cbn [combine filter snd]. simpl in H1, H2. destruct v; simpl; rewrite (IH y m); auto; lia. }
  apply K; congruence.
Qed.
End Repr.

(** ** Sampling *)
Section Sampling.
Variable permutation : nat -> nat -> list nat -> list nat.
Hypothesis permutes : forall seed c l, Permutation (permutation seed c l) l.
Lemma where_in labels c i : List.In i (where_label labels c) <-> i < length labels /\ nth i labels 0 = c.
Proof. unfold where_label. rewrite filter_In, in_seq, Nat.eqb_eq. lia. Qed.
Lemma where_nodup labels c : NoDup (where_label labels c).
Proof. apply NoDup_filter, seq_NoDup. Qed.
Lemma where_count labels c : length (where_label labels c) = count_label labels c.
Proof.
  unfold where_label, count_label. assert (K : forall n k, length (filter (fun i => nth i labels 0 =? c) (seq k n)) = length (filter (Nat.eqb c) (map (fun i => nth i labels 0) (seq k n)))).
  { induction n as [|n IH]; intros k; auto. cbn [seq map filter]. rewrite (Nat.eqb_sym c). destruct (nth k labels 0 =? c); simpl; rewrite IH; auto. }
  rewrite K. f_equal. f_equal. clear. induction labels as [|a l IH]; auto. cbn [length seq map]. f_equal. rewrite <- seq_shift, map_map. exact IH.
Qed.
Lemma firstn_in {A} n (l : list A) x : List.In x (firstn n l) -> List.In x l.
Proof. revert l. induction n as [|n IH]; intros [|a l]; simpl; auto; [intros []|]. intros [->|H]; auto. Qed.
Lemma firstn_nodup {A} n (l : list A) : NoDup l -> NoDup (firstn n l).
Proof. intros H. revert n. induction H as [|a l NI ND IH]; intros [|n]; simpl; try constructor; auto. intros I. apply NI. eapply firstn_in, I. Qed.
Definition part seed shot labels c := firstn shot (permutation seed c (where_label labels c)).
Lemma part_in seed shot labels c i : List.In i (part seed shot labels c) -> i < length labels /\ nth i labels 0 = c.
Proof using permutes. intros H. apply firstn_in in H. apply (Permutation_in _ (permutes seed c _)) in H. apply where_in in H. auto. Qed.
Lemma part_nodup seed shot labels c : NoDup (part seed shot labels c).
Proof using permutes. apply firstn_nodup. eapply Permutation_NoDup; [symmetry; apply permutes|]. apply where_nodup. Qed.
Lemma part_length seed shot labels c : length (part seed shot labels c) = Nat.min shot (count_label labels c).
Proof using permutes. unfold part. rewrite firstn_length, (Permutation_length (permutes seed c _)), where_count. reflexivity. Qed.
Lemma nodup_app {A} (a b : list A) : NoDup a -> NoDup b -> (forall x, List.In x a -> List.In x b -> False) -> NoDup (a ++ b).
Proof.
  intros Ha Hb H. induction Ha as [|x a NI ND IH]; auto. simpl. constructor; [|apply IH; intros y Y1 Y2; apply (H y); simpl; auto]. intros I. apply in_app_or in I. destruct I as [I|I]; auto. apply (H x); simpl; auto.
Qed.
Lemma filter_all {A} (f : A -> bool) l : (forall x, List.In x l -> f x = true) -> filter f l = l.
Proof. induction l as [|a l IH]; intros H; auto. simpl. rewrite H by (left; auto). f_equal. apply IH. intros; apply H; right; auto. Qed.
Lemma filter_none {A} (f : A -> bool) l : (forall x, List.In x l -> f x = false) -> filter f l = [].
Proof. induction l as [|a l IH]; intros H; auto. simpl. rewrite H by (left; auto). apply IH. intros; apply H; right; auto. Qed.
Definition picked seed shot labels n := concat (map (part seed shot labels) (seq 0 n)).
Lemma picked_S seed shot labels n : picked seed shot labels (S n) = picked seed shot labels n ++ part seed shot labels n.
Proof. unfold picked. rewrite seq_S, map_app, concat_app. cbn [map concat Nat.add]. rewrite app_nil_r. reflexivity. Qed.
Lemma picked_in seed shot labels n i : List.In i (picked seed shot labels n) -> i < length labels /\ nth i labels 0 < n.
Proof using permutes.
  induction n as [|n IH]; [intros []|]. rewrite picked_S. intros H. apply in_app_or in H. destruct H as [H|H]; [apply IH in H; lia|]. apply part_in in H. lia.
Qed.
Lemma picked_nodup seed shot labels n : NoDup (picked seed shot labels n).
Proof using permutes.
  induction n as [|n IH]; [constructor|]. rewrite picked_S. apply nodup_app; auto; [apply part_nodup|]. intros x X1 X2. apply picked_in in X1. apply part_in in X2. lia.
Qed.
Lemma picked_count seed shot labels n c : c < n -> filter (fun i => nth i labels 0 =? c) (picked seed shot labels n) = part seed shot labels c.
Proof using permutes.
  induction n as [|n IH]; intros H; [lia|]. rewrite picked_S, filter_app. destruct (Nat.eq_dec c n) as [->|N].
  - rewrite filter_none, filter_all; auto; intros x X; [apply part_in in X; apply Nat.eqb_eq; lia|apply picked_in in X; apply Nat.eqb_neq; lia].
  - rewrite IH by lia. rewrite (filter_none _ (part seed shot labels n)); [apply app_nil_r|]. intros x X. apply part_in in X. apply Nat.eqb_neq. lia.
Qed.
Lemma shot_indices_eq seed shot labels n : 1 <= n -> shot_indices shot (class_indices permutation seed n labels) = Ok (picked seed shot labels n).
Proof.
  intros H. unfold shot_indices, class_indices. rewrite map_map. unfold picked, part. destruct n as [|n]; [lia|]. reflexivity.
Qed.
Lemma sampling seed shot labels num_classes : 1 <= num_classes ->
  exists idx, shot_indices shot (class_indices permutation seed num_classes labels) = Ok idx /\ NoDup idx /\
    (forall i, List.In i idx -> i < length labels /\ nth i labels 0 < num_classes) /\
    forall c, c < num_classes -> length (filter (fun i => nth i labels 0 =? c) idx) = Nat.min shot (count_label labels c).
Proof using permutes.
  intros H. exists (picked seed shot labels num_classes). split; [apply shot_indices_eq; auto|]. split; [apply picked_nodup|]. split; [intros i; apply picked_in|].
  intros c Hc. rewrite picked_count by auto. apply part_length.
Qed.
Lemma nested seed s1 s2 labels num_classes idx1 idx2 : s1 <= s2 ->
  shot_indices s1 (class_indices permutation seed num_classes labels) = Ok idx1 -> shot_indices s2 (class_indices permutation seed num_classes labels) = Ok idx2 ->
  incl idx1 idx2.
Proof.
  intros H. destruct num_classes as [|n]; [discriminate|]. rewrite !shot_indices_eq by lia. intros E1 E2. apply Ok_inj in E1, E2. subst.
  intros i Hi. unfold picked in *. apply in_concat in Hi. destruct Hi as (l & L & I). apply in_map_iff in L. destruct L as (c & <- & C). apply in_concat. exists (part seed s2 labels c). split; [apply in_map_iff; eauto|].
  unfold part in *. replace (firstn s1 _) with (firstn s1 (firstn s2 (permutation seed c (where_label labels c)))) in I by (rewrite firstn_firstn; f_equal; lia). eapply firstn_in, I.
Qed.
End Sampling.

(** ** The results of a dataset *)
Lemma result_unique {Acc} (results : list (nat * R * Acc)) shot l2 v : List.In (shot, l2, v) results -> (forall v', List.In (shot, l2, v') results -> v' = v) -> result_of results shot l2 = Ok v.
Proof.
  intros I U. unfold result_of. set (t := fun r => _). destruct (find t (rev results)) as [[[s' l'] v']|] eqn:E.
  - apply find_some in E. destruct E as (E1 & E2). apply in_rev in E1. unfold t in E2. cbn [fst snd] in E2. apply andb_true_iff in E2. destruct E2 as (E2 & E3). apply Nat.eqb_eq in E2. destruct (Req_EM_T l' l2) as [->|]; [|discriminate]. subst s'. cbn [snd]. f_equal. apply U. auto.
  - exfalso. apply in_rev in I. assert (Q := find_none _ _ E _ I). unfold t in Q. cbn [fst snd] in Q. rewrite Nat.eqb_refl in Q. destruct (Req_EM_T l2 l2); [discriminate|congruence].
Qed.
Lemma rmap_total {A B} (f : A -> res B) l : (forall a, List.In a l -> exists b, f a = Ok b) -> exists r, rmap f l = Ok r /\ Forall2 (fun a b => f a = Ok b) l r.
Proof.
  induction l as [|a l IH]; intros H; [exists []; split; auto|]. destruct (H a (or_introl eq_refl)) as (b & E). destruct IH as (r & R & F); [intros; apply H; right; auto|]. exists (b :: r). split; [|constructor; auto]. simpl. rewrite E. simpl. change ((fix go l := match l with [] => Ok [] | x :: r0 => bind (f x) (fun y => bind (go r0) (fun ys => Ok (y :: ys))) end) l) with (rmap f l). rewrite R. reflexivity.
Qed.
Lemma F2_in_l {A B} (P : A -> B -> Prop) l r a : Forall2 P l r -> List.In a l -> exists b, List.In b r /\ P a b.
Proof. induction 1 as [|x y l r H F IH]; intros I; [destruct I|]. destruct I as [->|I]; [exists y; simpl; auto|]. destruct (IH I) as (b & B1 & B2). exists b. simpl. auto. Qed.
Lemma F2_in_r {A B} (P : A -> B -> Prop) l r b : Forall2 P l r -> List.In b r -> exists a, List.In a l /\ P a b.
Proof. induction 1 as [|x y l r H F IH]; intros I; [destruct I|]. destruct I as [->|I]; [exists x; simpl; auto|]. destruct (IH I) as (a & B1 & B2). exists a. simpl. auto. Qed.
Lemma rows_at_ok {A} (x : list A) idx : (forall i, List.In i idx -> i < length x) -> exists r, rows_at x idx = Ok r /\ map (nth_error x) idx = map Some r.
Proof.
  intros H. unfold rows_at. induction idx as [|i idx IH]; [exists []; auto|]. destruct (nth_error x i) as [a|] eqn:E.
  - destruct IH as (r & R & M); [intros; apply H; right; auto|]. exists (a :: r). split; [|simpl; rewrite E, M; auto]. simpl. rewrite E. cbn [bind]. fold (rmap (fun i => match nth_error x i with Some a => Ok a | None => Raise IndexError end)). rewrite R. reflexivity.
  - apply nth_error_None in E. specialize (H i (or_introl eq_refl)). lia.
Qed.
Section Metrics.
Context {St Img Feat Acc : Type}.
Variable step : St -> list Img -> St * list Feat.
Hypothesis step_rows : forall s x, length (snd (step s x)) = length x.
Variable permutation : nat -> nat -> list nat -> list nat.
Hypothesis permutes : forall seed c l, Permutation (permutation seed c l) l.
Variable accuracy : list Feat -> list nat -> nat -> list Feat -> list nat -> R -> Acc.
Lemma metrics_ok shots l2_regs num_classes s tr te seed :
  (forall b, List.In b tr -> well_formed b) -> (forall b, List.In b te -> well_formed b) -> tr <> [] -> te <> [] -> 1 <= num_classes ->
  exists results, compute_fewshot_metrics step permutation accuracy shots l2_regs num_classes s tr te seed = Ok results /\
    forall shot l2, List.In shot shots -> List.In l2 l2_regs -> exists idx x y,
      shot_indices shot (class_indices permutation seed num_classes (valid_rows b_labels tr)) = Ok idx /\
      map (nth_error (batch_features step s tr)) idx = map Some x /\ map (nth_error (valid_rows b_labels tr)) idx = map Some y /\
      result_of results shot l2 = Ok (accuracy x y num_classes (batch_features step (state_after step s tr) te) (valid_rows b_labels te) l2).
Proof using step_rows permutes.
  intros W1 W2 N1 N2 HC. unfold compute_fewshot_metrics. rewrite (representation_ok step step_rows s tr W1 N1). cbn [bind]. rewrite (representation_ok step step_rows _ te W2 N2). cbn [bind].
  set (trf := batch_features step s tr). set (trl := valid_rows b_labels tr). set (tef := batch_features step (state_after step s tr) te). set (tel := valid_rows b_labels te).
  assert (LF : length trf = length trl) by (apply features_length; auto).
  set (F := fun shot => bind (shot_indices shot _) _).
  assert (T : forall shot, exists idx x y, shot_indices shot (class_indices permutation seed num_classes trl) = Ok idx /\ map (nth_error trf) idx = map Some x /\ map (nth_error trl) idx = map Some y /\
            F shot = Ok (map (fun l2 => (shot, l2, accuracy x y num_classes tef tel l2)) l2_regs)).
  { intros shot. destruct (sampling permutation permutes seed shot trl num_classes HC) as (idx & E & _ & B & _). exists idx.
    destruct (rows_at_ok trf idx) as (x & Ex & Mx); [intros i Hi; apply B in Hi; lia|]. destruct (rows_at_ok trl idx) as (y & Ey & My); [intros i Hi; apply B in Hi; lia|].
    exists x, y. repeat split; auto. unfold F. rewrite E. cbn [bind]. rewrite Ex. cbn [bind]. rewrite Ey. reflexivity. }
  destruct (rmap_total F shots) as (rs & ER & F2); [intros a _; destruct (T a) as (idx & x & y & _ & _ & _ & E); eauto|].
  rewrite ER. cbn [bind]. exists (concat rs). split; auto. intros shot l2 HS HL. destruct (T shot) as (idx & x & y & EI & Mx & My & EF). exists idx, x, y. repeat split; auto.
  apply result_unique.
  - apply in_concat. destruct (F2_in_l _ _ _ _ F2 HS) as (l & L1 & L2). exists l. split; auto. rewrite EF in L2. apply Ok_inj in L2. subst l. apply in_map_iff. eauto.
  - intros v' I. apply in_concat in I. destruct I as (l & L1 & L2). destruct (F2_in_r _ _ _ _ F2 L1) as (shot' & HS' & E'). destruct (T shot') as (idx' & x' & y' & EI' & Mx' & My' & EF'). rewrite EF' in E'. apply Ok_inj in E'. subst l.
    apply in_map_iff in L2. destruct L2 as (l2' & Q & _). injection Q as -> -> <-. rewrite EF' in EF. apply Ok_inj in EF. 
    rewrite EI in EI'. apply Ok_inj in EI'. subst idx'. assert (x' = x). { rewrite Mx in Mx'. clear - Mx'. revert x' Mx'. induction x as [|a x IH]; intros [|b x'] H; try discriminate; auto. injection H as -> H. f_equal. auto. }
    assert (y' = y). { rewrite My in My'. clear - My'. revert y' My'. induction y as [|a y IH]; intros [|b y'] H; try discriminate; auto. injection H as -> H. f_equal. auto. }
    subst. reflexivity.
Qed.
(** The same object for both splits: nothing is left for the test. *)
Lemma empty_test shots l2_regs num_classes s tr seed : (forall b, List.In b tr -> well_formed b) -> tr <> [] ->
  compute_fewshot_metrics step permutation accuracy shots l2_regs num_classes s tr [] seed = Raise ValueError.
Proof using step_rows. intros W N. unfold compute_fewshot_metrics. rewrite (representation_ok step step_rows s tr W N). reflexivity. Qed.
End Metrics.

(** ** Ranks *)
Lemma increasing_id n (a : nat -> nat) : (forall i, i < n -> a i < n) -> (forall i j, i < j -> j < n -> a i < a j) -> forall i, i < n -> a i = i.
Proof.
  intros B M. assert (L : forall i, i < n -> i <= a i). { induction i as [|i IH]; intros H; [lia|]. assert (Q := M i (S i) ltac:(lia) H). specialize (IH ltac:(lia)). lia. }
  assert (U : forall k i, i < n -> n - i = S k -> a i + k < n). { induction k as [|k IH]; intros i H E; [specialize (B i H); lia|]. assert (Q := M i (S i) ltac:(lia) ltac:(lia)). assert (P := IH (S i) ltac:(lia) ltac:(lia)). lia. }
  intros i H. specialize (L i H). specialize (U (n - i - 1) i H ltac:(lia)). lia.
Qed.
Lemma perm_seq p n : Permutation p (seq 0 n) -> length p = n /\ (forall i, i < n -> nth i p 0 < n) /\ (forall i j, i < n -> j < n -> nth i p 0 = nth j p 0 -> i = j).
Proof.
  intros P. assert (L := Permutation_length P). rewrite seq_length in L. split; auto. split.
  - intros i Hi. assert (I : List.In (nth i p 0) p) by (apply nth_In; lia). apply (Permutation_in _ P) in I. apply in_seq in I. lia.
  - intros i j Hi Hj E. assert (ND : NoDup p) by (eapply Permutation_NoDup; [symmetry; exact P|apply seq_NoDup]). apply (proj1 (NoDup_nth p 0) ND); auto; lia.
Qed.
Lemma nth_map_INR k p : nth k (map INR p) 0%R = INR (nth k p 0).
Proof. exact (map_nth INR p 0 k). Qed.
Section Rank.
Variable argsort : list R -> list nat.
Hypothesis argsort_sorts : forall l, sorts l (argsort l).
Lemma ranks_ok l : ranking l (ranks argsort l).
Proof using argsort_sorts.
  unfold ranks. destruct (argsort_sorts l) as (P & SP). set (p := argsort l) in *. destruct (argsort_sorts (map INR p)) as (Q & SQ). set (q := argsort (map INR p)) in *. rewrite map_length in *.
  destruct (perm_seq p _ P) as (Lp & Bp & Ip). rewrite Lp in *. set (n := length l) in *. destruct (perm_seq q _ Q) as (Lq & Bq & Iq). split; auto.
  assert (ID : forall i, i < n -> nth (nth i q 0) p 0 = i).
  { apply (increasing_id n (fun i => nth (nth i q 0) p 0)); [intros; apply Bp, Bq; auto|]. intros i j Hij Hj. assert (H := SQ i j Hij Hj).
    rewrite !nth_map_INR in H. apply INR_le in H.
    assert (nth (nth i q 0) p 0 <> nth (nth j q 0) p 0); [|lia]. intros E. apply Ip in E; [|apply Bq; lia|apply Bq; lia]. apply Iq in E; lia. }
  intros i j Hi Hj H. destruct (Nat.lt_trichotomy (nth i q 0) (nth j q 0)) as [L|[L|L]]; auto; exfalso.
  - apply Iq in L; auto. subst j. lra.
  - assert (K := SP _ _ L (Bq i Hi)). rewrite !ID in K by auto. lra.
Qed.
Lemma argmax_list_ok l : l <> [] -> exists i, argmax_list l = Ok i /\ first_best (length l) (fun i => nth i l 0%R) i.
Proof.
  intros N. unfold argmax_list. destruct l as [|a l0] eqn:EL; [contradiction|]. rewrite <- EL in *. eexists. split; [reflexivity|]. assert (LN : 1 <= length l) by (rewrite EL; simpl; lia). clear a l0 EL N.
  set (g := fun best i => _).
  assert (K : forall k, 1 + k <= length l -> first_best (1 + k) (fun i => nth i l 0%R) (fold_left g (seq 1 k) 0)).
  { induction k as [|k IH]; intros Hk.
    - cbn [seq fold_left]. split; [lia|]. split; [|intros; lia]. intros c Hc. replace c with 0 by lia. lra.
    - rewrite seq_S, fold_left_app. cbn [fold_left]. destruct (IH ltac:(lia)) as (A & B & D). set (best := fold_left g (seq 1 k) 0) in *. clearbody best. unfold g.
      destruct (Rlt_dec (nth best l 0%R) (nth (1 + k) l 0%R)) as [W|W].
      + split; [lia|]. split.
        * intros c Hc. destruct (Nat.eq_dec c (1 + k)) as [->|]; [lra|]. assert (Q := B c ltac:(lia)). lra.
        * intros c Hc. assert (Q := B c ltac:(lia)). lra.
      + split; [lia|]. split; auto. intros c Hc. destruct (Nat.eq_dec c (1 + k)) as [->|]; [|apply B; lia]. lra. }
  specialize (K (length l - 1) ltac:(lia)). replace (1 + (length l - 1)) with (length l) in K by lia. exact K.
Qed.
Lemma sum_INR l : fold_right Rplus 0%R (map INR l) = INR (list_sum l).
Proof. induction l as [|a l IH]; auto. cbn [map fold_right]. unfold list_sum in *. cbn [fold_right]. rewrite plus_INR, IH. reflexivity. Qed.
Lemma mean_rank_at n rs i : i < n -> nth i (mean_ranks n rs) 0%R = (INR (total_rank rs i) / INR (length rs))%R.
Proof.
  intros H. unfold mean_ranks. set (f := fun i => (_ / _)%R). rewrite (nth_indep _ 0%R (f 0)) by (rewrite map_length, seq_length; auto). rewrite map_nth, seq_nth by auto. unfold f, total_rank. cbn [Nat.add]. rewrite <- (map_map (fun r => nth i r 0) INR). rewrite sum_INR. reflexivity.
Qed.
Lemma best_ok {Name} (all_results : list (Name * list (nat * R * R))) shots l2_regs (acc : Name * list (nat * R * R) -> nat -> R -> R) :
  all_results <> [] -> l2_regs <> [] ->
  (forall nr shot l2, List.In nr all_results -> List.In shot shots -> List.In l2 l2_regs -> result_of (snd nr) shot l2 = Ok (acc nr shot l2)) ->
  exists best, find_best_l2_reg argsort all_results shots l2_regs = Ok best /\
    Forall2 (fun shot b => fst b = shot /\ exists rs i,
      Forall2 (fun nr r => ranking (map (acc nr shot) l2_regs) r) all_results rs /\
      i < length l2_regs /\ snd b = nth i l2_regs 0%R /\ first_best (length l2_regs) (fun i => INR (total_rank rs i)) i) shots best.
Proof using argsort_sorts.
  intros NA NL H. unfold find_best_l2_reg. set (F := fun shot => bind _ _).
  assert (K : forall shot, List.In shot shots -> exists b, F shot = Ok b /\ fst b = shot /\ exists rs i,
      Forall2 (fun nr r => ranking (map (acc nr shot) l2_regs) r) all_results rs /\
      i < length l2_regs /\ snd b = nth i l2_regs 0%R /\ first_best (length l2_regs) (fun i => INR (total_rank rs i)) i).
  { intros shot HS. unfold F.
    set (G := fun nr : Name * list (nat * R * R) => bind (rmap (fun l2 => result_of (snd nr) shot l2) l2_regs) _).
    assert (EG : forall nr, List.In nr all_results -> G nr = Ok (ranks argsort (map (acc nr shot) l2_regs))).
    { intros nr HN. unfold G. assert (E : rmap (fun l2 => result_of (snd nr) shot l2) l2_regs = Ok (map (acc nr shot) l2_regs)).
      { assert (Q : forall l, incl l l2_regs -> rmap (fun l2 => result_of (snd nr) shot l2) l = Ok (map (acc nr shot) l)).
        { induction l as [|a l IH]; intros I; auto. cbn [rmap map]. rewrite H by (auto; apply I; left; auto). cbn [bind]. fold (rmap (fun l2 => result_of (snd nr) shot l2)). rewrite IH by (intros x Hx; apply I; right; auto). reflexivity. }
        apply Q, incl_refl. }
      rewrite E. reflexivity. }
    assert (EM : rmap G all_results = Ok (map (fun nr => ranks argsort (map (acc nr shot) l2_regs)) all_results)).
    { assert (Q : forall l, incl l all_results -> rmap G l = Ok (map (fun nr => ranks argsort (map (acc nr shot) l2_regs)) l)).
      { induction l as [|a l IH]; intros I; auto. cbn [rmap map]. rewrite EG by (apply I; left; auto). cbn [bind]. fold (rmap G). rewrite IH by (intros x Hx; apply I; right; auto). reflexivity. }
      apply Q, incl_refl. }
    rewrite EM. cbn [bind]. set (rs := map _ all_results). assert (NR : rs <> []) by (unfold rs; destruct all_results; [contradiction|discriminate]).
    assert (LP : 1 <= length l2_regs) by (destruct l2_regs; [contradiction|simpl; lia]).
    destruct (argmax_list_ok (mean_ranks (length l2_regs) rs)) as (i & EA & FB).
    { unfold mean_ranks. destruct l2_regs; [contradiction|]. discriminate. }
    replace (match rs with [] => Ok 0 | _ => argmax_list (mean_ranks (length l2_regs) rs) end) with (Ok i : res nat) by (destruct rs; [contradiction|symmetry; exact EA]).
    cbn [bind]. assert (LM : length (mean_ranks (length l2_regs) rs) = length l2_regs) by (unfold mean_ranks; rewrite map_length, seq_length; auto). rewrite LM in FB.
    assert (PR : (0 < / INR (length rs))%R). { apply Rinv_0_lt_compat, lt_0_INR. destruct rs; [contradiction|simpl; lia]. }
    destruct FB as (F1 & F2 & F3). destruct (nth_error l2_regs i) as [l2|] eqn:EN; [|apply nth_error_None in EN; lia]. exists (shot, l2). split; auto. split; auto. exists rs, i. split.
    - unfold rs. clear - argsort_sorts. induction all_results as [|nr l IH]; constructor; auto. apply ranks_ok.
    - split; auto. split; [cbn [snd]; symmetry; apply nth_error_nth; auto|]. split; auto. split.
      + intros c Hc. specialize (F2 c Hc). rewrite !mean_rank_at in F2 by auto. unfold Rdiv in F2. apply Rmult_le_reg_r in F2; auto.
      + intros c Hc. specialize (F3 c Hc). rewrite !mean_rank_at in F3 by lia. unfold Rdiv in F3. apply Rmult_lt_reg_r in F3; auto. }
  destruct (rmap_total F shots) as (best & EB & FB); [intros a Ha; destruct (K a Ha) as (b & E & _); eauto|]. exists best. split; auto.
  clear EB. assert (K' : forall a b, List.In a shots -> F a = Ok b -> fst b = a /\ exists rs i,
      Forall2 (fun nr r => ranking (map (acc nr a) l2_regs) r) all_results rs /\
      i < length l2_regs /\ snd b = nth i l2_regs 0%R /\ first_best (length l2_regs) (fun i => INR (total_rank rs i)) i).
  { intros a b Ha E. destruct (K a Ha) as (b' & E' & Q). rewrite E in E'. apply Ok_inj in E'. subst b'. exact Q. }
  clear - FB K'. induction FB as [|a b l r E F2 IH]; constructor; [apply K'; simpl; auto|]. apply IH. intros; apply K'; simpl; auto.
Qed.
(** The chosen value is not worse than another one on all datasets. *)
Lemma best_not_dominated {Name} (all_results : list (Name * list (nat * R * R))) shots l2_regs (acc : Name * list (nat * R * R) -> nat -> R -> R) best :
  all_results <> [] -> l2_regs <> [] ->
  (forall nr shot l2, List.In nr all_results -> List.In shot shots -> List.In l2 l2_regs -> result_of (snd nr) shot l2 = Ok (acc nr shot l2)) ->
  find_best_l2_reg argsort all_results shots l2_regs = Ok best ->
  forall shot l2, List.In (shot, l2) best -> List.In l2 l2_regs /\ forall l2', List.In l2' l2_regs -> exists nr, List.In nr all_results /\ (acc nr shot l2' <= acc nr shot l2)%R.
Proof using argsort_sorts.
  intros NA NL H E shot l2 I. destruct (best_ok all_results shots l2_regs acc NA NL H) as (best' & E' & F). rewrite E in E'. apply Ok_inj in E'. subst best'.
  destruct (F2_in_r _ _ _ _ F I) as (shot' & _ & E1 & rs & i & FR & Hi & E2 & FB). cbn [fst snd] in *. subst shot' l2. split; [apply nth_In; auto|].
  intros l2' I'. destruct (In_nth _ _ 0%R I') as (j & Hj & Ej).
  destruct (Classical_Prop.classic (exists nr, List.In nr all_results /\ (acc nr shot l2' <= acc nr shot (nth i l2_regs 0%R))%R)) as [|NE]; auto. exfalso.
  assert (D : forall nr, List.In nr all_results -> (acc nr shot (nth i l2_regs 0%R) < acc nr shot (nth j l2_regs 0%R))%R).
  { intros nr HN. apply Rnot_le_lt. intros Q. apply NE. exists nr. split; auto. rewrite <- Ej. auto. }
  assert (T : total_rank rs i < total_rank rs j).
  { clear - FR D Hi Hj NA. unfold total_rank. destruct FR as [|nr r l rs RK FR]; [contradiction|].
    assert (ONE : forall nr r, List.In nr (nr :: l) -> ranking (map (acc nr shot) l2_regs) r -> (acc nr shot (nth i l2_regs 0%R) < acc nr shot (nth j l2_regs 0%R))%R -> nth i r 0 < nth j r 0).
    { clear - Hi Hj. intros nr r _ (_ & RK) D. apply RK; rewrite ?map_length; auto. rewrite !(nth_indep (map (acc nr shot) l2_regs) 0%R (acc nr shot 0%R)) by (rewrite map_length; auto). rewrite !map_nth. auto. }
    cbn [map]. unfold list_sum. cbn [fold_right]. fold (list_sum (map (fun r => nth i r 0) rs)). fold (list_sum (map (fun r => nth j r 0) rs)).
    assert (A := ONE nr r (or_introl eq_refl) RK (D nr (or_introl eq_refl))).
    assert (B : list_sum (map (fun r => nth i r 0) rs) <= list_sum (map (fun r => nth j r 0) rs)).
    { assert (D' : forall nr, List.In nr l -> (acc nr shot (nth i l2_regs 0%R) < acc nr shot (nth j l2_regs 0%R))%R) by (intros; apply D; right; auto).
      clear - FR D' Hi Hj. induction FR as [|nr r l rs RK FR IH]; auto. cbn [map]. unfold list_sum in *. cbn [fold_right].
      assert (nth i r 0 < nth j r 0). { destruct RK as (_ & RK). apply RK; rewrite ?map_length; auto. rewrite !(nth_indep (map (acc nr shot) l2_regs) 0%R (acc nr shot 0%R)) by (rewrite map_length; auto). rewrite !map_nth. apply D'. left; auto. }
      specialize (IH ltac:(intros; apply D'; right; auto)). lia. }
    lia. }
  destruct FB as (_ & F2 & _). specialize (F2 j Hj). apply INR_le in F2. lia.
Qed.
End Rank.

(** ** The callback *)
Section Callback.
Context {St Img Feat Name : Type}.
Variable name_eqb : Name -> Name -> bool.
Hypothesis name_eq : forall a b, name_eqb a b = true <-> a = b.
Variable step : St -> list Img -> St * list Feat.
Variable permutation : nat -> nat -> list nat -> list nat.
Variable argsort : list R -> list nat.
Hypothesis argsort_sorts : forall l, sorts l (argsort l).
Variable accuracy : list Feat -> list nat -> nat -> list Feat -> list nat -> R -> R.
Variable make_state : nat -> St.
Variable permute_seed : nat -> nat.
Variable content : nat -> list (batch Img).
Lemma full_eq (a b : Name * option nat) : full_eqb Name name_eqb a b = true <-> a = b.
Proof using name_eq.
  destruct a as [n i], b as [m j]. unfold full_eqb. cbn [fst snd]. rewrite andb_true_iff, name_eq. destruct i as [i|], j as [j|]; rewrite ?Nat.eqb_eq; split; intros H; try (injection H; auto; fail); try discriminate H; try (destruct H as [-> H]; first [discriminate H|subst; reflexivity|reflexivity]).
Qed.
Lemma set_new l k v : ~ List.In k (map fst l) -> set_result Name name_eqb l k v = l ++ [(k, v)].
Proof using name_eq.
  induction l as [|[k' v'] l IH]; intros N; auto. cbn [set_result map fst] in *. destruct (full_eqb Name name_eqb k' k) eqn:E; [apply full_eq in E; exfalso; apply N; left; auto|]. rewrite IH by (intros I; apply N; right; auto). reflexivity.
Qed.
Lemma get_in l k v : NoDup (map fst l) -> List.In (k, v) l -> get_result Name name_eqb l k = Ok v.
Proof using name_eq.
  intros ND I. unfold get_result. destruct (find _ l) as [[k' v']|] eqn:E.
  - apply find_some in E. destruct E as (E1 & E2). cbn [fst] in E2. apply full_eq in E2. subst k'. cbn [snd]. f_equal. clear - ND I E1. induction l as [|[a b] l IH]; [destruct I|]. cbn [map fst] in ND. inversion ND; subst.
    destruct I as [I|I], E1 as [E|E].
    + congruence.
    + injection I as -> ->. exfalso. apply H1. apply in_map_iff. exists (k, v'). auto.
    + injection E as -> ->. exfalso. apply H1. apply in_map_iff. exists (k, v). auto.
    + auto.
  - exfalso. assert (Q := find_none _ _ E _ I). cbn [fst] in Q. assert (T := proj2 (full_eq k k) eq_refl). congruence.
Qed.
Variables (shots : list nat) (l2_regs : list R) (seeds : nat) (datasets : list (Name * (nat * nat * nat))).
Hypothesis names : NoDup (map fst datasets).
Variable r : Name -> nat -> list (nat * R * R).
Hypothesis computed : forall name tr te n sub, List.In (name, (tr, te, n)) datasets -> sub < seeds ->
  tr <> te /\ compute_fewshot_metrics step permutation accuracy shots l2_regs n (make_state sub) (content tr) (content te) (permute_seed sub) = Ok (r name sub).
Lemma full_inj a b i j : full_name Name seeds a i = full_name Name seeds b j -> a = b /\ (i < seeds -> j < seeds -> i = j).
Proof using. clear. unfold full_name. destruct (Nat.eqb_spec seeds 1) as [E|]; intros H; injection H; intros; subst; split; auto; lia. Qed.
Lemma expected_nodup : NoDup (map fst (expected_results seeds datasets r)).
Proof using names.
  unfold expected_results.
  assert (K : forall n, n <= seeds -> NoDup (map fst (concat (map (fun sub => map (fun ds => (full_name Name seeds (fst ds) sub, r (fst ds) sub)) datasets) (seq 0 n)))) /\
            forall x, List.In x (map fst (concat (map (fun sub => map (fun ds => (full_name Name seeds (fst ds) sub, r (fst ds) sub)) datasets) (seq 0 n)))) -> exists a i, i < n /\ x = full_name Name seeds a i).
  { induction n as [|n IH]; intros Hn; [split; [constructor|intros x []]|]. rewrite seq_S, map_app, concat_app. cbn [map concat Nat.add]. rewrite app_nil_r, map_app, map_map. cbn [fst]. destruct (IH ltac:(lia)) as (A & B). split.
    - apply nodup_app; auto.
      + clear - names. induction datasets as [|d l IH]; [constructor|]. cbn [map] in *. inversion names; subst. constructor; auto. intros I. apply in_map_iff in I. destruct I as (d' & E & I'). apply full_inj in E. destruct E as (E & _). apply H1. rewrite <- E. apply in_map. auto.
      + intros x X1 X2. apply B in X1. destruct X1 as (a & i & Hi & ->). apply in_map_iff in X2. destruct X2 as (d & E & _). apply full_inj in E. destruct E as (_ & E). specialize (E ltac:(lia) ltac:(lia)). lia.
    - intros x X. apply in_app_or in X. destruct X as [X|X]; [destruct (B x X) as (a & i & Hi & E); exists a, i; split; auto; lia|]. apply in_map_iff in X. destruct X as (d & <- & _). exists (fst d), n. auto. }
  apply K. lia.
Qed.
Lemma run_ok s : (forall i, s i = content i) ->
  exists s', run_all St Img Feat Name name_eqb step permutation accuracy make_state permute_seed content shots l2_regs seeds datasets s = Ok ((expected_results seeds datasets r), s') /\ forall i, s' i = content i.
Proof using name_eq names computed.
  intros HS. unfold run_all. set (inner := run_dataset St Img Feat Name name_eqb step permutation accuracy make_state permute_seed content shots l2_regs seeds).
  assert (IN : forall sub l res0 s0, sub < seeds -> incl l datasets -> NoDup (map fst l) -> (forall i, s0 i = content i) ->
            (forall ds, List.In ds l -> ~ List.In (full_name Name seeds (fst ds) sub) (map fst res0)) ->
            exists s', rfold (inner sub) l (res0, s0) = Ok (res0 ++ map (fun ds => (full_name Name seeds (fst ds) sub, r (fst ds) sub)) l, s') /\ forall i, s' i = content i).
  { intros sub l. induction l as [|[name [[tr te] n]] l IH]; intros res0 s0 Hsub I ND HC NI.
    - exists s0. cbn [rfold map]. rewrite app_nil_r. auto.
    - cbn [rfold]. unfold inner at 1, run_dataset. cbv zeta. destruct (computed name tr te n sub (I _ (or_introl eq_refl)) Hsub) as (TT & EC).
      replace (set_store Img s0 tr [] te) with (content te) by (unfold set_store; replace (te =? tr) with false by (symmetry; apply Nat.eqb_neq; congruence); auto). rewrite HC, EC. cbn [bind].
      cbn [map fst] in ND. inversion ND; subst. rewrite set_new by (exact (NI _ (or_introl eq_refl))).
      match goal with |- exists s', rfold _ l (?R1, ?S1) = _ /\ _ => destruct (IH R1 S1 Hsub) as (s' & E & H') end; auto.
      + intros x Hx. apply I. right. auto.
      + intros i. unfold set_store. destruct (i =? te) eqn:E1; [apply Nat.eqb_eq in E1; subst; auto|]. destruct (i =? tr) eqn:E2; [apply Nat.eqb_eq in E2; subst; auto|]. apply HC.
      + intros ds Hds. rewrite map_app. intros Q. apply in_app_or in Q. destruct Q as [Q|[Q|[]]]; [eapply NI; [right; exact Hds|exact Q]|]. cbn [fst] in Q. apply full_inj in Q. destruct Q as (Q & _). apply H1. rewrite Q. apply in_map. auto.
      + exists s'. split; auto. etransitivity; [exact E|]. rewrite <- app_assoc. reflexivity. }
  assert (OUT : forall k, k <= seeds -> exists s', rfold (fun st sub => rfold (inner sub) datasets st) (seq 0 k) ([], s) =
            Ok (concat (map (fun sub => map (fun ds => (full_name Name seeds (fst ds) sub, r (fst ds) sub)) datasets) (seq 0 k)), s') /\ forall i, s' i = content i).
  { induction k as [|k IH]; intros Hk; [exists s; auto|]. destruct (IH ltac:(lia)) as (s1 & E1 & H1). rewrite seq_S, rfold_app, E1. cbn [bind rfold Nat.add].
    match goal with |- context [rfold _ datasets (?R1, ?S1)] => destruct (IN k datasets R1 S1 ltac:(lia) (incl_refl _) names H1) as (s' & E & H') end.
    - intros ds _ Q. rewrite concat_map, map_map in Q. apply in_concat in Q. destruct Q as (l & L & Q). apply in_map_iff in L. destruct L as (i & <- & I). apply in_seq in I. rewrite map_map in Q. apply in_map_iff in Q. destruct Q as (d & E & _). cbn [fst] in E. apply full_inj in E. destruct E as (_ & E). specialize (E ltac:(lia) ltac:(lia)). lia.
    - match goal with |- exists _, bind ?X _ = _ /\ _ => match type of E with _ = ?Y => replace X with Y by (symmetry; exact E) end end. cbn [bind]. exists s'. split; auto. rewrite map_app, concat_app. cbn [map concat]. rewrite app_nil_r. reflexivity. }
  destruct (OUT seeds (le_n _)) as (s' & E & H'). exists s'. split; auto.
Qed.
Hypothesis ds_ne : datasets <> [].
Hypothesis l2_ne : l2_regs <> [].
Hypothesis seeds_pos : 1 <= seeds.
Variable acc : Name -> nat -> nat -> R -> R.
Hypothesis acc_ok : forall name sub shot l2, List.In name (map fst datasets) -> sub < seeds -> List.In shot shots -> List.In l2 l2_regs -> result_of (r name sub) shot l2 = Ok (acc name sub shot l2).
Lemma rmap_map {A B} (f : A -> res B) g l : (forall a, List.In a l -> f a = Ok (g a)) -> rmap f l = Ok (map g l).
Proof using.
  induction l as [|a l IH]; intros H; auto. cbn [rmap map]. rewrite H by (left; auto). cbn [bind]. fold (rmap f). rewrite IH by (intros; apply H; right; auto). reflexivity.
Qed.
Lemma expected_in nr : List.In nr (expected_results seeds datasets r) <-> exists ds sub, List.In ds datasets /\ sub < seeds /\ nr = (full_name Name seeds (fst ds) sub, r (fst ds) sub).
Proof using seeds_pos.
  unfold expected_results. rewrite in_concat. split.
  - intros (l & L & I). apply in_map_iff in L. destruct L as (sub & <- & HS). apply in_seq in HS. apply in_map_iff in I. destruct I as (ds & <- & I). exists ds, sub. split; auto. split; auto. lia.
  - intros (ds & sub & I & HS & ->). eexists. split; [apply in_map_iff; exists sub; split; [reflexivity|apply in_seq; lia]|]. apply in_map_iff. exists ds. auto.
Qed.
Lemma callback_ok main_task s : (forall i, s i = content i) ->
  match main_task with None => True | Some (name, shot) => List.In name (map fst datasets) /\ List.In shot shots end ->
  exists bestv s', find_best_l2_reg argsort (expected_results seeds datasets r) shots l2_regs = Ok (map (fun shot => (shot, bestv shot)) shots) /\
    (forall i, s' i = content i) /\
    callback St Img Feat Name name_eqb step permutation argsort accuracy make_state permute_seed content shots l2_regs seeds datasets main_task s =
    Ok (map (fun shot => (BestL2 Name shot, bestv shot)) shots ++
        concat (map (fun sub => concat (map (fun ds => map (fun shot => (Shot Name (full_name Name seeds (fst ds) sub) shot, acc (fst ds) sub shot (bestv shot))) shots) datasets)) (seq 0 seeds)) ++
        match main_task with None => [] | Some (name, shot) => [(Main Name name shot, mean seeds (fun sub => acc name sub shot (bestv shot)))] end, s').
Proof using name_eq argsort_sorts names computed ds_ne l2_ne seeds_pos acc_ok.
  intros HS HM.
  assert (NE : expected_results seeds datasets r <> []).
  { intros E. assert (X : exists d, List.In d datasets) by (clear - ds_ne; destruct datasets as [|d l]; [contradiction|]; exists d; left; auto). destruct X as (d & Hd).
    assert (I : List.In (full_name Name seeds (fst d) 0, r (fst d) 0) (expected_results seeds datasets r)) by (apply expected_in; exists d, 0; split; [auto|split; [lia|auto]]). rewrite E in I. destruct I. }
  set (accr := fun (nr : (Name * option nat) * list (nat * R * R)) shot l2 => match result_of (snd nr) shot l2 with Ok a => a | _ => 0%R end).
  assert (HA : forall nr shot l2, List.In nr (expected_results seeds datasets r) -> List.In shot shots -> List.In l2 l2_regs -> result_of (snd nr) shot l2 = Ok (accr nr shot l2)).
  { intros nr shot l2 I1 I2 I3. apply expected_in in I1. destruct I1 as (ds & sub & Hd & Hs & ->). unfold accr. cbn [snd]. rewrite (acc_ok (fst ds) sub shot l2) by (auto; apply in_map; auto). reflexivity. }
  destruct (best_ok argsort argsort_sorts (expected_results seeds datasets r) shots l2_regs accr NE l2_ne HA) as (best & EB & FB).
  assert (BF : exists bestv, best = map (fun shot => (shot, bestv shot)) shots).
  { set (F := fun shot => match find_best_l2_reg argsort (expected_results seeds datasets r) [shot] l2_regs with Ok [(_, l2)] => l2 | _ => 0%R end). exists F. clear - EB.
    unfold find_best_l2_reg in EB. apply rmap_ok in EB. unfold F, find_best_l2_reg. clear F. induction EB as [|shot b l rs E FB IH]; auto. cbn [map]. f_equal; auto. clear IH.
    cbn [rmap]. rewrite E. cbn [bind]. destruct b as [s' l2]. f_equal. clear - E. apply bind_ok in E. destruct E as (x & _ & E). apply bind_ok in E. destruct E as (i & _ & E). destruct (nth_error l2_regs i); [|discriminate]. injection E as ->. auto. }
  destruct BF as (bestv & ->). exists bestv.
  assert (BI : forall shot, List.In shot shots -> List.In (bestv shot) l2_regs).
  { intros shot I. destruct (best_not_dominated argsort argsort_sorts (expected_results seeds datasets r) shots l2_regs accr _ NE l2_ne HA EB shot (bestv shot)) as (Q & _); auto. apply in_map_iff. eauto. }
  destruct (run_ok s HS) as (s' & ER & HS'). exists s'. split; auto. split; auto. unfold callback. rewrite ER. cbn [bind]. rewrite EB. cbn [bind].
  assert (BO : forall shot, List.In shot shots -> best_of (map (fun shot => (shot, bestv shot)) shots) shot = Ok (bestv shot)).
  { intros shot I. unfold best_of. destruct (find _ _) as [b|] eqn:E.
    - apply find_some in E. destruct E as (E1 & E2). apply in_map_iff in E1. destruct E1 as (sh & <- & _). cbn [fst snd] in *. apply Nat.eqb_eq in E2. subst. auto.
    - exfalso. assert (Q := find_none _ _ E (shot, bestv shot) ltac:(apply in_map_iff; eauto)). cbn [fst] in Q. rewrite Nat.eqb_refl in Q. discriminate. }
  assert (AO : forall name sub shot, List.In name (map fst datasets) -> sub < seeds -> List.In shot shots ->
            accuracy_of Name name_eqb (expected_results seeds datasets r) (map (fun shot => (shot, bestv shot)) shots) (full_name Name seeds name sub) shot = Ok (acc name sub shot (bestv shot))).
  { intros name sub shot Hn Hs Hsh. unfold accuracy_of. apply in_map_iff in Hn. destruct Hn as (ds & <- & Hd). rewrite (get_in (expected_results seeds datasets r) (full_name Name seeds (fst ds) sub) (r (fst ds) sub)); [|apply expected_nodup|apply expected_in; eauto].
    cbn [bind]. rewrite BO by auto. cbn [bind]. apply acc_ok; auto. apply in_map. auto. }
  set (G := fun (nr : (Name * option nat) * list (nat * R * R)) shot => (Shot Name (fst nr) shot, accr nr shot (bestv shot))).
  rewrite (rmap_map _ (fun nr => map (G nr) shots)).
  2:{ intros nr I. apply rmap_map. intros shot Hsh. assert (I' := I). apply expected_in in I'. destruct I' as (ds & sub & Hd & Hs & EN).
      assert (Q := AO (fst ds) sub shot (in_map fst _ _ Hd) Hs Hsh). rewrite EN at 1. cbn [fst]. rewrite Q. cbn [bind]. unfold G. f_equal. f_equal. unfold accr. rewrite EN. cbn [snd]. rewrite acc_ok by (auto; apply in_map; auto). reflexivity. }
  cbn [bind].
  assert (MAIN : match main_task with
        | None => Ok []
        | Some (name, shot) =>
            if seeds =? 1 then bind (accuracy_of Name name_eqb (expected_results seeds datasets r) (map (fun shot => (shot, bestv shot)) shots) (name, None) shot) (fun a => Ok [(Main Name name shot, a)])
            else if seeds =? 0 then Raise ZeroDivisionError
            else bind (rmap (fun i => accuracy_of Name name_eqb (expected_results seeds datasets r) (map (fun shot => (shot, bestv shot)) shots) (name, Some i) shot) (seq 0 seeds)) (fun accs =>
                 Ok [(Main Name name shot, (fold_right Rplus 0 accs / INR seeds)%R)])
        end = Ok (match main_task with None => [] | Some (name, shot) => [(Main Name name shot, mean seeds (fun sub => acc name sub shot (bestv shot)))] end)).
  { destruct main_task as [[name shot]|]; auto. destruct HM as (HN & HSh). unfold full_name in AO. destruct (Nat.eqb_spec seeds 1) as [E1|N1].
    - rewrite (AO name 0 shot) by (auto; lia). cbn [bind]. rewrite E1. do 3 f_equal. unfold mean, sum_to. cbn [seq map fold_right INR]. field.
    - replace (seeds =? 0) with false by (symmetry; apply Nat.eqb_neq; lia). rewrite (rmap_map _ (fun i => acc name i shot (bestv shot))) by (intros i Hi; apply in_seq in Hi; apply AO; auto; lia). reflexivity. }
  rewrite MAIN. cbn [bind]. do 2 f_equal. rewrite map_map. cbn [fst snd]. f_equal. f_equal.
  unfold expected_results. rewrite concat_map, map_map. clear - acc_ok BI.
  assert (K : forall n, n <= seeds -> concat (concat (map (fun x => map (fun nr => map (G nr) shots) (map (fun ds => (full_name Name seeds (fst ds) x, r (fst ds) x)) datasets)) (seq 0 n))) =
             concat (map (fun sub => concat (map (fun ds => map (fun shot => (Shot Name (full_name Name seeds (fst ds) sub) shot, acc (fst ds) sub shot (bestv shot))) shots) datasets)) (seq 0 n))).
  { induction n as [|n IH]; intros Hn; auto. rewrite seq_S, !map_app, !concat_app, IH by lia. f_equal. cbn [map concat Nat.add]. rewrite !app_nil_r. rewrite map_map. f_equal. apply map_ext_in. intros ds Hd. apply map_ext_in. intros shot Hsh. unfold G, accr. cbn [fst snd].
    rewrite acc_ok by (auto; try lia; apply in_map; auto). reflexivity. }
  apply K. lia.
Qed.
(** If a dataset uses the same examples for training and test, its evaluation raises ValueError. *)
End Callback.
Lemma same_split {St Img Feat Name} (name_eqb : Name -> Name -> bool) (step : St -> list Img -> St * list Feat) permutation argsort accuracy make_state permute_seed content
    shots l2_regs seeds name i n rest main_task (s : store Img) :
  (forall s x, length (snd (step s x)) = length x) -> (forall b, List.In b (s i) -> well_formed b) -> s i <> [] -> 1 <= seeds ->
  callback St Img Feat Name name_eqb step permutation argsort accuracy make_state permute_seed content shots l2_regs seeds ((name, (i, i, n)) :: rest) main_task s = Raise ValueError.
Proof.
  intros SR W N HS. unfold callback, run_all. destruct seeds as [|k]; [lia|]. cbn [seq rfold]. unfold run_dataset at 1. cbv zeta. replace (set_store Img s i [] i) with (@nil (batch Img)) by (unfold set_store; rewrite Nat.eqb_refl; auto).
  rewrite (empty_test step SR permutation accuracy shots l2_regs n (make_state 0) (s i) (permute_seed 0) W N). reflexivity.
Qed.

(** ** A sort, which shows that the assumption on np.argsort can be met *)
Fixpoint insert_by (l : list R) (i : nat) (p : list nat) : list nat :=
  match p with [] => [i] | j :: p' => if Rle_dec (nth i l 0%R) (nth j l 0%R) then i :: p else j :: insert_by l i p' end.
Definition insertion (l : list R) : list nat := fold_right (insert_by l) [] (seq 0 (length l)).
Lemma insert_perm l i p : Permutation (insert_by l i p) (i :: p).
Proof. induction p as [|j p IH]; auto. simpl. destruct (Rle_dec _ _); auto. eapply perm_trans; [apply perm_skip, IH|]. apply perm_swap. Qed.
Definition ordered (l : list R) (p : list nat) : Prop := forall a b, a < b -> b < length p -> (nth (nth a p 0%nat) l 0 <= nth (nth b p 0%nat) l 0)%R.
Lemma ordered_cons l j p : ordered l (j :: p) <-> ordered l p /\ forall k, List.In k p -> (nth j l 0 <= nth k l 0)%R.
Proof.
  split.
  - intros H. split; [intros a b Hab Hb; apply (H (S a) (S b)); simpl; lia|]. intros k K. destruct (In_nth _ _ 0 K) as (b & Hb & <-). apply (H 0 (S b)); simpl; lia.
  - intros (H & K) a b Hab Hb. destruct b as [|b]; [lia|]. simpl in Hb. destruct a as [|a]; [apply K; simpl; apply nth_In; lia|]. apply (H a b); lia.
Qed.
Lemma insert_ordered l i p : ordered l p -> ordered l (insert_by l i p).
Proof.
  induction p as [|j p IH]; intros H; [intros a b Hab Hb; simpl in Hb; lia|]. simpl. apply ordered_cons in H. destruct H as (H & K). destruct (Rle_dec _ _) as [L|L].
  - apply ordered_cons. split; [apply ordered_cons; auto|]. intros k [<-|I]; auto. specialize (K k I). lra.
  - apply ordered_cons. split; auto. intros k I. apply (Permutation_in _ (insert_perm l i p)) in I. destruct I as [<-|I]; auto. lra.
Qed.
Lemma insertion_sorts l : sorts l (insertion l).
Proof.
  unfold insertion. assert (K : forall q, Permutation (fold_right (insert_by l) [] q) q /\ ordered l (fold_right (insert_by l) [] q)).
  { induction q as [|i q (P & O)]; [split; auto; intros a b Hab Hb; simpl in Hb; lia|]. simpl. split; [eapply perm_trans; [apply insert_perm|apply perm_skip, P]|apply insert_ordered, O]. }
  destruct (K (seq 0 (length l))) as (P & O). split; auto. intros i j Hij Hj. apply O; auto. rewrite (Permutation_length P), seq_length. auto.
Qed.
(** With equal accuracies, the choice is up to the order of np.argsort. *)
Lemma ties_refuted : exists argsort1 argsort2, (forall l, sorts l (argsort1 l)) /\ (forall l, sorts l (argsort2 l)) /\
  exists (all_results : list (nat * list (nat * R * R))) shots l2_regs b1 b2,
    find_best_l2_reg argsort1 all_results shots l2_regs = Ok b1 /\ find_best_l2_reg argsort2 all_results shots l2_regs = Ok b2 /\ b1 <> b2.
Proof.
  set (a2 := fun l : list R => match l with [x; y] => if Req_EM_T x y then [1; 0] else insertion l | _ => insertion l end).
  exists insertion, a2. split; [apply insertion_sorts|]. split.
  { intros l. destruct l as [|x [|y [|z l]]]; try apply insertion_sorts. simpl. destruct (Req_EM_T x y) as [->|N]; [|apply insertion_sorts]. split; [apply perm_swap|]. intros i j Hij Hj. cbn [length] in Hj. assert (i = 0) by lia. assert (j = 1) by lia. subst. simpl. lra. }
  exists [(0, [(1, 0%R, 1%R); (1, 1%R, 1%R)])], [1], [0%R; 1%R], [(1, 1%R)], [(1, 0%R)].
  assert (RE : forall f, find_best_l2_reg f [(0, [(1, 0%R, 1%R); (1, 1%R, 1%R)])] [1] [0%R; 1%R] =
           bind (argmax_list (mean_ranks 2 [ranks f [1%R; 1%R]])) (fun i => match nth_error [0%R; 1%R] i with Some l2 => Ok [(1, l2)] | None => Raise IndexError end)).
  { intros f. unfold find_best_l2_reg. cbn [rmap bind snd].
    assert (R0 : result_of [(1, 0%R, 1%R); (1, 1%R, 1%R)] 1 0 = Ok 1%R) by (unfold result_of; cbn [rev app find fst snd Nat.eqb andb]; destruct (Req_EM_T 1 0); [lra|]; cbn [andb]; destruct (Req_EM_T 0 0); [reflexivity|lra]).
    assert (R1 : result_of [(1, 0%R, 1%R); (1, 1%R, 1%R)] 1 1 = Ok 1%R) by (unfold result_of; cbn [rev app find fst snd Nat.eqb andb]; destruct (Req_EM_T 1 1); [reflexivity|lra]).
    rewrite R0, R1. cbn [bind length]. destruct (argmax_list _) as [i|e]; cbn [bind]; auto. destruct (nth_error [0%R; 1%R] i); reflexivity. }
  assert (I1 : insertion [1%R; 1%R] = [0; 1]) by (unfold insertion; cbn [length seq fold_right insert_by nth]; destruct (Rle_dec 1 1); [reflexivity|lra]).
  assert (I2 : insertion [0%R; 1%R] = [0; 1]) by (unfold insertion; cbn [length seq fold_right insert_by nth]; destruct (Rle_dec 0 1); [reflexivity|lra]).
  assert (I3 : insertion [1%R; 0%R] = [1; 0]) by (unfold insertion; cbn [length seq fold_right insert_by nth]; destruct (Rle_dec 1 0); [lra|reflexivity]).
  rewrite !RE. unfold ranks. unfold a2. rewrite I1. destruct (Req_EM_T 1 1) as [_|]; [|lra]. cbn [map INR]. rewrite I2. destruct (Req_EM_T 1 0); [lra|]. rewrite I3.
  unfold argmax_list, mean_ranks. cbn [seq map length nth fold_right fold_left Nat.sub INR].
  destruct (Rlt_dec ((0 + 0) / 1) ((1 + 0) / 1)) as [_|N]; [|exfalso; apply N; lra]. destruct (Rlt_dec ((1 + 0) / 1) ((0 + 0) / 1)) as [N|_]; [exfalso; lra|].
  cbn [bind nth_error]. split; [reflexivity|]. split; [reflexivity|]. intros H. injection H. lra.
Qed.
