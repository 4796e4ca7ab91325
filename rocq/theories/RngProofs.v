(** Proofs for C64 and C65. *)
From Coq Require Import String QArith ZArith Bool List Arith Lia Permutation.
From Verif Require Import RngModel RngSpec Py PyLemmas.
Import ListNotations.
Local Open Scope list_scope.
Local Open Scope nat_scope.

(** ** Derived and separate keys *)
Lemma derived_refl k : derived k k.
Proof. split; auto. exists []; auto. Qed.
Lemma derived_trans a b c : derived a b -> derived b c -> derived a c.
Proof. intros [S [p P]] [S' [q Q]]. split; [congruence|]. exists (q ++ p). rewrite Q, P, app_assoc; auto. Qed.
Lemma derived_child k i : derived k (child k i).
Proof. split; auto. exists [i]; auto. Qed.
Lemma derived_len a b : derived a b -> length (k_path a) <= length (k_path b).
Proof. intros [_ [p ->]]. rewrite app_length. lia. Qed.
Lemma derived_eq a b : derived a b -> length (k_path a) = length (k_path b) -> a = b.
Proof. intros [S [p P]] L. rewrite P, app_length in L. destruct p; [|cbn in L; lia]. destruct a, b; cbn in *; congruence. Qed.
Lemma derived_both a b x : derived a x -> derived b x -> derived a b \/ derived b a.
Proof.
  intros [S [p P]] [S' [q Q]]. rewrite P in Q. clear P. destruct (app_eq_app _ _ _ _ Q) as (l & [[_ B]|[_ B]]).
  - left. split; [congruence|]. exists l; auto.
  - right. split; [congruence|]. exists l; auto.
Qed.
Lemma separate_iff a b : separate a b <-> ~ derived a b /\ ~ derived b a.
Proof.
  split.
  - intros S. split; intros D; [apply (S b)|apply (S a)]; split; auto using derived_refl.
  - intros [A B] x [D D']. destruct (derived_both _ _ _ D D'); auto.
Qed.
Lemma separate_sym a b : separate a b -> separate b a.
Proof. intros S x [A B]. apply (S x); auto. Qed.
Lemma separate_derived a b a' b' : separate a b -> derived a a' -> derived b b' -> separate a' b'.
Proof. intros S A B x [D D']. apply (S x). split; eapply derived_trans; eauto. Qed.
Lemma separate_siblings k i j : i <> j -> separate (child k i) (child k j).
Proof.
  intros N. apply separate_iff. split; intros D; apply derived_eq in D; cbn; auto; injection D; auto.
Qed.
Lemma separate_neq a b : separate a b -> a <> b.
Proof. intros S ->. apply (S b). auto using derived_refl. Qed.

Notation seps := (ForallOrdPairs separate).
Lemma seps_all l : seps l <-> all_separate l.
Proof.
  split.
  - induction 1 as [|a l F H IH]; intros i j k k' L E E'; [destruct i; discriminate|]. destruct j as [|j]; [lia|]. destruct i as [|i]; cbn in *.
    + injection E as <-. rewrite Forall_forall in F. apply F. eapply nth_error_In; eauto.
    + apply (IH i j); auto; lia.
  - induction l as [|a l IH]; intros A; constructor.
    + apply Forall_forall. intros b Hb. apply In_nth_error in Hb. destruct Hb as [j E]. apply (A 0 (S j)); auto; lia.
    + apply IH. intros i j k k' L. apply (A (S i) (S j)); lia.
Qed.
Lemma seps_app a b : seps (a ++ b) <-> seps a /\ seps b /\ forall x y, In x a -> In y b -> separate x y.
Proof.
  induction a as [|x a IH]; cbn [app].
  - split; [intros H; split; [constructor|split; [auto|intros ? ? []]]|tauto].
  - split.
    + inversion 1 as [|? ? F H']; subst. apply IH in H'. destruct H' as (A & B & C). apply Forall_app in F. destruct F as [F1 F2]. split; [constructor; auto|]. split; auto.
      intros u v [<-|U] V; auto. rewrite Forall_forall in F2; auto.
    + intros (A & B & C). inversion A as [|? ? F A']; subst. constructor; [apply Forall_app; split; auto; apply Forall_forall; intros; apply C; cbn; auto|]. apply IH. split; auto. split; auto. intros; apply C; cbn; auto.
Qed.
Lemma seps_perm a b : Permutation a b -> seps a -> seps b.
Proof.
  induction 1 as [|x l l' P IH|x y l|l m n P1 IH1 P2 IH2]; intros H; auto.
  - inversion H as [|? ? F H']; subst. constructor; auto. eapply Permutation_Forall; eauto.
  - inversion H as [|? ? F H']; subst. inversion H' as [|? ? F' H'']; subst. inversion F as [|? ? S F'']; subst. constructor; [constructor; auto using separate_sym|constructor; auto].
Qed.
Lemma seps_in l x y : seps l -> In x l -> In y l -> x = y \/ separate x y.
Proof. intros H X Y. destruct (ForallOrdPairs_In H x y X Y) as [|[|]]; auto using separate_sym. Qed.
Lemma seps_refine A B B' : seps (A ++ B) -> (forall b', In b' B' -> exists b, In b B /\ derived b b') -> seps B' -> seps (A ++ B').
Proof.
  intros H D H'. apply seps_app in H. destruct H as (HA & HB & HC). apply seps_app. split; auto. split; auto. intros x y X Y. destruct (D y Y) as (b & Hb & Db). eapply separate_derived; [apply (HC x b)|apply derived_refl|]; auto.
Qed.
Lemma seps_nodup l : seps l -> NoDup l.
Proof. induction 1 as [|a l F H IH]; constructor; auto. intros I. rewrite Forall_forall in F. apply (separate_neq a a); auto. Qed.
Lemma seps_children l n : seps l -> forall idx, NoDup idx -> seps (flat_map (fun i => map (fun k => child k (n + i)) l) idx).
Proof.
  intros H. induction idx as [|i idx IH]; intros ND; cbn [flat_map]; [constructor|]. inversion ND as [|? ? NI ND']; subst. apply seps_app. split; [|split; auto].
  - clear - H. induction H as [|a l F H IH]; cbn [map]; constructor; auto. rewrite Forall_map. revert F. apply Forall_impl. intros b S. eapply separate_derived; eauto using derived_child.
  - intros x y X Y. apply in_map_iff in X. destruct X as (k & <- & K). apply in_flat_map in Y. destruct Y as (j & J & Y). apply in_map_iff in Y. destruct Y as (k' & <- & K').
    destruct (seps_in l k k' H K K') as [->|S]; [apply separate_siblings; intros E; apply NI; replace i with j by lia; auto|]. eapply separate_derived; eauto using derived_child.
Qed.

(** ** Dictionaries *)
Definition names (d : dict) : list string := map fst d.
Lemma split_len k n : length (split k n) = n.
Proof. unfold split. now rewrite map_length, seq_length. Qed.
Lemma index_split k n i : i < n -> index (split k n) i = child k i.
Proof.
  intros L. unfold index. rewrite split_len, Nat.min_l by lia. unfold split. rewrite nth_indep with (d' := child k 0) by (rewrite map_length, seq_length; auto). rewrite map_nth, seq_nth by auto. auto.
Qed.
Definition at_child (i : nat) (d : dict) : dict := map (fun nk => (fst nk, child (snd nk) i)) d.
Lemma names_at i d : names (at_child i d) = names d.
Proof. unfold names, at_child. rewrite map_map. auto. Qed.
Lemma keys_at i d : keys_of (at_child i d) = map (fun k => child k i) (keys_of d).
Proof. unfold keys_of, at_child. rewrite !map_map. auto. Qed.
Lemma in_at i d n k : In (n, k) (at_child i d) -> exists k0, In (n, k0) d /\ k = child k0 i.
Proof. unfold at_child. intros H. apply in_map_iff in H. destruct H as ((m & k0) & E & H). cbn in E. injection E as <- <-. eauto. Qed.
Lemma tree_split d n : tree_rngs_split d n = map (fun i => at_child i d) (seq 0 n).
Proof.
  unfold tree_rngs_split. apply map_ext_in. intros i Hi. apply in_seq in Hi. unfold at_child. rewrite map_map. apply map_ext. intros (m & k). cbn [fst snd]. rewrite index_split by lia. auto.
Qed.
Lemma get_in d n k : get d n = Some k -> In (n, k) d.
Proof. induction d as [|(m & l) d IH]; cbn; [discriminate|]. destruct (String.eqb_spec m n); [intros E; injection E as <-; subst; auto|auto]. Qed.
Lemma get_none d n : get d n = None <-> ~ In n (names d).
Proof.
  induction d as [|(m & l) d IH]; cbn; [tauto|]. destruct (String.eqb_spec m n); [split; [discriminate|tauto]|]. rewrite IH. tauto.
Qed.
Lemma remove_perm d n k : get d n = Some k -> Permutation d ((n, k) :: remove d n).
Proof.
  induction d as [|(m & l) d IH]; cbn; [discriminate|]. destruct (String.eqb_spec m n); [intros E; injection E as <-; subst; auto|]. intros E. rewrite (IH E) at 1. apply perm_swap.
Qed.
Lemma set_new d n k : ~ In n (names d) -> set d n k = d ++ [(n, k)].
Proof. induction d as [|(m & l) d IH]; cbn; auto. intros N. destruct (String.eqb_spec m n); [tauto|]. rewrite IH by tauto. auto. Qed.
Lemma set_names d n k x : In x (names (set d n k)) <-> In x (names d) \/ x = n.
Proof.
  induction d as [|(m & l) d IH]; cbn; [intuition|]. destruct (String.eqb_spec m n); cbn; [subst; intuition|]. change (map fst (set d n k)) with (names (set d n k)). rewrite IH. tauto.
Qed.
Lemma set_nodup d n k : NoDup (names d) -> NoDup (names (set d n k)).
Proof.
  induction d as [|(m & l) d IH]; cbn; intros H; [repeat constructor; auto|]. inversion H as [|? ? N H']; subst. destruct (String.eqb_spec m n); cbn; [constructor; auto|]. constructor; auto.
  intros I. apply (set_names d n k) in I. tauto.
Qed.
Lemma set_in d n k x : In x (set d n k) -> In x d \/ x = (n, k).
Proof.
  induction d as [|(m & l) d IH]; cbn; [intuition|]. destruct (String.eqb_spec m n); cbn; [subst; intuition|]. intuition.
Qed.
Lemma seps_set d n k r : seps (keys_of d ++ k :: r) -> seps (keys_of (set d n k) ++ r).
Proof.
  induction d as [|(m & l) d IH]; cbn [keys_of map set snd app]; auto. intros H. inversion H as [|? ? F H']; subst. destruct (String.eqb_spec m n); cbn [keys_of map snd app].
  - eapply seps_perm; [symmetry; apply Permutation_middle|exact H'].
  - constructor; [|apply IH; auto]. apply Forall_forall. intros x X. rewrite Forall_forall in F. apply F. apply in_app_or in X. apply in_or_app. cbn. destruct X as [X|X]; auto.
    apply in_map_iff in X. destruct X as (y & <- & Y). apply set_in in Y. destruct Y as [Y| ->]; [left; apply in_map; auto|cbn; auto].
Qed.
Lemma dict_of_seps l : seps (map snd l) -> seps (keys_of (dict_of l)).
Proof.
  unfold dict_of. assert (G : forall l d, seps (keys_of d ++ map snd l) -> seps (keys_of (fold_left (fun d nk => set d (fst nk) (snd nk)) l d))).
  { clear. induction l as [|(n & k) l IH]; cbn [fold_left map fst snd]; intros d H; [rewrite app_nil_r in H; auto|]. apply IH. apply seps_set. auto. }
  intros H. apply G. auto.
Qed.
Lemma dict_of_nodup l : NoDup (names (dict_of l)).
Proof.
  unfold dict_of. assert (G : forall l d, NoDup (names d) -> NoDup (names (fold_left (fun d nk => set d (fst nk) (snd nk)) l d))); [|apply G; constructor].
  clear. induction l as [|(n & k) l IH]; cbn [fold_left]; intros d H; auto. apply IH. apply set_nodup. auto.
Qed.
Lemma dict_of_in l x : In x (dict_of l) -> In x l.
Proof.
  unfold dict_of. assert (G : forall l d, In x (fold_left (fun d nk => set d (fst nk) (snd nk)) l d) -> In x d \/ In x l).
  { clear. induction l as [|(n & k) l IH]; cbn [fold_left In]; intros d H; auto. apply IH in H. destruct H as [H|H]; auto. apply set_in in H. cbn in H. intuition. }
  intros H. apply G in H. destruct H as [[]|]; auto.
Qed.
Lemma dict_of_names l n : In n (names (dict_of l)) <-> In n (map fst l).
Proof.
  unfold dict_of. assert (G : forall l d, In n (names (fold_left (fun d nk => set d (fst nk) (snd nk)) l d)) <-> In n (names d) \/ In n (map fst l)).
  { clear. induction l as [|(m & k) l IH]; cbn [fold_left map fst In]; intros d; [tauto|]. rewrite IH, set_names. cbn [fst]. split; intuition. }
  rewrite G. cbn. tauto.
Qed.
(** Keys of a dictionary made by a split *)
Lemma split_dict_seps nms k : seps (keys_of (dict_of (combine nms (split k (length nms))))).
Proof.
  apply dict_of_seps. rewrite map_snd_combine by (rewrite split_len; auto). assert (A := seps_children [k] 0 (FOP_cons k (Forall_nil _) (FOP_nil _)) (seq 0 (length nms)) (seq_NoDup _ _)).
  replace (split k (length nms)) with (flat_map (fun i => map (fun k => child k (0 + i)) [k]) (seq 0 (length nms))); auto.
Qed.
Lemma split_dict_in nms k n x : In (n, x) (dict_of (combine nms (split k (length nms)))) -> In n nms /\ exists i, x = child k i.
Proof.
  intros H. apply dict_of_in in H. split; [eapply in_combine_l; eauto|]. apply in_combine_r in H. unfold split in H. apply in_map_iff in H. destruct H as (i & <- & _). eauto.
Qed.
Lemma make_rngs_in nms s n x : In (n, x) (make_rngs nms s) -> In n nms /\ exists i, x = child (prng_key s) i.
Proof. destruct nms as [|a l]; [intros []|]. unfold make_rngs. apply (split_dict_in (a :: l)). Qed.
Lemma make_rngs_seps nms s : seps (keys_of (make_rngs nms s)).
Proof. destruct nms as [|a l]; [constructor|]. apply (split_dict_seps (a :: l)). Qed.
Lemma make_rngs_nodup nms s : NoDup (names (make_rngs nms s)).
Proof. destruct nms as [|a l]; [constructor|]. apply dict_of_nodup. Qed.
Lemma make_rngs_names nms s n : In n (names (make_rngs nms s)) <-> In n nms.
Proof.
  destruct nms as [|a l]; [reflexivity|]. unfold make_rngs. rewrite dict_of_names, map_fst_combine; [tauto|]. rewrite split_len. auto.
Qed.

(** ** What a part of the program may do with the keys *)
Definition strictly (k k' : key) : Prop := derived k k' /\ length (k_path k) < length (k_path k').
Definition pairs_used (a : list use) : dict := flat_map u_rngs a.
Lemma keys_pairs a : keys_used a = keys_of (pairs_used a).
Proof. unfold keys_used, pairs_used, keys_of. induction a as [|u a IH]; cbn; auto. rewrite map_app, IH. auto. Qed.
Lemma keys_used_app a b : keys_used (a ++ b) = keys_used a ++ keys_used b.
Proof. unfold keys_used. apply flat_map_app. Qed.
Record good (d : dict) (a : list use) (d' : dict) : Prop := {
  g_names : Permutation (names d) (names d');
  g_used : forall n k, In (n, k) (pairs_used a) -> exists k0, In (n, k0) d /\ strictly k0 k;
  g_next : forall n k, In (n, k) d' -> exists k0, In (n, k0) d /\ derived k0 k;
  g_seps : seps (keys_of d) -> seps (keys_used a ++ keys_of d') }.
Lemma good_refl d : good d [] d.
Proof. split; auto; [intros n k []|]. intros n k H. exists k. auto using derived_refl. Qed.
Lemma good_trans d a d1 b d2 : good d a d1 -> good d1 b d2 -> good d (a ++ b) d2.
Proof.
  intros A B. split.
  - etransitivity; [apply (g_names _ _ _ A)|apply (g_names _ _ _ B)].
  - intros n k H. unfold pairs_used in H. rewrite flat_map_app in H. apply in_app_or in H. destruct H as [H|H]; [apply (g_used _ _ _ A); auto|].
    destruct (g_used _ _ _ B n k H) as (k1 & H1 & D1 & L1). destruct (g_next _ _ _ A n k1 H1) as (k0 & H0 & D0). exists k0. split; auto. split; [eapply derived_trans; eauto|]. apply derived_len in D0. lia.
  - intros n k H. destruct (g_next _ _ _ B n k H) as (k1 & H1 & D1). destruct (g_next _ _ _ A n k1 H1) as (k0 & H0 & D0). exists k0. split; auto. eapply derived_trans; eauto.
  - intros S. assert (SA := g_seps _ _ _ A S). rewrite keys_used_app, <- app_assoc. apply seps_refine with (keys_of d1); auto.
    + intros k H. apply in_app_or in H. rewrite keys_pairs in H. destruct H as [H|H]; apply in_map_iff in H; destruct H as ((n & x) & <- & H); cbn [snd].
      * destruct (g_used _ _ _ B n x H) as (k1 & H1 & D1 & L1). exists k1. split; auto. change k1 with (snd (n, k1)). apply in_map; auto.
      * destruct (g_next _ _ _ B n x H) as (k1 & H1 & D1). exists k1. split; auto. change k1 with (snd (n, k1)). apply in_map; auto.
    + apply (g_seps _ _ _ B). apply seps_app in SA. tauto.
Qed.
Lemma flat_map_map {A B C} (f : A -> B) (g : B -> list C) l : flat_map g (map f l) = flat_map (fun x => g (f x)) l.
Proof. induction l; cbn; auto. now rewrite IHl. Qed.
(** Calls with the first u splits, and the next one as the state *)
Lemma good_splits d u : good d (map (fun i => Use Model (at_child i d)) (seq 0 u)) (at_child u d).
Proof.
  split.
  - rewrite names_at. auto.
  - intros n k H. unfold pairs_used in H. rewrite flat_map_map in H. apply in_flat_map in H. destruct H as (i & _ & H). cbn [u_rngs] in H. apply in_at in H. destruct H as (k0 & H & ->). exists k0. split; auto. split; [apply derived_child|cbn; lia].
  - intros n k H. apply in_at in H. destruct H as (k0 & H & ->). exists k0. auto using derived_child.
  - intros S. assert (X := seps_children _ 0 S (seq 0 (u + 1)) (seq_NoDup _ _)). rewrite seq_app, flat_map_app in X. cbn [seq flat_map Nat.add] in X. rewrite app_nil_r in X. rewrite keys_at.
    unfold keys_used. rewrite flat_map_map. cbn [u_rngs]. replace (flat_map (fun x => keys_of (at_child x d)) (seq 0 u)) with (flat_map (fun i => map (fun k => child k i) (keys_of d)) (seq 0 u)); auto.
    apply flat_map_ext. intros; now rewrite keys_at.
Qed.
Lemma apply_and_split_eq d : apply_and_split d = ([Use Model (at_child 0 d)], at_child 1 d).
Proof. unfold apply_and_split. rewrite tree_split. reflexivity. Qed.
Lemma apply_and_split_good d : good d (fst (apply_and_split d)) (snd (apply_and_split d)).
Proof. rewrite apply_and_split_eq. apply (good_splits d 1). Qed.
Lemma iterate_good n d : good d (fst (iterate n apply_and_split d)) (snd (iterate n apply_and_split d)).
Proof.
  revert d. induction n as [|n IH]; intros d; cbn [iterate]; [apply good_refl|]. assert (A := apply_and_split_good d). destruct (apply_and_split d) as [a d1]. specialize (IH d1). destruct (iterate n apply_and_split d1) as [b d2]. cbn [fst snd] in *. eapply good_trans; eauto.
Qed.
Lemma accumulate_iterate c m d : microsteps_of c m -> accumulate (c_microsteps c) apply_and_split d = iterate m apply_and_split d.
Proof.
  unfold microsteps_of, accumulate. destruct (c_microsteps c) as [z|].
  - intros [[Z ->]|[Z M]].
    + replace ((z =? 0) || (z <? 0))%Z with true by (symmetry; apply orb_true_iff; destruct (Z.eqb_spec z 0); auto; right; apply Z.ltb_lt; lia). cbn [iterate]. destruct (apply_and_split d) as [a d1]. rewrite app_nil_r. auto.
    + replace ((z =? 0) || (z <? 0))%Z with false by (symmetry; apply orb_false_iff; split; [apply Z.eqb_neq|apply Z.ltb_ge]; lia).
      replace (Z.to_nat z - 1) with (m - 1) by lia. destruct m as [|m]; [lia|]. cbn [Nat.sub iterate]. rewrite Nat.sub_0_r. auto.
  - intros ->. cbn [iterate]. destruct (apply_and_split d) as [a d1]. rewrite app_nil_r. auto.
Qed.
Lemma pgd_eq u d : stateless_attack_pgd u d = (map (fun i => Use Model (at_child i d)) (seq 0 u), at_child u d).
Proof.
  unfold stateless_attack_pgd. f_equal.
  - apply map_ext_in. intros i Hi. apply in_seq in Hi. f_equal. unfold at_child. rewrite map_map. apply map_ext. intros (m & k). cbn [fst snd]. rewrite index_split by lia. auto.
  - unfold at_child. rewrite map_map. apply map_ext. intros (m & k). cbn [fst snd]. rewrite split_len, index_split by lia. do 2 f_equal. lia.
Qed.

(** ** The step of training, in one formula *)
Definition inner_step (u m : nat) (d : dict) : tr dict :=
  let '(a, d) := stateless_attack_pgd u d in let '(b, d) := iterate m apply_and_split d in (a ++ b, d).
Lemma inner_good u m d : good d (fst (inner_step u m d)) (snd (inner_step u m d)).
Proof.
  unfold inner_step. rewrite pgd_eq. assert (A := good_splits d u). assert (B := iterate_good m (at_child u d)). destruct (iterate m apply_and_split (at_child u d)) as [b d2]. cbn [fst snd] in *. eapply good_trans; eauto.
Qed.
(** The step has the attack only if there are updates; without them the keys are not split for it. *)
Definition plain_step (u m : nat) (d : dict) : tr dict := if u =? 0 then iterate m apply_and_split d else inner_step u m d.
Lemma plain_good u m d : good d (fst (plain_step u m d)) (snd (plain_step u m d)).
Proof. unfold plain_step. destruct (u =? 0); [apply iterate_good|apply inner_good]. Qed.
Definition without_mixup (c : config) : config := {| c_microsteps := c_microsteps c; c_adversarial := c_adversarial c; c_mixup := None |}.
Lemma plain_eq c u m d : updates_of c u -> microsteps_of c m -> configured_step (without_mixup c) d = Ok (plain_step u m d).
Proof.
  intros U M. unfold configured_step. cbn [without_mixup c_mixup c_adversarial c_microsteps]. unfold updates_of in U. unfold plain_step.
  destruct (c_adversarial c) as [[eps n]|].
  - unfold wrap_adversarial. destruct U as [[D ->]|(N & E & U)].
    + replace ((n <=? 0)%Z || Qle_bool eps 0) with true by (symmetry; apply orb_true_iff; destruct D as [D|D]; [left; apply Z.leb_le; auto|right; apply Qle_bool_iff; auto]).
      unfold train_step. rewrite (accumulate_iterate c m) by auto. auto.
    + replace ((n <=? 0)%Z || Qle_bool eps 0) with false.
      2:{ symmetry. apply orb_false_iff. split; [apply Z.leb_gt; auto|]. destruct (Qle_bool eps 0) eqn:Q; auto. apply Qle_bool_iff in Q. contradiction. }
      replace (Z.to_nat n) with u by lia. replace (u =? 0) with false by (symmetry; apply Nat.eqb_neq; lia). unfold inner_step. destruct (stateless_attack_pgd u d) as [a d1]. unfold train_step. rewrite (accumulate_iterate c m) by auto.
      destruct (iterate m apply_and_split d1) as [b d2]. cbn [bind]. auto.
  - subst u. cbn [Nat.eqb]. unfold train_step. rewrite (accumulate_iterate c m) by auto. auto.
Qed.
Definition mixup_onb (c : config) : bool := match c_mixup c with Some (Some q) => negb (Qeq_bool q 0) | _ => false end.
Lemma mixup_onb_iff c : mixup_onb c = true <-> mixup_on c.
Proof.
  unfold mixup_onb, mixup_on. destruct (c_mixup c) as [[q|]|].
  - split; [intros H; exists q; split; auto; intros E; apply Qeq_bool_iff in E; rewrite E in H; discriminate|]. intros (q' & E & N). injection E as <-. destruct (Qeq_bool q 0) eqn:Q; auto. apply Qeq_bool_iff in Q. contradiction.
  - split; [discriminate|]. intros (q' & E & N). discriminate.
  - split; [discriminate|]. intros (q' & E & N). discriminate.
Qed.
Lemma step_eq c u m d : updates_of c u -> microsteps_of c m ->
  configured_step c d =
  if mixup_onb c then
    match get d mixup_name with
    | None => Raise ValueError
    | Some k => let '(b, d) := plain_step u m (remove d mixup_name) in Ok (Use Mixup [(mixup_name, child k 0)] :: b, set d mixup_name (child k 1))
    end
  else Ok (plain_step u m d).
Proof.
  intros U M. assert (P := fun d => plain_eq c u m d U M). unfold configured_step in *. cbn [without_mixup c_mixup c_adversarial c_microsteps] in P. unfold mixup_onb.
  destruct (c_mixup c) as [[q|]|]; cbn [wrap_mixup]; auto. unfold wrap_mixup. destruct (Qeq_bool q 0); cbn [negb]; auto. destruct (get d mixup_name) as [k|]; auto. rewrite P. cbn [split map seq bind].
  destruct (plain_step u m (remove d mixup_name)); auto.
Qed.
Lemma step_good c u m d a d' : updates_of c u -> microsteps_of c m -> NoDup (names d) -> configured_step c d = Ok (a, d') -> good d a d'.
Proof.
  intros U M ND. rewrite (step_eq c u m) by auto. destruct (mixup_onb c).
  - destruct (get d mixup_name) as [k|] eqn:G; [|discriminate]. assert (PE := remove_perm _ _ _ G). assert (PG := plain_good u m (remove d mixup_name)). destruct (plain_step u m (remove d mixup_name)) as [b d1]. cbn [fst snd] in PG.
    intros E. apply Ok_inj in E. injection E as <- <-.
    assert (PN : Permutation (names d) (mixup_name :: names (remove d mixup_name))). { change (mixup_name :: names (remove d mixup_name)) with (names ((mixup_name, k) :: remove d mixup_name)). unfold names. apply Permutation_map; auto. }
    assert (NI : ~ In mixup_name (names d1)). { assert (ND' := Permutation_NoDup PN ND). inversion ND' as [|? ? N _]; subst. intros I. apply N. eapply Permutation_in; [symmetry; apply (g_names _ _ _ PG)|auto]. }
    rewrite set_new by auto.
    assert (IN : forall n x, In (n, x) (remove d mixup_name) -> In (n, x) d) by (intros n x H; eapply Permutation_in; [symmetry; apply PE|right; auto]).
    assert (IK : In (mixup_name, k) d) by (apply get_in; auto).
    split.
    + etransitivity; [apply PN|]. unfold names at 2. rewrite map_app. cbn [map fst]. etransitivity; [apply perm_skip; apply (g_names _ _ _ PG)|]. apply Permutation_cons_append.
    + intros n x H. cbn in H. destruct H as [H|H]; [injection H as <- <-; exists k; split; auto; split; [apply derived_child|cbn; lia]|].
      destruct (g_used _ _ _ PG n x H) as (k0 & H0 & D0). eauto.
    + intros n x H. apply in_app_or in H. destruct H as [H|[H|[]]]; [|injection H as <- <-; exists k; auto using derived_child].
      destruct (g_next _ _ _ PG n x H) as (k0 & H0 & D0). eauto.
    + intros S. assert (S' : seps (k :: keys_of (remove d mixup_name))). { eapply seps_perm; [|exact S]. change (k :: keys_of (remove d mixup_name)) with (keys_of ((mixup_name, k) :: remove d mixup_name)). unfold keys_of. apply Permutation_map; auto. }
      assert (S1 := S'). inversion S1 as [|? ? F SR]; subst. assert (SB := g_seps _ _ _ PG SR).
      assert (R : seps ([k] ++ (keys_used b ++ keys_of d1))).
      { apply seps_refine with (keys_of (remove d mixup_name)); auto. intros x H. apply in_app_or in H. rewrite keys_pairs in H. destruct H as [H|H]; apply in_map_iff in H; destruct H as ((n & y) & <- & H); cbn [snd].
        - destruct (g_used _ _ _ PG n y H) as (k1 & H1 & D1 & L1). exists k1. split; auto. change k1 with (snd (n, k1)). apply in_map; auto.
        - destruct (g_next _ _ _ PG n y H) as (k1 & H1 & D1). exists k1. split; auto. change k1 with (snd (n, k1)). apply in_map; auto. }
      cbn [keys_used flat_map u_rngs keys_of map snd app]. fold (keys_used b). unfold keys_of. rewrite map_app. cbn [map snd]. fold (keys_of d1). rewrite app_assoc.
      eapply seps_perm with ((keys_used b ++ keys_of d1) ++ [child k 0; child k 1]).
      { apply Permutation_sym. change (child k 0 :: (keys_used b ++ keys_of d1) ++ [child k 1]) with ([child k 0] ++ ((keys_used b ++ keys_of d1) ++ [child k 1])). etransitivity; [apply Permutation_app_comm|]. rewrite <- app_assoc. apply Permutation_app_head. apply perm_swap. }
      apply seps_refine with [k].
      * eapply seps_perm; [apply Permutation_app_comm|auto].
      * intros x [<-|[<-|[]]]; exists k; split; cbn; auto using derived_child.
      * constructor; [constructor; auto; apply separate_siblings; auto|]. constructor; constructor.
  - intros E. apply Ok_inj in E. assert (PG := plain_good u m d). rewrite E in PG. auto.
Qed.
Lemma loop_good c u m n : updates_of c u -> microsteps_of c m -> forall d a d', NoDup (names d) -> train_loop c n d = Ok (a, d') -> good d a d'.
Proof.
  intros U M. induction n as [|n IH]; intros d a d' ND E; cbn [train_loop] in E; [apply Ok_inj in E; injection E as <- <-; apply good_refl|].
  apply bind_ok in E. destruct E as ([a1 d1] & E1 & E). apply bind_ok in E. destruct E as ([b d2] & E2 & E). apply Ok_inj in E. injection E as <- <-.
  assert (G := step_good c u m d a1 d1 U M ND E1). eapply good_trans; eauto. apply IH; auto. eapply Permutation_NoDup; [apply (g_names _ _ _ G)|auto].
Qed.

(** ** Training *)
Lemma some_updates c : exists u, updates_of c u.
Proof.
  unfold updates_of. destruct (c_adversarial c) as [[eps n]|]; [|eauto]. destruct (Z_le_gt_dec n 0); [eauto 6|]. destruct (Qlt_le_dec 0 eps) as [Q|Q]; [|eauto 6].
  exists (Z.to_nat n). right. split; [lia|]. split; [apply Qlt_not_le; auto|lia].
Qed.
Lemma some_microsteps c : exists m, microsteps_of c m.
Proof. unfold microsteps_of. destruct (c_microsteps c) as [z|]; [|eauto]. destruct (Z_le_gt_dec z 0); [eauto 6|]. exists (Z.to_nat z). right. lia. Qed.
Lemma remove_sub d n x : In x (remove d n) -> In x d.
Proof. induction d as [|(m & l) d IH]; cbn; auto. destruct (String.eqb m n); cbn; intuition. Qed.
Lemma remove_names d n : NoDup (names d) -> NoDup (names (remove d n)) /\ forall x, In x (names (remove d n)) <-> In x (names d) /\ x <> n.
Proof.
  induction d as [|(m & l) d IH]; cbn; intros H; [split; [constructor|tauto]|]. inversion H as [|? ? N H']; subst. destruct (IH H') as [I J]. destruct (String.eqb_spec m n) as [->|NE].
  - split; auto. intros x. split; [intros X; split; auto; intros ->; auto|]. intros [[->|X] NX]; [contradiction|auto].
  - cbn. split; [constructor; auto; intros X; apply J in X; tauto|]. intros x. fold (names (remove d n)). rewrite J. split; [intros [<-|X]; tauto|tauto].
Qed.
Lemma seps_remove d n : seps (keys_of d) -> seps (keys_of (remove d n)).
Proof.
  induction d as [|(m & l) d IH]; cbn; intros H; auto. inversion H as [|? ? F H']; subst. destruct (String.eqb m n); auto. cbn. constructor; auto.
  apply Forall_forall. intros x X. rewrite Forall_forall in F. apply F. apply in_map_iff in X. destruct X as (y & <- & Y). apply in_map. eapply remove_sub; eauto.
Qed.
Section Train.
Variables (c : config) (extra : list string) (seed : Z) (n : nat).
Let init := make_rngs (params_name :: extra) seed.
Let rngs0 := remove init params_name.
Lemma train_inv a d : train c extra seed n = Ok (a, d) -> exists steps, a = Use Init init :: steps /\ train_loop c n rngs0 = Ok (steps, d) /\ good rngs0 steps d.
Proof.
  unfold train, initialize. fold init. fold rngs0. intros E. apply bind_ok in E. destruct E as ([b d1] & E1 & E). apply Ok_inj in E. injection E as <- <-. exists b. split; auto. split; auto.
  destruct (some_updates c) as [u U], (some_microsteps c) as [m M]. eapply loop_good; eauto. apply remove_names. apply make_rngs_nodup.
Qed.
End Train.
(** No two calls of the steps get related keys, nor is a key that was used, or derived from one that
    was used, ever used again. *)
Lemma train_separate c extra seed n a d : train c extra seed n = Ok (a, d) ->
  exists init steps, a = Use Init init :: steps /\ Forall (fun u => u_site u <> Init) steps /\
    all_separate (keys_used steps ++ keys_of d) /\ NoDup (keys_used a).
Proof.
  intros E. apply train_inv in E. destruct E as (steps & -> & L & G). exists (make_rngs (params_name :: extra) seed), steps. split; auto.
  assert (S0 : seps (keys_of (remove (make_rngs (params_name :: extra) seed) params_name))) by (apply seps_remove; apply make_rngs_seps).
  assert (S := g_seps _ _ _ G S0). split; [|split; [apply seps_all; auto|]].
  - destruct (some_updates c) as [u U], (some_microsteps c) as [m M]. revert L. generalize (remove (make_rngs (params_name :: extra) seed) params_name). clear - U M. revert steps d.
    assert (I : forall m d, Forall (fun u => u_site u <> Init) (fst (iterate m apply_and_split d))).
    { induction m0 as [|k IH]; intros d; cbn [iterate]; [constructor|]. rewrite apply_and_split_eq. specialize (IH (at_child 1 d)). destruct (iterate k apply_and_split (at_child 1 d)). cbn [fst app] in *. constructor; auto. discriminate. }
    assert (P : forall d, Forall (fun u => u_site u <> Init) (fst (plain_step u m d))).
    { intros d. unfold plain_step. destruct (u =? 0); auto. unfold inner_step. rewrite pgd_eq. specialize (I m (at_child u d)). destruct (iterate m apply_and_split (at_child u d)). cbn [fst] in *. apply Forall_app. split; auto.
      apply Forall_map. apply Forall_forall. discriminate. }
    induction n as [|n IH]; intros steps d d0 E; cbn [train_loop] in E; [apply Ok_inj in E; injection E as <- <-; constructor|].
    apply bind_ok in E. destruct E as ([a1 d1] & E1 & E). apply bind_ok in E. destruct E as ([b d2] & E2 & E). apply Ok_inj in E. injection E as <- <-. apply Forall_app. split; eauto.
    rewrite (step_eq c u m) in E1 by auto. destruct (mixup_onb c).
    + destruct (get d0 mixup_name); [|discriminate]. specialize (P (remove d0 mixup_name)). destruct (plain_step u m (remove d0 mixup_name)). apply Ok_inj in E1. injection E1 as <- <-. constructor; auto. discriminate.
    + apply Ok_inj in E1. specialize (P d0). rewrite E1 in P. auto.
  - cbn [keys_used flat_map u_rngs]. fold (keys_used steps). assert (SK : seps (keys_used steps)) by (apply seps_app in S; tauto).
    assert (IL : forall k, In k (keys_of (make_rngs (params_name :: extra) seed)) -> length (k_path k) = 1).
    { intros k K. apply in_map_iff in K. destruct K as ((x & y) & <- & K). apply make_rngs_in in K. destruct K as (_ & i & ->). auto. }
    assert (SL : forall k, In k (keys_used steps) -> 1 < length (k_path k)).
    { intros k K. rewrite keys_pairs in K. apply in_map_iff in K. destruct K as ((x & y) & <- & K). apply (g_used _ _ _ G) in K. destruct K as (k0 & K0 & D & LT). cbn [snd]. rewrite (IL k0) in LT; auto. change k0 with (snd (x, k0)). apply in_map. eapply remove_sub; eauto. }
    apply seps_nodup in SK. assert (SI := seps_nodup _ (make_rngs_seps (params_name :: extra) seed)). revert SI SL IL SK. generalize (keys_of (make_rngs (params_name :: extra) seed)) (keys_used steps). clear.
    intros l l' A L L' B. induction l as [|x l IH]; cbn [app]; auto. inversion A; subst. constructor; [|apply IH; auto; intros; apply L'; cbn; auto]. intros I. apply in_app_or in I. destruct I as [I|I]; [auto|]. apply L in I. rewrite L' in I by (cbn; auto). lia.
Qed.
(** The keys of a name are made from the first key of this name, and the names stay the same. *)
Lemma train_names c extra seed n a d : train c extra seed n = Ok (a, d) ->
  exists init steps, a = Use Init init :: steps /\
    (forall x, In x (map fst init) <-> x = params_name \/ In x extra) /\
    (forall x, In x (map fst d) <-> In x extra /\ x <> params_name) /\ NoDup (map fst d) /\
    (forall u x k, In u steps -> In (x, k) (u_rngs u) -> exists k0, In (x, k0) init /\ derived k0 k /\ x <> params_name) /\
    (forall x k, In (x, k) d -> exists k0, In (x, k0) init /\ derived k0 k).
Proof.
  intros E. apply train_inv in E. destruct E as (steps & -> & L & G). exists (make_rngs (params_name :: extra) seed), steps. split; auto.
  assert (N := make_rngs_nodup (params_name :: extra) seed). destruct (remove_names _ params_name N) as [RN RI].
  split; [intros x; assert (X := make_rngs_names (params_name :: extra) seed x); unfold names in X; rewrite X; cbn; split; intuition|].
  split; [|split; [eapply Permutation_NoDup; [apply (g_names _ _ _ G)|auto]|split]].
  - intros x. transitivity (In x (names (remove (make_rngs (params_name :: extra) seed) params_name))).
    + split; intros H; [eapply Permutation_in; [symmetry; apply (g_names _ _ _ G)|auto]|eapply Permutation_in; [apply (g_names _ _ _ G)|auto]].
    + rewrite RI, make_rngs_names. cbn. split; [intros [[H|H] H']; [congruence|auto]|intuition].
  - intros u x k U X. destruct (g_used _ _ _ G x k) as (k0 & K0 & D & _); [unfold pairs_used; apply in_flat_map; eauto|]. exists k0. split; [eapply remove_sub; eauto|]. split; auto.
    assert (I : In x (names (remove (make_rngs (params_name :: extra) seed) params_name))) by (change x with (fst (x, k0)); apply in_map; auto). apply RI in I. tauto.
  - intros x k X. destruct (g_next _ _ _ G x k X) as (k0 & K0 & D). exists k0. split; auto. eapply remove_sub; eauto.
Qed.
Lemma iterate_calls m d : length (fst (iterate m apply_and_split d)) = m /\ Forall (fun x => u_site x = Model /\ map fst (u_rngs x) = names d) (fst (iterate m apply_and_split d)).
Proof.
  revert d. induction m as [|k IH]; intros d; cbn [iterate]; [split; [auto|constructor]|]. rewrite apply_and_split_eq. specialize (IH (at_child 1 d)). destruct (iterate k apply_and_split (at_child 1 d)). cbn [fst app length] in *.
  destruct IH as [L F]. rewrite names_at in F. split; [lia|]. constructor; auto. cbn. split; auto. apply names_at.
Qed.
Lemma plain_calls u m d : length (fst (plain_step u m d)) = u + m /\ Forall (fun x => u_site x = Model /\ map fst (u_rngs x) = names d) (fst (plain_step u m d)).
Proof.
  unfold plain_step. destruct (Nat.eqb_spec u 0) as [->|NZ]; [apply iterate_calls|]. unfold inner_step. rewrite pgd_eq. assert (I := iterate_calls m (at_child u d)). destruct (iterate m apply_and_split (at_child u d)). cbn [fst] in *.
  destruct I as [L F]. rewrite names_at in F. split; [rewrite app_length, map_length, seq_length; lia|]. apply Forall_app. split; auto. apply Forall_map. apply Forall_forall. intros i _. cbn. split; auto. apply names_at.
Qed.
Lemma step_calls_lem c u m d a d' : updates_of c u -> microsteps_of c m -> NoDup (names d) -> configured_step c d = Ok (a, d') ->
  step_calls (mixup_onb c) u m (if mixup_onb c then names (remove d mixup_name) else names d) a.
Proof.
  intros U M ND. rewrite (step_eq c u m) by auto. destruct (mixup_onb c).
  - destruct (get d mixup_name) as [k|]; [|discriminate]. assert (P := plain_calls u m (remove d mixup_name)). destruct (plain_step u m (remove d mixup_name)) as [b d1]. cbn [fst] in P. destruct P as [L F].
    intros E. apply Ok_inj in E. injection E as <- <-. split; [cbn [length]; lia|]. intros [|i] x X; cbn in X; [injection X as <-; cbn; auto|]. cbn [andb Nat.eqb]. rewrite Forall_forall in F. destruct (F x) as [S N]; [eapply nth_error_In; eauto|]. rewrite N. auto.
  - intros E. apply Ok_inj in E. assert (P := plain_calls u m d). rewrite E in P. cbn [fst] in P. destruct P as [L F]. split; [cbn; lia|]. intros i x X. cbn [andb]. rewrite Forall_forall in F. destruct (F x) as [S N]; [eapply nth_error_In; eauto|]. rewrite N. auto.
Qed.
Lemma train_calls c u m extra seed n a d : updates_of c u -> microsteps_of c m -> train c extra seed n = Ok (a, d) ->
  exists init steps nms mix, a = Use Init init :: concat steps /\ length steps = n /\ NoDup nms /\ (mix = true <-> mixup_on c) /\
    (forall x, In x nms <-> In x extra /\ x <> params_name /\ (mix = true -> x <> mixup_name)) /\
    Forall (step_calls mix u m nms) steps.
Proof.
  intros U M E. assert (MX := mixup_onb_iff c). apply train_inv in E. destruct E as (steps & -> & L & G). exists (make_rngs (params_name :: extra) seed). set (d0 := remove (make_rngs (params_name :: extra) seed) params_name) in *.
  assert (N := make_rngs_nodup (params_name :: extra) seed). destruct (remove_names _ params_name N) as [RN RI]. fold d0 in RN, RI. destruct (remove_names d0 mixup_name RN) as [RN' RI'].
  assert (GEN : forall n d0 steps d, NoDup (names d0) -> train_loop c n d0 = Ok (steps, d) -> exists l, steps = concat l /\ length l = n /\ forall nms, Permutation nms (if mixup_onb c then names (remove d0 mixup_name) else names d0) -> Forall (step_calls (mixup_onb c) u m nms) l).
  { clear - U M. induction n as [|n IH]; intros d0 steps d ND E; cbn [train_loop] in E; [apply Ok_inj in E; injection E as <- <-; exists []; split; auto|].
    apply bind_ok in E. destruct E as ([a1 d1] & E1 & E). apply bind_ok in E. destruct E as ([b d2] & E2 & E). apply Ok_inj in E. injection E as <- <-.
    assert (C := step_calls_lem c u m d0 a1 d1 U M ND E1). assert (SG := step_good c u m d0 a1 d1 U M ND E1). assert (ND1 : NoDup (names d1)) by (eapply Permutation_NoDup; [apply (g_names _ _ _ SG)|auto]).
    destruct (IH d1 b d2 ND1 E2) as (l & -> & LL & F). exists (a1 :: l). split; auto. split; [cbn; lia|]. intros nms P. constructor.
    - destruct C as [C1 C2]. split; auto. intros i x X. specialize (C2 i x X). destruct (mixup_onb c && (i =? 0)); auto. destruct C2 as [C2 C3]. split; auto. rewrite C3. symmetry. auto.
    - apply F. etransitivity; [apply P|]. destruct (mixup_onb c); [|apply (g_names _ _ _ SG)]. apply NoDup_Permutation; [apply remove_names; auto|apply remove_names; auto|]. intros x. rewrite (proj2 (remove_names d0 mixup_name ND)), (proj2 (remove_names d1 mixup_name ND1)).
      split; intros [X Y]; split; auto; [eapply Permutation_in; [apply (g_names _ _ _ SG)|auto]|eapply Permutation_in; [symmetry; apply (g_names _ _ _ SG)|auto]]. }
  destruct (GEN n d0 steps d RN L) as (l & -> & LL & F). exists l. eexists. exists (mixup_onb c). split; auto. split; auto. split; [|split; [auto|split; [|apply F; reflexivity]]].
  - destruct (mixup_onb c); auto.
  - intros x. assert (I : In x (names d0) <-> In x extra /\ x <> params_name). { rewrite RI, make_rngs_names. cbn. split; [intros [[H|H] H']; [congruence|auto]|intuition]. }
    destruct (mixup_onb c); [rewrite RI', I; tauto|rewrite I; split; [intros [A B]; split; auto; split; auto; discriminate|tauto]].
Qed.
(** Training fails if and only if mixup has no key. *)
Lemma train_errors c extra seed n : match train c extra seed n with
  | Ok _ => n = 0 \/ ~ mixup_on c \/ In mixup_name extra
  | Raise e => e = ValueError /\ 0 < n /\ mixup_on c /\ ~ In mixup_name extra
  end.
Proof.
  destruct (some_updates c) as [u U], (some_microsteps c) as [m M]. unfold train, initialize. set (d0 := remove (make_rngs (params_name :: extra) seed) params_name).
  assert (N := make_rngs_nodup (params_name :: extra) seed). destruct (remove_names _ params_name N) as [RN RI]. fold d0 in RN, RI.
  assert (I : In mixup_name (names d0) <-> In mixup_name extra). { rewrite RI, make_rngs_names. cbn. split; [intros [[H|H] H']; [discriminate|auto]|intros H; split; auto; discriminate]. }
  assert (GEN : forall n d0, NoDup (names d0) -> match train_loop c n d0 with Ok _ => n = 0 \/ ~ mixup_on c \/ In mixup_name (names d0) | Raise e => e = ValueError /\ 0 < n /\ mixup_on c /\ ~ In mixup_name (names d0) end).
  { clear - U M. induction n as [|n IH]; intros d0 ND; cbn [train_loop]; auto. destruct (configured_step c d0) as [[a d1]|e] eqn:E; cbn [bind].
    - assert (SG := step_good c u m d0 a d1 U M ND E). assert (ND1 : NoDup (names d1)) by (eapply Permutation_NoDup; [apply (g_names _ _ _ SG)|auto]).
      assert (IN : In mixup_name (names d1) <-> In mixup_name (names d0)) by (split; apply Permutation_in; [symmetry|]; apply (g_names _ _ _ SG)).
      specialize (IH d1 ND1). destruct (train_loop c n d1) as [[b d2]|e] eqn:E2; cbn [bind].
      + right. destruct (mixup_onb c) eqn:H; [right|left; intros H'; apply mixup_onb_iff in H'; congruence]. rewrite (step_eq c u m) in E by auto. rewrite H in E. destruct (get d0 mixup_name) as [k|] eqn:K; [|discriminate]. apply get_in in K. change mixup_name with (fst (mixup_name, k)). apply in_map. auto.
      + rewrite IN in IH. intuition.
    - rewrite (step_eq c u m) in E by auto. destruct (mixup_onb c) eqn:X; [|discriminate]. apply mixup_onb_iff in X. destruct (get d0 mixup_name) as [k|] eqn:K.
      + destruct (plain_step u m (remove d0 mixup_name)); discriminate.
      + injection E as <-. apply get_none in K. split; auto. split; [lia|]. auto. }
  specialize (GEN n d0 RN). destruct (train_loop c n d0) as [[b d1]|e]; cbn [bind]; rewrite <- I; auto.
Qed.
(** Continuing from the keys of a checkpoint gives the same calls. *)
Lemma train_resume c n m d : train_loop c (n + m) d = bind (train_loop c n d) (fun r => let '(a, d) := r in bind (train_loop c m d) (fun r => let '(b, d) := r in Ok (a ++ b, d))).
Proof.
  revert d. induction n as [|n IH]; intros d; cbn [Nat.add train_loop bind]; [destruct (train_loop c m d) as [[b d']|e]; auto|].
  destruct (configured_step c d) as [[a d1]|e]; cbn [bind]; auto. rewrite IH. destruct (train_loop c n d1) as [[b d2]|e]; cbn [bind]; auto. destruct (train_loop c m d2) as [[b' d3]|e]; cbn [bind]; auto. now rewrite app_assoc.
Qed.

(** ** Evaluation *)
Lemma evaluate_separate rng_keys seed n : all_separate (keys_used (evaluate_dataset rng_keys seed n)).
Proof.
  apply seps_all. unfold evaluate_dataset. assert (G := iterate_good n (make_rngs rng_keys seed)). assert (S := g_seps _ _ _ G (make_rngs_seps _ _)). apply seps_app in S. tauto.
Qed.
Lemma evaluate_names rng_keys seed n : length (evaluate_dataset rng_keys seed n) = n /\
  Forall (fun u => u_site u = Model /\ NoDup (map fst (u_rngs u)) /\ forall x, In x (map fst (u_rngs u)) <-> In x rng_keys) (evaluate_dataset rng_keys seed n).
Proof.
  unfold evaluate_dataset. destruct (iterate_calls n (make_rngs rng_keys seed)) as [L F]. split; auto. revert F. apply Forall_impl. intros u [S N]. rewrite N. split; auto. split; [apply make_rngs_nodup|]. intros x. apply make_rngs_names.
Qed.
(** All datasets and all evaluations use the same keys, in the same order. *)
Lemma iterate_app n m d : iterate (n + m) apply_and_split d = let '(a, d) := iterate n apply_and_split d in let '(b, d) := iterate m apply_and_split d in (a ++ b, d).
Proof.
  revert d. induction n as [|n IH]; intros d; cbn [Nat.add iterate]; [destruct (iterate m apply_and_split d); auto|]. destruct (apply_and_split d) as [a d1]. rewrite IH. destruct (iterate n apply_and_split d1) as [b d2]. destruct (iterate m apply_and_split d2) as [b' d3]. now rewrite app_assoc.
Qed.
Lemma evaluate_same rng_keys seed datasets a b n m : In (a, n) datasets -> In (b, m) datasets -> n <= m ->
  exists x y, In (a, x) (evaluate rng_keys seed datasets) /\ In (b, y) (evaluate rng_keys seed datasets) /\ x = firstn n y.
Proof.
  intros A B L. exists (evaluate_dataset rng_keys seed n), (evaluate_dataset rng_keys seed m). split; [unfold evaluate; apply in_map_iff; exists (a, n); auto|]. split; [unfold evaluate; apply in_map_iff; exists (b, m); auto|].
  replace m with (n + (m - n)) by lia. unfold evaluate_dataset. rewrite iterate_app. assert (X := proj1 (iterate_calls n (make_rngs rng_keys seed))). destruct (iterate n apply_and_split (make_rngs rng_keys seed)) as [u d]. destruct (iterate (m - n) apply_and_split d) as [v d']. cbn [fst] in *.
  rewrite firstn_app, X, Nat.sub_diag, <- X, firstn_all, firstn_O, app_nil_r. auto.
Qed.

(** ** Few-shot evaluation *)
Lemma fewshot_eq rng_keys f seed sub step n m : fewshot_dataset rng_keys f seed sub step n m = fst (iterate (n + m) apply_and_split (make_fewshot_state rng_keys f seed sub step)).
Proof.
  unfold fewshot_dataset. rewrite iterate_app. destruct (iterate n apply_and_split _) as [a d]. destruct (iterate m apply_and_split d) as [b d']. auto.
Qed.
Lemma fewshot_seps rng_keys f seed sub step : seps (keys_of (make_fewshot_state rng_keys f seed sub step)).
Proof. destruct rng_keys as [|x l]; [constructor|]. apply (split_dict_seps (x :: l)). Qed.
Lemma fewshot_separate rng_keys f seed sub step n m : all_separate (keys_used (fewshot_dataset rng_keys f seed sub step n m)).
Proof.
  apply seps_all. rewrite fewshot_eq. assert (G := iterate_good (n + m) (make_fewshot_state rng_keys f seed sub step)). assert (S := g_seps _ _ _ G (fewshot_seps _ _ _ _ _)). apply seps_app in S. tauto.
Qed.
Lemma fewshot_root rng_keys f seed sub step n m k : In k (keys_used (fewshot_dataset rng_keys f seed sub step n m)) ->
  derived (let r := child (prng_key seed) sub in if f then child r step else r) k.
Proof.
  rewrite fewshot_eq. intros H. assert (G := iterate_good (n + m) (make_fewshot_state rng_keys f seed sub step)). rewrite keys_pairs in H. apply in_map_iff in H. destruct H as ((x & y) & <- & H). cbn [snd].
  destruct (g_used _ _ _ G x y H) as (k0 & K0 & D & _). eapply derived_trans; [|apply D]. destruct rng_keys as [|a l]; [destruct K0|]. apply (split_dict_in (a :: l)) in K0. destruct K0 as (_ & i & ->). unfold fold_in. cbv zeta. apply derived_child.
Qed.
(** Different sub-seeds, and different steps if they are folded in, give separate keys. *)
Lemma fewshot_runs rng_keys f seed sub step n m sub' step' n' m' k k' : sub <> sub' \/ f = true /\ step <> step' ->
  In k (keys_used (fewshot_dataset rng_keys f seed sub step n m)) -> In k' (keys_used (fewshot_dataset rng_keys f seed sub' step' n' m')) -> separate k k'.
Proof.
  intros D K K'. apply fewshot_root in K, K'. eapply separate_derived; [|apply K|apply K']. cbv zeta. destruct (Nat.eq_dec sub sub') as [->|NE].
  - destruct D as [D|[-> D]]; [congruence|]. apply separate_siblings; auto.
  - assert (S := separate_siblings (prng_key seed) sub sub' NE). destruct f; auto. eapply separate_derived; eauto using derived_child.
Qed.
Lemma fewshot_same rng_keys seed sub step step' n m : fewshot_dataset rng_keys false seed sub step n m = fewshot_dataset rng_keys false seed sub step' n m.
Proof. reflexivity. Qed.

(** ** Attacks *)
Lemma attack_step u d : stateful_attack u d = ({| a_updates := map (fun i => at_child i d) (seq 0 u); a_before := d; a_after := at_child u d |}, at_child u d).
Proof. unfold stateful_attack. rewrite pgd_eq. rewrite map_map. auto. Qed.
(** In a batch, all calls get different keys. *)
Lemma attack_batch rng_keys seed u n a : In a (run_pgd_attack rng_keys seed u n) -> NoDup (attack_keys a) /\ length (a_updates a) = u.
Proof.
  unfold run_pgd_attack. assert (S := make_rngs_seps rng_keys seed). revert S. generalize (make_rngs rng_keys seed). induction n as [|n IH]; intros d S H; [destruct H|]. cbn [attack_loop] in H. rewrite attack_step in H. destruct H as [<-|H].
  - unfold attack_keys. cbn [a_updates a_before a_after]. split; [|now rewrite map_length, seq_length].
    assert (X := g_seps _ _ _ (good_splits d u) S). unfold keys_used in X. rewrite flat_map_map in X. cbn [u_rngs] in X. rewrite flat_map_map.
    apply seps_nodup in X. eapply Permutation_NoDup; [apply Permutation_app_comm|]. rewrite <- app_assoc.
    assert (X' : NoDup (keys_of (at_child u d) ++ flat_map (fun x => keys_of (at_child x d)) (seq 0 u))) by (eapply Permutation_NoDup; [apply Permutation_app_comm|auto]).
    revert X'. assert (D := seps_nodup _ S). assert (CH : forall k, In k (keys_of (at_child u d) ++ flat_map (fun x => keys_of (at_child x d)) (seq 0 u)) -> exists k0 i, In k0 (keys_of d) /\ k = child k0 i).
    { intros k K. apply in_app_or in K. destruct K as [K|K]; [|apply in_flat_map in K; destruct K as (i & _ & K)]; rewrite keys_at in K; apply in_map_iff in K; destruct K as (k0 & <- & K); eauto. }
    revert CH. generalize (keys_of (at_child u d) ++ flat_map (fun x => keys_of (at_child x d)) (seq 0 u)). intros l CH NL.
    assert (DIS : forall k, In k (keys_of d) -> ~ In k l).
    { intros k K L. apply CH in L. destruct L as (k0 & i & K0 & ->). destruct (seps_in _ _ _ S K K0) as [E|E].
      - apply (f_equal (fun k => length (k_path k))) in E. cbn in E. lia.
      - apply (E (child k0 i)). auto using derived_refl, derived_child. }
    clear - D DIS NL. induction (keys_of d) as [|x r IH]; cbn [app]; auto. inversion D; subst. constructor; [|apply IH; auto; intros; apply DIS; cbn; auto]. intros I. apply in_app_or in I. destruct I as [I|I]; auto. apply (DIS x); cbn; auto.
  - apply (IH (at_child u d)); auto. assert (X := g_seps _ _ _ (good_splits d u) S). apply seps_app in X. tauto.
Qed.
(** The updates of all batches get separate keys. *)
Lemma attack_updates rng_keys seed u n : all_separate (flat_map (fun a => flat_map keys_of (a_updates a)) (run_pgd_attack rng_keys seed u n)).
Proof.
  apply seps_all. unfold run_pgd_attack. assert (S := make_rngs_seps rng_keys seed). revert S. generalize (make_rngs rng_keys seed). intros d S.
  assert (G : exists a d', good d a d' /\ keys_used a = flat_map (fun a => flat_map keys_of (a_updates a)) (attack_loop u n d)).
  { clear S. revert d. induction n as [|n IH]; intros d; cbn [attack_loop]; [exists [], d; split; [apply good_refl|auto]|]. rewrite attack_step. destruct (IH (at_child u d)) as (a & d' & G & E). eexists. exists d'. split; [eapply good_trans; [apply (good_splits d u)|apply G]|].
    rewrite keys_used_app, E. cbn [flat_map a_updates]. f_equal. unfold keys_used. rewrite !flat_map_map. auto. }
  destruct G as (a & d' & G & <-). assert (X := g_seps _ _ _ G S). apply seps_app in X. tauto.
Qed.
(** But the images after the attack of a batch and those before the attack of the next batch get the same keys. *)
Lemma attack_reuse rng_keys seed u n i a b : nth_error (run_pgd_attack rng_keys seed u n) i = Some a -> nth_error (run_pgd_attack rng_keys seed u n) (S i) = Some b -> a_before b = a_after a.
Proof.
  unfold run_pgd_attack. generalize (make_rngs rng_keys seed). revert i. induction n as [|n IH]; intros i d A B; [destruct i; discriminate|]. cbn [attack_loop] in A, B. rewrite attack_step in A, B. destruct i as [|i]; cbn [nth_error] in *; [|eapply IH; eauto].
  injection A as <-. destruct n as [|n]; [discriminate|]. cbn [attack_loop] in B. rewrite attack_step in B. cbn in B. injection B as <-. auto.
Qed.
Lemma attack_reuse_refuted : exists rng_keys seed u n, ~ NoDup (flat_map attack_keys (run_pgd_attack rng_keys seed u n)).
Proof.
  exists ["dropout"%string], 0%Z, 1, 2. cbn. intros N. inversion N as [|? ? _ N1]; subst. inversion N1 as [|? ? _ N2]; subst. inversion N2 as [|? ? I N3]; subst. apply I. right. left. reflexivity.
Qed.
(** The key of the images before the attack is also split for the updates. *)
Lemma attack_parent rng_keys seed u n a k : 0 < u -> In a (run_pgd_attack rng_keys seed u n) -> In k (keys_of (a_before a)) -> exists k', In k' (flat_map keys_of (a_updates a)) /\ ~ separate k k'.
Proof.
  intros U. unfold run_pgd_attack. generalize (make_rngs rng_keys seed). induction n as [|n IH]; intros d H; [destruct H|]. cbn [attack_loop] in H. rewrite attack_step in H. destruct H as [<-|H]; [|eapply IH; eauto].
  cbn [a_before a_updates]. intros K. exists (child k 0). split; [|intros S; apply (S (child k 0)); auto using derived_refl, derived_child].
  rewrite flat_map_map. apply in_flat_map. exists 0. split; [apply in_seq; lia|]. rewrite keys_at. apply (in_map (fun k => child k 0)). auto.
Qed.
