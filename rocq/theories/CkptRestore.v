(** What all processes write together, and what restore makes of it. *)
From Coq Require Import List Arith ZArith Bool Lia Permutation.
From Verif Require Import Prim PrimLemmas CkptModel CkptSpec CkptSlices CkptSave.
Import ListNotations.
Local Open Scope nat_scope.

Lemma NoDup_app_intro {A} (a b : list A) : NoDup a -> NoDup b -> (forall x, In x a -> In x b -> False) -> NoDup (a ++ b).
Proof.
  induction 1 as [|x a Hx ND IH]; simpl; intros Nb D; auto. constructor.
  - rewrite in_app_iff. intros [|]; eauto.
  - apply IH; eauto.
Qed.

Lemma NoDup_flat_map {A B} (f : A -> list B) l : NoDup l -> (forall x, In x l -> NoDup (f x)) ->
  (forall x y z, In x l -> In y l -> In z (f x) -> In z (f y) -> x = y) -> NoDup (flat_map f l).
Proof.
  induction 1 as [|x l Hn ND IH]; simpl; intros F I. constructor.
  apply NoDup_app_intro.
  - apply F; auto.
  - apply IH; intros; eauto.
  - intros z Hz Hz'. apply in_flat_map in Hz'. destruct Hz' as [y [Hy Hz']]. apply Hn.
    rewrite (I x y z); auto.
Qed.

Lemma nth_error_seq_combine {A} (l : list A) off i x :
  In (i, x) (combine (seq off (length l)) l) <-> off <= i /\ nth_error l (i - off) = Some x.
Proof.
  revert off. induction l as [|y l IH]; intros off; simpl.
  - split; [contradiction|]. intros [_ E]; destruct (i - off); discriminate.
  - rewrite IH. split.
    + intros [E|[L E]].
      * injection E as <- <-. rewrite Nat.sub_diag. auto.
      * split; [lia|]. replace (i - off) with (S (i - S off)) by lia. auto.
    + intros [L E]. destruct (Nat.eq_dec i off) as [->|].
      * rewrite Nat.sub_diag in E. injection E as ->. auto.
      * right. split; [lia|]. replace (i - off) with (S (i - S off)) in E by lia. auto.
Qed.

Section Files.
  Context {V : Type}.
  Variables (P : nat) (mcb ns : option Z).
  Hypothesis HP : 0 < P.

  Definition key2 (c : chunk V) := (ch_leaf c, ch_slice c).
  Definition fkeys (k off : nat) (asgs : list (list (slicend * nat))) :=
    flat_map (fun ia => map (fun ck => (fst ia, fst ck)) (filter (fun ck => snd ck =? k) (snd ia)))
             (combine (seq off (length asgs)) asgs).

  Record saved_as (leaves : list (leaf V)) (s : nat -> saved V) (n : nat)
    (asgs : list (list (slicend * nat))) : Prop := {
    sa_len : P <= n;
    sa_asg : Forall2 (fun lf a => asg_ok P mcb lf n a) leaves asgs;
    sa_greedy : greedy_all P mcb leaves (repeat 0 n) asgs;
    sa_index : forall p, p < P -> sv_index (s p) = infos_of asgs leaves /\ sv_shard_count (s p) = n;
    sa_names : forall p, p < P -> map fst (sv_files (s p)) = filter (fun k => k mod P =? p) (seq 0 n);
    sa_keys : forall p k content, p < P -> In (k, content) (sv_files (s p)) ->
      map key2 content = fkeys k 0 asgs;
    sa_data : forall p k content c, p < P -> In (k, content) (sv_files (s p)) -> In c content ->
      exists lf, nth_error leaves (ch_leaf c) = Some lf /\ chunk_ok lf c }.

  Lemma num_shards_ge : P <= effective_num_shards P ns.
  Proof using. clear HP. unfold effective_num_shards. destruct ns as [z|]; auto.
    destruct (z <? Z.of_nat P)%Z eqn:E; auto. apply Z.ltb_ge in E. lia. Qed.

  Lemma filter_keys p k off asgs : k mod P = p ->
    map (fun t => (snd (fst t), snd t)) (filter (fun t => fst (fst t) =? k) (keys_of P p off asgs)) = fkeys k off asgs.
  Proof using.
    clear HP. intros E. unfold keys_of, fkeys. generalize (combine (seq off (length asgs)) asgs).
    induction l as [|[i a] l IH]; simpl; auto. rewrite filter_app, map_app, IH. f_equal. clear IH.
    induction a as [|[c q] a IH]; simpl; auto.
    destruct (q mod P =? p) eqn:E1; simpl.
    - destruct (q =? k) eqn:E2; simpl; rewrite IH; auto.
    - destruct (Nat.eqb_spec q k); auto. subst. rewrite Nat.eqb_refl in E1. discriminate.
  Qed.

  Lemma Forall2_nth_error {A B} (R : A -> B -> Prop) l l' i x : Forall2 R l l' -> nth_error l i = Some x ->
    exists y, nth_error l' i = Some y /\ R x y.
  Proof using. clear HP. intros F. revert i. induction F; intros [|i] H0; simpl in *; try discriminate; eauto.
    injection H0 as <-. eauto. Qed.
  Lemma Forall2_nth_error_r {A B} (R : A -> B -> Prop) l l' i y : Forall2 R l l' -> nth_error l' i = Some y ->
    exists x, nth_error l i = Some x /\ R x y.
  Proof using. clear HP. intros F. revert i. induction F; intros [|i] H0; simpl in *; try discriminate; eauto.
    injection H0 as <-. eauto. Qed.

  Lemma save_ok leaves views p : Forall (good_leaf P) leaves ->
    Forall2 same_array views leaves ->
    exists bytes asgs s, let n := effective_num_shards P ns in
      layout P mcb leaves (repeat 0 n) = Ok (bytes, asgs) /\
      Forall2 (fun lf a => asg_ok P mcb lf n a) leaves asgs /\
      greedy_all P mcb leaves (repeat 0 n) asgs /\
      save_checkpoint P p views ns mcb = Ok s /\
      sv_index s = infos_of asgs leaves /\ sv_shard_count s = n /\
      map fst (sv_files s) = filter (fun k => k mod P =? p) (seq 0 n) /\
      (forall k content, In (k, content) (sv_files s) -> map key2 content = fkeys k 0 asgs) /\
      (forall k content c, In (k, content) (sv_files s) -> In c content ->
         exists lf, nth_error leaves (ch_leaf c) = Some lf /\ chunk_ok lf c).
  Proof using HP.
    intros G S. set (n := effective_num_shards P ns).
    assert (HL : P <= length (repeat 0 n)) by (rewrite repeat_length; apply num_shards_ge).
    assert (Gv : Forall (good_leaf P) views).
    { clear - G S. induction S; auto. inversion G; subst. constructor; auto. eapply good_same; eauto. }
    destruct (save_loop P mcb HP p leaves 0 (repeat 0 n) [] [] G HL) as [b [asgs [new [_ [Ly [_ [A [Gr [_ _]]]]]]]]].
    destruct (save_loop P mcb HP p views 0 (repeat 0 n) [] [] Gv HL) as [b2 [asgs2 [new2 [R [Ly2 [_ [_ [_ [K O]]]]]]]]].
    rewrite (layout_same P mcb HP views leaves) in Ly2 by auto. rewrite Ly in Ly2. injection Ly2 as <- <-.
    rewrite repeat_length in A.
    exists b, asgs. eexists. simpl. split; [exact Ly|]. split; [exact A|]. split; [exact Gr|].
    split. { unfold save_checkpoint. fold n. rewrite R. simpl. reflexivity. }
    simpl. split. { unfold infos_of. clear - S. revert asgs. induction S as [|x y l l' [E _] S IH]; intros [|a asgs]; simpl; auto.
                    rewrite E, IH; auto. }
    split; [auto|]. split. { rewrite map_map. simpl. apply map_id. }
    split.
    - intros k content I. apply in_map_iff in I. destruct I as [k' [E I]]. injection E as -> <-.
      apply filter_In in I. destruct I as [_ I]. apply Nat.eqb_eq in I.
      rewrite <- (filter_keys p k 0 asgs I), <- K. clear. induction new2 as [|[q c] l IH]; simpl; auto.
      destruct (q =? k); simpl; rewrite <- IH; auto.
    - intros k content c I Ic. apply in_map_iff in I. destruct I as [k' [E I]]. injection E as -> <-.
      apply in_map_iff in Ic. destruct Ic as [kc [<- Ic]]. apply filter_In in Ic. destruct Ic as [Ic _].
      rewrite Forall_forall in O. destruct (O kc Ic) as [lf [N [_ C]]]. rewrite Nat.sub_0_r in N.
      destruct (Forall2_nth_error _ _ _ _ _ S N) as [lf' [N' [_ [_ [Ev _]]]]]. exists lf'. split; auto.
      unfold chunk_ok in *. rewrite <- Ev. auto.
  Qed.

  Lemma all_saved_as leaves views s : all_saved P leaves views ns mcb s ->
    exists n asgs, saved_as leaves s n asgs.
  Proof using HP.
    intros [_ [G [Sv Ok1]]].
    destruct (save_ok leaves (views 0) 0 G (Sv 0 HP)) as [b [asgs [s0 [Ly [A [Gr _]]]]]].
    exists (effective_num_shards P ns), asgs.
    assert (Q : forall p, p < P -> 
      sv_index (s p) = infos_of asgs leaves /\ sv_shard_count (s p) = effective_num_shards P ns /\
      map fst (sv_files (s p)) = filter (fun k => k mod P =? p) (seq 0 (effective_num_shards P ns)) /\
      (forall k content, In (k, content) (sv_files (s p)) -> map key2 content = fkeys k 0 asgs) /\
      (forall k content c, In (k, content) (sv_files (s p)) -> In c content ->
         exists lf, nth_error leaves (ch_leaf c) = Some lf /\ chunk_ok lf c)).
    { intros p Hp. destruct (save_ok leaves (views p) p G (Sv p Hp)) as [b' [asgs' [s' [Ly' [_ [_ [E Q]]]]]]].
      rewrite Ly in Ly'. injection Ly' as <- <-. rewrite (Ok1 p Hp) in E. injection E as ->. exact Q. }
    constructor; auto.
    - apply num_shards_ge.
    - intros p Hp. destruct (Q p Hp) as [Q1 [Q2 _]]. auto.
    - intros p Hp. apply (Q p Hp).
    - intros p k content Hp. apply (Q p Hp).
    - intros p k content c Hp. apply (Q p Hp).
  Qed.

  Lemma fkeys_in k off asgs i c : In (i, c) (fkeys k off asgs) <->
    off <= i /\ exists a, nth_error asgs (i - off) = Some a /\ In (c, k) a.
  Proof using.
    clear HP. revert off. induction asgs as [|a asgs IH]; intros off.
    - unfold fkeys; simpl. split; [contradiction|]. intros [_ [a [E _]]]. destruct (i - off); discriminate.
    - change (fkeys k off (a :: asgs)) with
        (map (fun ck => (off, fst ck)) (filter (fun ck => snd ck =? k) a) ++ fkeys k (S off) asgs).
      rewrite in_app_iff, IH, in_map_iff. split.
      + intros [[ck [E I]]|[L [a' [N I]]]].
        * injection E as <- <-. apply filter_In in I. destruct I as [I E]. apply Nat.eqb_eq in E.
          split; auto. exists a. rewrite Nat.sub_diag. split; auto. rewrite <- E. destruct ck; auto.
        * split; [lia|]. exists a'. replace (i - off) with (S (i - S off)) by lia. auto.
      + intros [L [a' [N I]]]. destruct (Nat.eq_dec i off) as [->|Ne].
        * rewrite Nat.sub_diag in N. injection N as <-. left. exists (c, k). split; auto. apply filter_In. split; auto. apply Nat.eqb_refl.
        * right. split; [lia|]. exists a'. replace (i - off) with (S (i - S off)) in N by lia. auto.
  Qed.

  Variables (leaves : list (leaf V)) (s : nat -> saved V) (n : nat)
            (asgs : list (list (slicend * nat))) (files : list (nat * list (chunk V))).
  Hypothesis G : Forall (good_leaf P) leaves.
  Hypothesis SA : saved_as leaves s n asgs.
  Hypothesis D : on_disk P s files.

  Lemma files_in k content : In (k, content) files <->
    exists p, p < P /\ In (k, content) (sv_files (s p)).
  Proof.
    split.
    - intros I. apply (Permutation_in _ D) in I. apply in_flat_map in I. destruct I as [p [Ip I]].
      apply in_seq in Ip. exists p. split; auto. lia.
    - intros [p [Hp I]]. apply (Permutation_in _ (Permutation_sym D)). apply in_flat_map. exists p. split; auto.
      apply in_seq. lia.
  Qed.

  Lemma file_writer p k content : p < P -> In (k, content) (sv_files (s p)) -> k mod P = p /\ k < n.
  Proof.
    intros Hp I. assert (In k (map fst (sv_files (s p)))) as J by (apply in_map_iff; exists (k, content); auto).
    rewrite (sa_names _ _ _ _ SA p Hp) in J. apply filter_In in J. destruct J as [J1 J2].
    apply in_seq in J1. apply Nat.eqb_eq in J2. lia.
  Qed.

  Lemma file_names_nodup : NoDup (map fst files).
  Proof.
    apply (Permutation_NoDup (l := map fst (flat_map (fun p => sv_files (s p)) (seq 0 P)))).
    { apply Permutation_map. apply Permutation_sym. exact D. }
    rewrite flat_map_concat_map, concat_map, map_map, <- flat_map_concat_map.
    apply NoDup_flat_map.
    - apply seq_NoDup.
    - intros p I. apply in_seq in I. rewrite (sa_names _ _ _ _ SA) by lia. apply NoDup_filter, seq_NoDup.
    - intros p q k I1 I2 H1 H2. apply in_seq in I1, I2.
      rewrite (sa_names _ _ _ _ SA) in H1, H2 by lia. apply filter_In in H1, H2.
      destruct H1 as [_ H1], H2 as [_ H2]. apply Nat.eqb_eq in H1, H2. congruence.
  Qed.

  Lemma file_exists k : k < n -> exists content, In (k, content) files /\ file_get files k = Some content.
  Proof.
    intros Hk. assert (Hp : k mod P < P) by (apply Nat.mod_upper_bound; lia).
    assert (In k (map fst (sv_files (s (k mod P))))) as I.
    { rewrite (sa_names _ _ _ _ SA) by auto. apply filter_In. split; [apply in_seq; lia | apply Nat.eqb_refl]. }
    apply in_map_iff in I. destruct I as [[k' content] [E I]]. simpl in E. subst k'.
    exists content. assert (J : In (k, content) files) by (apply files_in; eauto). split; auto.
    clear I Hp Hk. pose proof file_names_nodup as ND. unfold file_get. revert J ND.
    generalize files as fs. induction fs as [|[k' c'] fs IH]; simpl; [contradiction|].
    intros [J|J] ND; inversion ND; subst.
    - injection J as -> ->. rewrite Nat.eqb_refl. auto.
    - destruct (Nat.eqb_spec k' k); auto. subst. exfalso. apply H1. apply in_map_iff. exists (k, content); auto.
  Qed.

  Lemma file_keys k content : In (k, content) files -> map key2 content = fkeys k 0 asgs.
  Proof. intros I. apply files_in in I. destruct I as [p [Hp I]]. eapply sa_keys; eauto. Qed.

  Lemma file_data k content c : In (k, content) files -> In c content ->
    exists lf, nth_error leaves (ch_leaf c) = Some lf /\ chunk_ok lf c.
  Proof. intros I. apply files_in in I. destruct I as [p [Hp I]]. eapply sa_data; eauto. Qed.

  Lemma holds_iff k i c : holds files k i c <-> exists a, nth_error asgs i = Some a /\ In (c, k) a.
  Proof.
    split.
    - intros [content [ch [I [Ic [<- <-]]]]].
      assert (In (key2 ch) (fkeys k 0 asgs)) as J by (rewrite <- (file_keys k content I); apply in_map; auto).
      unfold key2 in J. apply fkeys_in in J. rewrite Nat.sub_0_r in J. apply J.
    - intros [a [N I]]. destruct (Forall2_nth_error_r _ _ _ _ _ (sa_asg _ _ _ _ SA) N) as [lf [Nl A]].
      destruct (ao_holder _ _ _ _ _ A c k I) as [Hk _]. destruct (file_exists k Hk) as [content [If _]].
      assert (In (i, c) (map key2 content)) as J.
      { rewrite (file_keys k content If). apply fkeys_in. split; [lia|]. rewrite Nat.sub_0_r. eauto. }
      apply in_map_iff in J. destruct J as [ch [E Ic]]. injection E as <- <-. exists content, ch. auto.
  Qed.

  (** The chunks of leaf [i] that contain element [x]: exactly one. *)
  Lemma asg_covers i lf a x : nth_error leaves i = Some lf -> nth_error asgs i = Some a ->
    in_shape x (lf_shape lf) -> exists c k, In (c, k) a /\ within x c.
  Proof.
    intros Nl Na Hx. destruct (Forall2_nth_error _ _ _ _ _ (sa_asg _ _ _ _ SA) Nl) as [a' [Na' A]].
    rewrite Na in Na'. injection Na' as <-.
    assert (Gl : good_leaf P lf) by (rewrite Forall_forall in G; apply G; eapply nth_error_In; eauto).
    destruct (gl_cover _ _ Gl x Hx) as [sh [Is Sx]].
    destruct (slice_of_ok P lf sh Gl Is) as [_ [Ne [_ [_ W]]]].
    assert (Wx : within x (slice_of lf sh)) by (apply W; auto).
    apply (split_slicend_spec _ (limit_of mcb lf) Ne) in Wx. destruct Wx as [c [Ic Wc]].
    assert (In c (map fst a)) as I by (apply (ao_keys _ _ _ _ _ A); exists sh; split; auto).
    apply in_map_iff in I. destruct I as [[c' k] [E I]]. simpl in E; subst. eauto.
  Qed.

  Lemma fop_in {A} (R : A -> A -> Prop) l x y : ForallOrdPairs R l -> In x l -> In y l -> x = y \/ R x y \/ R y x.
  Proof.
    clear. induction 1 as [|a l F H IH]; simpl; [contradiction|]. rewrite Forall_forall in F.
    intros [->|H1] [->|H2]; auto.
  Qed.

  Lemma asg_unique i lf a x c c' : nth_error leaves i = Some lf -> nth_error asgs i = Some a ->
    In c (map fst a) -> In c' (map fst a) -> within x c -> within x c' -> c = c'.
  Proof.
    intros Nl Na I I' W W'. destruct (Forall2_nth_error _ _ _ _ _ (sa_asg _ _ _ _ SA) Nl) as [a' [Na' A]].
    rewrite Na in Na'. injection Na' as <-.
    assert (Gl : good_leaf P lf) by (rewrite Forall_forall in G; apply G; eapply nth_error_In; eauto).
    apply (ao_keys _ _ _ _ _ A) in I, I'. destruct I as [sh C], I' as [sh' C'].
    pose proof (chunk_in_within P mcb lf c sh x Gl C W) as X. pose proof (chunk_in_within P mcb lf c' sh' x Gl C' W') as X'.
    destruct C as [S1 C], C' as [S2 C']. rewrite <- (slice_replica P lf sh sh' x) in C' by auto.
    destruct (slice_of_ok P lf sh Gl S1) as [_ [Ne _]].
    destruct (split_slicend_spec _ (limit_of mcb lf) Ne) as [Dj _].
    destruct (fop_in _ _ c c' Dj C C') as [|[H|H]]; auto; exfalso; apply (H x); auto.
  Qed.
End Files.

(** ** Restoring one chunk into one buffer *)
Lemma within_nil_r x : within x [] -> x = [].
Proof. intros H; inversion H; auto. Qed.

Lemma restore_arith : forall gs cs r, intersect_slicend (map of_c gs) (map of_c cs) = Ok (Some r) ->
  exists loc cks, rel_slicend r gs = Ok loc /\ rel_slicend r cs = Ok cks /\
  forall x, within x gs ->
    (within (idx_sub x (map fst gs)) loc <-> within x cs) /\
    (within x cs -> idx_add (map fst cks) (idx_sub (idx_sub x (map fst gs)) (map fst loc))
                    = idx_sub x (map fst cs)).
Proof.
  unfold rel_slicend, idx_add, idx_sub, within.
  induction gs as [|[g1 g2] gs IH]; intros [|[c1 c2] cs] r H; simpl in H; try discriminate.
  - injection H as <-. exists [], []. simpl. split; [auto|split; [auto|]].
    intros x W. apply within_nil_r in W. subst. simpl. split; [tauto|auto].
  - destruct (Nat.min g2 c2 <=? Nat.max g1 c1) eqn:E; [discriminate|]. apply Nat.leb_gt in E.
    destruct (intersect_slicend (map of_c gs) (map of_c cs)) as [[r'|]|] eqn:EI; simpl in H; try discriminate.
    injection H as <-. destruct (IH cs r' EI) as [loc [cks [E1 [E2 A]]]]. simpl.
    destruct (safe_zip r' gs) as [z|]; simpl in E1; [|discriminate]. injection E1 as <-.
    destruct (safe_zip r' cs) as [z'|]; simpl in E2; [|discriminate]. injection E2 as <-.
    simpl. eexists. eexists. split; [reflexivity|]. split; [reflexivity|]. simpl.
    intros x W. apply F2_cons_r in W. destruct W as [a [x' [-> [W1 W2]]]]. simpl in *.
    destruct (A x' W2) as [A1 A2]. split.
    + split; intros H; apply F2_cons in H; destruct H as [H1 H2]; simpl in *; constructor; simpl; try tauto; try lia.
    + intros H. apply F2_cons in H. destruct H as [H1 H2]. simpl in *. f_equal; [lia|]. auto.
Qed.

Lemma restore_one_ok {V} (lf : leaf V) (c : chunk V) gs buf :
  chunk_ok lf c -> nonempty (ch_slice c) -> nonempty gs -> length gs = length (ch_slice c) ->
  exists buf', restore_one c (gs, buf) = Ok (gs, buf') /\
    forall x, within x gs ->
      (within x (ch_slice c) -> buf' (idx_sub x (map fst gs)) = lf_value lf x) /\
      (~ within x (ch_slice c) -> buf' (idx_sub x (map fst gs)) = buf (idx_sub x (map fst gs))).
Proof.
  intros C Nc Ng L. unfold restore_one.
  destruct (nonempty_intersect gs (ch_slice c) L) as [[r [E [Lr [S X]]]]|[E Dj]]; rewrite E; simpl.
  - destruct (restore_arith gs (ch_slice c) r E) as [loc [cks [E1 [E2 A]]]].
    assert (slicend_eqb gs (ch_slice c) || (match r with [] => false | _ :: _ => true end) = true) as ->.
    { destruct r; [|apply orb_true_r]. simpl in Lr. destruct gs; [|discriminate]. destruct (ch_slice c); [auto|discriminate]. }
    rewrite E1. simpl. rewrite E2. simpl. eexists. split; [reflexivity|].
    intros x W. destruct (A x W) as [A1 A2]. unfold write_region. split; intros H.
    + apply A1 in H as H'. apply in_slicend_spec in H'. rewrite H'. unfold slice_array. rewrite A2 by auto. apply C; auto.
    + destruct (in_slicend _ loc) eqn:EL; auto. apply in_slicend_spec in EL. apply A1 in EL. contradiction.
  - rewrite slicend_eqb_neq. simpl. exists buf. split; auto. intros x W. split; auto. intros H. exfalso. apply (Dj x); auto.
    intros EQ. apply (Dj (map fst gs)). apply nonempty_lo; auto. rewrite <- EQ. apply nonempty_lo; auto.
Qed.

Lemma Forall2_impl {A B} (R S : A -> B -> Prop) l l' : (forall a b, R a b -> S a b) -> Forall2 R l l' -> Forall2 S l l'.
Proof. induction 2; constructor; auto. Qed.

Section Restore.
  Context {V : Type}.
  Variable leaves : list (leaf V).

  (** Buffers of leaf [i] have non-empty keys of the right rank. *)
  Definition buf_ok (b : buffers V) : Prop :=
    forall i bl gb, nth_error b i = Some bl -> In gb bl ->
      nonempty (fst gb) /\ exists lf, nth_error leaves i = Some lf /\ length (fst gb) = length (lf_shape lf).
  Definition ch_good (c : chunk V) : Prop :=
    exists lf, nth_error leaves (ch_leaf c) = Some lf /\ chunk_ok lf c /\ nonempty (ch_slice c) /\
               length (ch_slice c) = length (lf_shape lf).

  Definition correct (i : nat) (gb : slicend * (list nat -> V)) (x : list nat) : Prop :=
    exists lf, nth_error leaves i = Some lf /\ snd gb (idx_sub x (map fst (fst gb))) = lf_value lf x.

  Definition improves (cs : list (chunk V)) (b b' : buffers V) : Prop :=
    length b' = length b /\
    forall i bl, nth_error b i = Some bl -> exists bl', nth_error b' i = Some bl' /\
      Forall2 (fun gb gb' => fst gb' = fst gb /\ forall x, within x (fst gb) ->
         correct i gb x \/ (exists c, In c cs /\ ch_leaf c = i /\ within x (ch_slice c)) ->
         correct i gb' x) bl bl'.

  Lemma Forall2_refl' {A} (R : A -> A -> Prop) l : (forall x, In x l -> R x x) -> Forall2 R l l.
  Proof. induction l; intros H; constructor; auto. apply H; left; auto. apply IHl. intros; apply H; right; auto. Qed.

  Lemma update_nth_ok {T} i (f : T -> res T) (l : list T) x y : nth_error l i = Some x -> f x = Ok y ->
    exists l', update_nth i f l = Ok l' /\ length l' = length l /\ nth_error l' i = Some y /\
               forall j, j <> i -> nth_error l' j = nth_error l j.
  Proof.
    revert i. induction l as [|z l IH]; intros [|i] N E; simpl in *; try discriminate.
    - injection N as ->. rewrite E. simpl. exists (y :: l). repeat split; auto. intros [|j] H; auto. congruence.
    - destruct (IH i N E) as [l' [U [L [N' O]]]]. rewrite U. simpl. exists (z :: l'). repeat split; simpl; auto.
      intros [|j] H; simpl; auto.
  Qed.

  Lemma restore_chunk_ok b c : buf_ok b -> length b = length leaves -> ch_good c ->
    exists b', restore_chunk b c = Ok b' /\ buf_ok b' /\ improves [c] b b'.
  Proof.
    intros B L [lf [Nl [C [Ne Lc]]]]. unfold restore_chunk.
    destruct (nth_error b (ch_leaf c)) as [bl|] eqn:Nb.
    2:{ apply nth_error_None in Nb. assert (ch_leaf c < length leaves) by (apply nth_error_Some; congruence). lia. }
    destruct (rmap_ok (restore_one c) bl) as [bl' [R F]].
    { intros [gs buf] I. destruct (B _ _ _ Nb I) as [Ng [lf' [Nl' Lg]]]. rewrite Nl in Nl'. injection Nl' as <-.
      destruct (restore_one_ok lf c gs buf C Ne Ng) as [buf' [E _]]; [simpl in Lg; congruence|]. eauto. }
    assert (F' : Forall2 (fun gb gb' => fst gb' = fst gb /\ forall x, within x (fst gb) ->
         correct (ch_leaf c) gb x \/ within x (ch_slice c) -> correct (ch_leaf c) gb' x) bl bl').
    { clear R. assert (B' : forall gb, In gb bl -> nonempty (fst gb) /\ length (fst gb) = length (lf_shape lf)).
      { intros gb I. destruct (B _ _ _ Nb I) as [Ng [lf' [Nl' Lg]]]. rewrite Nl in Nl'. injection Nl' as <-. auto. }
      clear Nb. induction F as [|[gs buf] gb' bl bl' E F IH]; constructor.
      - destruct (B' (gs, buf)) as [Ng Lg]; [left; auto|]. simpl in Ng, Lg.
        destruct (restore_one_ok lf c gs buf C Ne Ng) as [buf' [E' A]]; [congruence|].
        rewrite E in E'. injection E' as ->. simpl. split; auto.
        intros x W H. destruct (A x W) as [A1 A2]. exists lf. split; auto. simpl.
        destruct (in_slicend x (ch_slice c)) eqn:EI.
        + apply in_slicend_spec in EI. auto.
        + assert (~ within x (ch_slice c)) as Nw by (rewrite <- in_slicend_spec; congruence).
          rewrite A2 by auto. destruct H as [[lf2 [N2 H]]|H]; [|contradiction]. simpl in H. congruence.
      - apply IH. intros; apply B'; right; auto. }
    destruct (update_nth_ok (ch_leaf c) (rmap (restore_one c)) b bl bl' Nb R) as [b' [U [Lb [Nb' O]]]].
    exists b'. split; [auto|]. split; [|split; [auto|]].
    - intros i bl1 gb Hn I. destruct (Nat.eq_dec i (ch_leaf c)) as [->|Ni].
      + rewrite Nb' in Hn. injection Hn as <-.
        assert (exists gb0, In gb0 bl /\ fst gb = fst gb0) as [gb0 [I0 E0]].
        { clear - F' I. induction F' as [|? ? ? ? [? _]]; [contradiction|]. destruct I as [->|I]; [eexists; split; [left; eauto|auto]|].
          destruct (IHF' I) as [g [? ?]]. exists g; split; auto. right; auto. }
        rewrite E0. eapply B; eauto.
      + rewrite O in Hn by auto. eapply B; eauto.
    - intros i bl1 Hn. destruct (Nat.eq_dec i (ch_leaf c)) as [->|Ni].
      + rewrite Nb in Hn. injection Hn as <-. exists bl'. split; auto.
        eapply Forall2_impl; [|exact F']. intros gb gb' [E H]. split; auto. intros x W [Hc|[c' [[<-|[]] [_ Wc]]]]; auto.
      + exists bl1. rewrite O by auto. split; auto. apply Forall2_refl'. intros gb _. split; auto.
        intros x W [Hc|[c' [[<-|[]] [E _]]]]; auto. congruence.
  Qed.

  Lemma improves_trans c cs b1 b2 b3 : improves [c] b1 b2 -> improves cs b2 b3 -> improves (c :: cs) b1 b3.
  Proof.
    intros [L1 I1] [L2 I2]. split; [congruence|]. intros i bl N.
    destruct (I1 i bl N) as [bl2 [N2 F2]]. destruct (I2 i bl2 N2) as [bl3 [N3 F3]]. exists bl3. split; auto.
    clear N N2 N3. revert bl3 F3. induction F2 as [|gb gb2 bl bl2 [E H] F2 IH]; intros bl3 F3; inversion F3 as [|? gb3 ? ? [E3 H3] F3']; subst; constructor; auto.
    split; [congruence|]. intros x W Hc. rewrite E in H3. apply H3; auto.
    destruct Hc as [Hc|[c' [[<-|Ic] Hc']]].
    - left. apply H; auto.
    - left. apply H; auto. right. exists c. simpl; auto.
    - right. eauto.
  Qed.

  Lemma restore_chunks_ok cs : forall b, buf_ok b -> length b = length leaves -> Forall ch_good cs ->
    exists b', rfold restore_chunk cs b = Ok b' /\ improves cs b b'.
  Proof.
    induction cs as [|c cs IH]; intros b B L F; simpl.
    - exists b. split; auto. split; auto. intros i bl N. exists bl. split; auto. apply Forall2_refl'.
      intros gb _. split; auto. intros x W [H|[c [[] _]]]; auto.
    - inversion F; subst. destruct (restore_chunk_ok b c B L) as [b1 [E1 [B1 I1]]]; auto.
      rewrite E1. simpl. destruct (IH b1) as [b2 [E2 I2]]; auto. { destruct I1; congruence. }
      exists b2. split; auto. eapply improves_trans; eauto.
  Qed.

  (** Zero buffers. *)
  Lemma local_buffers_ok (zero : V) shape t : Forall (valid_index shape) t ->
    exists d, create_local_buffers zero t shape = Ok d /\ NoDup (map fst d) /\
      (forall g, In g (map fst d) -> nonempty g /\ length g = length shape) /\
      (forall idx g, In idx t -> shard_index_to_slicend idx shape = Ok g -> In g (map fst d)).
  Proof.
    intros F. unfold create_local_buffers.
    assert (R : forall d : list (slicend * (list nat -> V)), NoDup (map fst d) -> (forall g, In g (map fst d) -> nonempty g /\ length g = length shape) ->
      exists d', rfold (fun d index => bind (shard_index_to_slicend index shape) (fun s =>
           Ok (match dict_get d s with Some _ => d | None => dict_set d s (fun _ => zero) end))) t d = Ok d' /\
        NoDup (map fst d') /\ (forall g, In g (map fst d') -> nonempty g /\ length g = length shape) /\
        (forall g, In g (map fst d) -> In g (map fst d')) /\
        (forall idx g, In idx t -> shard_index_to_slicend idx shape = Ok g -> In g (map fst d'))).
    { induction F as [|idx t Hv F IH]; intros d ND K.
      - exists d. simpl. repeat split; auto; try apply K; auto; contradiction.
      - destruct (shard_index_ok shape idx Hv) as [g [E [Ng [_ [Lg _]]]]].
        cbn [rfold]. rewrite E. cbn [bind].
        set (d1 := match dict_get d g with Some _ => d | None => dict_set d g (fun _ => zero) end).
        assert (ND1 : NoDup (map fst d1)) by (unfold d1; destruct (dict_get d g); auto; apply dict_set_nodup; auto).
        assert (Kd : forall h, In h (map fst d1) <-> In h (map fst d) \/ h = g).
        { intros h. unfold d1. destruct (dict_get d g) eqn:Dg.
          - split; auto. intros [Hq| ->]; auto. apply dict_get_in in Dg. apply in_map_iff. eexists; split; eauto. auto.
          - rewrite dict_set_keys. apply dict_get_none in Dg.
            destruct (existsb (slicend_eqb g) (map fst d)) eqn:Ex.
            + apply existsb_exists in Ex. destruct Ex as [q [Iq Eq]]. apply slicend_eqb_spec in Eq. subst. contradiction.
            + rewrite in_app_iff. simpl. intuition. }
        destruct (IH d1 ND1) as [d' [R [N' [K' [M1 M2]]]]].
        { intros h Hh. apply Kd in Hh. destruct Hh as [Hh| ->]; auto. }
        exists d'. split; [exact R|]. split; [auto|]. split; [auto|]. split.
        + intros h Hh. apply M1. apply Kd; auto.
        + intros idx' g' [<-|Hi] Eg; [|eauto]. rewrite E in Eg. injection Eg as <-. apply M1. apply Kd; auto. }
    destruct (R []) as [d [E [N [K [_ M]]]]]; try constructor; try contradiction. exists d. auto.
  Qed.
End Restore.

Lemma nonempty_prod (sl : slicend) : nonempty sl -> prod (slice_sizes sl) <> 0.
Proof.
  unfold nonempty. induction sl as [|[a b] sl IH]; simpl; intros N; [lia|]. inversion N; subst. simpl in *.
  intros E. apply Nat.eq_mul_0 in E. destruct E as [E|E]; [lia|]. apply IH; auto.
Qed.
Lemma decode_ok {V} (content : list (chunk V)) : (forall c, In c content -> nonempty (ch_slice c)) -> decode_file content = Ok content.
Proof.
  intros H. unfold decode_file. destruct (existsb _ content) eqn:E; auto. apply existsb_exists in E.
  destruct E as [c [I E]]. apply Nat.eqb_eq in E. exfalso. apply (nonempty_prod (ch_slice c)); auto.
Qed.
