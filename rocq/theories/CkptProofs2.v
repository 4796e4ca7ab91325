(** Proofs of C14-C17, C19. *)
From Coq Require Import List Arith ZArith Bool Lia Permutation.
From Verif Require Import Prim PrimLemmas CkptModel CkptSpec CkptSlices CkptSave CkptRestore CkptProofs.
Import ListNotations.
Local Open Scope nat_scope.

Lemma saves_exist {V} P (leaves : list (leaf V)) views ns mcb :
  0 < P -> Forall (good_leaf P) leaves -> (forall p, p < P -> Forall2 same_array (views p) leaves) ->
  exists s, all_saved P leaves views ns mcb s.
Proof.
  intros HP G Sv.
  assert (H : forall p, p < P -> exists r, save_checkpoint P p (views p) ns mcb = Ok r).
  { intros p Hp. destruct (save_ok P mcb ns HP leaves (views p) p G (Sv p Hp)) as [b [asgs [r [_ [_ [_ [E _]]]]]]]. eauto. }
  exists (fun p => match save_checkpoint P p (views p) ns mcb with Ok r => r
                   | Raise _ => {| sv_files := []; sv_index := []; sv_shard_count := 0 |} end).
  repeat split; auto. intros p Hp. destruct (H p Hp) as [r E]. rewrite E. auto.
Qed.

Lemma NoDup_map_inv' {A B} (f : A -> B) l : NoDup (map f l) -> NoDup l.
Proof. apply NoDup_map_inv. Qed.

Section Main2.
  Context {V : Type}.
  Variables (P : nat) (mcb ns : option Z) (leaves : list (leaf V)) (views : nat -> list (leaf V))
            (s : nat -> saved V) (files : list (nat * list (chunk V))).
  Hypothesis AS : all_saved P leaves views ns mcb s.
  Hypothesis D : on_disk P s files.

  Let HP : 0 < P. Proof. apply AS. Qed.
  Let G : Forall (good_leaf P) leaves. Proof. apply AS. Qed.

  Lemma same_key_same_file n asgs k k' i c : saved_as P mcb leaves s n asgs ->
    holds files k i c -> holds files k' i c -> k = k'.
  Proof.
    intros SA H1 H2. apply (holds_iff P mcb HP leaves s n asgs files SA D) in H1, H2.
    destruct H1 as [a [N1 I1]], H2 as [a' [N2 I2]]. rewrite N1 in N2. injection N2 as <-.
    destruct (Forall2_nth_error_r _ _ _ _ _ (sa_asg _ _ _ _ _ _ SA) N1) as [lf [_ A]].
    pose proof (ao_nodup _ _ _ _ _ A) as ND. apply (dict_in_get a) in I1, I2; auto. congruence.
  Qed.

  Lemma fkeys_nodup n k : forall asgs off, Forall (fun a => exists lf, asg_ok P mcb (lf : leaf V) n a) asgs -> NoDup (fkeys k off asgs).
  Proof.
    intros asgs off F. unfold fkeys. apply NoDup_flat_map.
    - apply (NoDup_map_inv' fst).
      assert (E : forall (l : list nat) (asgs : list (list (slicend * nat))), length l = length asgs -> map fst (combine l asgs) = l).
      { clear. induction l as [|x l IH]; intros [|y ys] H; simpl in *; try discriminate; auto. f_equal; auto. }
      rewrite E by apply seq_length. apply seq_NoDup.
    - intros [i a] I. apply in_combine_r in I. rewrite Forall_forall in F. destruct (F a I) as [lf A]. simpl.
      pose proof (ao_nodup _ _ _ _ _ A) as ND. clear - ND. induction a as [|[c q] a IH]; simpl; [constructor|].
      simpl in ND. inversion ND; subst. destruct (q =? k); simpl; auto. constructor; auto.
      intros I. apply in_map_iff in I. destruct I as [[c' q'] [E I]]. simpl in E. injection E as ->.
      apply filter_In in I. destruct I as [I _]. apply H1. apply in_map_iff. exists (c, q'); auto.
    - intros [i a] [j b] [z c] I1 I2 H1 H2.
      apply in_map_iff in H1, H2. destruct H1 as [q1 [E1 _]], H2 as [q2 [E2 _]]. simpl in *.
      injection E1 as -> _. injection E2 as -> _.
      apply nth_error_seq_combine in I1, I2. destruct I1 as [_ I1], I2 as [_ I2]. congruence.
  Qed.

  Lemma map_flat_map {A B C} (f : B -> C) (g : A -> list B) l : map f (flat_map g l) = flat_map (fun x => map f (g x)) l.
  Proof. induction l; simpl; auto. rewrite map_app, IHl; auto. Qed.

  Lemma all_keys_nodup n asgs : saved_as P mcb leaves s n asgs -> NoDup (map key2 (concat (map snd files))).
  Proof.
    intros SA. rewrite <- flat_map_concat_map, map_flat_map. apply NoDup_flat_map.
    - apply (NoDup_map_inv' fst). eapply file_names_nodup; eauto.
    - intros [k content] I. simpl. rewrite (file_keys P mcb HP leaves s n asgs files SA D k content I).
      apply (fkeys_nodup n). apply Forall_forall. intros a Ia. apply In_nth_error in Ia. destruct Ia as [i N].
      destruct (Forall2_nth_error_r _ _ _ _ _ (sa_asg _ _ _ _ _ _ SA) N) as [lf [_ A]]. eauto.
    - intros [k content] [k' content'] [i c] I1 I2 H1 H2. simpl in *.
      assert (h1 : holds files k i c). { apply in_map_iff in H1. destruct H1 as [ch [E H]]. injection E as <- <-. exists content, ch; auto. }
      assert (h2 : holds files k' i c). { apply in_map_iff in H2. destruct H2 as [ch [E H]]. injection E as <- <-. exists content', ch; auto. }
      pose proof (same_key_same_file n asgs k k' i c SA h1 h2) as <-. f_equal.
      pose proof (file_names_nodup P mcb HP leaves s n asgs files SA D) as ND.
      clear - ND I1 I2. induction files as [|[q r] fs IH]; [contradiction|]. simpl in ND. inversion ND; subst.
      destruct I1 as [I1|I1], I2 as [I2|I2]; try congruence; auto.
      + injection I1 as -> ->. exfalso. apply H1. apply in_map_iff. exists (k, content'); auto.
      + injection I2 as -> ->. exfalso. apply H1. apply in_map_iff. exists (k, content); auto.
  Qed.

  (** C14 *)
  Lemma element_once i lf x : nth_error leaves i = Some lf -> in_shape x (lf_shape lf) ->
    exists l1 c l2, concat (map snd files) = l1 ++ c :: l2 /\ ch_leaf c = i /\ within x (ch_slice c) /\
      forall c', In c' (l1 ++ l2) -> ch_leaf c' = i -> within x (ch_slice c') -> False.
  Proof.
    intros Nl Hx. destruct (all_saved_as P mcb ns HP leaves views s AS) as [n [asgs SA]].
    destruct (Forall2_nth_error _ _ _ _ _ (sa_asg _ _ _ _ _ _ SA) Nl) as [a [Na A]].
    destruct (asg_covers P mcb leaves s n asgs G SA i lf a x Nl Na Hx) as [c [k [Ic W]]].
    assert (Hd : holds files k i c) by (apply (holds_iff P mcb HP leaves s n asgs files SA D); eauto).
    destruct Hd as [content [ch [I1 [I2 [I3 I4]]]]].
    assert (In ch (concat (map snd files))) as I.
    { apply in_concat. exists content. split; auto. apply in_map_iff. exists (k, content); auto. }
    pose proof (all_keys_nodup n asgs SA) as ND.
    apply in_split in I. destruct I as [l1 [l2 E]]. exists l1, ch, l2. split; auto. split; auto. split; [subst; auto|].
    intros c' Ic' El Wc'. rewrite E, map_app in ND. simpl in ND. apply NoDup_remove_2 in ND. apply ND.
    rewrite <- map_app. apply in_map_iff. exists c'. split; auto. unfold key2. f_equal; [congruence|].
    assert (J : In c' (concat (map snd files))). { rewrite E. apply in_app_iff in Ic'. apply in_app_iff. simpl. tauto. }
    apply in_concat in J. destruct J as [content' [J1 J2]]. apply in_map_iff in J1. destruct J1 as [[k' c2] [Ek J1]]. simpl in Ek; subst c2.
    assert (h : holds files k' i (ch_slice c')) by (exists content', c'; auto).
    apply (holds_iff P mcb HP leaves s n asgs files SA D) in h. destruct h as [a' [Na' Ia']]. rewrite Na in Na'. injection Na' as <-.
    rewrite I4. eapply (asg_unique P mcb leaves s n asgs G SA i lf a x); eauto; apply in_map_iff; [exists (ch_slice c', k') | exists (c, k)]; auto.
  Qed.

  Lemma writer_has_data p k content c : p < P -> In (k, content) (sv_files (s p)) -> In c content ->
    k mod P = p /\ k < sv_shard_count (s 0) /\
    exists lf sh, nth_error leaves (ch_leaf c) = Some lf /\ In sh (lf_shards lf) /\ sh_proc sh = p /\
      (exists x, within x (ch_slice c)) /\
      (forall x, within x (ch_slice c) -> in_shape x (lf_shape lf) /\ selected x (sh_index sh) /\
         ch_data c (idx_sub x (map fst (ch_slice c))) = lf_value lf x) /\
      match mcb with
      | Some b => (1 <= b)%Z -> (Z.of_nat (volume (ch_slice c)) <= item_limit b (lf_itemsize lf))%Z
      | None => True
      end.
  Proof.
    intros Hp I Ic. destruct (all_saved_as P mcb ns HP leaves views s AS) as [n [asgs SA]].
    destruct (file_writer P mcb HP leaves s n asgs SA p k content Hp I) as [E Hk].
    split; auto. split. { destruct (sa_index _ _ _ _ _ _ SA 0 HP) as [_ ->]. auto. }
    destruct (sa_data _ _ _ _ _ _ SA p k content c Hp I Ic) as [lf [Nl C]].
    assert (If : In (k, content) files) by (apply (files_in P HP s files D); eauto).
    assert (Hd : holds files k (ch_leaf c) (ch_slice c)) by (exists content, c; auto).
    apply (holds_iff P mcb HP leaves s n asgs files SA D) in Hd. destruct Hd as [a [Na Ia]].
    destruct (Forall2_nth_error _ _ _ _ _ (sa_asg _ _ _ _ _ _ SA) Nl) as [a' [Na' A]]. rewrite Na in Na'. injection Na' as <-.
    destruct (ao_holder _ _ _ _ _ A _ _ Ia) as [_ [sh [Ci Ep]]].
    pose proof (good_nth P mcb ns leaves views s AS _ _ Nl) as Gl.
    destruct (slice_of_ok P lf sh Gl) as [_ [Ne [_ [_ W]]]]; [apply Ci|].
    exists lf, sh. split; auto. split; [apply Ci|]. split; [congruence|].
    split. { exists (map fst (ch_slice c)). apply nonempty_lo. eapply chunk_in_nonempty; eauto. }
    split. { intros x Wx. pose proof (chunk_in_within P mcb lf _ sh x Gl Ci Wx) as X. apply W in X. destruct X. repeat split; auto. }
    destruct mcb as [b|] eqn:Em; auto. intros Hb.
    destruct Ci as [_ Ci]. destruct (split_slicend_spec _ (limit_of (Some b) lf) Ne) as [_ [_ [_ L]]].
    unfold limit_of, max_items_of in *. rewrite (proj2 (Z.leb_le 1 b) Hb) in *.
    pose proof (gl_itemsize _ _ Gl) as Hi.
    set (m := Nat.max (Z.to_nat b / lf_itemsize lf) 1) in *.
    assert (Em' : Z.of_nat m = item_limit b (lf_itemsize lf)).
    { unfold m, item_limit. rewrite Nat2Z.inj_max, Nat2Z.inj_div, Z2Nat.id by lia. reflexivity. }
    rewrite <- Em'. assert (Hm : 1 <= m) by apply Nat.le_max_r. clearbody m. destruct m as [|m]; [lia|]. apply inj_le. apply L; auto.
  Qed.

  (** C15 *)
  Lemma index_describes i info : nth_error (sv_index (s 0)) i = Some info ->
    length (ii_slices info) = length (ii_shards info) /\ NoDup (ii_slices info) /\
    forall sl k, In (sl, k) (combine (ii_slices info) (ii_shards info)) <-> holds files k i sl.
  Proof.
    intros N. destruct (all_saved_as P mcb ns HP leaves views s AS) as [n [asgs SA]].
    rewrite (index_eq P mcb leaves s n asgs 0 SA HP), nth_error_map in N.
    destruct (nth_error (combine asgs leaves) i) as [[a lf]|] eqn:Nc; [|discriminate]. injection N as <-. simpl.
    apply nth_error_combine in Nc. destruct Nc as [Na Nl].
    destruct (Forall2_nth_error _ _ _ _ _ (sa_asg _ _ _ _ _ _ SA) Nl) as [a' [Na' A]]. rewrite Na in Na'. injection Na' as <-.
    rewrite combine_fst_snd, !map_length. split; auto. split; [apply A|]. intros sl k.
    rewrite (holds_iff P mcb HP leaves s n asgs files SA D). split; [eauto|].
    intros [a' [Na' I]]. rewrite Na in Na'. injection Na' as <-. auto.
  Qed.

  Lemma index_shapes : map ii_shape (sv_index (s 0)) = map lf_shape leaves.
  Proof.
    destruct (all_saved_as P mcb ns HP leaves views s AS) as [n [asgs SA]].
    rewrite (index_eq P mcb leaves s n asgs 0 SA HP), map_map. simpl.
    assert (L : length asgs = length leaves) by (symmetry; apply (Forall2_len _ _ _ (sa_asg _ _ _ _ _ _ SA))).
    clear - L. revert L. generalize leaves. induction asgs as [|a asgs IH]; intros [|lf l] L; simpl in *; try discriminate; auto. f_equal; auto.
  Qed.

  Lemma processes_agree p : p < P -> sv_index (s p) = sv_index (s 0) /\ sv_shard_count (s p) = sv_shard_count (s 0).
  Proof.
    intros Hp. destruct (all_saved_as P mcb ns HP leaves views s AS) as [n [asgs SA]].
    destruct (sa_index _ _ _ _ _ _ SA p Hp) as [-> ->]. destruct (sa_index _ _ _ _ _ _ SA 0 HP) as [-> ->]. auto.
  Qed.

  Lemma files_are_shards k : k < sv_shard_count (s 0) <-> exists content, In (k, content) files.
  Proof.
    destruct (all_saved_as P mcb ns HP leaves views s AS) as [n [asgs SA]].
    destruct (sa_index _ _ _ _ _ _ SA 0 HP) as [_ ->]. split.
    - intros Hk. destruct (file_exists P mcb HP leaves s n asgs files SA D k Hk) as [c [I _]]. eauto.
    - intros [c I]. apply (files_in P HP s files D) in I. destruct I as [p [Hp J]]. eapply file_writer; eauto.
  Qed.

  Lemma files_unique : NoDup (map fst files).
  Proof.
    destruct (all_saved_as P mcb ns HP leaves views s AS) as [n [asgs SA]]. eapply file_names_nodup; eauto.
  Qed.

  Lemma shard_count_eq p : p < P -> Z.of_nat (sv_shard_count (s p)) =
    match ns with Some m => Z.max m (Z.of_nat P) | None => Z.of_nat P end.
  Proof.
    intros Hp. destruct AS as [_ [_ [_ Sv]]]. specialize (Sv p Hp). unfold save_checkpoint in Sv.
    destruct (rfold _ _ _) as [[[b i] c]|]; simpl in Sv; [|discriminate]. injection Sv as <-. simpl.
    unfold effective_num_shards. destruct ns as [m|]; auto. destruct (Z.ltb_spec m (Z.of_nat P)); lia.
  Qed.

  (** C17 *)
  Lemma reads_iff targets : good_targets leaves targets ->
    exists need, shards_to_read targets (sv_index (s 0)) = Ok need /\ NoDup need /\
      forall k, In k need <-> exists i lf t idx c x, nth_error leaves i = Some lf /\ nth_error targets i = Some t /\
        In idx t /\ holds files k i c /\ in_shape x (lf_shape lf) /\ selected x idx /\ within x c.
  Proof.
    intros GT. destruct (all_saved_as P mcb ns HP leaves views s AS) as [n [asgs SA]].
    destruct (need_ok P mcb ns leaves views s AS n asgs targets 0 SA HP GT) as [need [E [ND H]]].
    exists need. split; auto. split; auto. intros k. rewrite H. split.
    - intros [i [lf [t [a [idx [c [N1 [N2 [N3 [I1 [I2 [x [X1 [X2 X3]]]]]]]]]]]]]].
      exists i, lf, t, idx, c, x. repeat split; auto. apply (holds_iff P mcb HP leaves s n asgs files SA D). eauto.
    - intros [i [lf [t [idx [c [x [N1 [N2 [I1 [Hd [X1 [X2 X3]]]]]]]]]]]].
      apply (holds_iff P mcb HP leaves s n asgs files SA D) in Hd. destruct Hd as [a [Na Ia]].
      exists i, lf, t, a, idx, c. repeat split; auto. exists x; auto.
  Qed.
End Main2.

Lemma restore_reads_only {V} zero (files files' : list (nat * list (chunk V))) index targets sched need :
  shards_to_read targets index = Ok need ->
  (forall k, In k need -> file_get files' k = file_get files k) ->
  restore_from_index zero files' index targets sched = restore_from_index zero files index targets sched.
Proof.
  intros E H. unfold restore_from_index. rewrite E. destruct (safe_zip targets index); simpl; auto.
  destruct (rmap _ x); simpl; auto. rewrite (rmap_ext _ (load_file files) need); auto.
  intros k I. unfold load_file. rewrite H; auto.
Qed.

Lemma restore_missing {V} zero (files : list (nat * list (chunk V))) index targets sched need k out :
  shards_to_read targets index = Ok need -> In k need -> file_get files k = None ->
  restore_from_index zero files index targets sched = Ok out -> False.
Proof.
  intros E I N. unfold restore_from_index. rewrite E. destruct (safe_zip targets index); simpl; [|discriminate].
  destruct (rmap _ x); simpl; [|discriminate].
  assert (R : exists e, rmap (load_file files) need = Raise e).
  { clear E. induction need as [|q need IH]; [contradiction|]. simpl. destruct I as [->|I].
    - unfold load_file. rewrite N. simpl. eauto.
    - destruct (load_file files q); simpl; eauto. destruct (IH I) as [e ->]. simpl. eauto. }
  destruct R as [e ->]. simpl. discriminate.
Qed.

(** A needed file with an empty chunk cannot be read, so nothing is restored. *)
Lemma restore_empty_chunk {V} zero (files : list (nat * list (chunk V))) index targets sched need k content c :
  shards_to_read targets index = Ok need -> In k need -> file_get files k = Some content ->
  In c content -> prod (slice_sizes (ch_slice c)) = 0 ->
  forall out, restore_from_index zero files index targets sched <> Ok out.
Proof.
  intros E I N Ic Z out. unfold restore_from_index. rewrite E. destruct (safe_zip targets index); simpl; [|discriminate].
  destruct (rmap _ x); simpl; [|discriminate].
  assert (R : exists e, rmap (load_file files) need = Raise e).
  { clear E. induction need as [|q need IH]; [contradiction|]. simpl. destruct I as [->|I].
    - unfold load_file, decode_file. rewrite N. replace (existsb _ content) with true; [simpl; eauto|].
      symmetry. apply existsb_exists. exists c. split; auto. apply Nat.eqb_eq. auto.
    - destruct (load_file files q); simpl; eauto. destruct (IH I) as [e ->]. simpl. eauto. }
  destruct R as [e ->]. simpl. discriminate.
Qed.

(** ** C16 *)
Lemma place_run_inv P isz procs : forall ks bytes acc bytes' acc',
  rfold (place_step P isz procs) ks (bytes, acc) = Ok (bytes', acc') ->
  exists a, acc' = acc ++ a /\ map fst a = ks /\ greedy P isz bytes procs a /\
    length bytes' = length bytes /\ forall k, nth k bytes' 0 = nth k bytes 0 + load isz a k.
Proof.
  induction ks as [|sl ks IH]; intros bytes acc bytes' acc' R; simpl in R.
  - injection R as <- <-. exists []. rewrite app_nil_r. repeat split; auto; destruct a1; discriminate.
  - destruct (place_step P isz procs (bytes, acc) sl) as [[b1 acc1]|] eqn:E; simpl in R; [|discriminate].
    unfold place_step in E. simpl in E.
    destruct (find_smallest_ckpt_shard P bytes (procs sl)) as [ck|] eqn:F; [|discriminate]. injection E as <- <-.
    pose proof (find_smallest_spec _ _ _ _ F) as [C1 [C2 C3]].
    destruct (IH _ _ _ _ R) as [a [-> [K [Gr [Lb Nb]]]]]. exists ((sl, ck) :: a). rewrite <- app_assoc. simpl.
    split; auto. split; [congruence|]. split; [|split].
    2:{ rewrite Lb. apply add_nth_length. }
    2:{ intros k. rewrite Nb, add_nth_nth, prod_volume by auto. lia. }
    intros a1 sl' ck' a2 EQ. destruct a1 as [|q a1]; simpl in EQ.
    + injection EQ as <- <- _. simpl. split; [auto|split; [auto|]]. intros j Hj Ej. rewrite !Nat.add_0_r. auto.
    + injection EQ as <- EQ. destruct (Gr a1 sl' ck' a2 EQ) as [G1 [G2 G3]].
      rewrite add_nth_length in *. split; [auto|split; [auto|]]. intros j Hj Ej. specialize (G3 j Hj Ej).
      rewrite !add_nth_nth in G3 by auto. rewrite prod_volume in G3. simpl. lia.
Qed.

Lemma assignment_greedy P d isz bytes bytes' a :
  create_map_slicend_to_ckpt_shard P d isz bytes = Ok (bytes', a) ->
  Permutation (map fst a) (map fst d) /\
  (forall k, nth k bytes' 0 = nth k bytes 0 + placed isz a k) /\
  forall a1 sl ck a2, a = a1 ++ (sl, ck) :: a2 ->
    ck < length bytes /\ has_slice d sl (ck mod P) /\
    forall j, j < length bytes -> has_slice d sl (j mod P) ->
      nth ck bytes 0 + placed isz a1 ck < nth j bytes 0 + placed isz a1 j \/
      (nth ck bytes 0 + placed isz a1 ck = nth j bytes 0 + placed isz a1 j /\ ck <= j).
Proof.
  intros R. destruct (place_run_inv P isz (procs_of d) (sort_slicends (map fst d)) bytes [] bytes' a R)
    as [a' [-> [K [Gr [_ Nb]]]]]. simpl.
  assert (Pr : forall sl p, In p (procs_of d sl) <-> has_slice d sl p).
  { intros sl p. unfold procs_of, has_slice. destruct (dict_get d sl) as [l|].
    - rewrite in_map_iff. split; [intros [sh [E I]]; exists l, sh; auto|].
      intros [l' [sh [E [I Ep]]]]. injection E as <-. eauto.
    - split; [contradiction|]. intros [l' [sh [E _]]]. discriminate. }
  split. { rewrite K. apply sort_slicends_perm. }
  split; [exact Nb|]. intros a1 sl ck a2 E. destruct (Gr a1 sl ck a2 E) as [G1 [G2 G3]].
  split; auto. split; [apply Pr; auto|]. intros j Hj Ej. apply G3; auto. apply Pr; auto.
Qed.

Lemma greedy_balanced P isz procs n M : forall a bytes, length bytes = n ->
  greedy P isz bytes procs a ->
  (forall c j, In c (map fst a) -> j < n -> In (j mod P) (procs c)) ->
  (forall c, In c (map fst a) -> volume c * isz <= M) ->
  (forall j k, j < n -> k < n -> nth j bytes 0 <= nth k bytes 0 + M) ->
  forall j k, j < n -> k < n -> nth j bytes 0 + load isz a j <= nth k bytes 0 + load isz a k + M.
Proof.
  induction a as [|[c ck] a IH] using rev_ind; intros bytes L Gr El HM B.
  - simpl. intros j k Hj Hk. specialize (B j k Hj Hk). lia.
  - destruct (Gr a c ck [] eq_refl) as [G1 [G2 G3]]. rewrite L in *.
    assert (Hc : In c (map fst (a ++ [(c, ck)]))) by (rewrite map_app, in_app_iff; right; left; auto).
    assert (IH' : forall j k, j < n -> k < n -> nth j bytes 0 + load isz a j <= nth k bytes 0 + load isz a k + M).
    { apply IH; auto.
      - intros a1 sl ck' a2 E. rewrite L. subst a. rewrite <- L. apply (Gr a1 sl ck' (a2 ++ [(c, ck)])). rewrite <- app_assoc. reflexivity.
      - intros c' j I. apply El. rewrite map_app, in_app_iff; auto.
      - intros c' I. apply HM. rewrite map_app, in_app_iff; auto. }
    intros j k Hj Hk. rewrite !load_app. simpl.
    specialize (IH' j k Hj Hk). specialize (HM c Hc). specialize (G3 k Hk (El c k Hc Hk)).
    destruct (Nat.eqb_spec ck j), (Nat.eqb_spec ck k); subst; lia.
Qed.

Definition total {V} (leaves : list (leaf V)) (asgs : list (list (slicend * nat))) (k : nat) : nat :=
  fold_right (fun la n => load (lf_itemsize (fst la)) (snd la) k + n) 0 (combine leaves asgs).

Lemma all_balanced {V} P mcb n M : forall (leaves : list (leaf V)) asgs bytes, length bytes = n -> 0 < P ->
  greedy_all P mcb leaves bytes asgs ->
  (forall i lf a c p, nth_error leaves i = Some lf -> nth_error asgs i = Some a -> In c (map fst a) -> p < P -> holder mcb lf c p) ->
  (forall i lf a c, nth_error leaves i = Some lf -> nth_error asgs i = Some a -> In c (map fst a) -> volume c * lf_itemsize lf <= M) ->
  (forall j k, j < n -> k < n -> nth j bytes 0 <= nth k bytes 0 + M) ->
  forall j k, j < n -> k < n -> nth j bytes 0 + total leaves asgs j <= nth k bytes 0 + total leaves asgs k + M.
Proof.
  induction leaves as [|lf leaves IH]; intros [|a asgs] bytes L HP GA Ho HM B; try contradiction.
  - unfold total. simpl. intros j k Hj Hk. specialize (B j k Hj Hk). lia.
  - destruct GA as [[procs [Pr Gr]] [b' [Lb [Nb GA]]]]. intros j k Hj Hk.
    unfold total in *. simpl.
    assert (B' : forall j k, j < n -> k < n -> nth j b' 0 <= nth k b' 0 + M).
    { intros j' k' Hj' Hk'. rewrite !Nb.
      apply (greedy_balanced P (lf_itemsize lf) procs n M a bytes L Gr); auto.
      - intros c j2 I Hj2. apply Pr; auto. apply (Ho 0 lf a c); auto. apply Nat.mod_upper_bound; lia.
      - intros c I. apply (HM 0 lf a c); auto. }
    pose proof (IH asgs b' ltac:(congruence) HP GA (fun i => Ho (S i)) (fun i => HM (S i)) B' j k Hj Hk) as Q.
    rewrite !Nb in Q. lia.
Qed.

Lemma file_bytes_total {V} k : forall (leaves : list (leaf V)) asgs (content : list (chunk V)),
  length leaves = length asgs -> map key2 content = fkeys k 0 asgs ->
  file_bytes leaves content = total leaves asgs k.
Proof.
  intros leaves asgs content L E.
  assert (F : file_bytes leaves content = fold_right (fun ic n => match nth_error leaves (fst ic) with
                         | Some lf => volume (snd ic) * lf_itemsize lf | None => 0 end + n) 0 (fkeys k 0 asgs)).
  { rewrite <- E. clear. induction content; simpl; auto. }
  rewrite F. clear F E content.
  assert (Gen : forall off (pre lv : list (leaf V)), off = length pre -> length lv = length asgs ->
     fold_right (fun ic n => match nth_error (pre ++ lv) (fst ic) with
                         | Some lf => volume (snd ic) * lf_itemsize lf | None => 0 end + n) 0 (fkeys k off asgs) = total lv asgs k).
  { clear. induction asgs as [|a asgs IH]; intros off pre [|lf lv] Eo L; try discriminate; auto.
    change (fkeys k off (a :: asgs)) with
        (map (fun ck => (off, fst ck)) (filter (fun ck => snd ck =? k) a) ++ fkeys k (S off) asgs).
    rewrite fold_right_app.
    replace (pre ++ lf :: lv) with ((pre ++ [lf]) ++ lv) by (rewrite <- app_assoc; auto).
    rewrite (IH (S off) (pre ++ [lf]) lv); [|rewrite app_length; simpl; lia|simpl in L; lia].
    assert (N : nth_error ((pre ++ [lf]) ++ lv) off = Some lf).
    { rewrite <- app_assoc. rewrite nth_error_app2 by lia. rewrite Eo, Nat.sub_diag. auto. }
    unfold total at 2. simpl. fold (total lv asgs k). generalize (total lv asgs k) as tt. intros tt.
    revert N. generalize ((pre ++ [lf]) ++ lv). intros all N. clear - N.
    induction a as [|[c q] a IHa]; simpl; auto. destruct (q =? k); simpl; rewrite ?N, IHa; lia. }
  apply (Gen 0 [] leaves); auto.
Qed.

Lemma balanced {V} P mcb ns (leaves : list (leaf V)) views s files M :
  all_saved P leaves views ns mcb s -> on_disk P s files ->
  (forall lf p x, In lf leaves -> p < P -> in_shape x (lf_shape lf) ->
     exists sh, In sh (lf_shards lf) /\ sh_proc sh = p /\ selected x (sh_index sh)) ->
  (forall k content c lf, In (k, content) files -> In c content -> nth_error leaves (ch_leaf c) = Some lf ->
     volume (ch_slice c) * lf_itemsize lf <= M) ->
  forall k content k' content', In (k, content) files -> In (k', content') files ->
    file_bytes leaves content <= file_bytes leaves content' + M.
Proof.
  intros AS D All HM k content k' content' I I'.
  assert (HP : 0 < P) by apply AS.
  destruct (all_saved_as P mcb ns HP leaves views s AS) as [n [asgs SA]].
  assert (Lk : forall k content, In (k, content) files -> k < n /\ map key2 content = fkeys k 0 asgs).
  { intros q cq J. split; [|eapply file_keys; eauto]. apply (files_in P HP s files D) in J. destruct J as [p [Hp J]]. eapply file_writer; eauto. }
  pose proof (Forall2_len _ _ _ (sa_asg _ _ _ _ _ _ SA)) as LA.
  destruct (Lk k content I) as [H1 E1]. destruct (Lk k' content' I') as [H2 E2].
  rewrite (file_bytes_total k leaves asgs content LA E1), (file_bytes_total k' leaves asgs content' LA E2).
  pose proof (all_balanced P mcb n M leaves asgs (repeat 0 n) (repeat_length _ _) HP (sa_greedy _ _ _ _ _ _ SA)) as Q.
  assert (R0 : forall j, nth j (repeat 0 n) 0 = 0). { intros j. destruct (nth_in_or_default j (repeat 0 n) 0) as [J|J]; auto. apply repeat_spec in J; auto. }
  enough (W : nth k (repeat 0 n) 0 + total leaves asgs k <= nth k' (repeat 0 n) 0 + total leaves asgs k' + M)
    by (rewrite !R0 in W; exact W).
  apply Q; auto.
  - intros i lf a c p Nl Na Ic Hp.
    pose proof (good_nth P mcb ns leaves views s AS i lf Nl) as Gl.
    destruct (Forall2_nth_error _ _ _ _ _ (sa_asg _ _ _ _ _ _ SA) Nl) as [a' [Na' A]]. rewrite Na in Na'. injection Na' as <-.
    apply (ao_keys _ _ _ _ _ A) in Ic. destruct Ic as [sh Ci].
    destruct (chunk_in_nonempty P mcb lf c sh Gl Ci) as [Nc _].
    pose proof (chunk_in_within P mcb lf c sh _ Gl Ci (nonempty_lo _ Nc)) as X.
    destruct Ci as [Is Ci]. destruct (slice_of_ok P lf sh Gl Is) as [_ [_ [_ [_ W]]]].
    destruct (All lf p (map fst c)) as [sh' [Is' [Ep Sx]]]; auto. { eapply nth_error_In; eauto. } { apply W; auto. }
    exists sh'. split; auto. split; auto. rewrite <- (slice_replica P lf sh sh' (map fst c)); auto.
    destruct (slice_of_ok P lf sh' Gl Is') as [_ [_ [_ [_ W']]]]. apply W'. split; auto. apply W; auto.
  - intros i lf a c Nl Na Ic. apply in_map_iff in Ic. destruct Ic as [[c' q] [Ec Ic]]. simpl in Ec; subst c'.
    assert (Hd : holds files q i c) by (apply (holds_iff P mcb HP leaves s n asgs files SA D); eauto).
    destruct Hd as [ct [ch [J1 [J2 [J3 J4]]]]]. subst. eapply HM; eauto.
  - intros j q _ _. rewrite !R0. lia.
Qed.

(** ** C19 *)
Lemma intersect_empty_axis : forall a b, a = b -> ~ nonempty a -> intersect_slicend (map of_c a) (map of_c b) = Ok None.
Proof.
  intros a b <- N. destruct (nonempty_intersect a a eq_refl) as [[r [_ [_ [S [x X]]]]]|[E _]]; auto.
  exfalso. apply N. apply S in X. destruct X as [X _]. unfold nonempty. clear - X. induction X; constructor; auto. lia.
Qed.

Definition full_leaf {V} (shape : list nat) isz (value : list nat -> V) : leaf V :=
  {| lf_shape := shape; lf_itemsize := isz; lf_value := value;
     lf_shards := [{| sh_index := map (fun _ => (None, None)) shape; sh_proc := 0 |}] |}.

Lemma full_index shape : shard_index_to_slicend (map (fun _ => (None, None)) shape) shape =
  Ok (map (fun d => (0, d)) shape).
Proof.
  unfold shard_index_to_slicend. rewrite safe_zip_ok by apply map_length. simpl. f_equal.
  induction shape; simpl; f_equal; auto.
Qed.

Lemma eqb_refl' a : slicend_eqb a a = true.
Proof. apply slicend_eqb_spec. auto. Qed.

Lemma zero_size_fails {V} (zero : V) shape isz value mcb sched : In 0 shape ->
  (forall l : list (chunk V), Permutation (sched l) l) ->
  let lf := full_leaf shape isz value in
  exists s, save_checkpoint 1 0 [lf] None mcb = Ok s /\
    restore_from_index zero (sv_files s) (sv_index s) [map sh_index (lf_shards lf)] sched = Raise ValueError.
Proof.
  intros Z Sc lf. set (g := map (fun d => (0, d)) shape : slicend).
  assert (FI : shard_index_to_slicend (map (fun _ => (None, None)) shape) shape = Ok g) by apply full_index.
  assert (Z0 : prod (slice_sizes g) = 0).
  { unfold g. clear - Z. induction shape as [|d shape IH]; [contradiction|]. simpl. destruct Z as [->|Z]; simpl; auto.
    rewrite IH; auto; lia. }
  assert (Sp : split_slicend g (max_items_of mcb isz) = [g]).
  { unfold split_slicend. rewrite Z0.
    destruct (max_items_of mcb isz) as [[|m]|]; auto. }
  unfold save_checkpoint. simpl. unfold create_map_slicend_to_array_shards. simpl. rewrite FI. simpl. rewrite Sp. simpl.
  unfold create_map_slicend_to_ckpt_shard. simpl. rewrite eqb_refl'. unfold find_smallest_ckpt_shard. simpl.
  unfold update_chunks_with_leaf. simpl. rewrite eqb_refl'. simpl. unfold global2local. simpl.
  rewrite safe_zip_ok by (unfold g; rewrite !map_length; auto). simpl.
  eexists. split; [reflexivity|]. simpl.
  unfold restore_from_index, create_local_buffers, shards_to_read, find_ckpt_shards_to_restore. simpl.
  rewrite FI. simpl. rewrite eqb_refl'. simpl.
  unfold load_file, decode_file. simpl. rewrite Z0. reflexivity.
Qed.

Lemma chunks_spec (sl : slicend) mcb isz : 1 <= isz -> Forall (fun p : cslice => fst p < snd p) sl ->
  let out := split_slicend sl (max_items_of mcb isz) in
  ForallOrdPairs disjoint out /\
  (forall x, within x sl <-> exists c, In c out /\ within x c) /\
  (forall c, In c out -> exists x, within x c) /\
  match mcb with
  | Some b => (1 <= b -> forall c, In c out -> Z.of_nat (volume c) <= item_limit b isz)%Z /\
              ((b < 1)%Z -> out = [sl])
  | None => out = [sl]
  end.
Proof.
  intros Hi N out. unfold out; clear out. destruct (split_slicend_spec sl (max_items_of mcb isz) N) as [H1 [H2 [H3 H4]]].
  split; auto. split; auto. split.
  { intros c I. exists (map fst c). apply nonempty_lo. apply H3; auto. }
  unfold max_items_of in *. destruct mcb as [b|]; auto. split; intros Hb.
  - rewrite (proj2 (Z.leb_le 1 b) Hb) in *. intros c I.
    set (m := Nat.max (Z.to_nat b / isz) 1) in *.
    assert (Em' : Z.of_nat m = item_limit b isz).
    { unfold m, item_limit. rewrite Nat2Z.inj_max, Nat2Z.inj_div, Z2Nat.id by lia. reflexivity. }
    rewrite <- Em'. assert (Hm : 1 <= m) by apply Nat.le_max_r. clearbody m. destruct m as [|m]; [lia|].
    apply inj_le. apply H4; auto.
  - rewrite (proj2 (Z.leb_gt 1 b) Hb) in *. auto.
Qed.
