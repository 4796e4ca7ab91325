(** Proofs of C12-C17. *)
From Coq Require Import List Arith ZArith Bool Lia Permutation.
From Verif Require Import Prim PrimLemmas CkptModel CkptSpec CkptSlices CkptSave CkptRestore.
Import ListNotations.
Local Open Scope nat_scope.

Lemma combine_fst_snd {A B} (l : list (A * B)) : combine (map fst l) (map snd l) = l.
Proof. induction l as [|[a b] l IH]; simpl; congruence. Qed.

Lemma info_of_asg {V} P mcb (lf : leaf V) n a : asg_ok P mcb lf n a ->
  make_index_info a (lf_shape lf) = {| ii_shape := lf_shape lf; ii_slices := map fst a; ii_shards := map snd a |}.
Proof.
  intros A. unfold make_index_info. rewrite (ao_sorted _ _ _ _ _ A). f_equal.
  pose proof (ao_nodup _ _ _ _ _ A) as ND. rewrite map_map. apply map_ext_in. intros [c k] I. simpl.
  rewrite (dict_in_get a c k ND I). auto.
Qed.

Section Need.
  Context {V : Type}.
  Variables (P : nat) (mcb : option Z) (lf : leaf V) (n : nat) (a : list (slicend * nat)).
  Hypothesis G : good_leaf P lf.
  Hypothesis A : asg_ok P mcb lf n a.

  Definition touches (idx : list pyslice) (c : slicend) : Prop :=
    exists x, in_shape x (lf_shape lf) /\ selected x idx /\ within x c.

  Lemma inner_need idx gs : valid_index (lf_shape lf) idx -> shard_index_to_slicend idx (lf_shape lf) = Ok gs ->
    forall (l : list (slicend * nat)) acc, (forall c k, In (c, k) l -> In c (map fst a)) ->
    exists out, rfold (fun acc ck =>
        let '(cs, k) := ck in
        if slicend_eqb gs cs then Ok (acc ++ [k]) else
        bind (intersect_slicend (map of_c gs) (map of_c cs)) (fun o =>
          Ok (if truthy o then acc ++ [k] else acc))) l acc = Ok out /\
      forall k, In k out <-> In k acc \/ exists c, In (c, k) l /\ touches idx c.
  Proof.
    intros Hv E. destruct (shard_index_ok _ _ Hv) as [gs' [E' [Ng [_ [Lg [_ W]]]]]].
    rewrite E in E'. injection E' as <-.
    induction l as [|[c k0] l IH]; intros acc Hl.
    - exists acc. split; auto. intros k. split; auto. intros [H|[c [[] _]]]; auto.
    - assert (Hc : In c (map fst a)) by (eapply Hl; left; eauto).
      apply (ao_keys _ _ _ _ _ A) in Hc. destruct Hc as [sh Hc].
      destruct (chunk_in_nonempty P mcb lf c sh G Hc) as [Nc Lc].
      assert (T : exists b : bool, (if slicend_eqb gs c then Ok (acc ++ [k0]) else
        bind (intersect_slicend (map of_c gs) (map of_c c)) (fun o =>
          Ok (if truthy o then acc ++ [k0] else acc))) = Ok (if b then acc ++ [k0] else acc) /\
          (b = true <-> touches idx c)).
      { destruct (slicend_eqb gs c) eqn:Eq.
        - exists true. split; auto. split; auto. intros _. apply slicend_eqb_spec in Eq. subst.
          pose proof (nonempty_lo _ Ng) as X. exists (map fst c). split; [|split]; auto; apply W; auto.
        - destruct (nonempty_intersect gs c) as [[r [Er [Lr [S [x X]]]]]|[Er Dj]]; [congruence| |]; rewrite Er; simpl.
          + exists true. destruct r as [|q r].
            { simpl in Lr. destruct gs; [|discriminate]. simpl in Lg. destruct c; [discriminate|]. simpl in Lc. congruence. }
            split; auto. split; auto. intros _. apply S in X. destruct X as [X1 X2]. exists x. apply W in X1. tauto.
          + exists false. split; auto. split; [discriminate|]. intros [x [X1 [X2 X3]]]. exfalso. apply (Dj x); auto. apply W; auto. }
      destruct T as [b [Eb Tb]].
      cbn [rfold]. rewrite Eb. cbn [bind].
      destruct (IH (if b then acc ++ [k0] else acc)) as [out [Eo Ho]]. { intros; eapply Hl; right; eauto. }
      exists out. split; auto. intros k. rewrite Ho. split.
      + intros [H|[c' [H1 H2]]].
        * destruct b; auto. apply in_app_iff in H. destruct H as [H|[<-|[]]]; auto.
          right. exists c. split; [left; auto|]. apply Tb; auto.
        * right. exists c'. split; auto. right; auto.
      + intros [H|[c' [[H1|H1] H2]]].
        * left. destruct b; auto. apply in_app_iff; auto.
        * injection H1 as <- <-. left. apply Tb in H2. rewrite H2. apply in_app_iff. right; left; auto.
        * right. eauto.
  Qed.

  Lemma need_spec t : Forall (valid_index (lf_shape lf)) t ->
    exists out, find_ckpt_shards_to_restore t (lf_shape lf) (map fst a) (map snd a) = Ok out /\
      forall k, In k out <-> exists idx c, In idx t /\ In (c, k) a /\ touches idx c.
  Proof.
    intros F. unfold find_ckpt_shards_to_restore.
    assert (Z : safe_zip (map fst a) (map snd a) = Ok a).
    { rewrite safe_zip_ok by (rewrite !map_length; auto). rewrite combine_fst_snd; auto. }
    rewrite Z. cbn [bind].
    assert (R : forall acc, exists out, rfold (fun acc index =>
       bind (shard_index_to_slicend index (lf_shape lf)) (fun gs =>
       rfold (fun acc ck =>
        let '(cs, k) := ck in
        if slicend_eqb gs cs then Ok (acc ++ [k]) else
        bind (intersect_slicend (map of_c gs) (map of_c cs)) (fun o =>
          Ok (if truthy o then acc ++ [k] else acc))) a acc)) t acc = Ok out /\
       forall k, In k out <-> In k acc \/ exists idx c, In idx t /\ In (c, k) a /\ touches idx c).
    { induction F as [|idx t Hv F IH]; intros acc.
      - exists acc. split; auto. intros k. split; auto. intros [H|[i [c [[] _]]]]; auto.
      - destruct (shard_index_ok _ _ Hv) as [gs [E _]].
        destruct (inner_need idx gs Hv E a acc) as [out1 [E1 H1]]. { intros c k I. apply in_map_iff. exists (c, k); auto. }
        cbn [rfold]. rewrite E. cbn [bind]. rewrite E1. cbn [bind].
        destruct (IH out1) as [out [E2 H2]]. exists out. split; auto.
        intros k. rewrite H2, H1. split.
        + intros [[H|[c H]]|[i [c [Hi H]]]]; auto; right; [exists idx, c | exists i, c]; simpl; tauto.
        + intros [H|[i [c [[<-|Hi] H]]]]; auto; [left; right|right]; eauto. }
    destruct (R []) as [out [E H]]. exists out. split; auto. intros k. rewrite H. split; auto. intros [[]|]; auto.
  Qed.
End Need.

Section Main.
  Context {V : Type}.
  Variables (P : nat) (mcb ns : option Z) (leaves : list (leaf V)) (views : nat -> list (leaf V))
            (s : nat -> saved V).
  Hypothesis AS : all_saved P leaves views ns mcb s.

  Let HP : 0 < P. Proof. apply AS. Qed.
  Let G : Forall (good_leaf P) leaves. Proof. apply AS. Qed.

  Lemma good_nth i lf : nth_error leaves i = Some lf -> good_leaf P lf.
  Proof. intros N. pose proof G as G'. rewrite Forall_forall in G'. apply G'. eapply nth_error_In; eauto. Qed.

  Lemma Forall2_combine_map {A B C} (R : A -> B -> Prop) (f g : B * A -> C) l l' :
    Forall2 R l l' -> (forall x y, R x y -> f (y, x) = g (y, x)) -> map f (combine l' l) = map g (combine l' l).
  Proof. induction 1; simpl; intros E; auto. f_equal; auto. Qed.

  Lemma index_eq n asgs p : saved_as P mcb leaves s n asgs -> p < P ->
    sv_index (s p) = map (fun al => {| ii_shape := lf_shape (snd al); ii_slices := map fst (fst al); ii_shards := map snd (fst al) |})
                         (combine asgs leaves).
  Proof.
    intros SA Hp. destruct (sa_index _ _ _ _ _ _ SA p Hp) as [-> _]. unfold infos_of.
    apply (Forall2_combine_map _ _ _ _ _ (sa_asg _ _ _ _ _ _ SA)). intros lf a A. simpl. exact (info_of_asg P mcb lf n a A).
  Qed.

  Lemma need_ok n asgs targets p : saved_as P mcb leaves s n asgs -> p < P -> good_targets leaves targets ->
    exists need, shards_to_read targets (sv_index (s p)) = Ok need /\ NoDup need /\
      forall k, In k need <-> exists i lf t a idx c, nth_error leaves i = Some lf /\ nth_error targets i = Some t /\
         nth_error asgs i = Some a /\ In idx t /\ In (c, k) a /\ touches lf idx c.
  Proof.
    intros SA Hp GT. rewrite (index_eq n asgs p SA Hp). pose proof (sa_asg _ _ _ _ _ _ SA) as FA.
    pose proof G as G'. unfold shards_to_read.
    rewrite safe_zip_ok.
    2:{ rewrite map_length, combine_length. pose proof (Forall2_len _ _ _ FA). pose proof (Forall2_len _ _ _ GT). lia. }
    cbn [bind].
    assert (R : exists ls, rmap (fun ti => find_ckpt_shards_to_restore (fst ti) (ii_shape (snd ti)) (ii_slices (snd ti)) (ii_shards (snd ti)))
         (combine targets (map (fun al => {| ii_shape := lf_shape (snd al); ii_slices := map fst (fst al); ii_shards := map snd (fst al) |})
                         (combine asgs leaves))) = Ok ls /\
       forall k, In k (concat ls) <-> exists i lf t a idx c, nth_error leaves i = Some lf /\ nth_error targets i = Some t /\
         nth_error asgs i = Some a /\ In idx t /\ In (c, k) a /\ touches lf idx c).
    { clear SA AS HP G. revert targets GT. induction FA as [|lf a lvs asgs' A FA IH]; intros targets GT; inversion GT as [|? t ? ts Ft GT']; subst.
      - exists []. split; auto. intros k. split; [contradiction|]. intros [i [lf [t [a [idx [c [N _]]]]]]]. destruct i; discriminate.
      - inversion G'; subst. destruct (IH H2 ts GT') as [ls [E Hk]].
        destruct (need_spec P mcb lf n a H1 A t Ft) as [out [Eo Ho]].
        cbn [map combine rmap fst snd ii_shape ii_slices ii_shards]. rewrite Eo. cbn [bind]. rewrite E. cbn [bind].
        exists (out :: ls). split; auto. intros k. simpl. rewrite in_app_iff, Ho, Hk. split.
        + intros [[idx [c H]]|[i [lf' [t' [a' [idx [c H]]]]]]].
          * exists 0, lf, t, a, idx, c. simpl. auto.
          * exists (S i), lf', t', a', idx, c. simpl. auto.
        + intros [[|i] [lf' [t' [a' [idx [c [N1 [N2 [N3 H]]]]]]]]]; simpl in *.
          * left. injection N1 as <-. injection N2 as <-. injection N3 as <-. eauto.
          * right. exists i, lf', t', a', idx, c. auto. }
    destruct R as [ls [E Hk]]. rewrite E. cbn [bind]. eexists. split; [reflexivity|]. split; [apply NoDup_nodup|].
    intros k. rewrite nodup_In. apply Hk.
  Qed.

  Lemma nth_error_combine {A B} (l : list A) (l' : list B) i x y :
    nth_error (combine l l') i = Some (x, y) <-> nth_error l i = Some x /\ nth_error l' i = Some y.
  Proof.
    revert l' i. induction l as [|a l IH]; intros [|b l'] [|i]; simpl; split; try discriminate; try tauto; try (intros [? ?]; discriminate).
    - intros H; injection H as <- <-; auto.
    - intros [H1 H2]; injection H1 as <-; injection H2 as <-; auto.
    - apply IH.
    - apply IH.
  Qed.

  Lemma rmap_nth {T U} (f : T -> res U) l ys i x : rmap f l = Ok ys -> nth_error l i = Some x ->
    exists y, nth_error ys i = Some y /\ f x = Ok y.
  Proof. intros R N. exact (Forall2_nth_error _ _ _ _ _ (rmap_Forall2 _ _ _ R) N). Qed.

  Lemma restore_ok zero files targets sched : on_disk P s files -> good_targets leaves targets ->
    (forall l, Permutation (sched l) l) ->
    exists out, restore_from_index zero files (sv_index (s 0)) targets sched = Ok out /\
      Forall2 (fun o t => length o = length t) out targets /\
      forall i lf t o j idx data, nth_error leaves i = Some lf -> nth_error targets i = Some t ->
        nth_error out i = Some o -> nth_error t j = Some idx -> nth_error o j = Some data ->
        forall x, in_shape x (lf_shape lf) -> selected x idx -> data (idx_sub x (origin idx)) = lf_value lf x.
  Proof.
    intros D GT HS. destruct (all_saved_as P mcb ns HP leaves views s AS) as [n [asgs SA]].
    destruct (need_ok n asgs targets 0 SA HP GT) as [need [En [NDn Hn]]].
    unfold restore_from_index.
    pose proof (Forall2_len _ _ _ GT) as LT. pose proof (Forall2_len _ _ _ (sa_asg _ _ _ _ _ _ SA)) as LA.
    set (index := sv_index (s 0)) in *.
    assert (EI := index_eq n asgs 0 SA HP). fold index in EI.
    assert (LI : length index = length leaves) by (rewrite EI, map_length, combine_length; lia).
    rewrite safe_zip_ok by congruence. cbn [bind].
    (* buffers *)
    assert (NI : forall i info, nth_error index i = Some info -> exists lf a, nth_error leaves i = Some lf /\ nth_error asgs i = Some a /\ ii_shape info = lf_shape lf).
    { intros i info N. rewrite EI in N. rewrite nth_error_map in N. destruct (nth_error (combine asgs leaves) i) as [[a lf]|] eqn:Nc; [|discriminate].
      injection N as <-. apply nth_error_combine in Nc. exists lf, a. tauto. }
    destruct (rmap_ok (fun ti => create_local_buffers zero (fst ti) (ii_shape (snd ti))) (combine targets index)) as [b0 [Eb Fb]].
    { intros [t info] I. apply In_nth_error in I. destruct I as [i N]. apply nth_error_combine in N. destruct N as [N1 N2].
      destruct (NI i info N2) as [lf [a [Nl [_ Esh]]]]. destruct (Forall2_nth_error _ _ _ _ _ GT Nl) as [t' [Nt Ft]].
      rewrite N1 in Nt. injection Nt as <-. simpl. rewrite Esh. destruct (local_buffers_ok zero (lf_shape lf) t Ft) as [d [E _]]. eauto. }
    rewrite Eb. cbn [bind]. rewrite En. cbn [bind].
    assert (Lb0 : length b0 = length leaves).
    { rewrite <- (Forall2_len _ _ _ Fb), combine_length. lia. }
    (* one leaf *)
    assert (Leaf : forall i bl, nth_error b0 i = Some bl -> exists lf t, nth_error leaves i = Some lf /\ nth_error targets i = Some t /\
        NoDup (map fst bl) /\ (forall g, In g (map fst bl) -> nonempty g /\ length g = length (lf_shape lf)) /\
        (forall idx g, In idx t -> shard_index_to_slicend idx (lf_shape lf) = Ok g -> In g (map fst bl))).
    { intros i bl N. destruct (Forall2_nth_error_r _ _ _ _ _ Fb N) as [[t info] [Nc E]]. apply nth_error_combine in Nc. destruct Nc as [N1 N2].
      destruct (NI i info N2) as [lf [a [Nl [_ Esh]]]]. simpl in E. rewrite Esh in E.
      destruct (Forall2_nth_error _ _ _ _ _ GT Nl) as [t' [Nt Ft]]. rewrite N1 in Nt. injection Nt as <-.
      destruct (local_buffers_ok zero (lf_shape lf) t Ft) as [d [E' Q]]. rewrite E in E'. injection E' as <-.
      exists lf, t. auto. }
    (* files *)
    assert (Hkn : forall k, In k need -> k < n).
    { intros k I. apply Hn in I. destruct I as [i [lf [t [a [idx [c [N1 [N2 [N3 [_ [Ic _]]]]]]]]]]].
      destruct (Forall2_nth_error _ _ _ _ _ (sa_asg _ _ _ _ _ _ SA) N1) as [a' [N3' A]]. rewrite N3 in N3'. injection N3' as <-.
      apply (ao_holder _ _ _ _ _ A c k Ic). }
    assert (FG : forall k content c, In (k, content) files -> In c content -> ch_good leaves c).
    { intros k content c I2 I3.
      destruct (file_data P mcb HP leaves s n asgs files SA D k content c I2 I3) as [lf [Nl C]].
      assert (Hd : holds files k (ch_leaf c) (ch_slice c)) by (exists content, c; auto).
      apply (holds_iff P mcb HP leaves s n asgs files SA D) in Hd. destruct Hd as [a [Na Ia]].
      destruct (Forall2_nth_error _ _ _ _ _ (sa_asg _ _ _ _ _ _ SA) Nl) as [a' [Na' A]]. rewrite Na in Na'. injection Na' as <-.
      assert (In (ch_slice c) (map fst a)) as Ik by (apply in_map_iff; exists (ch_slice c, k); auto).
      apply (ao_keys _ _ _ _ _ A) in Ik. destruct Ik as [sh Ik].
      destruct (chunk_in_nonempty P mcb lf _ sh (good_nth _ _ Nl) Ik). exists lf. auto. }
    assert (FD : forall k content, In (k, content) files -> decode_file content = Ok content).
    { intros k content I2. apply decode_ok. intros c I3. destruct (FG k content c I2 I3) as [lf Hc]. tauto. }
    destruct (rmap_ok (load_file files) need) as [contents [Ec Fc]].
    { intros k I. unfold load_file. destruct (file_exists P mcb HP leaves s n asgs files SA D k (Hkn k I)) as [content [I2 ->]].
      rewrite (FD k content I2). eauto. }
    rewrite Ec. cbn [bind].
    assert (InC : forall c, In c (concat contents) <-> exists k content, In k need /\ In (k, content) files /\ In c content).
    { intros c. rewrite in_concat. split.
      - intros [content [I1 I2]]. apply In_nth_error in I1. destruct I1 as [j Nj].
        destruct (Forall2_nth_error_r _ _ _ _ _ Fc Nj) as [k [Nk E]].
        unfold load_file in E. destruct (file_get files k) as [content'|] eqn:Fg; [|discriminate].
        assert (content' = content) as ->. { unfold decode_file in E. destruct (existsb _ content'); congruence. } clear E.
        exists k, content. split; [eapply nth_error_In; eauto|]. split; auto.
        unfold file_get in Fg. destruct (find _ files) as [[k' c']|] eqn:Ff; [|discriminate]. injection Fg as ->.
        apply find_some in Ff. destruct Ff as [Ff E]. apply Nat.eqb_eq in E. simpl in E. subst. auto.
      - intros [k [content [I1 [I2 I3]]]]. apply In_nth_error in I1. destruct I1 as [j Nj].
        destruct (Forall2_nth_error _ _ _ _ _ Fc Nj) as [content' [Nc E]].
        assert (Hk : k < n) by (apply Hkn; eapply nth_error_In; eauto).
        destruct (file_exists P mcb HP leaves s n asgs files SA D k Hk) as [content2 [I4 Fg]].
        unfold load_file in E. rewrite Fg, (FD k content2 I4) in E. injection E as ->.
        exists content'. split; [eapply nth_error_In; eauto|].
        pose proof (file_names_nodup P mcb HP leaves s n asgs files SA D) as ND.
        assert (content = content'); [|subst; auto].
        clear - ND I2 I4. induction files as [|[q r] fs IH]; [contradiction|]. simpl in ND. inversion ND; subst.
        destruct I2 as [I2|I2], I4 as [I4|I4]; try congruence; auto.
        + injection I2 as -> ->. exfalso. apply H1. apply in_map_iff. exists (k, content'); auto.
        + injection I4 as -> ->. exfalso. apply H1. apply in_map_iff. exists (k, content); auto. }
    assert (CG : Forall (ch_good leaves) (sched (concat contents))).
    { apply Forall_forall. intros c I. apply (Permutation_in _ (HS _)) in I. apply InC in I. destruct I as [k [content [I1 [I2 I3]]]].
      eapply FG; eauto. }
    destruct (restore_chunks_ok leaves (sched (concat contents)) b0) as [b [Er [Lb Im]]]; auto.
    { intros i bl gb N I. destruct (Leaf i bl N) as [lf [t [Nl [_ [_ [K _]]]]]].
      destruct (K (fst gb)) as [K1 K2]. { apply in_map; auto. } split; auto. exists lf; auto. }
    rewrite Er. cbn [bind]. rewrite safe_zip_ok by (rewrite combine_length; lia). cbn [bind].
    (* reading back *)
    assert (Fin : forall i lf t info bl, nth_error leaves i = Some lf -> nth_error targets i = Some t -> nth_error index i = Some info -> nth_error b i = Some bl ->
       forall idx, In idx t -> exists data, shard_of_buffers bl (ii_shape info) idx = Ok data /\
         forall x, in_shape x (lf_shape lf) -> selected x idx -> data (idx_sub x (origin idx)) = lf_value lf x).
    { intros i lf t info bl Nl Nt Ni Nb idx Ii.
      destruct (NI i info Ni) as [lf' [a [Nl' [Na Esh]]]]. rewrite Nl in Nl'. injection Nl' as <-.
      destruct (nth_error b0 i) as [bl0|] eqn:Nb0.
      2:{ apply nth_error_None in Nb0. assert (i < length leaves) by (apply nth_error_Some; congruence). lia. }
      destruct (Leaf i bl0 Nb0) as [lf' [t' [Nl' [Nt' [ND [K M]]]]]]. rewrite Nl in Nl'; injection Nl' as <-. rewrite Nt in Nt'; injection Nt' as <-.
      destruct (Im i bl0 Nb0) as [bl' [Nb' F]]. rewrite Nb in Nb'. injection Nb' as <-.
      destruct (Forall2_nth_error _ _ _ _ _ GT Nl) as [t' [Nt' Ft]]. rewrite Nt in Nt'; injection Nt' as <-.
      assert (Hv : valid_index (lf_shape lf) idx) by (rewrite Forall_forall in Ft; auto).
      destruct (shard_index_ok _ _ Hv) as [g [Eg [Ng [Og [Lg [_ Wg]]]]]].
      unfold shard_of_buffers. rewrite Esh, Eg. cbn [bind].
      assert (EK : map fst bl = map fst bl0). { clear - F. induction F as [|? ? ? ? [E _] F IH]; simpl; congruence. }
      pose proof (M idx g Ii Eg) as Ig. rewrite <- EK in Ig. apply in_map_iff in Ig. destruct Ig as [[g' buf] [E Ig]]. simpl in E; subst g'.
      rewrite (dict_in_get bl g buf); [|rewrite EK; auto|auto]. exists buf. split; auto.
      intros x Hx Sx. rewrite <- Og.
      assert (Wx : within x g) by (apply Wg; auto).
      destruct (asg_covers P mcb leaves s n asgs G SA i lf a x Nl Na Hx) as [c [k [Ic Wc]]].
      assert (Hk : In k need). { apply Hn. exists i, lf, t, a, idx, c. repeat split; auto. exists x; auto. }
      assert (Hd : holds files k i c) by (apply (holds_iff P mcb HP leaves s n asgs files SA D); eauto).
      destruct Hd as [content [ch [I1 [I2 [I3 I4]]]]].
      assert (Is : In ch (sched (concat contents))). { apply (Permutation_in _ (Permutation_sym (HS _))). apply InC. eauto. }
      apply In_nth_error in Ig. destruct Ig as [j Nj]. destruct (Forall2_nth_error_r _ _ _ _ _ F Nj) as [gb0 [Nj0 [E0 H0]]].
      simpl in E0. subst g. destruct (H0 x Wx) as [lf' [Nl' V']].
      { right. exists ch. subst. auto. }
      rewrite Nl in Nl'. injection Nl' as <-. simpl in V'. exact V'. }
    destruct (rmap_ok (fun tib => rmap (shard_of_buffers (snd tib) (ii_shape (snd (fst tib)))) (fst (fst tib))) (combine (combine targets index) b)) as [out [Eo Fo]].
    { intros [[t info] bl] I. apply In_nth_error in I. destruct I as [i N]. apply nth_error_combine in N. destruct N as [N Nb].
      apply nth_error_combine in N. destruct N as [Nt Ni]. destruct (NI i info Ni) as [lf [a [Nl _]]]. simpl.
      destruct (rmap_ok (shard_of_buffers bl (ii_shape info)) t) as [ys [E _]]; eauto.
      intros idx Ii. destruct (Fin i lf t info bl Nl Nt Ni Nb idx Ii) as [data [E _]]; eauto. }
    exists out. split; [exact Eo|]. split.
    - assert (Lt : length (combine (combine targets index) b) = length targets) by (rewrite !combine_length; lia).
      assert (Q : forall i o, nth_error out i = Some o -> exists t, nth_error targets i = Some t /\ length o = length t).
      { intros i o No. destruct (Forall2_nth_error_r _ _ _ _ _ Fo No) as [[[t info] bl] [N R]].
        apply nth_error_combine in N. destruct N as [N _]. apply nth_error_combine in N. destruct N as [Nt _]. exists t. split; auto.
        apply rmap_Forall2 in R. symmetry. eapply Forall2_len; eauto. }
      assert (Lo : length targets = length out) by (rewrite <- Lt; exact (Forall2_len _ _ _ Fo)). clear - Q Lo. revert Q Lo. generalize targets.
      induction out as [|o out IH]; intros [|t ts] Q Lo; try discriminate; constructor.
      + destruct (Q 0 o eq_refl) as [t' [E H]]. injection E as <-. auto.
      + apply IH; auto. intros i o' N. apply (Q (S i)); auto.
    - intros i lf t o j idx data Nl Nt No Nj Nd x Hx Sx.
      destruct (Forall2_nth_error_r _ _ _ _ _ Fo No) as [[[t' info] bl] [N R]].
      apply nth_error_combine in N. destruct N as [N Nb]. apply nth_error_combine in N. destruct N as [Nt' Ni].
      assert (t' = t) by (unfold target in *; congruence). subst t'. simpl in R.
      destruct (rmap_nth _ _ _ _ _ R Nj) as [data' [Nd' Ed]]. rewrite Nd in Nd'. injection Nd' as <-.
      destruct (Fin i lf t info bl Nl Nt Ni Nb idx) as [data' [Ed' H]]. { eapply nth_error_In; eauto. }
      rewrite Ed in Ed'. injection Ed' as <-. auto.
  Qed.
End Main.
