(** Lemmas about dictionaries, the layout computed by save_checkpoint, and what it writes. *)
From Coq Require Import List Arith ZArith Bool Lia Permutation Sorted.
From Verif Require Import Prim PrimLemmas CkptModel CkptSpec CkptSlices.
Import ListNotations.
Local Open Scope nat_scope.

(** ** rfold / rmap *)
Lemma rfold_app {T U} (f : U -> T -> res U) a b u :
  rfold f (a ++ b) u = bind (rfold f a u) (rfold f b).
Proof. revert u. induction a as [|x a IH]; intros u; simpl; auto. destruct (f u x); simpl; auto. Qed.

Lemma rmap_ok {T U} (f : T -> res U) l : (forall x, In x l -> exists y, f x = Ok y) ->
  exists ys, rmap f l = Ok ys /\ Forall2 (fun x y => f x = Ok y) l ys.
Proof.
  induction l as [|x l IH]; intros H; simpl. { exists []; auto. }
  destruct (H x) as [y E]; [left; auto|]. destruct IH as [ys [E2 F]]. { intros; apply H; right; auto. }
  rewrite E, E2. simpl. exists (y :: ys); auto.
Qed.

Lemma rmap_ext {T U} (f g : T -> res U) l : (forall x, In x l -> f x = g x) -> rmap f l = rmap g l.
Proof. induction l as [|x l IH]; intros H; simpl; auto. rewrite H by (left; auto). rewrite IH; auto. intros; apply H; right; auto. Qed.

Lemma rmap_Forall2 {T U} (f : T -> res U) l ys : rmap f l = Ok ys -> Forall2 (fun x y => f x = Ok y) l ys.
Proof.
  revert ys. induction l as [|x l IH]; intros ys; simpl. { intros H; injection H as <-; auto. }
  destruct (f x) eqn:E; simpl; [|discriminate]. destruct (rmap f l); simpl; [|discriminate].
  intros H; injection H as <-. constructor; auto.
Qed.

Lemma safe_zip_ok {T U} (a : list T) (b : list U) : length a = length b -> safe_zip a b = Ok (combine a b).
Proof.
  revert b. induction a as [|x a IH]; intros [|y b] H; simpl in *; try discriminate; auto.
  rewrite IH by lia. reflexivity.
Qed.

(** ** Dictionaries *)
Lemma dict_get_in {T} (d : list (slicend * T)) k v : dict_get d k = Some v -> In (k, v) d.
Proof.
  induction d as [|[k' v'] d IH]; simpl; [discriminate|].
  destruct (slicend_eqb k' k) eqn:E; intros H; auto. injection H as <-.
  apply slicend_eqb_spec in E; subst. auto.
Qed.
Lemma dict_in_get {T} (d : list (slicend * T)) k v : NoDup (map fst d) -> In (k, v) d -> dict_get d k = Some v.
Proof.
  induction d as [|[k' v'] d IH]; simpl; [contradiction|]. intros ND [H|H]; inversion ND; subst.
  - injection H as -> ->. rewrite slicend_eqb_refl; auto.
  - destruct (slicend_eqb k' k) eqn:E; auto. apply slicend_eqb_spec in E; subst.
    exfalso. apply H2. apply in_map_iff. exists (k, v); auto.
Qed.
Lemma dict_get_none {T} (d : list (slicend * T)) k : dict_get d k = None <-> ~ In k (map fst d).
Proof.
  induction d as [|[k' v'] d IH]; simpl; split; auto.
  - destruct (slicend_eqb k' k) eqn:E; [discriminate|]. intros H [->|H']; [rewrite slicend_eqb_refl in E; discriminate|].
    apply IH in H; auto.
  - intros H. rewrite slicend_eqb_neq by (intros ->; apply H; auto). apply IH; auto.
Qed.

Lemma dict_set_get {T} (d : list (slicend * T)) k v k' :
  dict_get (dict_set d k v) k' = if slicend_eqb k k' then Some v else dict_get d k'.
Proof.
  induction d as [|[q w] d IH]; simpl; auto.
  destruct (slicend_eqb q k) eqn:E; simpl.
  - apply slicend_eqb_spec in E; subst. destruct (slicend_eqb k k'); auto.
  - destruct (slicend_eqb q k') eqn:E2; auto. apply slicend_eqb_spec in E2; subst.
    destruct (slicend_eqb k k') eqn:E3; auto. apply slicend_eqb_spec in E3; subst.
    rewrite slicend_eqb_refl in E; discriminate.
Qed.
Lemma dict_set_keys {T} (d : list (slicend * T)) k v :
  map fst (dict_set d k v) = if existsb (slicend_eqb k) (map fst d) then map fst d else map fst d ++ [k].
Proof.
  induction d as [|[q w] d IH]; simpl; auto.
  destruct (slicend_eqb q k) eqn:E; simpl.
  - apply slicend_eqb_spec in E; subst. rewrite slicend_eqb_refl; auto.
  - rewrite (slicend_eqb_neq k q) by (intros ->; rewrite slicend_eqb_refl in E; discriminate). simpl.
    rewrite IH. destruct (existsb _ _); auto.
Qed.

Lemma nodup_snoc {A} (l : list A) x : NoDup l -> ~ In x l -> NoDup (l ++ [x]).
Proof. intros. apply (Permutation_NoDup (l := x :: l)). apply Permutation_cons_append. constructor; auto. Qed.

Lemma dict_set_nodup {T} (d : list (slicend * T)) k v : NoDup (map fst d) -> NoDup (map fst (dict_set d k v)).
Proof.
  intros H. rewrite dict_set_keys. destruct (existsb _ _) eqn:E; auto.
  apply nodup_snoc; auto. intros I. assert (existsb (slicend_eqb k) (map fst d) = true); [|congruence].
  apply existsb_exists. exists k. split; auto. apply slicend_eqb_refl.
Qed.

Lemma dict_append_get {T} (d : list (slicend * list T)) k v k' :
  dict_get (dict_append d k v) k' =
  if slicend_eqb k k' then Some ((match dict_get d k with Some l => l | None => [] end) ++ [v])
  else dict_get d k'.
Proof.
  induction d as [|[q w] d IH]; simpl; auto.
  destruct (slicend_eqb q k) eqn:E; simpl.
  - apply slicend_eqb_spec in E; subst. destruct (slicend_eqb k k'); auto.
  - rewrite IH. destruct (slicend_eqb q k') eqn:E2; auto. apply slicend_eqb_spec in E2; subst.
    rewrite (slicend_eqb_neq k k'); auto. intros ->. rewrite slicend_eqb_refl in E; discriminate.
Qed.
Lemma dict_append_keys {T} (d : list (slicend * list T)) k v :
  map fst (dict_append d k v) = if existsb (slicend_eqb k) (map fst d) then map fst d else map fst d ++ [k].
Proof.
  induction d as [|[q w] d IH]; simpl; auto.
  destruct (slicend_eqb q k) eqn:E; simpl.
  - apply slicend_eqb_spec in E; subst. rewrite slicend_eqb_refl; auto.
  - rewrite (slicend_eqb_neq k q) by (intros ->; rewrite slicend_eqb_refl in E; discriminate). simpl.
    rewrite IH. destruct (existsb _ _); auto.
Qed.
Lemma dict_append_nodup {T} (d : list (slicend * list T)) k v :
  NoDup (map fst d) -> NoDup (map fst (dict_append d k v)).
Proof.
  intros H. rewrite dict_append_keys. destruct (existsb _ _) eqn:E; auto.
  apply nodup_snoc; auto. intros I. assert (existsb (slicend_eqb k) (map fst d) = true); [|congruence].
  apply existsb_exists. exists k. split; auto. apply slicend_eqb_refl.
Qed.

(** Grouping by key. *)
Lemma group_spec {T} (key : T -> slicend) (l : list T) d :
  d = fold_left (fun d x => dict_append d (key x) x) l [] ->
  NoDup (map fst d) /\
  forall k, dict_get d k = match filter (fun x => slicend_eqb (key x) k) l with
                           | [] => None | q => Some q end.
Proof.
  intros ->. induction l as [|x r IH] using rev_ind; simpl.
  - split; auto. constructor.
  - rewrite fold_left_app. simpl. destruct IH as [ND G]. split. { apply dict_append_nodup; auto. }
    intros k. rewrite dict_append_get, G, filter_app. simpl.
    destruct (slicend_eqb (key x) k) eqn:E.
    + apply slicend_eqb_spec in E; subst. destruct (filter _ r); auto.
    + rewrite app_nil_r. auto.
Qed.

(** A dictionary filled from a list of pairs with consistent values. *)
Lemma fill_spec {T} (l : list (slicend * T)) d0 :
  (forall k v v', In (k, v) l -> In (k, v') l -> v = v') ->
  NoDup (map fst d0) ->
  let d := fold_left (fun d p => dict_set d (fst p) (snd p)) l d0 in
  NoDup (map fst d) /\
  (forall k v, In (k, v) l -> dict_get d k = Some v) /\
  (forall k, ~ In k (map fst l) -> dict_get d k = dict_get d0 k).
Proof.
  revert d0. induction l as [|[k v] l IH]; intros d0 C ND; simpl.
  - repeat split; auto. contradiction.
  - destruct (IH (dict_set d0 k v)) as [N1 [N2 N3]].
    { intros; eapply C; right; eauto. } { apply dict_set_nodup; auto. }
    repeat split; auto.
    + intros k' v' [H|H]; auto. injection H as <- <-.
      destruct (in_dec slicend_dec k (map fst l)) as [I|I].
      * apply in_map_iff in I. destruct I as [[k2 v2] [E I]]. simpl in E; subst k2.
        rewrite (N2 k v2 I). f_equal. eapply C; [right; eauto | left; eauto].
      * rewrite N3 by auto. rewrite dict_set_get, slicend_eqb_refl; auto.
    + intros k' H. rewrite N3 by tauto. rewrite dict_set_get, slicend_eqb_neq; auto.
Qed.

Lemma fill_nested {A T} (g : A -> list slicend) (v : A -> T) l c :
  fold_left (fun d p => fold_left (fun d sub => dict_set d sub (v p)) (g p) d) l c =
  fold_left (fun d p => dict_set d (fst p) (snd p))
            (flat_map (fun p => map (fun sub => (sub, v p)) (g p)) l) c.
Proof.
  revert c. induction l as [|p l IH]; intros c; simpl; auto. rewrite fold_left_app, IH. f_equal.
  generalize (g p). intros q. revert c. induction q; simpl; auto.
Qed.

(** ** Sorting slices *)
Lemma leb_total a b : slicend_leb a b = true \/ slicend_leb b a = true.
Proof.
  revert b. induction a as [|[x y] a IH]; intros [|[u v] b]; simpl; auto.
  destruct (x <? u) eqn:E1, (u <? x) eqn:E2, (y <? v) eqn:E3, (v <? y) eqn:E4; auto.
Qed.
Lemma leb_refl a : slicend_leb a a = true.
Proof. destruct (leb_total a a); auto. Qed.
Lemma leb_antisym a b : slicend_leb a b = true -> slicend_leb b a = true -> a = b.
Proof.
  revert b. induction a as [|[x y] a IH]; intros [|[u v] b]; simpl; auto; try discriminate.
  destruct (x <? u) eqn:E1, (u <? x) eqn:E2, (y <? v) eqn:E3, (v <? y) eqn:E4; try discriminate;
  rewrite ?Nat.ltb_lt, ?Nat.ltb_ge in *; try lia.
  intros. f_equal; [f_equal; lia | auto].
Qed.
Lemma leb_trans a b c : slicend_leb a b = true -> slicend_leb b c = true -> slicend_leb a c = true.
Proof.
  revert b c. induction a as [|[x y] a IH]; intros [|[u v] b] [|[s t] c]; simpl; auto; try discriminate.
  destruct (x <? u) eqn:E1, (u <? x) eqn:E2, (y <? v) eqn:E3, (v <? y) eqn:E4,
           (u <? s) eqn:E5, (s <? u) eqn:E6, (v <? t) eqn:E7, (t <? v) eqn:E8,
           (x <? s) eqn:E9, (s <? x) eqn:E10, (y <? t) eqn:E11, (t <? y) eqn:E12; try discriminate; auto;
  rewrite ?Nat.ltb_lt, ?Nat.ltb_ge in *; try lia; eauto.
Qed.

Lemma insert_perm x l : Permutation (insert_slicend x l) (x :: l).
Proof.
  induction l as [|y l IH]; simpl; auto. destruct (slicend_leb x y); auto.
  rewrite IH. apply perm_swap.
Qed.
Lemma sort_slicends_perm l : Permutation (sort_slicends l) l.
Proof. unfold sort_slicends. induction l as [|x l IH]; simpl; auto. rewrite insert_perm, IH; auto. Qed.

Definition leP a b := slicend_leb a b = true.
Lemma insert_sorted x l : StronglySorted leP l -> StronglySorted leP (insert_slicend x l).
Proof.
  induction 1 as [|y l S IH F]; simpl. { repeat constructor. }
  destruct (slicend_leb x y) eqn:E.
  - constructor. constructor; auto. constructor; auto. eapply Forall_impl; [|exact F].
    intros z Hz. eapply leb_trans; eauto.
  - constructor; auto. rewrite insert_perm. constructor; auto.
    unfold leP. destruct (leb_total x y); congruence.
Qed.
Lemma sort_slicends_sorted l : StronglySorted leP (sort_slicends l).
Proof. unfold sort_slicends. induction l; simpl. constructor. apply insert_sorted; auto. Qed.

Lemma sorted_unique l l' : StronglySorted leP l -> StronglySorted leP l' -> Permutation l l' -> l = l'.
Proof.
  intros S. revert l'. induction S as [|x l S IH F]; intros l' S' P.
  - apply Permutation_nil in P; auto.
  - destruct l' as [|y l']. { apply Permutation_sym, Permutation_nil in P; discriminate. }
    inversion S'; subst.
    assert (x = y).
    { apply leb_antisym.
      - assert (In y (x :: l)) as [->|I] by (eapply Permutation_in; [apply Permutation_sym; eauto | left; auto]).
        apply leb_refl. rewrite Forall_forall in F. apply F; auto.
      - assert (In x (y :: l')) as [->|I] by (eapply Permutation_in; [eauto | left; auto]).
        apply leb_refl. rewrite Forall_forall in H2. apply H2; auto. }
    subst. f_equal. apply IH; auto. eapply Permutation_cons_inv; eauto.
Qed.
Lemma sort_slicends_eq l l' : Permutation l l' -> sort_slicends l = sort_slicends l'.
Proof.
  intros P. apply sorted_unique; try apply sort_slicends_sorted.
  rewrite !sort_slicends_perm. auto.
Qed.
Lemma sort_slicends_id l : sort_slicends (sort_slicends l) = sort_slicends l.
Proof. apply sort_slicends_eq. apply sort_slicends_perm. Qed.

(** ** The map from chunks to array shards *)
Section Leaf.
  Context {V : Type}.
  Variable P : nat.
  Variable mcb : option Z.

  Definition slice_of (lf : leaf V) (sh : shard) : slicend :=
    match shard_index_to_slicend (sh_index sh) (lf_shape lf) with Ok s => s | Raise _ => [] end.
  Definition limit_of (lf : leaf V) := max_items_of mcb (lf_itemsize lf).

  (** All (chunk, group of replicas) pairs. *)
  Definition chunk_of (lf : leaf V) (c : slicend) (l : list shard) : Prop :=
    exists g, In c (split_slicend g (limit_of lf)) /\
      l = filter (fun sh => slicend_eqb (slice_of lf sh) g) (lf_shards lf) /\ l <> [].

  Lemma slice_of_ok (lf : leaf V) sh : good_leaf P lf -> In sh (lf_shards lf) ->
    shard_index_to_slicend (sh_index sh) (lf_shape lf) = Ok (slice_of lf sh) /\
    nonempty (slice_of lf sh) /\ map fst (slice_of lf sh) = origin (sh_index sh) /\
    length (slice_of lf sh) = length (lf_shape lf) /\
    (forall x, within x (slice_of lf sh) <-> in_shape x (lf_shape lf) /\ selected x (sh_index sh)).
  Proof.
    intros G H. destruct (shard_index_ok (lf_shape lf) (sh_index sh)) as [s [E [N [O [L [_ W]]]]]].
    apply (gl_valid _ _ G); auto. unfold slice_of. rewrite E. auto.
  Qed.

  (** Shards sharing an element have the same slice. *)
  Lemma slice_replica (lf : leaf V) sh sh' x : good_leaf P lf -> In sh (lf_shards lf) -> In sh' (lf_shards lf) ->
    within x (slice_of lf sh) -> within x (slice_of lf sh') -> slice_of lf sh = slice_of lf sh'.
  Proof.
    intros G H H' Wx Wx'. destruct (slice_of_ok lf sh G H) as [_ [N [_ [_ W]]]].
    destruct (slice_of_ok lf sh' G H') as [_ [N' [_ [_ W']]]].
    apply W in Wx. apply W' in Wx'. destruct Wx as [X1 X2], Wx' as [_ X3].
    apply box_ext; auto. intros y. rewrite W, W'.
    split; intros [Y1 Y2]; split; auto.
    - eapply (gl_replica _ _ G sh sh' x); eauto.
    - eapply (gl_replica _ _ G sh' sh x); eauto.
  Qed.

  Lemma group_nonempty (lf : leaf V) g :
    filter (fun sh => slicend_eqb (slice_of lf sh) g) (lf_shards lf) <> [] <->
    exists sh, In sh (lf_shards lf) /\ slice_of lf sh = g.
  Proof.
    split.
    - intros H. destruct (filter _ _) as [|sh l] eqn:E; [congruence|].
      assert (In sh (filter (fun sh => slicend_eqb (slice_of lf sh) g) (lf_shards lf))) as I by (rewrite E; left; auto).
      apply filter_In in I. exists sh. rewrite <- slicend_eqb_spec. auto.
    - intros [sh [I E]] H. assert (In sh []) as []. rewrite <- H. apply filter_In. split; auto. apply slicend_eqb_spec; auto.
  Qed.

  Lemma chunk_of_fun (lf : leaf V) c l l' : good_leaf P lf -> chunk_of lf c l -> chunk_of lf c l' -> l = l'.
  Proof.
    intros G [g [I [E N]]] [g' [I' [E' N']]]. subst.
    apply group_nonempty in N. apply group_nonempty in N'.
    destruct N as [sh [Hs Eg]], N' as [sh' [Hs' Eg']]. subst.
    destruct (slice_of_ok lf sh G Hs) as [_ [Ne _]]. destruct (slice_of_ok lf sh' G Hs') as [_ [Ne' _]].
    destruct (split_slicend_spec _ (limit_of lf) Ne) as [_ [W [NE _]]].
    destruct (split_slicend_spec _ (limit_of lf) Ne') as [_ [W' [NE' _]]].
    destruct (NE c I) as [Nc _]. pose proof (nonempty_lo _ Nc) as X.
    rewrite (slice_replica lf sh sh' (map fst c)); auto; [apply W | apply W']; eauto.
  Qed.

  Lemma create_map_spec (lf : leaf V) : good_leaf P lf ->
    exists d, create_map_slicend_to_array_shards lf mcb = Ok d /\ NoDup (map fst d) /\
      forall c l, dict_get d c = Some l <-> chunk_of lf c l.
  Proof.
    intros G. unfold create_map_slicend_to_array_shards.
    assert (R : forall l d, (forall sh, In sh l -> In sh (lf_shards lf)) ->
      rfold (fun d sh => bind (shard_index_to_slicend (sh_index sh) (lf_shape lf))
                             (fun s => Ok (dict_append d s sh))) l d =
      Ok (fold_left (fun d sh => dict_append d (slice_of lf sh) sh) l d)).
    { induction l as [|sh l IH]; intros d Hl; simpl; auto.
      destruct (slice_of_ok lf sh G) as [E _]. { apply Hl; left; auto. }
      rewrite E. simpl. apply IH. intros; apply Hl; right; auto. }
    rewrite R by auto. clear R. simpl.
    destruct (group_spec (slice_of lf) (lf_shards lf) _ eq_refl) as [ND Gr].
    set (groups := fold_left (fun d sh => dict_append d (slice_of lf sh) sh) (lf_shards lf) []) in *.
    eexists. split; [reflexivity|].
    fold (limit_of lf). rewrite (fill_nested (fun p => split_slicend (fst p) (limit_of lf)) snd groups []).
    set (pairs := flat_map _ groups).
    assert (Pin : forall c l, In (c, l) pairs <-> chunk_of lf c l).
    { intros c l. unfold pairs. rewrite in_flat_map. split.
      - intros [[g l'] [I1 I2]]. apply in_map_iff in I2. destruct I2 as [c' [E I2]].
        injection E as -> <-. simpl in *. apply dict_in_get in I1; auto. rewrite Gr in I1.
        exists g. split; auto. destruct (filter _ _); [discriminate|]. injection I1 as <-.
        split; auto. discriminate.
      - intros [g [I [E N]]]. exists (g, l). split.
        + apply dict_get_in. rewrite Gr, <- E. destruct l; congruence.
        + apply in_map_iff. exists c; auto. }
    destruct (fill_spec pairs []) as [N1 [N2 N3]].
    { intros k v v' H1 H2. apply Pin in H1, H2. eapply chunk_of_fun; eauto. }
    { constructor. }
    split; auto. intros c l. split.
    - intros H. destruct (in_dec slicend_dec c (map fst pairs)) as [I|I].
      + apply in_map_iff in I. destruct I as [[c' l'] [E I]]. simpl in E; subst.
        rewrite (N2 c l' I) in H. injection H as <-. apply Pin; auto.
      + rewrite N3 in H by auto. discriminate.
    - intros H. apply N2. apply Pin; auto.
  Qed.
End Leaf.

(** ** Placement *)
Lemma find_smallest_spec P bytes procs ck :
  find_smallest_ckpt_shard P bytes procs = Some ck ->
  ck < length bytes /\ In (ck mod P) procs /\
  forall j, j < length bytes -> In (j mod P) procs ->
    nth ck bytes 0 < nth j bytes 0 \/ (nth ck bytes 0 = nth j bytes 0 /\ ck <= j).
Proof.
  unfold find_smallest_ckpt_shard. intros H.
  set (cmp := fun i j => nth i bytes 0 <=? nth j bytes 0) in *.
  assert (tot : forall i j, cmp i j = true \/ cmp j i = true).
  { intros. unfold cmp. rewrite !Nat.leb_le. lia. }
  assert (tr : forall i j k, cmp i j = true -> cmp j k = true -> cmp i k = true).
  { intros i j k. unfold cmp. rewrite !Nat.leb_le. lia. }
  pose proof (sort_idx_sorted cmp tot tr (length bytes)) as SS.
  assert (EI : forall i, existsb (Nat.eqb (i mod P)) procs = true <-> In (i mod P) procs).
  { intros i. rewrite existsb_exists. split.
    - intros [q [I E]]. apply Nat.eqb_eq in E. rewrite E; auto.
    - intros I. exists (i mod P). split; auto. apply Nat.eqb_refl. }
  assert (I : In ck (sort_idx cmp (length bytes))) by (eapply find_some; eauto).
  pose proof (find_some _ _ H) as [_ E]. apply EI in E.
  split; [apply sort_idx_in in I; auto|]. split; auto.
  intros j Hj Ej. apply (sort_idx_in cmp) in Hj. apply EI in Ej.
  revert H Hj SS. generalize (sort_idx cmp (length bytes)) as l. induction l as [|a l IH]; simpl; [discriminate|].
  intros H Hj SS. inversion SS as [|? ? S1 F]; subst.
  destruct (existsb (Nat.eqb (a mod P)) procs) eqn:Ea.
  - injection H as ->. destruct Hj as [->|Hj]; [right; lia|].
    rewrite Forall_forall in F. specialize (F j Hj). destruct F as [F1 F2]. unfold cmp in *.
    apply Nat.leb_le in F1. destruct (Nat.eq_dec (nth ck bytes 0) (nth j bytes 0)); [right|left; lia].
    split; auto. apply Nat.lt_le_incl. apply F2. apply Nat.leb_le. lia.
  - destruct Hj as [->|Hj]; [congruence|]. auto.
Qed.

Lemma find_smallest_some P bytes procs p : 0 < P -> P <= length bytes -> In p procs -> p < P ->
  exists ck, find_smallest_ckpt_shard P bytes procs = Some ck.
Proof.
  intros HP HL I Hp. unfold find_smallest_ckpt_shard.
  destruct (find _ _) as [ck|] eqn:E; eauto. exfalso.
  pose proof (find_none _ _ E p) as N. simpl in N.
  assert (existsb (Nat.eqb (p mod P)) procs = true) as T.
  { apply existsb_exists. exists p. rewrite Nat.mod_small by auto. split; auto. apply Nat.eqb_refl. }
  rewrite N in T; [discriminate|]. apply sort_idx_in; lia.
Qed.

Lemma find_smallest_ext P bytes procs procs' : (forall p, In p procs <-> In p procs') ->
  find_smallest_ckpt_shard P bytes procs = find_smallest_ckpt_shard P bytes procs'.
Proof.
  intros H. unfold find_smallest_ckpt_shard. generalize (sort_idx (fun i j => nth i bytes 0 <=? nth j bytes 0) (length bytes)).
  assert (E : forall i, existsb (Nat.eqb i) procs = existsb (Nat.eqb i) procs').
  { intros i. apply eq_true_iff_eq. rewrite !existsb_exists. split; intros [q [Q1 Q2]]; exists q; split; auto; apply H; auto. }
  induction l as [|a l IH]; simpl; auto. rewrite E, IH; auto.
Qed.

Lemma add_nth_length i n l : length (add_nth i n l) = length l.
Proof. revert i. induction l; intros [|i]; simpl; auto. Qed.
Lemma add_nth_nth i n l k : i < length l -> nth k (add_nth i n l) 0 = nth k l 0 + (if i =? k then n else 0).
Proof.
  revert i k. induction l as [|x l IH]; intros i k H; simpl in *; [lia|].
  destruct i, k; simpl; try lia. apply IH. lia.
Qed.

(** Bytes put in shard [k] by an assignment. *)
Definition load (isz : nat) (a : list (slicend * nat)) (k : nat) : nat :=
  fold_right (fun p n => (if snd p =? k then volume (fst p) * isz else 0) + n) 0 a.
Lemma load_app isz a b k : load isz (a ++ b) k = load isz a k + load isz b k.
Proof. induction a as [|p a IH]; simpl; auto. rewrite IH. lia. Qed.

(** Each chunk is put on the smallest shard that the processes [procs] of its slice own. *)
Definition greedy (P isz : nat) (bytes : list nat) (procs : slicend -> list nat)
  (a : list (slicend * nat)) : Prop :=
  forall a1 sl ck a2, a = a1 ++ (sl, ck) :: a2 ->
    ck < length bytes /\ In (ck mod P) (procs sl) /\
    forall j, j < length bytes -> In (j mod P) (procs sl) ->
      nth ck bytes 0 + load isz a1 ck < nth j bytes 0 + load isz a1 j \/
      (nth ck bytes 0 + load isz a1 ck = nth j bytes 0 + load isz a1 j /\ ck <= j).

Definition procs_of (d : list (slicend * list shard)) (sl : slicend) : list nat :=
  map sh_proc (match dict_get d sl with Some l => l | None => [] end).

Definition place_step P isz (procs : slicend -> list nat) (st : list nat * list (slicend * nat)) sl :=
  match find_smallest_ckpt_shard P (fst st) (procs sl) with
  | None => Raise IndexError
  | Some ck => Ok (add_nth ck (prod (slice_sizes sl) * isz) (fst st), snd st ++ [(sl, ck)])
  end.

Lemma place_run P isz procs : 0 < P -> forall ks bytes acc, P <= length bytes ->
  (forall sl, In sl ks -> exists p, In p (procs sl) /\ p < P) ->
  exists bytes' a, rfold (place_step P isz procs) ks (bytes, acc) = Ok (bytes', acc ++ a) /\
    map fst a = ks /\ length bytes' = length bytes /\
    (forall k, nth k bytes' 0 = nth k bytes 0 + load isz a k) /\ greedy P isz bytes procs a.
Proof.
  intros HP. induction ks as [|sl ks IH]; intros bytes acc HL Hk; simpl.
  - exists bytes, []. rewrite app_nil_r. repeat split; auto; try (simpl; intros; lia);
    destruct a1; discriminate.
  - destruct (Hk sl) as [p [Ip Hp]]; [left; auto|].
    destruct (find_smallest_some P bytes (procs sl) p HP HL Ip Hp) as [ck E].
    assert (place_step P isz procs (bytes, acc) sl =
            Ok (add_nth ck (prod (slice_sizes sl) * isz) bytes, acc ++ [(sl, ck)])) as ->
      by (unfold place_step; simpl; rewrite E; auto).
    simpl bind.
    pose proof (find_smallest_spec _ _ _ _ E) as [C1 [C2 C3]].
    destruct (IH (add_nth ck (prod (slice_sizes sl) * isz) bytes) (acc ++ [(sl, ck)])) as [b' [a [R [K [L [N Gr]]]]]].
    { rewrite add_nth_length; auto. } { intros; apply Hk; right; auto. }
    exists b', ((sl, ck) :: a). rewrite R, <- app_assoc. simpl. rewrite add_nth_length in L.
    split; [auto|]. split; [congruence|]. split; [auto|]. split.
    + intros k. rewrite N, add_nth_nth by auto. rewrite prod_volume. lia.
    + intros a1 sl' ck' a2 EQ. destruct a1 as [|q a1]; simpl in EQ.
      * injection EQ as <- <- _. simpl. split; [auto|split; [auto|]]. intros j Hj Ej. rewrite !Nat.add_0_r. auto.
      * injection EQ as <- EQ. destruct (Gr a1 sl' ck' a2 EQ) as [G1 [G2 G3]].
        rewrite add_nth_length in *. split; [auto|split; [auto|]]. intros j Hj Ej. specialize (G3 j Hj Ej).
        rewrite !add_nth_nth in G3 by auto. rewrite prod_volume in G3. simpl. lia.
Qed.

Lemma rfold_ext {T U} (f g : U -> T -> res U) l u : (forall u x, In x l -> f u x = g u x) -> rfold f l u = rfold g l u.
Proof.
  revert u. induction l as [|x l IH]; intros u H; simpl; auto. rewrite H by (left; auto).
  destruct (g u x); simpl; auto. apply IH. intros; apply H; right; auto.
Qed.

Section Save.
  Context {V : Type}.
  Variable P : nat.
  Variable mcb : option Z.
  Hypothesis HP : 0 < P.

  Notation chunk_of := (@chunk_of V mcb).
  Notation limit_of := (@limit_of V mcb).

  (** [c] is a chunk of shard [sh] of the leaf. *)
  Definition chunk_in (lf : leaf V) (c : slicend) (sh : shard) : Prop :=
    In sh (lf_shards lf) /\ In c (split_slicend (slice_of lf sh) (limit_of lf)).

  Lemma chunk_of_in (lf : leaf V) c l : chunk_of lf c l ->
    l <> [] /\ forall sh, In sh l -> chunk_in lf c sh.
  Proof using.
    clear HP. intros [g [I [-> N]]]. split; auto. intros sh Hs. apply filter_In in Hs. destruct Hs as [H1 H2].
    apply slicend_eqb_spec in H2. subst. split; auto.
  Qed.

  Lemma chunk_in_of (lf : leaf V) c sh : chunk_in lf c sh -> exists l, chunk_of lf c l /\ In sh l.
  Proof using.
    clear HP. intros [I S]. exists (filter (fun s => slicend_eqb (slice_of lf s) (slice_of lf sh)) (lf_shards lf)).
    assert (In sh (filter (fun s => slicend_eqb (slice_of lf s) (slice_of lf sh)) (lf_shards lf))) as J.
    { apply filter_In. split; auto. apply slicend_eqb_refl. }
    split; auto. exists (slice_of lf sh). split; auto. split; auto. intros E; rewrite E in J; contradiction.
  Qed.

  Definition leaf_assign (lf : leaf V) (bytes : list nat) : res (list nat * list (slicend * nat)) :=
    bind (create_map_slicend_to_array_shards lf mcb)
         (fun d => create_map_slicend_to_ckpt_shard P d (lf_itemsize lf) bytes).

  (** Processes holding a chunk. *)
  Definition holder (lf : leaf V) (c : slicend) (p : nat) : Prop :=
    exists sh, chunk_in lf c sh /\ sh_proc sh = p.

  Lemma leaf_assign_ok (lf : leaf V) bytes : good_leaf P lf -> P <= length bytes ->
    exists d bytes' a,
      create_map_slicend_to_array_shards lf mcb = Ok d /\
      create_map_slicend_to_ckpt_shard P d (lf_itemsize lf) bytes = Ok (bytes', a) /\
      NoDup (map fst d) /\ (forall c l, dict_get d c = Some l <-> chunk_of lf c l) /\
      map fst a = sort_slicends (map fst d) /\
      length bytes' = length bytes /\
      (forall k, nth k bytes' 0 = nth k bytes 0 + load (lf_itemsize lf) a k) /\
      greedy P (lf_itemsize lf) bytes (procs_of d) a.
  Proof using HP.
    intros G HL. destruct (create_map_spec P mcb lf G) as [d [E [ND GET]]].
    destruct (place_run P (lf_itemsize lf) (procs_of d) HP (sort_slicends (map fst d)) bytes [] HL) as [b' [a [R [K [L [N Gr]]]]]].
    - intros sl I. apply (Permutation_in _ (sort_slicends_perm _)) in I.
      apply in_map_iff in I. destruct I as [[sl' l] [E' I]]. simpl in E'; subst sl'.
      apply dict_in_get in I; auto. pose proof I as I2. apply GET in I2. apply chunk_of_in in I2. destruct I2 as [Ne All].
      destruct l as [|sh l]; [congruence|]. exists (sh_proc sh). unfold procs_of. rewrite I. split; [left; auto|].
      destruct (All sh) as [S _]; [left; auto|]. apply (gl_proc _ _ G); auto.
    - exists d, b', a. split; [auto|]. split; [exact R|]. auto 10.
  Qed.

  Lemma procs_of_holder (lf : leaf V) d c p : good_leaf P lf ->
    (forall c l, dict_get d c = Some l <-> chunk_of lf c l) ->
    In p (procs_of d c) <-> holder lf c p.
  Proof using.
    clear HP. intros G GET. unfold procs_of, holder. split.
    - intros I. apply in_map_iff in I. destruct I as [sh [E I]].
      destruct (dict_get d c) as [l|] eqn:D; [|contradiction]. apply GET in D. apply chunk_of_in in D.
      exists sh. split; auto. apply D; auto.
    - intros [sh [H E]]. destruct (chunk_in_of lf c sh H) as [l [C I]]. apply GET in C. rewrite C.
      apply in_map_iff. exists sh; auto.
  Qed.

  Lemma keys_iff (lf : leaf V) d c : NoDup (map fst d) ->
    (forall c l, dict_get d c = Some l <-> chunk_of lf c l) ->
    In c (map fst d) <-> exists sh, chunk_in lf c sh.
  Proof using.
    clear HP. intros ND GET. split.
    - intros I. apply in_map_iff in I. destruct I as [[c' l] [E I]]. simpl in E; subst.
      apply dict_in_get in I; auto. apply GET in I. apply chunk_of_in in I. destruct I as [N A].
      destruct l as [|sh l]; [congruence|]. exists sh. apply A; left; auto.
    - intros [sh H]. destruct (chunk_in_of lf c sh H) as [l [C I]]. apply GET in C. apply dict_get_in in C.
      apply in_map_iff. exists (c, l); auto.
  Qed.

  Lemma same_array_sym (a b : leaf V) : same_array a b -> same_array b a.
  Proof using. clear HP. intros [? [? [? ?]]]. repeat split; auto. apply Permutation_sym; auto. Qed.

  Lemma slice_of_same (a b : leaf V) sh : same_array a b -> slice_of a sh = slice_of b sh.
  Proof using. clear HP. intros [E _]. unfold slice_of. rewrite E; auto. Qed.

  Lemma same_in (a b : leaf V) sh : same_array a b -> In sh (lf_shards a) <-> In sh (lf_shards b).
  Proof using. clear HP. intros [_ [_ [_ Pm]]]. split; apply Permutation_in; auto. apply Permutation_sym; auto. Qed.

  Lemma good_same (a b : leaf V) : same_array a b -> good_leaf P b -> good_leaf P a.
  Proof using.
    clear HP. intros S G. pose proof (fun sh => same_in a b sh S) as I. destruct S as [E1 [E2 [E3 _]]].
    constructor.
    - rewrite E2. apply G.
    - intros sh H. rewrite E1. apply (gl_valid _ _ G). apply I; auto.
    - intros sh H. apply (gl_proc _ _ G). apply I; auto.
    - intros x H. rewrite E1 in H. destruct (gl_cover _ _ G x H) as [sh [H1 H2]]. exists sh. split; auto. apply I; auto.
    - intros sh sh' x H1 H2. rewrite E1. apply (gl_replica _ _ G); apply I; auto.
  Qed.

  Lemma chunk_in_same (a b : leaf V) c sh : same_array a b -> chunk_in a c sh <-> chunk_in b c sh.
  Proof using.
    clear HP. intros S. unfold chunk_in, CkptSave.limit_of. rewrite (same_in a b sh S), (slice_of_same a b sh S).
    destruct S as [_ [-> _]]. tauto.
  Qed.

  Lemma leaf_assign_same (a b : leaf V) bytes : same_array a b -> good_leaf P b -> P <= length bytes ->
    leaf_assign a bytes = leaf_assign b bytes.
  Proof using HP.
    intros S Gb HL. pose proof (good_same a b S Gb) as Ga. unfold leaf_assign.
    destruct (create_map_spec P mcb a Ga) as [d [E [ND GET]]].
    destruct (create_map_spec P mcb b Gb) as [d' [E' [ND' GET']]].
    rewrite E, E'. simpl. unfold create_map_slicend_to_ckpt_shard.
    rewrite (sort_slicends_eq (map fst d) (map fst d')).
    - replace (lf_itemsize a) with (lf_itemsize b) by (symmetry; apply S). apply rfold_ext. intros u sl _.
      fold (procs_of d sl). fold (procs_of d' sl).
      rewrite (find_smallest_ext P (fst u) (procs_of d sl) (procs_of d' sl)); auto.
      intros p. rewrite (procs_of_holder a d), (procs_of_holder b d'); auto.
      unfold holder. split; intros [sh [H1 H2]]; exists sh; split; auto; eapply chunk_in_same; eauto; apply same_array_sym; auto.
    - apply NoDup_Permutation; auto. intros c.
      rewrite (keys_iff a d c ND GET), (keys_iff b d' c ND' GET').
      split; intros [sh H]; exists sh; eapply chunk_in_same; eauto; apply same_array_sym; auto.
  Qed.

  (** The data of a chunk is that of the array. *)
  Definition chunk_ok (lf : leaf V) (c : chunk V) : Prop :=
    forall x, within x (ch_slice c) -> ch_data c (idx_sub x (map fst (ch_slice c))) = lf_value lf x.

  Lemma chunk_in_within (lf : leaf V) c sh x : good_leaf P lf -> chunk_in lf c sh -> within x c -> within x (slice_of lf sh).
  Proof using.
    clear HP. intros G [I S] W. destruct (slice_of_ok P lf sh G I) as [_ [N _]].
    apply (split_slicend_spec _ (limit_of lf) N). eauto.
  Qed.

  Lemma chunk_in_nonempty (lf : leaf V) c sh : good_leaf P lf -> chunk_in lf c sh ->
    nonempty c /\ length c = length (lf_shape lf).
  Proof using.
    clear HP. intros G [I S]. destruct (slice_of_ok P lf sh G I) as [_ [N [_ [L _]]]].
    destruct (split_slicend_spec _ (limit_of lf) N) as [_ [_ [H _]]]. destruct (H c S). split; auto; congruence.
  Qed.

  Lemma starts_le (c g : slicend) (idx : list pyslice) : within (map fst c) g -> map fst g = origin idx ->
    Forall2 (fun (s : pyslice) (p : cslice) => or0 (fst s) <= fst p) idx c.
  Proof using.
    clear HP. revert g idx. induction c as [|q c IH]; intros g idx W O; simpl in W.
    - inversion W; subst. destruct idx; [constructor|simpl in O; discriminate].
    - destruct g as [|p g]; [inversion W|]. apply F2_cons in W. destruct W as [W1 W2].
      simpl in O. destruct idx as [|s idx]; [discriminate|]. simpl in O. injection O as O1 O2. constructor; eauto.
      unfold or0. rewrite <- O1. lia.
  Qed.

  Lemma g2l_arith sh (c : slicend) x : Forall2 (fun (s : pyslice) (p : cslice) => or0 (fst s) <= fst p) (sh_index sh) c -> within x c ->
    exists loc, global2local sh c = Ok loc /\
    idx_add (map (fun s => or0 (fst s)) (sh_index sh)) (idx_add (map fst loc) (idx_sub x (map fst c))) = x.
  Proof using.
    clear HP. unfold global2local. generalize (sh_index sh). intros idx0 F. revert x. induction F as [|s p idx c H F IH]; intros x W; simpl.
    - inversion W; subst. exists []. auto.
    - apply F2_cons_r in W. destruct W as [n [x' [-> [W1 W2]]]]. destruct (IH x' W2) as [loc [E A]].
      destruct (safe_zip idx c) as [z|]; simpl in *; [|discriminate]. injection E as <-.
      eexists. split; [reflexivity|]. unfold idx_add, idx_sub in *. simpl. f_equal; [lia|]. exact A.
  Qed.

  Lemma local_data_ok (lf : leaf V) i c sh : good_leaf P lf -> chunk_in lf c sh ->
    exists loc, global2local sh c = Ok loc /\
    chunk_ok lf {| ch_leaf := i; ch_data := slice_array (shard_data lf sh) loc; ch_slice := c |}.
  Proof using.
    clear HP. intros G C.
    destruct (slice_of_ok P lf sh G) as [Es [N [O [L Wi]]]]; [apply C|].
    destruct (chunk_in_nonempty lf c sh G C) as [Nc Lc].
    pose proof (starts_le c _ _ (chunk_in_within lf c sh _ G C (nonempty_lo _ Nc)) O) as F.
    destruct (g2l_arith sh c _ F (nonempty_lo _ Nc)) as [loc [E _]]. exists loc. split; auto.
    intros x W. simpl in *. unfold slice_array, shard_data. f_equal.
    destruct (g2l_arith sh c x F W) as [loc' [E' A]]. congruence.
  Qed.

  Definition key3 (kc : nat * chunk V) := (fst kc, ch_leaf (snd kc), ch_slice (snd kc)).

  Lemma update_chunks_ok (lf : leaf V) p i d a : good_leaf P lf ->
    (forall c l, dict_get d c = Some l <-> chunk_of lf c l) ->
    (forall c k, In (c, k) a -> In (k mod P) (procs_of d c)) ->
    exists new, update_chunks_with_leaf P p i lf d a = Ok new /\
      map key3 new = map (fun ck => (snd ck, i, fst ck)) (filter (fun ck => snd ck mod P =? p) a) /\
      Forall (fun kc => chunk_ok lf (snd kc)) new.
  Proof using.
    clear HP. intros G GET H. unfold update_chunks_with_leaf.
    match goal with |- exists new, rfold ?f a [] = _ /\ _ => set (step := f) end.
    assert (R : forall acc, exists new, rfold step a acc = Ok (acc ++ new) /\
      map key3 new = map (fun ck => (snd ck, i, fst ck)) (filter (fun ck => snd ck mod P =? p) a) /\
      Forall (fun kc => chunk_ok lf (snd kc)) new).
    { induction a as [|[c k] a IH]; intros acc.
      - exists []. simpl. rewrite app_nil_r. auto.
      - cbn [rfold filter snd fst]. specialize (IH (fun c' k' Hin => H c' k' (or_intror Hin))).
        destruct (k mod P =? p) eqn:E.
        + pose proof E as E'. apply Nat.eqb_eq in E'. pose proof (H c k (or_introl eq_refl)) as I. unfold procs_of in I.
          apply in_map_iff in I. destruct I as [sh0 [E0 I]].
          destruct (dict_get d c) as [l|] eqn:D; [|contradiction]. pose proof D as D'. apply GET in D. apply chunk_of_in in D. destruct D as [_ D].
          destruct (find (fun sh => sh_proc sh =? p) l) as [sh|] eqn:F.
          2:{ exfalso. pose proof (find_none _ _ F sh0 I) as N. simpl in N. rewrite E0, E', Nat.eqb_refl in N. discriminate. }
          pose proof F as F'. apply find_some in F. destruct F as [F1 F2].
          destruct (local_data_ok lf i c sh G (D sh F1)) as [loc [El Ok1]].
          assert (step acc (c, k) = Ok (acc ++ [(k, {| ch_leaf := i;
                                  ch_data := slice_array (shard_data lf sh) loc;
                                  ch_slice := c |})])) as ->.
          { unfold step. rewrite E, D', F', El. reflexivity. }
          cbn [bind].
          destruct (IH (acc ++ [(k, {| ch_leaf := i;
                                  ch_data := slice_array (shard_data lf sh) loc;
                                  ch_slice := c |})])) as [new [R [K O]]].
          rewrite R, <- app_assoc. eexists. split; [reflexivity|]. split.
          * simpl. rewrite K. reflexivity.
          * constructor; auto.
        + assert (step acc (c, k) = Ok acc) as -> by (unfold step; rewrite E; auto). apply IH. }
    destruct (R []) as [new Q]. exists new. exact Q.
  Qed.

  (** The layout of all leaves. *)
  Fixpoint layout (leaves : list (leaf V)) (bytes : list nat)
    : res (list nat * list (list (slicend * nat))) :=
    match leaves with
    | [] => Ok (bytes, [])
    | lf :: r => bind (leaf_assign lf bytes) (fun ba =>
                 bind (layout r (fst ba)) (fun st => Ok (fst st, snd ba :: snd st)))
    end.

  Record asg_ok (lf : leaf V) (n : nat) (a : list (slicend * nat)) : Prop := {
    ao_nodup : NoDup (map fst a);
    ao_sorted : sort_slicends (map fst a) = map fst a;
    ao_keys : forall c, In c (map fst a) <-> exists sh, chunk_in lf c sh;
    ao_holder : forall c k, In (c, k) a -> k < n /\ holder lf c (k mod P) }.

  (** Greedy placement over the whole checkpoint, leaf by leaf. *)
  Fixpoint greedy_all (leaves : list (leaf V)) (bytes : list nat)
    (asgs : list (list (slicend * nat))) : Prop :=
    match leaves, asgs with
    | lf :: r, a :: asgs =>
        (exists procs, (forall c p, In c (map fst a) -> In p (procs c) <-> holder lf c p) /\
                       greedy P (lf_itemsize lf) bytes procs a) /\
        exists bytes', length bytes' = length bytes /\
          (forall k, nth k bytes' 0 = nth k bytes 0 + load (lf_itemsize lf) a k) /\
          greedy_all r bytes' asgs
    | [], [] => True
    | _, _ => False
    end.

  Definition keys_of (p off : nat) (asgs : list (list (slicend * nat))) :=
    flat_map (fun ia => map (fun ck => (snd ck, fst ia, fst ck))
                            (filter (fun ck => snd ck mod P =? p) (snd ia)))
             (combine (seq off (length asgs)) asgs).

  Definition infos_of (asgs : list (list (slicend * nat))) (leaves : list (leaf V)) :=
    map (fun al => make_index_info (fst al) (lf_shape (snd al))) (combine asgs leaves).

  Lemma save_loop p : forall leaves off bytes idx chunks,
    Forall (good_leaf P) leaves -> P <= length bytes ->
    exists bytes' asgs new,
      rfold (save_step P p mcb) (combine (seq off (length leaves)) leaves) (bytes, idx, chunks)
      = Ok (bytes', idx ++ infos_of asgs leaves, chunks ++ new) /\
      layout leaves bytes = Ok (bytes', asgs) /\
      length bytes' = length bytes /\
      Forall2 (fun lf a => asg_ok lf (length bytes) a) leaves asgs /\
      greedy_all leaves bytes asgs /\
      map key3 new = keys_of p off asgs /\
      Forall (fun kc => exists lf, nth_error leaves (ch_leaf (snd kc) - off) = Some lf /\
                                   off <= ch_leaf (snd kc) /\ chunk_ok lf (snd kc)) new.
  Proof using HP.
    induction leaves as [|lf leaves IH]; intros off bytes idx chunks F HL.
    - exists bytes, [], []. simpl. rewrite !app_nil_r. repeat split; auto.
    - inversion F as [|? ? G F']; subst.
      destruct (leaf_assign_ok lf bytes G HL) as [d [b1 [a [E1 [E2 [ND [GET [K [L [Ld Gr]]]]]]]]]].
      assert (HA : forall c k, In (c, k) a -> k < length bytes /\ In (k mod P) (procs_of d c)).
      { intros c k I. apply in_split in I. destruct I as [l1 [l2 I]].
        destruct (Gr _ _ _ _ I) as [A1 [A2 _]]. auto. }
      destruct (update_chunks_ok lf p off d a G GET (fun c k I => proj2 (HA c k I))) as [new1 [E3 [K1 O1]]].
      destruct (IH (S off) b1 (idx ++ [make_index_info a (lf_shape lf)]) (chunks ++ new1) F') as [b2 [asgs [new2 [R [Ly [L2 [A2 [G2 [K2 O2]]]]]]]]].
      { lia. }
      exists b2, (a :: asgs), (new1 ++ new2). simpl length. simpl seq. simpl combine. cbn [rfold].
      assert (S1 : save_step P p mcb (bytes, idx, chunks) (off, lf) =
                   Ok (b1, idx ++ [make_index_info a (lf_shape lf)], chunks ++ new1)).
      { unfold save_step. rewrite E1. cbn [bind]. rewrite E2. cbn [bind snd fst]. rewrite E3. reflexivity. }
      rewrite S1. cbn [bind]. rewrite R. rewrite <- !app_assoc.
      split; [reflexivity|].
      assert (La : leaf_assign lf bytes = Ok (b1, a)) by (unfold leaf_assign; rewrite E1; auto).
      split. { simpl. rewrite La. simpl. rewrite Ly. reflexivity. }
      split. { congruence. }
      split. { rewrite L in A2. constructor; auto. constructor.
        - rewrite K. eapply Permutation_NoDup; [apply Permutation_sym, sort_slicends_perm | auto].
        - rewrite K. apply sort_slicends_id.
        - intros c. rewrite K. rewrite <- (keys_iff lf d c ND GET).
          split; apply Permutation_in; [|apply Permutation_sym]; apply sort_slicends_perm.
        - intros c k I. destruct (HA c k I). split; auto. apply (procs_of_holder lf d); auto. }
      split. { simpl. split. { exists (procs_of d). split; auto. intros c q _. apply procs_of_holder; auto. }
               exists b1. auto. }
      split. { rewrite map_app, K1, K2. reflexivity. }
      apply Forall_app. split.
      + assert (Forall (fun kc => ch_leaf (snd kc) = off) new1) as Fo.
        { apply Forall_forall. intros kc I. assert (In (key3 kc) (map key3 new1)) as I2 by (apply in_map; auto).
          rewrite K1 in I2. apply in_map_iff in I2. destruct I2 as [ck [E _]]. unfold key3 in E. congruence. }
        rewrite Forall_forall in *. intros kc I. exists lf. rewrite (Fo kc I), Nat.sub_diag. simpl. auto.
      + eapply Forall_impl; [|exact O2]. intros kc [lf' [N [Le C]]]. exists lf'.
        replace (ch_leaf (snd kc) - off) with (S (ch_leaf (snd kc) - S off)) by lia. simpl. split; auto. split; auto. lia.
  Qed.

  Lemma layout_same : forall a b bytes, Forall2 same_array a b -> Forall (good_leaf P) b -> P <= length bytes ->
    layout a bytes = layout b bytes.
  Proof using HP.
    intros a b bytes F. revert bytes. induction F as [|x y a b S F IH]; intros bytes G HL; simpl; auto.
    inversion G; subst. rewrite (leaf_assign_same x y) by auto.
    destruct (leaf_assign_ok y bytes) as [d [b1 [asg [E1 [E2 [_ [_ [_ [L _]]]]]]]]]; auto.
    unfold leaf_assign. rewrite E1. simpl. rewrite E2. simpl. rewrite IH; auto. lia.
  Qed.
End Save.
