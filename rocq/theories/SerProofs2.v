(** Round trip of the custom types (C24). *)
From Coq Require Import Ascii String List Arith ZArith NArith Bool Lia.
From Verif Require Import BaseModel BaseSpec BaseProofs BaseProofs2 SerModel SerSpec SerProofs.
Import ListNotations.
Local Open Scope list_scope.
Local Open Scope N_scope.

(** ** Blocks *)
Lemma blocks_aux_concat {T} k (l : list T) : forall room,
  fst (blocks_aux k room l) ++ concat (snd (blocks_aux k room l)) = l.
Proof.
  induction l as [|x l IH]; intros room; simpl; auto. destruct (room =? 0).
  - specialize (IH (k - 1)). destruct (blocks_aux k (k - 1) l). simpl in *. congruence.
  - specialize (IH (room - 1)). destruct (blocks_aux k (room - 1) l). simpl in *. congruence.
Qed.
Lemma blocks_aux_first {T} k (l : list T) : fst (blocks_aux k 0 l) = [].
Proof. destruct l; simpl; auto. destruct (blocks_aux k (k - 1) l); auto. Qed.
Lemma blocks_concat {T} k (l : list T) : concat (blocks k l) = l.
Proof. unfold blocks. pose proof (blocks_aux_concat k l 0) as H. rewrite blocks_aux_first in H. auto. Qed.

Lemma blocks_nonempty {T} k (l : list T) : l <> [] -> blocks k l <> [].
Proof. intros H E. apply H. rewrite <- (blocks_concat k l), E. reflexivity. Qed.
Lemma blocks_aux_each {T} k (l : list T) : 0 < k -> forall room, room < k ->
  (N.of_nat (List.length (fst (blocks_aux k room l))) <= room) /\
  Forall (fun b => b <> [] /\ N.of_nat (List.length b) <= k) (snd (blocks_aux k room l)).
Proof.
  intros Hk. induction l as [|x l IH]; intros room Hr; simpl. { split; [lia|constructor]. }
  destruct (N.eqb_spec room 0) as [->|N].
  - destruct (IH (k - 1)) as [I1 I2]; [lia|]. destruct (blocks_aux k (k - 1) l) as [b bs]. cbn [fst snd List.length] in *. split; [lia|].
    constructor; auto. split; [discriminate|]. cbn [List.length]. lia.
  - destruct (IH (room - 1)) as [I1 I2]; [lia|]. destruct (blocks_aux k (room - 1) l) as [b bs]. cbn [fst snd List.length] in *. split; [lia|auto].
Qed.
Lemma blocks_each {T} k (l : list T) : 0 < k -> Forall (fun b => b <> [] /\ N.of_nat (List.length b) <= k) (blocks k l).
Proof. intros H. apply (blocks_aux_each k l H 0 H). Qed.

Lemma blocks_aux_app {T} k (a l : list T) : forall room, N.of_nat (List.length a) = room ->
  blocks_aux k room (a ++ l) = (a, snd (blocks_aux k 0 l)).
Proof.
  induction a as [|x a IH]; intros room H; simpl.
  - subst room. simpl. rewrite (surjective_pairing (blocks_aux k 0 l)), blocks_aux_first. reflexivity.
  - cbn [List.length] in H. rewrite (proj2 (N.eqb_neq room 0)) by lia. rewrite (IH (room - 1)) by lia. reflexivity.
Qed.
Lemma blocks_of_concat {T} k (ls : list (list T)) : 0 < k -> Forall (fun b => N.of_nat (List.length b) = k) ls ->
  blocks k (concat ls) = ls.
Proof.
  intros Hk. induction 1 as [|b ls Hb F IH]; auto. unfold blocks in *. cbn [concat].
  destruct b as [|x b]. { cbn [List.length] in Hb. lia. }
  cbn [app blocks_aux]. change (0 =? 0) with true. cbn iota. rewrite blocks_aux_app by (cbn [List.length] in Hb; lia).
  cbn [snd]. rewrite IH. reflexivity.
Qed.

Lemma concat_len (ls : list bytes) k : Forall (fun b => len b = k) ls -> len (concat ls) = N.of_nat (List.length ls) * k.
Proof.
  unfold len. induction 1 as [|b ls H F IH]; auto. cbn [concat List.length]. rewrite app_length, Nat2N.inj_add, IH, H. lia.
Qed.

(** ** Small codecs *)
Lemma dec_shape_ok l : dec_shape (MArr (map (fun d => MInt (Z.of_N d)) l)) = SOk l.
Proof.
  cbn [dec_shape]. apply smap_intro. induction l as [|d l IH]; constructor; auto.
  rewrite (proj2 (Z.leb_le 0 (Z.of_N d))) by lia. rewrite N2Z.id. reflexivity.
Qed.
Lemma wf_ints {T} (f : T -> Z) l : wf (MArr (map (fun d => MInt (f d)) l)).
Proof. simpl. induction l; simpl; auto. Qed.
Lemma wf_bins l : wf (MArr (map MBin l)).
Proof. simpl. induction l; simpl; auto. Qed.

Lemma slice_ok x b : slice_to_bytes x = SOk b -> slice_from_bytes b = SOk x.
Proof.
  destruct x as [[a s] t]. unfold slice_to_bytes, slice_from_bytes. intros E.
  rewrite (unpack_pack (MArr [opt_int a; opt_int s; opt_int t]) b); auto.
  - cbn [sbind]. destruct a, s, t; reflexivity.
  - destruct a, s, t; simpl; auto.
Qed.

Lemma pack_unpack_many {T} (f : T -> sres bytes) (g : bytes -> sres T) l v :
  (forall x b, In x l -> f x = SOk b -> g b = SOk x) -> pack_many f l = SOk v ->
  wf v /\ unpack_many g v = SOk l.
Proof.
  intros H E. unfold pack_many in E. apply sbind_ok in E. destruct E as [bs [E Ev]]. injection Ev as <-.
  split; [apply wf_bins|]. cbn [unpack_many]. apply smap_ok in E. apply smap_intro.
  induction E as [|x b l bs E F IH]; simpl; constructor.
  - apply H; auto. left; auto.
  - apply IH. intros; apply H; auto. right; auto.
Qed.

Lemma slice_nd_ok x b : slice_nd_to_bytes x = SOk b -> slice_nd_from_bytes b = SOk x.
Proof.
  unfold slice_nd_to_bytes, slice_nd_from_bytes. intros E. apply sbind_ok in E. destruct E as [v [Ev E]].
  destruct (pack_unpack_many slice_to_bytes slice_from_bytes x v) as [W U]; auto. { intros; apply slice_ok; auto. }
  rewrite (unpack_pack v b W E). exact U.
Qed.

Lemma slice_nd_array_ok x b : prodN (fst x) = N.of_nat (List.length (snd x)) ->
  slice_nd_array_to_bytes x = SOk b -> slice_nd_array_from_bytes b = SOk x.
Proof.
  intros P. unfold slice_nd_array_to_bytes, slice_nd_array_from_bytes. intros E. apply sbind_ok in E. destruct E as [v [Ev E]].
  destruct (pack_unpack_many slice_nd_to_bytes slice_nd_from_bytes (snd x) v) as [W U]; auto. { intros; apply slice_nd_ok; auto. }
  rewrite (unpack_pack _ b) with (2 := E). 2:{ split; [apply wf_ints|split; simpl; auto]. }
  cbn [sbind]. rewrite U. cbn [sbind]. rewrite dec_shape_ok. cbn [sbind]. rewrite P, N.eqb_refl. destruct x; reflexivity.
Qed.

Lemma shaped_ok x b : shaped_to_bytes x = SOk b -> shaped_from_bytes b = SOk x.
Proof.
  unfold shaped_to_bytes, shaped_from_bytes. intros E. rewrite (unpack_pack _ b) with (2 := E).
  2:{ split; [apply wf_ints|simpl; auto]. }
  cbn [sbind]. rewrite dec_shape_ok. destruct x; reflexivity.
Qed.

Lemma index_info_ok x b : index_info_to_bytes x = SOk b -> index_info_from_bytes b = SOk x.
Proof.
  unfold index_info_to_bytes, index_info_from_bytes. intros E. apply sbind_ok in E. destruct E as [sh [Es E]].
  apply sbind_ok in E. destruct E as [v [Ev E]].
  destruct (pack_unpack_many slice_nd_to_bytes slice_nd_from_bytes (xi_slices x) v) as [W U]; auto. { intros; apply slice_nd_ok; auto. }
  rewrite (unpack_pack _ b) with (2 := E). 2:{ split; [exact I|]. split; auto. split; [apply (wf_ints (fun z => z))|exact I]. }
  cbn [sbind]. rewrite (shaped_ok _ _ Es). cbn [sbind]. rewrite U. cbn [sbind].
  rewrite (smap_intro _ _ (xi_shards x)).
  - destruct x; reflexivity.
  - clear. induction (xi_shards x); constructor; auto.
Qed.

Section Dtype.
Variable itemsize : bytes -> N.
Notation good_nd := (good_nd itemsize).

Lemma ndarray_ok x b : good_nd x -> ndarray_to_bytes x = SOk b -> ndarray_from_bytes itemsize b = SOk x.
Proof.
  intros [P [NE [Hi F]]]. unfold ndarray_to_bytes, ndarray_from_bytes. intros E. rewrite (unpack_pack _ b) with (2 := E).
  2:{ split; [apply wf_ints|simpl; auto]. }
  cbn [sbind]. rewrite dec_shape_ok. cbn [sbind]. rewrite (proj2 (N.eqb_neq _ 0)) by lia.
  rewrite (concat_len _ _ F), N.mod_mul, N.eqb_refl by lia. cbn [negb orb].
  rewrite blocks_of_concat by auto. unfold reshape. rewrite P, N.eqb_refl. destruct x; reflexivity.
Qed.

(** ** Chunks *)
Lemma from_ext_nd x v : good_nd x -> ext_of ext_ndarray (ndarray_to_bytes x) = SOk v ->
  wf v /\ from_mv itemsize v = SOk (OArray x).
Proof.
  intros G E. unfold ext_of in E. apply sbind_ok in E. destruct E as [b [Eb E]]. injection E as <-. split; [exact I|].
  cbn [from_mv]. unfold ext_unpack. cbn -[ndarray_from_bytes]. rewrite (ndarray_ok x b G Eb). reflexivity.
Qed.
Lemma from_ext_slice_nd x v : ext_of ext_slice_nd (slice_nd_to_bytes x) = SOk v ->
  wf v /\ from_mv itemsize v = SOk (OSliceNd x).
Proof.
  intros E. unfold ext_of in E. apply sbind_ok in E. destruct E as [b [Eb E]]. injection E as <-. split; [exact I|].
  cbn [from_mv]. unfold ext_unpack. cbn -[slice_nd_from_bytes]. rewrite (slice_nd_ok x b Eb). reflexivity.
Qed.

Lemma wf_arr l : Forall wf l -> wf (MArr l).
Proof. simpl. induction 1; simpl; auto. Qed.
Lemma wf_map l : Forall (fun kv => wf (fst kv) /\ wf (snd kv)) l -> wf (MMap l).
Proof. simpl. induction 1 as [|[k v] l H F IH]; simpl; auto. Qed.

Lemma from_many {T} (f : T -> sres mv) (g : T -> obj) l vs :
  (forall x v, In x l -> f x = SOk v -> wf v /\ from_mv itemsize v = SOk (g x)) -> smap f l = SOk vs ->
  Forall wf vs /\ smap (from_mv itemsize) vs = SOk (map g l).
Proof.
  intros H E. apply smap_ok in E. induction E as [|x v l vs E F IH]; [split; [constructor|reflexivity]|].
  destruct (H x v) as [W D]; [left; auto|auto|]. destruct IH as [W' D']; [intros; apply H; auto; right; auto|].
  split; [constructor; auto|]. apply smap_intro. simpl. constructor; auto. apply smap_ok in D'. exact D'.
Qed.

Lemma flat_good dt items : items <> [] -> 0 < itemsize dt -> Forall (fun b => len b = itemsize dt) items -> good_nd (flat dt items).
Proof.
  intros N H F. repeat split; simpl; auto. lia.
Qed.

Definition chunk_obj (p : nd * slicend) : obj :=
  OList [OList (map OArray (map (flat (nd_dtype (fst p)))
                  (blocks (N.max 1 (MAX_CHUNK_SIZE / itemsize (nd_dtype (fst p)))) (nd_items (fst p)))));
         OSliceNd (snd p)].

Lemma encode_chunk_ok p v : good_chunk itemsize p -> encode_chunk itemsize p = SOk v ->
  wf v /\ from_mv itemsize v = SOk (chunk_obj p).
Proof.
  intros [G S] E. unfold encode_chunk in E. cbv zeta in E. destruct G as [P [NE [Hi F]]].
  set (subs := map (flat _) _) in E.
  assert (GS : forall x, In x subs -> good_nd x).
  { intros x I. unfold subs in I. apply in_map_iff in I. destruct I as [b [<- I]].
    set (k := N.max 1 (MAX_CHUNK_SIZE / itemsize (nd_dtype (fst p)))) in I.
    assert (Hk : 0 < k) by (unfold k; lia). pose proof (blocks_each k (nd_items (fst p)) Hk) as B. rewrite Forall_forall in B.
    apply flat_good; auto; [apply B; auto|]. rewrite Forall_forall in *. intros y Iy. apply F.
    rewrite <- (blocks_concat k (nd_items (fst p))). apply in_concat. eauto. }
  apply sbind_ok in E. destruct E as [sub [E1 E]]. apply sbind_ok in E. destruct E as [sl [E2 E]]. injection E as <-.
  destruct (from_many (fun x => ext_of ext_ndarray (ndarray_to_bytes x)) OArray subs sub) as [W1 D1]; auto.
  { intros x v I Ex. apply from_ext_nd; auto. }
  destruct (from_ext_slice_nd _ _ E2) as [W2 D2]. split.
  - apply wf_arr. constructor; [apply wf_arr; auto|]. constructor; auto.
  - cbn [from_mv]. unfold chunk_obj. fold subs. cbn [smap]. cbn [from_mv]. rewrite D1. cbn [sbind]. rewrite D2. reflexivity.
Qed.

Lemma concat_flat dt bs : concat (map nd_items (map (flat dt) bs)) = concat bs.
Proof. rewrite map_map. simpl. rewrite map_id. reflexivity. Qed.

Lemma decode_chunk_ok p : good_chunk itemsize p -> decode_chunk (chunk_obj p) = SOk p.
Proof.
  intros [G S]. destruct G as [P [NE [Hi F]]]. unfold chunk_obj, decode_chunk.
  set (bs := blocks _ _).
  assert (Nb : bs <> []) by (apply blocks_nonempty; auto).
  assert (Cb : concat bs = nd_items (fst p)) by apply blocks_concat. clearbody bs.
  rewrite (smap_intro _ _ (map (flat (nd_dtype (fst p))) bs)).
  2:{ induction (map (flat (nd_dtype (fst p))) bs); constructor; auto. }
  cbn [sbind]. destruct bs as [|b0 bs]; [contradiction|]. cbn [map].
  rewrite (smap_intro slice_len _ (nd_shape (fst p))).
  2:{ clear - S. induction S as [|s d sl sh [a [b [-> E]]] F IH]; constructor; auto.
      simpl. rewrite E. rewrite (proj2 (Z.leb_le 0 (Z.of_N d))) by lia. rewrite N2Z.id. reflexivity. }
  cbn [sbind].
  assert (Q : concat (nd_items (flat (nd_dtype (fst p)) b0) :: map nd_items (map (flat (nd_dtype (fst p))) bs)) = nd_items (fst p))
    by (rewrite <- Cb; apply (concat_flat _ (b0 :: bs))).
  rewrite Q. unfold reshape. rewrite P, N.eqb_refl. cbn [sbind flat nd_dtype].
  destruct p as [[? ? ?] ?]; reflexivity.
Qed.

(** ** Dicts *)
Lemma dset_new d k v : ~ In k (map fst d) -> dset d k v = d ++ [(k, v)].
Proof.
  induction d as [|[k' v'] d IH]; simpl; intros N; auto. destruct (str_eqb k' k) eqn:E.
  - apply str_eqb_spec in E. subst. tauto.
  - rewrite IH by tauto. reflexivity.
Qed.
Lemma dict_build kvs : forall d, NoDup (map fst (d ++ kvs)) ->
  fold_left (fun d kv => dset d (fst kv) (snd kv)) kvs d = d ++ kvs.
Proof.
  induction kvs as [|[k v] kvs IH]; intros d N; simpl. { rewrite app_nil_r; auto. }
  rewrite dset_new.
  - rewrite IH; rewrite <- app_assoc; auto.
  - rewrite map_app in N. apply NoDup_remove_2 in N. intros I. apply N. apply in_or_app. auto.
Qed.

Lemma magic_not_digits n : str_of_N n <> MAGIC.
Proof.
  intros E. pose proof (str_of_N_digits n) as [_ F]. rewrite E in F. inversion F as [|c l H]. subst c. lia.
Qed.

Lemma str_of_N_inj a b : str_of_N a = str_of_N b -> a = b.
Proof. intros E. rewrite <- (int_of_str 0 a), <- (int_of_str 0 b). simpl. congruence. Qed.

Lemma lazy_ok x v : valid itemsize (OLazy x) -> lazy_array_chunks_encode itemsize x = SOk v ->
  wf v /\ from_mv itemsize v = SOk (restored (OLazy x)).
Proof.
  intros [ND G] E. unfold lazy_array_chunks_encode in E. apply sbind_ok in E. destruct E as [entries [E1 E]]. injection E as <-.
  apply smap_ok in E1.
  assert (K : Forall (fun kv => wf (fst kv) /\ wf (snd kv)) entries /\
    smap (fun kv => match kv with (MStr k, x) => sbind (from_mv itemsize x) (fun o => SOk (k, o)) | _ => SErr ValueErr end) entries
    = SOk (map (fun il => (str_of_N (fst il), OList (map chunk_obj (snd il)))) x)).
  { clear ND. induction E1 as [|[i cs] [k y] x entries E F IH]; [split; [constructor|reflexivity]|].
    inversion G as [|? ? Gc G']; subst. destruct (IH G') as [W D]. simpl in E, Gc.
    apply sbind_ok in E. destruct E as [vs [Ev E]]. injection E as <- <-.
    destruct (from_many (encode_chunk itemsize) chunk_obj cs vs) as [W1 D1]; auto.
    { rewrite Forall_forall in Gc. intros p v Ip Ep. apply encode_chunk_ok; auto. }
    split. { constructor; auto. split; [exact I|]. apply wf_arr; auto. }
    apply smap_intro. constructor; [|apply smap_ok in D; exact D]. simpl. cbn [from_mv].
    change ((fix go (l : list mv) : sres (list obj) := _) vs) with (smap (from_mv itemsize) vs). rewrite D1. reflexivity. }
  destruct K as [W D]. split.
  { apply wf_map. constructor; [split; exact I|auto]. }
  cbn [from_mv]. 
  rewrite (smap_intro _ _ ((MAGIC, OBool true) :: map (fun il => (str_of_N (fst il), OList (map chunk_obj (snd il)))) x)).
  2:{ constructor; [reflexivity|]. apply smap_ok in D. exact D. }
  cbn [sbind]. rewrite dict_build.
  2:{ cbn [app map]. constructor.
      - rewrite map_map. simpl. intros J. apply in_map_iff in J. destruct J as [il [J _]]. apply magic_not_digits in J. auto.
      - rewrite map_map. simpl. clear - ND. induction x as [|[i cs] x IH]; simpl in *; constructor.
        + inversion ND; subst. intros J. apply in_map_iff in J. destruct J as [[i' cs'] [J I]]. apply str_of_N_inj in J. simpl in J; subst.
          apply H1. apply in_map_iff. exists (i, cs'); auto.
        + apply IH. inversion ND; auto. }
  cbn [app]. unfold array_chunks_decode. cbn [existsb fst]. replace (str_eqb MAGIC MAGIC) with true by reflexivity. cbn [orb].
  rewrite (smap_intro _ _ ([] :: map (fun il => map (fun c => (fst il, fst c, snd c)) (snd il)) x)).
  - reflexivity.
  - constructor; [reflexivity|]. clear - G. induction G as [|[i cs] x Gc G IH]; simpl; constructor; auto. simpl.
    destruct (str_eqb (str_of_N i) MAGIC) eqn:Em. { apply str_eqb_spec in Em. apply magic_not_digits in Em. contradiction. }
    pose proof (str_of_N_digits i) as Dg. apply digits_iff in Dg. destruct Dg as [Dn Df]. rewrite Df.
    destruct (str_eqb (str_of_N i) []) eqn:Ee. { apply str_eqb_spec in Ee. contradiction. }
    cbn [negb orb]. rewrite (smap_intro _ _ cs).
    + cbn [sbind]. rewrite (int_of_str 0 i : int_of (str_of_N i) = i). reflexivity.
    + simpl in Gc. clear - Gc. induction Gc; simpl; constructor; auto. apply decode_chunk_ok; auto.
Qed.

(** ** Objects *)
Section ObjInd.
  Variable P : obj -> Prop.
  Hypothesis Hlist : forall l, Forall P l -> P (OList l).
  Hypothesis Hdict : forall l, Forall (fun kv => P (snd kv)) l -> P (ODict l).
  Hypothesis Hrest : forall o, (forall l, o <> OList l) -> (forall l, o <> ODict l) -> P o.
  Fixpoint obj_ind' (o : obj) : P o.
  Proof.
    destruct o; try (apply Hrest; intros; discriminate).
    - apply Hlist. induction l as [|x l IH]; constructor; auto.
    - apply Hdict. induction l as [|[k x] l IH]; constructor; auto.
  Defined.
End ObjInd.

Lemma obj_ok o : valid itemsize o -> forall v, to_mv itemsize o = SOk v -> wf v /\ from_mv itemsize v = SOk (restored o).
Proof.
  induction o as [l IH|l IH|o N1 N2] using obj_ind'; intros V v E.
  - cbn [to_mv] in E. apply sbind_ok in E. destruct E as [vs [E Ev]]. injection Ev as <-.
    destruct (from_many (to_mv itemsize) restored l vs) as [W D]; auto.
    { simpl in V. clear E. induction IH as [|x l Hx F IHl]; [intros ? ? []|]. simpl in V. destruct V as [Vx Vl].
      intros y w [<-|I] Ey; auto. }
    split; [apply wf_arr; auto|]. cbn [from_mv]. rewrite D. reflexivity.
  - cbn [to_mv] in E. apply sbind_ok in E. destruct E as [vs [E Ev]]. injection Ev as <-. simpl in V. destruct V as [ND [NM V]].
    apply smap_ok in E.
    assert (K : Forall (fun kv => wf (fst kv) /\ wf (snd kv)) vs /\
      smap (fun kv => match kv with (MStr k, x) => sbind (from_mv itemsize x) (fun o => SOk (k, o)) | _ => SErr ValueErr end) vs
      = SOk (map (fun kx => let '(k, x) := kx in (k, restored x)) l)).
    { clear ND NM. induction E as [|[k x] y l vs E F IHl]; [split; [constructor|reflexivity]|].
      inversion IH as [|? ? Hx IH']; subst. simpl in V. destruct V as [Vx Vl].
      destruct (IHl IH' Vl) as [W D]. apply sbind_ok in E. destruct E as [w [Ew E]]. injection E as <-.
      destruct (Hx Vx w Ew) as [Ww Dw]. split; [constructor; [split; [exact I|auto]|auto]|].
      apply smap_intro. constructor; [|apply smap_ok in D; exact D]. simpl in *. rewrite Dw. reflexivity. }
    destruct K as [W D]. split; [apply wf_map; auto|]. cbn [from_mv]. rewrite D. cbn [sbind].
    assert (EK : map fst (map (fun kx : bytes * obj => let '(k, x) := kx in (k, restored x)) l) = map fst l).
    { rewrite map_map. apply map_ext. intros [k x]; auto. }
    rewrite dict_build by (simpl; rewrite EK; auto). simpl. unfold array_chunks_decode.
    destruct (existsb _ _) eqn:Ex; auto. exfalso. apply existsb_exists in Ex. destruct Ex as [kv [J Ek]].
    apply str_eqb_spec in Ek. apply NM. rewrite <- EK, <- Ek. apply in_map; auto.
  - destruct o; cbn [to_mv] in E; try (injection E as <-; split; [exact I|reflexivity]); try (exfalso; congruence).
    + injection E as <-. split; auto.
    + unfold ext_of in E. apply sbind_ok in E. destruct E as [b [Eb E]]. injection E as <-. split; [exact I|].
      destruct V as [V1 V2]. cbn [from_mv]. unfold ext_unpack. cbn -[unpackb]. rewrite (unpack_pack (MArr [MFloat re; MFloat im]) b); auto.
      split; auto. split; simpl; auto.
    + unfold ext_of in E. apply sbind_ok in E. destruct E as [b [Eb E]]. injection E as <-. split; [exact I|].
      cbn [from_mv]. unfold ext_unpack. cbn -[shaped_from_bytes]. rewrite (shaped_ok _ _ Eb). reflexivity.
    + unfold ext_of in E. apply sbind_ok in E. destruct E as [b [Eb E]]. injection E as <-. split; [exact I|].
      cbn [from_mv]. unfold ext_unpack. cbn -[slice_from_bytes]. rewrite (slice_ok _ _ Eb). reflexivity.
    + apply from_ext_slice_nd; auto.
    + unfold ext_of in E. apply sbind_ok in E. destruct E as [b [Eb E]]. injection E as <-. split; [exact I|].
      cbn [from_mv]. unfold ext_unpack. cbn -[slice_nd_array_from_bytes]. rewrite (slice_nd_array_ok _ _ V Eb). reflexivity.
    + unfold ext_of in E. apply sbind_ok in E. destruct E as [b [Eb E]]. injection E as <-. split; [exact I|].
      cbn [from_mv]. unfold ext_unpack. cbn -[index_info_from_bytes]. rewrite (index_info_ok _ _ Eb). reflexivity.
    + apply from_ext_nd; auto.
    + unfold ext_of in E. apply sbind_ok in E. destruct E as [b [Eb E]]. injection E as <-. split; [exact I|].
      destruct V as [V1 V2]. cbn [from_mv]. unfold ext_unpack. cbn -[ndarray_from_bytes]. rewrite (ndarray_ok _ _ V1 Eb).
      cbn [sbind]. rewrite V2. reflexivity.
    + apply lazy_ok; auto.
    + injection E as <-. split; [exact I|]. simpl in V. cbn [from_mv restored]. unfold ext_unpack, ext_complex, ext_shaped, ext_slice, ext_slice_nd, ext_slice_nd_array, ext_index_info, ext_ndarray, ext_npscalar.
      rewrite !(proj2 (N.eqb_neq code _)) by lia. reflexivity.
Qed.

Lemma serialize_restore o b : valid itemsize o -> msgpack_serialize itemsize o = SOk b -> msgpack_restore itemsize b = SOk (restored o).
Proof.
  intros V E. unfold msgpack_serialize in E. apply sbind_ok in E. destruct E as [v [Ev E]].
  destruct (obj_ok o V v Ev) as [W D]. unfold msgpack_restore. rewrite (unpack_pack v b W E). exact D.
Qed.

(** ** A chunk without items *)
Lemma empty_chunk i c s b : nd_items c = [] ->
  msgpack_serialize itemsize (OLazy [(i, [(c, s)])]) = SOk b -> msgpack_restore itemsize b = SErr ValueErr.
Proof.
  intros H E. unfold msgpack_serialize in E. apply sbind_ok in E. destruct E as [v [Ev E]].
  cbn [to_mv] in Ev. unfold lazy_array_chunks_encode in Ev. cbn [smap] in Ev. cbn [fst snd] in Ev.
  apply sbind_ok in Ev. destruct Ev as [es [Ev Ees]]. injection Ees as <-.
  apply sbind_ok in Ev. destruct Ev as [ent [Ev Ees]]. injection Ees as <-.
  apply sbind_ok in Ev. destruct Ev as [vs [Ev Een]]. injection Een as <-.
  apply sbind_ok in Ev. destruct Ev as [w [Ev Ew]]. injection Ew as <-.
  unfold encode_chunk in Ev. cbv zeta in Ev. cbn [fst snd] in Ev. rewrite H in Ev. unfold blocks in Ev. cbn [blocks_aux snd map smap sbind] in Ev.
  apply sbind_ok in Ev. destruct Ev as [sl [Es Ew]]. injection Ew as <-.
  destruct (from_ext_slice_nd _ _ Es) as [W D].
  unfold msgpack_restore. rewrite (unpack_pack _ b) with (2 := E).
  2:{ simpl. repeat split; auto. }
  cbn [sbind]. cbn [from_mv smap sbind]. rewrite D. cbn [sbind].
  rewrite dict_build.
  2:{ cbn [app map fst]. constructor; [|constructor; [intros []|constructor]]. intros [J|[]]. apply magic_not_digits in J. auto. }
  cbn [app]. unfold array_chunks_decode. cbn [existsb fst]. replace (str_eqb MAGIC MAGIC) with true by reflexivity. cbn [orb].
  cbn [smap fst snd sbind]. replace (str_eqb MAGIC MAGIC) with true by reflexivity. cbn [sbind].
  destruct (str_eqb (str_of_N i) MAGIC) eqn:Em. { apply str_eqb_spec in Em. apply magic_not_digits in Em. contradiction. }
  pose proof (str_of_N_digits i) as Dg. apply digits_iff in Dg. destruct Dg as [Dn Df]. rewrite Df.
  destruct (str_eqb (str_of_N i) []) eqn:Ee. { apply str_eqb_spec in Ee. contradiction. }
  reflexivity.
Qed.
End Dtype.

(** ** What can be encoded *)
Lemma pack_int_ok z : (- 2 ^ 63 <= z < 2 ^ 64)%Z -> exists b, pack_int z = SOk b /\ len b <= 9.
Proof.
  intros H. change (2 ^ 63)%Z with 9223372036854775808%Z in H. change (2 ^ 64)%Z with 18446744073709551616%Z in H.
  unfold pack_int, len.
  repeat match goal with |- context [if ?c then _ else _] => destruct c eqn:? end;
    try (eexists; split; [reflexivity|]; cbn [List.length]; rewrite ?be_length; vm_compute; discriminate);
    repeat match goal with H : (_ <? _) = _ |- _ => first [apply N.ltb_lt in H|apply N.ltb_ge in H]
                         | H : (_ <=? _)%Z = _ |- _ => first [apply Z.leb_le in H|apply Z.leb_gt in H] end; lia.
Qed.
Lemma pack_opt x : fits x -> exists b, packb (opt_int x) = SOk b /\ len b <= 9.
Proof.
  destruct x as [z|]; simpl; intros H; [apply pack_int_ok; auto|]. exists [192]. split; auto. unfold len; simpl; lia.
Qed.
Lemma len_app (a b : bytes) : len (a ++ b) = len a + len b.
Proof. unfold len. rewrite app_length. lia. Qed.
Lemma slice_encodes x : fits (fst (fst x)) -> fits (snd (fst x)) -> fits (snd x) ->
  exists b, slice_to_bytes x = SOk b /\ len b <= 28.
Proof.
  destruct x as [[a s] t]; simpl fst; simpl snd. intros Ha Hs Ht.
  destruct (pack_opt a Ha) as [ba [Ea La]], (pack_opt s Hs) as [bs [Es Ls]], (pack_opt t Ht) as [bt [Et Lt]].
  unfold slice_to_bytes. exists (147 :: ba ++ bs ++ bt). split.
  - cbn [packb List.length N.of_nat smap]. rewrite Ea, Es, Et. simpl. rewrite app_nil_r. reflexivity.
  - change (147 :: ba ++ bs ++ bt) with ([147] ++ ba ++ bs ++ bt). rewrite !len_app. change (len [147]) with 1. lia.
Qed.
Lemma arr_header_ok n : n < 2 ^ 32 -> exists h, arr_header n = SOk h.
Proof.
  intros H. change (2 ^ 32) with 4294967296 in H. unfold arr_header.
  repeat match goal with |- context [if ?c then _ else _] => destruct c eqn:? end; eauto.
  exfalso. repeat match goal with H : (_ <? _) = _ |- _ => first [apply N.ltb_lt in H|apply N.ltb_ge in H] end. lia.
Qed.
Lemma slice_nd_encodes x : Forall (fun s : slice => fits (fst (fst s)) /\ fits (snd (fst s)) /\ fits (snd s)) x ->
  N.of_nat (List.length x) < 2 ^ 32 -> exists b, slice_nd_to_bytes x = SOk b.
Proof.
  intros F L. unfold slice_nd_to_bytes, pack_many.
  assert (K : exists bs, smap slice_to_bytes x = SOk bs /\ Forall (fun b => len b <= 28) bs /\ List.length bs = List.length x).
  { clear L. induction F as [|s x [H1 [H2 H3]] F [bs [E [G L]]]]. { exists []; auto. }
    destruct (slice_encodes s H1 H2 H3) as [b [Eb Lb]]. exists (b :: bs). cbn [smap]. rewrite Eb, E. cbn [sbind List.length]. auto. }
  destruct K as [bs [E [G Lb]]]. rewrite E. cbn [sbind packb]. rewrite map_length, Lb.
  destruct (arr_header_ok _ L) as [h ->]. cbn [sbind].
  assert (K : exists cs, smap packb (map MBin bs) = SOk cs).
  { clear - G. induction G as [|b bs H G [cs E]]; simpl; [eauto|]. unfold pack_bin.
    rewrite (proj2 (N.ltb_lt (len b) 256)) by lia. cbn [sbind]. rewrite E. cbn [sbind]. eauto. }
  destruct K as [cs ->]. cbn [sbind]. eauto.
Qed.
