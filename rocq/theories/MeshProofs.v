(** Proofs about device meshes (C25). *)
From Coq Require Import List Arith Bool Lia Permutation.
From Verif Require Import Py PyLemmas NdArray NdLemmas MeshModel MeshSpec.
Import ListNotations.

Lemma idx_eqb_spec a b : reflect (a = b) (idx_eqb a b).
Proof. unfold idx_eqb. destruct (list_eq_dec Nat.eq_dec a b); constructor; auto. Qed.

Lemma dset_new d k v : ~ In k (map fst d) -> dset d k v = d ++ [(k, v)].
Proof.
  induction d as [|[k' v'] d IH]; simpl; intros N; auto. destruct (idx_eqb_spec k' k); [subst; tauto|]. rewrite IH by tauto. auto.
Qed.
Lemma dict_build (coords : device -> list nat) ds : forall m, NoDup (map fst m ++ map coords ds) ->
  fold_left (fun m d => dset m (coords d) d) ds m = m ++ map (fun d => (coords d, d)) ds.
Proof.
  induction ds as [|d ds IH]; simpl; intros m N. { rewrite app_nil_r; auto. }
  rewrite dset_new. 2:{ apply NoDup_remove_2 in N. intros I. apply N. apply in_or_app; auto. }
  rewrite IH, <- app_assoc; auto. rewrite map_app, <- app_assoc. exact N.
Qed.
Lemma dget_pairs (coords : device -> list nat) ds : NoDup (map coords ds) ->
  map (dget (map (fun d => (coords d, d)) ds)) (map coords ds) = map Some ds.
Proof.
  intros N. rewrite map_map. apply map_ext_in. intros d I. induction ds as [|x ds IH]; simpl in *; [contradiction|]. inversion N; subst.
  destruct (idx_eqb_spec (coords x) (coords d)) as [E|E].
  - destruct I as [->|I]; auto. exfalso. apply H1. rewrite E. apply in_map; auto.
  - destruct I as [->|I]; [congruence|auto].
Qed.
Lemma dget_some d k v : dget d k = Some v -> In k (map fst d).
Proof. induction d as [|[k' v'] d IH]; simpl; [discriminate|]. destruct (idx_eqb_spec k' k); auto. Qed.
Lemma inside_spec idx : forall ds, inside idx ds = true -> inb ds idx.
Proof.
  unfold inb. induction idx as [|i idx IH]; intros [|d ds] H; try discriminate; constructor; simpl in H; apply andb_prop in H; destruct H as [H1 H2];
    [apply Nat.ltb_lt; auto|auto].
Qed.

Section Mesh.
Variable all_devices local_devices : list device.

Lemma hardware_mesh_perm coords devices hw : NoDup (map coords devices) ->
  get_hardware_mesh coords devices = Ok hw -> Forall (fun o => o <> None) (flatten hw) ->
  Permutation (flatten hw) (map Some devices).
Proof.
  intros N E F. unfold get_hardware_mesh in E. apply bind_ok in E. destruct E as [last [_ E]]. rewrite dict_build in E by exact N.
  cbn [app] in E. destruct (forallb _ _) eqn:B; [|discriminate]. injection E as <-. unfold flatten in *. cbn [dims at_] in *.
  rewrite <- (dget_pairs coords devices N). apply Permutation_map. apply NoDup_Permutation; auto; [apply indices_nodup|].
  intros k. split; intros I.
  - rewrite Forall_forall in F. specialize (F _ (in_map _ _ _ I)).
    destruct (dget _ k) as [v|] eqn:G; [|congruence]. apply dget_some in G. rewrite map_map in G. exact G.
  - apply in_map_iff in I. destruct I as [d [<- I]]. apply indices_in. apply inside_spec. rewrite forallb_forall in B.
    apply (B (coords d, d)). apply in_map_iff. eauto.
Qed.

Lemma default_perm ps rs hw m : get_logical_mesh_default ps rs hw = Ok m ->
  Permutation (flatten m) (flatten hw) /\ dims m = [prod ps; prod rs].
Proof.
  unfold get_logical_mesh_default. intros E. apply bind_ok in E. destruct E as [shape [_ E]]. apply bind_ok in E. destruct E as [d1 [E1 E]].
  apply bind_ok in E. destruct E as [d2 [E2 E]]. apply flatten_reshape in E1, E. apply flatten_transpose in E2.
  destruct E as [-> ->]. split; auto. rewrite E2. destruct E1 as [-> _]. auto.
Qed.
Lemma tile_perm ps rs hw l m : get_logical_mesh_tile_by_process ps rs hw l = Ok m ->
  Permutation (flatten m) (flatten hw) /\ dims m = [prod ps; prod rs].
Proof.
  unfold get_logical_mesh_tile_by_process. intros E. apply bind_ok in E. destruct E as [shapes [_ E]]. apply bind_ok in E. destruct E as [shape [_ E]].
  apply bind_ok in E. destruct E as [d1 [E1 E]].
  apply bind_ok in E. destruct E as [d2 [E2 E]]. apply flatten_reshape in E1, E. apply flatten_transpose in E2.
  destruct E as [-> ->]. split; auto. rewrite E2. destruct E1 as [-> _]. auto.
Qed.
Lemma flatten_length {T} (a : nda T) : length (flatten a) = prod (dims a).
Proof. unfold flatten. rewrite map_length. apply indices_length. Qed.
Lemma prod_rev l : prod (rev l) = prod l.
Proof. symmetry. apply prod_perm. apply Permutation_rev. Qed.

Lemma logical_mesh_perm ps hw m : get_logical_mesh local_devices ps hw = Ok m ->
  Permutation (flatten m) (flatten hw) /\ Forall (fun o => o <> None) (flatten hw) /\
  exists r, dims m = [prod ps; r] /\ prod ps * r = length (flatten hw).
Proof.
  unfold get_logical_mesh. intros E. destruct (negb _); [discriminate|]. destruct (existsb _ _); [discriminate|].
  apply bind_ok in E. destruct E as [hw' [Et E]]. apply flatten_transpose in Et.
  apply bind_ok in E. destruct E as [lm [Ed E]]. apply bind_ok in E. destruct E as [c [Ec E]].
  apply default_perm in Ed. destruct Ed as [Pd Dd].
  assert (F : Forall (fun o => o <> None) (flatten hw)).
  { unfold processes_have_contiguous_device_slices in Ec. apply bind_ok in Ec. destruct Ec as [procs [Ec _]]. apply rmap_ok in Ec.
    rewrite <- Et, <- Pd. clear - Ec. induction Ec as [|o p l l' E F IH]; constructor; auto. destruct o; discriminate. }
  assert (P : Permutation (flatten m) (flatten hw') /\ dims m = [prod (rev ps); prod (rev (map (fun ps => snd ps / fst ps) (combine ps (dims hw))))]).
  { destruct c; [injection E as <-; auto|]. apply tile_perm in E. exact E. }
  destruct P as [P D]. split; [rewrite P; auto|]. split; auto. rewrite prod_rev in D. eexists. split; [exact D|].
  rewrite <- (Permutation_length Et), <- (Permutation_length P), flatten_length, D. cbn. lia.
Qed.

Lemma auto_mesh P devices m : devices <> [] -> NoDup (map (coords_of local_devices devices) devices) ->
  get_auto_logical_mesh all_devices local_devices P devices = Ok m ->
  let p := Nat.min P (length devices) in
  0 < p /\ (exists r, dims m = [p; r] /\ p * r = length devices) /\ Permutation (flatten m) (map Some devices).
Proof.
  intros N0 ND E p. unfold get_auto_logical_mesh in E. destruct devices as [|d0 ds]; [contradiction|].
  cbn [coords_of] in ND. set (devices := d0 :: ds) in *. fold p in E.
  assert (G : forall coords hw, NoDup (map coords devices) -> get_hardware_mesh coords devices = Ok hw ->
      forall ps, prod ps = p -> get_logical_mesh local_devices ps hw = Ok m ->
      (exists r, dims m = [p; r] /\ p * r = length devices) /\ Permutation (flatten m) (map Some devices)).
  { intros coords hw Nc Eh ps Ep El. apply logical_mesh_perm in El. destruct El as [Pm [F [r [D L]]]].
    pose proof (hardware_mesh_perm coords devices hw Nc Eh F) as Ph. rewrite Ep in *.
    apply Permutation_length in Ph as Lh. rewrite map_length in Lh. split; [exists r; split; auto; lia|]. rewrite Pm. auto. }
  assert (Z : forall x ps hw, get_logical_mesh local_devices ps hw = Ok x -> prod ps <> 0).
  { intros x ps hw El. unfold get_logical_mesh in El. destruct (negb _); [discriminate|]. destruct (existsb _ _) eqn:Ex; [discriminate|].
    intros Ep. clear El. revert Ex Ep. induction ps as [|q ps IH]; [discriminate|]. cbn [existsb prod fold_right]. intros Ex Ep. apply orb_false_iff in Ex. destruct Ex as [E1 E2].
    apply Nat.eqb_neq in E1. apply IH; auto. fold (prod ps) in Ep. nia. }
  destruct (d_tpu d0).
  - apply bind_ok in E. destruct E as [hw [Eh E]]. unfold get_auto_logical_mesh_tpu in E.
    destruct (dims hw) as [|s0 [|s1 [|s2 [|s3 [|]]]]]; try discriminate. apply bind_ok in E. destruct E as [[[[c x] y] z] [_ E]].
    destruct (_ || _) eqn:B in E; [discriminate|]. apply orb_false_iff in B. destruct B as [B _]. apply negb_false_iff, Nat.eqb_eq in B.
    assert (Ep : prod [c; x; y; z] = p) by (cbn; lia).
    split; [specialize (Z _ _ _ E); lia|]. eapply G; eauto.
  - apply bind_ok in E. destruct E as [hw [Eh E]]. unfold get_auto_logical_mesh_other in E.
    destruct (dims hw) as [|s0 [|s1 [|]]]; try discriminate. apply bind_ok in E. destruct E as [q [_ E]].
    destruct (_ || _) eqn:B in E; [discriminate|]. apply orb_false_iff in B. destruct B as [B _]. apply negb_false_iff, Nat.eqb_eq in B.
    match type of E with get_logical_mesh _ [?d; ?h] _ = _ => assert (Ep : prod [d; h] = p) by (cbn; lia) end.
    split; [specialize (Z _ _ _ E); lia|]. eapply G; eauto.
Qed.

(** Everything but a division is an error. *)
Lemma auto_mesh_error P devices : devices <> [] -> NoDup (map (coords_of local_devices devices) devices) ->
  (P = 0 \/ (P <= length devices /\ length devices mod P <> 0)) ->
  exists e, get_auto_logical_mesh all_devices local_devices P devices = Raise e.
Proof.
  intros N0 ND H. destruct (get_auto_logical_mesh _ _ _ _) as [m|e] eqn:E; [|eauto]. exfalso.
  apply auto_mesh in E; auto. cbv zeta in E. destruct E as [E1 [[r [_ E2]] _]]. destruct H as [->|[H1 H2]]; [lia|].
  rewrite Nat.min_l in * by lia. apply H2. rewrite <- E2, Nat.mul_comm, Nat.mod_mul by lia. auto.
Qed.
End Mesh.
