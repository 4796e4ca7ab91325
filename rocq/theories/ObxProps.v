(** C97: initialisation from an Orbax checkpoint. *)
From Coq Require Import List Arith ZArith Bool Lia.
From Verif Require Import Py PyLemmas TreeModel TreeSpec MapModel ObxModel ObxSpec ObxProofs ObxProofs2.
Import ListNotations.
Local Open Scope nat_scope.

(** What orbax is asked for: every array with the shape and type in its file and the spec of the first rule that matches its
    name.  It is an error exactly if a key has a slash, a file cannot be read, a rule matches the name of a value without a
    shape, or the mesh lacks an axis. *)
Theorem C97_asked : forall (V D : Type) (zarray : str -> res (list nat * D)) (shape_if : V -> option (list nat)) (named : spec -> option err)
  (regex : Type) (rsearch : regex -> str -> bool) (dir : str) (o : option (list (regex * uspec))) (t : tree (oleaf V)) (r : tree (rargs D)),
  wf (fun _ => True) t -> plain dir -> names_relative t ->
  restore_args V D zarray shape_if named regex rsearch dir o t = Ok r <->
  (exists cs, t = Node cs) /\ wf no_slash t /\ related (asked zarray shape_if named rsearch dir (the_rules o)) [] t r.
Proof. intros V D z si nm regex rs dir o t r. exact (restore_args_iff z si nm rs dir o t r). Qed.
Print Assumptions C97_asked.

(** What is restored: exactly the saved arrays and values, at their names. *)
Theorem C97_restored : forall (V D array : Type) (zarray : str -> res (list nat * D)) (shape_if : V -> option (list nat)) (named : spec -> option err)
  (regex : Type) (rsearch : regex -> str -> bool) (stored : str -> res array) (value : oleaf V -> array) (cast : D -> array -> array) (resize : list nat -> array -> array)
  (fits : spec -> list nat -> option err) (shape_of : array -> list nat) (dtype_of : array -> D)
  (dir : str) (o : option (list (regex * uspec))) (t : tree (oleaf V)) (c : tree array),
  wf (fun _ => True) t -> plain dir -> names_relative t -> consistent zarray stored shape_of dtype_of cast resize dir t ->
  restore_orbax V D array zarray shape_if named regex rsearch stored value cast resize fits dir o t = Ok c <->
  (exists cs, t = Node cs) /\ wf no_slash t /\
  related (fun p x y => restored stored value x y /\ exists a, asked zarray shape_if named rsearch dir (the_rules o) p x a /\ fits_args fits a) [] t c.
Proof. intros V D array z si nm regex rs st va ca re fi so dt dir o t c. exact (restored_iff z si nm rs st va ca re fi so dt dir o t c). Qed.
Print Assumptions C97_restored.

(** Without rules every checkpoint whose arrays can be read is restored.
    What is missing: with rules, and with slashes in keys, it is false (C97_rules_refuted, C97_slash_refuted). *)
Theorem C97_accepts_partial : forall (V D array : Type) (zarray : str -> res (list nat * D)) (shape_if : V -> option (list nat)) (named : spec -> option err)
  (regex : Type) (rsearch : regex -> str -> bool) (stored : str -> res array) (value : oleaf V -> array) (cast : D -> array -> array) (resize : list nat -> array -> array)
  (fits : spec -> list nat -> option err) (shape_of : array -> list nat) (dtype_of : array -> D) (dir : str) cs,
  wf no_slash (Node cs) -> plain dir -> names_relative (Node cs) -> consistent zarray stored shape_of dtype_of cast resize dir (Node cs) ->
  named [] = None -> (forall sh, fits [] sh = None) ->
  (forall p x name, leaf_at (Node cs) p x -> stands_for x name -> exists a, stored name = Ok a) ->
  exists c, restore_orbax V D array zarray shape_if named regex rsearch stored value cast resize fits dir None (Node cs) = Ok c.
Proof. intros V D array z si nm regex rs st va ca re fi so dt dir cs. exact (restored_accepts z si nm rs st va ca re fi so dt dir cs). Qed.
Print Assumptions C97_accepts_partial.

Section Init.
Context {V D array : Type} (zarray : str -> res (list nat * D)) (shape_if : V -> option (list nat)) (named : spec -> option err)
  {regex : Type} (rsearch : regex -> str -> bool) (stored : str -> res array) (value : oleaf V -> array) (cast : D -> array -> array) (resize : list nat -> array -> array)
  (fits : spec -> list nat -> option err) {pat : Type} (search : pat -> str -> bool) (sub : pat -> str -> str -> str) (dtype_eqb : D -> D -> bool)
  (shape_of : array -> list nat) (dtype_of : array -> D) (astype : array -> D -> array) (broadcast_to : array -> list nat -> res array)
  (transform : kind -> array -> array -> res array) (stack : Z -> list array -> res array).
Notation init := (initialize_from_orbax V D array zarray shape_if named regex rsearch stored value cast resize fits pat search sub dtype_eqb shape_of dtype_of
  astype broadcast_to transform stack).
Notation mapped := (map_state_dict pat search sub array D dtype_eqb shape_of dtype_of astype broadcast_to transform stack).

(** The target is initialised by mapping what was saved, whatever the sharding while reading. *)
Theorem C97_initialized : forall fl rules dir o t target out,
  wf (fun _ => True) t -> plain dir -> names_relative t -> consistent zarray stored shape_of dtype_of cast resize dir t ->
  init fl rules dir o t target = Ok out ->
  exists c, related (fun _ => restored stored value) [] t c /\ mapped fl rules c target = Ok out.
Proof.
  intros fl rules dir o t target out W Dp N C E. unfold initialize_from_orbax in E. apply bind_ok in E. destruct E as [c [E M]]. exists c. split; [|exact M].
  apply (restored_iff zarray shape_if named rsearch stored value cast resize fits shape_of dtype_of dir o t c W Dp N C) in E. destruct E as (_ & _ & R).
  eapply related_impl; [|exact R]. intros q x y _ [H _]. exact H.
Qed.
(** Rules of the sharding do not change the result. *)
Theorem C97_sharding_immaterial : forall fl rules dir o o' t target out out',
  wf (fun _ => True) t -> plain dir -> names_relative t -> consistent zarray stored shape_of dtype_of cast resize dir t ->
  init fl rules dir o t target = Ok out -> init fl rules dir o' t target = Ok out' -> out = out'.
Proof.
  intros fl rules dir o o' t target out out' W Dp N C E E'. unfold initialize_from_orbax in *. apply bind_ok in E. destruct E as [c [E M]].
  apply bind_ok in E'. destruct E' as [c' [E' M']].
  rewrite (restored_same zarray shape_if named rsearch stored value cast resize fits shape_of dtype_of dir o o' t c c' W Dp N C E E') in M. congruence.
Qed.
End Init.
Print Assumptions C97_initialized.
Print Assumptions C97_sharding_immaterial.

(** Arrays are their number, of shape [2; 3] and the only type; regular expressions are whether they match. *)
Definition z_ex (f : str) : res (list nat * unit) := if str_eqb f (zarray_file [100] [119]) then Ok ([2; 3], tt) else Raise RuntimeError.
Definition st_ex (name : str) : res nat := if str_eqb name [119] then Ok 7 else Raise RuntimeError.
Definition val_ex (x : oleaf nat) : nat := match x with OVal v => v | _ => 0 end.
Definition t_ex : tree (oleaf nat) := Node [([112], Node [([119], Leaf (OStr (placeholder ++ [119])))]); ([115], Leaf (OVal 5)); ([110], Leaf ONone)].
Definition rs_ex (r : bool) (k : str) : bool := r && str_eqb k [112; 47; 119].
Notation args_ex := (restore_args nat unit z_ex (fun _ => None) (fun _ => None) bool).
Notation orbax_ex := (restore_orbax nat unit nat z_ex (fun _ => None) (fun _ => None) bool).
Example C97_ex : wf (fun _ => True) t_ex /\ plain [100] /\ names_relative t_ex /\
  consistent z_ex st_ex (fun _ => [2; 3]) (fun _ => tt) (fun _ a => a) (fun _ a => a) [100] t_ex /\
  args_ex rs_ex [100] (Some [(true, USeq [AName [101]])]) t_ex =
    Ok (Node [([112], Node [([119], Leaf (RArray tt [AName [101]] [2; 3]))]); ([115], Leaf RPlain); ([110], Leaf RNone)]) /\
  orbax_ex rs_ex st_ex val_ex (fun _ a => a) (fun _ a => a) (fun _ _ => None) [100] (Some [(true, USeq [AName [101]])]) t_ex =
    Ok (Node [([112], Node [([119], Leaf 7)]); ([115], Leaf 5); ([110], Leaf 0)]).
Proof.
  assert (K : forall p x name, leaf_at t_ex p x -> stands_for x name -> name = [119]).
  { intros p x name A S. unfold stands_for in S. subst x. inversion A as [|? k c q ? I B]; subst. destruct I as [I|[I|[I|[]]]]; injection I as <- <-.
    - inversion B as [|? k c q' ? I C]; subst. destruct I as [I|[]]. injection I as <- <-. inversion C; subst. reflexivity.
    - inversion B.
    - inversion B. }
  split; [|split; [|split; [|split; [|split; reflexivity]]]].
  - repeat constructor; simpl; intuition discriminate.
  - split; discriminate.
  - intros p x name A S. rewrite (K p x name A S). repeat split; discriminate.
  - split; [|intros a; split; reflexivity]. intros p x name a A S T. rewrite (K p x name A S). reflexivity.
Qed.

(** The array p/w becomes k of the target; the other leaves are dropped. *)
Definition init_ex := initialize_from_orbax nat unit nat z_ex (fun _ => None) (fun _ => None) bool rs_ex st_ex val_ex (fun _ a => a) (fun _ a => a) (fun _ _ => None)
  str (fun p k => str_eqb p k) (fun _ r _ => r) (fun _ _ => true) (fun _ => [2; 3]) (fun _ => tt) (fun a _ => a) (fun a _ => Ok a) (fun _ s _ => Ok s) (fun _ l => Ok (hd 0 l))
  {| raise_dtype := true; raise_shape := true; raise_source := false; raise_target := false |}.
Definition drop_ex : list (urule str) := [UTuple _ [112; 47; 119] (Some [107]) None; UTuple _ [115] None None; UTuple _ [110] None None].
Example C97_init_ex :
  init_ex drop_ex [100] (Some [(true, USeq [AName [101]])]) t_ex (Node [([107], Leaf 1)]) = Ok (Node [([107], Leaf 7)]) /\ init_ex drop_ex [100] None t_ex (Node [([107], Leaf 1)]) = Ok (Node [([107], Leaf 7)]).
Proof. split; vm_compute; reflexivity. Qed.

(** A rule that also matches the name of a value without shape: the checkpoint can be read without rules, not with them. *)
Theorem C97_rules_refuted : exists (rs : bool -> str -> bool) (rules : list (bool * uspec)) c,
  orbax_ex rs st_ex val_ex (fun _ a => a) (fun _ a => a) (fun _ _ => None) [100] None t_ex = Ok c /\
  orbax_ex rs st_ex val_ex (fun _ a => a) (fun _ a => a) (fun _ _ => None) [100] (Some rules) t_ex = Raise AttributeError.
Proof. exists (fun r _ => r), [(true, USeq [AName [101]])]. eexists. split; reflexivity. Qed.
Print Assumptions C97_rules_refuted.
(** A slash in a key: the array can be read, but the checkpoint cannot. *)
Theorem C97_slash_refuted : exists t : tree (oleaf nat), wf (fun _ => True) t /\
  (forall p x name, leaf_at t p x -> stands_for x name -> exists a, st_ex name = Ok a) /\
  orbax_ex rs_ex st_ex val_ex (fun _ a => a) (fun _ a => a) (fun _ _ => None) [100] None t = Raise ValueError.
Proof.
  exists (Node [([112; 47; 119], Leaf (OStr (placeholder ++ [119])))]). split; [repeat constructor; simpl; intuition discriminate|]. split; [|reflexivity].
  intros p x name A S. exists 7. unfold stands_for in S. subst x. inversion A as [|? k c q ? I B]; subst. destruct I as [I|[]]. injection I as <- <-. inversion B; subst. reflexivity.
Qed.
Print Assumptions C97_slash_refuted.
