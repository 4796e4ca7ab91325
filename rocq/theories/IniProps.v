(** C85. *)
From Coq Require Import List Arith ZArith Bool Permutation Lia.
From Verif Require CkptModel CkptSpec CkptProps.
From Verif Require Import Py TreeModel TreeSpec MapModel MapSpec IniModel IniSpec IniProofs IniProofs2 IniProofs3 IniProofs4 IniProofs5.
Import ListNotations.
Local Open Scope nat_scope.

(** C85: initialising from a V-MoE checkpoint is mapping the arrays that were saved, as they
    were in memory, onto the target.  The number of processes then and now, the files, the
    mesh, the partitioning rules and the order of the reads do not matter, except that a
    spec that does not fit its array is an error. *)
Theorem C85_as_in_memory :
  forall V D array (mk : list nat -> D -> list V -> array) (zero : V) nproc places sched
    pat (search : pat -> str -> bool) (sub : pat -> str -> str -> str) (dtype_eqb : D -> D -> bool)
    (shape_of : array -> list nat) (dtype_of : array -> D) (astype : array -> D -> array)
    (broadcast_to : array -> list nat -> res array) (transform : kind -> array -> array -> res array)
    (stack : Z -> list array -> res array) regex (rsearch : regex -> str -> bool),
  good_places nproc places -> (forall p l, Permutation (sched p l) l) ->
  forall P t ck fl rules regexes target,
  saved V D P t ck -> no_empty_axes V D (state t) -> wf no_slash (state t) -> (exists cs, state t = Node cs) ->
  let init := initialize_from_vmoe V D array mk zero nproc places sched pat search sub dtype_eqb
                shape_of dtype_of astype broadcast_to transform stack regex rsearch fl rules regexes ck target in
  exists source, reordered (tmap (array_of V D array mk) (state t)) source /\
    (init = map_state_dict pat search sub array D dtype_eqb shape_of dtype_of astype broadcast_to transform stack
              fl rules source (state target) \/
     exists q ld s e, leaf_at (state t) q ld /\
       first_rule regex rsearch (rules_in regexes) q (Some (CkptModel.lf_shape (fst ld))) s /\
       places s (CkptModel.lf_shape (fst ld)) = Raise e /\ init = Raise e).
Proof.
  intros. exact (vmoe_ok V D array mk zero nproc places sched pat search sub dtype_eqb shape_of dtype_of astype
    broadcast_to transform stack regex rsearch H H0 P t ck fl rules regexes target H1 H2 H3 H4).
Qed.
Print Assumptions C85_as_in_memory.

(** So, each parameter of the target is what C28 says for the saved arrays: as initialised,
    or from the saved array(s) that the rules send to it. *)
Theorem C85_assigned :
  forall V D array (mk : list nat -> D -> list V -> array) (zero : V) nproc places sched
    pat (search : pat -> str -> bool) (sub : pat -> str -> str -> str) (dtype_eqb : D -> D -> bool)
    (shape_of : array -> list nat) (dtype_of : array -> D) (astype : array -> D -> array)
    (broadcast_to : array -> list nat -> res array) (transform : kind -> array -> array -> res array)
    (stack : Z -> list array -> res array) regex (rsearch : regex -> str -> bool),
  good_places nproc places -> (forall p l, Permutation (sched p l) l) ->
  (forall a b, reflect (a = b) (dtype_eqb a b)) ->
  forall P t ck fl rules regexes target out,
  saved V D P t ck -> no_empty_axes V D (state t) -> wf no_slash (state t) -> (exists cs, state t = Node cs) ->
  wf (fun _ => True) (state target) ->
  initialize_from_vmoe V D array mk zero nproc places sched pat search sub dtype_eqb
    shape_of dtype_of astype broadcast_to transform stack regex rsearch fl rules regexes ck target = Ok out ->
  related (assigned pat search sub array D shape_of dtype_of astype broadcast_to transform stack
             (fun _ => True) fl rules (tmap (array_of V D array mk) (state t))) [] (state target) out /\
  (raise_source fl = true -> forall key s, named_array array (tmap (array_of V D array mk) (state t)) key s ->
     ~ no_rule pat search rules key).
Proof.
  intros V D array mk zero nproc places sched pat search sub dtype_eqb shape_of dtype_of astype broadcast_to transform stack
    regex rsearch GP SC DE P t ck fl rules regexes target out SV NE W N WT E.
  destruct (vmoe_ok V D array mk zero nproc places sched pat search sub dtype_eqb shape_of dtype_of astype
    broadcast_to transform stack regex rsearch GP SC P t ck fl rules regexes target SV NE W N) as (source & R & [E'|(q & ld & s & e & _ & _ & _ & E')]).
  - rewrite E in E'. eapply mapping_assigned; eauto. apply wf_tmap. exact W.
  - rewrite E in E'. discriminate.
Qed.
Print Assumptions C85_assigned.

(** The same for checkpoints from before 2022/06/22, if the target has the structure that
    was saved. *)
Theorem C85_old :
  forall V D array (mk : list nat -> D -> list V -> array) (zero : V) nproc places sched
    pat (search : pat -> str -> bool) (sub : pat -> str -> str -> str) (dtype_eqb : D -> D -> bool)
    (shape_of : array -> list nat) (dtype_of : array -> D) (astype : array -> D -> array)
    (broadcast_to : array -> list nat -> res array) (transform : kind -> array -> array -> res array)
    (stack : Z -> list array -> res array) regex (rsearch : regex -> str -> bool),
  good_places nproc places -> (forall p l, Permutation (sched p l) l) ->
  forall P t ck fl rules regexes target,
  old_saved V D P t ck -> no_empty_axes V D (state t) -> same_struct target t = true ->
  wf no_slash (state t) -> wf no_slash (state target) -> (exists cs, state target = Node cs) ->
  let init := initialize_from_vmoe V D array mk zero nproc places sched pat search sub dtype_eqb
                shape_of dtype_of astype broadcast_to transform stack regex rsearch fl rules regexes ck target in
  exists source, reordered (tmap (array_of V D array mk) (state t)) source /\
    (init = map_state_dict pat search sub array D dtype_eqb shape_of dtype_of astype broadcast_to transform stack
              fl rules source (state target) \/
     exists q ld x s e, leaf_at (state t) q ld /\ leaf_at (state target) q x /\
       first_rule regex rsearch (rules_in regexes) q (Some (shape_of x)) s /\
       places s (CkptModel.lf_shape (fst ld)) = Raise e /\ init = Raise e).
Proof.
  intros. exact (old_ok V D array mk zero nproc places sched pat search sub dtype_eqb shape_of dtype_of astype
    broadcast_to transform stack regex rsearch H H0 P t ck fl rules regexes target H1 H2 H3 H4 H5 H6).
Qed.
Print Assumptions C85_old.

(** If some name is only in the checkpoint or only in the target, it is a ValueError. *)
Theorem C85_old_other_names :
  forall V D array (mk : list nat -> D -> list V -> array) (zero : V) nproc places sched
    pat (search : pat -> str -> bool) (sub : pat -> str -> str -> str) (dtype_eqb : D -> D -> bool)
    (shape_of : array -> list nat) (dtype_of : array -> D) (astype : array -> D -> array)
    (broadcast_to : array -> list nat -> res array) (transform : kind -> array -> array -> res array)
    (stack : Z -> list array -> res array) regex (rsearch : regex -> str -> bool)
    P t ck fl rules regexes target q,
  old_saved V D P t ck ->
  ~ ((exists ld, leaf_at (state t) q ld) <-> (exists x, leaf_at (state target) q x)) ->
  initialize_from_vmoe V D array mk zero nproc places sched pat search sub dtype_eqb
    shape_of dtype_of astype broadcast_to transform stack regex rsearch fl rules regexes ck target = Raise ValueError.
Proof. intros until q. apply old_other. Qed.
Print Assumptions C85_old_other_names.

(** C85 for VisionTransformer checkpoints: the mapping of the arrays of the file, those of
    void types read as bfloat16. *)
Theorem C85_vit :
  forall D array pat (search : pat -> str -> bool) (sub : pat -> str -> str -> str) (dtype_eqb : D -> D -> bool)
    (shape_of : array -> list nat) (dtype_of : array -> D) (astype : array -> D -> array)
    (broadcast_to : array -> list nat -> res array) (transform : kind -> array -> array -> res array)
    (stack : Z -> list array -> res array) regex (rsearch : regex -> str -> bool)
    (shape_if : array -> option (list nat)) void_itemsize view fits
    fl rules regexes ckpt target,
  let init := initialize_from_vit D array pat search sub dtype_eqb shape_of dtype_of astype broadcast_to transform stack
                regex rsearch shape_if void_itemsize view fits fl rules regexes ckpt target in
  let fixed := as_bfloat16 void_itemsize view in
  (forall q x n, leaf_at ckpt q x -> void_itemsize x = Some n -> n = 2) ->
  (forall l, regexes = Some l -> wf no_slash ckpt /\ (exists cs, ckpt = Node cs) /\
     forall q x r u, leaf_at ckpt q x -> shape_if (fixed x) = None -> In (r, u) l -> rsearch r (join q) = false) ->
  exists source, reordered (tmap fixed ckpt) source /\
    (init = map_state_dict pat search sub array D dtype_eqb shape_of dtype_of astype broadcast_to transform stack
              fl rules source (state target) \/
     exists q x s e, leaf_at ckpt q x /\
       match regexes with None => s = [] | Some l => first_rule regex rsearch l q (shape_if (fixed x)) s end /\
       fits s (fixed x) = Some e /\ init = Raise e).
Proof. intros. apply vit_ok; assumption. Qed.
Print Assumptions C85_vit.

(** Other void types are an AssertionError. *)
Theorem C85_vit_unknown_type :
  forall D array pat (search : pat -> str -> bool) (sub : pat -> str -> str -> str) (dtype_eqb : D -> D -> bool)
    (shape_of : array -> list nat) (dtype_of : array -> D) (astype : array -> D -> array)
    (broadcast_to : array -> list nat -> res array) (transform : kind -> array -> array -> res array)
    (stack : Z -> list array -> res array) regex (rsearch : regex -> str -> bool)
    (shape_if : array -> option (list nat)) void_itemsize view fits
    fl rules regexes ckpt target q x n,
  leaf_at ckpt q x -> void_itemsize x = Some n -> n <> 2 ->
  initialize_from_vit D array pat search sub dtype_eqb shape_of dtype_of astype broadcast_to transform stack
    regex rsearch shape_if void_itemsize view fits fl rules regexes ckpt target = Raise AssertionError.
Proof. intros until n. apply vit_void. Qed.
Print Assumptions C85_vit_unknown_type.

(** Example: two processes save [4, 3] arrays split by rows, with at most 12 bytes per chunk
    in three files; two other processes restore them, 'a' split in the middle and 'b'
    replicated. *)
Definition ex_a : CkptModel.leaf Z := CkptProps.ex_a.
Definition ex_b : CkptModel.leaf Z :=
  {| CkptModel.lf_shape := [4; 3]; CkptModel.lf_itemsize := 4;
     CkptModel.lf_value := fun i => Z.of_nat (100 + 10 * nth 0 i 0 + nth 1 i 0);
     CkptModel.lf_shards := CkptModel.lf_shards ex_a |}.
Definition ex_s (p : nat) : CkptModel.saved Z :=
  match CkptModel.save_checkpoint 2 p [ex_a; ex_b] (Some 3%Z) (Some 12%Z) with
  | CkptModel.Ok r => r
  | CkptModel.Raise _ => {| CkptModel.sv_files := []; CkptModel.sv_index := []; CkptModel.sv_shard_count := 0 |}
  end.
Lemma ex_all_saved : CkptSpec.all_saved 2 [ex_a; ex_b] (fun _ => [ex_a; ex_b]) (Some 3%Z) (Some 12%Z) ex_s.
Proof.
  destruct CkptProps.ex_all_saved as (HP & G & _ & _). pose proof (Forall_inv G) as Ga.
  split; [exact HP|]. split; [|split].
  - constructor; [exact Ga|]. constructor; [|constructor]. destruct Ga. constructor; assumption.
  - intros p Hp. repeat constructor; auto.
  - intros p Hp. destruct p as [|[|p]]; [reflexivity|reflexivity|lia].
Qed.

Definition na : str := [97].
Definition nb : str := [98].
Definition ex_tree : ptree (CkptModel.leaf Z * nat) := PNode false [(nb, PLeaf (ex_b, 1)); (na, PLeaf (ex_a, 0))].
(** A dataclass whose fields are b and a. *)
Definition ex_old_tree : ptree (CkptModel.leaf Z * nat) := PNode true [(nb, PLeaf (ex_a, 0)); (na, PLeaf (ex_b, 1))].
Definition ok_or {T} (d : T) (x : res T) : T := match x with Ok v => v | Raise _ => d end.
Definition ex_ck : checkpoint Z nat :=
  {| ck_version := V1;
     ck_index := ok_or (Node []) (saved_index Z nat ex_tree (CkptModel.sv_index (ex_s 0)));
     ck_files := rev (flat_map (fun p => CkptModel.sv_files (ex_s p)) (seq 0 2)) |}.
Definition ex_old : checkpoint Z nat :=
  {| ck_version := VUnknown;
     ck_index := ok_or (Node []) (old_saved_index Z nat ex_old_tree (CkptModel.sv_index (ex_s 0)));
     ck_files := rev (flat_map (fun p => CkptModel.sv_files (ex_s p)) (seq 0 2)) |}.

Definition ex_array : Type := list nat * nat * list Z.
Definition ex_places (s : spec) (shape : list nat) : res (nat -> CkptModel.target) :=
  match s, shape with
  | [], _ => Ok (fun _ => [map (fun _ => (None, None)) shape])
  | _, n :: r =>
      if (2 * (n / 2) =? n) then Ok (fun p => [(Some (p * (n / 2)), Some ((p + 1) * (n / 2))) :: map (fun _ => (None, None)) r])
      else Raise ValueError
  | _, [] => Raise ValueError
  end.
Definition ex_init (fl : flags) rules regexes ck target :=
  initialize_from_vmoe Z nat ex_array (fun s d l => (s, d, l)) 0%Z 2 ex_places (fun _ l => rev l)
    str str_eqb (fun _ r _ => r) Nat.eqb (fun a => fst (fst a)) (fun a => snd (fst a))
    (fun a d => (fst (fst a), d, snd a)) (fun a s => if list_eq_dec Nat.eq_dec (fst (fst a)) s then Ok a else Raise ValueError)
    (fun _ s _ => Ok s) (fun _ l => match l with a :: _ => Ok a | [] => Raise ValueError end)
    str str_eqb fl rules regexes ck target.
Definition ex_fl : flags := {| raise_dtype := false; raise_shape := true; raise_source := true; raise_target := true |}.
Definition zeros : ex_array := ([4; 3], 0, repeat 0%Z 12).

Lemma wf_two {L} (j k : str) (x y : L) : j <> k -> no_slash j -> no_slash k -> wf no_slash (Node [(j, Leaf x); (k, Leaf y)]).
Proof.
  intros N A B. constructor.
  - simpl. constructor; [simpl; intros [E|[]]; congruence|]. constructor; [simpl; intros []|]. constructor.
  - constructor; [split; [exact A|constructor]|]. constructor; [split; [exact B|constructor]|]. constructor.
Qed.
Lemma all_slices r : Forall (lt 0) r -> CkptSpec.valid_index r (map (fun _ => (None, None)) r).
Proof. induction 1; constructor; auto. split; simpl; auto. Qed.
Lemma all_selected x r : CkptSpec.in_shape x r -> CkptSpec.selected x (map (fun _ => (None, None)) r).
Proof. induction 1; constructor; auto. split; simpl; auto. Qed.
Example ex_good_places : good_places 2 ex_places.
Proof.
  intros s shape f PS E. destruct s as [|ax s].
  - injection E as <-. split.
    + intros p _. repeat constructor. apply all_slices. exact PS.
    + intros x HX. exists 0, (map (fun _ => (None, None)) shape). split; [lia|]. split; [left; reflexivity|].
      apply all_selected. exact HX.
  - destruct shape as [|n r]; [discriminate|]. cbn [ex_places] in E. destruct (2 * (n / 2) =? n) eqn:En; [|discriminate].
    apply Nat.eqb_eq in En. set (h := n / 2) in *. clearbody h. injection E as <-. inversion PS as [|? ? Hn PR]; subst.
    split.
    + intros p Hp. constructor; [|constructor]. constructor; [|apply all_slices; assumption].
      destruct p as [|[|p]]; [| |lia]; split; cbn [fst snd]; lia.
    + intros x HX. inversion HX as [|i ? y ? Hi HY]; subst.
      exists (if i <? h then 0 else 1). eexists. split; [destruct (i <? h); lia|]. split; [left; reflexivity|].
      constructor; [|apply all_selected; assumption]. destruct (i <? h) eqn:Ei.
      * apply Nat.ltb_lt in Ei. split; simpl; lia.
      * apply Nat.ltb_ge in Ei. split; simpl; lia.
Qed.
Example ex_saved : saved Z nat 2 ex_tree ex_ck.
Proof.
  exists (fun _ => [ex_a; ex_b]), (Some 3%Z), (Some 12%Z), ex_s.
  split; [exact ex_all_saved|]. split; [apply Permutation_sym, Permutation_rev|]. split; reflexivity.
Qed.
Example ex_saved_old : old_saved Z nat 2 ex_old_tree ex_old.
Proof.
  exists (fun _ => [ex_a; ex_b]), (Some 3%Z), (Some 12%Z), ex_s.
  split; [exact ex_all_saved|]. split; [apply Permutation_sym, Permutation_rev|]. split; reflexivity.
Qed.
(** 'b' is renamed to 'c'; 'a' is read in two halves. *)
Example C85_example :
  no_empty_axes Z nat (state ex_tree) /\ wf no_slash (state ex_tree) /\
  ex_init ex_fl [UTuple _ nb (Some [99]) None; UTuple _ na (Some na) None]
    (Some [(na, USeq [AName [100]])]) ex_ck (PNode false [(na, PLeaf zeros); ([99], PLeaf zeros)]) =
  Ok (Node [(na, Leaf ([4; 3], 0, [0; 1; 2; 10; 11; 12; 20; 21; 22; 30; 31; 32]%Z));
            ([99], Leaf ([4; 3], 0, [100; 101; 102; 110; 111; 112; 120; 121; 122; 130; 131; 132]%Z))]).
Proof.
  split; [|split].
  - intros q ld Q. inversion Q as [|? k c ? ? IN Q']; subst. destruct IN as [E|[E|[]]]; injection E as <- <-;
      inversion Q'; subst; repeat constructor.
  - apply wf_two; [discriminate| |]; intros [E|[]]; discriminate.
  - vm_compute. reflexivity.
Qed.
(** An odd axis cannot be split in two; here a wrong spec is given for 'a'. *)
Example C85_example_unfit :
  ex_init ex_fl [] (Some [(na, USeq [AName [100]])])
    {| ck_version := V1; ck_index := Node [(na, Leaf ({| CkptModel.ii_shape := [3]; CkptModel.ii_slices := []; CkptModel.ii_shards := [] |}, 0))]; ck_files := [] |}
    (PNode false [(na, PLeaf zeros)]) = Raise ValueError.
Proof. vm_compute. reflexivity. Qed.
(** The same dataclass. *)
Example C85_example_old :
  same_struct (PNode true [(nb, PLeaf zeros); (na, PLeaf zeros)]) ex_old_tree = true /\
  ex_init ex_fl [UTuple _ nb (Some nb) None; UTuple _ na (Some na) None]
    (Some [(na, USeq [AName [100]])]) ex_old (PNode true [(nb, PLeaf zeros); (na, PLeaf zeros)]) =
  Ok (Node [(nb, Leaf ([4; 3], 0, [0; 1; 2; 10; 11; 12; 20; 21; 22; 30; 31; 32]%Z));
            (na, Leaf ([4; 3], 0, [100; 101; 102; 110; 111; 112; 120; 121; 122; 130; 131; 132]%Z))]).
Proof. split; vm_compute; reflexivity. Qed.

(** For old checkpoints the comparison of the state dicts is not enough: with a dict of the
    same names as target, initialisation succeeds and the arrays are swapped. *)
Theorem C85_old_other_containers_refuted :
  exists (ck : checkpoint Z nat) t target out,
    old_saved Z nat 2 t ck /\ no_empty_axes Z nat (state t) /\
    wf no_slash (state t) /\ wf no_slash (state target) /\
    (forall q, (exists ld, leaf_at (state t) q ld) <-> (exists x, leaf_at (state target) q x)) /\
    ex_init ex_fl [UTuple _ nb (Some nb) None; UTuple _ na (Some na) None] None ck target = Ok out /\
    leaf_at (state t) [na] (ex_b, 1) /\
    leaf_at out [na] ([4; 3], 0, row_major [4; 3] (CkptModel.lf_value ex_a)) /\
    row_major [4; 3] (CkptModel.lf_value ex_a) <> row_major [4; 3] (CkptModel.lf_value ex_b).
Proof.
  exists ex_old, ex_old_tree, (PNode false [(na, PLeaf zeros); (nb, PLeaf zeros)]).
  eexists. split; [exact ex_saved_old|]. split.
  { intros q ld Q. inversion Q as [|? k c ? ? IN Q']; subst. destruct IN as [E|[E|[]]]; injection E as <- <-;
      inversion Q'; subst; repeat constructor. }
  split; [apply wf_two; [discriminate| |]; intros [E|[]]; discriminate|].
  split; [apply wf_two; [discriminate| |]; intros [E|[]]; discriminate|].
  split.
  { intros q. split; intros [z Q]; inversion Q as [|? k c ? ? IN Q']; subst; destruct IN as [E|[E|[]]]; injection E as <- <-;
      inversion Q'; subst; eexists; econstructor; try (left; reflexivity); try (right; left; reflexivity); constructor. }
  split; [vm_compute; reflexivity|].
  split; [econstructor; [right; left; reflexivity|constructor]|].
  split; [econstructor; [left; reflexivity|constructor]|].
  vm_compute. discriminate.
Qed.
Print Assumptions C85_old_other_containers_refuted.

(** VisionTransformer checkpoints; type 9 is a void type of two bytes, 8 of four bytes and 2
    bfloat16. *)
Definition ex_void (a : ex_array) : option nat :=
  match snd (fst a) with 9 => Some 2 | 8 => Some 4 | _ => None end.
Definition ex_view (a : ex_array) : ex_array := (fst (fst a), 2, snd a).
Definition ex_vit ckpt target :=
  initialize_from_vit nat ex_array str str_eqb (fun _ r _ => r) Nat.eqb (fun a => fst (fst a)) (fun a => snd (fst a))
    (fun a d => (fst (fst a), d, snd a)) (fun a s => if list_eq_dec Nat.eq_dec (fst (fst a)) s then Ok a else Raise ValueError)
    (fun _ s _ => Ok s) (fun _ l => match l with a :: _ => Ok a | [] => Raise ValueError end)
    str str_eqb (fun a => Some (fst (fst a))) ex_void ex_view (fun s a => if length (fst (fst a)) <? length s then Some ValueError else None)
    ex_fl [UTuple _ nb (Some na) None; UTuple _ na (Some nb) None] (Some [(na, USeq [AName [100]])]) ckpt target.
Example C85_example_vit :
  ex_vit (Node [(nb, Leaf ([2], 9, [5; 6]%Z)); (na, Leaf ([2], 3, [7; 8]%Z))])
    (PNode false [(na, PLeaf ([2], 2, [0; 0]%Z)); (nb, PLeaf ([2], 3, [0; 0]%Z))]) =
  Ok (Node [(na, Leaf ([2], 2, [5; 6]%Z)); (nb, Leaf ([2], 3, [7; 8]%Z))]) /\
  ex_vit (Node [(nb, Leaf ([2], 8, [5; 6]%Z)); (na, Leaf ([2], 3, [7; 8]%Z))])
    (PNode false [(na, PLeaf ([2], 2, [0; 0]%Z)); (nb, PLeaf ([2], 3, [0; 0]%Z))]) = Raise AssertionError.
Proof. split; vm_compute; reflexivity. Qed.
