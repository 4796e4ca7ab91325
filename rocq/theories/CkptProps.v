(** Property theorems C12-C19 (partitioned checkpoints). *)
From Coq Require Import List Arith ZArith Bool Lia Permutation.
From Verif Require Import Prim CkptModel CkptSpec CkptProofs CkptProofs2.
Import ListNotations.
Local Open Scope nat_scope.

(** Example: two processes; an array [4, 3] of 4-byte items split by rows, a replicated
    scalar, and a limit of 12 bytes per chunk. *)
Definition ex_a : leaf Z :=
  {| lf_shape := [4; 3]; lf_itemsize := 4;
     lf_value := fun i => Z.of_nat (10 * nth 0 i 0 + nth 1 i 0);
     lf_shards := [{| sh_index := [(None, Some 2); (None, None)]; sh_proc := 0 |};
                   {| sh_index := [(Some 2, Some 4); (None, None)]; sh_proc := 1 |}] |}.
Definition ex_b : leaf Z :=
  {| lf_shape := []; lf_itemsize := 4; lf_value := fun _ => 7%Z;
     lf_shards := [{| sh_index := []; sh_proc := 0 |}; {| sh_index := []; sh_proc := 1 |}] |}.
Definition ex_views (p : nat) : list (leaf Z) := [ex_a; ex_b].
Definition ex_saved (p : nat) : saved Z :=
  match save_checkpoint 2 p [ex_a; ex_b] (Some 3%Z) (Some 12%Z) with
  | Ok r => r
  | Raise _ => {| sv_files := []; sv_index := []; sv_shard_count := 0 |}
  end.
Definition ex_files := flat_map (fun p => sv_files (ex_saved p)) (seq 0 2).


Example ex_all_saved : all_saved 2 [ex_a; ex_b] ex_views (Some 3%Z) (Some 12%Z) ex_saved.
Proof.
  split; [lia|]. split; [|split].
  - constructor; [|constructor; [|constructor]]; constructor; simpl.
    + lia.
    + intros sh [<-|[<-|[]]]; repeat constructor; simpl; lia.
    + intros sh [<-|[<-|[]]]; simpl; lia.
    + intros x H. inversion H as [|i ? y ? Hi H']; subst. inversion H' as [|j ? z ? Hj H'']; subst.
      inversion H''; subst. destruct (lt_dec i 2).
      * eexists; split; [left; reflexivity|]. constructor; [|constructor; [|constructor]]; split; simpl; auto; lia.
      * eexists; split; [right; left; reflexivity|]. constructor; [|constructor; [|constructor]]; split; simpl; auto; lia.
    + intros sh sh' x [<-|[<-|[]]] [<-|[<-|[]]] _ S S'; auto; exfalso; simpl in *;
        inversion S as [|? ? ? ? [A B]]; inversion S' as [|? ? ? ? [A' B']]; subst;
        match goal with H : _ :: _ = _ :: _ |- _ => injection H; intros; subst end; simpl in *; lia.
    + lia.
    + intros sh [<-|[<-|[]]]; constructor.
    + intros sh [<-|[<-|[]]]; simpl; lia.
    + intros x H. inversion H; subst. eexists; split; [left; reflexivity|constructor].
    + intros sh sh' x [<-|[<-|[]]] [<-|[<-|[]]]; auto.
  - intros p Hp. repeat constructor; auto.
  - intros p Hp. destruct p as [|[|p]]; [reflexivity|reflexivity|lia].
Qed.

(** C12 *)
Theorem C12_save_restore_identity :
  forall V (P : nat) (leaves : list (leaf V)) (views : nat -> list (leaf V))
         (num_shards max_chunk_bytes : option Z),
  0 < P -> Forall (good_leaf P) leaves ->
  (forall p, p < P -> Forall2 same_array (views p) leaves) ->
  (exists s, all_saved P leaves views num_shards max_chunk_bytes s) /\
  forall s, all_saved P leaves views num_shards max_chunk_bytes s ->
  forall (zero : V) files targets sched, on_disk P s files -> good_targets leaves targets ->
    (forall l : list (chunk V), Permutation (sched l) l) ->
    exists out, restore_from_index zero files (sv_index (s 0)) targets sched = Ok out /\
      Forall2 (fun o (t : target) => length o = length t) out targets /\
      forall i lf t o j idx (data : list nat -> V),
        nth_error leaves i = Some lf -> nth_error targets i = Some t -> nth_error out i = Some o ->
        nth_error t j = Some idx -> nth_error o j = Some data ->
        forall x, in_shape x (lf_shape lf) -> selected x idx ->
          data (idx_sub x (origin idx)) = lf_value lf x.
Proof.
  intros V P leaves views ns mcb HP G Sv. split.
  - exact (saves_exist P leaves views ns mcb HP G Sv).
  - intros s AS. exact (restore_ok P mcb ns leaves views s AS).
Qed.
Print Assumptions C12_save_restore_identity.

(** Restored on one device by columns and as a scalar. *)
Example C12_example :
  match restore_from_index 0%Z (rev ex_files) (sv_index (ex_saved 0))
          [[[(None, None); (Some 1, Some 3)]]; [[]]] (@rev _) with
  | Ok [[f]; [g]] => (map f [[0; 0]; [1; 1]; [3; 1]], g []) = ([1; 12; 32]%Z, 7%Z)
  | _ => False
  end.
Proof. vm_compute. reflexivity. Qed.

(** C13 *)
Theorem C13_chunks_partition_and_limit :
  forall (sl : slicend) (max_chunk_bytes : option Z) itemsize, 1 <= itemsize ->
  Forall (fun p : cslice => fst p < snd p) sl ->
  let out := split_slicend sl (max_items_of max_chunk_bytes itemsize) in
  ForallOrdPairs disjoint out /\
  (forall x, within x sl <-> exists c, In c out /\ within x c) /\
  (forall c, In c out -> exists x, within x c) /\
  match max_chunk_bytes with
  | Some b => (1 <= b -> forall c, In c out -> Z.of_nat (volume c) <= item_limit b itemsize)%Z /\
              ((b < 1)%Z -> out = [sl])
  | None => out = [sl]
  end.
Proof. exact chunks_spec. Qed.
Print Assumptions C13_chunks_partition_and_limit.

Example C13_example : split_slicend [(2, 8); (0, 7)] (max_items_of (Some 83%Z) 4) =
  [[(2, 4); (0, 7)]; [(4, 6); (0, 7)]; [(6, 8); (0, 7)]].
Proof. vm_compute. reflexivity. Qed.

(** C14 *)
Theorem C14_written_once_by_a_holder :
  forall V P max_chunk_bytes num_shards (leaves : list (leaf V)) views s files,
  all_saved P leaves views num_shards max_chunk_bytes s -> on_disk P s files ->
  (** the data files are numbered 0 .. shard_count - 1, each written once *)
  (forall p, p < P -> Z.of_nat (sv_shard_count (s p)) =
     match num_shards with Some m => Z.max m (Z.of_nat P) | None => Z.of_nat P end) /\
  NoDup (map fst files) /\
  (forall k, k < sv_shard_count (s 0) <-> exists content, In (k, content) files) /\
  (** every element of every array is in exactly one chunk of one file *)
  (forall i lf x, nth_error leaves i = Some lf -> in_shape x (lf_shape lf) ->
     exists l1 c l2, concat (map snd files) = l1 ++ c :: l2 /\ ch_leaf c = i /\
       within x (ch_slice c) /\
       forall c', In c' (l1 ++ l2) -> ch_leaf c' = i -> within x (ch_slice c') -> False) /\
  (** written by a process with an array shard that contains the chunk *)
  (forall p k content c, p < P -> In (k, content) (sv_files (s p)) -> In c content ->
     k mod P = p /\ k < sv_shard_count (s 0) /\
     exists lf sh, nth_error leaves (ch_leaf c) = Some lf /\ In sh (lf_shards lf) /\
       sh_proc sh = p /\ (exists x, within x (ch_slice c)) /\
       (forall x, within x (ch_slice c) -> in_shape x (lf_shape lf) /\ selected x (sh_index sh) /\
          ch_data c (idx_sub x (map fst (ch_slice c))) = lf_value lf x) /\
       match max_chunk_bytes with
       | Some b => (1 <= b)%Z ->
                   (Z.of_nat (volume (ch_slice c)) <= item_limit b (lf_itemsize lf))%Z
       | None => True
       end).
Proof.
  intros V P mcb ns leaves views s files AS D. split; [|split; [|split; [|split]]].
  - exact (shard_count_eq P mcb ns leaves views s AS).
  - exact (files_unique P mcb ns leaves views s files AS D).
  - exact (files_are_shards P mcb ns leaves views s files AS D).
  - exact (element_once P mcb ns leaves views s files AS D).
  - exact (writer_has_data P mcb ns leaves views s files AS D).
Qed.
Print Assumptions C14_written_once_by_a_holder.

Example C14_example :
  map (fun f => (fst f, map (fun c => (ch_leaf c, ch_slice c)) (snd f))) ex_files =
  [(0, [(0, [(0, 1); (0, 3)]); (1, [])]); (2, [(0, [(1, 2); (0, 3)])]);
   (1, [(0, [(2, 3); (0, 3)]); (0, [(3, 4); (0, 3)])])].
Proof. vm_compute. reflexivity. Qed.

(** C15 *)
Theorem C15_layout_agreement :
  forall V P max_chunk_bytes num_shards (leaves : list (leaf V)) views s files,
  all_saved P leaves views num_shards max_chunk_bytes s -> on_disk P s files ->
  (forall p, p < P -> sv_index (s p) = sv_index (s 0) /\
                      sv_shard_count (s p) = sv_shard_count (s 0)) /\
  map ii_shape (sv_index (s 0)) = map lf_shape leaves /\
  forall i info, nth_error (sv_index (s 0)) i = Some info ->
    length (ii_slices info) = length (ii_shards info) /\ NoDup (ii_slices info) /\
    forall sl k, In (sl, k) (combine (ii_slices info) (ii_shards info)) <-> holds files k i sl.
Proof.
  intros V P mcb ns leaves views s files AS D. split; [|split].
  - exact (processes_agree P mcb ns leaves views s AS).
  - exact (index_shapes P mcb ns leaves views s AS).
  - exact (index_describes P mcb ns leaves views s files AS D).
Qed.
Print Assumptions C15_layout_agreement.

(** Process 1 enumerates the shards backwards. *)
Definition rev_shards (lf : leaf Z) : leaf Z :=
  {| lf_shape := lf_shape lf; lf_itemsize := lf_itemsize lf; lf_value := lf_value lf;
     lf_shards := rev (lf_shards lf) |}.
Example C15_example : same_array (rev_shards ex_a) ex_a /\ rev_shards ex_a <> ex_a /\
  match save_checkpoint 2 1 (map rev_shards [ex_a; ex_b]) (Some 3%Z) (Some 12%Z) with
  | Ok r => sv_index r = sv_index (ex_saved 0) /\ map ii_shards (sv_index r) = [[0; 2; 1; 1]; [0]]
  | Raise _ => False
  end.
Proof.
  split; [|split].
  - repeat split. simpl. apply perm_swap.
  - discriminate.
  - vm_compute. auto.
Qed.

(** C16 *)
Theorem C16_greedy_balance :
  (** each slice goes to the smallest shard among those owned by its holders *)
  (forall P d itemsize bytes bytes' a,
     create_map_slicend_to_ckpt_shard P d itemsize bytes = Ok (bytes', a) ->
     Permutation (map fst a) (map fst d) /\
     (forall k, nth k bytes' 0 = nth k bytes 0 + placed itemsize a k) /\
     forall a1 sl ck a2, a = a1 ++ (sl, ck) :: a2 ->
       ck < length bytes /\ has_slice d sl (ck mod P) /\
       forall j, j < length bytes -> has_slice d sl (j mod P) ->
         nth ck bytes 0 + placed itemsize a1 ck < nth j bytes 0 + placed itemsize a1 j \/
         (nth ck bytes 0 + placed itemsize a1 ck = nth j bytes 0 + placed itemsize a1 j /\ ck <= j)) /\
  (** balance when every process holds every array *)
  (forall V P max_chunk_bytes num_shards (leaves : list (leaf V)) views s files M,
     all_saved P leaves views num_shards max_chunk_bytes s -> on_disk P s files ->
     (forall lf p x, In lf leaves -> p < P -> in_shape x (lf_shape lf) ->
        exists sh, In sh (lf_shards lf) /\ sh_proc sh = p /\ selected x (sh_index sh)) ->
     (forall k content c lf, In (k, content) files -> In c content ->
        nth_error leaves (ch_leaf c) = Some lf -> volume (ch_slice c) * lf_itemsize lf <= M) ->
     forall k content k' content', In (k, content) files -> In (k', content') files ->
       file_bytes leaves content <= file_bytes leaves content' + M).
Proof.
  split.
  - exact assignment_greedy.
  - intros V P mcb ns. exact (balanced P mcb ns).
Qed.
Print Assumptions C16_greedy_balance.

(** Six chunks of 8 bytes and a scalar of 4, held by both processes, on 3 shards. *)
Definition ex_rep : leaf Z :=
  {| lf_shape := [4; 3]; lf_itemsize := 4; lf_value := fun i => Z.of_nat (nth 0 i 0);
     lf_shards := [{| sh_index := [(None, None); (None, None)]; sh_proc := 0 |};
                   {| sh_index := [(None, None); (None, None)]; sh_proc := 1 |}] |}.
Example C16_example :
  match save_checkpoint 2 0 [ex_rep; ex_b] (Some 3%Z) (Some 12%Z),
        save_checkpoint 2 1 [ex_rep; ex_b] (Some 3%Z) (Some 12%Z) with
  | Ok r, Ok r' => map (fun f => (fst f, file_bytes [ex_rep; ex_b] (snd f))) (sv_files r ++ sv_files r')
                   = [(0, 20); (2, 16); (1, 16)]
  | _, _ => False
  end.
Proof. vm_compute. reflexivity. Qed.

(** C17 *)
Theorem C17_reads_exactly_needed_files :
  (forall V P max_chunk_bytes num_shards (leaves : list (leaf V)) views s files targets,
     all_saved P leaves views num_shards max_chunk_bytes s -> on_disk P s files ->
     good_targets leaves targets ->
     exists need, shards_to_read targets (sv_index (s 0)) = Ok need /\ NoDup need /\
       forall k, In k need <-> exists i lf t idx c x,
         nth_error leaves i = Some lf /\ nth_error targets i = Some t /\ In idx t /\
         holds files k i c /\ in_shape x (lf_shape lf) /\ selected x idx /\ within x c) /\
  (** the other files are not read: changing or removing them does not matter *)
  (forall V (zero : V) files files' index targets sched need,
     shards_to_read targets index = Ok need ->
     (forall k, In k need -> file_get files' k = file_get files k) ->
     restore_from_index zero files' index targets sched =
     restore_from_index zero files index targets sched) /\
  (** all of these are read: restore fails if one is missing *)
  (forall V (zero : V) files index targets sched need k out,
     shards_to_read targets index = Ok need -> In k need -> file_get files k = None ->
     restore_from_index zero files index targets sched = Ok out -> False).
Proof.
  split; [|split].
  - intros V P mcb ns leaves views s files targets AS D GT.
    exact (reads_iff P mcb ns leaves views s files AS D targets GT).
  - intros V. exact restore_reads_only.
  - intros V. exact restore_missing.
Qed.
Print Assumptions C17_reads_exactly_needed_files.

(** Rows 1 and 2 only: files 2 and 1. *)
Example C17_example :
  shards_to_read [[[(Some 1, Some 3); (None, None)]]; []] (sv_index (ex_saved 0)) = Ok [2; 1].
Proof. vm_compute. reflexivity. Qed.

(** C18 *)
Theorem C18_intersection :
  forall a b,
  (length a = length b ->
   (exists r, intersect_slicend a b = Ok (Some r) /\ length r = length a /\
      (forall x, selected x r <-> selected x a /\ selected x b) /\ exists x, selected x r)
   \/ (intersect_slicend a b = Ok None /\ forall x, selected x a -> selected x b -> False)) /\
  (length a <> length b ->
   intersect_slicend a b = Raise RuntimeError \/ intersect_slicend a b = Ok None).
Proof.
  intros a b. split.
  - exact (CkptSlices.intersect_spec a b).
  - exact (CkptSlices.intersect_rank_mismatch a b).
Qed.
Print Assumptions C18_intersection.

Example C18_example :
  intersect_slicend [(None, Some 5); (Some 2, None)] [(Some 3, Some 9); (None, Some 4)] =
    Ok (Some [(Some 3, Some 5); (Some 2, Some 4)]) /\
  intersect_slicend [(None, Some 5)] [(Some 5, None)] = Ok None.
Proof. vm_compute. auto. Qed.

(** C19: false.  An array with a zero-size axis is saved without error, and then raises
    ValueError when restored with the same sharding. *)
Theorem C19_refuted :
  exists (lf : leaf Z) s, Forall (fun sh => length (sh_index sh) = length (lf_shape lf)) (lf_shards lf) /\
    save_checkpoint 1 0 [lf] None None = Ok s /\
    restore_from_index 0%Z (sv_files s) (sv_index s) [map sh_index (lf_shards lf)] (fun l => l)
    = Raise ValueError.
Proof.
  eexists {| lf_shape := [3; 0]; lf_itemsize := 4; lf_value := fun _ => 0%Z;
             lf_shards := [{| sh_index := [(None, None); (None, None)]; sh_proc := 0 |}] |}, _.
  split; [|split].
  - repeat constructor.
  - reflexivity.
  - vm_compute. reflexivity.
Qed.
Print Assumptions C19_refuted.

(** This is so for every shape with a zero-size axis, whatever the chunk limit (one
    process, unsharded array). *)
Theorem C19_every_zero_size_array_fails :
  forall V (zero : V) shape itemsize value max_chunk_bytes sched, In 0 shape ->
  (forall l : list (chunk V), Permutation (sched l) l) ->
  let lf := full_leaf shape itemsize value in
  exists s, save_checkpoint 1 0 [lf] None max_chunk_bytes = Ok s /\
    restore_from_index zero (sv_files s) (sv_index s) [map sh_index (lf_shards lf)] sched
    = Raise ValueError.
Proof. intros V. exact zero_size_fails. Qed.
Print Assumptions C19_every_zero_size_array_fails.

(** Worse, nothing else that needs the same data file can be restored either. *)
Theorem C19_zero_size_blocks_the_file :
  forall V (zero : V) (files : list (nat * list (chunk V))) index targets sched need k content c,
  shards_to_read targets index = Ok need -> In k need -> file_get files k = Some content ->
  In c content -> prod (slice_sizes (ch_slice c)) = 0 ->
  forall out, restore_from_index zero files index targets sched <> Ok out.
Proof. intros V. exact restore_empty_chunk. Qed.
Print Assumptions C19_zero_size_blocks_the_file.
(** Example: one process saves [ex_a] and an array of shape [0]; both are in the same file. *)
Example C19_example :
  let a := {| lf_shape := [2]; lf_itemsize := 4; lf_value := fun _ => 1%Z;
              lf_shards := [{| sh_index := [(None, None)]; sh_proc := 0 |}] |} in
  let b := {| lf_shape := [0]; lf_itemsize := 4; lf_value := fun _ => 1%Z;
              lf_shards := [{| sh_index := [(None, None)]; sh_proc := 0 |}] |} in
  exists s, save_checkpoint 1 0 [a; b] None None = Ok s /\
    map (fun f => (fst f, map (fun c => (ch_leaf c, ch_slice c)) (snd f))) (sv_files s)
      = [(0, [(0, [(0, 2)]); (1, [(0, 0)])])].
Proof. eexists. split; vm_compute; reflexivity. Qed.

(** What does hold: without zero-size axes the restored shards equal the saved array. *)
Theorem C19_partial :
  forall V P max_chunk_bytes num_shards (leaves : list (leaf V)) views s,
  all_saved P leaves views num_shards max_chunk_bytes s ->
  forall (zero : V) files targets sched, on_disk P s files -> good_targets leaves targets ->
    (forall l : list (chunk V), Permutation (sched l) l) ->
    exists out, restore_from_index zero files (sv_index (s 0)) targets sched = Ok out.
Proof.
  intros V P mcb ns leaves views s AS zero files targets sched D GT Sc.
  destruct (restore_ok P mcb ns leaves views s AS zero files targets sched D GT Sc) as [out [E _]].
  exists out. exact E.
Qed.
Print Assumptions C19_partial.
