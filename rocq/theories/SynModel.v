(** Model of vmoe/multihost_utils.py [sync_devices] and of the processes that use it: the
    saving of checkpoints (vmoe/checkpoints/partitioned.py) and the training loop
    (vmoe/train/trainer.py), with any interleaving of the processes (C86). *)
From Coq Require Import String List Arith NArith Bool.
From Verif Require Import BaseModel Py.
Import ListNotations.
Local Open Scope list_scope.
Local Open Scope nat_scope.

(** ** zlib.crc32, bit by bit *)
Definition poly : N := 3988292384.    (* 0xEDB88320 *)
Definition ones32 : N := 4294967295.  (* 0xFFFFFFFF *)
Definition crc_bit (c : N) : N := if N.odd c then N.lxor (N.shiftr c 1) poly else N.shiftr c 1.
Fixpoint iter {T} (n : nat) (f : T -> T) (x : T) : T := match n with O => x | S n => iter n f (f x) end.
Definition crc_byte (c b : N) : N := iter 8 crc_bit (N.lxor c b).
Definition crc32 (name : pystr) : N := N.lxor (fold_left crc_byte name ones32) ones32.

(** ** Programs of the processes *)

(** Computations over all devices. *)
Inductive computation := TrainStep (step : nat) | Evaluation (step : nat) | FewShot (step : nat).

(** What a process does to the world, one action after the other: *)
Inductive prog :=
| Return
| Raises (e : err)
| IsDir (d : pystr) (k : bool -> prog)              (* gfile.exists of a directory *)
| Makedirs (d : pystr) (k : prog)
| HasStep (s : nat) (k : bool -> prog)              (* gfile.exists(workdir/ckpt/s) *)
| LatestStep (k : option nat -> prog)               (* ckpt_manager.latest_step() *)
| Psum (x : list N) (k : list N -> prog)            (* psum of uint32, with one value per local device *)
| Compute (c : computation) (k : prog)
| Save (s : nat) (k : prog)                         (* ckpt_manager.save, when it does save *)
| Wait (k : prog)                                   (* ckpt_manager.wait_until_finished *)
| Spawn (files : list (pystr * pystr)) (k : prog).  (* writes (directory, name) in a thread pool *)

Section Sync.
(** Number of local devices of each process. *)
Variable devices : nat -> nat.

(** multihost_utils.py:30-44 [sync_devices] on process [me], and then [k].  psum is the only
    communication. *)
Definition sync_devices (me : nat) (name : pystr) (main_process : nat) (k : prog) : prog :=
  let h := crc32 name in
  let x := repeat 0%N (devices me) in
  match (if me =? main_process then match x with [] => Raise IndexError | _ :: r => Ok (h :: r) end else Ok x) with
  | Raise e => Raises e
  | Ok x => Psum x (fun x => if forallb (N.eqb h) x then k else Raises ValueError)
  end.

(** vmoe/checkpoints/partitioned.py:381-386 [_make_dir_sync] *)
Definition make_dir_sync (me : nat) (workdir : pystr) (k : prog) : prog :=
  let sync := sync_devices me (s_ "checkpoints:mkdir:"%string ++ workdir) 0 k in
  if me =? 0 then Makedirs workdir sync else sync.

(** vmoe/checkpoints/partitioned.py:206-212: the end of [save_checkpoint]; [files] are the
    names of the files of this process.  The files are written asynchronously. *)
Definition save_checkpoint (me : nat) (workdir : pystr) (files : list pystr) (makedirs : bool) (k : prog) : prog :=
  let write := Spawn (map (fun f => (workdir, f)) files) k in
  if makedirs then make_dir_sync me workdir write else write.

(** ** The training loop *)
Variable ckpt_dir : pystr.          (* workdir/ckpt *)
Variable train_steps : nat.
(** The step of a new train state (0, if not initialised from elsewhere). *)
Variable fresh : nat.
(** Does the checkpoint manager save this step, if its latest step is this?  (Orbax decides
    this from its options only.) *)
Variable should_save : option nat -> nat -> bool.
(** Do the evaluation and few-shot hooks of this process act at this step? *)
Variable evaluates fewshots : nat -> nat -> bool.

(** trainer.py:133-146 [create_checkpoint_manager] *)
Definition create_checkpoint_manager (me : nat) (k : prog) : prog :=
  let sync := sync_devices me (s_ "create-ckpt-dir"%string) 0 k in
  if me =? 0 then IsDir ckpt_dir (fun e => if e then sync else Makedirs ckpt_dir sync) else sync.

(** trainer.py:786-796 [_save_checkpoint]: Orbax waits for earlier saves first. *)
Definition save_at (s : nat) (k : prog) : prog := Wait (Save s k).

(** trainer.py:819-831: [n] more steps from [step].  [last] is the latest step of the manager. *)
Fixpoint train_loop (me n step : nat) (last : option nat) (k : prog) : prog :=
  match n with
  | O => k
  | S n =>
      let save := should_save last step in
      let next := train_loop me n (S step) (if save then Some step else last) k in
      let next := if fewshots me step then Compute (FewShot step) next else next in
      let next := if evaluates me step then Compute (Evaluation step) next else next in
      Compute (TrainStep step) (if save then save_at step next else next)
  end.

(** trainer.py:832-837: the end of [train_and_evaluate] *)
Definition finish (me : nat) : prog :=
  let completed := sync_devices me (s_ "training:completed"%string) 0 Return in
  Wait (HasStep train_steps (fun has =>
    if has then completed
    else sync_devices me (s_ "training:ckpt-last"%string) 0 (save_at train_steps (Wait completed)))).

(** trainer.py:691-692,719-725,797-837 [train_and_evaluate], as far as the processes interact
    with each other or with the directory of checkpoints. *)
Definition train_and_evaluate (me : nat) : prog :=
  create_checkpoint_manager me (LatestStep (fun latest =>
  let init_step := match latest with Some s => s | None => fresh end in
  let loop last := train_loop me (train_steps - init_step) (S init_step) last (finish me) in
  if init_step =? 0 then
    HasStep 0 (fun has =>
      if has then loop latest
      else sync_devices me (s_ "training:ckpt-first"%string) 0 (save_at 0 (loop (Some 0))))
  else loop latest)).
End Sync.

(** ** The world *)

(** The programs of all processes, the directories, files and checkpoints (of the manager),
    the checkpoint being saved, the files that the thread pools have still to write, and
    those that they failed to write. *)
Record world := World {
  procs : list prog;
  dirs : list pystr;
  files : list (pystr * pystr);
  steps : list nat;
  pending : option nat;
  writes : list (pystr * pystr);
  failed : list (pystr * pystr) }.

Definition is_dir (w : world) (d : pystr) : bool := existsb (str_eqb d) (dirs w).
Definition has_step (w : world) (s : nat) : bool := existsb (Nat.eqb s) (steps w).
Definition latest_of (l : list nat) : option nat :=
  match l with [] => None | a :: r => Some (fold_left Nat.max r a) end.

Definition set_proc (w : world) (i : nat) (p : prog) : world :=
  World (firstn i (procs w) ++ p :: skipn (S i) (procs w)) (dirs w) (files w) (steps w) (pending w) (writes w) (failed w).
Definition set_procs (w : world) (ps : list prog) : world :=
  World ps (dirs w) (files w) (steps w) (pending w) (writes w) (failed w).

(** Sum of uint32. *)
Definition sum32 (l : list N) : N := N.modulo (fold_right N.add 0%N l) 4294967296.

(** One step of the world. *)
Inductive step : world -> world -> Prop :=
| st_isdir w i d k : nth_error (procs w) i = Some (IsDir d k) -> step w (set_proc w i (k (is_dir w d)))
| st_makedirs w i d k : nth_error (procs w) i = Some (Makedirs d k) ->
    step w (World (procs (set_proc w i k)) (d :: dirs w) (files w) (steps w) (pending w) (writes w) (failed w))
| st_hasstep w i s k : nth_error (procs w) i = Some (HasStep s k) -> step w (set_proc w i (k (has_step w s)))
| st_latest w i k : nth_error (procs w) i = Some (LatestStep k) -> step w (set_proc w i (k (latest_of (steps w))))
(** wait_until_finished returns when the checkpoint is complete *)
| st_wait w i k : nth_error (procs w) i = Some (Wait k) -> pending w = None -> step w (set_proc w i k)
| st_spawn w i fs k : nth_error (procs w) i = Some (Spawn fs k) ->
    step w (World (procs (set_proc w i k)) (dirs w) (files w) (steps w) (pending w) (writes w ++ fs) (failed w))
(** computations over all devices happen when all processes have called them *)
| st_psum w xs : procs w = map (fun xk => Psum (fst xk) (snd xk)) xs -> xs <> [] ->
    step w (set_procs w (map (fun xk => snd xk (repeat (sum32 (concat (map fst xs))) (length (fst xk)))) xs))
| st_compute w c ks : procs w = map (Compute c) ks -> ks <> [] -> step w (set_procs w ks)
| st_save w s ks : procs w = map (Save s) ks -> ks <> [] -> pending w = None ->
    step w (World ks (dirs w) (files w) (steps w) (Some s) (writes w) (failed w))
(** the checkpoint is complete; earlier ones may be removed (keep_last) *)
| st_commit w s keep : pending w = Some s -> (forall k, In k (steps w) -> s <= k -> keep k = true) ->
    step w (World (procs w) (dirs w) (files w) (s :: filter keep (steps w)) None (writes w) (failed w))
(** a thread writes a file: an error if the directory does not exist *)
| st_write w f l r : writes w = l ++ f :: r -> is_dir w (fst f) = true ->
    step w (World (procs w) (dirs w) (f :: files w) (steps w) (pending w) (l ++ r) (failed w))
| st_write_fails w f l r : writes w = l ++ f :: r -> is_dir w (fst f) = false ->
    step w (World (procs w) (dirs w) (files w) (steps w) (pending w) (l ++ r) (f :: failed w)).

Inductive run : world -> world -> Prop :=
| run_refl w : run w w
| run_step w w' w'' : run w w' -> step w' w'' -> run w w''.
