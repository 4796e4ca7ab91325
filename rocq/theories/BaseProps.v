(** Property theorems C20-C23 (checkpoint files). *)
From Coq Require Import Ascii String List Arith NArith Bool Lia Sorted.
From Verif Require Import BaseModel BaseSpec BaseProofs BaseProofs2 BaseProofs3 BaseProofs4 BaseExamples.
Import ListNotations.
Local Open Scope list_scope.
Local Open Scope N_scope.

(** C20: whatever the interleaving and wherever it is stopped. *)
Theorem C20_atomic_replace :
  forall B (st0 : fs B) (jobs : list (job B)) st ths,
  Forall good_job jobs -> NoDup (map jb_path jobs) ->
  reach (st0, start jobs) (st, ths) ->
  List.length ths = List.length jobs /\
  (forall i j t, nth_error jobs i = Some j -> nth_error ths i = Some t ->
    match t with
    | Running [] => fs_file st (jb_path j) = Some (jb_contents j) /\ fs_file st (jb_temp j) = None
    | Running _ => fs_file st (jb_path j) = fs_file st0 (jb_path j)
    | Failed e => fs_file st (jb_path j) = fs_file st0 (jb_path j) /\
        (e = NotFound /\ jb_makedirs j = false /\ fs_dir st0 (jb_dir j) = false \/
         e = AlreadyExists /\ jb_overwrite j = false /\ fs_file st0 (jb_path j) <> None)
    end) /\
  (forall q, (forall j, In j jobs -> q <> jb_path j /\ q <> jb_temp j) -> fs_file st q = fs_file st0 q).
Proof. intros B st0 jobs st ths. exact (saves_spec st0 jobs st ths). Qed.
Print Assumptions C20_atomic_replace.
Example C20_example :
  snd ex_crash2 = [Running []; Running [];
                   Running [Append (jb_temp (nth 2 ex_jobs (ex_job "" []))) [6];
                            Rename (jb_temp (nth 2 ex_jobs (ex_job "" []))) (jb_path (nth 2 ex_jobs (ex_job "" []))) true]] /\
  fs_file (fst ex_crash2) (s_ "dir/ckpt_7.index") = Some [1; 2; 3] /\
  fs_file (fst ex_crash2) (s_ "dir/ckpt_7.data-00001-of-00002") = None /\
  fs_file (fst ex_crash2) (s_ "dir/.tmp.ckpt_7.data-00001-of-00002") = Some [5].
Proof. repeat split; vm_compute; reflexivity. Qed.

(** Saves do not fail unless the directory is missing (and not made) or the file exists (and
    is not to be replaced), and can always be completed. *)
Theorem C20_saves_complete :
  forall B (st0 : fs B) (jobs : list (job B)) st ths,
  Forall good_job jobs -> NoDup (map jb_path jobs) ->
  (forall j, In j jobs -> (jb_makedirs j = true \/ fs_dir st0 (jb_dir j) = true) /\
                          (jb_overwrite j = true \/ fs_file st0 (jb_path j) = None)) ->
  reach (st0, start jobs) (st, ths) ->
  (forall e, ~ In (Failed e) ths) /\
  exists st' ths', reach (st, ths) (st', ths') /\ Forall (eq (Running [])) ths'.
Proof. intros B st0 jobs st ths. exact (saves_complete st0 jobs st ths). Qed.
Print Assumptions C20_saves_complete.
Example C20_complete_example : forall j, In j ex_jobs -> jb_makedirs j = true /\ jb_overwrite j = true.
Proof. intros j [<-|[<-|[<-|[]]]]; auto. Qed.

(** C21 is false: step 7 is reported complete although one of its two data files is missing
    (its save has not started, so there is no temporary file either). *)
Theorem C21_refuted :
  exists (jobs : list (job N)) (st0 st : fs N) ths files dir base,
  Forall good_job jobs /\ NoDup (map jb_path jobs) /\ good_path dir base /\
  (forall j, In j jobs -> exists o, In o [Some (s_ ".index"); Some (s_ ".data")] /\ has_step (jb_path j) 7 o) /\
  reach (st0, start jobs) (st, ths) /\ lists files st /\
  find_latest_complete (path_in dir base) [Some (s_ ".index"); Some (s_ ".data")] files
    = Ok (Some (path_in dir base ++ s_ "_7")) /\
  exists j, In j jobs /\ fs_file st (jb_path j) = None.
Proof. exact missing_data_file_reported. Qed.
Print Assumptions C21_refuted.

(** What holds (the missing part of C21 is the hypothesis [started]): once every save of the
    reported step has opened its temporary file, all its files are complete. *)
Theorem C21_partial :
  forall B (st0 : fs B) (jobs : list (job B)) st ths files dir base suffixes p,
  Forall good_job jobs -> NoDup (map jb_path jobs) -> good_path dir base ->
  reach (st0, start jobs) (st, ths) ->
  lists files st -> (forall f, In f files -> ~ In 10 f) ->
  find_latest_complete (path_in dir base) suffixes files = Ok (Some p) ->
  exists n, p = path_in dir base ++ s_ "_" ++ str_of_N n /\
  ((forall i j t o, nth_error jobs i = Some j -> nth_error ths i = Some t ->
      has_step (jb_path j) n o -> started j t) ->
   forall i j o, nth_error jobs i = Some j -> under dir base j ->
     In o (required suffixes) -> has_step (jb_path j) n o ->
     nth_error ths i = Some (Running []) /\ fs_file st (jb_path j) = Some (jb_contents j)).
Proof. exact (@reported_started). Qed.
Print Assumptions C21_partial.

(** And if a step has a single file for each suffix, which was not there before, then a
    reported step is complete whatever has happened. *)
Theorem C21_single_files :
  forall B (st0 : fs B) (jobs : list (job B)) st ths files dir base suffixes p,
  Forall good_job jobs -> NoDup (map jb_path jobs) -> good_path dir base ->
  reach (st0, start jobs) (st, ths) ->
  lists files st -> (forall f, In f files -> ~ In 10 f) ->
  Forall (under dir base) jobs ->
  find_latest_complete (path_in dir base) suffixes files = Ok (Some p) ->
  exists n, p = path_in dir base ++ s_ "_" ++ str_of_N n /\
  forall o, In o (required suffixes) ->
    (forall f, has_step f n o -> fs_file st0 f = None) ->
    exists i j, nth_error jobs i = Some j /\ has_step (jb_path j) n o /\
      nth_error ths i = Some (Running []) /\ fs_file st (jb_path j) = Some (jb_contents j).
Proof. exact (@reported_single). Qed.
Print Assumptions C21_single_files.
(** In the example once the third save writes, step 7 is not reported; once it ends, it is. *)
Example C21_example :
  find_latest_complete (path_in ex_dir (s_ "ckpt")) [Some (s_ ".index"); Some (s_ ".data")]
    (s_ "dir/.tmp.ckpt_7.data-00001-of-00002" :: firstn 2 ex_names) = Ok None /\
  find_latest_complete (path_in ex_dir (s_ "ckpt")) [Some (s_ ".index"); Some (s_ ".data")]
    (s_ "dir/ckpt_5.index" :: ex_names) = Ok (Some (s_ "dir/ckpt_7")) /\
  snd (fold_left run1 [2; 2; 2; 2; 2]%nat ex_crash) = [Running []; Running []; Running []].
Proof. repeat split; vm_compute; reflexivity. Qed.

(** C22 *)
Theorem C22_reported_steps :
  forall dir base suffixes decreasing files, good_path dir base ->
  (forall f, In f files -> ~ In 10 f) ->
  let candidate f := file_of (path_in dir base) files f \/ file_of (temp_in dir base) files f in
  match iterate_complete_steps (path_in dir base) suffixes decreasing files with
  | Ok steps =>
      (forall f, candidate f -> exists n o, has_step f n o) /\
      (forall n x, step_done dir base files n None -> step_done dir base files n (Some x) -> False) /\
      StronglySorted (fun a b => if decreasing then b < a else a < b) steps /\
      forall n, In n steps <-> forall o, In o (required suffixes) -> step_done dir base files n o
  | Raise ValueError => exists f, candidate f /\ forall n o, ~ has_step f n o
  | Raise TypeError =>
      (forall f, candidate f -> exists n o, has_step f n o) /\
      exists n x, step_done dir base files n None /\ step_done dir base files n (Some x)
  | Raise _ => False
  end.
Proof. exact iterate_spec. Qed.
Print Assumptions C22_reported_steps.

Theorem C22_latest_is_maximum :
  forall dir base suffixes files r, good_path dir base ->
  (forall f, In f files -> ~ In 10 f) ->
  find_latest_complete (path_in dir base) suffixes files = Ok r ->
  match r with
  | Some p => exists n, p = path_in dir base ++ s_ "_" ++ str_of_N n /\
      (forall o, In o (required suffixes) -> step_done dir base files n o) /\
      forall m, (forall o, In o (required suffixes) -> step_done dir base files m o) -> m <= n
  | None => forall m, ~ (forall o, In o (required suffixes) -> step_done dir base files m o)
  end.
Proof. exact latest_spec. Qed.
Print Assumptions C22_latest_is_maximum.
Example C22_example :
  let files := map s_ ["dir/ckpt_10.index"; "dir/ckpt_9.data-00000-of-00001"; "dir/ckpt_9.index";
                       "dir/ckpt_10.data-00000-of-00001"; "dir/ckpt_11.index"; "dir/other"; "dir/ckpt_12.index";
                       "dir/ckpt_12.data-00000-of-00002"; "dir/.tmp.ckpt_12.data-00001-of-00002"]%string in
  let need := [Some (s_ ".index"); Some (s_ ".data")] in
  iterate_complete_steps (s_ "dir/ckpt") need false files = Ok [9; 10] /\
  iterate_complete_steps (s_ "dir/ckpt") need true files = Ok [10; 9] /\
  find_latest_complete (s_ "dir/ckpt") need files = Ok (Some (s_ "dir/ckpt_10")) /\
  iterate_complete_steps (s_ "dir/ckpt") need true [s_ "dir/ckpt_best.index"] = Raise ValueError /\
  iterate_complete_steps (s_ "dir/ckpt") [None] true [s_ "dir/ckpt_1"; s_ "dir/ckpt_1.index"] = Raise TypeError.
Proof. repeat split; vm_compute; reflexivity. Qed.

(** C23 *)
Theorem C23_shard_suffix_round_trip :
  forall path shard count, ~ In 10 path ->
  remove_shard_suffix (add_shard_suffix path shard count) = path.
Proof. exact remove_add. Qed.
Print Assumptions C23_shard_suffix_round_trip.

Theorem C23_shard_names_distinct :
  forall path path' shard count shard' count',
  add_shard_suffix path shard count = add_shard_suffix path' shard' count' ->
  path = path' /\ shard = shard' /\ count = count'.
Proof. exact add_inj. Qed.
Print Assumptions C23_shard_names_distinct.

(** A path without a shard suffix is left as it is. *)
Theorem C23_no_suffix_unchanged :
  forall path, ~ In 10 path ->
  (forall p a b, digits a -> digits b -> path <> p ++ s_ "-" ++ a ++ s_ "-of-" ++ b) ->
  remove_shard_suffix path = path.
Proof. exact remove_none. Qed.
Print Assumptions C23_no_suffix_unchanged.
Example C23_example :
  add_shard_suffix (s_ "a/b-of-2_3.index") 7 123456 = s_ "a/b-of-2_3.index-00007-of-123456" /\
  remove_shard_suffix (s_ "a/b-of-2_3.index-00007-of-123456") = s_ "a/b-of-2_3.index" /\
  remove_shard_suffix (s_ "a_1-00001-of-00002-00003-of-00004") = s_ "a_1-00001-of-00002".
Proof. repeat split; vm_compute; reflexivity. Qed.
