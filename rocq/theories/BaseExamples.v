(** Example states for the theorems about checkpoint files. *)
From Coq Require Import Ascii String List Arith NArith Bool Lia Sorted.
From Verif Require Import BaseModel BaseSpec BaseProofs BaseProofs2 BaseProofs3 BaseProofs4.
Import ListNotations.
Local Open Scope list_scope.
Local Open Scope N_scope.

(** Example: the three files of step 7 of a checkpoint, saved by three threads. *)
Definition ex_dir := s_ "dir".
Definition ex_job (name : string) (pieces : list (list N)) : job N :=
  {| jb_dir := ex_dir; jb_base := s_ name; jb_pieces := pieces; jb_overwrite := true; jb_makedirs := true |}.
Definition ex_jobs : list (job N) :=
  [ex_job "ckpt_7.index" [[1]; [2; 3]];
   ex_job "ckpt_7.data-00000-of-00002" [[4]];
   ex_job "ckpt_7.data-00001-of-00002" [[5]; [6]]].
Definition ex_fs : fs N := {| fs_file := fun _ => None; fs_dir := fun _ => false |}.
(** The first two saves end; the third did not start. *)
Definition ex_crash := fold_left run1 [0; 1; 1; 0; 1; 0; 0; 1; 0]%nat (ex_fs, start ex_jobs).
(** The first two saves end; the third is writing. *)
Definition ex_crash2 := fold_left run1 [2; 0; 1; 1; 2; 0; 1; 0; 0; 1; 0; 2]%nat (ex_fs, start ex_jobs).
Definition ex_names := map jb_path ex_jobs.

Lemma no_slash (x : pystr) : existsb (N.eqb 47) x = false -> ~ In 47 x.
Proof. intros H I. rewrite <- not_true_iff_false in H. apply H. apply existsb_exists. exists 47. auto. Qed.

Example ex_good_jobs : Forall good_job ex_jobs /\ NoDup (map jb_path ex_jobs) /\
  Forall (under ex_dir (s_ "ckpt")) ex_jobs.
Proof.
  assert (GD : forall d, ex_dir <> d ++ [47]).
  { intros d E. apply (f_equal (@rev N)) in E. rewrite rev_app_distr in E. discriminate. }
  split; [|split].
  - repeat (constructor; [split; [split; [exact GD|apply no_slash; reflexivity]|intros x E; discriminate]|]). constructor.
  - repeat constructor; simpl; intros H; repeat (destruct H as [H|H]; [discriminate|]); contradiction.
  - repeat (constructor; [split; [reflexivity|eexists; reflexivity]|]). constructor.
Qed.

Example ex_good_path : good_path ex_dir (s_ "ckpt").
Proof.
  split; [|apply no_slash; reflexivity].
  intros d E. apply (f_equal (@rev N)) in E. rewrite rev_app_distr in E. discriminate.
Qed.

Lemma missing_data_file_reported :
  exists (jobs : list (job N)) (st0 st : fs N) ths files dir base,
  Forall good_job jobs /\ NoDup (map jb_path jobs) /\ good_path dir base /\
  (forall j, In j jobs -> exists o, In o [Some (s_ ".index"); Some (s_ ".data")] /\ has_step (jb_path j) 7 o) /\
  reach (st0, start jobs) (st, ths) /\ lists files st /\
  find_latest_complete (path_in dir base) [Some (s_ ".index"); Some (s_ ".data")] files
    = Ok (Some (path_in dir base ++ s_ "_7")) /\
  exists j, In j jobs /\ fs_file st (jb_path j) = None.
Proof.
  exists ex_jobs, ex_fs, (fst ex_crash), (snd ex_crash), (map jb_path (firstn 2 ex_jobs)), ex_dir, (s_ "ckpt").
  destruct ex_good_jobs as [G [ND _]]. split; [exact G|]. split; [exact ND|]. split; [exact ex_good_path|].
  split.
  { intros j [<-|[<-|[<-|[]]]].
    - exists (Some (s_ ".index")). split; [left; auto|]. exists (s_ "dir/ckpt"), 0%nat, []. split.
      + exists (s_ "index"). split; [|reflexivity]. apply letters_iff. split; [discriminate|reflexivity].
      + split; [left; reflexivity|vm_compute; reflexivity].
    - exists (Some (s_ ".data")). split; [right; left; auto|]. exists (s_ "dir/ckpt"), 0%nat, (s_ "-00000-of-00002"). split.
      + exists (s_ "data"). split; [|reflexivity]. apply letters_iff. split; [discriminate|reflexivity].
      + split; [right; exists (s_ "00000"), (s_ "00002")|vm_compute; reflexivity].
        split; [|split; [|reflexivity]]; (apply digits_iff; split; [discriminate|reflexivity]).
    - exists (Some (s_ ".data")). split; [right; left; auto|]. exists (s_ "dir/ckpt"), 0%nat, (s_ "-00001-of-00002"). split.
      + exists (s_ "data"). split; [|reflexivity]. apply letters_iff. split; [discriminate|reflexivity].
      + split; [right; exists (s_ "00001"), (s_ "00002")|vm_compute; reflexivity].
        split; [|split; [|reflexivity]]; (apply digits_iff; split; [discriminate|reflexivity]). }
  split. { rewrite <- surjective_pairing. apply run_reach. }
  split.
  { intros f. split.
    - intros [<-|[<-|[]]]; vm_compute; discriminate.
    - intros H. destruct (in_dec (list_eq_dec N.eq_dec) f (map jb_path ex_jobs ++ map jb_temp ex_jobs)) as [I|I].
      + destruct I as [<-|[<-|[<-|[<-|[<-|[<-|[]]]]]]]; [left; reflexivity|right; left; reflexivity| | | |];
          exfalso; apply H; vm_compute; reflexivity.
      + exfalso. apply H. destruct (saves_spec ex_fs ex_jobs (fst ex_crash) (snd ex_crash) G ND) as [_ [_ Fr]].
        { rewrite <- surjective_pairing. apply run_reach. }
        rewrite Fr; [reflexivity|]. intros j Ij.
        split; intros ->; apply I; apply in_or_app; [left|right]; apply in_map; exact Ij. }
  split; [vm_compute; reflexivity|]. exists (nth 2 ex_jobs (ex_job "" [])). split; [right; right; left; auto|vm_compute; reflexivity].
Qed.
