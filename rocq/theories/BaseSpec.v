(** Vocabulary for the statements about checkpoint files (C20-C23). *)
From Coq Require Import Ascii String List Arith NArith Bool.
From Verif Require Import BaseModel.
Import ListNotations.
Local Open Scope list_scope.
Local Open Scope N_scope.

Definition digits (x : pystr) : Prop := x <> [] /\ Forall (fun c => 48 <= c <= 57) x.
Definition letters (x : pystr) : Prop :=
  x <> [] /\ Forall (fun c => 97 <= c <= 122 \/ 65 <= c <= 90) x.

(** An optional suffix such as '.index'. *)
Definition suffix_ok (o : option pystr) : Prop :=
  match o with None => True | Some x => exists l, letters l /\ x = 46 :: l end.
Definition suffix_text (o : option pystr) : pystr :=
  match o with None => [] | Some x => x end.

(** Nothing, or '-<digits>-of-<digits>'. *)
Definition shard_ok (x : pystr) : Prop :=
  x = [] \/ exists a b, digits a /\ digits b /\ x = (s_ "-" ++ a ++ s_ "-of-" ++ b)%list.

(** The file name is of checkpoint form: ..._<step><suffix><shard>; the step may have
    leading zeros. *)
Definition has_step (name : pystr) (step : N) (o : option pystr) : Prop :=
  exists base zeros shard, suffix_ok o /\ shard_ok shard /\
    name = (base ++ s_ "_" ++ repeat 48 zeros ++ str_of_N step ++ suffix_text o ++ shard)%list.

(** A path in a directory, and its temporary name. *)
Definition path_in (dir base : pystr) : pystr :=
  match dir with [] => base | _ => (dir ++ s_ "/" ++ base)%list end.
Definition temp_in (dir base : pystr) : pystr := path_in dir (s_ ".tmp." ++ base).
(** [dir] does not end with a slash (so it is not the root), [base] has none. *)
Definition good_path (dir base : pystr) : Prop :=
  (forall d, dir <> (d ++ [47])%list) /\ ~ In 47 base.

(** [f] is an existing file that starts with [prefix], in the same directory. *)
Definition file_of (prefix : pystr) (files : list pystr) (f : pystr) : Prop :=
  In f files /\ exists rest, f = (prefix ++ rest)%list /\ ~ In 47 rest.

(** The step has a final file with this suffix, and no temporary one. *)
Definition step_done (dir base : pystr) (files : list pystr) (n : N) (o : option pystr) : Prop :=
  (exists f, file_of (path_in dir base) files f /\ has_step f n o) /\
  ~ (exists f, file_of (temp_in dir base) files f /\ has_step f n o).

(** Saving of one file. *)
Record job (B : Type) := { jb_dir : pystr; jb_base : pystr; jb_pieces : list (list B);
                           jb_overwrite : bool; jb_makedirs : bool }.
Arguments jb_dir {B}. Arguments jb_base {B}. Arguments jb_pieces {B}.
Arguments jb_overwrite {B}. Arguments jb_makedirs {B}.
Definition jb_path {B} (j : job B) : pystr := path_in (jb_dir j) (jb_base j).
Definition jb_temp {B} (j : job B) : pystr := temp_in (jb_dir j) (jb_base j).
Definition jb_contents {B} (j : job B) : list B := concat (jb_pieces j).

(** Well-formed file names that are not themselves names of temporary files. *)
Definition good_job {B} (j : job B) : Prop :=
  good_path (jb_dir j) (jb_base j) /\ (forall x, jb_base j <> (s_ ".tmp." ++ x)%list).

(** The saves at the start. *)
Definition start {B} (jobs : list (job B)) : list (thread B) :=
  map (fun j => Running (save_ops (jb_path j) (jb_pieces j) (jb_overwrite j) (jb_makedirs j))) jobs.

(** The listing of all files. *)
Definition lists {B} (files : list pystr) (st : fs B) : Prop :=
  forall f, In f files <-> fs_file st f <> None.

(** The save has opened its temporary file. *)
Definition started {B} (j : job B) (t : thread B) : Prop :=
  match t with
  | Running todo => ~ In (OpenWrite (jb_temp j)) todo
  | Failed e => e = AlreadyExists
  end.

(** Nothing more will happen in this save. *)
Definition finished {B} (t : thread B) : Prop :=
  match t with Running [] | Failed _ => True | Running (_ :: _) => False end.

(** The save of a file whose name starts with the prefix. *)
Definition under {B} (dir base : pystr) (j : job B) : Prop :=
  jb_dir j = dir /\ exists rest, jb_base j = (base ++ rest)%list.

(** The suffixes asked for; none means files without suffix. *)
Definition required (suffixes : list (option pystr)) : list (option pystr) :=
  match suffixes with [] => [None] | _ => suffixes end.
