(** Model of vmoe/checkpoints/base.py: checkpoint names, which steps are complete, and
    saving files.

    A python string is the list of its code points. *)
From Coq Require Import List Arith NArith Bool Ascii String DecimalN.
Import ListNotations.
Local Open Scope N_scope.

Definition pystr := list N.
(** Literals. *)
Definition s_ (x : string) : pystr := map N_of_ascii (list_ascii_of_string x).

Definition c_slash := 47.  Definition c_dot := 46.  Definition c_minus := 45.
Definition c_under := 95.  Definition c_newline := 10.

Definition str_eqb (a b : pystr) : bool := if list_eq_dec N.eq_dec a b then true else false.

(* ------------------------------------------------------------------ *)
(** ** Regular expressions (python's re, the constructs used in CHECKPOINT_REGEX)

    [matches r s] lists the ways to match a prefix of [s], in the order in which a
    backtracking matcher tries them, each with the captured groups, the text consumed and
    the remaining text. *)

Definition is_digit (c : N) : bool := (48 <=? c) && (c <=? 57).
Definition is_letter (c : N) : bool := ((97 <=? c) && (c <=? 122)) || ((65 <=? c) && (c <=? 90)).
(** [.]: any character but a newline. *)
Definition is_any (c : N) : bool := negb (c =? c_newline).

Inductive re :=
| Lit (s : pystr)             (* literal text *)
| Plus (p : N -> bool)        (* [class]+, greedy *)
| LazyStar (p : N -> bool)    (* [class]*?, lazy *)
| Opt (r : re)                (* (r)?, greedy *)
| Cat (a b : re)
| Grp (n : nat) (r : re).     (* capturing group *)

Definition caps := list (nat * pystr).

(** The prefixes of [s] within the class, shortest first. *)
Fixpoint class_prefixes (p : N -> bool) (s : pystr) : list (pystr * pystr) :=
  ([], s) :: match s with
             | c :: r => if p c then map (fun q => (c :: fst q, snd q)) (class_prefixes p r) else []
             | [] => []
             end.

Fixpoint strip_lit (l s : pystr) : option pystr :=
  match l, s with
  | [], _ => Some s
  | c :: l', d :: s' => if c =? d then strip_lit l' s' else None
  | _ :: _, [] => None
  end.

Fixpoint matches (r : re) (s : pystr) : list (caps * pystr * pystr) :=
  match r with
  | Lit l => match strip_lit l s with Some rest => [([], l, rest)] | None => [] end
  | Plus p => map (fun q => ([], fst q, snd q))
                  (filter (fun q => negb (str_eqb (fst q) [])) (rev (class_prefixes p s)))
  | LazyStar p => map (fun q => ([], fst q, snd q)) (class_prefixes p s)
  | Opt a => matches a s ++ [([], [], s)]
  | Cat a b => flat_map (fun m => let '(c1, t1, s1) := m in
                 map (fun m' => let '(c2, t2, s2) := m' in ((c1 ++ c2)%list, (t1 ++ t2)%list, s2))
                     (matches b s1)) (matches a s)
  | Grp n a => map (fun m => let '(c, t, s') := m in ((n, t) :: c, t, s')) (matches a s)
  end.

(** m.group(n) *)
Definition group (n : nat) (c : caps) : option pystr :=
  match find (fun q => Nat.eqb (fst q) n) c with Some q => Some (snd q) | None => None end.

(** vmoe/checkpoints/base.py:32-33 [CHECKPOINT_REGEX]
    ^(.*?)(_[0-9]+)?(\.[a-zA-Z]+)?(-[0-9]+-of-[0-9]+)?$ *)
Definition CHECKPOINT_REGEX : re :=
  Cat (Grp 1 (LazyStar is_any))
  (Cat (Opt (Grp 2 (Cat (Lit (s_ "_")) (Plus is_digit))))
  (Cat (Opt (Grp 3 (Cat (Lit (s_ ".")) (Plus is_letter))))
       (Opt (Grp 4 (Cat (Lit (s_ "-")) (Cat (Plus is_digit)
                   (Cat (Lit (s_ "-of-")) (Plus is_digit)))))))).

(** regex.fullmatch(s): the first way that consumes everything. *)
Definition fullmatch (r : re) (s : pystr) : option caps :=
  match find (fun m => str_eqb (snd m) []) (matches r s) with
  | Some m => Some (fst (fst m))
  | None => None
  end.

(** regex.match with a final $, which matches at the end and before a final newline; also
    gives the text after the match. *)
Definition match_dollar (r : re) (s : pystr) : option (caps * pystr) :=
  match find (fun m => str_eqb (snd m) [] || str_eqb (snd m) [c_newline]) (matches r s) with
  | Some m => Some (fst (fst m), snd m)
  | None => None
  end.

Definition or_empty (o : option pystr) : pystr := match o with Some x => x | None => [] end.

(* ------------------------------------------------------------------ *)
(** ** Names *)

(** Decimal digits. *)
Fixpoint chars_of_uint (d : Decimal.uint) : pystr :=
  match d with
  | Decimal.Nil => []
  | Decimal.D0 d => 48 :: chars_of_uint d
  | Decimal.D1 d => 49 :: chars_of_uint d
  | Decimal.D2 d => 50 :: chars_of_uint d
  | Decimal.D3 d => 51 :: chars_of_uint d
  | Decimal.D4 d => 52 :: chars_of_uint d
  | Decimal.D5 d => 53 :: chars_of_uint d
  | Decimal.D6 d => 54 :: chars_of_uint d
  | Decimal.D7 d => 55 :: chars_of_uint d
  | Decimal.D8 d => 56 :: chars_of_uint d
  | Decimal.D9 d => 57 :: chars_of_uint d
  end.

(** str(n) *)
Definition str_of_N (n : N) : pystr := chars_of_uint (N.to_uint n).

(** f'{n:05d}' *)
Definition pad5 (n : N) : pystr :=
  let d := str_of_N n in (repeat 48 (5 - List.length d) ++ d)%list.

(** int(s) for a non-empty string of digits. *)
Definition int_of (s : pystr) : N := fold_left (fun n c => 10 * n + (c - 48)) s 0.

(** vmoe/checkpoints/base.py:48-49 [add_shard_suffix] *)
Definition add_shard_suffix (filepath : pystr) (shard shard_count : N) : pystr :=
  (filepath ++ s_ "-" ++ pad5 shard ++ s_ "-of-" ++ pad5 shard_count)%list.

(** vmoe/checkpoints/base.py:139-140 [remove_shard_suffix]: re.sub with a pattern anchored
    at the start replaces at most one match; unmatched groups are replaced by the empty
    string. *)
Definition remove_shard_suffix (filepath : pystr) : pystr :=
  match match_dollar CHECKPOINT_REGEX filepath with
  | Some (c, rest) => (or_empty (group 1 c) ++ or_empty (group 2 c) ++ or_empty (group 3 c) ++ rest)%list
  | None => filepath
  end.

(** posixpath: position after the last slash; dirname, basename and join (of two parts). *)
Definition split_path (p : pystr) : pystr * pystr :=
  let fix go (r : pystr) (base : pystr) :=   (* [r]: reversed remaining prefix *)
    match r with
    | [] => ([], base)
    | c :: r' => if c =? c_slash then (rev r, base) else go r' (c :: base)
    end
  in go (rev p) [].
Definition all_slashes (p : pystr) : bool := forallb (N.eqb c_slash) p.
Fixpoint drop_slashes (r : pystr) : pystr :=
  match r with
  | c :: r' => if c =? c_slash then drop_slashes r' else r
  | [] => []
  end.
Definition dirname (p : pystr) : pystr :=
  let head := fst (split_path p) in
  if all_slashes head then head else rev (drop_slashes (rev head)).
Definition basename (p : pystr) : pystr := snd (split_path p).
Definition path_join (a b : pystr) : pystr :=
  match b with
  | c :: _ => if c =? c_slash then b else
              match rev a with
              | [] => b
              | d :: _ => if d =? c_slash then (a ++ b)%list else (a ++ [c_slash] ++ b)%list
              end
  | [] => match rev a with
          | [] => b
          | d :: _ => if d =? c_slash then (a ++ b)%list else (a ++ [c_slash] ++ b)%list
          end
  end.

(** vmoe/checkpoints/base.py:173: the temporary file of a file; 109: with a prefix. *)
Definition temp_path (filepath : pystr) : pystr :=
  path_join (dirname filepath) (s_ ".tmp." ++ basename filepath)%list.

(* ------------------------------------------------------------------ *)
(** ** Complete steps *)

Inductive err := AssertionError | ValueError | TypeError | NotFound | AlreadyExists.
Inductive res (T : Type) := Ok (x : T) | Raise (e : err).
Arguments Ok {T}. Arguments Raise {T}.
Definition bind {T U} (x : res T) (f : T -> res U) : res U :=
  match x with Ok a => f a | Raise e => Raise e end.
Fixpoint rmap {T U} (f : T -> res U) (l : list T) : res (list U) :=
  match l with
  | [] => Ok []
  | x :: r => bind (f x) (fun y => bind (rmap f r) (fun ys => Ok (y :: ys)))
  end.

(** gfile.glob(prefix + '*') among the existing files: [*] does not match a slash.  The
    prefix is taken literally (no glob metacharacters in it). *)
Definition glob_prefix (prefix : pystr) (files : list pystr) : list pystr :=
  filter (fun f => match strip_lit prefix f with
                   | Some rest => forallb (fun c => negb (c =? c_slash)) rest
                   | None => false
                   end) files.

(** (step, suffix) *)
Definition stepsuf := (N * option pystr)%type.

(** vmoe/checkpoints/base.py:97-106 [_parse_step_and_suffix_or_error] *)
Definition parse_step_and_suffix (filepath : pystr) : res stepsuf :=
  match fullmatch CHECKPOINT_REGEX filepath with
  | None => Raise AssertionError
  | Some m => match group 2 m with
              | None => Raise ValueError
              | Some g => Ok (int_of (tl g), group 3 m)
              end
  end.

Definition stepsuf_eq_dec (a b : stepsuf) : {a = b} + {a <> b}.
Proof.
  destruct a as [n x], b as [m y]. destruct (N.eq_dec n m).
  - destruct x as [x|], y as [y|].
    + destruct (list_eq_dec N.eq_dec x y); [left|right]; congruence.
    + right; discriminate.
    + right; discriminate.
    + left; congruence.
  - right; congruence.
Defined.

(** Comparing a str with None raises TypeError.  A sort of the pairs makes such a
    comparison iff some step has both. *)
Definition incomparable (l : list stepsuf) : bool :=
  existsb (fun a => match snd a with
                    | None => existsb (fun b => (fst a =? fst b) &&
                                match snd b with Some _ => true | None => false end) l
                    | Some _ => false
                    end) l.

(** Sorting by step; the order of the suffixes within a step does not matter to
    groupby on the step. *)
Fixpoint insert_step (x : stepsuf) (l : list stepsuf) : list stepsuf :=
  match l with
  | [] => [x]
  | y :: r => if fst x <=? fst y then x :: l else y :: insert_step x r
  end.
Definition sort_steps (l : list stepsuf) : list stepsuf := fold_right insert_step [] l.

(** itertools.groupby(l, key=step): consecutive elements with the same step. *)
Fixpoint groupby_step (l : list stepsuf) : list (N * list (option pystr)) :=
  match l with
  | [] => []
  | x :: r => match groupby_step r with
              | (s, g) :: gs => if fst x =? s then (s, snd x :: g) :: gs
                                else (fst x, [snd x]) :: (s, g) :: gs
              | [] => [(fst x, [snd x])]
              end
  end.

Definition opt_eqb (a b : option pystr) : bool :=
  match a, b with
  | None, None => true
  | Some x, Some y => str_eqb x y
  | _, _ => false
  end.

(** vmoe/checkpoints/base.py:69-122 [iterate_complete_steps_for_prefix]: all the steps it
    yields, or the error it raises, when the existing files are [files].  The temporary
    pattern is os.path.join(dirname(prefix), '.tmp.' + basename(prefix)) + '*'. *)
Definition iterate_complete_steps (prefix : pystr) (suffixes : list (option pystr))
  (decreasing : bool) (files : list pystr) : res (list N) :=
  let suffixes := match suffixes with [] => [None] | _ => suffixes end in
  bind (rmap parse_step_and_suffix (glob_prefix prefix files)) (fun steps_and_suffixes =>
  bind (rmap parse_step_and_suffix (glob_prefix (temp_path prefix) files)) (fun incomplete =>
    let remaining := filter (fun x => if in_dec stepsuf_eq_dec x incomplete then false else true)
                            (nodup stepsuf_eq_dec steps_and_suffixes) in
    if incomparable remaining then Raise TypeError else
    let sorted := if decreasing then rev (sort_steps remaining) else sort_steps remaining in
    Ok (map fst (filter (fun g => forallb (fun s => existsb (opt_eqb s) (snd g)) suffixes)
                        (groupby_step sorted))))).

(** vmoe/checkpoints/base.py:52-66 [find_latest_complete_checkpoint_for_prefix] *)
Definition find_latest_complete (prefix : pystr) (suffixes : list (option pystr))
  (files : list pystr) : res (option pystr) :=
  bind (iterate_complete_steps prefix suffixes true files) (fun steps =>
    Ok (match steps with
        | step :: _ => Some (prefix ++ s_ "_" ++ str_of_N step)%list
        | [] => None
        end)).

(* ------------------------------------------------------------------ *)
(** ** File system and saving *)

(** Contents of the existing files; existing directories. *)
Record fs (B : Type) := { fs_file : pystr -> option (list B); fs_dir : pystr -> bool }.
Arguments fs_file {B}. Arguments fs_dir {B}.

Definition set_file {B} (st : fs B) (p : pystr) (c : option (list B)) : fs B :=
  {| fs_file := fun q => if str_eqb q p then c else fs_file st q; fs_dir := fs_dir st |}.

(** Primitive operations on the file system.  Opening for writing truncates; a write
    appends; rename is atomic (POSIX, trusted). *)
Inductive op (B : Type) :=
| MakeDirs (d : pystr)              (* if not exists: makedirs *)
| OpenWrite (p : pystr)
| Append (p : pystr) (bytes : list B)
| Rename (src dst : pystr) (overwrite : bool).
Arguments MakeDirs {B}. Arguments OpenWrite {B}. Arguments Append {B}. Arguments Rename {B}.

(** An append to a file removed under the writer's feet is reported as NotFound; it does
    not happen in the executions considered. *)
Definition exec {B} (o : op B) (st : fs B) : res (fs B) :=
  match o with
  | MakeDirs d => Ok {| fs_file := fs_file st;
                        fs_dir := fun q => str_eqb q d || fs_dir st q |}
  | OpenWrite p => if fs_dir st (dirname p) then Ok (set_file st p (Some [])) else Raise NotFound
  | Append p bytes => match fs_file st p with
                      | Some c => Ok (set_file st p (Some (c ++ bytes)%list))
                      | None => Raise NotFound
                      end
  | Rename src dst ow =>
      match fs_file st src with
      | None => Raise NotFound
      | Some c =>
          match fs_file st dst, ow with
          | Some _, false => Raise AlreadyExists
          | _, _ => Ok (set_file (set_file st src None) dst (Some c))
          end
      end
  end.

(** vmoe/checkpoints/base.py:163-177 [save_checkpoint] as its sequence of operations; the
    serialized tree reaches the file in arbitrary pieces. *)
Definition save_ops {B} (filepath : pystr) (pieces : list (list B)) (overwrite makedirs : bool)
  : list (op B) :=
  ((if makedirs then [MakeDirs (dirname filepath)] else []) ++
   [OpenWrite (temp_path filepath)] ++
   map (Append (temp_path filepath)) pieces ++
   [Rename (temp_path filepath) filepath overwrite])%list.

(** A running save: the operations still to be done, or failed. *)
Inductive thread (B : Type) := Running (todo : list (op B)) | Failed (e : err).
Arguments Running {B}. Arguments Failed {B}.

(** vmoe/checkpoints/base.py:180-205 (thread pools) and several processes sharing a file
    system: any interleaving of the operations of the saves.  One step of thread [i]. *)
Inductive step {B} : fs B * list (thread B) -> fs B * list (thread B) -> Prop :=
| step_ok st o todo st' pre post : exec o st = Ok st' ->
    step (st, (pre ++ Running (o :: todo) :: post)%list) (st', (pre ++ Running todo :: post)%list)
| step_err st o todo e pre post : exec o st = Raise e ->
    step (st, (pre ++ Running (o :: todo) :: post)%list) (st, (pre ++ Failed e :: post)%list).

(** States reached after any number of steps: a crash can stop the system in any of them. *)
Inductive reach {B} (x : fs B * list (thread B)) : fs B * list (thread B) -> Prop :=
| reach_refl : reach x x
| reach_step y z : reach x y -> step y z -> reach x z.
