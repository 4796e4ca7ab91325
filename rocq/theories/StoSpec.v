(** Vocabulary for C79 and C80. *)
From Coq Require Import String List Arith ZArith Bool Reals.
From Verif Require Import EvalModel AttModel AttSpec StoModel Py.
Import ListNotations.
Local Open Scope list_scope.
Local Open Scope nat_scope.

Section Events.
Variable row : Type.
(** What is done with a storage: calls of store (with any step) and of write. *)
Inductive event := Store (step : Z) (arrays : list (string * arr row)) | Write.
(** The files that are written. *)
Fixpoint play (s : storage row) (l : list event) : res (list (option (list (string * arr row)))) :=
  match l with
  | [] => Ok []
  | Store step arrays :: r => bind (store row s step arrays) (fun s => play s r)
  | Write :: r => bind (write row s) (fun sf => bind (play (fst sf) r) (fun fs => Ok (snd sf :: fs)))
  end.
(** Everything stored by some calls, and the arrays stored under a key, in order. *)
Definition stored (l : list event) : list (string * arr row) :=
  flat_map (fun e => match e with Store _ a => a | Write => [] end) l.
Definition under (key : string) (l : list (string * arr row)) : list (arr row) :=
  map snd (filter (fun kv => String.eqb key (fst kv)) l).
(** The keys in the order in which they first appear. *)
Fixpoint first_keys (seen : list string) (l : list (string * arr row)) : list string :=
  match l with
  | [] => []
  | (k, _) :: r => if existsb (String.eqb k) seen then first_keys seen r else k :: first_keys (k :: seen) r
  end.
(** The file that should be written. *)
Definition expected (l : list (string * arr row)) : option (list (string * arr row)) :=
  match l with
  | [] => None
  | _ => Some (map (fun k => (k, Arr (match under k l with a :: _ => trail a | [] => None end) (flat_map rows (under k l)))) (first_keys [] l))
  end.
(** Arrays that can be concatenated: under each key the rows have one shape. *)
Definition compatible (shape : string -> list nat) (l : list (string * arr row)) : Prop :=
  Forall (fun kv => trail (snd kv) = Some (shape (fst kv)) /\ fst kv <> "filepath"%string /\ fst kv <> "file"%string) l.
(** All writes of a history: the arrays stored before each of them. *)
Fixpoint histories (before : list (string * arr row)) (l : list event) : list (list (string * arr row)) :=
  match l with
  | [] => []
  | Store _ a :: r => histories (before ++ a) r
  | Write :: r => before :: histories before r
  end.
End Events.
Arguments Store {row}. Arguments Write {row}.

(** A column of a file. *)
Fixpoint get {A} (key : string) (f : list (string * A)) : option A :=
  match f with
  | [] => None
  | (k, a) :: r => if String.eqb key k then Some a else get key r
  end.

(** ** Recomputing the reports from the stored examples *)

Section Recompute.
Variable X Y : Type.
Notation cell := (cell X Y).
Notation file := (list (string * arr cell)).
(** The rows of a column *)
Definition cells (key : string) (f : file) : list cell := match get key f with Some a => rows a | None => [] end.
Definition floats (key : string) (f : file) : list fl := map (fun c => match c with CF _ _ v => v | _ => None end) (cells key f).
Definition ints (key : string) (f : file) : list nat := map (fun c => match c with CN _ _ n => n | _ => 0 end) (cells key f).
Definition marks (key : string) (f : file) : list bool := map (fun c => match c with CB _ _ b => b | _ => false end) (cells key f).
Definition weights (key : string) (f : file) : list (list (list R)) := map (fun c => match c with CW _ _ w => w | _ => [] end) (cells key f).
Definition labels (key : string) (f : file) : list Y := flat_map (fun c => match c with CY _ _ y => [y] | _ => [] end) (cells key f).

(** The number of real images *)
Definition real_images (f : file) : nat := length (filter (fun b => b) (marks "valid" f)).
Definition ratio (a : fl) (f : file) : fl := fdiv a (Some (INR (real_images f))).
Definition one_minus (a : fl) : fl := match a with Some v => Some (1 - v)%R | None => None end.
(** Mean loss, error rate (by the value of the label of an image at a prediction), rate of changed
    predictions, and routing changes *)
Definition mean_loss (key : string) (f : file) : fl := ratio (fsum (floats key f)) f.
Definition hits (value : Y -> nat -> R) (key : string) (f : file) : R :=
  total (map (fun vyp : bool * (Y * nat) => if fst vyp then value (fst (snd vyp)) (snd (snd vyp)) else 0%R)
             (combine (marks "valid" f) (combine (labels "y" f) (ints key f)))).
Definition error_rate (value : Y -> nat -> R) (key : string) (f : file) : fl := one_minus (ratio (Some (hits value key f)) f).
Definition changed_rate (f : file) : fl :=
  ratio (Some (INR (length (filter (fun ab => negb (fst ab =? snd ab)) (combine (ints "y_m" f) (ints "y_0" f)))))) f.
Definition routing_change (experts : nat) (a b : string) (f : file) : fl :=
  one_minus (ratio (Some (total (map (fun e => mean_iou experts (fst e) (snd e)) (combine (weights a f) (weights b f))))) f).

(** The model gives the value of the label at the prediction as the third result, and weights of the
    same shape for all images; an attack gives as many images as it is given. *)
Definition sound_outputs {rngs_t : Type} (compute_fn : list X -> list Y -> rngs_t -> res outputs) (value : Y -> nat -> R) (tokens experts : nat -> nat) : Prop :=
  forall x y r o, compute_fn x y r = Ok o ->
    o_correct o = map (fun yp => Some (value (fst yp) (snd yp))) (combine y (o_pred o)) /\
    Forall (fun kw => 0 < tokens (fst kw) /\ Forall (fun im => length im = tokens (fst kw) /\ Forall (fun row => length row = experts (fst kw)) im) (snd kw)) (o_cw o).
End Recompute.
