(** Stored examples and reports of adversarial attacks
    (vmoe/projects/adversarial_attacks/lib.py:43-97 and 172-231; C79 and C80). *)
From Coq Require Import String List Arith ZArith Bool Reals.
From Verif Require Import EvalModel AttModel Py.
Import ListNotations.
Local Open Scope list_scope.
Local Open Scope nat_scope.

(** ** ExampleStorage *)
Section Storage.
(** What an array has at one index of its first axis *)
Variable row : Type.
(** An array: the shape of a row, None for a scalar array (without axes), and the rows *)
Record arr := Arr { trail : option (list nat); rows : list row }.
(** A dictionary, in the order of insertion *)
Definition dict := list (string * list arr).
(** 43-53 [__init__], without the path *)
Record storage := Storage { transfer_every_steps : Z; data : dict; temp : dict }.
Definition new_storage (every : Z) : storage := Storage every [] [].

(** d[key].extend(values), for a dictionary with default [] *)
Fixpoint extend (key : string) (values : list arr) (d : dict) : dict :=
  match d with
  | [] => [(key, values)]
  | (k, l) :: r => if String.eqb key k then (k, l ++ values) :: r else (k, l) :: extend key values r
  end.
(** 55-58 [_transfer]; np.asarray copies an array. *)
Definition transfer (s : storage) : storage :=
  Storage (transfer_every_steps s)
    (fold_left (fun d kv => extend (fst kv) (snd kv) d) (temp s) (data s))
    (map (fun kv => (fst kv, [])) (temp s)).
(** 64-68 [store] *)
Definition store (s : storage) (step : Z) (arrays : list (string * arr)) : res storage :=
  let s := Storage (transfer_every_steps s) (data s) (fold_left (fun d kv => extend (fst kv) [snd kv] d) arrays (temp s)) in
  if (transfer_every_steps s =? 0)%Z then Raise ZeroDivisionError
  else if (step mod transfer_every_steps s =? 0)%Z then Ok (transfer s) else Ok s.
(** np.concatenate(values, axis=0) *)
Definition shape_eqb (a b : option (list nat)) : bool :=
  match a, b with Some a, Some b => if list_eq_dec Nat.eq_dec a b then true else false | _, _ => false end.
Definition concatenate (values : list arr) : res arr :=
  match values with
  | [] => Raise ValueError
  | a :: _ => if forallb (fun b => shape_eqb (trail a) (trail b)) values
              then Ok (Arr (trail a) (flat_map rows values)) else Raise ValueError
  end.
(** 87-97 [savez_compressed]: what the file holds.  Keys that are names of parameters of the two
    functions are errors. *)
Definition savez_compressed (content : list (string * arr)) : res (list (string * arr)) :=
  if existsb (fun kv => String.eqb (fst kv) "filepath" || String.eqb (fst kv) "file") content then Raise TypeError else Ok content.
(** 70-77 [write]: the new state, and the content of the file if it was written *)
Definition write (s : storage) : res (storage * option (list (string * arr))) :=
  let s := transfer s in
  match data s with
  | [] => Ok (s, None)
  | _ => bind (rmap (fun kv => bind (concatenate (snd kv)) (fun a => Ok (fst kv, a))) (data s)) (fun content =>
         bind (savez_compressed content) (fun f => Ok (s, Some f)))
  end.
End Storage.
Arguments Arr {row}. Arguments trail {row}. Arguments rows {row}.
Arguments extend {row}. Arguments concatenate {row}. Arguments savez_compressed {row}.

(** ** run_pgd_attack *)
Section Run.
Variable X Y rngs_t : Type.
Variable attack_fn : list X -> list Y -> rngs_t -> res (list X * rngs_t).
Variable compute_fn : list X -> list Y -> rngs_t -> res outputs.
(** The names of the routers *)
Variable name : nat -> string.

(** attacks.py:72-129 with all results: the state, the images after the attack, and what the model
    gives before and after, masked. *)
Definition attack (s : attack_state rngs_t) (x : list X) (y : list Y) (valid : list bool)
  : res (attack_state rngs_t * list X * outputs * outputs) :=
  bind (attack_fn x y (rngs _ s)) (fun xr =>
  let '(x_m, new_rngs) := xr in
  bind (compute_fn x y (rngs _ s)) (fun o_0 =>
  bind (compute_fn x_m y new_rngs) (fun o_m =>
  bind (mask_outputs (Some valid) o_0) (fun o_0 =>
  bind (mask_outputs (Some valid) o_m) (fun o_m =>
  bind (zip (fun a b => Ok (negb (a =? b))) (o_pred o_m) (o_pred o_0)) (fun changed =>
  bind (dict_map sum_intersection_over_union (o_cw o_0) (o_cw o_m)) (fun iou =>
  bind (state_update _ s new_rngs (count valid) (count changed) (fsum (o_correct o_0), fsum (o_correct o_m)) (fsum (o_loss o_0), fsum (o_loss o_m)) iou) (fun s =>
  Ok (s, x_m, o_0, o_m))))))))).

(** A row of one of the stored arrays *)
Inductive cell := CX (x : X) | CY (y : Y) | CF (v : fl) | CN (n : nat) | CB (b : bool) | CW (w : list (list R)).
(** The arrays of a batch.  Their rows have the same shape in all batches; it is not kept. *)
Definition column {A} (f : A -> cell) (l : list A) : arr cell := Arr (Some []) (map f l).
Definition routed (prefix : string) (cw : list (nat * list (list (list R)))) : list (string * arr cell) :=
  map (fun kc => ((prefix ++ name (fst kc))%string, column CW (snd kc))) cw.
(** 200-205: the arguments of [store] *)
Definition batch_arrays (x : list X) (y : list Y) (valid : list bool) (x_m : list X) (o_0 o_m : outputs) : list (string * arr cell) :=
  [("x_0", column CX x); ("y_0", column CN (o_pred o_0)); ("l_0", column CF (o_loss o_0));
    ("x_m", column CX x_m); ("y_m", column CN (o_pred o_m)); ("l_m", column CF (o_loss o_m));
    ("y", column CY y); ("valid", column CB valid)]%string
   ++ routed "cw_0/"%string (o_cw o_0) ++ routed "cw_m/"%string (o_cw o_m).
(** 191-205: one step of the loop; steps are numbered from 1. *)
Definition step (c : Z * attack_state rngs_t * option (storage cell)) (b : list X * list Y * list bool)
  : res (Z * attack_state rngs_t * option (storage cell)) :=
  let '(n, s, st) := c in
  let '(x, y, valid) := b in
  bind (attack s x y valid) (fun r =>
  let '(s, x_m, o_0, o_m) := r in
  match st with
  | None => Ok ((n + 1)%Z, s, None)
  | Some st => bind (store _ st n (batch_arrays x y valid x_m o_0 o_m)) (fun st => Ok ((n + 1)%Z, s, Some st))
  end).
(** 1 - a / b *)
Definition one_minus_ratio (a b : fl) : fl := match fdiv a b with Some v => Some (1 - v)%R | None => None end.
(** 206-231: the scalars that are written, with their steps, and the stored examples.  [pgd_state.npz]
    holds the state. *)
Record report := Report { before : list (string * fl); after_step : nat; after : list (string * fl);
                          final : attack_state rngs_t; examples : option (list (string * arr cell)) }.
Definition run (keys : list nat) (rngs : rngs_t) (num_updates : nat) (store_examples : option Z)
    (batches : list (list X * list Y * list bool)) : res report :=
  bind (rfold step batches (1%Z, create _ keys rngs, option_map (new_storage cell) store_examples)) (fun c =>
  let '(_, s, st) := c in
  let n := Some (INR (num_images _ s)) in
  bind (match st with
        | None => Ok None
        | Some st => bind (write _ st) (fun r => Ok (snd r))
        end) (fun file =>
  Ok (Report
    [("error", one_minus_ratio (fst (num_correct _ s)) n); ("loss", fdiv (fst (sum_loss _ s)) n)]%string
    num_updates
    ([("error", one_minus_ratio (snd (num_correct _ s)) n); ("loss", fdiv (snd (sum_loss _ s)) n);
      ("prediction_changes", fdiv (Some (INR (num_changes _ s))) n)]%string
     ++ map (fun kv => (("routing_changes/" ++ name (fst kv))%string, one_minus_ratio (snd kv) n)) (sum_iou_experts _ s))
    s file))).
End Run.
