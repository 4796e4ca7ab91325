(** Vocabulary for C69 and C70. *)
From Coq Require Import String List Arith ZArith Bool Reals.
From Verif Require TreeModel.
From Verif Require Import NdArray SumModel Py.
Import ListNotations.
Local Open Scope list_scope.
Local Open Scope nat_scope.

Definition name_of (o : op) : str :=
  match o with
  | Norm => chars "norm" | Mean => chars "mean" | Std => chars "std" | Sum => chars "sum" | Min => chars "min" | Max => chars "max"
  end.

Definition operation (t : transform) : str := match t with TOp n => n | TAxis n _ => n | TAxes n _ => n end.
Definition given_axes (t : transform) : option (list Z) := match t with TOp _ => None | TAxis _ z => Some [z] | TAxes _ l => Some l end.

(** The axes that a transformation reduces, of an array with n axes: all of them, or the given ones, where
    negative numbers count from the end.  There are none if the given ones are not axes, or repeated. *)
Definition reduced (n : nat) (given : option (list Z)) (axes : list nat) : Prop :=
  match given with
  | None => forall i, In i axes <-> i < n
  | Some l => NoDup axes /\ Forall2 (fun z i => i < n /\ (z = Z.of_nat i \/ z = Z.of_nat i - Z.of_nat n)%Z) l axes
  end.

(** The entries of a whose index is idx except along the axes *)
Definition agrees (axes idx c : list nat) : bool :=
  forallb (fun i => existsb (Nat.eqb i) axes || (nth i c 0 =? nth i idx 0)) (seq 0 (length c)).
Definition fibre (a : arr) (axes idx : list nat) : list val := map (at_ a) (filter (agrees axes idx) (indices (dims a))).

Definition total (l : list R) : R := fold_right Rplus 0%R l.
Definition average (l : list R) : R := (total l / INR (length l))%R.
(** The value of an operation on some entries: NaN if one of them is, or for the mean and the standard
    deviation of no entries *)
Definition is_result (o : op) (l : list val) (v : val) : Prop :=
  (In None l /\ v = None) \/
  exists xs, l = map Some xs /\
    match o with
    | Sum => v = Some (total xs)
    | Mean => (xs = [] /\ v = None) \/ (xs <> [] /\ v = Some (average xs))
    | Std => (xs = [] /\ v = None) \/ (xs <> [] /\ exists r, v = Some r /\ (0 <= r /\ r * r = average (map (fun x => (x - average xs) * (x - average xs)) xs))%R)
    | Norm => exists r, v = Some r /\ (0 <= r /\ r * r = total (map (fun x => x * x) xs))%R
    | Min => exists r, v = Some r /\ In r xs /\ forall x, In x xs -> (r <= x)%R
    | Max => exists r, v = Some r /\ In r xs /\ forall x, In x xs -> (x <= r)%R
    end.

(** A transformation of a that cannot be done *)
Definition invalid (a : arr) (t : transform) : Prop :=
  (forall o, operation t <> name_of o) \/
  (forall axes, ~ reduced (length (dims a)) (given_axes t) axes) \/
  (exists axes i, (operation t = name_of Min \/ operation t = name_of Max) /\ reduced (length (dims a)) (given_axes t) axes /\ In i axes /\ nth i (dims a) 1 = 0).

(** The arrays have the same shape and entries. *)
Definition same_array (a b : arr) : Prop := dims a = dims b /\ forall idx, In idx (indices (dims a)) -> at_ a idx = at_ b idx.

(** What a rule gives for an array under a key: nothing, or at most m values, those of the transformed array in
    row-major order, with names that begin with the key and the operations *)
Definition summary_of (m : nat) (kv : str * arr) (r : rule) (l : list (str * val)) : Prop :=
  (pattern r (fst kv) = false /\ l = []) \/
  (pattern r (fst kv) = true /\ exists suffix b, transform_array (snd kv) (transforms r) = Ok (suffix, b) /\
    length l <= m /\ map snd l = map (at_ b) (indices (dims b)) /\ forall nv, In nv l -> exists rest, fst nv = fst kv ++ suffix ++ rest).

(** What a transformation does, without the notation of its axes: 0 and (0,) are the same *)
Definition meaning (t : transform) : str * option (list Z) := (operation t, given_axes t).
Definition known (t : transform) : Prop := exists o, operation t = name_of o.
(** Code points: '_' is 95 and '[' is 91. *)
Definition prolongs (k k' : str) : Prop := exists c rest, k' = k ++ c :: rest /\ (c = 95 \/ c = 91).
Definition entry (d : list (str * val)) (k : str) : option val := TreeModel.dget d k.
