(** Vocabulary for C87. *)
From Coq Require Import List Arith ZArith Bool Reals.
From Verif Require Import MoeModel MoeSpec SoftModel SoftSpec ElmModel.
Import ListNotations.
Local Open Scope nat_scope.

(** The sum over the experts of an item that have room for it *)
Definition kept_sum (bp : bool) (Sz E K C : nat) (gates : nat -> nat -> R) (ch : nat -> nat -> nat) (s : nat) (term : nat -> R) : R :=
  sum_to K (fun k => if competitors (A := Ralg) bp Sz E K gates ch s k <? C then term (ch s k) else 0%R).
(** The sum over the experts that picked an item *)
Definition picked_sum (E C : nat) (ch : nat -> nat -> nat) (s : nat) (term : nat -> R) : R :=
  sum_to E (fun e => if existsb (fun c => ch e c =? s) (seq 0 C) then term e else 0%R).
(** Item s is processed by expert e *)
Definition kept (bp : bool) (Sz E K C : nat) (gates : nat -> nat -> R) (ch : nat -> nat -> nat) (s e : nat) : Prop :=
  exists k, k < K /\ ch s k = e /\ competitors (A := Ralg) bp Sz E K gates ch s k < C.
(** No two of the first n entries are equal *)
Definition no_ties (n : nat) (x : nat -> R) : Prop := forall i j, i < n -> j < n -> x i = x j -> i = j.
(** Largest of n numbers, n > 0 *)
Fixpoint largest (n : nat) (x : nat -> R) : R :=
  match n with O => 0%R | S O => x 0 | S m => Rmax (largest m x) (x m) end.
(** The value at t and the derivative at t of a function of a real number *)
Definition moves (f : R -> R) (t v : R) (v' : R) : Prop := f t = v /\ derivable_pt_lim f t v'.
(** Mean and variance of n numbers *)
Definition mean_of (n : nat) (x : nat -> R) : R := (sum_to n x / INR n)%R.
Definition var_of (n : nat) (x : nat -> R) : R := (sum_to n (fun i => (x i - mean_of n x) * (x i - mean_of n x)) / INR n)%R.
(** The squared coefficient of variation: a smooth function where the mean is not zero *)
Definition cv2 (n : nat) (x : nat -> R) : R := (var_of n x / (mean_of n x * mean_of n x))%R.
(** Not all of the first n entries are equal *)
Definition varied (n : nat) (x : nat -> R) : Prop := exists i j, i < n /\ j < n /\ x i <> x j.
(** One of the first n entries is larger than all others *)
Definition single_largest (n : nat) (x : nat -> R) : Prop := exists a, a < n /\ forall i, i < n -> i <> a -> (x i < x a)%R.
(** The sum over all items and experts *)
Definition sum2 (n m : nat) (f : nat -> nat -> R) : R := sum_to n (fun i => sum_to m (fun j => f i j)).
(** The chance of expert e to be chosen again with new noise, averaged over the items: item s needs
    to reach [thr s] with noise of standard deviation [sd]. *)
Definition chance (cdf : R -> R) (Sz : nat) (sd : R) (thr : nat -> R) (l : nat -> nat -> R) (e : nat) : R :=
  (sum_to Sz (fun s => 1 - cdf ((thr s - l s e) / sd)) / INR Sz)%R.
