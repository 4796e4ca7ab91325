(** Definitions for stating C83. *)
From Coq Require Import List Arith ZArith Bool Reals.
From Verif Require Import Prim MoeModel MoeSpec SoftModel.
Local Open Scope nat_scope.

(** A bfloat16 number of any size: significand of at most 8 bits, exponent at least -133. *)
Definition bf16 (r : R) : Prop := exists m k : Z, (Z.abs m < 256)%Z /\ (-133 <= k)%Z /\ r = (IZR m * powerRZ 2 k)%R.
(** The last bit of its significand is zero. *)
Definition bf16_even (r : R) : Prop := exists m k : Z, (Z.abs m <= 128)%Z /\ (-132 <= k)%Z /\ r = (IZR m * powerRZ 2 k)%R.
(** The largest finite bfloat16 *)
Definition bf16_max : R := (IZR 255 * powerRZ 2 120)%R.
(** The rounding error for numbers of size at most b *)
Definition eta (b : R) : R := (powerRZ 2 (-8) * b + powerRZ 2 (-134))%R.
(** Sum of n numbers *)
Definition sum_R (n : nat) (f : nat -> R) : R := fold_right (fun i acc => (f i + acc)%R) 0%R (seq 0 n).
(** Number to the next integer towards zero *)
Definition towards_zero (x : R) (z : Z) : Prop := (0 <= x -> IZR z <= x < IZR z + 1)%R /\ (x <= 0 -> IZR z - 1 < x <= IZR z)%R.

(** The weight with which choice k of item s counts: its gate if it got a slot *)
Definition kept_gate (bp : bool) (S E K C : nat) (gates : nat -> nat -> R) (ch : nat -> nat -> nat) (s k : nat) : R :=
  if @competitors Ralg bp S E K gates ch s k <? C then gates s (ch s k) else 0%R.
(** The weight with which expert e counts for item s in top-items routing *)
Definition item_gate (C : nat) (gates : nat -> nat -> R) (ch : nat -> nat -> nat) (s e : nat) : R :=
  if existsb (fun c => ch e c =? s) (seq 0 C) then gates s e else 0%R.
(** The function of each expert reads D coordinates, and its outputs change at most c times as much as
    these. *)
Definition lipschitz (E D : nat) (c : R) (f : nat -> (nat -> R) -> nat -> R) : Prop :=
  forall e u v delta i, e < E -> (forall j, j < D -> (Rabs (u j - v j) <= delta)%R) -> (Rabs (f e u i - f e v i) <= c * delta)%R.
