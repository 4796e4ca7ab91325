(** Conversion to bfloat16 around a dispatcher (vmoe/moe.py:212-227 and 477-478; C83), over the
    real numbers. *)
From Coq Require Import List Arith ZArith Bool Reals.
From Verif Require Import Prim MoeModel SoftModel CwModel.
Import ListNotations.
Local Open Scope nat_scope.

(** Rounding to the nearest integer, ties to even. *)
Definition rne (y : R) : Z :=
  let n := Int_part y in
  if Rlt_dec (frac_part y) (1 / 2) then n
  else if Rlt_dec (1 / 2) (frac_part y) then (n + 1)%Z
  else if Z.even n then n else (n + 1)%Z.

(** jnp.bfloat16 has 8 significant bits, and exponents down to -126 (subnormal numbers below).
    [expo x] is the exponent of x <> 0, [ulp x] the distance between neighbours there.  Overflow
    to infinity is not modelled (finite results: C83_cast), and neither are infinities and NaN. *)
Definition expo (x : R) : Z := Int_part (ln (Rabs x) / ln 2).
Definition ulp (x : R) : R := powerRZ 2 (Z.max (expo x) (-126) - 7).
Definition cast (x : R) : R := if Req_EM_T x 0 then 0%R else (IZR (rne (x / ulp x)) * ulp x)%R.

(** The dtype of an array: floating (at least float32), or an integer type. *)
Inductive dtype := Floating | Integer.
(** 477-478 [_cast_to_bfloat16], for one entry *)
Definition cast_to_bfloat16 (t : dtype) (x : R) : R := match t with Floating => cast x | Integer => x end.
(** [astype]: back to floating is exact (float32 rounding is not modelled), to an integer type
    truncates towards zero. *)
Definition astype (t : dtype) (x : R) : R :=
  match t with
  | Floating => x
  | Integer => if Rle_dec 0 x then IZR (Int_part x) else (- IZR (Int_part (- x)))%R
  end.

Definition data_cast (t : dtype) (data : nat -> nat -> nat -> R) : nat -> nat -> nat -> R := fun a b i => cast_to_bfloat16 t (data a b i).
Definition data_astype (t : dtype) (data : nat -> nat -> nat -> R) : nat -> nat -> nat -> R := fun a b i => astype t (data a b i).

(** [dispatch] and [combine] of each dispatcher, on data of a given dtype.  The wrapped dispatchers
    compute on the converted values without further rounding: the dispatch weights of the sparse
    routers are booleans, that select one item per slot, and the combine weights of dtype float32
    make the contraction one of float32. *)
Fixpoint do_dispatch (d : dispatcher Ralg) (t : dtype) (data : nat -> nat -> nat -> R) : nat -> nat -> nat -> R :=
  match d with
  | DEinsum G Sz E C d => @einsum_do_dispatch Ralg G Sz E C d data
  | DIndices G Sz K E C d => @indices_do_dispatch Ralg G Sz K E C d data
  | DDense G Sz E w => @dense_do_dispatch Ralg G Sz E data
  | DBfloat16 d => data_astype t (do_dispatch d t (data_cast t data))
  end.
Fixpoint do_combine (d : dispatcher Ralg) (t : dtype) (data : nat -> nat -> nat -> R) : nat -> nat -> nat -> R :=
  match d with
  | DEinsum G Sz E C d => @einsum_do_combine Ralg G Sz E C (G * C) d data
  | DIndices G Sz K E C d => @indices_do_combine Ralg G Sz K E C (G * C) d data
  | DDense G Sz E w => @dense_do_combine Ralg G Sz E w data
  | DBfloat16 d => data_astype t (do_combine d t (data_cast t data))
  end.

(** nn/routing.py:129-131 and 242-244, projects/soft_moe/router.py:97-100 (always): the router wraps its dispatcher *)
Definition wrap (use_bfloat16 : bool) (d : dispatcher Ralg) : dispatcher Ralg := if use_bfloat16 then DBfloat16 d else d.

(** moe.py:427-448 [sparse_moe_spmd], for inputs of dtype [tin] and expert outputs of dtype [tout] *)
Definition moe_layer (d : dispatcher Ralg) (tin tout : dtype) (experts : nat -> (nat -> nat -> R) -> nat -> nat -> R) (data : nat -> nat -> nat -> R)
  : nat -> nat -> nat -> R :=
  @sparse_moe Ralg (do_dispatch d tin) (do_combine d tout) experts data.
