(** Vocabulary for C45. *)
From Coq Require Import List Arith Bool.
From Verif Require Import MoeModel MoeSpec CwModel.
Import ListNotations.
Local Open Scope nat_scope.

(** What the theorems need from the addition of scalars, on top of [alg_laws] *)
Record sum_laws (A : alg) (sadd : sc A -> sc A -> sc A) : Prop := {
  sadd_zero : forall a, sadd a (szero A) = a;
  zero_sadd : forall a, sadd (szero A) a = a;
  one_mul : forall a, smul A (sone A) a = a;
  zero_mul : forall a, smul A (szero A) a = szero A }.
(** [w g s e] is the weight of expert e in the output of a layer for item s of group g: whatever
    the experts (functions of one item) and the items, the output is the sum of the outputs of all
    experts for this item with these weights. *)
Definition describes {A : alg} (G S E : nat) (run : (nat -> (nat -> vec A) -> nat -> vec A) -> (nat -> nat -> vec A) -> nat -> nat -> vec A)
    (w : nat -> nat -> nat -> sc A) : Prop :=
  forall f F, (forall e buf j, F e buf j = f e (buf j)) -> forall data g s, g < G -> s < S ->
    run F data g s = sum_over E (fun e => vscale A (w g s e) (f e (data g s))).
(** The dispatchers whose weights can be extracted: einsum and indices, possibly with bfloat16 casts *)
Definition supported {A : alg} (d : dispatcher A) : bool :=
  match d with DEinsum _ _ _ _ _ | DIndices _ _ _ _ _ _ | DBfloat16 (DEinsum _ _ _ _ _) | DBfloat16 (DIndices _ _ _ _ _ _) => true | _ => false end.
