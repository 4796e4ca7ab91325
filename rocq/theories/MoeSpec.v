(** Specification of MoE routing, independent of the implementation model except for
    the scalar/item structure [alg]. *)
From Coq Require Import List Arith ZArith Bool QArith.
From Verif Require Import MoeModel.
Import ListNotations.
Local Open Scope nat_scope.

(** What the theorems need to know about scalars and items.  Satisfied for instance by
    the integers, rationals and reals. *)
Record alg_laws (A : alg) : Prop := {
  leb_total : forall a b, sleb A a b = true \/ sleb A b a = true;
  leb_trans : forall a b c, sleb A a b = true -> sleb A b c = true -> sleb A a c = true;
  neg_leb : forall a b, sleb A (sneg A a) (sneg A b) = sleb A b a;
  mul_one : forall a, smul A a (sone A) = a;
  mul_zero : forall a, smul A a (szero A) = szero A;
  add_comm : forall x y, vadd A x y = vadd A y x;
  add_assoc : forall x y z, vadd A x (vadd A y z) = vadd A (vadd A x y) z;
  add_zero : forall x, vadd A x (vzero A) = x;
  scale_one : forall x, vscale A (sone A) x = x;
  scale_zero : forall x, vscale A (szero A) x = vzero A;
  scale_vzero : forall a, vscale A a (vzero A) = vzero A }.

(** [i] is preferred to [j]: larger value, or not smaller and lower index. *)
Definition preferred {A : alg} (val : nat -> sc A) (i j : nat) : bool :=
  negb (sleb A (val i) (val j)) || (sleb A (val j) (val i) && (i <? j)).

(** [ch 0, ..., ch (K-1)] are the K best of [0..n-1], best first. *)
Definition best_choices {A : alg} (n K : nat) (val : nat -> sc A) (ch : nat -> nat) : Prop :=
  (forall k, k < K -> ch k < n) /\
  (forall k k', k < k' -> k' < K -> preferred val (ch k) (ch k') = true) /\
  (forall i, i < n -> (forall k, k < K -> ch k <> i) ->
     forall k, k < K -> preferred val (ch k) i = true).

(** Largest entry of a row of length [n >= 1]. *)
Fixpoint row_max {A : alg} (n : nat) (row : nat -> sc A) : sc A :=
  match n with
  | 0 | 1 => row 0
  | S m => if sleb A (row m) (row_max m row) then row_max m row else row m
  end.

(** Does item [s'] come before item [s]? *)
Definition item_first {A : alg} (batch_priority : bool) (E : nat)
  (gates : nat -> nat -> sc A) (s' s : nat) : bool :=
  if batch_priority then preferred (fun s => row_max E (gates s)) s' s else s' <? s.

(** Does choice (s', k') have priority over choice (s, k)? *)
Definition priority {A : alg} (bp : bool) (E : nat) (gates : nat -> nat -> sc A)
  (s' k' s k : nat) : bool :=
  (k' <? k) || ((k' =? k) && item_first bp E gates s' s).

(** Number of choices of the same expert with priority over choice (s, k). *)
Definition competitors {A : alg} (bp : bool) (S E K : nat) (gates : nat -> nat -> sc A)
  (ch : nat -> nat -> nat) (s k : nat) : nat :=
  length (filter
    (fun p => (ch (fst p) (snd p) =? ch s k) && priority bp E gates (fst p) (snd p) s k)
    (list_prod (seq 0 S) (seq 0 K))).

(** Sum of items. *)
Definition sum_over {A : alg} (n : nat) (f : nat -> vec A) : vec A :=
  fold_right (fun i acc => vadd A (f i) acc) (vzero A) (seq 0 n).

(** Meaning of a sparse MoE layer with top-experts routing for item [s]: the gated sum
    of the experts over the choices whose slot is below the capacity. *)
Definition top_experts_output {A : alg} (bp : bool) (S E K C : nat)
  (gates : nat -> nat -> sc A) (ch : nat -> nat -> nat) (f : nat -> vec A -> vec A)
  (x : nat -> vec A) (s : nat) : vec A :=
  sum_over K (fun k =>
    if competitors bp S E K gates ch s k <? C
    then vscale A (gates s (ch s k)) (f (ch s k) (x s))
    else vzero A).

(** Meaning of a layer with top-items routing: [ch e c] is the c-th item of expert e. *)
Definition top_items_output {A : alg} (E C : nat) (gates : nat -> nat -> sc A)
  (ch : nat -> nat -> nat) (f : nat -> vec A -> vec A) (x : nat -> vec A) (s : nat) : vec A :=
  sum_over E (fun e =>
    if existsb (fun c => ch e c =? s) (seq 0 C)
    then vscale A (gates s e) (f e (x s))
    else vzero A).

(** Number of experts selecting item [s] under top-items routing. *)
Definition selecting_experts (E C : nat) (ch : nat -> nat -> nat) (s : nat) : nat :=
  length (filter (fun e => existsb (fun c => ch e c =? s) (seq 0 C)) (seq 0 E)).

(** A concrete structure used in the examples: integers acting on integers. *)
Definition Zalg : alg :=
  {| sc := Z; sleb := Z.leb; szero := 0%Z; sone := 1%Z; smul := Z.mul; sneg := Z.opp;
     vec := Z; vzero := 0%Z; vadd := Z.add; vscale := Z.mul |}.

(** [n] is the rounding of [r] in the given mode. *)
Definition rounds_to (mode : rounding) (r : Q) (n : Z) : Prop :=
  match mode with
  | Ceil => (inject_Z n - 1 < r)%Q /\ (r <= inject_Z n)%Q
  | Round => (inject_Z n - (1 # 2) <= r <= inject_Z n + (1 # 2))%Q /\
             ((r == inject_Z n - (1 # 2))%Q \/ (r == inject_Z n + (1 # 2))%Q -> Z.Even n)
  | OtherRounding => False
  end.

(** [c] is the least admissible capacity that is at least [n]. *)
Definition least_capacity (multiple_of : option Z) (n c : Z) : Prop :=
  let admissible x := match multiple_of with
                      | Some m => (0 < m)%Z -> (m | x)%Z
                      | None => True
                      end in
  (n <= c)%Z /\ admissible c /\ (forall x, (n <= x)%Z -> admissible x -> (c <= x)%Z).
