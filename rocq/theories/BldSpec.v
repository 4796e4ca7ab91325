(** Specification for C95. *)
From Coq Require Import String List Arith Bool.
From Verif Require Import RtrModel BldModel.
From Verif Require Import Py.
Import ListNotations.
Local Open Scope string_scope.
Local Open Scope list_scope.
Local Open Scope nat_scope.

(** parse_call returns a dictionary *)
Definition gives_dictionaries {V Cls : Type} (parse_call : V -> res (Cls * list V * kwargs V)) : Prop :=
  forall n cls args p, parse_call n = Ok (cls, args, p) -> NoDup (map fst p).

Section Options.
Context {V Cls : Type}.
(** Keys of a configuration and of the call string *)
Definition has (l : list (string * V)) (k : string) : Prop := In k (map fst l).
Definition says (p : kwargs V) (k : string) : Prop := In (Some k) (map fst p).
(** Only named arguments, and none twice *)
Definition proper (p : kwargs V) : Prop := NoDup (map fst p) /\ ~ In None (map fst p).
(** The same class is called with the same arguments, but for its name *)
Definition same_but_name (a b : call V Cls) : Prop :=
  c_cls V Cls a = c_cls V Cls b /\ c_args V Cls a = c_args V Cls b
  /\ forall k v, k <> "name" -> (In (Some k, v) (c_kwargs V Cls a) <-> In (Some k, v) (c_kwargs V Cls b)).
(** A call with exactly these keyword arguments, each once *)
Definition passes (c : call V Cls) (P : string -> V -> Prop) : Prop :=
  proper (c_kwargs V Cls c) /\ forall k v, In (Some k, v) (c_kwargs V Cls c) <-> P k v.
End Options.
