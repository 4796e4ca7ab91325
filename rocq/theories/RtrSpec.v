(** Specification for C94. *)
From Coq Require Import String List Arith ZArith Bool.
From Verif Require Import RtrModel.
From Verif Require Import Py.
Import ListNotations.
Local Open Scope string_scope.
Local Open Scope list_scope.
Local Open Scope nat_scope.

Section Options.
Context {V Cls : Type}.
(** The options of the field router; a dictionary has every key once. *)
Definition options (l : layer V) : list (string * V) := match l_router V l with None => [] | Some d => d end.
Definition dictionary (l : layer V) : Prop := NoDup (map fst (options l)).
Definition given (l : layer V) (k : string) : Prop := In k (map fst (options l)).
(** The string that names the class of the router *)
Definition named (default : V) (l : layer V) (name : V) : Prop := In ("name", name) (options l) \/ ~ given l "name" /\ name = default.
(** Values of the options that no user can set otherwise *)
Definition fixed (router_name : V) (l : layer V) (k : string) (v : V) : Prop :=
  (k = "num_experts" /\ v = l_num_experts V l) \/ (k = "dtype" /\ v = l_dtype V l) \/ (k = "name" /\ v = router_name).
(** deterministic is the option of the router, or that of the layer *)
Definition determined (l : layer V) (k : string) (v : V) : Prop :=
  k = "deterministic" /\ (In (k, v) (options l) \/ ~ given l k /\ v = l_deterministic V l).
Definition special (k : string) : Prop := k = "num_experts" \/ k = "dtype" \/ k = "name" \/ k = "deterministic".
(** Any other option is that of the dictionary, or that of the call string *)
Definition chosen (l : layer V) (parsed : kwargs V) (k : string) (v : V) : Prop :=
  ~ special k /\ (In (k, v) (options l) \/ ~ given l k /\ In (Some k, v) parsed).
(** A call whose keyword arguments are those of P, each once *)
Definition called_with (c : call V Cls) (P : string -> V -> Prop) : Prop :=
  NoDup (map fst (c_kwargs V Cls c)) /\ ~ In None (map fst (c_kwargs V Cls c)) /\ forall k v, In (Some k, v) (c_kwargs V Cls c) <-> P k v.
(** Nested partialclass, the innermost first *)
Definition nest (c : Cls) (ls : list (list V * kwargs V)) : klass V Cls := fold_left (fun k l => Partial V Cls k (fst l) (snd l)) ls (Base V Cls c).
(** The dictionaries from the innermost to that of the call: the last with a key has its value *)
Definition last_with (ds : list (kwargs V)) (k : option string) (v : V) : Prop :=
  exists pre d post, ds = pre ++ d :: post /\ In (k, v) d /\ forall e, In e post -> ~ In k (map fst e).
End Options.
