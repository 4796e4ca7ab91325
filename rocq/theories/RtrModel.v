(** Options of routers and of nested layers (vmoe/nn/vit_moe.py:76-99, vmoe/nn/vit_moe_ensemble.py:30-57 and
    partialclass of vmoe/utils.py:112-123; C94). *)
From Coq Require Import String List Arith ZArith Bool.
From Verif Require Import PpModel.
From Verif Require Import Py.
Import ListNotations.
Local Open Scope string_scope.
Local Open Scope list_scope.
Local Open Scope nat_scope.

(** Dictionaries of keyword arguments.  The key None is that of [**d] in a call string. *)
Definition kwargs (V : Type) := list (option string * V).
Definition kget {V} (d : kwargs V) (k : string) : option V := dget key_eqb d (Some k).
Definition kset {V} (d : kwargs V) (k : string) (v : V) : kwargs V := dset key_eqb d (Some k) v.
Definition kdel {V} (d : kwargs V) (k : string) : kwargs V := filter (fun x => negb (key_eqb (fst x) (Some k))) d.
(** d | e *)
Definition kunion {V} (d e : kwargs V) : kwargs V := fold_left (fun d x => dset key_eqb d (fst x) (snd x)) e d.
(** f(k1=v1, ..., kn=vn, **d): a key of d that is not a string, or one of the others, is a TypeError. *)
Definition call_kwargs {V} (named d : kwargs V) : res (kwargs V) :=
  if existsb (fun x => match fst x with None => true | Some k => match kget named k with Some _ => true | None => false end end) d
  then Raise TypeError else Ok (named ++ d).

Section Router.
(** Values of options, classes; parse_call (C49) of a value: anything but a string is an error. *)
Variables (V Cls : Type).
Variable parse_call : V -> res (Cls * list V * kwargs V).
(** The strings 'NoisyTopExpertsPerItemRouter' and 'Router', and integers *)
Variables (default_name router_name : V).
Variable of_int : Z -> V.

(** vit_moe.py:68-75: the fields of a layer that are used; router is None or a dictionary with string keys. *)
Record layer := { l_num_experts : V; l_deterministic : V; l_dtype : V; l_router : option (list (string * V)) }.
Definition router_of (l : layer) : kwargs V := match l_router l with None => [] | Some d => map (fun x => (Some (fst x), snd x)) d end.
(** What a class is called with *)
Record call := { c_cls : Cls; c_args : list V; c_kwargs : kwargs V }.
(** vit_moe.py:78-82 and vit_moe_ensemble.py:49-53 *)
Definition router_kwargs (l : layer) : res (kwargs V) :=
  bind (call_kwargs [(Some "num_experts", l_num_experts l)] (router_of l)) (fun d =>
  Ok (kset d "deterministic" (match kget d "deterministic" with Some v => v | None => l_deterministic l end))).
(** vit_moe.py:76-88 *)
Definition create_router (l : layer) : res call :=
  bind (router_kwargs l) (fun router_kwargs =>
  let name := match kget router_kwargs "name" with Some v => v | None => default_name end in
  let router_kwargs := kdel router_kwargs "name" in
  bind (parse_call name) (fun p =>
  let '(router_cls, router_args, router_kwargs2) := p in
  bind (call_kwargs [(Some "dtype", l_dtype l); (Some "name", router_name)] (kunion router_kwargs2 router_kwargs)) (fun kw =>
  Ok {| c_cls := router_cls; c_args := router_args; c_kwargs := kw |}))).
(** vit_moe_ensemble.py:30-33 *)
Definition parse_size (ensemble_size : option Z) : res Z :=
  match ensemble_size with None => Raise ValueError | Some n => if (n <=? 0)%Z then Raise ValueError else Ok n end.
(** vit_moe_ensemble.py:47-57; the class is fixed. *)
Variable ensemble_cls : Cls.
Definition create_router_ensemble (l : layer) (ensemble_size : option Z) : res call :=
  bind (router_kwargs l) (fun router_kwargs =>
  bind (parse_size ensemble_size) (fun n =>
  bind (call_kwargs [(Some "dtype", l_dtype l); (Some "name", router_name)] (kset router_kwargs "ensemble_size" (of_int n))) (fun kw =>
  Ok {| c_cls := ensemble_cls; c_args := []; c_kwargs := kw |}))).

(** utils.py:112-123: classes made by partialclass, and the call of the class at the bottom *)
Inductive klass := Base (c : Cls) | Partial (k : klass) (base_args : list V) (base_kwargs : kwargs V).
Fixpoint construct (k : klass) (args : list V) (kw : kwargs V) : call :=
  match k with
  | Base c => {| c_cls := c; c_args := args; c_kwargs := kw |}
  | Partial k base_args base_kwargs =>
      let bound_args := base_args ++ args in
      let bound_kwargs := kunion base_kwargs kw in
      construct k bound_args bound_kwargs
  end.
End Router.

(** vit_moe.py:90-99: split_rngs is a bool or an iterable of strings; a string is an iterable of its
    characters. *)
Inductive split_arg := SplitBool (b : bool) | SplitNames (l : list string) | SplitString (s : string).
Fixpoint characters (s : string) : list string := match s with EmptyString => [] | String c s => String c EmptyString :: characters s end.
Definition create_split_rngs (a : split_arg) : list (string * bool) :=
  match a with
  | SplitBool b => [("params", b); ("dropout", b)]
  | SplitNames l => [("params", existsb (String.eqb "params") l); ("dropout", existsb (String.eqb "dropout") l)]
  | SplitString s => [("params", existsb (String.eqb "params") (characters s)); ("dropout", existsb (String.eqb "dropout") (characters s))]
  end.
