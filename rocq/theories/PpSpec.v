(** Vocabulary for C49, C56 and C57. *)
From Coq Require Import String List Arith ZArith Bool Reals.
From Verif Require Import NdArray PpModel.
From Verif Require Import Py.
Import ListNotations.
Local Open Scope nat_scope.

(** The operations one after the other, from left to right, until the first exception *)
Definition in_order (ops : list op) (d : dict) : res dict := fold_left (fun r o => bind r (effect o)) ops (Ok d).
Definition in_place (o : op) : Prop := match o with InPlace _ => True | Fresh _ => False end.
(** The values of a dictionary *)
Definition has (d : dict) (k : string) (v : value) : Prop := dget String.eqb d k = Some v.
Definition same_at (d d' : dict) (k : string) : Prop := dget String.eqb d' k = dget String.eqb d k.
(** An operation that does not change the flag of validity *)
Definition preserves (k : string) (o : op) : Prop := forall d d', effect o d = Ok d' -> same_at d d' k.

(** The keys that an operation with the arguments key, inkey and outkey reads and writes *)
Definition keys_of (key : option string) (inkey outkey i o : string) : Prop :=
  (exists k, key = Some k /\ k <> EmptyString /\ i = k /\ o = k) \/ ((key = None \/ key = Some EmptyString) /\ i = inkey /\ o = outkey).

(** a.b.c as a string and as an expression, with the end of each part *)
Fixpoint dots (parts : list string) : string :=
  match parts with [] => EmptyString | [p] => p | p :: r => (p ++ "." ++ dots r)%string end.
Definition chain (first : string) (parts : list string) : expr :=
  fold_left (fun e p => Attribute e p (end_col e + 1 + String.length p)) parts (Name first (String.length first)).

(** A name, or attributes of a name *)
Inductive Dotted : expr -> Prop :=
  | DName id n : Dotted (Name id n)
  | DAttr e a n : Dotted e -> Dotted (Attribute e a n).

(** The values that a call binds to parameters: positional ones first, then keywords, then defaults *)
Definition bound_value (args : list lit) (kwargs : list (string * lit)) (i : nat) (p : string * option lit) : option lit :=
  if i <? length args then nth_error args i
  else match dget String.eqb kwargs (fst p) with Some v => Some v | None => snd p end.
(** A valid call: not too many arguments, all keywords are names of parameters that have no positional
    argument, and nothing is missing *)
Definition valid_call (params : list (string * option lit)) (args : list lit) (kwargs : list (string * lit)) : Prop :=
  length args <= length params /\
  (forall k v, List.In (k, v) kwargs -> exists i p, length args <= i /\ nth_error params i = Some p /\ fst p = k) /\
  forall i p, nth_error params i = Some p -> bound_value args kwargs i p <> None.
(** Indices of an array *)
Definition within (ds idx : list nat) : Prop := Forall2 (fun i n => i < n) idx ds.

(** External functions for the examples: three calls, and a module with all of pp_ops *)
Definition ex_parse (s : string) : res expr :=
  if String.eqb s "keep('image')" then Ok (Call (Name "keep" 4) [Name "image" 12] [] 13)
  else if String.eqb s "copy('image', outkey='x')" then Ok (Call (Name "copy" 4) [Name "image" 12] [(Some "outkey"%string, Name "x" 24)] 25)
  else if String.eqb s "ignore_no_labels" then Ok (Name "ignore_no_labels" 16)
  else Raise RuntimeError.
Definition ex_literal (e : expr) : res lit := match e with Name s _ => Ok (LStr s) | _ => Raise ValueError end.
Definition ex_call (name : string) : list lit -> list (string * lit) -> res op :=
  call_op (fun _ _ _ _ => 0%R) (fun _ _ _ => Raise AttributeError) (fun _ => "image"%string) name.
Definition ex_fn : string -> res (heap -> option nat -> res (heap * nat)) :=
  get_data_process_fn unit string ex_parse ex_literal (fun _ => Ok tt) (fun _ s => Ok s) ex_call tt.
