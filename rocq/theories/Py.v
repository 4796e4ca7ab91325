(** Results of Python code that may raise, shared by the models below. *)
From Coq Require Import List Arith Bool.
Import ListNotations.

Inductive err := ValueError | TypeError | KeyError | IndexError | AttributeError
               | ZeroDivisionError | AssertionError | RuntimeError | NotImplementedError.
Inductive res (T : Type) := Ok (x : T) | Raise (e : err).
Arguments Ok {T}. Arguments Raise {T}.
Definition bind {T U} (x : res T) (f : T -> res U) : res U :=
  match x with Ok a => f a | Raise e => Raise e end.

(** [f] applied to each element in order, stopping at the first exception. *)
Definition rmap {T U} (f : T -> res U) : list T -> res (list U) :=
  fix go l :=
    match l with
    | [] => Ok []
    | x :: r => bind (f x) (fun y => bind (go r) (fun ys => Ok (y :: ys)))
    end.

(** A loop carrying a state, stopping at the first exception. *)
Fixpoint rfold {S T} (f : S -> T -> res S) (l : list T) (s : S) : res S :=
  match l with
  | [] => Ok s
  | x :: r => bind (f s x) (rfold f r)
  end.
