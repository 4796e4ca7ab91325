(** Vocabulary for C26 and C27. *)
From Coq Require Import List Arith Bool.
From Verif Require Import Py TreeModel.
Import ListNotations.

(** A dict has distinct keys, at every level; [P] holds for all keys. *)
Inductive wf {L} (P : str -> Prop) : tree L -> Prop :=
| wf_leaf x : wf P (Leaf x)
| wf_node cs : NoDup (map fst cs) -> Forall (fun kc => P (fst kc) /\ wf P (snd kc)) cs -> wf P (Node cs).

Definition no_slash (k : str) : Prop := ~ In slash k.

(** [r] has the structure of [t], and its leaves are related to those of [t]. *)
Inductive related {L M} (R : list str -> L -> M -> Prop) : list str -> tree L -> tree M -> Prop :=
| rel_leaf p x y : R p x y -> related R p (Leaf x) (Leaf y)
| rel_node p cs ds :
    Forall2 (fun kc kd => fst kc = fst kd /\ related R (p ++ [fst kc]) (snd kc) (snd kd)) cs ds ->
    related R p (Node cs) (Node ds).

Section Rules.
Variable regex : Type.
Variable search : regex -> str -> bool.

(** What an unparsed spec means: a name is a spec with one axis; nothing is no axes. *)
Inductive means : uspec -> spec -> Prop :=
| m_parsed s : means (UParsed s) s
| m_none : means (UStr []) []
| m_name c s : means (UStr (c :: s)) [AName (c :: s)]
| m_seq l : means (USeq l) l.

(** The spec is that of the first rule that matches the name of the parameter; a parameter
    with no such rule, or of size at most one, is replicated. *)
Definition first_rule (rules : list (regex * uspec)) (p : list str) (v : leaf) (s : spec) : Prop :=
  (exists before r u after shape,
     rules = before ++ (r, u) :: after /\ search r (join p) = true /\
     Forall (fun ru => search (fst ru) (join p) = false) before /\
     v = Some shape /\ 1 < size shape /\ means u s) \/
  (s = [] /\ (Forall (fun ru => search (fst ru) (join p) = false) rules \/
              exists shape, v = Some shape /\ size shape <= 1)).
End Rules.

(** The leaves of a tree with their paths. *)
Inductive leaf_at {L} : tree L -> list str -> L -> Prop :=
| la_leaf x : leaf_at (Leaf x) [] x
| la_node cs k c p x : In (k, c) cs -> leaf_at c p x -> leaf_at (Node cs) (k :: p) x.
