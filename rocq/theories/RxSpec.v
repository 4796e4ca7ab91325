(** What a regular expression means, independently of how it is searched for. *)
From Coq Require Import Ascii String List Arith Bool Relations.
From Verif Require Import RxModel.
Import ListNotations.
Local Open Scope list_scope.
Local Open Scope nat_scope.

(** No backreferences. *)
Fixpoint no_refs (r : re) : bool :=
  match r with
  | Ref _ => false
  | Cat a b | Alt a b => no_refs a && no_refs b
  | Opt _ a | Star _ a | Plus _ a | Grp _ _ a | Look _ a => no_refs a
  | _ => true
  end.
(** Names and number of the capturing groups. *)
Fixpoint group_names (r : re) : list string :=
  match r with
  | Cat a b | Alt a b => group_names a ++ group_names b
  | Opt _ a | Star _ a | Plus _ a | Look _ a => group_names a
  | Grp _ name a => match name with Some k => [k] | None => [] end ++ group_names a
  | _ => []
  end.
Fixpoint ngroups (r : re) : nat :=
  match r with
  | Cat a b | Alt a b => ngroups a + ngroups b
  | Opt _ a | Star _ a | Plus _ a | Look _ a => ngroups a
  | Grp _ _ a => S (ngroups a)
  | _ => 0
  end.

(** Character classes. *)
Definition within (c : ascii) (p : ascii * ascii) : Prop :=
  nat_of_ascii (fst p) <= nat_of_ascii c <= nat_of_ascii (snd p).
Definition item_has (c : ascii) (x : citem) : Prop :=
  match x with Range lo hi => within c (lo, hi) | Not l => ~ exists p, In p l /\ within c p end.
Definition word_char (c : ascii) : Prop := exists p, In p word /\ within c p.
Definition word_at_pos (s : string) (i : nat) : Prop := exists c, get i s = Some c /\ word_char c.
Definition boundary (s : string) (i : nat) : Prop :=
  ~ ((exists j, i = S j /\ word_at_pos s j) <-> word_at_pos s i).
Definition position_ok (s : string) (a : at_code) (i : nat) : Prop :=
  match a with
  | AtBegin => i = 0
  | AtEndString => i = String.length s
  | AtEnd => i = String.length s \/ (i + 1 = String.length s /\ get i s = Some newline)
  | AtBoundary => boundary s i
  | AtNonBoundary => ~ boundary s i
  end.

(** [r] (without backreferences) matches the characters of [s] from [i] up to [j]. *)
Fixpoint Match (s : string) (r : re) (i j : nat) : Prop :=
  match r with
  | Eps => i = j
  | Chr a => j = S i /\ get i s = Some a
  | Any => j = S i /\ exists b, get i s = Some b /\ b <> newline
  | CSet neg l => j = S i /\ exists b, get i s = Some b /\
                  (if neg then ~ (exists x, In x l /\ item_has b x) else exists x, In x l /\ item_has b x)
  | At a => i = j /\ position_ok s a i
  | Cat a b => exists k, Match s a i k /\ Match s b k j
  | Alt a b => Match s a i j \/ Match s b i j
  | Opt _ a => i = j \/ Match s a i j
  | Star _ a => clos_refl_trans_1n nat (Match s a) i j
  | Plus _ a => exists k, Match s a i k /\ clos_refl_trans_1n nat (Match s a) k j
  | Grp _ _ a => Match s a i j
  | Look positive a => i = j /\ (if positive then exists k, Match s a i k else ~ exists k, Match s a i k)
  | Ref _ => False
  end.
(** [r] matches somewhere in [s]. *)
Definition Found (r : re) (s : string) : Prop := exists i j, i <= String.length s /\ Match s r i j.

(** Expressions that keep their meaning when they are joined: backreferences only where no earlier
    expression has a group, and all names different. *)
Definition separable (l : list re) : Prop :=
  (forall before x after, l = before ++ x :: after -> no_refs x = true \/ Forall (fun y => ngroups y = 0) before) /\
  NoDup (concat (map group_names l)).
