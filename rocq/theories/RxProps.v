(** C78: a list of regular expressions means any of them. *)
From Coq Require Import Ascii String List Arith Bool Lia.
From Verif Require Import RxModel RxSpec RxProofs RxProofs2 RxProofs3.
Import ListNotations.
Local Open Scope list_scope.
Local Open Scope nat_scope.
Local Open Scope string_scope.

(** Every expression of the list compiles on its own, and they are separable (backreferences only where
    no earlier expression has a group; no name of a group twice): the function is true for the strings in
    which any of them is found, whatever its alternatives, groups and anchors. *)
Theorem C78_any_partial : forall (l : list string) (asts : list re),
  Forall2 (fun r x => compile r = Done x) l asts -> l <> [] -> separable asts ->
  exists f, make_match_fn_from_regex_list (RList l) = Fn f /\ forall s, f s = existsb (fun x => search x s) asts.
Proof. exact match_fn_any. Qed.
Print Assumptions C78_any_partial.

(** The same for lists of frozen or trainable patterns of the optimizer. *)
Theorem C78_frozen_partial : forall (l : list string) (asts : list re),
  Forall2 (fun r x => compile r = Done x) l asts -> l <> [] -> separable asts ->
  exists f, freeze_pattern (RList l) = Fn f /\ forall s, f s = existsb (fun x => search x s) asts.
Proof. exact frozen_any. Qed.
Print Assumptions C78_frozen_partial.

Definition patterns : list string := ["head$|^pre"; "(a|b)\1x"; "[^/]+/Moe/(?!Router)"].
Definition patterns_asts : list re :=
  flat_map (fun s => match compile s with Done x => [x] | _ => [] end) patterns.
Example C78_any_example :
  Forall2 (fun r x => compile r = Done x) patterns patterns_asts /\ separable patterns_asts /\
  existsb (fun r => negb (no_refs r)) patterns_asts = true /\
  map (fun s => existsb (fun x => search x s) patterns_asts) ["head"; "a/head"; "head/b"; "pre/z"; "aax"; "abx"; "e/Moe/Mlp"; "e/Moe/Router"]
  = [true; true; false; true; true; false; true; false].
Proof.
  split; [let a := eval vm_compute in patterns_asts in replace patterns_asts with a by (vm_compute; reflexivity);
          unfold patterns; repeat (constructor; [vm_compute; reflexivity|]); constructor|].
  split; [|split; vm_compute; reflexivity]. split.
  - intros before x after E. destruct before as [|a [|b [|c [|d before]]]].
    + right. constructor.
    + right. vm_compute in E. injection E as <- <- E. repeat constructor.
    + left. vm_compute in E. injection E as <- <- <- E. reflexivity.
    + vm_compute in E. discriminate.
    + vm_compute in E. discriminate.
  - vm_compute. constructor.
Qed.

(** One string: the expression itself. *)
Theorem C78_string : forall s x, s <> "" -> compile s = Done x ->
  (exists f, make_match_fn_from_regex_list (RStr s) = Fn f /\ forall t, f t = search x t) /\
  freeze_pattern (RStr s) = Fn (search x).
Proof.
  intros s x NE C. split; [exact (match_fn_string s x NE C)|]. unfold freeze_pattern. destruct (String.eqb_spec s ""); [congruence|].
  rewrite C. reflexivity.
Qed.
Print Assumptions C78_string.
Example C78_string_example : exists x, compile "a|b$" = Done x /\ map (search x) ["xa"; "b"; "bc"] = [true; true; false].
Proof. exists (match compile "a|b$" with Done r => r | _ => Eps end). split; vm_compute; reflexivity. Qed.
(** No expressions: no function. *)
Theorem C78_none : forall a, a = RNone \/ a = RStr "" \/ a = RList [] ->
  make_match_fn_from_regex_list a = NoFn /\ freeze_pattern a = NoFn.
Proof. intros a [->|[->| ->]]; split; reflexivity. Qed.
Print Assumptions C78_none.

(** Searching without backreferences: there is a match, in the sense of the specification, somewhere in
    the string. *)
Theorem C78_search : forall r s, no_refs r = true -> (search r s = true <-> Found r s).
Proof. exact search_found. Qed.
Print Assumptions C78_search.
Example C78_search_example : exists r, compile "^(?:ab)+\.[^c]$" = Done r /\ no_refs r = true /\ search r "abab.d" = true /\ search r "abab.c" = false.
Proof.
  exists (match compile "^(?:ab)+\.[^c]$" with Done r => r | _ => Eps end). repeat split; vm_compute; reflexivity.
Qed.

(** Compiling always ends with a verdict. *)
Theorem C78_total : forall s, compile s <> OutOfFuel.
Proof. exact compile_total. Qed.
Print Assumptions C78_total.

(** False with backreferences: groups are renumbered, so that an expression of the list is not found
    where it is found alone, and found where it is not found alone. *)
Theorem C78_refs_refuted : exists l asts f,
  Forall2 (fun r x => compile r = Done x) l asts /\ NoDup (concat (map group_names asts)) /\
  make_match_fn_from_regex_list (RList l) = Fn f /\
  (exists s, f s = false /\ existsb (fun x => search x s) asts = true) /\
  (exists s, f s = true /\ existsb (fun x => search x s) asts = false).
Proof.
  set (l := ["(q)"; "(x)(y)\2"]). set (asts := flat_map (fun s => match compile s with Done x => [x] | _ => [] end) l).
  set (text := "(?:" ++ join_grouped l ++ ")"). set (r := match compile text with Done r => r | _ => Eps end).
  assert (C : compile text = Done r) by (vm_compute; reflexivity).
  exists l, asts, (search r).
  split; [let a := eval vm_compute in asts in replace asts with a by (vm_compute; reflexivity);
          unfold l; repeat (constructor; [vm_compute; reflexivity|]); constructor|].
  split; [vm_compute; constructor|].
  split; [change (make_match_fn_from_regex_list (RList l)) with (fn_of (compile text)); rewrite C; reflexivity|].
  split; [exists "xyy"|exists "xyx"]; (split; vm_compute; reflexivity).
Qed.
Print Assumptions C78_refs_refuted.

(** A name used in two expressions makes the whole list an error. *)
Theorem C78_names_refuted : exists l asts,
  Forall2 (fun r x => compile r = Done x) l asts /\ forallb no_refs asts = true /\
  make_match_fn_from_regex_list (RList l) = Fails /\ freeze_pattern (RList l) = Fails.
Proof.
  set (l := ["(?P<layer>a)"; "(?P<layer>b)"]). set (asts := flat_map (fun s => match compile s with Done x => [x] | _ => [] end) l). exists l, asts.
  split; [let a := eval vm_compute in asts in replace asts with a by (vm_compute; reflexivity);
          unfold l; repeat (constructor; [vm_compute; reflexivity|]); constructor|]. vm_compute. auto.
Qed.
Print Assumptions C78_names_refuted.

(** Expressions that are errors are accepted in a list, with another meaning. *)
Theorem C78_invalid_refuted : exists l f, Forall (fun r => compile r = ReError) l /\ l <> [] /\
  make_match_fn_from_regex_list (RList l) = Fn f /\ f "b" = true.
Proof.
  set (l := ["a)"; "(b"]).
  set (text := "(?:" ++ join_grouped l ++ ")"). set (r := match compile text with Done r => r | _ => Eps end).
  assert (C : compile text = Done r) by (vm_compute; reflexivity).
  exists l, (search r). split; [repeat (constructor; [vm_compute; reflexivity|]); constructor|]. split; [discriminate|].
  split; [change (make_match_fn_from_regex_list (RList l)) with (fn_of (compile text)); rewrite C; reflexivity|].
  vm_compute. reflexivity.
Qed.
Print Assumptions C78_invalid_refuted.
