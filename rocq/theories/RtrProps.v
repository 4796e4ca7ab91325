(** C94: options of routers and of nested layers. *)
From Coq Require Import String List Arith ZArith Bool Lia.
From Verif Require Import PpModel RtrModel RtrSpec RtrProofs RtrProofs2.
From Verif Require Import Py.
Import ListNotations.
Local Open Scope string_scope.
Local Open Scope list_scope.
Local Open Scope nat_scope.

(** The router of a layer is called with exactly these options, each once: the number of experts, data type and name of
    the layer; deterministic of the dictionary router, or else of the layer; any other option of the dictionary, or else
    of the call string.  The class and the positional arguments are those of the call string.
    What is missing: the full property also says that the call string sets deterministic and num_experts when the
    dictionary does not; that is false (C94_string_refuted). *)
Theorem C94_options_partial : forall (V Cls : Type) (parse_call : V -> res (Cls * list V * kwargs V)) (default_name router_name : V) (l : layer V) (name : V) (c : call V Cls),
  dictionary l -> (forall n cls args parsed, parse_call n = Ok (cls, args, parsed) -> NoDup (map fst parsed)) ->
  named default_name l name -> create_router V Cls parse_call default_name router_name l = Ok c ->
  exists parsed, parse_call name = Ok (c_cls V Cls c, c_args V Cls c, parsed)
  /\ called_with c (fun k v => fixed router_name l k v \/ determined l k v \/ chosen l parsed k v).
Proof. intros V Cls p dn rn l name c. exact (create_options p dn rn l name c). Qed.
Print Assumptions C94_options_partial.

(** Exactly when a layer can not make its router, and the error. *)
Theorem C94_errors : forall (V Cls : Type) (parse_call : V -> res (Cls * list V * kwargs V)) (default_name router_name : V) (l : layer V) (name : V) (e : err),
  dictionary l -> named default_name l name ->
  (create_router V Cls parse_call default_name router_name l = Raise e <->
   (given l "num_experts" /\ e = TypeError)
   \/ (~ given l "num_experts" /\ parse_call name = Raise e)
   \/ (~ given l "num_experts" /\ exists cls args parsed, parse_call name = Ok (cls, args, parsed) /\ e = TypeError
       /\ (given l "dtype" \/ In (Some "dtype") (map fst parsed) \/ In (Some "name") (map fst parsed) \/ In None (map fst parsed)))).
Proof. intros V Cls p dn rn l name e. exact (create_errors p dn rn l name e). Qed.
Print Assumptions C94_errors.

(** The router of an ensemble layer *)
Theorem C94_ensemble : forall (V Cls : Type) (router_name : V) (of_int : Z -> V) (cls : Cls) (l : layer V) (n : option Z) (c : call V Cls),
  dictionary l -> create_router_ensemble V Cls router_name of_int cls l n = Ok c ->
  exists z, n = Some z /\ (0 < z)%Z /\ c_cls V Cls c = cls /\ c_args V Cls c = []
  /\ called_with c (fun k v => fixed router_name l k v \/ determined l k v \/ (k = "ensemble_size" /\ v = of_int z) \/ (~ special k /\ k <> "ensemble_size" /\ In (k, v) (options l))).
Proof. intros V Cls rn oi cls l n c. exact (ensemble_options rn oi cls l n c). Qed.
Print Assumptions C94_ensemble.
Theorem C94_ensemble_errors : forall (V Cls : Type) (router_name : V) (of_int : Z -> V) (cls : Cls) (l : layer V) (n : option Z) (e : err),
  dictionary l ->
  (create_router_ensemble V Cls router_name of_int cls l n = Raise e <->
   (given l "num_experts" /\ e = TypeError)
   \/ (~ given l "num_experts" /\ e = ValueError /\ forall z, n = Some z -> (z <= 0)%Z)
   \/ (~ given l "num_experts" /\ e = TypeError /\ (exists z, n = Some z /\ (0 < z)%Z) /\ (given l "dtype" \/ given l "name"))).
Proof. intros V Cls rn oi cls l n e. exact (ensemble_errors rn oi cls l n e). Qed.
Print Assumptions C94_ensemble_errors.

(** Nested partial classes: the positional arguments from the innermost to those of the call, and for every key the
    value of the outermost that has it. *)
Theorem C94_partialclass : forall (V Cls : Type) (c : Cls) (ls : list (list V * kwargs V)), (forall x, In x ls -> NoDup (map fst (snd x))) ->
  forall (args : list V) (kw : kwargs V), NoDup (map fst kw) ->
  let r := construct V Cls (nest c ls) args kw in
  c_cls V Cls r = c /\ c_args V Cls r = concat (map fst ls) ++ args /\ NoDup (map fst (c_kwargs V Cls r))
  /\ forall k v, In (k, v) (c_kwargs V Cls r) <-> last_with (map snd ls ++ [kw]) k v.
Proof. intros V Cls. exact construct_nest. Qed.
Print Assumptions C94_partialclass.

(** Streams of random numbers that are split: both or none for a bool, and those named otherwise. *)
Theorem C94_split_partial : (forall b, create_split_rngs (SplitBool b) = [("params", b); ("dropout", b)])
  /\ forall l, map fst (create_split_rngs (SplitNames l)) = ["params"; "dropout"]
     /\ forall n b, In (n, b) (create_split_rngs (SplitNames l)) -> (b = true <-> In n l).
Proof.
  split; [reflexivity|]. intros l. split; [reflexivity|]. intros n b. exact (split_names l n b).
Qed.
Print Assumptions C94_split_partial.

(** The name as a string, an iterable of strings too, splits nothing, whatever the string. *)
Theorem C94_split_refuted : exists s, (s = "params" /\ forall n b, In (n, b) (create_split_rngs (SplitString s)) -> b = false)
  /\ forall s', create_split_rngs (SplitString s') = [("params", false); ("dropout", false)].
Proof.
  exists "params". split; [|exact split_string]. split; [reflexivity|]. intros n b. rewrite split_string. intros [H|[H|[]]]; injection H as <- <-; reflexivity.
Qed.
Print Assumptions C94_split_refuted.

(** Values: numbers and strings.  The call strings "R" and "R(deterministic=1, num_experts=9, k=5, m=6)" of a class 7 *)
Definition value := (nat + string)%type.
Definition parse_ex (v : value) : res (nat * list value * kwargs value) :=
  match v with
  | inr "R" => Ok (7, [], [])
  | inr "S" => Ok (7, [inl 3], [(Some "deterministic", inl 1); (Some "num_experts", inl 9); (Some "k", inl 5); (Some "m", inl 6)])
  | inr "T" => Ok (7, [], [(Some "dtype", inl 0)])
  | _ => Raise ValueError
  end.
Definition layer_ex (r : option (list (string * value))) : layer value := {| l_num_experts := inl 4; l_deterministic := inl 0; l_dtype := inr "bfloat16"; l_router := r |}.
Definition create_ex := create_router value nat parse_ex (inr "R") (inr "Router").

(** Options of the call string that are silently ignored: deterministic and num_experts *)
Theorem C94_string_refuted : exists l c parsed, @dictionary value l /\ parse_ex (inr "S") = Ok (7, [inl 3], parsed)
  /\ In ("name", inr "S") (options l) /\ ~ given l "deterministic" /\ ~ given l "num_experts"
  /\ In (Some "deterministic", inl 1) parsed /\ In (Some "num_experts", inl 9) parsed
  /\ create_ex l = Ok c /\ ~ In (Some "deterministic", inl 1) (c_kwargs _ _ c) /\ ~ In (Some "num_experts", inl 9) (c_kwargs _ _ c).
Proof.
  exists (layer_ex (Some [("name", inr "S"); ("k", inl 8)])). eexists. eexists. unfold dictionary, given. cbn [options layer_ex l_router map fst].
  split; [repeat constructor; cbn; intuition discriminate|]. split; [reflexivity|]. split; [left; reflexivity|]. split; [cbn; intuition discriminate|]. split; [cbn; intuition discriminate|].
  split; [cbn; auto|]. split; [cbn; auto|]. split; [reflexivity|]. split; cbn; intuition discriminate.
Qed.
Print Assumptions C94_string_refuted.

Example C94_options_ex :
  dictionary (layer_ex (Some [("name", inr "S"); ("k", inl 8)]))
  /\ named (inr "R") (layer_ex (Some [("name", inr "S"); ("k", inl 8)])) (inr "S")
  /\ (forall n cls args parsed, parse_ex n = Ok (cls, args, parsed) -> NoDup (map fst parsed))
  /\ create_ex (layer_ex (Some [("name", inr "S"); ("k", inl 8)])) = Ok {| c_cls := 7; c_args := [inl 3]; c_kwargs :=
       [(Some "dtype", inr "bfloat16"); (Some "name", inr "Router"); (Some "deterministic", inl 0); (Some "num_experts", inl 4); (Some "k", inl 8); (Some "m", inl 6)] |}.
Proof.
  unfold dictionary, named. cbn [options layer_ex l_router map fst].
  split; [repeat constructor; cbn; intuition discriminate|]. split; [left; left; reflexivity|]. split; [|reflexivity].
  intros n cls args parsed H.
  assert (A : parsed = [] \/ parsed = [(Some "deterministic", inl 1); (Some "num_experts", inl 9); (Some "k", inl 5); (Some "m", inl 6)] \/ parsed = [(Some "dtype", inl 0)]).
  { unfold parse_ex in H. repeat match type of H with context [match ?x with _ => _ end] => destruct x; try discriminate end; injection H as <- <- <-; auto. }
  destruct A as [->|[->| ->]]; repeat constructor; cbn; intuition discriminate.
Qed.
Example C94_errors_ex : create_ex (layer_ex None) = Ok {| c_cls := 7; c_args := []; c_kwargs := [(Some "dtype", inr "bfloat16"); (Some "name", inr "Router"); (Some "num_experts", inl 4); (Some "deterministic", inl 0)] |}
  /\ create_ex (layer_ex (Some [("num_experts", inl 4)])) = Raise TypeError /\ create_ex (layer_ex (Some [("name", inl 4)])) = Raise ValueError
  /\ create_ex (layer_ex (Some [("name", inr "T")])) = Raise TypeError /\ create_ex (layer_ex (Some [("dtype", inl 1)])) = Raise TypeError.
Proof. repeat split. Qed.
Definition create_e_ex := create_router_ensemble value nat (inr "Router") (fun z => inl (Z.to_nat z)) 8.
Example C94_ensemble_ex : create_e_ex (layer_ex (Some [("ensemble_size", inl 9); ("k", inl 2); ("deterministic", inl 1)])) (Some 3%Z) = Ok {| c_cls := 8; c_args := []; c_kwargs :=
       [(Some "dtype", inr "bfloat16"); (Some "name", inr "Router"); (Some "num_experts", inl 4); (Some "ensemble_size", inl 3); (Some "k", inl 2); (Some "deterministic", inl 1)] |}
  /\ create_e_ex (layer_ex None) None = Raise ValueError /\ create_e_ex (layer_ex None) (Some 0%Z) = Raise ValueError
  /\ create_e_ex (layer_ex (Some [("name", inr "R")])) (Some 3%Z) = Raise TypeError /\ create_e_ex (layer_ex (Some [("num_experts", inl 1)])) None = Raise TypeError.
Proof. repeat split. Qed.
Example C94_partialclass_ex : construct nat nat (nest 5 [([1], [(Some "a", 1); (Some "b", 1)]); ([2], [(Some "b", 2); (Some "c", 2)])]) [3] [(Some "c", 3)]
  = {| c_cls := 5; c_args := [1; 2; 3]; c_kwargs := [(Some "a", 1); (Some "b", 2); (Some "c", 3)] |}.
Proof. reflexivity. Qed.
Example C94_split_ex : create_split_rngs (SplitNames ["dropout"; "other"]) = [("params", false); ("dropout", true)].
Proof. reflexivity. Qed.
