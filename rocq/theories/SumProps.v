(** C69 and C70: summaries of the arrays in training. *)
From Coq Require Import String List Arith ZArith Bool Lia Reals Lra.
From Verif Require TreeModel.
From Verif Require Import NdArray SumModel SumSpec SumProofs.
From Verif Require Import Py PyLemmas.
Import ListNotations.
Local Open Scope list_scope.
Local Open Scope nat_scope.

(** [[1, 2], [3, 4]] *)
Definition ex_array : arr := {| dims := [2; 2]; at_ := fun idx => Some (INR (1 + 2 * nth 0 idx 0 + nth 1 idx 0)) |}.
(** Entries without axes *)
Definition scalar (x : R) : arr := {| dims := []; at_ := fun _ => Some x |}.
Definition always : str -> bool := fun _ => true.
Definition is_ (k : string) : str -> bool := fun s => str_eqb s (chars k).

(** C69: an operation over some axes keeps the axes, with size 1 for these, and each entry of the result is the
    operation on exactly those entries of the array whose index agrees along the other axes. *)
Theorem C69_values : forall a t o axes,
  operation t = name_of o -> reduced (length (dims a)) (given_axes t) axes ->
  (o = Min \/ o = Max -> forall i, In i axes -> nth i (dims a) 1 <> 0) ->
  exists suffix b, transform_array a [t] = Ok (suffix, b) /\ length (dims b) = length (dims a) /\
    (forall i, i < length (dims a) -> nth i (dims b) 0 = if in_dec Nat.eq_dec i axes then 1 else nth i (dims a) 0) /\
    forall idx, In idx (indices (dims b)) -> is_result o (fibre a axes idx) (at_ b idx).
Proof. exact transform_values. Qed.
Print Assumptions C69_values.
Example C69_values_example : exists s b, transform_array ex_array [TAxis (chars "max") (-1)] = Ok (s, b) /\ s = chars "_max(-1,)" /\ dims b = [2; 1] /\ at_ b [1; 0] = Some (INR 4).
Proof.
  do 2 eexists. split; [reflexivity|]. split; [reflexivity|]. split; [reflexivity|]. cbn [at_ reduce op_fun]. unfold lift.
  change (Some (Rmax (INR 3) (INR 4)) = Some (INR 4)). f_equal. apply Rmax_right. simpl. lra.
Qed.

(** C69: an operation without axes gives one number: the operation on all entries. *)
Theorem C69_whole : forall a t o,
  operation t = name_of o -> given_axes t = None -> (o = Min \/ o = Max -> ~ In 0 (dims a)) ->
  exists suffix b, transform_array a [t] = Ok (suffix, b) /\ dims b = repeat 1 (length (dims a)) /\ is_result o (flatten a) (at_ b (repeat 0 (length (dims a)))).
Proof. exact whole_array. Qed.
Print Assumptions C69_whole.
Example C69_whole_example : operation (TOp (chars "norm")) = name_of Norm /\ given_axes (TOp (chars "norm")) = None /\ length (flatten ex_array) = 4.
Proof. repeat split. Qed.

(** C69: a sequence of transformations applies them one after the other. *)
Theorem C69_sequence : forall a t ts s c,
  transform_array a (t :: ts) = Ok (s, c) <->
  exists s1 b s2, transform_array a [t] = Ok (s1, b) /\ transform_array b ts = Ok (s2, c) /\ s = s1 ++ s2.
Proof. exact transform_sequence. Qed.
Print Assumptions C69_sequence.
Example C69_sequence_example : exists s c, transform_array ex_array [TAxis (chars "min") 0; TOp (chars "max")] = Ok (s, c) /\ s = chars "_min(0,)_max" /\ dims c = [1; 1].
Proof. do 2 eexists. split; [reflexivity|]. split; reflexivity. Qed.

(** C69: a rule without transformations gives the entries themselves. *)
Theorem C69_none : forall a,
  transform_array a [] = Ok ([], a).
Proof. exact transform_none. Qed.
Print Assumptions C69_none.
Example C69_none_example : yields (chars "w") ex_array = [(chars "w[0,0]", Some (INR 1)); (chars "w[0,1]", Some (INR 2)); (chars "w[1,0]", Some (INR 3)); (chars "w[1,1]", Some (INR 4))].
Proof. reflexivity. Qed.

(** C69: sums of sums, means of means, norms of norms and extreme values of extreme values along different axes are those
    along all these axes (not so for standard deviations). *)
Theorem C69_compose : forall o a t1 t2 t A B C s c,
  o <> Std -> operation t1 = name_of o -> operation t2 = name_of o -> operation t = name_of o ->
  transform_array a [t1; t2] = Ok (s, c) ->
  reduced (length (dims a)) (given_axes t1) A -> reduced (length (dims a)) (given_axes t2) B -> reduced (length (dims a)) (given_axes t) C ->
  (forall i, In i C <-> In i A \/ In i B) ->
  exists s' c', transform_array a [t] = Ok (s', c') /\ same_array c c'.
Proof. exact compose_ops. Qed.
Print Assumptions C69_compose.
Example C69_compose_example : exists s c, transform_array ex_array [TAxis (chars "norm") 0; TOp (chars "norm")] = Ok (s, c) /\
  reduced 2 (Some [0%Z]) [0] /\ reduced 2 None [0; 1] /\ forall i, In i [0; 1] <-> In i [0] \/ In i [0; 1].
Proof.
  do 2 eexists. split; [reflexivity|]. split; [split; [repeat constructor; intros []|repeat constructor; left; reflexivity]|].
  split; intros i; cbn; lia.
Qed.
(** The standard deviation of the columns of [[0, 1], [0, 1]] is 0 in each column, that of all entries is not. *)
Definition columns : arr := {| dims := [2; 2]; at_ := fun idx => Some (INR (nth 1 idx 0)) |}.
Example C69_std_example : exists s b s' c, transform_array columns [TAxis (chars "std") 0] = Ok (s, b) /\ transform_array columns [TOp (chars "std")] = Ok (s', c) /\
  at_ b [0; 0] = Some 0%R /\ at_ b [0; 1] = Some 0%R /\ at_ c [0; 0] <> Some 0%R.
Proof.
  do 4 eexists. split; [reflexivity|]. split; [reflexivity|].
  assert (Sd : forall l v, l <> [] -> rmean (map (fun x => (x - average l) * (x - average l))%R l) = Some v -> op_fun Std (map Some l) = Some (sqrt v)).
  { intros l v N E. unfold op_fun, lift. rewrite finite_map. unfold rstd. rewrite rmean_some by auto. rewrite E. auto. }
  split; [|split].
  - change (op_fun Std (map Some [INR 0; INR 0]) = Some 0%R). rewrite (Sd _ 0%R); [rewrite sqrt_0; auto|discriminate|]. unfold rmean, average, rsum, total. cbn. f_equal. field.
  - change (op_fun Std (map Some [INR 1; INR 1]) = Some 0%R). rewrite (Sd _ 0%R); [rewrite sqrt_0; auto|discriminate|]. unfold rmean, average, rsum, total. cbn. f_equal. field.
  - change (op_fun Std (map Some [INR 0; INR 1; INR 0; INR 1]) <> Some 0%R). rewrite (Sd _ (1 / 4)%R); [|discriminate|unfold rmean, average, rsum, total; cbn; f_equal; field].
    intros E. injection E as E. assert (P := sqrt_lt_R0 (1 / 4)). lra.
Qed.

(** C69: the error of a transformation is a ValueError, exactly if the operation is unknown, if the axes are out of
    range or repeated, or for the least or greatest entry along an empty axis. *)
Theorem C69_errors : forall a t e,
  transform_array a [t] = Raise e <-> e = ValueError /\ invalid a t.
Proof. exact transform_errors. Qed.
Print Assumptions C69_errors.
Example C69_errors_example : transform_array ex_array [TAxes (chars "sum") [0; -2]%Z] = Raise ValueError /\ transform_array ex_array [TOp (chars "median")] = Raise ValueError.
Proof. split; reflexivity. Qed.

(** C69: the summarizer yields, for the arrays and for the rules in order, the values of the rules that match the key, at
    most max_summary_values for each; it warns about exactly the rules that match no key. *)
Theorem C69_call : forall rules m tree out w,
  call rules m tree = Ok (out, w) ->
  (exists lls, Forall2 (fun kv ls => Forall2 (summary_of m kv) rules ls) tree lls /\ out = concat (concat lls)) /\
  (forall i, In i w <-> exists r, nth_error rules i = Some r /\ forall kv, In kv tree -> pattern r (fst kv) = false).
Proof. exact call_spec. Qed.
Print Assumptions C69_call.
Example C69_call_example : exists out, call [{| pattern := is_ "w"; transforms := [TAxis (chars "sum") 1] |}; {| pattern := is_ "x"; transforms := [] |}] 2 [(chars "w", ex_array)] = Ok (out, [1]) /\
  map fst out = [chars "w_sum(1,)[0]"; chars "w_sum(1,)[1]"].
Proof. eexists. split; reflexivity. Qed.

(** C69: a call fails, with ValueError, exactly if a rule matches an array that it cannot transform, or for which it
    has more than max_summary_values values. *)
Theorem C69_call_errors : forall rules m tree e,
  call rules m tree = Raise e <->
  e = ValueError /\ exists key value r, In (key, value) tree /\ In r rules /\ pattern r key = true /\
    (transform_array value (transforms r) = Raise ValueError \/ exists suffix b, transform_array value (transforms r) = Ok (suffix, b) /\ m < prod (dims b)).
Proof. exact call_errors. Qed.
Print Assumptions C69_call_errors.
Example C69_call_errors_example : call [{| pattern := is_ "w"; transforms := [TAxis (chars "sum") 1] |}] 1 [(chars "w", ex_array)] = Raise ValueError.
Proof. reflexivity. Qed.

(** C69: for a list of rules, max_summary_values is 1, and a pattern alone is a rule without transformations. *)
Theorem C69_create : forall rs rules m,
  rs <> [] -> create_tree_summarizer (RuleList rs) = Ok (Some (rules, m)) -> m = 1 /\
  Forall2 (fun r r' => match r with Bare p => pattern r' = p /\ transforms r' = [] | Seq (Some (p, ts)) => pattern r' = p /\ transforms r' = ts | Seq None => False end) rs rules.
Proof. exact create_list. Qed.
Print Assumptions C69_create.
Example C69_create_example : create_tree_summarizer (RuleList [Bare always]) = Ok (Some ([{| pattern := always; transforms := [] |}], 1)).
Proof. reflexivity. Qed.

(** C69: an empty rule is a ValueError. *)
Theorem C69_create_errors : forall rs,
  create_tree_summarizer (RuleList rs) = Raise ValueError <-> In (Seq None) rs.
Proof. exact create_error. Qed.
Print Assumptions C69_create_errors.
Example C69_create_errors_example : create_tree_summarizer (RuleList [Bare always; Seq None]) = Raise ValueError.
Proof. reflexivity. Qed.

(** C70, for one array and one rule: all values have different names. *)
Theorem C70_array_partial : forall p b,
  NoDup (map fst (yields p b)).
Proof. exact yields_nodup. Qed.
Print Assumptions C70_array_partial.
Example C70_array_partial_example : map fst (yields (chars "w") {| dims := [2; 1; 2]; at_ := fun _ => None |}) = [chars "w[0,0]"; chars "w[0,1]"; chars "w[1,0]"; chars "w[1,1]"].
Proof. reflexivity. Qed.

(** C70, if no key is another key followed by an underscore or bracket, and the rules that match a key differ in their
    transformations: all values have different names. *)
Theorem C70_names_partial : forall rules m tree out w,
  call rules m tree = Ok (out, w) -> NoDup (map fst tree) ->
  (forall k k', In k (map fst tree) -> In k' (map fst tree) -> ~ prolongs k k') ->
  (forall k, In k (map fst tree) -> NoDup (map (fun r => map meaning (transforms r)) (filter (fun r => pattern r k) rules))) ->
  NoDup (map fst out).
Proof. exact call_names. Qed.
Print Assumptions C70_names_partial.
Example C70_names_partial_example : exists out, call [{| pattern := always; transforms := [TOp (chars "sum")] |}; {| pattern := always; transforms := [TOp (chars "norm")] |}] 1
    [(chars "a/w", ex_array); (chars "b/w", ex_array)] = Ok (out, []) /\ map fst out = [chars "a/w_sum"; chars "a/w_norm"; chars "b/w_sum"; chars "b/w_norm"] /\ ~ prolongs (chars "a/w") (chars "b/w").
Proof. eexists. split; [reflexivity|]. split; [reflexivity|]. intros (c & r & E & _). discriminate. Qed.

(** C70, if no key is another key followed by an underscore or bracket: each value of the summary is a metric of the step
    under its name, and the other metrics are unchanged. *)
Theorem C70_no_loss_partial : forall rules m metrics state_flat grads_flat metrics',
  let tree := state_flat ++ map (fun kv => (chars "params_grads/" ++ fst kv, snd kv)) grads_flat in
  NoDup (map fst tree) -> (forall k k', In k (map fst tree) -> In k' (map fst tree) -> ~ prolongs k k') ->
  summarize_step (Some (rules, m)) metrics state_flat grads_flat = Ok metrics' ->
  exists out w, call rules m tree = Ok (out, w) /\ (forall n v, In (n, v) out -> entry metrics' n = Some v) /\
    forall n, ~ In n (map fst out) -> entry metrics' n = entry metrics n.
Proof. exact step_no_loss. Qed.
Print Assumptions C70_no_loss_partial.
Example C70_no_loss_partial_example : exists metrics', summarize_step (Some ([{| pattern := always; transforms := [TOp (chars "sum")] |}], 1)) [(chars "main_loss", Some 1%R)]
    [(chars "step", scalar 3)] [(chars "w", ex_array)] = Ok metrics' /\ map fst metrics' = [chars "main_loss"; chars "step_sum"; chars "params_grads/w_sum"] /\
  ~ prolongs (chars "step") (chars "params_grads/w").
Proof. eexists. split; [reflexivity|]. split; [reflexivity|]. intros (c & r & E & _). discriminate. Qed.

(** C70: a metric whose name does not begin with a key of the state or of the gradients is unchanged. *)
Theorem C70_metrics : forall rules m metrics state_flat grads_flat metrics' n,
  summarize_step (Some (rules, m)) metrics state_flat grads_flat = Ok metrics' ->
  NoDup (map fst (state_flat ++ map (fun kv => (chars "params_grads/" ++ fst kv, snd kv)) grads_flat)) ->
  (forall k rest, In k (map fst state_flat) -> n <> k ++ rest) -> (forall rest, n <> chars "params_grads/" ++ rest) ->
  entry metrics' n = entry metrics n.
Proof. exact step_kept. Qed.
Print Assumptions C70_metrics.
Example C70_metrics_example : (forall k rest, In k [chars "step"; chars "params/w"; chars "opt_state/0/count"; chars "rngs/dropout"] -> chars "main_loss" <> k ++ rest) /\
  forall rest, chars "total_loss" <> chars "params_grads/" ++ rest.
Proof. split; [intros k rest [<-|[<-|[<-|[<-|[]]]]] E|intros rest E]; discriminate. Qed.

(** C70, without the condition on the keys: two arrays may have the same name, and only one of them is a metric. *)
Theorem C70_refuted : exists rules m tree out w metrics' n v, NoDup (map fst tree) /\ call rules m tree = Ok (out, w) /\
  summarize_step (Some (rules, m)) [] tree [] = Ok metrics' /\ In (n, v) out /\ entry metrics' n <> Some v.
Proof.
  exists [{| pattern := is_ "w"; transforms := [TOp (chars "sum")] |}; {| pattern := is_ "w_sum"; transforms := [] |}], 1, [(chars "w", scalar 1); (chars "w_sum", scalar 5)].
  do 3 eexists. exists (chars "w_sum"), (Some (1 + 0)%R). split; [apply NoDup_cons; [cbn; intros [E|[]]; discriminate|apply NoDup_cons; [intros []|apply NoDup_nil]]|]. split; [reflexivity|]. split; [reflexivity|].
  split; [left; reflexivity|]. intros E. change (Some (Some 5%R) = Some (Some (1 + 0)%R)) in E. injection E as E. lra.
Qed.
Print Assumptions C70_refuted.

