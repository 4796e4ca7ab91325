(** Joined expressions; the parser never runs out of fuel. *)
From Coq Require Import Ascii String List Arith Bool Relations Lia.
From Verif Require Import RxModel RxSpec RxProofs RxProofs2.
Import ListNotations.
Local Open Scope list_scope.
Local Open Scope nat_scope.

Lemma compile_done s x : compile s = Done x -> exists st', parse_alt (3 * String.length s + 3) start s = Done (x, st', EmptyString).
Proof.
  unfold compile. intros E. pb E y Hy. destruct y as [[r st'] s']. cbn [fst snd] in E. destruct s'; [|discriminate].
  apply Done_inj in E. subst. eauto.
Qed.
Lemma ok_start : ok_state start.
Proof. constructor. Qed.

(** [tail] ends a sequence of items. *)
Lemma repeat_ends r s : ends s = true -> parse_repeat r s = Done (r, s).
Proof.
  unfold parse_repeat. destruct s as [|c s]; [reflexivity|]. cbn [ends]. intros E. apply orb_true_iff in E.
  destruct E as [E|E]; apply Ascii.eqb_eq in E; subst; reflexivity.
Qed.
Lemma part_parse k ns r x f rest : compile r = Done x -> fits k ns x -> ends rest = true -> 3 * String.length r + 3 <= f ->
  exists ns', map fst ns' = group_names x /\
  parse_seq (S (S f)) (moved k ns start) ("(?:" ++ r ++ closed rest) =
    Done (Cat (shift k x) Eps, moved (k + ngroups x) (ns ++ ns') start, rest).
Proof.
  intros C F Er Hf. destruct (compile_done _ _ C) as [st' P].
  destruct (proj1 (parse_grown _) _ _ _ _ _ P ok_start) as [[G [N O]] _]. cbn [groups names opened start map app] in G, N, O.
  exists (map (fun p => (fst p, snd p + k)) (names st')). split. { rewrite map_map. cbn [fst]. exact N. }
  assert (Q := proj1 (parse_moved k ns rest (3 * String.length r + 3)) (S f) _ _ _ _ _ ltac:(lia) P ok_start F). cbn [append] in Q.
  change ("(?:" ++ r ++ closed rest)%string with (String "(" (String "?" (String ":" (r ++ closed rest)%string))).
  cbn [parse_seq]. cbn [ends]. cbv [Ascii.eqb Bool.eqb]. cbn [orb].
  change (parse_item (parse_alt (S f)) (moved k ns start) (String "(" (String "?" (String ":" (r ++ closed rest)%string))))
    with (pbind (parse_alt (S f) (moved k ns start) (r ++ closed rest)) parse_close).
  rewrite Q. cbn [pbind]. change (parse_close (shift k x, moved k ns st', closed rest)) with (@Done (re * pstate * string) (shift k x, moved k ns st', rest)).
  cbn [pbind fst snd]. rewrite (repeat_ends _ _ Er). cbn [pbind fst snd]. change (parse_seq (S f) (moved k ns st') rest) with
    (if ends rest then Done (Eps, moved k ns st', rest) else
    pbind (parse_item (parse_alt f) (moved k ns st') rest) (fun x =>
    pbind (parse_repeat (fst (fst x)) (snd x)) (fun y =>
    pbind (parse_seq f (snd (fst x)) (snd y)) (fun z =>
    Done (Cat (fst y) (fst (fst z)), snd (fst z), snd z))))). rewrite Er. cbn [pbind fst snd]. do 2 f_equal. f_equal.
  unfold moved. rewrite G, O. cbn [groups names opened start map]. rewrite app_nil_r. f_equal. lia.
Qed.

(** The expression that the joined text is. *)
Fixpoint joined (k : nat) (l : list re) : re :=
  match l with
  | [] => Eps
  | x :: l' => match l' with
               | [] => Cat (shift k x) Eps
               | _ => Alt (Cat (shift k x) Eps) (joined (k + ngroups x) l')
               end
  end.
Definition joinable (k : nat) (ns : list (string * nat)) (l : list re) : Prop :=
  (forall before x after, l = before ++ x :: after -> no_refs x = true \/ (k = 0 /\ ns = [] /\ Forall (fun y => ngroups y = 0) before)) /\
  NoDup (map fst ns ++ concat (map group_names l)).
Lemma no_groups_no_names r : ngroups r = 0 -> group_names r = [].
Proof.
  induction r; simpl; intros E; auto; try discriminate.
  - rewrite IHr1, IHr2 by lia. reflexivity.
  - rewrite IHr1, IHr2 by lia. reflexivity.
Qed.
Lemma nodup_free (a b c : list string) : NoDup (a ++ b ++ c) -> forall q, In q b -> ~ In q a.
Proof.
  intros H q Hb Ha. induction a as [|x a IH]; [contradiction|]. simpl in H. inversion H as [|? ? N H']; subst.
  destruct Ha as [->|Ha]; [|apply IH; auto]. apply N. rewrite !in_app_iff. auto.
Qed.
Lemma joinable_head k ns x l : joinable k ns (x :: l) -> fits k ns x.
Proof.
  intros [H D]. split.
  - destruct (H [] x l eq_refl) as [N|[Ek [En _]]]; auto.
  - cbn [map concat] in D. intros q Hq. exact (nodup_free _ _ _ D q Hq).
Qed.
Lemma joinable_tail k ns x l ns' : joinable k ns (x :: l) -> map fst ns' = group_names x -> joinable (k + ngroups x) (ns ++ ns') l.
Proof.
  intros [H D] E. split.
  - intros before y after El. destruct (H (x :: before) y after) as [N|[Ek [En F]]]; [rewrite El; reflexivity|auto|].
    right. inversion F as [|? ? F0 F']; subst. split; [lia|]. split; [|exact F'].
    rewrite (no_groups_no_names x F0) in E. destruct ns'; [reflexivity|discriminate].
  - rewrite map_app, E, <- app_assoc. exact D.
Qed.
Lemma concat_cons (sep a : string) (l : list string) : l <> [] -> String.concat sep (a :: l) = (a ++ sep ++ String.concat sep l)%string.
Proof. destruct l; [congruence|reflexivity]. Qed.

Lemma join_parse : forall l asts k ns f tail, Forall2 (fun r x => compile r = Done x) l asts -> l <> [] -> joinable k ns asts ->
  (tail = EmptyString \/ exists t, tail = closed t) -> 3 * String.length (join_grouped l) + 3 <= f ->
  exists st', parse_alt f (moved k ns start) (join_grouped l ++ tail) = Done (joined k asts, st', tail).
Proof.
  induction l as [|r l IH]; intros asts k ns f tail F NE J Ht Hf; [congruence|]. inversion F as [|? x ? xs C F']; subst.
  destruct l as [|r' l].
  - inversion F'; subst. unfold join_grouped in *. cbn [map String.concat] in *.
    replace (String.length ("(?:" ++ r ++ ")")%string) with (String.length r + 4) in Hf by (rewrite !append_length; simpl; lia).
    destruct f as [|[|[|f]]]; [lia..|].
    destruct (part_parse k ns r x f tail C (joinable_head _ _ _ _ J)) as [ns' [En P]]; [destruct Ht as [->|[t ->]]; reflexivity|lia|].
    assert (Et : (("(?:" ++ r ++ ")") ++ tail = "(?:" ++ r ++ closed tail)%string) by (rewrite !append_assoc; reflexivity).
    rewrite Et. cbn [parse_alt]. rewrite P. cbn [pbind].
    exists (moved (k + ngroups x) (ns ++ ns') start). destruct Ht as [->|[t ->]]; reflexivity.
  - assert (NE' : map (fun r0 => ("(?:" ++ r0 ++ ")")%string) (r' :: l) <> []) by discriminate.
    assert (Ej : join_grouped (r :: r' :: l) = ("(?:" ++ r ++ ")" ++ "|" ++ join_grouped (r' :: l))%string).
    { unfold join_grouped. change (map (fun r0 => ("(?:" ++ r0 ++ ")")%string) (r :: r' :: l)) with
        (("(?:" ++ r ++ ")")%string :: map (fun r0 => ("(?:" ++ r0 ++ ")")%string) (r' :: l)). rewrite concat_cons by exact NE'.
      rewrite !append_assoc. reflexivity. }
    rewrite Ej in Hf |- *. rewrite !append_length in Hf. cbn [String.length] in Hf.
    destruct f as [|[|[|f]]]; [lia..|].
    set (rest := ("|" ++ join_grouped (r' :: l) ++ tail)%string).
    destruct (part_parse k ns r x f rest C (joinable_head _ _ _ _ J) eq_refl) as [ns' [En P]]; [lia|].
    assert (Et : (("(?:" ++ r ++ ")" ++ "|" ++ join_grouped (r' :: l)) ++ tail = "(?:" ++ r ++ closed rest)%string) by (unfold rest; rewrite !append_assoc; reflexivity).
    rewrite Et. destruct xs as [|x' xs]; [inversion F'|].
    destruct (IH (x' :: xs) (k + ngroups x) (ns ++ ns') (S (S f)) tail F' ltac:(discriminate) (joinable_tail _ _ _ _ _ J En) Ht) as [st' Q]; [lia|].
    exists st'. change (parse_alt (S (S (S f))) (moved k ns start) ("(?:" ++ r ++ closed rest)) with
      (pbind (parse_seq (S (S f)) (moved k ns start) ("(?:" ++ r ++ closed rest)) (fun x =>
        let '(r, st1, s1) := x in
        match s1 with
        | String c s2 =>
          if Ascii.eqb c "|" then pbind (parse_alt (S (S f)) st1 s2) (fun y => Done (Alt r (fst (fst y)), snd (fst y), snd y))
          else Done x
        | EmptyString => Done x
        end)).
    rewrite P. cbn [pbind]. unfold rest. cbn [append]. rewrite Q. reflexivity.
Qed.

(** What is found by joined expressions. *)
Lemma matches_cat_eps s r i c : matches s (Cat r Eps) i c = matches s r i c.
Proof.
  cbn [matches]. induction (matches s r i c) as [|[j d] l IH]; simpl; auto. rewrite IH. reflexivity.
Qed.
Lemma search_cat_eps r s : search (Cat r Eps) s = search r s.
Proof. apply eq_true_iff_eq. rewrite !search_some. setoid_rewrite matches_cat_eps. reflexivity. Qed.
Lemma search_alt a b s : search (Alt a b) s = search a s || search b s.
Proof.
  apply eq_true_iff_eq. rewrite orb_true_iff, !search_some. cbn [matches]. split.
  - intros [i [Hi H]]. destruct (matches s a i []) eqn:E; [right|left]; exists i; (split; [exact Hi|]); [exact H|congruence].
  - intros [[i [Hi H]]|[i [Hi H]]]; exists i; (split; [exact Hi|]); intros E; apply app_eq_nil in E; tauto.
Qed.
Lemma search_joined s : forall l k ns, l <> [] -> joinable k ns l -> search (joined k l) s = existsb (fun x => search x s) l.
Proof.
  induction l as [|x l IH]; intros k ns NE J; [congruence|].
  assert (E : search (shift k x) s = search x s).
  { destruct (joinable_head _ _ _ _ J) as [[[-> _]|N] _]; [rewrite shift_0; reflexivity|apply shift_search; exact N]. }
  destruct l as [|y l].
  - cbn [joined existsb]. rewrite search_cat_eps, E, orb_false_r. reflexivity.
  - change (joined k (x :: y :: l)) with (Alt (Cat (shift k x) Eps) (joined (k + ngroups x) (y :: l))).
    rewrite search_alt, search_cat_eps, E. cbn [existsb]. f_equal.
    assert (En : exists ns' : list (string * nat), map fst ns' = group_names x).
    { exists (map (fun n => (n, 0)) (group_names x)). rewrite map_map. cbn [fst]. apply map_id. }
    destruct En as [ns' En]. apply (IH _ (ns ++ ns')); [discriminate|]. exact (joinable_tail _ _ _ _ _ J En).
Qed.

Lemma separable_joinable l : separable l -> joinable 0 [] l.
Proof.
  intros [H D]. split; [|exact D]. intros before x after E. destruct (H before x after E); auto.
Qed.
Lemma frozen_any l asts : Forall2 (fun r x => compile r = Done x) l asts -> l <> [] -> separable asts ->
  exists f, freeze_pattern (RList l) = Fn f /\ forall s, f s = existsb (fun x => search x s) asts.
Proof.
  intros F NE S. apply separable_joinable in S.
  assert (NA : asts <> []) by (destruct F; congruence).
  destruct (join_parse l asts 0 [] (3 * String.length (join_grouped l) + 3) EmptyString F NE S (or_introl eq_refl) (le_n _)) as [st' P].
  rewrite moved_0, append_nil in P.
  exists (search (joined 0 asts)). split.
  - unfold freeze_pattern. destruct l as [|r l]; [congruence|]. unfold compile. rewrite P. reflexivity.
  - intros s. exact (search_joined s asts 0 [] NA S).
Qed.
Lemma match_fn_any l asts : Forall2 (fun r x => compile r = Done x) l asts -> l <> [] -> separable asts ->
  exists f, make_match_fn_from_regex_list (RList l) = Fn f /\ forall s, f s = existsb (fun x => search x s) asts.
Proof.
  intros F NE Sep. apply separable_joinable in Sep.
  assert (NA : asts <> []) by (destruct F; congruence).
  assert (L : String.length ("(?:" ++ join_grouped l ++ ")") = String.length (join_grouped l) + 4) by (rewrite !append_length; simpl; lia).
  set (f := 3 * String.length (join_grouped l) + 12).
  destruct (join_parse l asts 0 [] (S f) (closed "") F NE Sep ltac:(right; eauto) ltac:(unfold f; lia)) as [st' P].
  rewrite moved_0 in P.
  exists (search (Cat (joined 0 asts) Eps)). split.
  - unfold make_match_fn_from_regex_list. destruct l as [|r l]; [congruence|]. unfold compile. rewrite L.
    replace (3 * (String.length (join_grouped (r :: l)) + 4) + 3) with (S (S (S f))) by (unfold f; lia).
    assert (Q : parse_alt (S (S (S f))) start ("(?:" ++ join_grouped (r :: l) ++ ")") = Done (Cat (joined 0 asts) Eps, st', EmptyString)).
    { cbn [parse_alt].
      assert (Q : parse_seq (S (S f)) start ("(?:" ++ join_grouped (r :: l) ++ ")") = Done (Cat (joined 0 asts) Eps, st', EmptyString)).
      { change (parse_seq (S (S f)) start ("(?:" ++ join_grouped (r :: l) ++ ")")) with
          (pbind (pbind (parse_alt (S f) start (join_grouped (r :: l) ++ closed "")) parse_close) (fun x =>
           pbind (parse_repeat (fst (fst x)) (snd x)) (fun y =>
           pbind (parse_seq (S f) (snd (fst x)) (snd y)) (fun z =>
           Done (Cat (fst y) (fst (fst z)), snd (fst z), snd z))))).
        rewrite P. reflexivity. }
      rewrite Q. reflexivity. }
    rewrite Q. reflexivity.
  - intros s. rewrite search_cat_eps. exact (search_joined s asts 0 [] NA Sep).
Qed.

(** The names in one expression are different. *)
Definition distinct (st : pstate) : Prop := NoDup (map fst (names st)).
Section Distinct.
Variable sub : pstate -> string -> parsed (re * pstate * string).
Hypothesis sub_distinct : forall st s r st' s', sub st s = Done (r, st', s') -> distinct st -> distinct st'.
Lemma group_distinct name st s r st' s' : parse_group sub name st s = Done (r, st', s') -> distinct st -> distinct st'.
Proof.
  unfold parse_group. intros E D.
  set (named := match name with None => _ | Some k => _ end) in E. destruct named as [ms|] eqn:N; [|discriminate].
  assert (Dm : NoDup (map fst ms)).
  { unfold named in N. destruct name as [k|]; [|injection N as <-; exact D].
    destruct (lookup k (names st)) eqn:L; [discriminate|]. injection N as <-. apply lookup_none in L.
    rewrite map_app. cbn [map fst]. apply NoDup_Add with (a := k) (l := map fst (names st)).
    - rewrite <- (app_nil_r (map fst (names st))) at 1. apply Add_app.
    - split; [exact D|exact L]. }
  pb E x Hx. pb Hx y Hy. destruct x as [[r1 st1] s1]. apply close_done in Hx. subst y. cbn [fst snd] in E. injection E as <- <- <-.
  apply sub_distinct in Hy; [exact Hy|exact Dm].
Qed.
Lemma item_distinct st s r st' s' : parse_item sub st s = Done (r, st', s') -> distinct st -> distinct st'.
Proof.
  unfold parse_item. intros E D. destruct s as [|c s]; [discriminate|].
  destruct (Ascii.eqb c "(").
  { unfold parse_paren in E. destruct s as [|d s]; [discriminate|].
    destruct (Ascii.eqb d "?"); [|apply (group_distinct None st (String d s) r st' s'); auto].
    destruct s as [|e s]; [discriminate|]. destruct (Ascii.eqb e ":").
    { pb E x Hx. apply close_done in E. subst x. eapply sub_distinct; eauto. }
    destruct (Ascii.eqb e "=").
    { pb E y Hy. pb Hy x Hx. destruct y as [[r1 st1] s1]. apply close_done in Hy. subst x. injection E as <- <- <-. eapply sub_distinct; eauto. }
    destruct (Ascii.eqb e "!").
    { pb E y Hy. pb Hy x Hx. destruct y as [[r1 st1] s1]. apply close_done in Hy. subst x. injection E as <- <- <-. eapply sub_distinct; eauto. }
    destruct (Ascii.eqb e "P"); [|discriminate]. destruct s as [|g s]; [discriminate|]. destruct (Ascii.eqb g "<").
    { destruct (until ">" s) as [[k s4]|]; [|discriminate]. destruct (is_name k); [|discriminate]. eapply group_distinct; eauto. }
    destruct (Ascii.eqb g "="); [|discriminate]. destruct (until ")" s) as [[k s4]|]; [|discriminate].
    destruct (lookup k (names st)) as [n|]; [|discriminate]. pb E x Hx. injection E as <- <- <-. exact D. }
  destruct (Ascii.eqb c "\").
  { pb E x Hx. injection E as <- <- <-. exact D. }
  destruct (Ascii.eqb c "[").
  { destruct (match s with String d r' => if Ascii.eqb d "^" then (true, r') else (false, s) | EmptyString => (false, s) end) as [neg r1].
    pb E x Hx. injection E as <- <- <-. exact D. }
  repeat (match type of E with (if ?b then _ else _) = _ => destruct b end; try discriminate; try (injection E as <- <- <-; exact D)).
Qed.
End Distinct.
Lemma parse_distinct : forall f,
  (forall st s r st' s', parse_alt f st s = Done (r, st', s') -> distinct st -> distinct st') /\
  (forall st s r st' s', parse_seq f st s = Done (r, st', s') -> distinct st -> distinct st').
Proof.
  induction f as [|f [IHa IHs]]; [split; discriminate|]. split; intros st s r st' s' E D.
  - cbn [parse_alt] in E. pb E x Hx. destruct x as [[r1 st1] s1]. apply IHs in Hx; auto.
    destruct s1 as [|c s2]. { injection E as <- <- <-. auto. }
    destruct (Ascii.eqb c "|"). 2: { injection E as <- <- <-. auto. }
    pb E y Hy. destruct y as [[r2 st2] s3]. apply IHa in Hy; auto. injection E as <- <- <-. exact Hy.
  - cbn [parse_seq] in E. destruct (ends s). { injection E as <- <- <-. auto. }
    pb E x Hx. destruct x as [[r1 st1] s1]. cbn [fst snd] in E. apply (item_distinct _ IHa) in Hx; auto.
    pb E y Hy. pb E z Hz. destruct z as [[r3 st3] s3]. apply IHs in Hz; auto. injection E as <- <- <-. exact Hz.
Qed.
Lemma compile_distinct s x : compile s = Done x -> NoDup (group_names x).
Proof.
  intros C. destruct (compile_done _ _ C) as [st' P].
  destruct (proj1 (parse_grown _) _ _ _ _ _ P ok_start) as [[_ [N _]] _]. cbn [names start map app] in N. rewrite <- N.
  apply (proj1 (parse_distinct _) _ _ _ _ _ P). constructor.
Qed.
(** A single string. *)
Lemma match_fn_string s x : s <> EmptyString -> compile s = Done x ->
  exists f, make_match_fn_from_regex_list (RStr s) = Fn f /\ forall t, f t = search x t.
Proof.
  intros NE C. destruct (match_fn_any [s] [x]) as [f [E H]].
  - constructor; [exact C|constructor].
  - discriminate.
  - split; [intros before y after El; right; destruct before as [|z before]; [constructor|destruct before; discriminate]|].
    cbn [map concat]. rewrite app_nil_r. exact (compile_distinct _ _ C).
  - exists f. split; [|intros t; rewrite H; cbn [existsb]; apply orb_false_r].
    unfold make_match_fn_from_regex_list in *. destruct (String.eqb_spec s ""); [congruence|exact E].
Qed.

(** ** Enough fuel *)
Lemma pbind_fuel {T U} (x : parsed T) (f : T -> parsed U) : pbind x f = OutOfFuel -> x = OutOfFuel \/ exists a, x = Done a /\ f a = OutOfFuel.
Proof. destruct x; simpl; intros E; try discriminate; eauto. Qed.
Lemma escape_shorter st s r s' : parse_escape st s = Done (r, s') -> String.length s' < String.length s.
Proof.
  destruct s as [|c s]; simpl; [discriminate|]. destruct (code_escape c); [discriminate|]. destruct (is_digit c).
  - assert (G : forall n, pbind (reference st n) (fun x => Done (x, s)) = Done (r, s') -> String.length s' < S (String.length s)).
    { intros n E. pb E x Hx. injection E as <- <-. lia. }
    destruct s as [|d s]; [apply G|]. destruct (is_digit d); [discriminate|]. apply G.
  - destruct (class_escape c), (at_escape c), (char_escape c), (is_letter c); try discriminate; intros E; injection E as <- <-; lia.
Qed.
Lemma escape_fuel st s : parse_escape st s <> OutOfFuel.
Proof.
  destruct s as [|c s]; simpl; [discriminate|]. destruct (code_escape c); [discriminate|].
  assert (G : forall n, pbind (reference st n) (fun x => Done (x, s)) <> OutOfFuel).
  { intros n. unfold reference. destruct (n <? groups st); [|discriminate]. destruct (existsb _ _); discriminate. }
  destruct (is_digit c).
  - destruct s as [|d s]; [apply G|]. destruct (is_digit d); [discriminate|]. apply G.
  - destruct (class_escape c), (at_escape c), (char_escape c), (is_letter c); discriminate.
Qed.
Lemma member_shorter c r m r1 : set_member c r = (m, r1) -> String.length r1 <= String.length r /\ m <> OutOfFuel.
Proof.
  unfold set_member. destruct (Ascii.eqb c "\"); [|intros E; injection E as <- <-; split; [lia|discriminate]].
  destruct r as [|d r]; [intros E; injection E as <- <-; split; [simpl; lia|discriminate]|]. cbn [String.length].
  destruct (code_escape d || is_digit d); [intros E; injection E as <- <-; split; [lia|discriminate]|].
  destruct (class_escape d), (char_escape d), (Ascii.eqb d "b"), (is_letter d); intros E; injection E as <- <-; (split; [lia|discriminate]).
Qed.
Lemma set_shorter : forall fuel first s,
  (forall l s', parse_set fuel first s = Done (l, s') -> String.length s' < String.length s) /\
  (String.length s < fuel -> parse_set fuel first s <> OutOfFuel).
Proof.
  induction fuel as [|f IH]; intros first s; [split; [discriminate|lia]|]. destruct s as [|c r]; [split; discriminate|].
  cbn [parse_set String.length]. destruct (Ascii.eqb c "]" && negb first). { split; [intros l s' E; injection E as <- <-; lia|discriminate]. }
  destruct (set_member c r) as [m r1] eqn:M. apply member_shorter in M. destruct M as [L1 M1].
  assert (X : forall m1 : ascii + list citem, m = Done m1 -> True) by auto.
  destruct m as [m1| | |]; cbn [pbind]; try (split; [discriminate|congruence]).
  destruct r1 as [|d r2]; [split; discriminate|]. cbn [String.length] in L1. destruct (Ascii.eqb d "-").
  - destruct r2 as [|e r3]; [split; discriminate|]. cbn [String.length] in L1. destruct (Ascii.eqb e "]"). { split; [intros l s' E; injection E as <- <-; lia|discriminate]. }
    destruct (set_member e r3) as [n r4] eqn:M2. apply member_shorter in M2. destruct M2 as [L2 M2].
    destruct n as [n1| | |]; cbn [pbind]; try (split; [discriminate|congruence]).
    destruct m1 as [lo|]; [|split; discriminate]. destruct n1 as [hi|]; [|split; discriminate]. destruct (_ <? _); [split; discriminate|].
    destruct (IH false r4) as [A B]. split.
    + intros l s' E. pb E y Hy. destruct y as [l2 s2]. apply A in Hy. injection E as <- <-. cbn [snd]. lia.
    + intros Hf E. apply pbind_fuel in E. destruct E as [E|[y [Hy E]]]; [apply B in E; auto; lia|discriminate].
  - destruct (IH false (String d r2)) as [A B]. cbn [String.length] in A, B. split.
    + intros l s' E. pb E y Hy. destruct y as [l2 s2]. apply A in Hy. injection E as <- <-. cbn [snd]. lia.
    + intros Hf E. apply pbind_fuel in E. destruct E as [E|[y [Hy E]]]; [apply B in E; auto; lia|discriminate].
Qed.
Lemma until_shorter stop s : forall k s', until stop s = Some (k, s') -> String.length s' < String.length s.
Proof.
  induction s as [|c s IH]; intros k s' E; simpl in E; [discriminate|]. simpl. destruct (Ascii.eqb c stop). { injection E as <- <-. lia. }
  destruct (until stop s) as [[k1 s1]|]; [|discriminate]. injection E as <- <-. assert (H := IH _ _ eq_refl). lia.
Qed.
Lemma repeat_shorter r s : (forall r' s', parse_repeat r s = Done (r', s') -> String.length s' <= String.length s) /\ parse_repeat r s <> OutOfFuel.
Proof.
  unfold parse_repeat. destruct s as [|c s]. { split; [intros r' s' E; injection E as <- <-; lia|discriminate]. }
  destruct (Ascii.eqb c "{"); [split; discriminate|]. destruct (quantifier c); [|split; [intros r' s' E; injection E as <- <-; lia|discriminate]].
  assert (L : String.length (snd (match s with String d s' => if Ascii.eqb d "?" then (false, s') else (true, s) | EmptyString => (true, s) end)) <= String.length s).
  { destruct s as [|d s]; [simpl; lia|]. destruct (Ascii.eqb d "?"); simpl; lia. }
  destruct (match s with String d s' => if Ascii.eqb d "?" then (false, s') else (true, s) | EmptyString => (true, s) end) as [g s2]. cbn [snd] in L. cbn [String.length].
  assert (G : (forall r' s', match s2 with
        | String d _ => if Ascii.eqb d "{" || Ascii.eqb d "+" then Unsupported
                        else if quantifier d then ReError else Done (repeated c g r, s2)
        | EmptyString => Done (repeated c g r, s2)
        end = Done (r', s') -> String.length s' <= S (String.length s)) /\ match s2 with
        | String d _ => if Ascii.eqb d "{" || Ascii.eqb d "+" then Unsupported
                        else if quantifier d then ReError else Done (repeated c g r, s2)
        | EmptyString => Done (repeated c g r, s2)
        end <> OutOfFuel).
  { destruct s2 as [|d s2]; [split; [intros r' s' E; injection E as <- <-; lia|discriminate]|].
    destruct (_ || _); [split; discriminate|]. destruct (quantifier d); [split; discriminate|].
    split; [intros r' s' E; injection E as <- <-; lia|discriminate]. }
  destruct r; (exact G || (split; discriminate)).
Qed.
Section Fuel.
Variable sub : pstate -> string -> parsed (re * pstate * string).
Hypothesis sub_shorter : forall st s r st' s', sub st s = Done (r, st', s') -> String.length s' <= String.length s.
Lemma sub_close_shorter st s r st' s' : pbind (sub st s) parse_close = Done (r, st', s') -> String.length s' < String.length s.
Proof.
  intros E. pb E x Hx. apply close_done in E. subst x. apply sub_shorter in Hx. unfold closed in Hx. cbn [String.length] in Hx. lia.
Qed.
Lemma item_shorter st s r st' s' : parse_item sub st s = Done (r, st', s') -> String.length s' < String.length s.
Proof.
  assert (Gr : forall name st s r st' s', parse_group sub name st s = Done (r, st', s') -> String.length s' < String.length s).
  { clear st s r st' s'. intros name st s r st' s' E. unfold parse_group in E.
    set (named := match name with None => _ | Some k => _ end) in E. destruct named as [ms|]; [|discriminate].
    pb E x Hx. destruct x as [[r1 st1] s1]. apply sub_close_shorter in Hx. injection E as <- <- <-. exact Hx. }
  unfold parse_item. intros E. destruct s as [|c s]; [discriminate|]. cbn [String.length].
  destruct (Ascii.eqb c "(").
  { unfold parse_paren in E. destruct s as [|d s]; [discriminate|].
    destruct (Ascii.eqb d "?"); [|apply Gr in E; lia]. cbn [String.length].
    destruct s as [|e s]; [discriminate|]. cbn [String.length]. destruct (Ascii.eqb e ":"). { apply sub_close_shorter in E. lia. }
    destruct (Ascii.eqb e "="). { pb E y Hy. destruct y as [[r1 st1] s1]. apply sub_close_shorter in Hy. injection E as <- <- <-. cbn [snd]. lia. }
    destruct (Ascii.eqb e "!"). { pb E y Hy. destruct y as [[r1 st1] s1]. apply sub_close_shorter in Hy. injection E as <- <- <-. cbn [snd]. lia. }
    destruct (Ascii.eqb e "P"); [|discriminate]. destruct s as [|g s]; [discriminate|]. cbn [String.length]. destruct (Ascii.eqb g "<").
    { destruct (until ">" s) as [[k s4]|] eqn:U; [|discriminate]. apply until_shorter in U. destruct (is_name k); [|discriminate]. apply Gr in E. lia. }
    destruct (Ascii.eqb g "="); [|discriminate]. destruct (until ")" s) as [[k s4]|] eqn:U; [|discriminate]. apply until_shorter in U.
    destruct (lookup k (names st)) as [n|]; [|discriminate]. pb E x Hx. injection E as <- <- <-. lia. }
  destruct (Ascii.eqb c "\").
  { pb E x Hx. destruct x as [r1 s1]. apply escape_shorter in Hx. injection E as <- <- <-. cbn [snd]. lia. }
  destruct (Ascii.eqb c "[").
  { assert (L : String.length (snd (match s with String d r' => if Ascii.eqb d "^" then (true, r') else (false, s) | EmptyString => (false, s) end)) <= String.length s).
    { destruct s as [|d s]; [simpl; lia|]. destruct (Ascii.eqb d "^"); simpl; lia. }
    destruct (match s with String d r' => if Ascii.eqb d "^" then (true, r') else (false, s) | EmptyString => (false, s) end) as [neg r1].
    cbn [snd] in L. pb E x Hx. destruct x as [l s1]. apply set_shorter in Hx. injection E as <- <- <-. cbn [snd]. lia. }
  repeat (match type of E with (if ?b then _ else _) = _ => destruct b end; try discriminate; try (injection E as <- <- <-; lia)).
Qed.
Variable n : nat.
Hypothesis sub_fuel : forall st s, String.length s < n -> sub st s <> OutOfFuel.
Lemma sub_close_fuel st s : String.length s < n -> pbind (sub st s) parse_close <> OutOfFuel.
Proof.
  intros H E. apply pbind_fuel in E. destruct E as [E|[[[r st'] s'] [_ E]]]; [eapply sub_fuel; eauto|].
  simpl in E. destruct s' as [|c s']; [discriminate|]. destruct (Ascii.eqb c ")"); discriminate.
Qed.
Lemma item_fuel st s : String.length s <= n -> parse_item sub st s <> OutOfFuel.
Proof.
  intros H E.
  assert (Gr : forall name st s, String.length s < n -> parse_group sub name st s <> OutOfFuel).
  { clear st s H E. intros name st s H E. unfold parse_group in E.
    set (named := match name with None => _ | Some k => _ end) in E. destruct named as [ms|]; [|discriminate].
    apply pbind_fuel in E. destruct E as [E|[x [_ E]]]; [eapply sub_close_fuel; eauto|discriminate]. }
  assert (Rf : forall i, reference st i <> OutOfFuel).
  { intros i. unfold reference. destruct (i <? groups st); [|discriminate]. destruct (existsb _ _); discriminate. }
  unfold parse_item in E. destruct s as [|c s]; [discriminate|]. cbn [String.length] in H.
  destruct (Ascii.eqb c "(").
  { unfold parse_paren in E. destruct s as [|d s]; [discriminate|].
    destruct (Ascii.eqb d "?"); [|eapply Gr; [|exact E]; lia]. cbn [String.length] in H.
    destruct s as [|e s]; [discriminate|]. cbn [String.length] in H. destruct (Ascii.eqb e ":"). { eapply sub_close_fuel; [|exact E]. lia. }
    destruct (Ascii.eqb e "="). { apply pbind_fuel in E. destruct E as [E|[x [_ E]]]; [eapply sub_close_fuel; [|exact E]; lia|discriminate]. }
    destruct (Ascii.eqb e "!"). { apply pbind_fuel in E. destruct E as [E|[x [_ E]]]; [eapply sub_close_fuel; [|exact E]; lia|discriminate]. }
    destruct (Ascii.eqb e "P"); [|discriminate]. destruct s as [|g s]; [discriminate|]. cbn [String.length] in H. destruct (Ascii.eqb g "<").
    { destruct (until ">" s) as [[k s4]|] eqn:U; [|discriminate]. apply until_shorter in U. destruct (is_name k); [|discriminate]. eapply Gr; [|exact E]. lia. }
    destruct (Ascii.eqb g "="); [|discriminate]. destruct (until ")" s) as [[k s4]|] eqn:U; [|discriminate].
    destruct (lookup k (names st)) as [i|]; [|discriminate]. apply pbind_fuel in E. destruct E as [E|[x [_ E]]]; [eapply Rf; eauto|discriminate]. }
  destruct (Ascii.eqb c "\"). { apply pbind_fuel in E. destruct E as [E|[x [_ E]]]; [eapply escape_fuel; eauto|discriminate]. }
  destruct (Ascii.eqb c "[").
  { destruct (match s with String d r' => if Ascii.eqb d "^" then (true, r') else (false, s) | EmptyString => (false, s) end) as [neg r1].
    apply pbind_fuel in E. destruct E as [E|[x [_ E]]]; [|discriminate]. eapply (proj2 (set_shorter _ true r1)); [|exact E]. lia. }
  repeat (match type of E with (if ?b then _ else _) = _ => destruct b end; try discriminate).
Qed.
End Fuel.
Lemma parse_shorter : forall f,
  (forall st s r st' s', parse_alt f st s = Done (r, st', s') -> String.length s' <= String.length s) /\
  (forall st s r st' s', parse_seq f st s = Done (r, st', s') -> String.length s' <= String.length s).
Proof.
  induction f as [|f [IHa IHs]]; [split; discriminate|]. split; intros st s r st' s' E.
  - cbn [parse_alt] in E. pb E x Hx. destruct x as [[r1 st1] s1]. apply IHs in Hx.
    destruct s1 as [|c s2]. { injection E as <- <- <-. auto. }
    destruct (Ascii.eqb c "|"). 2: { injection E as <- <- <-. auto. }
    pb E y Hy. destruct y as [[r2 st2] s3]. apply IHa in Hy. injection E as <- <- <-. cbn [String.length snd] in *. lia.
  - cbn [parse_seq] in E. destruct (ends s). { injection E as <- <- <-. auto. }
    pb E x Hx. destruct x as [[r1 st1] s1]. cbn [fst snd] in E. apply (item_shorter _ IHa) in Hx.
    pb E y Hy. destruct y as [r2 s2]. apply (repeat_shorter r1 s1) in Hy. cbn [fst snd] in E.
    pb E z Hz. destruct z as [[r3 st3] s3]. apply IHs in Hz. injection E as <- <- <-. cbn [snd]. lia.
Qed.
Lemma parse_fuel : forall f,
  (forall st s, 3 * String.length s + 2 <= f -> parse_alt f st s <> OutOfFuel) /\
  (forall st s, 3 * String.length s + 1 <= f -> parse_seq f st s <> OutOfFuel).
Proof.
  induction f as [|f [IHa IHs]]; [split; intros; lia|]. split; intros st s Hf E.
  - cbn [parse_alt] in E. apply pbind_fuel in E. destruct E as [E|[[[r1 st1] s1] [Hx E]]]; [eapply IHs; [|exact E]; lia|].
    apply (parse_shorter f) in Hx. destruct s1 as [|c s2]; [discriminate|]. destruct (Ascii.eqb c "|"); [|discriminate].
    cbn [String.length] in Hx. apply pbind_fuel in E. destruct E as [E|[y [_ E]]]; [eapply IHa; [|exact E]; lia|discriminate].
  - cbn [parse_seq] in E. destruct (ends s) eqn:En; [discriminate|].
    apply pbind_fuel in E. destruct E as [E|[[[r1 st1] s1] [Hx E]]].
    { eapply (item_fuel (parse_alt f) (String.length s)); [|apply Nat.le_refl|exact E]. intros st1 s1 Hs. apply IHa. lia. }
    apply (item_shorter _ (proj1 (parse_shorter f))) in Hx. cbn [fst snd] in E.
    apply pbind_fuel in E. destruct E as [E|[[r2 s2] [Hy E]]]; [eapply (repeat_shorter r1 s1); exact E|].
    apply (repeat_shorter r1 s1) in Hy. cbn [fst snd] in E.
    apply pbind_fuel in E. destruct E as [E|[z [_ E]]]; [eapply IHs; [|exact E]; lia|discriminate].
Qed.
Lemma compile_total s : compile s <> OutOfFuel.
Proof.
  unfold compile. intros E. apply pbind_fuel in E. destruct E as [E|[[[r st] s'] [_ E]]].
  - eapply (proj1 (parse_fuel _)); [|exact E]. lia.
  - cbn [snd] in E. destruct s'; discriminate.
Qed.
