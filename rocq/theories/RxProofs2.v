(** Parsing an expression inside of a larger text. *)
From Coq Require Import Ascii String List Arith Bool Relations Lia.
From Verif Require Import RxModel RxSpec RxProofs.
Import ListNotations.
Local Open Scope list_scope.
Local Open Scope nat_scope.

Lemma pbind_done {T U} (x : parsed T) (f : T -> parsed U) y : pbind x f = Done y -> exists a, x = Done a /\ f a = Done y.
Proof. destruct x; simpl; intros E; try discriminate. eauto. Qed.
Lemma Done_inj {T} (x y : T) : Done x = Done y -> x = y.
Proof. congruence. Qed.
Ltac pb E x H := apply pbind_done in E; destruct E as [x [H E]].

Lemma append_nil (s : string) : (s ++ "" = s)%string.
Proof. induction s; simpl; congruence. Qed.
Lemma append_assoc (a b c : string) : ((a ++ b) ++ c = a ++ b ++ c)%string.
Proof. induction a; simpl; congruence. Qed.
Lemma append_length (a b : string) : String.length (a ++ b) = String.length a + String.length b.
Proof. induction a; simpl; congruence. Qed.

(** Texts that go on with a closing parenthesis. *)
Definition closed (t : string) : string := String ")" t.

Lemma escape_tail st s r s' t : parse_escape st s = Done (r, s') -> parse_escape st (s ++ closed t) = Done (r, (s' ++ closed t)%string).
Proof.
  destruct s as [|c s]; simpl; [discriminate|]. destruct (code_escape c); [discriminate|]. destruct (is_digit c).
  - destruct s as [|d s]; cbn [append closed].
    + intros E. pb E x Hx. apply Done_inj in E. injection E as <- <-. cbn. rewrite Hx. reflexivity.
    + destruct (is_digit d); [discriminate|]. intros E. pb E x Hx. apply Done_inj in E. injection E as <- <-. rewrite Hx. reflexivity.
  - destruct (class_escape c), (at_escape c), (char_escape c), (is_letter c); try discriminate; intros E; injection E as <- <-; reflexivity.
Qed.
Lemma set_member_tail c r m r1 t : set_member c r = (Done m, r1) -> set_member c (r ++ closed t) = (Done m, (r1 ++ closed t)%string).
Proof.
  unfold set_member. destruct (Ascii.eqb c "\"); [|intros E; injection E as <- <-; reflexivity].
  destruct r as [|d r]; [discriminate|]. cbn [append]. destruct (code_escape d || is_digit d); [discriminate|].
  destruct (class_escape d), (char_escape d), (Ascii.eqb d "b"), (is_letter d); try discriminate; intros E; injection E as <- <-; reflexivity.
Qed.
Lemma set_tail t : forall fuel first s l s' fuel', parse_set fuel first s = Done (l, s') -> fuel <= fuel' ->
  parse_set fuel' first (s ++ closed t) = Done (l, (s' ++ closed t)%string).
Proof.
  induction fuel as [|f IH]; intros first s l s' fuel' E Hf; [discriminate|]. destruct fuel' as [|f']; [lia|].
  destruct s as [|c r]; [discriminate|]. cbn [parse_set append] in E |- *.
  destruct (Ascii.eqb c "]" && negb first). { injection E as <- <-. reflexivity. }
  destruct (set_member c r) as [m r1] eqn:M. pb E m1 Hm. subst m. rewrite (set_member_tail _ _ _ _ t M). cbn [pbind].
  destruct r1 as [|d r2]; [discriminate|]. cbn [append]. destruct (Ascii.eqb d "-").
  - destruct r2 as [|e r3]; [discriminate|]. cbn [append]. destruct (Ascii.eqb e "]"). { injection E as <- <-. reflexivity. }
    destruct (set_member e r3) as [n r4] eqn:M2. pb E n1 Hn. subst n. rewrite (set_member_tail _ _ _ _ t M2). cbn [pbind].
    destruct m1 as [lo|]; [|discriminate]. destruct n1 as [hi|]; [|discriminate]. destruct (_ <? _); [discriminate|].
    pb E y Hy. destruct y as [l2 s2]. apply IH with (fuel' := f') in Hy; [|lia]. rewrite Hy. injection E as <- <-. reflexivity.
  - pb E y Hy. destruct y as [l2 s2]. apply IH with (fuel' := f') in Hy; [|lia].
    change (String d (r2 ++ closed t)) with (String d r2 ++ closed t)%string. rewrite Hy. injection E as <- <-. reflexivity.
Qed.
Lemma until_tail stop s t : forall k s', until stop s = Some (k, s') -> until stop (s ++ t) = Some (k, (s' ++ t)%string).
Proof.
  induction s as [|c s IH]; intros k s' E; simpl in E; [discriminate|]. simpl. destruct (Ascii.eqb c stop). { injection E as <- <-. reflexivity. }
  destruct (until stop s) as [[k1 s1]|]; [|discriminate]. injection E as <- <-. rewrite (IH _ _ eq_refl). reflexivity.
Qed.
Lemma shift_repeated k c g r : shift k (repeated c g r) = repeated c g (shift k r).
Proof. unfold repeated. destruct c as [[] [] [] [] [] [] [] []]; reflexivity. Qed.
Lemma repeated_no_refs c g r : no_refs (repeated c g r) = no_refs r.
Proof. unfold repeated. destruct c as [[] [] [] [] [] [] [] []]; reflexivity. Qed.
Lemma repeated_names c g r : group_names (repeated c g r) = group_names r.
Proof. unfold repeated. destruct c as [[] [] [] [] [] [] [] []]; reflexivity. Qed.
Lemma repeated_groups c g r : ngroups (repeated c g r) = ngroups r.
Proof. unfold repeated. destruct c as [[] [] [] [] [] [] [] []]; reflexivity. Qed.
(** What a quantifier does to the item. *)
Lemma repeat_form r s r' s' : parse_repeat r s = Done (r', s') -> r' = r \/ exists c g, r' = repeated c g r.
Proof.
  unfold parse_repeat. destruct s as [|c s]. { intros E. injection E as <- <-. auto. }
  destruct (Ascii.eqb c "{"); [discriminate|]. destruct (quantifier c); [|intros E; injection E as <- <-; auto].
  assert (G : (let '(greedy, s2) := match s with
                             | String d s' => if Ascii.eqb d "?" then (false, s') else (true, s)
                             | EmptyString => (true, s) end in
        match s2 with
        | String d _ => if Ascii.eqb d "{" || Ascii.eqb d "+" then Unsupported
                        else if quantifier d then ReError else Done (repeated c greedy r, s2)
        | EmptyString => Done (repeated c greedy r, s2)
        end) = Done (r', s') -> r' = r \/ exists c0 g, r' = repeated c0 g r).
  { destruct (match s with String d s' => if Ascii.eqb d "?" then (false, s') else (true, s) | EmptyString => (true, s) end) as [g s2].
    destruct s2 as [|d s2]; [intros E; injection E as <- <-; eauto|]. destruct (_ || _); [discriminate|]. destruct (quantifier d); [discriminate|].
    intros E; injection E as <- <-; eauto. }
  destruct r; (exact G || discriminate).
Qed.
Lemma repeat_tail k t r s r' s' : parse_repeat r s = Done (r', s') ->
  parse_repeat (shift k r) (s ++ closed t) = Done (shift k r', (s' ++ closed t)%string).
Proof.
  unfold parse_repeat. destruct s as [|c s]. { intros E. injection E as <- <-. reflexivity. }
  cbn [append]. destruct (Ascii.eqb c "{"); [discriminate|]. destruct (quantifier c) eqn:Q; [|intros E; injection E as <- <-; reflexivity].
  assert (S1 : match (s ++ closed t)%string with String d s' => if Ascii.eqb d "?" then (false, s') else (true, (s ++ closed t)%string) | EmptyString => (true, (s ++ closed t)%string) end
             = (fst (match s with String d s' => if Ascii.eqb d "?" then (false, s') else (true, s) | EmptyString => (true, s) end),
                (snd (match s with String d s' => if Ascii.eqb d "?" then (false, s') else (true, s) | EmptyString => (true, s) end) ++ closed t)%string)).
  { destruct s as [|d s]; [reflexivity|]. cbn [append]. destruct (Ascii.eqb d "?"); reflexivity. }
  rewrite S1. clear S1. destruct (match s with String d s' => if Ascii.eqb d "?" then (false, s') else (true, s) | EmptyString => (true, s) end) as [g s2]. cbn [fst snd].
  assert (G : (match s2 with
        | String d _ => if Ascii.eqb d "{" || Ascii.eqb d "+" then Unsupported
                        else if quantifier d then ReError else Done (repeated c g r, s2)
        | EmptyString => Done (repeated c g r, s2)
        end) = Done (r', s') ->
      (match (s2 ++ closed t)%string with
        | String d _ => if Ascii.eqb d "{" || Ascii.eqb d "+" then Unsupported
                        else if quantifier d then ReError else Done (repeated c g (shift k r), (s2 ++ closed t)%string)
        | EmptyString => Done (repeated c g (shift k r), (s2 ++ closed t)%string)
        end) = Done (shift k r', (s' ++ closed t)%string)).
  { destruct s2 as [|d s2].
    - intros E; injection E as <- <-. rewrite shift_repeated. reflexivity.
    - cbn [append]. destruct (_ || _); [discriminate|]. destruct (quantifier d); [discriminate|]. intros E; injection E as <- <-. rewrite shift_repeated. reflexivity. }
  destruct r; (exact G || discriminate).
Qed.

(** States with [k] more groups and the names [ns] before. *)
Definition moved (k : nat) (ns : list (string * nat)) (st : pstate) : pstate :=
  {| groups := groups st + k; names := ns ++ map (fun p => (fst p, snd p + k)) (names st); opened := map (fun n => n + k) (opened st) |}.
Definition ok_state (st : pstate) : Prop := Forall (fun n => n < groups st) (opened st).
(** What parsing does to the state. *)
Definition grown (st : pstate) (r : re) (st' : pstate) : Prop :=
  groups st' = groups st + ngroups r /\ map fst (names st') = map fst (names st) ++ group_names r /\ opened st' = opened st.

Lemma lookup_none k l : lookup k l = None <-> ~ In k (map fst l).
Proof.
  induction l as [|[k' n] l IH]; simpl; [tauto|]. destruct (String.eqb_spec k k') as [->|Q].
  - split; [discriminate|tauto].
  - rewrite IH. intuition congruence.
Qed.
Lemma remove_not_in n l : ~ In n l -> remove Nat.eq_dec n l = l.
Proof. apply notin_remove. Qed.

(** The state grows by the groups of the expression. *)
Lemma reference_grown st n x : reference st n = Done x -> x = Ref n /\ n < groups st.
Proof.
  unfold reference. destruct (n <? groups st) eqn:L; [|discriminate]. apply Nat.ltb_lt in L.
  destruct (existsb _ _); [discriminate|]. intros E. apply Done_inj in E. subst. auto.
Qed.
Lemma escape_leaf st s r s' : parse_escape st s = Done (r, s') -> ngroups r = 0 /\ group_names r = [].
Proof.
  destruct s as [|c s]; simpl; [discriminate|]. destruct (code_escape c); [discriminate|]. destruct (is_digit c).
  - assert (G : forall n, pbind (reference st n) (fun x => Done (x, s)) = Done (r, s') -> ngroups r = 0 /\ group_names r = []).
    { intros n E. pb E x Hx. apply reference_grown in Hx. destruct Hx as [-> _]. injection E as <- <-. auto. }
    destruct s as [|d s]; [apply G|]. destruct (is_digit d); [discriminate|]. apply G.
  - destruct (class_escape c), (at_escape c), (char_escape c), (is_letter c); try discriminate; intros E; injection E as <- <-; auto.
Qed.
Section Grown.
Variable sub : pstate -> string -> parsed (re * pstate * string).
Hypothesis sub_grown : forall st s r st' s', sub st s = Done (r, st', s') -> ok_state st -> grown st r st' /\ ok_state st'.
Lemma close_done x r st s : parse_close x = Done (r, st, s) -> x = (r, st, closed s).
Proof.
  destruct x as [[r0 st0] s0]. simpl. destruct s0 as [|c s0]; [discriminate|]. destruct (Ascii.eqb_spec c ")") as [->|]; [|discriminate].
  intros E. injection E as -> -> ->. reflexivity.
Qed.
Lemma group_grown name st s r st' s' : parse_group sub name st s = Done (r, st', s') -> ok_state st -> grown st r st' /\ ok_state st'.
Proof.
  unfold parse_group. intros E O.
  set (named := match name with None => _ | Some k => _ end) in E. destruct named as [ns|] eqn:N; [|discriminate].
  assert (F : map fst ns = map fst (names st) ++ match name with Some k => [k] | None => [] end).
  { unfold named in N. destruct name as [k|].
    - destruct (lookup k (names st)); [discriminate|]. injection N as <-. rewrite map_app. reflexivity.
    - injection N as <-. rewrite app_nil_r. reflexivity. }
  pb E x Hx. pb Hx y Hy. destruct x as [[r1 st1] s1]. apply close_done in Hx. subst y. cbn [fst snd] in E. injection E as <- <- <-.
  apply sub_grown in Hy.
  2: { unfold ok_state. cbn [opened groups]. constructor; [lia|]. eapply Forall_impl; [|exact O]. cbn. intros; lia. }
  destruct Hy as [[G [M P]] O1]. cbn [opened groups names] in G, M, P.
  assert (R : remove Nat.eq_dec (groups st) (opened st1) = opened st).
  { rewrite P. cbn [remove]. destruct (Nat.eq_dec _ _); [|congruence]. apply remove_not_in. intros H. unfold ok_state in O.
    rewrite Forall_forall in O. apply O in H. lia. }
  split.
  - unfold grown. cbn [close_group groups names opened ngroups group_names]. split; [lia|]. split; [|exact R].
    rewrite M, F, <- app_assoc. destruct name; reflexivity.
  - unfold ok_state. cbn [close_group groups opened]. rewrite R. eapply Forall_impl; [|exact O]. cbn. intros; lia.
Qed.
Lemma look_grown st x st' s p : grown st x st' -> grown st (fst (fst (Look p x, st', s : string))) st'.
Proof. exact (fun H => H). Qed.
Lemma leaf_grown st r : ngroups r = 0 -> group_names r = [] -> ok_state st -> grown st r st /\ ok_state st.
Proof. intros G N O. split; auto. unfold grown. rewrite G, N, app_nil_r, Nat.add_0_r. auto. Qed.
Lemma paren_grown st s r st' s' : parse_paren sub st s = Done (r, st', s') -> ok_state st -> grown st r st' /\ ok_state st'.
Proof.
  unfold parse_paren. intros E O. destruct s as [|c s]; [discriminate|].
  destruct (Ascii.eqb c "?"); [|apply (group_grown None st (String c s) r st' s'); auto].
  destruct s as [|d s]; [discriminate|]. destruct (Ascii.eqb d ":").
  { pb E x Hx. apply close_done in E. subst x. eapply sub_grown; eauto. }
  destruct (Ascii.eqb d "=").
  { pb E y Hy. pb Hy x Hx. destruct y as [[r1 st1] s1]. apply close_done in Hy. subst x. injection E as <- <- <-.
    destruct (sub_grown _ _ _ _ _ Hx O) as [G O1]. split; [exact G|exact O1]. }
  destruct (Ascii.eqb d "!").
  { pb E y Hy. pb Hy x Hx. destruct y as [[r1 st1] s1]. apply close_done in Hy. subst x. injection E as <- <- <-.
    destruct (sub_grown _ _ _ _ _ Hx O) as [G O1]. split; [exact G|exact O1]. }
  destruct (Ascii.eqb d "P"); [|discriminate]. destruct s as [|e s]; [discriminate|]. destruct (Ascii.eqb e "<").
  { destruct (until ">" s) as [[k s4]|]; [|discriminate]. destruct (is_name k); [|discriminate]. eapply group_grown; eauto. }
  destruct (Ascii.eqb e "="); [|discriminate]. destruct (until ")" s) as [[k s4]|]; [|discriminate].
  destruct (lookup k (names st)) as [n|]; [|discriminate]. pb E x Hx. apply reference_grown in Hx. destruct Hx as [-> _].
  injection E as <- <- <-. apply leaf_grown; auto.
Qed.
Lemma item_grown st s r st' s' : parse_item sub st s = Done (r, st', s') -> ok_state st -> grown st r st' /\ ok_state st'.
Proof.
  unfold parse_item. intros E O. destruct s as [|c s]; [discriminate|].
  destruct (Ascii.eqb c "("); [eapply paren_grown; eauto|].
  destruct (Ascii.eqb c "\").
  { pb E x Hx. destruct x as [r1 s1]. apply escape_leaf in Hx. destruct Hx. injection E as <- <- <-. apply leaf_grown; auto. }
  destruct (Ascii.eqb c "[").
  { destruct (match s with String d r' => if Ascii.eqb d "^" then (true, r') else (false, s) | EmptyString => (false, s) end) as [neg r1].
    pb E x Hx. injection E as <- <- <-. apply leaf_grown; auto. }
  repeat (match type of E with (if ?b then _ else _) = _ => destruct b end; try discriminate; try (injection E as <- <- <-; apply leaf_grown; auto; fail)).
Qed.
End Grown.
Lemma parse_grown : forall f,
  (forall st s r st' s', parse_alt f st s = Done (r, st', s') -> ok_state st -> grown st r st' /\ ok_state st') /\
  (forall st s r st' s', parse_seq f st s = Done (r, st', s') -> ok_state st -> grown st r st' /\ ok_state st').
Proof.
  assert (T : forall st a st1 b st2, grown st a st1 -> grown st1 b st2 ->
    groups st2 = groups st + (ngroups a + ngroups b) /\ map fst (names st2) = map fst (names st) ++ group_names a ++ group_names b /\ opened st2 = opened st).
  { intros st a st1 b st2 [G1 [N1 P1]] [G2 [N2 P2]]. split; [lia|]. split; [rewrite N2, N1, app_assoc; reflexivity|congruence]. }
  induction f as [|f [IHa IHs]]; [split; discriminate|]. split; intros st s r st' s' E O.
  - cbn [parse_alt] in E. pb E x Hx. destruct x as [[r1 st1] s1]. apply IHs in Hx; auto. destruct Hx as [G O1].
    destruct s1 as [|c s2]. { injection E as <- <- <-. auto. }
    destruct (Ascii.eqb c "|"). 2: { injection E as <- <- <-. auto. }
    pb E y Hy. destruct y as [[r2 st2] s3]. apply IHa in Hy; auto. destruct Hy as [G2 O2]. injection E as <- <- <-.
    split; auto. exact (T _ _ _ _ _ G G2).
  - cbn [parse_seq] in E. destruct (ends s). { injection E as <- <- <-. apply leaf_grown; auto. }
    pb E x Hx. destruct x as [[r1 st1] s1]. cbn [fst snd] in E. apply (item_grown _ IHa) in Hx; auto. destruct Hx as [G O1].
    pb E y Hy. destruct y as [r2 s2]. cbn [fst snd] in E. apply repeat_form in Hy.
    pb E z Hz. destruct z as [[r3 st3] s3]. apply IHs in Hz; auto. destruct Hz as [G3 O3]. injection E as <- <- <-.
    split; auto. destruct Hy as [->|[c [g ->]]].
    + exact (T _ _ _ _ _ G G3).
    + unfold grown. cbn [ngroups group_names fst]. rewrite repeated_names, repeated_groups. exact (T _ _ _ _ _ G G3).
Qed.

(** A parser behaves in the same way in a moved state. *)
Definition free (ns : list (string * nat)) (l : list string) : Prop := forall k, In k l -> ~ In k (map fst ns).
Definition fits (k : nat) (ns : list (string * nat)) (r : re) : Prop :=
  ((k = 0 /\ ns = []) \/ no_refs r = true) /\ free ns (group_names r).
Lemma moved_0 st : moved 0 [] st = st.
Proof.
  destruct st as [g n o]. unfold moved. cbn [groups names opened app]. f_equal.
  - lia.
  - rewrite <- (map_id n) at 2. apply map_ext. intros [k i]. cbn. f_equal. lia.
  - rewrite <- (map_id o) at 2. apply map_ext. intros; lia.
Qed.
Lemma escape_moved k ns st s r s' : parse_escape st s = Done (r, s') -> fits k ns r -> parse_escape (moved k ns st) s = Done (shift k r, s').
Proof.
  intros E [[[-> ->]|N] _]. { rewrite moved_0, shift_0. exact E. }
  destruct s as [|c s]; simpl in *; [discriminate|]. destruct (code_escape c); [discriminate|]. destruct (is_digit c).
  - exfalso. assert (G : forall n, pbind (reference st n) (fun x => Done (x, s)) = Done (r, s') -> False).
    { intros n E'. pb E' x Hx. apply reference_grown in Hx. destruct Hx as [-> _]. injection E' as <- <-. discriminate. }
    destruct s as [|d s]; [eapply G; eauto|]. destruct (is_digit d); [discriminate|]. eapply G; eauto.
  - destruct (class_escape c), (at_escape c), (char_escape c), (is_letter c); try discriminate; injection E as <- <-; reflexivity.
Qed.
Section Moved.
Variables (k : nat) (ns : list (string * nat)) (t : string).
Variables sub sub' : pstate -> string -> parsed (re * pstate * string).
Hypothesis sub_grown : forall st s r st' s', sub st s = Done (r, st', s') -> ok_state st -> grown st r st' /\ ok_state st'.
Hypothesis sub_moved : forall st s r st' s', sub st s = Done (r, st', s') -> ok_state st -> fits k ns r ->
  sub' (moved k ns st) (s ++ closed t) = Done (shift k r, moved k ns st', (s' ++ closed t)%string).
Lemma close_moved r st s : parse_close (r, st, (closed s ++ closed t)%string) = Done (r, st, (s ++ closed t)%string).
Proof. reflexivity. Qed.
Lemma remove_shift n l : remove Nat.eq_dec (n + k) (map (fun i => i + k) l) = map (fun i => i + k) (remove Nat.eq_dec n l).
Proof.
  induction l as [|x l IH]; simpl; auto. destruct (Nat.eq_dec n x) as [->|N].
  - destruct (Nat.eq_dec (x + k) (x + k)); [exact IH|congruence].
  - destruct (Nat.eq_dec (n + k) (x + k)); [lia|]. simpl. rewrite IH. reflexivity.
Qed.
Lemma group_moved name st s r st' s' : parse_group sub name st s = Done (r, st', s') -> ok_state st -> fits k ns r ->
  parse_group sub' name (moved k ns st) (s ++ closed t) = Done (shift k r, moved k ns st', (s' ++ closed t)%string).
Proof.
  unfold parse_group. intros E O F.
  set (named := match name with None => _ | Some k => _ end) in E. destruct named as [ms|] eqn:N; [|discriminate].
  pb E x Hx. pb Hx y Hy. destruct x as [[r1 st1] s1]. apply close_done in Hx. subst y. cbn [fst snd] in E. injection E as <- <- <-.
  set (st0 := {| groups := S (groups st); names := ms; opened := groups st :: opened st |}) in Hy.
  assert (O0 : ok_state st0).
  { unfold ok_state, st0. cbn [opened groups]. constructor; [lia|]. eapply Forall_impl; [|exact O]. cbn. intros; lia. }
  assert (N' : match name with
               | None => Some (names (moved k ns st))
               | Some k0 => match lookup k0 (names (moved k ns st)) with Some _ => None | None => Some (names (moved k ns st) ++ [(k0, groups (moved k ns st))]) end
               end = Some (names (moved k ns st0))).
  { unfold named in N. destruct name as [k0|].
    - destruct (lookup k0 (names st)) eqn:L; [discriminate|]. injection N as N. apply lookup_none in L.
      assert (L' : lookup k0 (names (moved k ns st)) = None).
      { apply lookup_none. unfold moved. cbn [names]. rewrite map_app, in_app_iff, map_map. cbn [fst]. intros [H|H]; [|apply L; exact H].
        destruct F as [_ F]. apply (F k0); auto. cbn [group_names]. left. reflexivity. }
      rewrite L'. unfold st0, moved. cbn [names groups]. rewrite <- N, map_app, app_assoc. reflexivity.
    - injection N as N. unfold st0, moved. cbn [names]. rewrite N. reflexivity. }
  rewrite N'.
  assert (M0 : {| groups := S (groups (moved k ns st)); names := names (moved k ns st0); opened := groups (moved k ns st) :: opened (moved k ns st) |} = moved k ns st0).
  { unfold st0, moved. cbn [names groups opened map]. f_equal. }
  rewrite M0. rewrite (sub_moved _ _ _ _ _ Hy O0).
  - cbn [pbind]. rewrite close_moved. cbn [pbind fst snd shift]. do 2 f_equal. f_equal. unfold close_group, moved. cbn [groups names opened].
    f_equal. apply remove_shift.
  - destruct F as [F1 F2]. split; [exact F1|]. intros q Hq. apply F2. cbn [group_names]. apply in_app_iff. right. exact Hq.
Qed.
Lemma paren_moved st s r st' s' : parse_paren sub st s = Done (r, st', s') -> ok_state st -> fits k ns r ->
  parse_paren sub' (moved k ns st) (s ++ closed t) = Done (shift k r, moved k ns st', (s' ++ closed t)%string).
Proof.
  unfold parse_paren. intros E O F. destruct s as [|c s]; [discriminate|]. cbn [append].
  destruct (Ascii.eqb c "?"); [|apply (group_moved None st (String c s) r st' s'); auto].
  destruct s as [|d s]; [discriminate|]. cbn [append]. destruct (Ascii.eqb d ":").
  { pb E x Hx. apply close_done in E. subst x. rewrite (sub_moved _ _ _ _ _ Hx O F). reflexivity. }
  destruct (Ascii.eqb d "=").
  { pb E y Hy. pb Hy x Hx. destruct y as [[r1 st1] s1]. apply close_done in Hy. subst x. injection E as <- <- <-.
    rewrite (sub_moved _ _ _ _ _ Hx O F). reflexivity. }
  destruct (Ascii.eqb d "!").
  { pb E y Hy. pb Hy x Hx. destruct y as [[r1 st1] s1]. apply close_done in Hy. subst x. injection E as <- <- <-.
    rewrite (sub_moved _ _ _ _ _ Hx O F). reflexivity. }
  destruct (Ascii.eqb d "P"); [|discriminate]. destruct s as [|e s]; [discriminate|]. cbn [append]. destruct (Ascii.eqb e "<").
  { destruct (until ">" s) as [[n s4]|] eqn:U; [|discriminate]. rewrite (until_tail _ _ (closed t) _ _ U).
    destruct (is_name n); [|discriminate]. eapply group_moved; eauto. }
  destruct (Ascii.eqb e "="); [|discriminate]. destruct (until ")" s) as [[n s4]|] eqn:U; [|discriminate]. rewrite (until_tail _ _ (closed t) _ _ U).
  destruct (lookup n (names st)) as [i|] eqn:L; [|discriminate]. pb E x Hx. assert (Hr := Hx). apply reference_grown in Hr. destruct Hr as [-> _].
  injection E as <- <- <-. destruct F as [[[Ek En]|N] _]; [|discriminate].
  rewrite Ek, En, !moved_0, L, Hx. cbn [pbind shift]. rewrite Nat.add_0_r. reflexivity.
Qed.
Lemma item_moved st s r st' s' : parse_item sub st s = Done (r, st', s') -> ok_state st -> fits k ns r ->
  parse_item sub' (moved k ns st) (s ++ closed t) = Done (shift k r, moved k ns st', (s' ++ closed t)%string).
Proof.
  unfold parse_item. intros E O F. destruct s as [|c s]; [discriminate|]. cbn [append].
  destruct (Ascii.eqb c "("); [apply paren_moved; auto|].
  destruct (Ascii.eqb c "\").
  { pb E x Hx. destruct x as [r1 s1]. cbn [fst snd] in E. injection E as <- <- <-. apply (escape_moved k ns) in Hx; [|exact F].
    rewrite (escape_tail _ _ _ _ t Hx). reflexivity. }
  destruct (Ascii.eqb c "[").
  { assert (S1 : match (s ++ closed t)%string with String d r' => if Ascii.eqb d "^" then (true, r') else (false, (s ++ closed t)%string) | EmptyString => (false, (s ++ closed t)%string) end
             = (fst (match s with String d r' => if Ascii.eqb d "^" then (true, r') else (false, s) | EmptyString => (false, s) end),
                (snd (match s with String d r' => if Ascii.eqb d "^" then (true, r') else (false, s) | EmptyString => (false, s) end) ++ closed t)%string)).
    { destruct s as [|d s]; [reflexivity|]. cbn [append]. destruct (Ascii.eqb d "^"); reflexivity. }
    rewrite S1. clear S1. destruct (match s with String d r' => if Ascii.eqb d "^" then (true, r') else (false, s) | EmptyString => (false, s) end) as [neg r1]. cbn [fst snd].
    pb E x Hx. destruct x as [l s1]. cbn [fst snd] in E. injection E as <- <- <-.
    rewrite (set_tail t _ _ _ _ _ (S (String.length (r1 ++ closed t))) Hx) by (rewrite append_length; lia). reflexivity. }
  repeat (match type of E with (if ?b then _ else _) = _ => destruct b end; try discriminate; try (injection E as <- <- <-; reflexivity)).
Qed.
End Moved.
Lemma ends_tail s t : ends (s ++ closed t) = ends s.
Proof. destruct s; reflexivity. Qed.
Lemma fits_split k ns a b : no_refs a && no_refs b = true \/ (k = 0 /\ ns = []) -> free ns (group_names a ++ group_names b) -> fits k ns a /\ fits k ns b.
Proof.
  intros H F. assert (N : (k = 0 /\ ns = [] \/ no_refs a = true) /\ (k = 0 /\ ns = [] \/ no_refs b = true)).
  { destruct H as [H|H]; [apply andb_true_iff in H; tauto|tauto]. }
  destruct N. split; (split; [assumption|intros q Hq; apply F; apply in_app_iff; auto]).
Qed.
Lemma parse_moved k ns t : forall f,
  (forall f' st s r st' s', f <= f' -> parse_alt f st s = Done (r, st', s') -> ok_state st -> fits k ns r ->
     parse_alt f' (moved k ns st) (s ++ closed t) = Done (shift k r, moved k ns st', (s' ++ closed t)%string)) /\
  (forall f' st s r st' s', f <= f' -> parse_seq f st s = Done (r, st', s') -> ok_state st -> fits k ns r ->
     parse_seq f' (moved k ns st) (s ++ closed t) = Done (shift k r, moved k ns st', (s' ++ closed t)%string)).
Proof.
  induction f as [|f [IHa IHs]]; [split; discriminate|]. split; intros f' st s r st' s' Hf E O F; (destruct f' as [|f']; [lia|]).
  - cbn [parse_alt] in E |- *. pb E x Hx. destruct x as [[r1 st1] s1].
    assert (G := proj2 (parse_grown f) _ _ _ _ _ Hx O). destruct G as [G O1].
    destruct s1 as [|c s2].
    { injection E as <- <- <-. rewrite (IHs f' _ _ _ _ _ ltac:(lia) Hx O F). reflexivity. }
    destruct (Ascii.eqb c "|") eqn:C.
    2: { injection E as <- <- <-. rewrite (IHs f' _ _ _ _ _ ltac:(lia) Hx O F). cbn [pbind append]. rewrite C. reflexivity. }
    pb E y Hy. destruct y as [[r2 st2] s3]. cbn [fst snd] in E. injection E as <- <- <-.
    destruct F as [F1 F2]. cbn [no_refs group_names] in F1, F2. apply or_comm in F1. destruct (fits_split _ _ _ _ F1 F2) as [Fa Fb].
    rewrite (IHs f' _ _ _ _ _ ltac:(lia) Hx O Fa). cbn [pbind append]. rewrite C. rewrite (IHa f' _ _ _ _ _ ltac:(lia) Hy O1 Fb). reflexivity.
  - cbn [parse_seq] in E |- *. rewrite ends_tail. destruct (ends s). { injection E as <- <- <-. reflexivity. }
    pb E x Hx. destruct x as [[r1 st1] s1]. cbn [fst snd] in E.
    assert (G := item_grown _ (proj1 (parse_grown f)) _ _ _ _ _ Hx O). destruct G as [G O1].
    pb E y Hy. destruct y as [r2 s2]. cbn [fst snd] in E. assert (Hr := repeat_form _ _ _ _ Hy).
    pb E z Hz. destruct z as [[r3 st3] s3]. cbn [fst snd] in E. injection E as <- <- <-.
    assert (Fs : fits k ns r1 /\ fits k ns r3).
    { destruct F as [F1 F2]. cbn [no_refs group_names] in F1, F2. apply or_comm in F1.
      assert (Q : no_refs r2 = no_refs r1 /\ group_names r2 = group_names r1).
      { destruct Hr as [->|[c [g ->]]]; [auto|]. rewrite repeated_no_refs, repeated_names. auto. }
      destruct Q as [Q1 Q2]. rewrite Q1 in F1. rewrite Q2 in F2. apply fits_split; auto. }
    destruct Fs as [Fa Fb].
    rewrite (item_moved k ns t (parse_alt f) (parse_alt f') (fun st s r st' s' => IHa f' st s r st' s' ltac:(lia)) _ _ _ _ _ Hx O Fa).
    cbn [pbind fst snd]. rewrite (repeat_tail k t _ _ _ _ Hy). cbn [pbind fst snd].
    rewrite (IHs f' _ _ _ _ _ ltac:(lia) Hz O1 Fb). reflexivity.
Qed.
