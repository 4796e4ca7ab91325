(** The matcher finds exactly what the specification says. *)
From Coq Require Import Ascii String List Arith Bool Relations Lia.
From Verif Require Import RxModel RxSpec.
Import ListNotations.
Local Open Scope list_scope.
Local Open Scope nat_scope.

Lemma get_lt s : forall i c, get i s = Some c -> i < String.length s.
Proof.
  induction s as [|a s IH]; intros i c E; simpl in E; [discriminate|]. simpl. destruct i; [lia|]. apply IH in E. lia.
Qed.
Lemma between_within lo hi c : between lo hi c = true <-> within c (lo, hi).
Proof. unfold between, within. cbn [fst snd]. rewrite andb_true_iff, !Nat.leb_le. reflexivity. Qed.
Lemma in_ranges c l : existsb (in_range c) l = true <-> exists p, In p l /\ within c p.
Proof.
  rewrite existsb_exists. split; intros [p [Hin H]]; exists p; (split; [exact Hin|]); destruct p as [lo hi]; apply between_within; exact H.
Qed.
Lemma in_item_has c x : in_item c x = true <-> item_has c x.
Proof.
  destruct x as [lo hi|l]; simpl; [apply between_within|].
  rewrite negb_true_iff. split.
  - intros E H. apply in_ranges in H. congruence.
  - intros H. destruct (existsb (in_range c) l) eqn:E; auto. apply in_ranges in E. contradiction.
Qed.
Lemma in_items c l : existsb (in_item c) l = true <-> exists x, In x l /\ item_has c x.
Proof.
  rewrite existsb_exists. split; intros [x [Hin H]]; exists x; (split; [exact Hin|]); apply in_item_has; exact H.
Qed.
Lemma is_word_char c : is_word c = true <-> word_char c.
Proof.
  unfold is_word, is_letter, is_digit, word_char, word. rewrite !orb_true_iff, !between_within, Ascii.eqb_eq.
  split.
  - intros [[[H|H]|H]|H]; [exists ("a", "z")%char|exists ("A", "Z")%char|exists ("0", "9")%char|exists ("_", "_")%char];
      (split; [simpl; tauto|]); auto. subst. unfold within. simpl. lia.
  - intros [p [[<-|[<-|[<-|[<-|[]]]]] H]]; auto. right. unfold within in H. cbn [fst snd] in H.
    assert (nat_of_ascii c = nat_of_ascii "_") by lia. rewrite <- (ascii_nat_embedding c), <- (ascii_nat_embedding "_"). congruence.
Qed.
Lemma word_at_true s i : word_at s i = true <-> word_at_pos s i.
Proof.
  unfold word_at, word_at_pos. destruct (get i s) as [c|] eqn:E.
  - rewrite is_word_char. split; [intros H; exists c; auto|intros [c' [E' H]]; congruence].
  - split; [discriminate|intros [c' [E' H]]; congruence].
Qed.
Lemma at_boundary_true s i : at_boundary s i = true <-> boundary s i.
Proof.
  unfold at_boundary, boundary.
  assert (B : (match i with 0 => false | S j => word_at s j end) = true <-> exists j, i = S j /\ word_at_pos s j).
  { destruct i as [|j]; [split; [discriminate|intros [j [E _]]; discriminate]|]. rewrite word_at_true.
    split; [intros H; exists j; auto|intros [j' [E H]]; injection E as ->; auto]. }
  rewrite <- B, <- word_at_true.
  destruct (match i with 0 => false | S j => word_at s j end), (word_at s i); simpl; intuition congruence.
Qed.
Lemma at_ok_true s a i : at_ok s a i = true <-> position_ok s a i.
Proof.
  destruct a; cbn [at_ok position_ok].
  - apply Nat.eqb_eq.
  - rewrite orb_true_iff, andb_true_iff, !Nat.eqb_eq. destruct (get i s) as [c|].
    + rewrite Ascii.eqb_eq. intuition congruence.
    + intuition congruence.
  - apply Nat.eqb_eq.
  - apply at_boundary_true.
  - rewrite negb_true_iff. destruct (at_boundary s i) eqn:E.
    + apply at_boundary_true in E. intuition congruence.
    + split; auto. intros _ H. apply at_boundary_true in H. congruence.
Qed.

(** Matches end inside of the text. *)
Definition inside (s : string) (m : nat -> caps -> list (nat * caps)) : Prop :=
  forall i c j, i <= String.length s -> In j (map fst (m i c)) -> i <= j <= String.length s.
Lemma in_flat {A B} (f : A -> list (nat * B)) l j :
  In j (map fst (flat_map f l)) <-> exists x, In x l /\ In j (map fst (f x)).
Proof.
  rewrite in_map_iff. split.
  - intros [y [E H]]. apply in_flat_map in H. destruct H as [x [Hx Hy]]. exists x. split; auto. apply in_map_iff. exists y; auto.
  - intros [x [Hx H]]. apply in_map_iff in H. destruct H as [y [E H]]. exists y. split; auto. apply in_flat_map. exists x; auto.
Qed.
Lemma in_loop m g n i c j : In j (map fst (loop m g (S n) i c)) <->
  j = i \/ exists x, In x (m i c) /\ fst x <> i /\ In j (map fst (loop m g n (fst x) (snd x))).
Proof.
  cbn [loop]. set (more := flat_map _ _).
  assert (E : In j (map fst more) <-> exists x, In x (m i c) /\ fst x <> i /\ In j (map fst (loop m g n (fst x) (snd x)))).
  { unfold more. rewrite in_flat. split; intros [x [Hx H]]; exists x; (split; [exact Hx|]).
    - destruct (fst x =? i) eqn:Q; [contradiction|]. apply Nat.eqb_neq in Q. auto.
    - destruct H as [N H]. apply Nat.eqb_neq in N. rewrite N. exact H. }
  rewrite <- E. destruct g.
  - rewrite map_app, in_app_iff. simpl. intuition congruence.
  - simpl. intuition congruence.
Qed.
Lemma loop_inside s m g : inside s m -> forall n, inside s (loop m g n).
Proof.
  intros I. induction n as [|n IH]; intros i c j Hi H.
  - simpl in H. destruct H as [<-|[]]. lia.
  - apply in_loop in H. destruct H as [->|[x [Hx [_ H]]]]; [lia|].
    assert (J : i <= fst x <= String.length s) by (apply (I i c); auto; apply in_map; auto).
    apply IH in H; lia.
Qed.
Lemma matches_inside s r : inside s (matches s r).
Proof.
  induction r as [|a| |neg l|a|a IHa b IHb|a IHa b IHb|g a IHa|g a IHa|g a IHa|n name a IHa|p a IHa|n]; intros i c j Hi H; cbn [matches] in H.
  - simpl in H. intuition lia.
  - destruct (get i s) as [b|] eqn:E; [|contradiction]. apply get_lt in E. destruct (Ascii.eqb a b); simpl in H; intuition lia.
  - destruct (get i s) as [b|] eqn:E; [|contradiction]. apply get_lt in E. destruct (Ascii.eqb b newline); simpl in H; intuition lia.
  - destruct (get i s) as [b|] eqn:E; [|contradiction]. apply get_lt in E. destruct (xorb _ _); simpl in H; intuition lia.
  - destruct (at_ok s a i); simpl in H; intuition lia.
  - apply in_flat in H. destruct H as [x [Hx H]].
    assert (J : i <= fst x <= String.length s) by (apply (IHa i c); auto; apply in_map; auto).
    apply IHb in H; lia.
  - rewrite map_app, in_app_iff in H. destruct H as [H|H]; [apply IHa in H|apply IHb in H]; lia.
  - destruct g; [rewrite map_app, in_app_iff in H|]; simpl in H.
    + destruct H as [H|[<-|[]]]; [apply IHa in H|]; lia.
    + destruct H as [<-|H]; [|apply IHa in H]; lia.
  - apply (loop_inside s _ g IHa) in H; lia.
  - apply in_flat in H. destruct H as [x [Hx H]].
    assert (J : i <= fst x <= String.length s) by (apply (IHa i c); auto; apply in_map; auto).
    apply (loop_inside s _ g IHa) in H; lia.
  - rewrite map_map in H. cbn [fst] in H. apply (IHa i c); auto.
  - destruct (matches s a i c) as [|x l]; destruct p; simpl in H; intuition lia.
  - destruct (captured n c) as [[b e]|]; [|contradiction]. destruct (_ && _) eqn:E; [|contradiction].
    apply andb_true_iff in E. destruct E as [_ E]. apply Nat.leb_le in E. simpl in H. intuition lia.
Qed.

(** The loop is the reflexive and transitive closure. *)
Lemma loop_closure s m g (R : nat -> nat -> Prop) : inside s m ->
  (forall i c j, i <= String.length s -> (In j (map fst (m i c)) <-> R i j)) ->
  forall n i c j, String.length s - i <= n -> i <= String.length s ->
  (In j (map fst (loop m g n i c)) <-> clos_refl_trans_1n nat R i j).
Proof.
  intros I HR. induction n as [|n IH]; intros i c j Hn Hi.
  - assert (Ei : i = String.length s) by lia. simpl. split.
    + intros [<-|[]]. constructor.
    + intros C. left. induction C as [x|x y z Hxy C IHC]; auto.
      assert (J : x <= y <= String.length s). { apply (I x c); [lia|]. apply HR; [lia|exact Hxy]. }
      assert (y = x) by lia. subst y. apply IHC; auto.
  - rewrite in_loop. split.
    + intros [->|[x [Hx [N H]]]]; [constructor|].
      assert (J : i <= fst x <= String.length s) by (apply (I i c); auto; apply in_map; auto).
      apply IH in H; [|lia|lia]. eapply Relation_Operators.rt1n_trans; [|exact H]. apply (HR i c); auto. apply in_map; auto.
    + intros C. revert Hn Hi. induction C as [x|x y z Hxy C IHC]; intros Hn Hi; [left; reflexivity|].
      assert (J : x <= y <= String.length s). { apply (I x c); [lia|]. apply HR; [lia|exact Hxy]. }
      destruct (Nat.eq_dec y x) as [->|N]; [apply IHC; auto|].
      right. apply (HR x c y Hi) in Hxy. apply in_map_iff in Hxy. destruct Hxy as [w [Ew Hw]]. exists w.
      split; [exact Hw|]. split; [congruence|]. rewrite Ew. apply IH; [lia|lia|exact C].
Qed.

Lemma matches_spec s : forall r i c j, no_refs r = true -> i <= String.length s ->
  (In j (map fst (matches s r i c)) <-> Match s r i j).
Proof.
  induction r as [|a| |neg l|a|a IHa b IHb|a IHa b IHb|g a IHa|g a IHa|g a IHa|n name a IHa|p a IHa|n]; intros i c j N Hi; cbn [matches Match]; cbn [no_refs] in N.
  - simpl. intuition congruence.
  - destruct (get i s) as [b|] eqn:E.
    + destruct (Ascii.eqb_spec a b) as [->|Q]; simpl; intuition congruence.
    + simpl. intuition congruence.
  - destruct (get i s) as [b|] eqn:E.
    + destruct (Ascii.eqb_spec b newline) as [->|Q]; simpl.
      * split; [tauto|]. intros [_ [b [E' H]]]. congruence.
      * split; [intros [<-|[]]; split; auto; exists b; auto|intros [-> _]; auto].
    + simpl. split; [tauto|]. intros [_ [b [E' H]]]. congruence.
  - destruct (get i s) as [b|] eqn:E.
    + assert (D := in_items b l). destruct (existsb (in_item b) l).
      * assert (X : exists x, In x l /\ item_has b x) by (apply D; auto). destruct neg; simpl.
        -- split; [tauto|]. intros [_ [b' [E' H]]]. injection E' as ->. contradiction.
        -- split; [intros [<-|[]]; split; auto; exists b; auto|intros [-> _]; auto].
      * assert (X : ~ exists x, In x l /\ item_has b x) by (intros X; apply D in X; discriminate). destruct neg; simpl.
        -- split; [intros [<-|[]]; split; auto; exists b; auto|intros [-> _]; auto].
        -- split; [tauto|]. intros [_ [b' [E' H]]]. injection E' as ->. contradiction.
    + simpl. split; [tauto|]. intros [_ [b [E' H]]]. congruence.
  - rewrite <- at_ok_true. destruct (at_ok s a i); simpl; intuition congruence.
  - apply andb_true_iff in N. destruct N as [Na Nb]. rewrite in_flat. split.
    + intros [x [Hx H]]. assert (J : i <= fst x <= String.length s) by (apply (matches_inside s a i c); auto; apply in_map; auto).
      exists (fst x). split; [apply (IHa i c); auto; apply in_map; auto|]. apply (IHb _ (snd x)); auto. lia.
    + intros [k [Ha Hb]]. apply (IHa i c k Na Hi) in Ha.
      assert (J := matches_inside s a i c k Hi Ha).
      apply in_map_iff in Ha. destruct Ha as [x [<- Hx]]. exists x. split; auto. apply IHb; auto. lia.
  - apply andb_true_iff in N. destruct N as [Na Nb]. rewrite map_app, in_app_iff, IHa, IHb by auto. reflexivity.
  - destruct g.
    + rewrite map_app, in_app_iff, IHa by auto. simpl. intuition congruence.
    + simpl. rewrite IHa by auto. intuition congruence.
  - apply (loop_closure s); auto. apply matches_inside.
  - rewrite in_flat. split.
    + intros [x [Hx H]]. assert (J : i <= fst x <= String.length s) by (apply (matches_inside s a i c); auto; apply in_map; auto).
      exists (fst x). split; [apply (IHa i c); auto; apply in_map; auto|].
      apply (loop_closure s (matches s a) g (Match s a)) in H; auto. apply matches_inside. lia.
    + intros [k [Ha Hb]]. apply (IHa i c k N Hi) in Ha.
      assert (J := matches_inside s a i c k Hi Ha).
      apply in_map_iff in Ha. destruct Ha as [x [<- Hx]]. exists x. split; auto.
      apply (loop_closure s (matches s a) g (Match s a)); auto. apply matches_inside. lia.
  - rewrite map_map. cbn [fst]. apply IHa; auto.
  - assert (X : (exists k, Match s a i k) <-> matches s a i c <> []).
    { split.
      - intros [k H]. apply (IHa i c k N Hi) in H. intros E. rewrite E in H. contradiction.
      - intros H. destruct (matches s a i c) as [|x l] eqn:E; [congruence|]. exists (fst x). apply (IHa i c (fst x) N Hi). rewrite E. left. reflexivity. }
    destruct p; rewrite X; destruct (matches s a i c) as [|x l]; simpl; intuition congruence.
  - discriminate.
Qed.

Lemma search_some r s : search r s = true <-> exists i, i <= String.length s /\ matches s r i [] <> [].
Proof.
  unfold search. rewrite existsb_exists. split.
  - intros [i [Hin H]]. apply in_seq in Hin. exists i. split; [lia|]. destruct (matches s r i []); congruence.
  - intros [i [Hi H]]. exists i. split; [apply in_seq; lia|]. destruct (matches s r i []); congruence.
Qed.
Lemma search_found r s : no_refs r = true -> (search r s = true <-> Found r s).
Proof.
  intros N. rewrite search_some. unfold Found. split.
  - intros [i [Hi H]]. destruct (matches s r i []) as [|x l] eqn:E; [congruence|].
    exists i, (fst x). split; auto. apply (matches_spec s r i [] (fst x)); auto. rewrite E. left; reflexivity.
  - intros [i [j [Hi H]]]. exists i. split; auto. apply (matches_spec s r i [] j) in H; auto. intros E. rewrite E in H. contradiction.
Qed.

(** Renumbering groups does not change what is found. *)
Fixpoint shift (k : nat) (r : re) : re :=
  match r with
  | Cat a b => Cat (shift k a) (shift k b)
  | Alt a b => Alt (shift k a) (shift k b)
  | Opt g a => Opt g (shift k a)
  | Star g a => Star g (shift k a)
  | Plus g a => Plus g (shift k a)
  | Grp n name a => Grp (n + k) name (shift k a)
  | Look p a => Look p (shift k a)
  | Ref n => Ref (n + k)
  | x => x
  end.
Lemma shift_0 r : shift 0 r = r.
Proof. induction r; simpl; congruence || (rewrite ?Nat.add_0_r; congruence). Qed.
Lemma shift_no_refs k r : no_refs (shift k r) = no_refs r.
Proof. induction r; simpl; congruence. Qed.
Lemma clos_ext (R R' : nat -> nat -> Prop) : (forall i j, R i j <-> R' i j) -> forall i j, clos_refl_trans_1n nat R i j <-> clos_refl_trans_1n nat R' i j.
Proof.
  intros H i j. split; intros C; induction C; try constructor; econstructor; eauto; apply H; auto.
Qed.
Lemma shift_match k s : forall r i j, no_refs r = true -> (Match s (shift k r) i j <-> Match s r i j).
Proof.
  induction r as [|a| |neg l|a|a IHa b IHb|a IHa b IHb|g a IHa|g a IHa|g a IHa|n name a IHa|p a IHa|n]; intros i j N;
    cbn [shift Match]; cbn [no_refs] in N; try reflexivity; try discriminate.
  - apply andb_true_iff in N. destruct N as [Na Nb]. split; intros [x [Ha Hb]]; exists x; rewrite ?IHa, ?IHb in *; auto.
  - apply andb_true_iff in N. destruct N as [Na Nb]. rewrite IHa, IHb by auto. reflexivity.
  - rewrite IHa by auto. reflexivity.
  - apply clos_ext. intros; apply IHa; auto.
  - assert (C := clos_ext _ _ (fun i j => IHa i j N)).
    split; intros [x [Ha Hb]]; exists x; (split; [apply IHa; auto|apply C; auto]).
  - apply IHa; auto.
  - assert (X : (exists x, Match s (shift k a) i x) <-> (exists x, Match s a i x)) by (split; intros [x Hx]; exists x; apply IHa; auto).
    destruct p; rewrite X; reflexivity.
Qed.
Lemma shift_search k r s : no_refs r = true -> search (shift k r) s = search r s.
Proof.
  intros N. apply eq_true_iff_eq. rewrite !search_found by (rewrite ?shift_no_refs; auto). unfold Found.
  split; intros [i [j [Hi H]]]; exists i, j; (split; [exact Hi|]).
  - apply (shift_match k s r i j N). exact H.
  - apply (shift_match k s r i j N). exact H.
Qed.
