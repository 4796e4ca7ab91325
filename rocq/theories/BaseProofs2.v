(** Decimal numbers, unique parsing of checkpoint names; C23. *)
From Coq Require Import DecimalN DecimalFacts Ascii String List Arith NArith Bool Lia Sorted Permutation.
From Verif Require Import BaseModel BaseSpec BaseProofs.
Import ListNotations.
Local Open Scope list_scope.
Local Open Scope N_scope.

Definition dig (c : N) : Prop := 48 <= c <= 57.

Lemma chars_digits u : Forall dig (chars_of_uint u).
Proof. unfold dig. induction u; simpl; constructor; auto; lia. Qed.

Lemma int_acc_pos u : forall acc, fold_left (fun n c => 10 * n + (c - 48)) (chars_of_uint u) (Npos acc) = Npos (Pos.of_uint_acc u acc).
Proof.
  induction u; intros acc; cbn [chars_of_uint fold_left Pos.of_uint_acc]; auto;
    rewrite <- IHu; f_equal; lia.
Qed.

Lemma int_of_uint u : int_of (chars_of_uint u) = N.of_uint u.
Proof.
  unfold int_of, N.of_uint. induction u; cbn [chars_of_uint fold_left Pos.of_uint]; auto;
    try (rewrite <- int_acc_pos; f_equal; lia).
Qed.

Lemma chars_nzhead u : exists k, chars_of_uint u = (repeat 48 k ++ chars_of_uint (Decimal.nzhead u))%list.
Proof.
  induction u; try (exists 0%nat; reflexivity). destruct IHu as [k E]. exists (S k). cbn. f_equal. exact E.
Qed.

Lemma digits_uint d : Forall dig d -> exists u, d = chars_of_uint u.
Proof.
  induction 1 as [|c d Hc F [u ->]]. { exists Decimal.Nil; auto. }
  unfold dig in Hc.
  assert (c = 48 \/ c = 49 \/ c = 50 \/ c = 51 \/ c = 52 \/ c = 53 \/ c = 54 \/ c = 55 \/ c = 56 \/ c = 57) as E by lia.
  repeat destruct E as [->|E]; try subst c;
  [exists (Decimal.D0 u)|exists (Decimal.D1 u)|exists (Decimal.D2 u)|exists (Decimal.D3 u)|exists (Decimal.D4 u)
  |exists (Decimal.D5 u)|exists (Decimal.D6 u)|exists (Decimal.D7 u)|exists (Decimal.D8 u)|exists (Decimal.D9 u)]; reflexivity.
Qed.

Lemma unorm_nonnil u : chars_of_uint (Decimal.unorm u) <> [].
Proof. unfold Decimal.unorm. destruct (Decimal.nzhead u); discriminate. Qed.

Lemma str_of_N_digits n : digits (str_of_N n).
Proof.
  split; [|apply chars_digits]. unfold str_of_N. rewrite <- (Unsigned.of_to n), Unsigned.to_of. apply unorm_nonnil.
Qed.

Lemma int_of_zeros k d : int_of (repeat 48 k ++ d) = int_of d.
Proof. unfold int_of. induction k; simpl; auto. Qed.

Lemma int_of_str k n : int_of (repeat 48 k ++ str_of_N n) = n.
Proof. rewrite int_of_zeros. unfold str_of_N. rewrite int_of_uint. apply Unsigned.of_to. Qed.

Lemma digits_form d : digits d -> exists k, d = (repeat 48 k ++ str_of_N (int_of d))%list.
Proof.
  intros [N F]. destruct (digits_uint d F) as [u ->]. rewrite int_of_uint. unfold str_of_N.
  rewrite Unsigned.to_of. destruct (chars_nzhead u) as [k E]. unfold Decimal.unorm.
  destruct (Decimal.nzhead u) eqn:Z; eauto. simpl in E. rewrite app_nil_r in E. rewrite E in *.
  destruct k; [contradiction|]. exists k. cbn. clear. induction k; simpl; auto. f_equal; auto.
Qed.

Lemma zeros_digits k d : digits d -> digits (repeat 48 k ++ d)%list.
Proof.
  intros [N F]. split.
  - intros E. apply app_eq_nil in E. tauto.
  - apply Forall_app. split; auto. apply Forall_forall. intros x I. apply repeat_spec in I. subst. lia.
Qed.

Lemma pad5_digits n : digits (pad5 n).
Proof. unfold pad5. apply zeros_digits. apply str_of_N_digits. Qed.
Lemma pad5_inj n m : pad5 n = pad5 m -> n = m.
Proof. unfold pad5. intros E. apply (f_equal int_of) in E. rewrite !int_of_str in E. auto. Qed.

(** ** Maximal runs *)
Definition stops (P : N -> Prop) (s : pystr) : Prop := match s with [] => True | c :: _ => ~ P c end.

Lemma run_unique (P : N -> Prop) (x y s t : pystr) : Forall P x -> Forall P y -> stops P s -> stops P t ->
  (x ++ s)%list = (y ++ t)%list -> x = y /\ s = t.
Proof.
  intros F. revert y. induction F as [|c x Hc F IH]; intros y Fy Ss St E; simpl in E.
  - destruct y as [|d y]; auto. simpl in E. subst s. inversion Fy; subst. contradiction.
  - destruct y as [|d y]; simpl in E.
    + subst t. contradiction.
    + injection E as <- E. inversion Fy; subst. destruct (IH y) as [-> ->]; auto.
Qed.

Lemma cons_app {A} (x : A) l : x :: l = ([x] ++ l)%list.
Proof. auto. Qed.

Lemma digits_F d : digits d -> Forall dig d.
Proof. intros [_ F]; exact F. Qed.

(** The shard suffix is determined by the string. *)
Definition shardx (a b : pystr) : pystr := (s_ "-" ++ a ++ s_ "-of-" ++ b)%list.
Lemma shardx_unique u v a b c d : digits a -> digits b -> digits c -> digits d ->
  (u ++ shardx a b)%list = (v ++ shardx c d)%list -> u = v /\ a = c /\ b = d.
Proof.
  intros Da Db Dc Dd E. apply (f_equal (@rev N)) in E. unfold shardx in E.
  rewrite !rev_app_distr in E. cbn [s_ map list_ascii_of_string rev app] in E.
  rewrite <- !app_assoc in E. cbn [app] in E.
  assert (R : forall x, digits x -> Forall dig (rev x)) by (intros x X; apply Forall_rev; apply digits_F; auto).
  apply (run_unique dig) in E; auto; try (simpl; unfold dig; cbn; lia).
  destruct E as [E1 E2]. injection E2 as E2.
  apply (run_unique dig) in E2; auto; try (simpl; unfold dig; cbn; lia).
  destruct E2 as [E2 E3]. injection E3 as E3.
  apply (f_equal (@rev N)) in E1, E2, E3. rewrite !rev_involutive in *. auto.
Qed.

(** Characters that can occur in the groups. *)
Lemma in_digits c d : digits d -> In c d -> 48 <= c <= 57.
Proof. intros [_ F] I. rewrite Forall_forall in F. apply F; auto. Qed.
Lemma in_letters c d : letters d -> In c d -> 97 <= c <= 122 \/ 65 <= c <= 90.
Proof. intros [_ F] I. rewrite Forall_forall in F. apply F; auto. Qed.

Lemma in_g2 o c : g2_ok o -> In c (or_empty o) -> c = 95 \/ 48 <= c <= 57.
Proof.
  destruct o as [x|]; simpl; [|contradiction]. intros [d [D ->]] I. destruct I as [<-|I]; [left; reflexivity|].
  right. eapply in_digits; eauto.
Qed.
Lemma in_g3 o c : g3_ok o -> In c (or_empty o) -> c = 46 \/ 97 <= c <= 122 \/ 65 <= c <= 90.
Proof.
  destruct o as [x|]; simpl; [|contradiction]. intros [d [D ->]] I. destruct I as [<-|I]; [left; reflexivity|].
  right. eapply in_letters; eauto.
Qed.
Lemma in_shardx a b c : digits a -> digits b -> In c (shardx a b) -> c = 45 \/ c = 111 \/ c = 102 \/ 48 <= c <= 57.
Proof.
  intros Da Db. unfold shardx. rewrite !in_app_iff. cbn.
  intros [[<-|[]]|[I|[[<-|[<-|[<-|[<-|[]]]]]|I]]]; auto;
    right; right; right; first [exact (in_digits _ _ Da I) | exact (in_digits _ _ Db I)].
Qed.
Lemma in_g4 o c : g4_ok o -> In c (or_empty o) -> c = 45 \/ c = 111 \/ c = 102 \/ 48 <= c <= 57.
Proof. destruct o as [x|]; simpl; [|contradiction]. intros [a [b [Da [Db ->]]]]. apply in_shardx; auto. Qed.

Lemma app_prefix {A} (a b c d : list A) : (a ++ b)%list = (c ++ d)%list -> (length a <= length c)%nat ->
  exists m, c = (a ++ m)%list /\ b = (m ++ d)%list.
Proof.
  revert c. induction a as [|x a IH]; intros c E L; simpl in *. { exists c; auto. }
  destruct c as [|y c]; simpl in *; [lia|]. injection E as <- E. destruct (IH c E) as [m [-> ->]]; [lia|]. exists m; auto.
Qed.

(** C23 *)
Lemma groups b o2 o3 o4 : group 1 (capsof b o2 o3 o4) = Some b /\ group 2 (capsof b o2 o3 o4) = o2 /\
  group 3 (capsof b o2 o3 o4) = o3 /\ group 4 (capsof b o2 o3 o4) = o4.
Proof. destruct o2, o3, o4; cbn; auto. Qed.

Lemma no_newline_iff s : no_newline s <-> ~ In 10 s.
Proof.
  unfold no_newline. rewrite forallb_forall. split.
  - intros H I. specialize (H _ I). discriminate.
  - intros H x I. unfold is_any, c_newline. destruct (N.eqb_spec x 10); auto. subst. contradiction.
Qed.

Lemma remove_shard_shardx path a b : ~ In 10 path -> digits a -> digits b ->
  remove_shard_suffix (path ++ shardx a b) = path.
Proof.
  intros NL Da Db.
  assert (NL' : no_newline (path ++ shardx a b)).
  { apply no_newline_iff. rewrite in_app_iff. intros [I|I]; auto. apply in_shardx in I; auto. lia. }
  unfold remove_shard_suffix. destruct (match_dollar_some _ NL') as [g [o2 [o3 [o4 [-> [D M]]]]]].
  destruct (groups g o2 o3 o4) as [-> [-> [-> _]]]. cbn [or_empty].
  assert (L : (length g <= length path)%nat).
  { apply (M path None None (Some (shardx a b))). unfold decomp. cbn [or_empty app]. rewrite app_nil_r.
    split; [apply no_newline_iff; auto|]. split; [exact I|]. split; [exact I|]. split; auto. exists a, b. auto. }
  destruct D as [_ [G2 [G3 [G4 E]]]]. rewrite app_nil_r in E.
  symmetry in E. destruct (app_prefix _ _ _ _ E L) as [m [-> E']].
  f_equal. rewrite app_nil_r. destruct o4 as [x|]; cbn [or_empty] in E'.
  - destruct G4 as [c [d [Dc [Dd ->]]]]. rewrite app_assoc in E'. symmetry in E'.
    apply shardx_unique in E'; auto. destruct E' as [-> _]. auto.
  - exfalso. assert (I : In 45 (m ++ shardx a b)) by (apply in_app_iff; right; left; auto).
    rewrite <- E' in I. rewrite app_nil_r in I. apply in_app_iff in I. destruct I as [I|I].
    + apply in_g2 in I; auto. lia.
    + apply in_g3 in I; auto. lia.
Qed.

Lemma remove_add path i n : ~ In 10 path -> remove_shard_suffix (add_shard_suffix path i n) = path.
Proof. intros NL. apply (remove_shard_shardx path (pad5 i) (pad5 n)); auto using pad5_digits. Qed.

Lemma add_inj path path' i n i' n' : add_shard_suffix path i n = add_shard_suffix path' i' n' ->
  path = path' /\ i = i' /\ n = n'.
Proof.
  intros E. apply (shardx_unique path path' (pad5 i) (pad5 n) (pad5 i') (pad5 n')) in E; auto using pad5_digits.
  destruct E as [-> [E1 E2]]. apply pad5_inj in E1, E2. auto.
Qed.

(** Without a shard suffix nothing is removed. *)
Lemma remove_none path : ~ In 10 path ->
  (forall p a b, digits a -> digits b -> path <> (p ++ shardx a b)%list) -> remove_shard_suffix path = path.
Proof.
  intros NL H. apply no_newline_iff in NL. unfold remove_shard_suffix.
  destruct (match_dollar_some _ NL) as [g [o2 [o3 [o4 [-> [D M]]]]]].
  destruct (groups g o2 o3 o4) as [-> [-> [-> _]]]. destruct D as [_ [G2 [G3 [G4 E]]]].
  destruct o4 as [x|].
  - exfalso. destruct G4 as [a [b [Da [Db ->]]]]. apply (H (g ++ or_empty o2 ++ or_empty o3)%list a b); auto.
    rewrite E. cbn [or_empty]. rewrite <- !app_assoc, app_nil_r. reflexivity.
  - cbn [or_empty] in *. symmetry. rewrite E at 1. reflexivity.
Qed.

(** ** Parsing of names with a step *)
Lemma suffix_stops o sh : suffix_ok o -> shard_ok sh -> stops dig (suffix_text o ++ sh).
Proof.
  intros So Sh. destruct o as [x|]; simpl.
  - destruct So as [l [_ ->]]. simpl. unfold dig. lia.
  - destruct Sh as [->|[a [b [_ [_ ->]]]]]; simpl; unfold dig; auto. lia.
Qed.

Lemma g4_shard o : g4_ok o -> shard_ok (or_empty o).
Proof. destruct o as [x|]; simpl; [|left; auto]. intros H. right. exact H. Qed.

Lemma suffix_shard_unique o sh o' sh' : suffix_ok o -> shard_ok sh -> suffix_ok o' -> shard_ok sh' ->
  (suffix_text o ++ sh)%list = (suffix_text o' ++ sh')%list -> o = o' /\ sh = sh'.
Proof.
  assert (St : forall sh, shard_ok sh -> stops (fun c => is_letter c = true) sh).
  { intros x [->|[a [b [_ [_ ->]]]]]; simpl; auto; discriminate. }
  assert (NoDot : forall sh l, shard_ok sh -> sh <> 46 :: l).
  { intros x l [->|[a [b [_ [_ ->]]]]]; discriminate. }
  assert (LF : forall l, letters l -> Forall (fun c => is_letter c = true) l).
  { intros l [_ F]. rewrite Forall_forall in *. intros c I. apply is_letter_spec. auto. }
  intros So Sh So' Sh' E. destruct o as [x|], o' as [y|]; simpl in *.
  - destruct So as [l [L ->]], So' as [l' [L' ->]]. injection E as E.
    apply (run_unique (fun c => is_letter c = true)) in E; auto. destruct E as [-> ->]. auto.
  - destruct So as [l [L ->]]. simpl in E. symmetry in E. exfalso. apply (NoDot sh' _ Sh' E).
  - destruct So' as [l [L ->]]. simpl in E. exfalso. apply (NoDot sh _ Sh E).
  - auto.
Qed.

Lemma parse_spec name n o : ~ In 10 name ->
  (parse_step_and_suffix name = Ok (n, o) <-> has_step name n o).
Proof.
  intros NL0. pose proof (proj2 (no_newline_iff name) NL0) as NL. unfold parse_step_and_suffix.
  destruct (fullmatch CHECKPOINT_REGEX name) as [c|] eqn:E; [|apply fullmatch_none in NL; contradiction].
  apply fullmatch_some in E. destruct E as [b [o2 [o3 [o4 [-> [D M]]]]]].
  destruct (groups b o2 o3 o4) as [_ [-> [-> _]]].
  pose proof D as [_ [G2 [G3 [G4 E]]]]. rewrite app_nil_r in E.
  split.
  - destruct o2 as [g|]; [|discriminate]. intros [= <- <-]. destruct G2 as [d [Dd ->]]. simpl tl.
    destruct (digits_form d Dd) as [k Ek]. exists b, k, (or_empty o4). split; auto. split; [apply g4_shard; auto|].
    rewrite E. cbn [or_empty]. rewrite app_assoc with (l := repeat 48 k). rewrite <- Ek. rewrite <- !app_assoc. reflexivity.
  - intros [base [k [sh [So [Sh En]]]]]. set (ds := (repeat 48 k ++ str_of_N n)%list).
    assert (Dds : digits ds) by (apply zeros_digits, str_of_N_digits).
    assert (En' : name = (base ++ [95] ++ ds ++ suffix_text o ++ sh)%list).
    { rewrite En. unfold ds. rewrite <- !app_assoc. reflexivity. }
    assert (L : (length b <= length base)%nat).
    { assert (exists q, g4_ok q /\ or_empty q = sh) as [q [Gq <-]].
      { destruct Sh as [->|H]; [exists None|exists (Some sh)]; simpl; auto. }
      apply (M base (Some ([95] ++ ds)%list) o q). unfold decomp. cbn [or_empty]. rewrite app_nil_r. split.
      { apply no_newline_iff. intros I. apply NL0. rewrite En'. apply in_app_iff; auto. }
      split; [exists ds; auto|]. split; auto. }
    rewrite E in En'. destruct (app_prefix _ _ _ _ En' L) as [m [-> E']].
    assert (NoU : ~ In 95 (or_empty o3 ++ or_empty o4)).
    { intros I. apply in_app_iff in I. destruct I as [I|I]; [apply in_g3 in I; auto|apply in_g4 in I; auto]; lia. }
    destruct o2 as [g|].
    2:{ exfalso. apply NoU. cbn [or_empty app] in E'. rewrite E'. apply in_app_iff. right. left. auto. }
    destruct G2 as [d [Dd ->]]. cbn [or_empty] in E'. change (s_ "_") with [95] in E'.
    destruct m as [|c m].
    2:{ exfalso. cbn [app] in E'. injection E' as <- E'.
        assert (I : In 95 (d ++ or_empty o3 ++ or_empty o4)). { rewrite E'. apply in_app_iff. right. left. auto. }
        apply in_app_iff in I. destruct I as [I|I]; auto. apply (in_digits _ _ Dd) in I. lia. }
    cbn [app] in E'. injection E' as E'.
    assert (T3 : or_empty o3 = suffix_text o3) by (destruct o3; auto). rewrite T3 in E'.
    apply (run_unique dig) in E'; auto using digits_F.
    2:{ apply suffix_stops; auto using g4_shard. }
    2:{ apply suffix_stops; auto. }
    destruct E' as [-> E']. apply suffix_shard_unique in E'; auto using g4_shard. destruct E' as [-> _].
    simpl tl. unfold ds. rewrite int_of_str. auto.
Qed.

Lemma parse_cases name : ~ In 10 name ->
  (exists n o, parse_step_and_suffix name = Ok (n, o) /\ has_step name n o) \/
  (parse_step_and_suffix name = Raise ValueError /\ forall n o, ~ has_step name n o).
Proof.
  intros NL. destruct (parse_step_and_suffix name) as [[n o]|e] eqn:E.
  - left. exists n, o. split; auto. apply parse_spec; auto.
  - right. assert (e = ValueError) as ->.
    { unfold parse_step_and_suffix in E. destruct (fullmatch CHECKPOINT_REGEX name) eqn:F.
      - destruct (group 2 c); congruence.
      - exfalso. apply (fullmatch_none name); auto. apply no_newline_iff; auto. }
    split; auto. intros n o H. apply parse_spec in H; auto. congruence.
Qed.

Lemma has_step_unique name n o n' o' : ~ In 10 name -> has_step name n o -> has_step name n' o' -> n = n' /\ o = o'.
Proof. intros NL H H'. apply parse_spec in H, H'; auto. rewrite H in H'. injection H'; auto. Qed.
