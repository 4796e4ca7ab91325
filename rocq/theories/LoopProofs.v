(** Proofs for C36. *)
From Coq Require Import List Arith Bool Lia.
From Verif Require Import LoopModel LoopSpec.
Import ListNotations.

Section Loop.
Variable batch T : Type.
Variable step_fn : nat -> T -> batch -> T.
Variable initial : tstate T.
Variable bs total : nat.
Variable get_iterator : option nat -> iterator batch.
Hypothesis init0 : t_step initial = 0.

(** The batches that may be used for the step after [k] steps *)
Variable feeds : nat -> batch -> Prop.
Definition start_of (lsi : option nat) (i : nat) : Prop := (lsi = None /\ i = 0) \/ lsi = Some (i * bs).
Hypothesis F1 : forall lsi i j b, start_of lsi i -> get_iterator lsi j = Some b -> i + j < total -> feeds (i + j) b.
Hypothesis F2 : forall lsi i j, start_of lsi i -> i + j < total -> get_iterator lsi j <> None.

Notation train_step := (train_step batch T step_fn).
Notation step := (step batch T step_fn initial bs total get_iterator).
Notation steps := (steps batch T step_fn initial bs total get_iterator).

Inductive good : nat -> tstate T -> Prop :=
| good_0 : good 0 initial
| good_S k s b : good k s -> feeds k b -> good (S k) (train_step s b).
Lemma good_step k s : good k s -> t_step s = k.
Proof using init0. induction 1; simpl; auto. Qed.

Definition seen (l : list (nat * tstate T)) (k : nat) : Prop := forall n, 1 <= n <= k -> In n (map fst l).
Definition fine (l : list (nat * tstate T)) (kc : nat * ckpt T) : Prop :=
  good (fst kc) (fst (snd kc)) /\ snd (snd kc) = fst kc * bs /\ fst kc <= total /\ seen l (fst kc).
Definition proc_ok (s : sys batch T) : Prop :=
  match p s with
  | Down => pending s = None
  | Loop n ts it k =>
      n = S (from s + k) /\ n <= S total /\ good (n - 1) ts /\ ran s = seq (S (from s)) k /\ seen (log s) (n - 1) /\
      exists lsi, start_of lsi (from s) /\ it = get_iterator lsi
  | After ts => good total ts /\ ran s = seq (S (from s)) (total - from s) /\ from s <= total /\ seen (log s) total
  | Last => ran s = seq (S (from s)) (total - from s) /\ from s <= total /\ seen (log s) total /\
            (In total (map fst (disk s)) \/ exists c, pending s = Some (total, c))
  | Done => ran s = seq (S (from s)) (total - from s) /\ from s <= total /\ seen (log s) total /\ In total (map fst (disk s))
  end.
Record inv (s : sys batch T) : Prop := {
  i_disk : Forall (fine (log s)) (disk s);
  i_pend : forall kc, pending s = Some kc -> fine (log s) kc;
  i_log : Forall (fun nt => 1 <= fst nt <= total /\ good (fst nt - 1) (snd nt)) (log s);
  i_proc : proc_ok s }.

Lemma latest_in (d : disk_t T) kc : latest d = Some kc -> In kc d.
Proof using. clear init0 F1 F2.
  revert kc. induction d as [|[k c] d IH]; simpl; [discriminate|]. intros kc. destruct (latest d) as [[k' c']|].
  - destruct (k <=? k'); intros H; injection H as <-; auto.
  - intros H. injection H as <-. auto.
Qed.
Lemma latest_max (d : disk_t T) kc : latest d = Some kc -> forall x, In x d -> fst x <= fst kc.
Proof using. clear init0 F1 F2.
  revert kc. induction d as [|[k c] d IH]; simpl; [discriminate|]. intros kc. destruct (latest d) as [[k' c']|] eqn:E.
  - destruct (Nat.leb_spec k k'); intros H1; injection H1 as <-; intros x [<-|H2]; simpl; auto; apply (IH _ eq_refl) in H2; simpl in *; lia.
  - intros H. injection H as <-. intros x [<-|H2]; auto. destruct d as [|[? ?] d]; [destruct H2|]. simpl in E. destruct (latest d) as [[? ?]|]; [|discriminate]. destruct (_ <=? _); discriminate.
Qed.
Lemma latest_none (d : disk_t T) : latest d = None -> d = [].
Proof using. clear init0 F1 F2. destruct d as [|[k c] d]; auto. simpl. destruct (latest d) as [[? ?]|]; [|discriminate]. destruct (_ <=? _); discriminate. Qed.
Lemma exists_in (d : disk_t T) k : exists_ckpt d k = true <-> In k (map fst d).
Proof using. clear init0 F1 F2.
  unfold exists_ckpt. rewrite existsb_exists, in_map_iff. split.
  - intros (x & H & E). apply Nat.eqb_eq in E. eauto.
  - intros (x & E & H). exists x. split; auto. apply Nat.eqb_eq. auto.
Qed.

Lemma seen_app l x k : seen l k -> seen (l ++ x) k.
Proof using. clear init0 F1 F2. intros H n Hn. rewrite map_app. apply in_or_app. left. auto. Qed.
Lemma seen_le l k k' : seen l k -> k' <= k -> seen l k'.
Proof using. clear init0 F1 F2. intros H L n Hn. apply H. lia. Qed.
Lemma fine_app l x kc : fine l kc -> fine (l ++ x) kc.
Proof using. clear init0 F1 F2. intros (A & B & C & D). repeat split; auto. apply seen_app. auto. Qed.

Lemma boot_ok d l pr sv i : Forall (fine l) d -> boot batch T initial bs get_iterator d = (pr, sv, i) -> 
  exists ts lsi, pr = Loop (S i) ts (get_iterator lsi) 0 /\ good i ts /\ start_of lsi i /\ i <= total /\ seen l i /\
    (forall kc, sv = Some kc -> fine l kc).
Proof using init0.
  intros D. unfold boot, restore_or_create_train_state. destruct (latest d) as [[k [ts lsi]]|] eqn:E.
  - apply latest_in in E. rewrite Forall_forall in D. apply D in E. destruct E as (G & L & K & S). simpl in *.
    rewrite (good_step _ _ G). intros H. injection H as <- <- <-. exists ts, (Some lsi).
    split; [auto|]. split; [auto|]. split; [right; f_equal; auto|]. split; [auto|]. split; [auto|].
    intros kc Hc. destruct (_ && _); [|discriminate]. injection Hc as <-. unfold item. repeat split; auto.
  - rewrite init0. intros H. injection H as <- <- <-. exists initial, None.
    assert (seen l 0) by (intros n Hn; lia).
    split; [auto|]. split; [constructor|]. split; [left; auto|]. split; [lia|]. split; [auto|].
    intros kc Hc. destruct (negb _); [|discriminate]. injection Hc as <-. unfold item. repeat split; auto; simpl; try lia. constructor.
Qed.

Lemma seq_snoc a k : seq a k ++ [a + k] = seq a (S k).
Proof using. clear init0 F1 F2. symmetry. apply seq_S. Qed.

Lemma inv_step s s' : inv s -> step s s' -> inv s'.
Proof using init0 F1 F2.
  intros [ID IP IL IR] H. destruct H as [d f r l pr sv i B|n ts it k b d pe f r l N I|n ts it k b d f r l N I O|n ts it k d pe f r l X|ts d f r l|d f r l|pr d k c f r l|pr d1 d2 kc pe f r l X|pr d pe f r l];
    unfold proc_ok in IR; cbn [p disk pending from ran log] in *.
  - destruct (boot_ok _ _ _ _ _ ID B) as (ts & lsi & -> & G & St & L & Sn & P).
    split; auto. unfold proc_ok. cbn [p disk pending from ran log]. rewrite Nat.sub_succ, Nat.sub_0_r. repeat split; auto; try lia. eauto.
  - destruct IR as (En & Ln & G & R & Sn & lsi & St & Ei).
    assert (Fd : feeds (f + k) b) by (apply F1 with lsi; auto; [rewrite <- Ei; auto|lia]).
    assert (G' : good (f + k) ts) by (replace (f + k) with (n - 1) by lia; auto).
    assert (Sn' : seen (l ++ [(n, ts)]) n). { intros m Hm. rewrite map_app. apply in_or_app. destruct (Nat.eq_dec m n) as [->|]; [right; left; auto|left; apply Sn; lia]. }
    split; cbn [p disk pending from ran log].
    + eapply Forall_impl; [|exact ID]. intros; apply fine_app; auto.
    + intros kc Hc. apply fine_app. auto.
    + apply Forall_app. split; auto. constructor; [simpl; split; [lia|auto]|constructor].
    + unfold proc_ok. cbn [p disk pending from ran log]. replace (S n - 1) with n by lia. repeat split; auto; try lia.
      * subst n. constructor; auto.
      * rewrite R, En. rewrite <- (seq_snoc (S f) k). f_equal.
      * eauto.
  - destruct IR as (En & Ln & G & R & Sn & lsi & St & Ei).
    assert (Fd : feeds (f + k) b) by (apply F1 with lsi; auto; [rewrite <- Ei; auto|lia]).
    assert (G' : good (f + k) ts) by (replace (f + k) with (n - 1) by lia; auto).
    assert (Sn' : seen (l ++ [(n, ts)]) n). { intros m Hm. rewrite map_app. apply in_or_app. destruct (Nat.eq_dec m n) as [->|]; [right; left; auto|left; apply Sn; lia]. }
    assert (G2 : good n (train_step ts b)) by (subst n; constructor; auto).
    split; cbn [p disk pending from ran log].
    + eapply Forall_impl; [|exact ID]. intros; apply fine_app; auto.
    + intros kc Hc. injection Hc as <-. unfold item. repeat split; auto.
    + apply Forall_app. split; auto. constructor; [simpl; split; [lia|auto]|constructor].
    + unfold proc_ok. cbn [p disk pending from ran log]. replace (S n - 1) with n by lia. repeat split; auto; try lia.
      * rewrite R, En. rewrite <- (seq_snoc (S f) k). f_equal.
      * eauto.
  - destruct IR as (En & Ln & G & R & Sn & lsi & St & Ei).
    assert (E : n = S total).
    { destruct X as [X|X]; [lia|]. destruct (Nat.eq_dec n (S total)); auto. exfalso. subst it. eapply F2; [exact St| |exact X]. lia. }
    split; auto. unfold proc_ok. cbn [p disk pending from ran log].
    replace (n - 1) with total in * by lia. repeat split; auto; try lia. rewrite R. f_equal. lia.
  - destruct IR as (G & R & L & Sn). destruct (exists_ckpt d total) eqn:E.
    + split; auto. unfold proc_ok. cbn [p disk pending from ran log]. repeat split; auto. apply exists_in. auto.
    + split; auto; cbn [p disk pending from ran log].
      * intros kc Hc. injection Hc as <-. unfold item. repeat split; auto.
      * unfold proc_ok. cbn [p disk pending from ran log]. repeat split; auto. right. eexists. reflexivity.
  - destruct IR as (R & L & Sn & [In|[c X]]); [|discriminate]. split; auto. unfold proc_ok. cbn [p disk pending from ran log]. auto.
  - split; auto; cbn [p disk pending from ran log].
    + constructor; auto.
    + discriminate.
    + unfold proc_ok in *. cbn [p disk pending from ran log] in *. destruct pr as [|n ts it m|ts| |]; auto.
      * destruct IR as (R & L & Sn & X). repeat split; auto. left. destruct X as [X|[c' X]]; [right; auto|injection X as <- _; left; auto].
      * destruct IR as (R & L & Sn & X). repeat split; auto. right. auto.
  - assert (ID' : Forall (fine l) (d1 ++ d2)) by (apply Forall_app in ID; destruct ID as [A B]; inversion B; subst; apply Forall_app; auto).
    split; auto; cbn [p disk pending from ran log].
    assert (K : In total (map fst (d1 ++ kc :: d2)) -> In total (map fst (d1 ++ d2))).
    { rewrite !map_app. cbn [map]. intros Hi. apply in_app_or in Hi. apply in_or_app. destruct Hi as [Hi|[Hi|Hi]]; auto. exfalso.
      destruct X as (kc' & Hk & Lt). rewrite Forall_forall in ID'. apply ID' in Hk. destruct Hk as (_ & _ & Lk & _). lia. }
    unfold proc_ok in *. cbn [p disk pending from ran log] in *. destruct pr as [|n ts it m|ts| |]; auto.
    + destruct IR as (R & L & Sn & [Y|Y]); repeat split; auto.
    + destruct IR as (R & L & Sn & Y); repeat split; auto.
  - split; auto; cbn [p disk pending from ran log]. + discriminate. + reflexivity.
Qed.
Lemma inv_start : inv start.
Proof using. clear init0 F1 F2. split; simpl; auto. discriminate. unfold proc_ok. reflexivity. Qed.
Lemma inv_steps s : steps start s -> inv s.
Proof using init0 F1 F2. intros H. remember start as s0 eqn:E. induction H; subst; [apply inv_start|]. eapply inv_step; eauto. Qed.

(** ** From any point the process can finish *)
Notation goes_on := (goes_on step_fn initial bs total get_iterator).
Lemma go_trans s1 s2 s3 : goes_on s1 s2 -> goes_on s2 s3 -> goes_on s1 s3.
Proof using. clear init0 F1 F2. intros H1 H2. induction H2 as [|? ? ? H2 IH H3 H4]; auto. eapply go_more; [apply IH; auto|exact H3|exact H4]. Qed.
Lemma go_one s1 s2 : step s1 s2 -> p s2 <> Down -> goes_on s1 s2.
Proof using. clear init0 F1 F2. intros. econstructor; [constructor|eauto|auto]. Qed.

Lemma finish_last d pe f r l : (forall kc, pe = Some kc -> fst kc = total) -> exists s, goes_on (Sys Last d pe f r l) s /\ p s = Done.
Proof using. clear init0 F1 F2.
  intros _. destruct pe as [[k c]|].
  - eexists. split; [|shelve]. eapply go_trans; [apply go_one; [apply s_commit|discriminate]|]. apply go_one; [apply s_done|discriminate]. Unshelve. reflexivity.
  - eexists. split; [apply go_one; [apply s_done|discriminate]|reflexivity].
Qed.
Lemma finish_after ts d pe f r l : exists s, goes_on (Sys (After ts) d pe f r l) s /\ p s = Done.
Proof using. clear init0 F1 F2.
  assert (A : forall d, exists s, goes_on (Sys (After ts) d None f r l) s /\ p s = Done).
  { intros d0. assert (S := s_last batch T step_fn initial bs total get_iterator ts d0 f r l). destruct (exists_ckpt d0 total).
    - eexists. split; [apply go_one; [exact S|discriminate]|reflexivity].
    - destruct (finish_last d0 (Some (item T bs total ts)) f r l) as (s & G & D). { intros kc H. injection H as <-. reflexivity. }
      exists s. split; auto. eapply go_trans; [apply go_one; [exact S|discriminate]|auto]. }
  destruct pe as [[k c]|]; auto. destruct (A ((k, c) :: d)) as (s & G & D). exists s. split; auto.
  eapply go_trans; [apply go_one; [apply s_commit|discriminate]|auto].
Qed.
Lemma finish_loop n : forall m ts it k d pe f r l, S total - m <= n -> exists s, goes_on (Sys (Loop m ts it k) d pe f r l) s /\ p s = Done.
Proof using. clear init0 F1 F2.
  induction n as [|n IH]; intros m ts it k d pe f r l L.
  - destruct (finish_after ts d pe f r l) as (s & G & D). exists s. split; auto. eapply go_trans; [apply go_one; [apply s_exit; left; lia|discriminate]|auto].
  - destruct (it k) as [b|] eqn:E.
    + destruct (le_lt_dec m total) as [Lm|Lm].
      * destruct (IH (S m) (train_step ts b) it (S k) d pe f (r ++ [m]) (l ++ [(m, ts)]) ltac:(lia)) as (s & G & D).
        exists s. split; auto. eapply go_trans; [apply go_one; [apply s_iter; eauto|discriminate]|auto].
      * destruct (finish_after ts d pe f r l) as (s & G & D). exists s. split; auto. eapply go_trans; [apply go_one; [apply s_exit; left; lia|discriminate]|auto].
    + destruct (finish_after ts d pe f r l) as (s & G & D). exists s. split; auto. eapply go_trans; [apply go_one; [apply s_exit; auto|discriminate]|auto].
Qed.
Lemma can_finish s : (p s = Down -> pending s = None) -> exists s', goes_on s s' /\ p s' = Done.
Proof using. clear init0 F1 F2.
  destruct s as [pr d pe f r l]. cbn [p pending]. intros H. destruct pr as [|n ts it k|ts| |].
  - rewrite H by auto. destruct (boot batch T initial bs get_iterator d) as [[pr sv] i] eqn:B.
    assert (B' := B). unfold boot in B'. destruct (restore_or_create_train_state T initial d) as [ts lsi]. injection B' as E _ _. subst pr.
    destruct (finish_loop (S total) (S (t_step ts)) ts (get_iterator lsi) 0 d sv i [] l ltac:(lia)) as (s & G & D).
    exists s. split; auto. eapply go_trans; [apply go_one; [apply s_boot; exact B|discriminate]|auto].
  - apply (finish_loop (S total)). lia.
  - apply finish_after.
  - destruct pe as [[k c]|].
    + eexists. split; [eapply go_trans; [apply go_one; [apply s_commit|discriminate]|apply go_one; [apply s_done|discriminate]]|reflexivity].
    + eexists. split; [apply go_one; [apply s_done|discriminate]|reflexivity].
  - eexists. split; [constructor|reflexivity].
Qed.
End Loop.

(** ** Any iterator with enough batches *)
Section Any.
Variable batch T : Type.
Variable step_fn : nat -> T -> batch -> T.
Variable initial : tstate T.
Variable bs total : nat.
Variable get_iterator : option nat -> iterator batch.
Hypothesis init0 : t_step initial = 0.

Lemma good_trained k s : good batch T step_fn initial (fun _ _ => True) k s -> trained step_fn initial k s.
Proof using. clear init0.
  induction 1 as [|k s b G (l & L & ->) _]; [exists []; auto|]. exists (l ++ [b]). rewrite app_length, fold_left_app. simpl. split; auto. lia.
Qed.
Lemma any_steps s : (forall i j, i + j < total -> get_iterator (Some (i * bs)) j <> None) -> (forall j, j < total -> get_iterator None j <> None) ->
  steps batch T step_fn initial bs total get_iterator start s ->
  (forall k c, In (k, c) (disk s) -> k <= total /\ t_step (fst c) = k /\ trained step_fn initial k (fst c)) /\
  (forall n ts, In (n, ts) (log s) -> 1 <= n <= total /\ t_step ts = n - 1) /\
  (p s <> Down -> exists m, ran s = seq (S (from s)) m) /\
  (p s = Done -> ran s = seq (S (from s)) (total - from s) /\ from s <= total /\
     (forall n, 1 <= n <= total -> In n (map fst (log s))) /\ exists c, In (total, c) (disk s)).
Proof using init0.
  intros H1 H2 H. apply (inv_steps _ _ _ _ _ _ _ init0 (fun _ _ => True)) in H; auto.
  2:{ intros lsi i j [[-> ->]| ->] L; auto. }
  destruct H as [ID _ IL IR]. split; [|split; [|split]].
  - intros k c Hc. rewrite Forall_forall in ID. apply ID in Hc. destruct Hc as (G & _ & L & _). simpl in *.
    split; auto. split; [eapply good_step; eauto|apply good_trained; auto].
  - intros n ts Hn. rewrite Forall_forall in IL. apply IL in Hn. destruct Hn as [L G]. simpl in *. split; auto. eapply good_step; eauto.
  - intros ND. unfold proc_ok in IR. destruct (p s); try congruence; eexists; apply IR.
  - intros D. unfold proc_ok in IR. rewrite D in IR. destruct IR as (R & L & Sn & I). repeat split; auto.
    apply in_map_iff in I. destruct I as ([k c] & E & I). simpl in E. subst. eauto.
Qed.
Lemma any_finish s : steps batch T step_fn initial bs total get_iterator start s -> exists s', goes_on step_fn initial bs total get_iterator s s' /\ p s' = Done.
Proof using. clear init0.
  intros H. apply can_finish. assert (K : forall s0 s1, steps batch T step_fn initial bs total get_iterator s0 s1 -> (p s0 = Down -> pending s0 = None) -> p s1 = Down -> pending s1 = None).
  { clear. intros s0 s1 H. induction H as [|s1 s2 s3 H IH H3]; auto. intros H0. specialize (IH H0).
    destruct H3; cbn [p pending] in *; auto; try discriminate.
    - unfold boot in H1. destruct (restore_or_create_train_state _ _ _). injection H1 as <- _ _. discriminate.
    - destruct (exists_ckpt _ _); cbn [p pending]; auto; discriminate. }
  apply (K _ _ H). auto.
Qed.

(** ** An iterator that goes on from the last seen example *)
Variable data : nat -> option batch.
Lemma good_after k s : good batch T step_fn initial (fun k b => data k = Some b) k s -> after step_fn initial data k = Some s.
Proof using. induction 1 as [|k s b G IH F]; simpl; auto. rewrite IH, F. auto. Qed.
Lemma resuming s : resumes bs data get_iterator -> (forall j, j < total -> data j <> None) ->
  steps batch T step_fn initial bs total get_iterator start s ->
  (forall n ts, In (n, ts) (log s) -> 1 <= n <= total /\ after step_fn initial data (n - 1) = Some ts) /\
  (forall k c, In (k, c) (disk s) -> after step_fn initial data k = Some (fst c)) /\
  (p s = Done -> exists c, In (total, c) (disk s) /\ after step_fn initial data total = Some (fst c)).
Proof using init0.
  intros [R1 R2] N H. apply (inv_steps _ _ _ _ _ _ _ init0 (fun k b => data k = Some b)) in H.
  - destruct H as [ID _ IL IR].
    assert (K : forall k c, In (k, c) (disk s) -> after step_fn initial data k = Some (fst c)).
    { intros k c Hc. rewrite Forall_forall in ID. apply ID in Hc. destruct Hc as (G & _). apply good_after in G. auto. }
    split; [|split; [auto|]].
    + intros n ts Hn. rewrite Forall_forall in IL. apply IL in Hn. destruct Hn as [L G]. split; auto. apply good_after in G. auto.
    + intros D. unfold proc_ok in IR. rewrite D in IR. destruct IR as (_ & _ & _ & I).
      apply in_map_iff in I. destruct I as ([k c] & E & I). simpl in E. subst. eauto.
  - intros lsi i j b [[-> ->]| ->]; rewrite ?R1, ?R2; auto.
  - intros lsi i j [[-> ->]| ->] L; rewrite ?R1, ?R2; auto.
Qed.
End Any.
