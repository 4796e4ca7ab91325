(** Proofs about the hooks of the training loop (C82). *)
From Coq Require Import Reals ZArith String List Arith Bool Sorted Lia.
From Verif Require Import HookModel HookSpec PyLemmas Py.
Import ListNotations.
Local Open Scope list_scope.
Local Open Scope nat_scope.

(** The steps at which an action acts when it is called at [n] steps from [step] *)
Fixpoint acting (trigger : action -> nat -> Z -> res bool) (clock : nat -> Z) (a : action) (step n : nat) : list nat :=
  match n with
  | O => []
  | S n =>
      match call trigger a step (clock step) with
      | Ok (b, a) => (if b then [step] else []) ++ acting trigger clock a (S step) n
      | Raise _ => []
      end
  end.

Definition ready (a : action) (step : nat) : Prop :=
  match previous a with Some (r, _) => r < step /\ step = S (last_step a) | None => True end.

Lemma should_trigger_ok a step t : every_steps a <> Some 0 -> exists b, should_trigger a step t = Ok b.
Proof.
  intros H. unfold should_trigger. destruct (every_steps a) as [[|n]|]; [congruence| |]; cbn [bind].
  - destruct (step mod S n =? 0); [eauto|]. destruct (match every_secs a with Some _ => _ | None => _ end); eauto.
  - destruct (match every_secs a with Some _ => _ | None => _ end); eauto.
Qed.

Definition good (trigger : action -> nat -> Z -> res bool) (a : action) : Prop :=
  forall a' step t, every_steps a' = every_steps a -> exists b, trigger a' step t = Ok b.

Lemma init_ok a step t : ready a step ->
  init_and_check a step t = Ok (Action (every_steps a) (every_secs a) (on_steps a)
     (match previous a with None => Some (step, t) | p => p end) step).
Proof.
  unfold ready, init_and_check. destruct (previous a) as [[r t0]|]; [|reflexivity]. intros [? ->].
  destruct (every_steps a); [|reflexivity]. rewrite Nat.eqb_refl. reflexivity.
Qed.

Lemma call_ok trigger a step t : good trigger a -> ready a step ->
  exists b a', call trigger a step t = Ok (b, a') /\ ready a' (S step) /\
    every_steps a' = every_steps a /\ every_secs a' = every_secs a /\ on_steps a' = on_steps a /\
    trigger (Action (every_steps a) (every_secs a) (on_steps a) (match previous a with None => Some (step, t) | p => p end) step) step t = Ok b /\
    previous a' = (if b then Some (step, t) else match previous a with None => Some (step, t) | p => p end) /\
    previous a' <> None.
Proof.
  intros G Hr. unfold call. rewrite (init_ok a step t Hr). cbn [bind].
  destruct (G (Action (every_steps a) (every_secs a) (on_steps a) (match previous a with None => Some (step, t) | p => p end) step) step t eq_refl) as [b E].
  rewrite E. cbn [bind]. exists b. eexists. split; [reflexivity|].
  destruct b; cbn.
  - repeat split; auto; try discriminate; lia.
  - unfold ready. cbn. unfold ready in Hr. destruct (previous a) as [[r t0]|]; repeat split; auto; try discriminate; lia.
Qed.

Lemma good_ext trigger a a' : every_steps a' = every_steps a -> good trigger a -> good trigger a'.
Proof. intros E G x s t Hx. apply G. congruence. Qed.

Lemma acting_range trigger clock n : forall a step s, In s (acting trigger clock a step n) -> step <= s < step + n.
Proof.
  induction n as [|n IH]; intros a step s H; [destruct H|]. cbn [acting] in H.
  destruct (call trigger a step (clock step)) as [[b a']|]; [|destruct H].
  apply in_app_or in H. destruct H as [H|H].
  - destruct b; [destruct H as [<-|[]]; lia|destruct H].
  - apply IH in H. lia.
Qed.

Lemma acting_sorted trigger clock n : forall a step, StronglySorted lt (acting trigger clock a step n).
Proof.
  induction n as [|n IH]; intros a step; [constructor|]. cbn [acting].
  destruct (call trigger a step (clock step)) as [[b a']|]; [|constructor].
  destruct b; cbn [app]; [|apply IH]. constructor; [apply IH|].
  apply Forall_forall. intros s H. apply acting_range in H. lia.
Qed.

(** The time of the latest of the steps of [l] before s, or of the action before *)
Definition last_time (p : option (nat * Z)) (clock : nat -> Z) (l : list nat) (s : nat) (t : Z) : Prop :=
  (exists r, In r l /\ r < s /\ (forall q, In q l -> q < s -> q <= r) /\ t = clock r) \/
  ((forall q, In q l -> s <= q) /\ exists r, p = Some (r, t)).

Definition asks (a : action) (s : nat) : Prop :=
  In s (on_steps a) \/ exists n, every_steps a = Some n /\ Nat.divide n s.

Lemma divide_mod n s : (s mod S n =? 0) = true <-> Nat.divide (S n) s.
Proof. rewrite Nat.eqb_eq. apply Nat.mod_divide. lia. Qed.

Lemma should_trigger_true a step t : should_trigger a step t = Ok true <->
  every_steps a <> Some 0 /\
  (asks a step \/ exists secs r t0, every_secs a = Some secs /\ previous a = Some (r, t0) /\ (secs < t - t0)%Z).
Proof.
  unfold should_trigger, asks.
  assert (K : (if match every_secs a, previous a with
          | Some secs, Some (_, t0) => (secs <? t - t0)%Z
          | _, _ => false
          end then Ok true else Ok (existsb (Nat.eqb step) (on_steps a))) = Ok true <->
     (In step (on_steps a) \/ exists secs r t0, every_secs a = Some secs /\ previous a = Some (r, t0) /\ (secs < t - t0)%Z)).
  { assert (K2 : Ok (existsb (Nat.eqb step) (on_steps a)) = Ok true <-> In step (on_steps a)).
    { split.
      - intros E. apply Ok_inj in E. apply existsb_exists in E. destruct E as (x & Hx & E). apply Nat.eqb_eq in E. subst; auto.
      - intros H. f_equal. apply existsb_exists. exists step. split; auto. apply Nat.eqb_refl. }
    destruct (every_secs a) as [secs|]; [destruct (previous a) as [[r t0]|]|].
    - destruct (Z.ltb_spec secs (t - t0)).
      + split; [|auto]. intros _. right. exists secs, r, t0. auto.
      + rewrite K2. split; [auto|]. intros [?|(? & ? & ? & E1 & E2 & ?)]; auto. injection E1 as ->. injection E2 as -> ->. lia.
    - rewrite K2. split; [auto|]. intros [?|(? & ? & ? & E1 & E2 & ?)]; [auto|discriminate].
    - rewrite K2. split; [auto|]. intros [?|(? & ? & ? & E1 & E2 & ?)]; [auto|discriminate]. }
  destruct (every_steps a) as [[|n]|] eqn:En; cbn [bind].
  - split; [discriminate|]. intros [H _]. congruence.
  - destruct (step mod S n =? 0) eqn:Em.
    + split; [|auto]. intros _. split; [congruence|]. left. right. exists (S n). split; auto. apply divide_mod; auto.
    + rewrite K. split.
      * intros [?|?]; (split; [congruence|]); auto.
      * intros [_ [[?|(m & E & D)]|?]]; auto. injection E as <-. apply divide_mod in D. congruence.
  - rewrite K. split.
    + intros [?|?]; (split; [congruence|]); auto.
    + intros [_ [[?|(m & E & D)]|?]]; auto. discriminate.
Qed.

Lemma acting_char clock n : forall a step s, every_steps a <> Some 0 -> ready a step -> previous a <> None ->
  (In s (acting should_trigger clock a step n) <->
   step <= s < step + n /\
   (asks a s \/ exists secs t, every_secs a = Some secs /\ last_time (previous a) clock (acting should_trigger clock a step n) s t /\
                               (secs < clock s - t)%Z)).
Proof.
  induction n as [|n IH]; intros a step s H0 Hr Hp; [cbn; split; [tauto|intros [? _]; lia]|].
  cbn [acting].
  assert (G : good should_trigger a) by (intros x st t E; apply should_trigger_ok; congruence).
  destruct (call_ok should_trigger a step (clock step) G Hr) as (b & a' & E & Hr' & E1 & E2 & E3 & Ht & Ep & Hn).
  rewrite E. destruct (previous a) as [[r0 t0]|] eqn:Pa; [|congruence].
  set (L := acting should_trigger clock a' (S step) n) in *.
  assert (A : forall x, asks a' x <-> asks a x) by (intros x; unfold asks; rewrite E1, E3; tauto).
  assert (RL : forall q, In q L -> S step <= q) by (intros q Hq; apply acting_range in Hq; lia).
  assert (S0 : In step ((if b then [step] else []) ++ L) <-> b = true).
  { split.
    - intros H. apply in_app_or in H. destruct H as [H|H]; [destruct b; auto; destruct H|]. apply RL in H. lia.
    - intros ->. left. auto. }
  assert (T0 : b = true <-> (asks a step \/ exists secs, every_secs a = Some secs /\ (secs < clock step - t0)%Z)).
  { split.
    - intros ->. apply should_trigger_true in Ht. cbn in Ht. destruct Ht as [_ [?|(secs & r & t & ? & Et & ?)]]; [left; auto|].
      injection Et as <- <-. right. eauto.
    - intros H. assert (K : should_trigger (Action (every_steps a) (every_secs a) (on_steps a) (Some (r0, t0)) step) step (clock step) = Ok true).
      { apply should_trigger_true. split; [auto|]. destruct H as [H|(secs & ? & ?)]; [left; exact H|right; exists secs, r0, t0; auto]. }
      rewrite K in Ht. congruence. }
  destruct (Nat.eq_dec s step) as [->|Ns].
  - rewrite S0, T0. split.
    + intros H. split; [lia|]. destruct H as [?|(secs & Es & ?)]; [auto|]. right. exists secs, t0. split; auto. split; auto.
      right. split; [|eauto]. intros q Hq. apply in_app_or in Hq. destruct Hq as [Hq|Hq]; [destruct b; [destruct Hq as [<-|[]]; lia|destruct Hq]|]. apply RL in Hq. lia.
    + intros [_ [?|(secs & t & Es & Hl & Hlt)]]; [auto|]. right. exists secs. split; auto.
      destruct Hl as [(r & Hr1 & Hr2 & _ & _)|[_ (r & Er)]].
      * exfalso. apply in_app_or in Hr1. destruct Hr1 as [Hr1|Hr1]; [destruct b; [destruct Hr1 as [<-|[]]; lia|destruct Hr1]|]. apply RL in Hr1. lia.
      * injection Er as -> ->. auto.
  - assert (HL : In s ((if b then [step] else []) ++ L) <-> In s L).
    { split; [|intros; apply in_or_app; auto]. intros H. apply in_app_or in H. destruct H as [H|H]; auto. destruct b; [destruct H as [<-|[]]; lia|destruct H]. }
    rewrite HL.
    assert (HT : step < s -> forall t, last_time (previous a') clock L s t <-> last_time (Some (r0, t0)) clock ((if b then [step] else []) ++ L) s t).
    { intros Hlt t. unfold last_time. rewrite Ep. destruct b; cbn [app].
      - split.
        + intros [(r & H1 & H2 & H3 & H4)|[H1 (r & Er)]].
          * left. exists r. repeat split; auto; [right; auto|]. intros q [<-|Hq] Hqs; [apply RL in H1; lia|auto].
          * injection Er as <- <-. left. exists step. repeat split; auto; [left; auto|]. intros q [<-|Hq] Hqs; [lia|]. apply H1 in Hq. lia.
        + intros [(r & [<-|H1] & H2 & H3 & H4)|[H1 (r & Er)]].
          * right. subst t. split; [|eauto]. intros q Hq. destruct (le_lt_dec s q); auto. specialize (H3 q (or_intror Hq) l). apply RL in Hq. lia.
          * left. exists r. repeat split; auto. intros q Hq Hqs. apply H3; [right|]; auto.
          * specialize (H1 step (or_introl eq_refl)). lia.
      - tauto. }
    unfold L at 1. rewrite (IH a' (S step) s); [|congruence|auto|auto]. rewrite A, E2. fold L. split.
    + intros [Hs H]. split; [lia|]. destruct H as [?|(secs & t & H1 & H2 & H3)]; [auto|]. right. exists secs, t. split; auto. split; auto. apply HT; auto. lia.
    + intros [Hs H]. split; [lia|]. destruct H as [?|(secs & t & H1 & H2 & H3)]; [auto|]. right. exists secs, t. split; auto. split; auto. apply HT; auto. lia.
Qed.

(** A new action, which acts at the first step *)
Lemma acting_new clock first last o n : nonzero o ->
  forall s, In s (acting should_trigger clock (create_action first last o) first n) <->
    first <= s < first + n /\
    (due o first last s \/ late o clock (acting should_trigger clock (create_action first last o) first n) s).
Proof.
  intros H0 s. set (a := create_action first last o).
  assert (D : forall x, asks a x <-> due o first last x).
  { intros x. unfold asks, due, a, create_action. cbn [on_steps every_steps]. rewrite in_app_iff. cbn [In].
    destruct (o_on_steps o) as [l|].
    - split.
      + intros [[?|[?|[?|[]]]]|?]; auto. right; right; left; eauto.
      + intros [?|[?|[(l' & E & ?)|?]]]; auto. injection E as <-. auto.
    - cbn [In]. split.
      + intros [[[]|[?|[?|[]]]]|?]; auto.
      + intros [?|[?|[(l' & E & ?)|?]]]; auto. discriminate. }
  destruct n as [|n]; [cbn; split; [tauto|lia]|].
  assert (G : good should_trigger a) by (intros x st t E; apply should_trigger_ok; rewrite E; exact H0).
  assert (Hr : ready a first) by exact I.
  cbn [acting].
  destruct (call_ok should_trigger a first (clock first) G Hr) as (b & a' & E & Hr' & E1 & E2 & E3 & Ht & Ep & Hn).
  rewrite E. assert (b = true) as ->.
  { assert (K : should_trigger (Action (every_steps a) (every_secs a) (on_steps a) (match previous a with None => Some (first, clock first) | p => p end) first) first (clock first) = Ok true).
    { apply should_trigger_true. split; [exact H0|]. left. change (asks a first). apply D. left; auto. }
    rewrite K in Ht. congruence. }
  cbn [app]. set (L := acting should_trigger clock a' (S first) n).
  assert (RL : forall q, In q L -> S first <= q) by (intros q Hq; apply acting_range in Hq; lia).
  destruct (Nat.eq_dec s first) as [->|Ns].
  - split; [|intros _; left; auto]. intros _. split; [lia|]. left. left. auto.
  - assert (HL : In s (first :: L) <-> In s L) by (cbn; split; [intros [?|?]; [congruence|auto]|auto]). rewrite HL.
    unfold L at 1. rewrite (acting_char clock n a' (S first) s); [|rewrite E1; exact H0|auto|auto]. fold L.
    assert (A : asks a' s <-> due o first last s) by (rewrite <- D; unfold asks; rewrite E1, E3; tauto).
    rewrite A. change (every_secs a) with (o_every_secs o) in E2. unfold late. rewrite E2.
    assert (Q : first < s -> forall secs, (exists t, last_time (previous a') clock L s t /\ (secs < clock s - t)%Z) <->
       (exists r, In r (first :: L) /\ r < s /\ (forall q, In q (first :: L) -> q < s -> q <= r) /\ (secs < clock s - clock r)%Z)).
    { intros Hlt secs. unfold last_time. rewrite Ep. split.
      - intros (t & [(r & H1 & H2 & H3 & H4)|[H1 (r & Er)]] & Hs).
        + exists r. subst t. repeat split; auto; [right; auto|]. intros q [<-|Hq] Hqs; [apply RL in H1; lia|auto].
        + injection Er as <- <-. exists first. repeat split; auto; [left; auto|]. intros q [<-|Hq] Hqs; [lia|]. apply H1 in Hq. lia.
      - intros (r & [<-|H1] & H2 & H3 & H4).
        + exists (clock first). split; auto. right. split; [|eauto]. intros q Hq. destruct (le_lt_dec s q); auto. specialize (H3 q (or_intror Hq) l). apply RL in Hq. lia.
        + exists (clock r). split; auto. left. exists r. repeat split; auto. intros q Hq Hqs. apply H3; [right|]; auto. }
    split.
    + intros [Hs H]. split; [lia|]. destruct H as [?|(secs & t & H1 & H2)]; [auto|]. right.
      assert (H3 : exists t, last_time (previous a') clock L s t /\ (secs < clock s - t)%Z) by eauto.
      apply Q in H3; [|lia]. destruct H3 as (r & ?). exists secs, r. auto.
    + intros [Hs H]. split; [lia|]. destruct H as [?|(secs & r & H1 & H2)]; [auto|]. right.
      assert (H3 : exists t, last_time (previous a') clock L s t /\ (secs < clock s - t)%Z) by (apply Q; [lia|eauto]).
      destruct H3 as (t & ?). exists secs, t. auto.
Qed.

(** Without every_secs the clock does not matter. *)
Lemma acting_noclock clock clock' n : forall a a' step, every_secs a = None -> every_secs a' = None ->
  every_steps a = every_steps a' -> on_steps a = on_steps a' -> last_step a = last_step a' ->
  (previous a = None <-> previous a' = None) ->
  acting should_trigger clock a step n = acting should_trigger clock' a' step n.
Proof.
  induction n as [|n IH]; intros a a' step N N' E1 E2 E3 E4; [reflexivity|]. cbn [acting].
  destruct a as [ev sc on p ls], a' as [ev' sc' on' p' ls']. cbn in *. subst.
  assert (K : forall q q' l, should_trigger (Action ev' None on' q l) step (clock step) = should_trigger (Action ev' None on' q' l) step (clock' step)) by reflexivity.
  unfold call, init_and_check. cbn [previous every_steps last_step every_secs on_steps].
  destruct p as [p|], p' as [p'|]; try (exfalso; destruct E4 as [A B]; (specialize (A eq_refl) || specialize (B eq_refl)); discriminate).
  - destruct (match ev' with Some _ => negb (step =? S ls') | None => false end); cbn [bind]; [reflexivity|].
    rewrite (K (Some p) (Some p')). destruct (should_trigger _ step (clock' step)) as [b|]; cbn [bind]; [|reflexivity].
    f_equal. apply IH; destruct b; cbn; auto; split; discriminate.
  - cbn [bind]. rewrite (K (Some (step, clock step)) (Some (step, clock' step))).
    destruct (should_trigger _ step (clock' step)) as [b|]; cbn [bind]; [|reflexivity].
    f_equal. apply IH; destruct b; cbn; auto; split; discriminate.
Qed.
