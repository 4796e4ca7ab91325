(** Proofs of C98. *)
From Coq Require Import List Arith Bool Lia.
From Verif Require Import Py PyLemmas TreeModel CacModel CacSpec.
Import ListNotations.
Local Open Scope nat_scope.

Lemma nth_error_ext' {A} (l : list A) : forall l', length l = length l' -> (forall i r, nth_error l i = Some r -> nth_error l' i = Some r) -> l = l'.
Proof.
  induction l as [|a l IH]; intros [|b l'] L H; try discriminate; [reflexivity|]. pose proof (H 0 a eq_refl) as H0. injection H0 as ->. f_equal.
  apply IH; [simpl in L; lia|]. intros i r E. exact (H (S i) r E).
Qed.

Lemma NoDup_app_single {A} (l : list A) a : NoDup l -> ~ In a l -> NoDup (l ++ [a]).
Proof.
  induction l as [|b l IH]; intros N H; simpl; [constructor; [intros []|constructor]|]. inversion N; subst. constructor.
  - intros I. apply in_app_or in I. destruct I as [I|[<-|[]]]; [contradiction|]. apply H. left. reflexivity.
  - apply IH; [assumption|]. intros I. apply H. right. exact I.
Qed.

Section Memo.
Context {A K R : Type} (keq : forall a b : K, {a = b} + {a <> b}) (key : A -> K) (f : A -> res R).
Notation lookup := (lookup K R keq).
Notation cached := (cached A K R keq key f).
Notation calls := (calls A K R keq key f).
Notation served := (served key f). Notation none_for := (none_for key f). Notation succeeds := (succeeds f). Notation made := (made key f).

Definition inv (h : list A) (c : list (K * R)) : Prop := forall k,
  match lookup c k with
  | Some x => exists h1 b h2, h = h1 ++ b :: h2 /\ key b = k /\ f b = Ok x /\ none_for h1 k
  | None => none_for h k
  end.
Lemma lookup_app c c' k : lookup (c ++ c') k = match lookup c k with Some x => Some x | None => lookup c' k end.
Proof. induction c as [|[k' x] c IH]; [reflexivity|]. cbn [app CacModel.lookup]. destruct (keq k' k); [reflexivity|exact IH]. Qed.
Lemma inv_old h c a : inv h c -> (exists x, lookup c (key a) = Some x) \/ (exists e, f a = Raise e) -> inv (h ++ [a]) c.
Proof.
  intros I H k. specialize (I k) as Ik. destruct (lookup c k) as [x|] eqn:L.
  - destruct Ik as (h1 & b & h2 & -> & E & F & N). exists h1, b, (h2 ++ [a]). rewrite <- app_assoc. auto.
  - intros b Ib Eb [x S]. apply in_app_or in Ib. destruct Ib as [Ib|[<-|[]]]; [exact (Ik b Ib Eb (ex_intro _ x S))|].
    destruct H as [[y H]|[e H]]; [rewrite Eb in H; congruence|congruence].
Qed.
Lemma inv_new h c a x : inv h c -> lookup c (key a) = None -> f a = Ok x -> inv (h ++ [a]) (c ++ [(key a, x)]).
Proof.
  intros I L F k. rewrite lookup_app. specialize (I k) as Ik. destruct (lookup c k) as [y|] eqn:Lk.
  - destruct Ik as (h1 & b & h2 & -> & E & F' & N). exists h1, b, (h2 ++ [a]). rewrite <- app_assoc. auto.
  - cbn [CacModel.lookup]. destruct (keq (key a) k) as [<-|N].
    + exists h, a, []. auto.
    + intros b Ib Eb S. apply in_app_or in Ib. destruct Ib as [Ib|[<-|[]]]; [exact (Ik b Ib Eb S)|contradiction].
Qed.
Lemma cached_step h c a r c' m : inv h c -> cached c a = (r, c', m) ->
  inv (h ++ [a]) c' /\ served h a r /\ (if m then none_for h (key a) else exists b, In b h /\ key b = key a /\ succeeds b).
Proof.
  intros I E. unfold CacModel.cached in E. pose proof (I (key a)) as Ia. destruct (lookup c (key a)) as [x|] eqn:L.
  - injection E as <- <- <-. split; [apply inv_old; eauto|]. destruct Ia as (h1 & b & h2 & H & Eb & F & N). split.
    + left. exists h1, b, h2. repeat split; auto. exists x. exact F.
    + exists b. split; [rewrite H; apply in_or_app; right; left; reflexivity|]. split; [exact Eb|]. exists x. exact F.
  - destruct (f a) as [x|e] eqn:F; injection E as <- <- <-.
    + split; [apply inv_new; auto|]. split; [right; auto|exact Ia].
    + split; [apply inv_old; eauto|]. split; [right; auto|exact Ia].
Qed.
Lemma calls_served l : forall h c, inv h c -> length (fst (calls c l)) = length l /\
  (forall i a r, nth_error l i = Some a -> nth_error (fst (calls c l)) i = Some r -> served (h ++ firstn i l) a r) /\ made h l (snd (calls c l)).
Proof.
  induction l as [|a l IH]; intros h c I. { split; [reflexivity|]. split; [intros [|i] b r H; discriminate|constructor]. }
  cbn [CacModel.calls]. destruct (cached c a) as [[r c'] m] eqn:E. destruct (cached_step h c a r c' m I E) as (I' & S & M).
  specialize (IH (h ++ [a]) c' I'). destruct (calls c' l) as [rs ms]. cbn [fst snd] in *. destruct IH as (IL & IS & IM). split; [simpl; congruence|]. split.
  - intros [|i] b r' H H'; simpl in *.
    + injection H as <-. injection H' as <-. rewrite app_nil_r. exact S.
    + specialize (IS i b r' H H'). rewrite <- app_assoc in IS. exact IS.
  - destruct m; [constructor; assumption|]. destruct M as (b & B1 & B2 & B3). eapply made_old; eauto.
Qed.
Lemma inv_nil : inv [] [].
Proof. intros k. cbn. intros b []. Qed.
Lemma calls_agree l : (forall a b, In a l -> In b l -> key a = key b -> f a = f b) -> fst (calls [] l) = map f l.
Proof.
  intros H. destruct (calls_served l [] [] inv_nil) as (L & S & _). apply nth_error_ext'; [rewrite map_length; exact L|].
  intros i r E. destruct (nth_error l i) as [a|] eqn:Ea.
  2:{ apply nth_error_None in Ea. assert (nth_error (fst (calls [] l)) i = None) by (apply nth_error_None; lia). congruence. }
  rewrite (map_nth_error f i l Ea). f_equal. specialize (S i a r Ea E). cbn [app] in S. destruct S as [(h1 & b & h2 & Hh & Eb & _ & _ & ->)|[_ ->]]; [|reflexivity].
  symmetry. apply H; [|exact (nth_error_In _ _ Ea)|exact Eb]. assert (In b (firstn i l)) by (rewrite Hh; apply in_or_app; right; left; reflexivity).
  rewrite <- (firstn_skipn i l). apply in_or_app. left. assumption.
Qed.
End Memo.

(** ** Builders *)
Lemma prefixed_ok p : forall s, prefixed p s = true <-> exists q, s = p ++ q.
Proof.
  induction p as [|c p IH]; intros s. { split; [intros _; exists s; reflexivity|destruct s; reflexivity]. }
  destruct s as [|d s]; cbn [prefixed]. { split; [discriminate|intros [q H]; discriminate]. }
  rewrite andb_true_iff, Nat.eqb_eq, IH. split.
  - intros [-> [q ->]]. exists q. reflexivity.
  - intros [q H]. injection H as -> ->. split; [reflexivity|exists q; reflexivity].
Qed.
Lemma contains_ok p s : contains p s = true <-> exists a b, s = a ++ p ++ b.
Proof.
  induction s as [|d s IH]; cbn [contains]; rewrite orb_true_iff, prefixed_ok.
  - split; [intros [[q H]|H]; [exists [], q; exact H|discriminate]|]. intros (a & b & H). destruct a; [left; exists b; exact H|discriminate].
  - rewrite IH. split.
    + intros [[q H]|(a & b & ->)]; [exists [], q; exact H|exists (d :: a), b; reflexivity].
    + intros (a & b & H). destruct a as [|x a]; [left; exists b; exact H|]. right. injection H as -> ->. exists a, b. reflexivity.
Qed.
Lemma builders_agree {B} (tfds : request -> res B) l : (forall a b, In a l -> In b l -> agree a b) -> builders B tfds l = map (make_builder B tfds) l.
Proof.
  intros H. unfold builders. apply calls_agree. intros a b Ia Ib E. unfold builder_key in E. injection E as E1 E2. unfold make_builder. rewrite <- E1, <- E2.
  destruct (H a b Ia Ib E1 E2) as [F|[-> ->]]; [rewrite F|]; reflexivity.
Qed.
Lemma make_builder_ok {B} (tfds : request -> res B) a :
  (has_from_directory (name a) -> make_builder B tfds a = tfds (FromDirectory (data_dir a)))
  /\ (~ has_from_directory (name a) -> make_builder B tfds a = tfds (Prepare (name a) (data_dir a) (try_gcs a) (manual_dir a))).
Proof.
  unfold make_builder, has_from_directory. pose proof (contains_ok from_directory (name a)) as H. destruct (contains from_directory (name a)); split; intros F.
  - reflexivity.
  - exfalso. apply F. apply H. reflexivity.
  - apply H in F. discriminate.
  - reflexivity.
Qed.

(** ** Few-shot evaluation *)
Section Few.
Context {Batch : Type}.
Section Get.
Context (get_dataset : str * str -> res (list Batch)) (num_classes : str -> res nat).
Definition goodc {K R} (keq : forall a b : K, {a = b} + {a <> b}) (f : K -> res R) (c : list (K * R)) : Prop :=
  NoDup (map fst c) /\ forall k x, In (k, x) c -> f k = Ok x.
Lemma lookup_in {K R} (keq : forall a b : K, {a = b} + {a <> b}) (c : list (K * R)) k :
  match lookup K R keq c k with Some x => In (k, x) c | None => ~ In k (map fst c) end.
Proof.
  induction c as [|[k' x] c IH]; cbn [lookup]; [intros []|]. destruct (keq k' k) as [->|N]; [left; reflexivity|].
  destruct (lookup K R keq c k); [right; exact IH|]. intros [H|H]; [exact (N H)|exact (IH H)].
Qed.
Lemma cached_id {K R} (keq : forall a b : K, {a = b} + {a <> b}) (f : K -> res R) c k x c' m : goodc keq f c ->
  cached K K R keq (fun k => k) f c k = (Ok x, c', m) -> goodc keq f c' /\ f k = Ok x /\ (forall j, In j (map fst c') <-> In j (map fst c) \/ j = k).
Proof.
  intros [N G] E. unfold cached in E. pose proof (lookup_in keq c k) as L. destruct (lookup K R keq c k) as [y|].
  - injection E as -> <- _. split; [split; assumption|]. split; [exact (G k x L)|]. intros j. split; [auto|]. intros [H| ->]; [exact H|]. apply in_map_iff. exists (k, x). auto.
  - destruct (f k) as [y|e] eqn:F; [|discriminate]. injection E as <- <- _. split; [split|split].
    + rewrite map_app. simpl. apply NoDup_app_single; assumption.
    + intros j z H. apply in_app_or in H. destruct H as [H|[H|[]]]; [exact (G j z H)|]. injection H as <- <-. exact F.
    + reflexivity.
    + intros j. rewrite map_app, in_app_iff. simpl. intuition.
Qed.
Lemma get_datasets_ok ts : forall infos0 c0 infos c, goodc pair_dec get_dataset (c_datasets Batch c0) -> goodc str_dec num_classes (c_classes Batch c0) ->
  rfold (get_info Batch get_dataset num_classes) ts (infos0, c0) = Ok (infos, c) ->
  exists new, infos = infos0 ++ new /\ Forall2 (info_of num_classes) ts new /\ goodc pair_dec get_dataset (c_datasets Batch c)
    /\ forall k, In k (map fst (c_datasets Batch c)) <-> In k (map fst (c_datasets Batch c0)) \/ used ts k.
Proof.
  induction ts as [|t ts IH]; intros infos0 c0 infos c G1 G2 E; cbn [rfold] in E.
  { apply Ok_inj in E. injection E as <- <-. exists []. rewrite app_nil_r. split; [reflexivity|]. split; [constructor|]. split; [exact G1|].
    intros k. split; [auto|]. intros [H|(t & [] & _)]; exact H. }
  apply bind_ok in E. destruct E as [[infos1 c1] [E1 E]]. unfold get_info in E1.
  destruct (cached _ _ _ pair_dec _ get_dataset (c_datasets Batch c0) (t_name t, t_train t)) as [[tr d] m] eqn:C1. apply bind_ok in E1. destruct E1 as [x [-> E1]].
  destruct (cached _ _ _ pair_dec _ get_dataset d (t_name t, t_test t)) as [[te d'] m'] eqn:C2. apply bind_ok in E1. destruct E1 as [y [-> E1]].
  destruct (cached _ _ _ str_dec _ num_classes (c_classes Batch c0) (t_name t)) as [[n k] m''] eqn:C3. apply bind_ok in E1. destruct E1 as [z [-> E1]].
  apply Ok_inj in E1. injection E1 as <- <-.
  destruct (cached_id _ _ _ _ _ _ _ G1 C1) as (G1' & F1 & M1). destruct (cached_id _ _ _ _ _ _ _ G1' C2) as (G1'' & F2 & M2). destruct (cached_id _ _ _ _ _ _ _ G2 C3) as (G2' & F3 & _).
  assert (HH := IH _ {| c_datasets := d'; c_classes := k |} infos c G1'' G2' E); destruct HH as (new & -> & F & G & M). cbn [c_datasets] in M.
  eexists. split; [rewrite <- app_assoc; reflexivity|]. split; [constructor; [repeat split; exact F3|exact F]|]. split; [exact G|].
  intros j. rewrite M, M2, M1. unfold used. split.
  - intros [[[H|H]|H]|(t' & I & H)]; [left; exact H|right; exists t; split; [left; reflexivity|left; exact H]|right; exists t; split; [left; reflexivity|right; exact H]|].
    right. exists t'. split; [right; exact I|exact H].
  - intros [H|(t' & [<-|I] & H)]; [left; left; left; exact H| |right; exists t'; auto]. destruct H as [H|H]; [left; left; right; exact H|left; right; exact H].
Qed.
End Get.

Context (full : iterators Batch) {X : Type} (compute : nat -> nat -> info -> list Batch -> list Batch -> res X).
Notation evaluate_task := (evaluate_task Batch full X compute). Notation evaluate := (evaluate Batch full X compute).
Notation callbacks := (callbacks Batch full X compute).
Definition want (step : nat) (ji : nat * info) : res X := compute step (fst ji) (snd ji) (full (i_train (snd ji))) (full (i_test (snd ji))).
Definition apart (i : info) : Prop := i_train i <> i_test i.
Lemma set_iter_same (s : iterators Batch) k l : set_iter Batch s k l k = l.
Proof. unfold set_iter. destruct (pair_dec k k); [reflexivity|contradiction]. Qed.
Lemma set_iter_other (s : iterators Batch) k l j : k <> j -> set_iter Batch s k l j = s j.
Proof. unfold set_iter. destruct (pair_dec k j); [contradiction|reflexivity]. Qed.
Lemma task_pass step s ji : (forall k, s k = full k) -> apart (snd ji) ->
  fst (evaluate_task step s ji) = want step ji /\ ((exists x, want step ji = Ok x) -> forall k, snd (evaluate_task step s ji) k = full k).
Proof.
  intros S N. unfold CacModel.evaluate_task, want. rewrite (set_iter_other s (i_train (snd ji)) [] (i_test (snd ji)) N), !S.
  destruct (compute step (fst ji) (snd ji) _ _) as [x|e]; cbn [fst snd]; [|split; [reflexivity|intros [x H]; discriminate]].
  split; [reflexivity|]. intros _ k. unfold reset, set_iter. destruct (pair_dec (i_test (snd ji)) k) as [->|N1]; [reflexivity|].
  destruct (pair_dec (i_train (snd ji)) k) as [->|N2]; [reflexivity|]. apply S.
Qed.
Lemma pass step l : forall s, (forall k, s k = full k) -> Forall (fun ji => apart (snd ji)) l ->
  fst (evaluate step s l) = rmap (want step) l /\ ((exists xs, rmap (want step) l = Ok xs) -> forall k, snd (evaluate step s l) k = full k).
Proof.
  induction l as [|ji l IH]; intros s S F; [split; [reflexivity|intros _; exact S]|]. inversion F as [|? ? N F']; subst.
  destruct (task_pass step s ji S N) as [T1 T2]. cbn [CacModel.evaluate rmap].
  change (rmap (want step) (ji :: l)) with (bind (want step ji) (fun y => bind (rmap (want step) l) (fun ys => Ok (y :: ys)))).
  destruct (evaluate_task step s ji) as [[x|e] s'] eqn:E; cbn [fst snd] in *; rewrite <- T1; cbn [bind].
  - destruct (IH s') as [I1 I2]; [apply T2; rewrite <- T1; eauto|exact F'|]. destruct (evaluate step s' l) as [[xs|e] s''] eqn:E'; cbn [fst snd] in *; rewrite <- I1; cbn [bind].
    + split; [reflexivity|]. intros _. apply I2. rewrite <- I1. eauto.
    + split; [reflexivity|]. intros [ys H]. discriminate.
  - split; [reflexivity|]. intros [ys H]. discriminate.
Qed.
Lemma callbacks_pass seeds infos steps : forall s last, (forall k, s k = full k) -> Forall apart infos ->
  Forall (fun step => exists xs, rmap (want step) (loops seeds infos) = Ok xs) steps ->
  callbacks s seeds infos (steps ++ [last]) = map (fun step => rmap (want step) (loops seeds infos)) (steps ++ [last]).
Proof.
  intros s last S N. assert (NL : Forall (fun ji => apart (snd ji)) (loops seeds infos)).
  { unfold loops. rewrite Forall_forall in *. intros [j i] I. apply in_flat_map in I. destruct I as [q [_ I]]. apply in_map_iff in I. destruct I as [i' [E I]].
    injection E as <- <-. exact (N i' I). }
  revert s S. induction steps as [|step steps IH]; intros s S H; cbn [app CacModel.callbacks map].
  - destruct (pass last (loops seeds infos) s S NL) as [P _]. destruct (evaluate last s (loops seeds infos)). cbn [fst] in P. rewrite P. reflexivity.
  - inversion H; subst. destruct (pass step (loops seeds infos) s S NL) as [P Q]. destruct (evaluate step s (loops seeds infos)) as [r s']. cbn [fst snd] in *. rewrite P. f_equal.
    apply IH; [apply Q; assumption|assumption].
Qed.
(** One iterator for both splits: the second pass gets nothing. *)
Lemma same_split step s ji : i_train (snd ji) = i_test (snd ji) ->
  fst (evaluate_task step s ji) = compute step (fst ji) (snd ji) (s (i_train (snd ji))) [].
Proof.
  intros E. unfold CacModel.evaluate_task. rewrite <- E, set_iter_same. destruct (compute step (fst ji) (snd ji) _ _); reflexivity.
Qed.
End Few.

Lemma loops_prod seeds infos : loops seeds infos = list_prod (seq 0 seeds) infos.
Proof. unfold loops. induction (seq 0 seeds) as [|j l IH]; [reflexivity|]. cbn [flat_map list_prod]. rewrite IH. reflexivity. Qed.

(** ** Compiled steps *)
Section Compile.
Context {P E : Type} (compile : str -> P -> res E).
Notation memo := (calls (str * P * nat) str E str_dec (fun a => fst (fst a)) (compile_call P E compile)).
Lemma hits names p s : forall c l (g : str -> E), (forall n, In n names -> lookup str E str_dec c n = Some (g n)) ->
  memo c (map (fun n => (n, p, s)) names ++ l) = (map (fun n => Ok (g n)) names ++ fst (memo c l), snd (memo c l)).
Proof.
  induction names as [|n names IH]; intros c l g H. { cbn [map app]. destruct (memo c l); reflexivity. }
  cbn [map app calls]. unfold cached. cbn [fst]. rewrite (H n (or_introl eq_refl)). rewrite (IH c l g) by (intros; apply H; right; assumption). reflexivity.
Qed.
Lemma all_hits names evals : forall c (g : str -> E), (forall n, In n names -> lookup str E str_dec c n = Some (g n)) ->
  memo c (compile_calls P names evals) = (flat_map (fun _ => map (fun n => Ok (g n)) names) evals, []).
Proof.
  induction evals as [|[s p] evals IH]; intros c g H; [reflexivity|]. cbn [compile_calls flat_map fst snd]. rewrite (hits names p s c _ g H). fold (compile_calls P names evals).
  rewrite (IH c g H). reflexivity.
Qed.
Lemma misses names p s (g : str -> E) : forall c l, NoDup names -> (forall n, In n names -> lookup str E str_dec c n = None /\ compile n p = Ok (g n)) ->
  memo c (map (fun n => (n, p, s)) names ++ l) =
    (map (fun n => Ok (g n)) names ++ fst (memo (c ++ map (fun n => (n, g n)) names) l), map (fun n => (n, p, s)) names ++ snd (memo (c ++ map (fun n => (n, g n)) names) l)).
Proof.
  induction names as [|n names IH]; intros c l N H. { cbn [map app]. rewrite app_nil_r. destruct (memo c l); reflexivity. }
  inversion N as [|? ? NI N']; subst. cbn [map app calls]. unfold cached. cbn [fst snd]. destruct (H n (or_introl eq_refl)) as [L C]. rewrite L. unfold compile_call at 1. cbn [fst snd]. rewrite C.
  rewrite (IH (c ++ [(n, g n)]) l N').
  - rewrite <- app_assoc. reflexivity.
  - intros j J. destruct (H j (or_intror J)) as [Lj Cj]. split; [|exact Cj]. rewrite lookup_app, Lj. cbn [lookup]. destruct (str_dec n j) as [->|_]; [contradiction|reflexivity].
Qed.
Lemma lookup_map names (g : str -> E) n : In n names -> lookup str E str_dec (map (fun n => (n, g n)) names) n = Some (g n).
Proof. induction names as [|k names IH]; intros I; [contradiction|]. cbn [map lookup]. destruct (str_dec k n) as [->|N]; [reflexivity|]. apply IH. destruct I; [contradiction|assumption]. Qed.
Lemma compiled_once names s p evals (g : str -> E) : NoDup names -> (forall n, In n names -> compile n p = Ok (g n)) ->
  compiled P E compile names ((s, p) :: evals) = (flat_map (fun _ => map (fun n => Ok (g n)) names) ((s, p) :: evals), map (fun n => (n, p, s)) names).
Proof.
  intros N H. unfold compiled. cbn [compile_calls flat_map fst snd]. fold (compile_calls P names evals). rewrite (misses names p s g [] _ N).
  2:{ intros n I. split; [reflexivity|apply H; exact I]. }
  cbn [app]. rewrite (all_hits names evals _ g) by (intros n I; apply lookup_map; exact I). cbn [fst snd]. rewrite app_nil_r. reflexivity.
Qed.
End Compile.
