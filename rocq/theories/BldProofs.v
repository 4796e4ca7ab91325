(** Proofs for C95. *)
From Coq Require Import String List Arith Bool Lia FinFun.
From Verif Require Import PpModel RtrModel RtrProofs BldModel BldSpec.
From Verif Require Import Py.
Import ListNotations.
Local Open Scope string_scope.
Local Open Scope list_scope.
Local Open Scope nat_scope.

Section Kw.
Context {V : Type}.
Implicit Types (l : list (string * V)) (d p : kwargs V).
Notation get := (@dget (option string) V key_eqb).
Lemma as_in l k v : In (Some k, v) (as_kwargs V l) <-> In (k, v) l.
Proof.
  unfold as_kwargs. rewrite in_map_iff. split; [intros ([k' v'] & F & H); injection F as -> ->; exact H|intros H; exists (k, v); auto].
Qed.
Lemma as_keys l : map fst (as_kwargs V l) = map Some (map fst l).
Proof. unfold as_kwargs. rewrite !map_map. reflexivity. Qed.
Lemma as_has l k : says (as_kwargs V l) k <-> has l k.
Proof. unfold says, has. rewrite as_keys. split; [|apply in_map]. intros H. apply in_map_iff in H. destruct H as (x & F & H). injection F as ->. exact H. Qed.
Lemma as_none l : ~ In None (map fst (as_kwargs V l)).
Proof. rewrite as_keys. intros H. apply in_map_iff in H. destruct H as (x & F & _). discriminate. Qed.
Lemma as_nodup l : NoDup (map fst l) -> NoDup (map fst (as_kwargs V l)).
Proof. rewrite as_keys. apply Injective_map_NoDup. intros a b H. injection H as ->. reflexivity. Qed.
Lemma without_in l k v : In (k, v) (without_name V l) <-> In (k, v) l /\ k <> "name".
Proof.
  unfold without_name. rewrite filter_In. cbn [fst]. destruct (String.eqb_spec k "name") as [->|H]; cbn [negb]; split; try (intros [A B]; split; auto; discriminate).
  all: intros [A B]; try discriminate; contradiction.
Qed.
Lemma in_has l k : has l k <-> exists v, In (k, v) l.
Proof. unfold has. rewrite in_map_iff. split; [intros ([k' v] & F & H); cbn in F; subst; exists v; exact H|intros (v & H); exists (k, v); auto]. Qed.
Lemma without_has l k : has (without_name V l) k <-> has l k /\ k <> "name".
Proof.
  rewrite !in_has. split; [intros (v & H); apply without_in in H; destruct H; split; [exists v; assumption|assumption]|intros [(v & H) N]; exists v; apply without_in; auto].
Qed.
Lemma without_nodup l : NoDup (map fst l) -> NoDup (map fst (without_name V l)).
Proof.
  induction l as [|[k v] l IH]; cbn; intros N; [constructor|]. inversion N as [|? ? N1 N2]; subst. destruct (negb (String.eqb k "name")); cbn; [|apply IH, N2].
  constructor; [|apply IH, N2]. intros F. apply N1. apply in_map_iff in F. destruct F as (x & <- & Hx). apply filter_In in Hx. apply in_map, Hx.
Qed.
Lemma name_some l v : NoDup (map fst l) -> (kget (as_kwargs V l) "name" = Some v <-> In ("name", v) l).
Proof. intros N. unfold kget. rewrite (get_In _ _ _ (as_nodup l N)). apply as_in. Qed.
Lemma name_none l : kget (as_kwargs V l) "name" = None <-> ~ has l "name".
Proof. unfold kget. rewrite get_none. fold (says (as_kwargs V l) "name"). rewrite as_has. reflexivity. Qed.
Lemma unique l k v w : NoDup (map fst l) -> In (k, v) l -> In (k, w) l -> v = w.
Proof. intros N A B. apply as_in in A. apply as_in in B. apply (get_In _ _ _ (as_nodup l N)) in A. apply (get_In _ _ _ (as_nodup l N)) in B. congruence. Qed.
(** Calls *)
Lemma merge_ok a d r : call_kwargs a d = Ok r <-> r = a ++ d /\ ~ In None (map fst d) /\ forall k, says d k -> ~ says a k.
Proof.
  rewrite call_ok. unfold says, kget. split; intros (A & B & C); (split; [exact A|]; split; [exact B|]); intros k H.
  - apply get_none, C. intros F. apply get_none in F. contradiction.
  - apply get_none, C. destruct (get d (Some k)) as [v|] eqn:E; [eapply get_in, E|contradiction].
Qed.
Lemma merge_dec a d : (exists r, call_kwargs a d = Ok r) \/ call_kwargs a d = @Raise (kwargs V) TypeError.
Proof. destruct (call_kwargs a d) as [r|e] eqn:E; [left; exists r; reflexivity|right; f_equal; exact (call_error _ _ _ E)]. Qed.
Lemma app_says a d k : says (a ++ d) k <-> says a k \/ says d k.
Proof. unfold says. rewrite map_app, in_app_iff. reflexivity. Qed.
Lemma proper_app a d : proper a -> proper d -> (forall k, says d k -> ~ says a k) -> proper (a ++ d).
Proof.
  intros [A1 A2] [D1 D2] H. split.
  - rewrite map_app. unfold says in H. revert A1 A2 H. generalize (map fst a) as ka. induction ka as [|k ka IH]; intros N1 N2 H; [exact D1|]. inversion N1 as [|? ? M1 M2]; subst. cbn. constructor.
    + rewrite in_app_iff. intros [F|F]; [contradiction|]. destruct k as [k|]; [apply (H k F); left; reflexivity|apply N2; left; reflexivity].
    + apply IH; [exact M2|intros F; apply N2; right; exact F|]. intros x Hx F. apply (H x Hx). right. exact F.
  - rewrite map_app, in_app_iff. intros [F|F]; contradiction.
Qed.
Lemma one_proper k (v : V) : proper [(Some k, v)].
Proof. split; cbn; [constructor; [intros []|constructor]|intros [F|[]]; discriminate]. Qed.
Lemma one_says k k' (v : V) : says [(Some k, v)] k' <-> k' = k.
Proof. unfold says. cbn. split; [intros [F|[]]; congruence|intros ->; auto]. Qed.
End Kw.

Section Build.
Context {V Cls : Type}.
Variable parse_call : V -> res (Cls * list V * kwargs V).
Variable override : V -> V -> res V.
Hypothesis parse_nodup : forall n cls args p, parse_call n = Ok (cls, args, p) -> NoDup (map fst p).
Notation get := (@dget (option string) V key_eqb).
Notation create := (create_flax_model V Cls parse_call).
Notation restore := (restore_module V Cls parse_call override).

(** Training *)
Lemma create_ok c det name r : NoDup (map fst (items V c)) -> In ("name", name) (items V c) ->
  (fst (create c det) = Ok r <->
   exists p, parse_call name = Ok (c_cls V Cls r, c_args V Cls r, p) /\ ~ In None (map fst p)
   /\ (forall k, k <> "name" -> has (items V c) k -> ~ says p k) /\ ~ says p "deterministic" /\ ~ has (items V c) "deterministic"
   /\ c_kwargs V Cls r = p ++ as_kwargs V (without_name V (items V c)) ++ [(Some "deterministic", det)]).
Proof.
  intros N Hn. apply (name_some _ _ N) in Hn. unfold create_flax_model. rewrite Hn. cbn [fst]. destruct (parse_call name) as [[[cls args] p]|e] eqn:P; cbn [bind].
  2: { split; [discriminate|]. intros (p & F & _). discriminate. }
  set (b := as_kwargs V (without_name V (items V c))).
  assert (Hb : forall k, says b k <-> has (items V c) k /\ k <> "name") by (intros k; unfold b; rewrite as_has, without_has; reflexivity).
  split.
  - intros H. destruct (call_kwargs [] p) as [p1|e] eqn:C1; cbn [bind] in H; [|discriminate]. apply merge_ok in C1. destruct C1 as (-> & C1 & _). cbn [app] in H.
    destruct (call_kwargs p b) as [p2|e] eqn:C2; cbn [bind] in H; [|discriminate]. apply merge_ok in C2. destruct C2 as (-> & _ & C2).
    destruct (call_kwargs (p ++ b) _) as [p3|e] eqn:C3; cbn [bind] in H; [|discriminate]. apply merge_ok in C3. destruct C3 as (-> & _ & C3).
    injection H as <-. cbn [c_cls c_args c_kwargs]. exists p. split; [reflexivity|]. split; [exact C1|]. split; [intros k K Hk; apply C2, Hb; auto|].
    specialize (C3 "deterministic" ltac:(apply one_says; reflexivity)). rewrite app_says, Hb in C3.
    split; [intros F; apply C3; auto|]. split; [intros F; apply C3; right; split; [exact F|discriminate]|]. rewrite <- app_assoc. reflexivity.
  - intros (p' & F & H1 & H2 & H3 & H4 & H5). injection F as -> -> <-.
    assert (C1 : call_kwargs [] p = Ok p) by (apply merge_ok; split; [reflexivity|]; split; [exact H1|intros k _ []]). rewrite C1. cbn [bind].
    assert (C2 : call_kwargs p b = Ok (p ++ b)) by (apply merge_ok; split; [reflexivity|]; split; [apply as_none|]; intros k Hk; apply Hb in Hk; destruct Hk; apply H2; assumption). rewrite C2. cbn [bind].
    assert (C3 : call_kwargs (p ++ b) [(Some "deterministic", det)] = Ok ((p ++ b) ++ [(Some "deterministic", det)])).
    { apply merge_ok. split; [reflexivity|]. split; [apply one_proper|]. intros k Hk. apply one_says in Hk. subst k. rewrite app_says, Hb. intros [F|[F _]]; contradiction. }
    rewrite C3. cbn [bind]. rewrite <- app_assoc, <- H5. destruct r; reflexivity.
Qed.
Lemma create_errors c det e : NoDup (map fst (items V c)) ->
  fst (create c det) = Raise e ->
  (~ has (items V c) "name" /\ e = KeyError)
  \/ exists name, In ("name", name) (items V c) /\ (parse_call name = Raise e \/ (exists x, parse_call name = Ok x) /\ e = TypeError).
Proof.
  intros N H. unfold create_flax_model in H. destruct (kget _ _) as [name|] eqn:Hn; cbn [fst] in H.
  2: { left. apply name_none in Hn. split; [exact Hn|congruence]. }
  right. exists name. split; [apply (name_some _ _ N), Hn|]. destruct (parse_call name) as [[[cls args] p]|e0] eqn:P; cbn [bind] in H; [|left; congruence].
  right. split; [eexists; reflexivity|]. destruct (merge_dec [] p) as [(p1 & C)|C]; rewrite C in H; cbn [bind] in H; [|congruence].
  destruct (merge_dec p1 (as_kwargs V (without_name V (items V c)))) as [(p2 & C2)|C2]; rewrite C2 in H; cbn [bind] in H; [|congruence].
  destruct (merge_dec p2 [(Some "deterministic", det)]) as [(p3 & C3)|C3]; rewrite C3 in H; cbn [bind] in H; congruence.
Qed.
Lemma create_options c det r : NoDup (map fst (items V c)) -> fst (create c det) = Ok r ->
  exists name p, In ("name", name) (items V c) /\ parse_call name = Ok (c_cls V Cls r, c_args V Cls r, p)
  /\ passes r (fun k v => (k = "deterministic" /\ v = det) \/ (k <> "name" /\ In (k, v) (items V c)) \/ In (Some k, v) p).
Proof.
  intros N H. assert (Hn : has (items V c) "name").
  { destruct (in_dec string_dec "name" (map fst (items V c))) as [A|A]; [exact A|]. exfalso. unfold create_flax_model in H. apply name_none in A. rewrite A in H. discriminate. }
  apply in_has in Hn. destruct Hn as (name & Hn). exists name. pose proof H as H'. apply (create_ok c det name r N Hn) in H'. destruct H' as (p & P & H1 & H2 & H3 & H4 & H5).
  exists p. split; [exact Hn|]. split; [exact P|]. unfold passes. rewrite H5.
  assert (Hb : forall k, says (as_kwargs V (without_name V (items V c))) k <-> has (items V c) k /\ k <> "name") by (intros k; rewrite as_has, without_has; reflexivity). split.
  - apply proper_app; [split; [eapply parse_nodup, P|exact H1]| |].
    + apply proper_app; [split; [apply as_nodup, without_nodup, N|apply as_none]|apply one_proper|]. intros k Hk. apply one_says in Hk. subst k. rewrite Hb. intros [F _]. contradiction.
    + intros k Hk. apply app_says in Hk. destruct Hk as [Hk|Hk]; [apply Hb in Hk; destruct Hk; apply H2; assumption|apply one_says in Hk; subst k; exact H3].
  - intros k v. rewrite !in_app_iff, as_in, without_in. cbn [In]. split.
    + intros [F|[[F G]|[F|[]]]]; [auto|auto|injection F as <- <-; auto].
    + intros [[-> ->]|[[F G]|F]]; auto.
Qed.
(** The dictionary of the caller *)
Lemma create_after c det : snd (create c det) = (if is_config_dict V c then c else {| is_config_dict := false; items := without_name V (items V c) |}) \/ (~ has (items V c) "name" /\ snd (create c det) = c).
Proof. unfold create_flax_model. destruct (kget _ _) eqn:E; cbn [snd]; [left; reflexivity|right; split; [apply name_none, E|reflexivity]]. Qed.
Lemma create_twice c det det' : is_config_dict V c = false -> fst (create (snd (create c det)) det') = Raise KeyError.
Proof.
  intros Hc. assert (A : ~ has (items V (snd (create c det))) "name").
  { destruct (create_after c det) as [E|[E1 E2]].
    - rewrite E, Hc. cbn [items]. rewrite without_has. intros [_ F]. contradiction.
    - rewrite E2. exact E1. }
  unfold create_flax_model at 1. apply name_none in A. rewrite A. reflexivity.
Qed.
Lemma create_repeat c det : is_config_dict V c = true -> snd (create c det) = c.
Proof. intros Hc. destruct (create_after c det) as [E|[_ E]]; [rewrite E, Hc; reflexivity|exact E]. Qed.

(** ConfigDict.update *)
Lemma update_get l : forall d r, NoDup (map fst l) -> NoDup (map fst d) -> config_update V override d l = Ok r ->
  NoDup (map fst r) /\ (forall k, In k (map fst r) <-> In k (map fst d) \/ In k (map Some (map fst l)))
  /\ forall k v, get r (Some k) = Some v <->
     (~ has l k /\ get d (Some k) = Some v) \/ (exists w, In (k, w) l /\ get d (Some k) = None /\ v = w) \/ (exists old w, In (k, w) l /\ get d (Some k) = Some old /\ override old w = Ok v).
Proof.
  induction l as [|[k0 w0] l IH]; intros d r N Nd H.
  - cbn in H. injection H as <-. split; [exact Nd|]. split; [intros k; cbn; split; [auto|intros [F|[]]; exact F]|].
    intros k v. split; [intros F; left; split; [intros []|exact F]|intros [[_ F]|[(w & [] & _)|(o & w & [] & _)]]; exact F].
  - cbn [map fst] in N. inversion N as [|? ? N1 N2]; subst. unfold config_update in *. cbn [rfold] in H. cbn [fst snd] in H.
    destruct (kget d k0) as [old|] eqn:G.
    + destruct (override old w0) as [v0|e] eqn:O; cbn [bind] in H; [|discriminate]. unfold kset in H.
      destruct (IH _ _ N2 (put_nodup d (Some k0) v0 Nd) H) as (A & B & C). split; [exact A|]. split.
      * intros k. rewrite B, put_in. cbn [map fst In]. split; [intros [[->|F]|F]; auto|intros [F|[F|F]]; auto].
      * intros k v. rewrite C, get_put. destruct (string_dec k0 k) as [<-|Hk].
        -- rewrite key_eqb_refl. unfold kget in G. split.
           ++ intros [[_ F]|[(w & F & _)|(o & w & F & _)]]; [|exfalso; apply N1, in_has; exists w; exact F|exfalso; apply N1, in_has; exists w; exact F].
              injection F as <-. right. right. exists old, w0. split; [left; reflexivity|]. auto.
           ++ intros [[F _]|[(w & _ & F & _)|(o & w & F1 & F2 & F3)]]; [exfalso; apply F; left; reflexivity|congruence|].
              left. split; [exact N1|]. destruct F1 as [F1|F1]; [injection F1 as <-; congruence|exfalso; apply N1, in_has; exists w; exact F1].
        -- rewrite key_eqb_neq by congruence. assert (E : forall w, In (k, w) ((k0, w0) :: l) <-> In (k, w) l) by (intros w; cbn; split; [intros [F|F]; [congruence|exact F]|auto]).
           assert (E' : has ((k0, w0) :: l) k <-> has l k) by (rewrite !in_has; split; intros (w & F); exists w; apply E; exact F). rewrite E'.
           split; (intros [F|[(w & F & G')|(o & w & F & G')]]; [left; exact F|right; left; exists w; split; [apply E; exact F|exact G']|right; right; exists o, w; split; [apply E; exact F|exact G']]).
    + cbn [bind] in H. unfold kset in H. destruct (IH _ _ N2 (put_nodup d (Some k0) w0 Nd) H) as (A & B & C). split; [exact A|]. split.
      * intros k. rewrite B, put_in. cbn [map fst In]. split; [intros [[->|F]|F]; auto|intros [F|[F|F]]; auto].
      * intros k v. rewrite C, get_put. destruct (string_dec k0 k) as [<-|Hk].
        -- rewrite key_eqb_refl. unfold kget in G. split.
           ++ intros [[_ F]|[(w & F & _)|(o & w & F & _)]]; [|exfalso; apply N1, in_has; exists w; exact F|exfalso; apply N1, in_has; exists w; exact F].
              injection F as <-. right. left. exists w0. split; [left; reflexivity|]. auto.
           ++ intros [[F _]|[(w & F1 & F2 & ->)|(o & w & _ & F & _)]]; [exfalso; apply F; left; reflexivity| |congruence].
              left. split; [exact N1|]. destruct F1 as [F1|F1]; [congruence|exfalso; apply N1, in_has; exists w; exact F1].
        -- rewrite key_eqb_neq by congruence. assert (E : forall w, In (k, w) ((k0, w0) :: l) <-> In (k, w) l) by (intros w; cbn; split; [intros [F|F]; [congruence|exact F]|auto]).
           assert (E' : has ((k0, w0) :: l) k <-> has l k) by (rewrite !in_has; split; intros (w & F); exists w; apply E; exact F). rewrite E'.
           split; (intros [F|[(w & F & G')|(o & w & F & G')]]; [left; exact F|right; left; exists w; split; [apply E; exact F|exact G']|right; right; exists o, w; split; [apply E; exact F|exact G']]).
Qed.
Lemma update_defined l : forall d, NoDup (map fst l) -> ((exists r, config_update V override d l = Ok r) <-> forall k w old, In (k, w) l -> get d (Some k) = Some old -> exists v, override old w = Ok v).
Proof.
  induction l as [|[k0 w0] l IH]; intros d N; [split; [intros _ k w old []|intros _; exists d; reflexivity]|].
  cbn [map fst] in N. inversion N as [|? ? N1 N2]; subst. unfold config_update in *. cbn [rfold fst snd]. unfold kget, kset.
  assert (E : forall v0 k w, In (k, w) l -> get (dset key_eqb d (Some k0) v0) (Some k) = get d (Some k)).
  { intros v0 k w F. apply get_put_other. intros Z. injection Z as ->. apply N1, in_has. exists w. exact F. }
  destruct (get d (Some k0)) as [old|] eqn:G.
  - destruct (override old w0) as [v0|e] eqn:O; cbn [bind].
    + rewrite (IH _ N2). split; intros H k w o F F'.
      * destruct F as [F|F]; [injection F as <- <-; exists v0; congruence|]. apply (H k w o F). rewrite (E v0 k w F). exact F'.
      * apply (H k w o (or_intror F)). rewrite (E v0 k w F) in F'. exact F'.
    + split; [intros (r & F); discriminate|]. intros H. destruct (H k0 w0 old (or_introl eq_refl) G) as (v & F). congruence.
  - cbn [bind]. rewrite (IH _ N2). split; intros H k w o F F'.
    + destruct F as [F|F]; [injection F as <- <-; congruence|]. apply (H k w o F). rewrite (E w0 k w F). exact F'.
    + apply (H k w o (or_intror F)). rewrite (E w0 k w F) in F'. exact F'.
Qed.

(** Attacks *)
Lemma restore_inv l t r : NoDup (map fst l) -> restore l t = Ok r ->
  exists name p u, In ("name", name) l /\ parse_call name = Ok (c_cls V Cls r, c_args V Cls r, p) /\ ~ In None (map fst p)
  /\ config_update V override p l = Ok u /\ ~ says u "deterministic" /\ c_kwargs V Cls r = u ++ [(Some "deterministic", t)].
Proof.
  intros N H. unfold restore_module in H. destruct (kget _ _) as [name|] eqn:Hn; [|discriminate]. apply (name_some _ _ N) in Hn.
  destruct (parse_call name) as [[[cls args] p]|e] eqn:P; cbn [bind] in H; [|discriminate].
  destruct (call_kwargs [] p) as [p1|e] eqn:C1; cbn [bind] in H; [|discriminate]. apply merge_ok in C1. destruct C1 as (-> & C1 & _). cbn [app] in H.
  destruct (config_update V override p l) as [u|e] eqn:U; cbn [bind] in H; [|discriminate].
  destruct (call_kwargs u _) as [p3|e] eqn:C3; cbn [bind] in H; [|discriminate]. apply merge_ok in C3. destruct C3 as (-> & _ & C3). injection H as <-. cbn [c_cls c_args c_kwargs].
  exists name, p, u. repeat (split; [assumption||reflexivity|]). split; [|reflexivity]. apply C3, one_says. reflexivity.
Qed.
Lemma restore_options l t r : NoDup (map fst l) -> restore l t = Ok r ->
  exists name p, In ("name", name) l /\ parse_call name = Ok (c_cls V Cls r, c_args V Cls r, p)
  /\ passes r (fun k v => (k = "deterministic" /\ v = t) \/ (~ has l k /\ In (Some k, v) p) \/ (~ says p k /\ In (k, v) l)
                          \/ exists old w, In (Some k, old) p /\ In (k, w) l /\ override old w = Ok v).
Proof.
  intros N H. destruct (restore_inv l t r N H) as (name & p & u & Hn & P & H1 & U & H3 & H5). exists name, p. split; [exact Hn|]. split; [exact P|].
  pose proof (parse_nodup _ _ _ _ P) as Np. destruct (update_get l p u N Np U) as (A & B & C). unfold passes. rewrite H5. split.
  - apply proper_app; [split; [exact A|]|apply one_proper|].
    + rewrite B. intros [F|F]; [contradiction|]. apply in_map_iff in F. destruct F as (x & F & _). discriminate.
    + intros k Hk. apply one_says in Hk. subst k. exact H3.
  - intros k v. rewrite in_app_iff, <- (get_In u _ _ A), C. cbn [In].
    assert (E : forall o, get p (Some k) = Some o <-> In (Some k, o) p) by (intros o; apply get_In, Np). pose proof (get_none p (Some k)) as E'. fold (says p k) in E'. split.
    + intros [[[F G]|[(w & F & G & ->)|(o & w & F & G & G')]]|[F|[]]].
      * right. left. split; [exact F|apply E, G].
      * right. right. left. split; [apply E', G|exact F].
      * right. right. right. exists o, w. split; [apply E, G|auto].
      * injection F as <- <-. auto.
    + intros [[-> ->]|[[F G]|[[F G]|(o & w & F & G & G')]]].
      * auto.
      * left. left. split; [exact F|apply E, G].
      * left. right. left. exists v. split; [exact G|]. split; [apply E', F|reflexivity].
      * left. right. right. exists o, w. split; [exact G|]. split; [apply E, F|exact G'].
Qed.
Lemma restore_accepts l t : NoDup (map fst l) ->
  ((exists r, restore l t = Ok r) <->
   exists name cls args p, In ("name", name) l /\ parse_call name = Ok (cls, args, p) /\ ~ In None (map fst p)
   /\ ~ says p "deterministic" /\ ~ has l "deterministic"
   /\ forall k w old, In (k, w) l -> In (Some k, old) p -> exists v, override old w = Ok v).
Proof.
  intros N. split.
  - intros (r & H). destruct (restore_inv l t r N H) as (name & p & u & Hn & P & H1 & U & H3 & _). exists name, (c_cls V Cls r), (c_args V Cls r), p.
    pose proof (parse_nodup _ _ _ _ P) as Np. destruct (update_get l p u N Np U) as (A & B & _). repeat (split; [assumption|]). unfold says, has in *.
    split; [intros F; apply H3, B; auto|]. split; [intros F; apply H3, B; right; apply in_map, F|]. intros k w old F G. destruct (update_defined l p N) as [D _]. apply (D (ex_intro _ u U) k w old F), get_In; assumption.
  - intros (name & cls & args & p & Hn & P & H1 & H2 & H3 & H4). apply (name_some _ _ N) in Hn. unfold restore_module. rewrite Hn, P. cbn [bind].
    assert (C1 : call_kwargs [] p = Ok p) by (apply merge_ok; split; [reflexivity|]; split; [exact H1|intros k _ []]). rewrite C1. cbn [bind].
    pose proof (parse_nodup _ _ _ _ P) as Np. destruct (update_defined l p N) as [_ D]. destruct D as (u & U); [intros k w old F G; apply (H4 k w old F), get_In; assumption|]. rewrite U. cbn [bind].
    destruct (update_get l p u N Np U) as (_ & B & _).
    assert (C3 : call_kwargs u [(Some "deterministic", t)] = Ok (u ++ [(Some "deterministic", t)])).
    { apply merge_ok. split; [reflexivity|]. split; [apply one_proper|]. intros k Hk. apply one_says in Hk. subst k. unfold says in *. rewrite B. intros [F|F]; [contradiction|].
      apply in_map_iff in F. destruct F as (x & F & Hx). injection F as ->. contradiction. }
    rewrite C3. cbn [bind]. eexists. reflexivity.
Qed.
(** The attacked model is the one of evaluations *)
Lemma same_model c t r : NoDup (map fst (items V c)) -> (forall name cls args p, In ("name", name) (items V c) -> parse_call name = Ok (cls, args, p) -> ~ says p "name") ->
  fst (create c t) = Ok r ->
  exists a name, restore (items V c) t = Ok a /\ same_but_name r a /\ In ("name", name) (items V c) /\ In (Some "name", name) (c_kwargs V Cls a).
Proof.
  intros N Hp H. pose proof H as H'. apply (create_options c t r N) in H'. destruct H' as (name & p & Hn & P & _ & O).
  pose proof (proj1 (create_ok c t name r N Hn) H) as (p' & P' & G1 & G2 & G3 & G4 & _). rewrite P in P'. injection P' as <-. specialize (Hp name _ _ p Hn P).
  assert (Dis : forall k, has (items V c) k -> ~ says p k) by (intros k Hk; destruct (string_dec k "name") as [->|Z]; [exact Hp|apply G2; assumption]).
  destruct (proj2 (restore_accepts (items V c) t N)) as (a & Ha).
  { exists name, (c_cls V Cls r), (c_args V Cls r), p. repeat (split; [assumption|]). intros k w old F F'. exfalso. apply (Dis k); [apply in_has; exists w; exact F|]. apply (in_map fst) in F'. exact F'. }
  exists a, name. split; [exact Ha|]. destruct (restore_options (items V c) t a N Ha) as (name' & p' & Hn' & P' & _ & O').
  rewrite (unique _ _ _ _ N Hn' Hn), P in P'. injection P' as E1 E2 <-.
  split; [|split; [exact Hn|]].
  - split; [exact E1|]. split; [exact E2|]. intros k v Hk. rewrite O, O'. split.
    + intros [F|[[_ F]|F]].
      * auto.
      * right. right. left. split; [|exact F]. apply Dis, in_has. exists v. exact F.
      * right. left. split; [|exact F]. intros G. apply (Dis k G). apply (in_map fst) in F. exact F.
    + intros [F|[[_ F]|[[_ F]|(o & w & F & F' & _)]]]; [auto|auto|auto|]. exfalso. apply (Dis k); [apply in_has; exists w; exact F'|]. apply (in_map fst) in F. exact F.
  - apply O'. right. right. left. split; [exact Hp|exact Hn].
Qed.

(** Towers *)
Lemma tower_ok default l det name r : NoDup (map fst l) ->
  tower V Cls parse_call default l det name = Ok r ->
  exists cls p, (In ("name", cls) l \/ ~ has l "name" /\ cls = default) /\ parse_call cls = Ok (c_cls V Cls r, c_args V Cls r, p)
  /\ ~ says p "deterministic" /\ ~ has l "deterministic" /\ ~ In None (map fst p)
  /\ passes r (fun k v => (k = "name" /\ v = name) \/ (k = "deterministic" /\ v = det)
                          \/ (k <> "name" /\ In (k, v) l) \/ (k <> "name" /\ ~ has l k /\ In (Some k, v) p)).
Proof.
  intros N H. unfold tower in H. set (cls := match kget (as_kwargs V l) "name" with Some v => v | None => default end) in *.
  assert (Hc : In ("name", cls) l \/ ~ has l "name" /\ cls = default).
  { unfold cls. destruct (kget _ _) as [v|] eqn:E; [left; apply (name_some _ _ N), E|right; split; [apply name_none, E|reflexivity]]. }
  destruct (parse_call cls) as [[[mc args] p]|e] eqn:P; cbn [bind] in H; [|discriminate]. pose proof (parse_nodup _ _ _ _ P) as Np.
  set (w := as_kwargs V (without_name V l)) in *. pose proof (as_nodup _ (without_nodup l N)) as Nw. fold w in Nw. pose proof (union_nodup w p Np) as Nu.
  destruct (call_kwargs [] (kunion p w)) as [p1|e] eqn:C1; cbn [bind] in H; [|discriminate]. apply merge_ok in C1. destruct C1 as (-> & C1 & _). cbn [app] in H.
  destruct (call_kwargs (kunion p w) _) as [p2|e] eqn:C2; cbn [bind] in H; [|discriminate]. apply merge_ok in C2. destruct C2 as (-> & _ & C2). specialize (C2 "deterministic" ltac:(apply one_says; reflexivity)).
  injection H as <-. cbn [c_cls c_args]. exists cls, p. split; [exact Hc|]. split; [exact P|]. unfold says in C2. rewrite union_in in C1, C2.
  assert (Hw : forall k, In (Some k) (map fst w) <-> has l k /\ k <> "name") by (intros k; fold (says w k); unfold w; rewrite as_has, without_has; reflexivity).
  split; [intros F; apply C2; auto|]. split; [intros F; apply C2; right; apply Hw; split; [exact F|discriminate]|]. split; [intros F; apply C1; auto|].
  set (u := kunion p w) in *. assert (Pu : proper (u ++ [(Some "deterministic", det)])).
  { apply proper_app; [split; [exact Nu|unfold u; rewrite union_in; exact C1]|apply one_proper|]. intros k Hk. apply one_says in Hk. subst k. unfold says, u. rewrite union_in. exact C2. }
  destruct Pu as [Pu1 Pu2]. unfold passes. cbn [c_kwargs]. unfold kset. pose proof (put_nodup _ (Some "name") name Pu1) as Nf. split.
  - split; [exact Nf|]. rewrite put_in. intros [F|F]; [discriminate|contradiction].
  - intros k v. rewrite <- (get_In _ _ _ Nf), get_put. destruct (string_dec k "name") as [->|Hk].
    + rewrite key_eqb_refl. split; [intros F; injection F as ->; auto|]. intros [[_ ->]|[[F _]|[[F _]|[F _]]]]; [reflexivity|discriminate|contradiction|contradiction].
    + rewrite key_eqb_neq by congruence. rewrite (get_In _ _ _ Pu1), in_app_iff. cbn [In]. rewrite <- (get_In u (Some k) v Nu). unfold u. rewrite (union_get _ _ _ Nw).
      assert (Iw : In (Some k, v) w <-> In (k, v) l) by (unfold w; rewrite as_in, without_in; split; [intros [F _]; exact F|auto]).
      destruct (get w (Some k)) as [x|] eqn:G.
      * assert (Gx : In (k, x) l) by (apply (get_In _ _ _ Nw) in G; unfold w in G; apply as_in, without_in in G; apply G). split.
        -- intros [F|[F|[]]]; [injection F as <-; auto|injection F as <- <-; auto].
        -- intros [[F _]|[[-> ->]|[[_ F]|(_ & F & _)]]]; [contradiction|auto|left; f_equal; apply (unique l k); assumption|exfalso; apply F, in_has; exists x; exact Gx].
      * assert (Gl : ~ has l k) by (apply get_none in G; intros F; apply G, Hw; auto). rewrite (get_In _ _ _ Np). split.
        -- intros [F|[F|[]]]; [auto 6|injection F as <- <-; auto].
        -- intros [[F _]|[[-> ->]|[[_ F]|(_ & _ & F)]]]; [contradiction|auto|exfalso; apply Gl, in_has; exists v; exact F|auto].
Qed.
Lemma tower_accepts default l det name cls : NoDup (map fst l) -> In ("name", cls) l \/ ~ has l "name" /\ cls = default ->
  ((exists r, tower V Cls parse_call default l det name = Ok r) <->
   exists mc args p, parse_call cls = Ok (mc, args, p) /\ ~ says p "deterministic" /\ ~ has l "deterministic" /\ ~ In None (map fst p)).
Proof.
  intros N Hc. split.
  - intros (r & H). destruct (tower_ok default l det name r N H) as (cls' & p & Hc' & P & A & B & C & _).
    assert (E : cls' = cls). { destruct Hc as [Hc|[Hc ->]], Hc' as [Hc'|[Hc' ->]]; [exact (unique l _ _ _ N Hc' Hc)|exfalso; apply Hc', in_has; exists cls; exact Hc|exfalso; apply Hc, in_has; exists cls'; exact Hc'|reflexivity]. }
    subst cls'. exists (c_cls V Cls r), (c_args V Cls r), p. auto.
  - intros (mc & args & p & P & A & B & C). unfold tower.
    assert (E : match kget (as_kwargs V l) "name" with Some v => v | None => default end = cls).
    { destruct Hc as [Hc|[Hc ->]]; [apply (name_some _ _ N) in Hc; rewrite Hc; reflexivity|apply name_none in Hc; rewrite Hc; reflexivity]. }
    rewrite E, P. cbn [bind]. set (w := as_kwargs V (without_name V l)).
    assert (C1 : call_kwargs [] (kunion p w) = Ok (kunion p w)) by (apply merge_ok; split; [reflexivity|]; split; [rewrite union_in; intros [F|F]; [contradiction|exact (as_none _ F)]|intros k _ []]). rewrite C1. cbn [bind].
    assert (C2 : call_kwargs (kunion p w) [(Some "deterministic", det)] = Ok (kunion p w ++ [(Some "deterministic", det)])).
    { apply merge_ok. split; [reflexivity|]. split; [apply one_proper|]. intros k Hk. apply one_says in Hk. subst k. unfold says in *. rewrite union_in. intros [F|F]; [contradiction|].
      fold (says w "deterministic") in F. unfold w in F. rewrite as_has, without_has in F. destruct F. contradiction. }
    rewrite C2. cbn [bind]. eexists. reflexivity.
Qed.
End Build.
