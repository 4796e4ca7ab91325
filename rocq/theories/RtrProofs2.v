(** Proofs for C94: calls of routers and of partial classes. *)
From Coq Require Import String List Arith ZArith Bool Lia FinFun.
From Verif Require Import PpModel RtrModel RtrSpec RtrProofs.
From Verif Require Import Py.
Import ListNotations.
Local Open Scope string_scope.
Local Open Scope list_scope.
Local Open Scope nat_scope.

Section Router.
Context {V Cls : Type}.
Variable parse_call : V -> res (Cls * list V * kwargs V).
Variables (default_name router_name : V).
Variable of_int : Z -> V.
Variable ensemble_cls : Cls.
Notation get := (@dget (option string) V key_eqb).
Notation create := (create_router V Cls parse_call default_name router_name).
Notation create_e := (create_router_ensemble V Cls router_name of_int ensemble_cls).

Lemma router_keys l : map fst (router_of V l) = map Some (map fst (@options V l)).
Proof. unfold router_of, options. destruct (l_router V l) as [d|]; [|reflexivity]. rewrite !map_map. reflexivity. Qed.
Lemma router_none l : ~ In None (map fst (router_of V l)).
Proof. rewrite router_keys. intros H. apply in_map_iff in H. destruct H as (x & F & _). discriminate. Qed.
Lemma router_some l k : In (Some k) (map fst (router_of V l)) <-> given l k.
Proof. rewrite router_keys. unfold given. split; [|apply in_map]. intros H. apply in_map_iff in H. destruct H as (x & F & Hx). injection F as ->. exact Hx. Qed.
Lemma router_in l k v : In (Some k, v) (router_of V l) <-> In (k, v) (options l).
Proof.
  unfold router_of, options. destruct (l_router V l) as [d|]; [|reflexivity]. split.
  - intros H. apply in_map_iff in H. destruct H as ([k' v'] & F & Hx). injection F as -> ->. exact Hx.
  - intros H. apply in_map_iff. exists (k, v). auto.
Qed.
Lemma router_nodup l : dictionary l -> NoDup (map fst (router_of V l)).
Proof. rewrite router_keys. apply Injective_map_NoDup. intros a b H. injection H as ->. reflexivity. Qed.
Lemma given_in (l : layer V) k v : In (k, v) (options l) -> given l k.
Proof. intros H. apply (in_map fst) in H. exact H. Qed.

(** The dictionary that both kinds of layers build *)
Lemma kwargs_raise l e : router_kwargs V l = Raise e <-> e = TypeError /\ given l "num_experts".
Proof.
  unfold router_kwargs. destruct (call_kwargs _ _) as [d|e'] eqn:C; cbn [bind].
  - split; [discriminate|]. intros [_ G]. exfalso.
    assert (C' : call_kwargs [(Some "num_experts", l_num_experts V l)] (router_of V l) = Raise TypeError); [|congruence].
    apply call_raise. split; [reflexivity|]. right. exists "num_experts". split; [apply router_some, G|left; reflexivity].
  - apply call_raise in C. destruct C as [-> C]. split; [intros H; injection H as <-; split; [reflexivity|]|intros [-> _]; reflexivity].
    destruct C as [C|(k & C & D)]; [exfalso; exact (router_none l C)|]. destruct D as [D|[]]. injection D as <-. apply router_some, C.
Qed.
Definition base_option (l : layer V) (k : string) (v : V) : Prop :=
  (k = "num_experts" /\ v = l_num_experts V l) \/ determined l k v \/ (k <> "num_experts" /\ k <> "deterministic" /\ In (k, v) (options l)).
Lemma kwargs_ok l d : dictionary l -> router_kwargs V l = Ok d ->
  ~ given l "num_experts" /\ NoDup (map fst d) /\ ~ In None (map fst d)
  /\ (forall k, In (Some k) (map fst d) <-> k = "num_experts" \/ k = "deterministic" \/ given l k)
  /\ (forall k v, In (Some k, v) d <-> base_option l k v).
Proof.
  intros W H. assert (NG : ~ given l "num_experts").
  { intros G. assert (E : router_kwargs V l = Raise TypeError) by (apply kwargs_raise; auto). congruence. }
  unfold router_kwargs in H. destruct (call_kwargs _ _) as [d0|e'] eqn:C; cbn [bind] in H; [|discriminate]. injection H as <-.
  apply call_ok in C. destruct C as (-> & _ & _). pose proof (router_nodup l W) as NR.
  set (d0 := [(Some "num_experts", l_num_experts V l)] ++ router_of V l).
  assert (N0 : NoDup (map fst d0)) by (unfold d0; cbn [app map fst]; constructor; [rewrite router_some; exact NG|exact NR]).
  assert (K0 : forall k, In (Some k) (map fst d0) <-> k = "num_experts" \/ given l k).
  { intros k. unfold d0. cbn [app map fst In]. rewrite router_some. split; [intros [F|F]; [injection F as <-; auto|auto]|intros [->|F]; auto]. }
  assert (I0 : forall k v, In (Some k, v) d0 <-> (k = "num_experts" /\ v = l_num_experts V l) \/ In (k, v) (options l)).
  { intros k v. unfold d0. cbn [app In]. rewrite router_in. split; [intros [F|F]; [injection F as <- <-; auto|auto]|intros [[-> ->]|F]; auto]. }
  assert (Nn : ~ In None (map fst d0)) by (unfold d0; cbn [app map fst In]; intros [F|F]; [discriminate|exact (router_none l F)]).
  unfold kset. set (v0 := match kget d0 "deterministic" with Some v => v | None => l_deterministic V l end).
  assert (V0 : forall v, v0 = v <-> In ("deterministic", v) (options l) \/ ~ given l "deterministic" /\ v = l_deterministic V l).
  { intros v. unfold v0, kget. destruct (get d0 (Some "deterministic")) as [w|] eqn:G.
    - apply get_In in G; [|exact N0]. apply I0 in G. destruct G as [[F _]|G]; [discriminate|]. split.
      + intros <-. left. exact G.
      + intros [F|[F _]]; [|exfalso; apply F, (given_in l _ w G)].
        assert (A : In (Some "deterministic", w) d0) by (apply I0; right; exact G). assert (B : In (Some "deterministic", v) d0) by (apply I0; right; exact F).
        apply (get_In d0 _ _ N0) in A. apply (get_In d0 _ _ N0) in B. congruence.
    - apply get_none in G. rewrite K0 in G. split.
      + intros <-. right. split; [intros F; apply G; right; exact F|reflexivity].
      + intros [F|[_ ->]]; [exfalso; apply G; right; exact (given_in l _ v F)|reflexivity]. }
  pose proof (put_nodup d0 (Some "deterministic") v0 N0) as N1.
  split; [exact NG|]. split; [exact N1|]. split; [rewrite put_in; intros [F|F]; [discriminate|contradiction]|]. split.
  - intros k. rewrite put_in, K0. split; [intros [F|[F|F]]; [injection F as ->; auto|auto|auto]|intros [F|[->|F]]; auto].
  - intros k v. rewrite <- (get_In _ (Some k) v N1), get_put. unfold base_option, determined.
    destruct (string_dec k "deterministic") as [->|Hk].
    + rewrite key_eqb_refl. split.
      * intros F. right. left. split; [reflexivity|]. apply V0. congruence.
      * intros [[F _]|[[_ F]|(_ & F & _)]]; [discriminate| |contradiction]. apply V0 in F. congruence.
    + rewrite key_eqb_neq by congruence. rewrite (get_In d0 _ _ N0), I0. split.
      * intros [F|F]; [left; exact F|]. right. right. split; [intros ->; exact (NG (given_in l _ v F))|]. split; assumption.
      * intros [F|[[F _]|(_ & _ & F)]]; [left; exact F|contradiction|right; exact F].
Qed.
Lemma kwargs_name l d : dictionary l -> router_kwargs V l = Ok d ->
  named default_name l (match kget d "name" with Some v => v | None => default_name end).
Proof.
  intros W H. destruct (kwargs_ok l d W H) as (_ & N & _ & K & I). unfold kget, named. destruct (get d (Some "name")) as [v|] eqn:G.
  - left. apply get_In in G; [|exact N]. apply I in G. destruct G as [[F _]|[[F _]|(_ & _ & F)]]; [discriminate|discriminate|exact F].
  - right. split; [|reflexivity]. intros F. apply get_none in G. apply G, K. auto.
Qed.
Lemma named_unique l n m : dictionary l -> named default_name l n -> named default_name l m -> n = m.
Proof.
  intros W [A|[A ->]] [B|[B ->]]; [|exfalso; exact (B (given_in l _ _ A))|exfalso; exact (A (given_in l _ _ B))|reflexivity].
  apply router_in in A. apply router_in in B. apply (get_In _ _ _ (router_nodup l W)) in A. apply (get_In _ _ _ (router_nodup l W)) in B. congruence.
Qed.

(** create_router *)
Lemma create_errors l name e : dictionary l -> named default_name l name ->
  (create l = Raise e <->
   (given l "num_experts" /\ e = TypeError)
   \/ (~ given l "num_experts" /\ parse_call name = Raise e)
   \/ (~ given l "num_experts" /\ exists cls args parsed, parse_call name = Ok (cls, args, parsed) /\ e = TypeError
       /\ (given l "dtype" \/ In (Some "dtype") (map fst parsed) \/ In (Some "name") (map fst parsed) \/ In None (map fst parsed)))).
Proof.
  intros W Hn. unfold create_router. destruct (router_kwargs V l) as [d|e0] eqn:K; cbn [bind].
  2: { apply kwargs_raise in K. destruct K as [-> G]. split; [intros H; injection H as <-; auto|]. intros [[_ ->]|[[F _]|[F _]]]; [reflexivity|contradiction|contradiction]. }
  rewrite (named_unique l _ _ W (kwargs_name l d W K) Hn). destruct (kwargs_ok l d W K) as (NG & N & Nn & Kk & _).
  destruct (parse_call name) as [[[cls args] parsed]|e0] eqn:P; cbn [bind].
  2: { split; [intros H; injection H as <-; auto|]. intros [[F _]|[[_ F]|(_ & cls & args & parsed & F & _)]]; [contradiction|congruence|discriminate]. }
  set (m := kunion parsed (kdel d "name")).
  assert (M : forall k, In k (map fst m) <-> In k (map fst parsed) \/ (In k (map fst d) /\ k <> Some "name")) by (intros k; unfold m; rewrite union_in, del_in; reflexivity).
  assert (R : (call_kwargs [(Some "dtype", l_dtype V l); (Some "name", router_name)] m = Raise e) <->
     e = TypeError /\ (given l "dtype" \/ In (Some "dtype") (map fst parsed) \/ In (Some "name") (map fst parsed) \/ In None (map fst parsed))).
  { rewrite call_raise. split.
    - intros [-> H]. split; [reflexivity|]. destruct H as [H|(k & H & G)].
      + apply M in H. destruct H as [H|[H _]]; [auto|contradiction].
      + apply M in H. cbn [map fst In] in G. destruct G as [G|[G|[]]]; injection G as <-.
        * destruct H as [H|[H _]]; [auto|]. apply Kk in H. destruct H as [H|[H|H]]; [discriminate|discriminate|auto].
        * destruct H as [H|[_ H]]; [auto|contradiction].
    - intros [-> H]. split; [reflexivity|]. destruct H as [H|[H|[H|H]]].
      + right. exists "dtype". split; [apply M; right; split; [apply Kk; auto|discriminate]|cbn; auto].
      + right. exists "dtype". split; [apply M; auto|cbn; auto].
      + right. exists "name". split; [apply M; auto|cbn; auto].
      + left. apply M. auto. }
  destruct (call_kwargs _ m) as [kw|e0]; cbn [bind].
  - split; [discriminate|]. intros [[F _]|[[_ F]|(_ & cls' & args' & parsed' & F & -> & G)]]; [contradiction|discriminate|].
    injection F as <- <- <-. exfalso. assert (Z : Ok kw = Raise TypeError) by (apply R; auto). discriminate.
  - split.
    + intros H. injection H as ->. right. right. split; [exact NG|]. destruct R as [R _]. destruct (R eq_refl) as [-> R']. exists cls, args, parsed. auto.
    + intros [[F _]|[[_ F]|(_ & cls' & args' & parsed' & F & -> & G)]]; [contradiction|discriminate|]. injection F as <- <- <-.
      assert (Z : @Raise (kwargs V) e0 = Raise TypeError) by (apply R; auto). injection Z as ->. reflexivity.
Qed.
Lemma create_options l name c : dictionary l -> (forall n cls args parsed, parse_call n = Ok (cls, args, parsed) -> NoDup (map fst parsed)) ->
  named default_name l name -> create l = Ok c ->
  exists parsed, parse_call name = Ok (c_cls V Cls c, c_args V Cls c, parsed)
  /\ called_with c (fun k v => fixed router_name l k v \/ determined l k v \/ chosen l parsed k v).
Proof.
  intros W NP Hn H. unfold create_router in H. destruct (router_kwargs V l) as [d|e0] eqn:K; cbn [bind] in H; [|discriminate].
  rewrite (named_unique l _ _ W (kwargs_name l d W K) Hn) in H. destruct (kwargs_ok l d W K) as (NG & N & Nn & Kk & I).
  destruct (parse_call name) as [[[cls args] parsed]|e0] eqn:P; cbn [bind] in H; [|discriminate].
  destruct (call_kwargs _ _) as [kw|e0] eqn:C; cbn [bind] in H; [|discriminate]. injection H as <-. cbn [c_cls c_args].
  exists parsed. split; [reflexivity|]. apply call_ok in C. destruct C as (-> & C1 & C2). specialize (NP _ _ _ _ P).
  pose proof (del_nodup d "name" N) as ND. pose proof (union_nodup (kdel d "name") parsed NP) as NU.
  set (m := kunion parsed (kdel d "name")) in *. unfold called_with. cbn [c_kwargs].
  assert (Xd : ~ In (Some "dtype") (map fst m)).
  { intros F. specialize (C2 "dtype"). assert (Z : get m (Some "dtype") <> None) by (intros Z; apply get_none in Z; contradiction). specialize (C2 Z). cbv in C2. discriminate. }
  assert (Xn : ~ In (Some "name") (map fst m)).
  { intros F. specialize (C2 "name"). assert (Z : get m (Some "name") <> None) by (intros Z; apply get_none in Z; contradiction). specialize (C2 Z). cbv in C2. discriminate. }
  split; [cbn [app map fst]; constructor; [intros [F|F]; [discriminate|contradiction]|constructor; [exact Xn|exact NU]]|].
  split; [cbn [app map fst In]; intros [F|[F|F]]; [discriminate|discriminate|contradiction]|].
  intros k v. cbn [app In].
  assert (G : In (Some k, v) m <-> (k <> "name" /\ base_option l k v) \/ ((k = "name" \/ (k <> "num_experts" /\ k <> "deterministic" /\ ~ given l k)) /\ In (Some k, v) parsed)).
  { rewrite <- (get_In m (Some k) v NU). unfold m. rewrite (union_get _ _ _ ND), get_del. destruct (string_dec k "name") as [->|Hk].
    - rewrite key_eqb_refl, (get_In parsed _ _ NP). split; [auto|intros [[F _]|[_ F]]; [contradiction|exact F]].
    - rewrite key_eqb_neq by congruence. destruct (get d (Some k)) as [w|] eqn:D.
      + assert (Kin : In (Some k) (map fst d)) by (eapply get_in, D). split.
        * intros F. injection F as ->. left. split; [exact Hk|]. apply I. apply (get_In d _ _ N). exact D.
        * intros [[_ F]|[[F|(F1 & F2 & F3)] _]]; [|contradiction|].
          -- apply I in F. apply (get_In d _ _ N) in F. congruence.
          -- exfalso. apply Kk in Kin. destruct Kin as [F|[F|F]]; contradiction.
      + rewrite (get_In parsed _ _ NP). apply get_none in D. split.
        * intros F. right. split; [|exact F]. right. split; [intros Z; apply D, Kk; auto|]. split; [intros Z; apply D, Kk; auto|intros Z; apply D, Kk; auto].
        * intros [[_ F]|[_ F]]; [|exact F]. exfalso. apply D. apply I in F. apply (in_map fst) in F. exact F. }
  rewrite G. unfold fixed, chosen, special, base_option. split.
  - intros [F|[F|F]].
    + injection F as <- <-. auto.
    + injection F as <- <-. auto.
    + destruct F as [[F1 [F|[F|(F2 & F3 & F)]]]|[F1 F]].
      * auto.
      * auto.
      * right. right. split; [|left; exact F]. intros [Z|[Z|[Z|Z]]]; try contradiction. subst k. apply Xd. apply (in_map fst m (Some "dtype", v)). apply G. left. split; [discriminate|]. right. right. auto.
      * assert (Fm : In (Some k) (map fst m)) by (apply (in_map fst m (Some k, v)); apply G; right; auto).
        destruct F1 as [->|(F2 & F3 & F4)]; [contradiction|]. right. right. split; [|right; auto].
        intros [Z|[Z|[Z|Z]]]; try contradiction; subst k; contradiction.
  - intros [[[-> ->]|[[-> ->]|[-> ->]]]|[F|[Sp F]]].
    + right. right. left. split; [discriminate|auto].
    + auto.
    + auto.
    + right. right. left. split; [destruct F as [-> _]; discriminate|auto].
    + right. right. destruct F as [F|[F1 F]].
      * left. split; [intros Z; apply Sp; auto|]. right. right. split; [intros Z; apply Sp; auto|]. split; [intros Z; apply Sp; auto|exact F].
      * right. split; [|exact F]. right. split; [intros Z; apply Sp; auto|]. split; [intros Z; apply Sp; auto|exact F1].
Qed.

(** create_router of ensembles *)
Lemma size_raise n e : parse_size n = Raise e <-> e = ValueError /\ forall z, n = Some z -> (z <= 0)%Z.
Proof.
  unfold parse_size. destruct n as [z|].
  - destruct (Z.leb_spec z 0) as [H|H]; split; try discriminate.
    + intros F. injection F as <-. split; [reflexivity|]. intros z' F. injection F as <-. exact H.
    + intros [-> _]. reflexivity.
    + intros [_ F]. specialize (F z eq_refl). exfalso. apply (Z.lt_irrefl z). eapply Z.le_lt_trans; eassumption.
  - split; [intros F; injection F as <-; split; [reflexivity|discriminate]|intros [-> _]; reflexivity].
Qed.
Lemma size_ok n z : parse_size n = Ok z <-> n = Some z /\ (0 < z)%Z.
Proof.
  unfold parse_size. destruct n as [w|]; [|split; [discriminate|intros [F _]; discriminate]].
  destruct (Z.leb_spec w 0) as [H|H]; split; try discriminate.
  - intros [F G]. injection F as ->. exfalso. apply (Z.lt_irrefl z). eapply Z.le_lt_trans; eassumption.
  - intros F. injection F as <-. auto.
  - intros [F _]. injection F as ->. reflexivity.
Qed.
Lemma ensemble_errors l n e : dictionary l ->
  (create_e l n = Raise e <->
   (given l "num_experts" /\ e = TypeError)
   \/ (~ given l "num_experts" /\ e = ValueError /\ forall z, n = Some z -> (z <= 0)%Z)
   \/ (~ given l "num_experts" /\ e = TypeError /\ (exists z, n = Some z /\ (0 < z)%Z) /\ (given l "dtype" \/ given l "name"))).
Proof.
  intros W. unfold create_router_ensemble. destruct (router_kwargs V l) as [d|e0] eqn:K; cbn [bind].
  2: { apply kwargs_raise in K. destruct K as [-> G]. split; [intros H; injection H as <-; auto|]. intros [[_ ->]|[[F _]|[F _]]]; [reflexivity|contradiction|contradiction]. }
  destruct (kwargs_ok l d W K) as (NG & N & Nn & Kk & _).
  destruct (parse_size n) as [z|e0] eqn:S; cbn [bind].
  2: { pose proof S as S'. apply size_raise in S'. destruct S' as [-> S']. split; [intros H; injection H as <-; auto|]. intros [[F _]|[(_ & -> & _)|(_ & _ & (z & -> & Hz) & _)]]; [contradiction|reflexivity|].
       exfalso. specialize (S' z eq_refl). apply (Z.lt_irrefl z). eapply Z.le_lt_trans; eassumption. }
  apply size_ok in S. destruct S as [-> Hz].
  assert (M : forall k, In k (map fst (kset d "ensemble_size" (of_int z))) <-> k = Some "ensemble_size" \/ In k (map fst d)) by (intros k; unfold kset; apply put_in).
  assert (R : (call_kwargs [(Some "dtype", l_dtype V l); (Some "name", router_name)] (kset d "ensemble_size" (of_int z)) = Raise e) <-> e = TypeError /\ (given l "dtype" \/ given l "name")).
  { rewrite call_raise. split.
    - intros [-> H]. split; [reflexivity|]. destruct H as [H|(k & H & G)].
      + apply M in H. destruct H as [H|H]; [discriminate|contradiction].
      + apply M in H. cbn [map fst In] in G. destruct G as [G|[G|[]]]; injection G as <-; (destruct H as [H|H]; [discriminate|]); apply Kk in H; destruct H as [H|[H|H]]; try discriminate; auto.
    - intros [-> H]. split; [reflexivity|]. right. destruct H as [H|H]; [exists "dtype"|exists "name"]; (split; [apply M; right; apply Kk; auto|cbn; auto]). }
  destruct (call_kwargs _ _) as [kw|e0]; cbn [bind].
  - split; [discriminate|]. intros [[F _]|[(_ & _ & F)|(_ & -> & _ & F)]]; [contradiction| |].
    + exfalso. specialize (F z eq_refl). apply (Z.lt_irrefl z). eapply Z.le_lt_trans; eassumption.
    + assert (Z : Ok kw = Raise TypeError) by (apply R; auto). discriminate.
  - split.
    + intros H. injection H as ->. destruct R as [R _]. destruct (R eq_refl) as [-> R']. right. right. split; [exact NG|]. split; [reflexivity|]. split; [exists z; auto|exact R'].
    + intros [[F _]|[(_ & _ & F)|(_ & -> & _ & F)]]; [contradiction| |].
      * exfalso. specialize (F z eq_refl). apply (Z.lt_irrefl z). eapply Z.le_lt_trans; eassumption.
      * assert (Z : @Raise (kwargs V) e0 = Raise TypeError) by (apply R; auto). injection Z as ->. reflexivity.
Qed.
Lemma ensemble_options l n c : dictionary l -> create_e l n = Ok c ->
  exists z, n = Some z /\ (0 < z)%Z /\ c_cls V Cls c = ensemble_cls /\ c_args V Cls c = []
  /\ called_with c (fun k v => fixed router_name l k v \/ determined l k v \/ (k = "ensemble_size" /\ v = of_int z) \/ (~ special k /\ k <> "ensemble_size" /\ In (k, v) (options l))).
Proof.
  intros W H. assert (NE : forall e, create_e l n <> Raise e) by (intros e; rewrite H; discriminate). unfold create_router_ensemble in H. destruct (router_kwargs V l) as [d|e0] eqn:K; cbn [bind] in H; [|discriminate].
  destruct (kwargs_ok l d W K) as (NG & N & Nn & Kk & I). destruct (parse_size n) as [z|e0] eqn:S; cbn [bind] in H; [|discriminate].
  apply size_ok in S. destruct S as [-> Hz]. destruct (call_kwargs _ _) as [kw|e0] eqn:C; cbn [bind] in H; [|discriminate]. injection H as <-.
  exists z. cbn [c_cls c_args]. repeat (split; [auto; fail|]). apply call_ok in C. destruct C as (-> & _ & _).
  assert (Xd : ~ given l "dtype") by (intros F; apply (NE TypeError), ensemble_errors; [exact W|right; right; repeat (split; auto); exists z; auto]).
  assert (Xn : ~ given l "name") by (intros F; apply (NE TypeError), ensemble_errors; [exact W|right; right; repeat (split; auto); exists z; auto]).
  unfold called_with. cbn [c_kwargs]. unfold kset. pose proof (put_nodup d (Some "ensemble_size") (of_int z) N) as NU.
  set (m := dset key_eqb d (Some "ensemble_size") (of_int z)) in *.
  assert (M : forall k, In k (map fst m) <-> k = Some "ensemble_size" \/ In k (map fst d)) by (intros k; unfold m; apply put_in).
  assert (Md : ~ In (Some "dtype") (map fst m)) by (rewrite M, Kk; intros [F|[F|[F|F]]]; [discriminate|discriminate|discriminate|contradiction]).
  assert (Mn : ~ In (Some "name") (map fst m)) by (rewrite M, Kk; intros [F|[F|[F|F]]]; [discriminate|discriminate|discriminate|contradiction]).
  split; [cbn [app map fst]; constructor; [intros [F|F]; [discriminate|contradiction]|constructor; [exact Mn|exact NU]]|].
  split; [cbn [app map fst In]; rewrite M; intros [F|[F|[F|F]]]; [discriminate|discriminate|discriminate|contradiction]|].
  intros k v. cbn [app In]. rewrite <- (get_In m (Some k) v NU). unfold m. rewrite get_put. unfold fixed, special.
  destruct (string_dec k "ensemble_size") as [->|Hk].
  - rewrite key_eqb_refl. split.
    + intros [F|[F|F]]; [discriminate|discriminate|injection F as <-; auto].
    + intros [[[F _]|[[F _]|[F _]]]|[[F _]|[[_ ->]|(_ & F & _)]]]; try discriminate; [auto|contradiction].
  - rewrite key_eqb_neq by congruence. rewrite (get_In d _ _ N), I. unfold base_option. split.
    + intros [F|[F|[F|[F|(F1 & F2 & F)]]]]; [injection F as <- <-; auto|injection F as <- <-; auto|auto|auto|].
      right. right. right. split; [|split; [exact Hk|exact F]]. intros [Z|[Z|[Z|Z]]]; try contradiction; subst k; apply given_in in F; contradiction.
    + intros [[[-> ->]|[[-> ->]|[-> ->]]]|[F|[[F _]|(F1 & _ & F)]]]; [auto|auto|auto|auto|contradiction|].
      right. right. right. right. split; [intros Z; apply F1; auto|]. split; [intros Z; apply F1; auto|exact F].
Qed.

(** partialclass *)
Lemma nest_snoc (c : Cls) (ls : list (list V * kwargs V)) x : nest c (ls ++ [x]) = Partial V Cls (nest c ls) (fst x) (snd x).
Proof. unfold nest. rewrite fold_left_app. reflexivity. Qed.
Lemma last_union ds (d e : kwargs V) k v : NoDup (map fst d) -> NoDup (map fst e) ->
  (last_with (ds ++ [kunion d e]) k v <-> last_with (ds ++ [d; e]) k v).
Proof.
  intros Nd Ne. pose proof (union_nodup e d Nd) as Nu. split.
  - intros (pre & x & post & E & Hin & Hp). destruct (@exists_last _ (x :: post)) as (body & last & F); [discriminate|].
    destruct post as [|p post].
    + apply app_inj_tail in E. destruct E as [<- <-]. apply (get_In _ _ _ Nu) in Hin. rewrite (union_get _ _ _ Ne) in Hin. destruct (get e k) as [w|] eqn:G.
      * injection Hin as ->. exists (ds ++ [d]), e, []. rewrite <- app_assoc. split; [reflexivity|]. split; [apply (get_In _ _ _ Ne), G|intros ? []].
      * exists ds, d, [e]. split; [reflexivity|]. split; [apply (get_In _ _ _ Nd), Hin|]. intros x [<-|[]]. apply get_none, G.
    + destruct (@exists_last _ (p :: post)) as (body' & last' & F'); [discriminate|]. rewrite F' in E, Hp. clear F body last.
      rewrite app_comm_cons, app_assoc in E. apply app_inj_tail in E. destruct E as [-> <-].
      assert (Z : ~ In k (map fst (kunion d e))) by (apply Hp, in_or_app; right; left; reflexivity). rewrite union_in in Z.
      exists pre, x, (body' ++ [d; e]). split; [rewrite <- app_assoc; reflexivity|]. split; [exact Hin|]. intros y Hy. apply in_app_or in Hy. destruct Hy as [Hy|[<-|[<-|[]]]]; [apply Hp, in_or_app; auto|intros F; apply Z; auto|intros F; apply Z; auto].
  - intros (pre & x & post & E & Hin & Hp). replace (ds ++ [d; e]) with ((ds ++ [d]) ++ [e]) in E by (rewrite <- app_assoc; reflexivity).
    destruct post as [|p post].
    + apply app_inj_tail in E. destruct E as [_ <-]. exists ds, (kunion d e), []. split; [reflexivity|]. split; [|intros ? []].
      apply (get_In _ _ _ Nu). rewrite (union_get _ _ _ Ne). apply (get_In _ _ _ Ne) in Hin. rewrite Hin. reflexivity.
    + destruct (@exists_last _ (p :: post)) as (body' & last' & F'); [discriminate|]. rewrite F' in E, Hp.
      rewrite app_comm_cons, app_assoc in E. apply app_inj_tail in E. destruct E as [E <-].
      assert (Z : get e k = None) by (apply get_none, Hp, in_or_app; right; left; reflexivity).
      destruct body' as [|b body'].
      * apply app_inj_tail in E. destruct E as [_ <-]. exists ds, (kunion d e), []. split; [reflexivity|]. split; [|intros ? []].
        apply (get_In _ _ _ Nu). rewrite (union_get _ _ _ Ne), Z. apply (get_In _ _ _ Nd), Hin.
      * destruct (@exists_last _ (b :: body')) as (body'' & last'' & F''); [discriminate|]. rewrite F'' in E, Hp.
        rewrite app_comm_cons, app_assoc in E. apply app_inj_tail in E. destruct E as [-> <-].
        exists pre, x, (body'' ++ [kunion d e]). split; [rewrite <- app_assoc; reflexivity|]. split; [exact Hin|].
        intros y Hy. apply in_app_or in Hy. destruct Hy as [Hy|[<-|[]]]; [apply Hp, in_or_app; left; apply in_or_app; auto|].
        rewrite union_in. intros [F|F]; [|apply get_none in Z; contradiction]. revert F. apply Hp, in_or_app. left. apply in_or_app. right. left. reflexivity.
Qed.
Lemma construct_nest (c : Cls) (ls : list (list V * kwargs V)) : (forall x, In x ls -> NoDup (map fst (snd x))) ->
  forall args kw, NoDup (map fst kw) ->
  let r := construct V Cls (nest c ls) args kw in
  c_cls V Cls r = c /\ c_args V Cls r = concat (map fst ls) ++ args /\ NoDup (map fst (c_kwargs V Cls r))
  /\ forall k v, In (k, v) (c_kwargs V Cls r) <-> last_with (map snd ls ++ [kw]) k v.
Proof.
  induction ls as [|x ls IH] using rev_ind; intros N args kw Nk.
  - cbn. repeat split; auto; intros H.
    + exists [], kw, []. split; [reflexivity|]. split; [exact H|intros ? []].
    + destruct H as (pre & d & post & E & Hin & _). destruct pre as [|? [|? ?]]; [|discriminate|discriminate]. injection E as <- <-. exact Hin.
  - rewrite nest_snoc. cbn [construct]. assert (Nx : NoDup (map fst (snd x))) by (apply N, in_or_app; right; left; reflexivity).
    destruct (IH (fun y Hy => N y (in_or_app _ _ _ (or_introl Hy))) (fst x ++ args) (kunion (snd x) kw) (union_nodup kw (snd x) Nx)) as (A & B & C & D).
    split; [exact A|]. split; [rewrite B, map_app, concat_app; cbn [map concat]; rewrite app_nil_r, <- app_assoc; reflexivity|]. split; [exact C|].
    intros k v. rewrite D, last_union by assumption. rewrite map_app, <- app_assoc. reflexivity.
Qed.
End Router.

(** create_split_rngs *)
Lemma existsb_name n l : existsb (String.eqb n) l = true <-> In n l.
Proof. rewrite existsb_exists. split; [intros (x & H & E); apply String.eqb_eq in E; subst; exact H|intros H; exists n; rewrite String.eqb_refl; auto]. Qed.
Lemma characters_short s x : In x (characters s) -> String.length x = 1.
Proof. induction s as [|c s IH]; cbn; [intros []|]. intros [<-|H]; [reflexivity|apply IH, H]. Qed.
Lemma split_string s : create_split_rngs (SplitString s) = [("params", false); ("dropout", false)].
Proof.
  unfold create_split_rngs. assert (A : forall n, 1 < String.length n -> existsb (String.eqb n) (characters s) = false); [|rewrite !A by (cbn; lia); reflexivity].
  intros n H. destruct (existsb _ _) eqn:E; [|reflexivity]. apply existsb_name, characters_short in E. lia.
Qed.
Lemma split_names l n b : In (n, b) (create_split_rngs (SplitNames l)) -> (b = true <-> In n l).
Proof.
  unfold create_split_rngs. intros [H|[H|[]]]; pose proof (f_equal fst H) as H1; pose proof (f_equal snd H) as H2; unfold fst in H1; unfold snd in H2; rewrite <- H1, <- H2; apply existsb_name.
Qed.
