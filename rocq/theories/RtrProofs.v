(** Proofs for C94. *)
From Coq Require Import String List Arith ZArith Bool Lia.
From Verif Require Import PpModel RtrModel.
From Verif Require Import Py.
Import ListNotations.
Local Open Scope string_scope.
Local Open Scope list_scope.
Local Open Scope nat_scope.

Lemma key_eqb_spec a b : key_eqb a b = true <-> a = b.
Proof.
  destruct a as [a|], b as [b|]; cbn; try (split; congruence). rewrite String.eqb_eq. split; congruence.
Qed.
Lemma key_eqb_refl a : key_eqb a a = true. Proof. apply key_eqb_spec. reflexivity. Qed.
Lemma key_eqb_neq a b : a <> b -> key_eqb a b = false.
Proof. intros H. destruct (key_eqb a b) eqn:E; [apply key_eqb_spec in E; contradiction|reflexivity]. Qed.
Section Dict.
Context {V : Type}.
Notation get := (@dget (option string) V key_eqb).
Notation put := (@dset (option string) V key_eqb).
Lemma get_put_same d k v : get (put d k v) k = Some v.
Proof. induction d as [|[k' v'] d IH]; cbn; [rewrite key_eqb_refl; reflexivity|]. destruct (key_eqb k' k) eqn:E; cbn; rewrite E; [reflexivity|exact IH]. Qed.
Lemma get_put_other d k v k' : k <> k' -> get (put d k v) k' = get d k'.
Proof.
  intros H. induction d as [|[k0 v0] d IH]; cbn; [rewrite key_eqb_neq by exact H; reflexivity|].
  destruct (key_eqb k0 k) eqn:E; cbn; [|rewrite IH; reflexivity]. apply key_eqb_spec in E. subst k0. rewrite (key_eqb_neq k k' H). reflexivity.
Qed.
Lemma get_put d k v k' : get (put d k v) k' = if key_eqb k k' then Some v else get d k'.
Proof. destruct (key_eqb k k') eqn:E; [apply key_eqb_spec in E; subst; apply get_put_same|apply get_put_other; intros ->; rewrite key_eqb_refl in E; discriminate]. Qed.
Lemma get_app d e k : get (d ++ e) k = match get d k with Some v => Some v | None => get e k end.
Proof. induction d as [|[k' v'] d IH]; cbn; [reflexivity|]. destruct (key_eqb k' k); [reflexivity|exact IH]. Qed.
Lemma get_none d k : get d k = None <-> ~ In k (map fst d).
Proof.
  induction d as [|[k' v'] d IH]; cbn; [split; auto|]. destruct (key_eqb k' k) eqn:E.
  - apply key_eqb_spec in E. split; [discriminate|]. intros H. exfalso. apply H. left. exact E.
  - rewrite IH. split; [intros H [F|F]; [subst; rewrite key_eqb_refl in E; discriminate|contradiction]|intros H F; apply H; right; exact F].
Qed.
Lemma get_in d k v : get d k = Some v -> In k (map fst d).
Proof. induction d as [|[k' v'] d IH]; cbn; [discriminate|]. destruct (key_eqb k' k) eqn:E; [apply key_eqb_spec in E; auto|intros H; right; apply IH, H]. Qed.
Lemma get_del d k k' : get (kdel d k) k' = if key_eqb (Some k) k' then None else get d k'.
Proof.
  induction d as [|[k0 v0] d IH]; cbn [kdel filter fst]; [destruct (key_eqb _ _); reflexivity|].
  destruct (key_eqb k0 (Some k)) eqn:E; cbn [negb].
  - fold (kdel d k). rewrite IH. apply key_eqb_spec in E. subst k0. cbn [dget]. destruct (key_eqb (Some k) k'); reflexivity.
  - cbn [dget]. fold (kdel d k). rewrite IH. destruct (key_eqb k0 k') eqn:F; [|reflexivity]. apply key_eqb_spec in F. subst k'.
    rewrite key_eqb_neq; [reflexivity|]. intros Z. rewrite <- Z, key_eqb_refl in E. discriminate.
Qed.
Lemma union_get e : forall d k, NoDup (map fst e) -> get (kunion d e) k = match get e k with Some v => Some v | None => get d k end.
Proof.
  induction e as [|[k0 v0] e IH]; intros d k N; [reflexivity|]. cbn [map fst] in N. inversion N as [|? ? N1 N2]; subst.
  unfold kunion in *. cbn [fold_left fst snd dget]. rewrite IH by exact N2. destruct (key_eqb k0 k) eqn:E.
  - apply key_eqb_spec in E. subst k0. apply get_none in N1. rewrite N1. apply get_put_same.
  - rewrite get_put, E. reflexivity.
Qed.
Lemma put_keys d k v : incl (map fst (put d k v)) (k :: map fst d) /\ incl (map fst d) (map fst (put d k v)).
Proof.
  induction d as [|[k0 v0] d [I1 I2]]; cbn; [split; [intros x Hx; exact Hx|intros x []]|]. destruct (key_eqb k0 k) eqn:E; cbn.
  - split; intros x Hx; cbn in *; intuition.
  - split; intros x [Hx|Hx]; cbn in *; [auto|apply I1 in Hx; cbn in Hx; intuition|auto|right; apply I2, Hx].
Qed.
Lemma put_nodup d k v : NoDup (map fst d) -> NoDup (map fst (put d k v)).
Proof.
  induction d as [|[k0 v0] d IH]; cbn; intros N; [constructor; [intros []|constructor]|]. inversion N as [|? ? N1 N2]; subst.
  destruct (key_eqb k0 k) eqn:E; cbn; [exact N|]. constructor; [|apply IH, N2]. intros F. apply put_keys in F. destruct F as [F|F]; [subst; rewrite key_eqb_refl in E; discriminate|contradiction].
Qed.
Lemma del_nodup d k : NoDup (map fst d) -> NoDup (map fst (@kdel V d k)).
Proof.
  induction d as [|[k0 v0] d IH]; cbn; intros N; [constructor|]. inversion N as [|? ? N1 N2]; subst. destruct (key_eqb k0 (Some k)); cbn; [apply IH, N2|].
  constructor; [|apply IH, N2]. intros F. apply N1. unfold kdel in F. apply in_map_iff in F. destruct F as (x & <- & Hx). apply filter_In in Hx. apply in_map, Hx.
Qed.
Lemma union_nodup e : forall d, NoDup (map fst d) -> NoDup (map fst (@kunion V d e)).
Proof. induction e as [|x e IH]; intros d N; [exact N|]. unfold kunion in *. cbn [fold_left]. apply IH, put_nodup, N. Qed.
(** Calls with keyword arguments *)
Lemma call_ok named d r : call_kwargs named d = Ok r <-> r = named ++ d /\ ~ In None (map fst d) /\ (forall k, get d (Some k) <> None -> @kget V named k = None).
Proof.
  unfold call_kwargs. destruct (existsb _ d) eqn:E.
  - split; [discriminate|]. intros (_ & H1 & H2). exfalso. apply existsb_exists in E. destruct E as ([k v] & Hin & Hk). cbn [fst] in Hk. destruct k as [k|].
    + rewrite (H2 k) in Hk; [discriminate|]. intros Z. apply get_none in Z. apply Z. apply (in_map fst) in Hin. exact Hin.
    + apply H1. apply (in_map fst) in Hin. exact Hin.
  - assert (A : forall x, In x d -> match fst x with None => true | Some k => match kget named k with Some _ => true | None => false end end = false).
    { intros x Hx. destruct (match fst x with None => true | Some k => match kget named k with Some _ => true | None => false end end) eqn:F; [|reflexivity].
      assert (existsb (fun x => match fst x with None => true | Some k => match kget named k with Some _ => true | None => false end end) d = true) by (apply existsb_exists; exists x; auto). congruence. }
    split; [|intros (-> & _); reflexivity]. intros H. injection H as <-. split; [reflexivity|]. split.
    + intros H. apply in_map_iff in H. destruct H as (x & F & Hx). specialize (A x Hx). rewrite F in A. discriminate.
    + intros k H. destruct (get d (Some k)) as [v|] eqn:G; [|contradiction]. pose proof (get_in d (Some k) v G) as I.
      apply in_map_iff in I. destruct I as (x & F & Hx). specialize (A x Hx). rewrite F in A. destruct (kget named k); [discriminate|reflexivity].
Qed.
Lemma call_error named d e : @call_kwargs V named d = Raise e -> e = TypeError.
Proof. unfold call_kwargs. destruct (existsb _ d); [congruence|discriminate]. Qed.
End Dict.
From Verif Require Import RtrSpec.

Section Get.
Context {V : Type}.
Notation get := (@dget (option string) V key_eqb).
Lemma get_In d k v : NoDup (map fst d) -> (get d k = Some v <-> In (k, v) d).
Proof.
  induction d as [|[k' v'] d IH]; intros N; [cbn; split; [discriminate|contradiction]|]. cbn [map fst] in N. inversion N as [|? ? N1 N2]; subst. cbn [dget In].
  destruct (key_eqb k' k) eqn:E.
  - apply key_eqb_spec in E. subst k'. split; [intros H; injection H as ->; left; reflexivity|intros [H|H]; [injection H as ->; reflexivity|]].
    exfalso. apply N1. apply (in_map fst) in H. exact H.
  - rewrite IH by exact N2. split; [auto|intros [H|H]; [|exact H]]. injection H as -> ->. rewrite key_eqb_refl in E. discriminate.
Qed.
Lemma del_in d k k' : In k' (map fst (@kdel V d k)) <-> In k' (map fst d) /\ k' <> Some k.
Proof.
  pose proof (get_del d k k') as G. pose proof (get_none (kdel d k) k') as A. pose proof (get_none d k') as B. split.
  - intros H. destruct (key_eqb (Some k) k') eqn:E.
    + exfalso. apply A in G. contradiction.
    + split; [|intros ->; rewrite key_eqb_refl in E; discriminate]. unfold kdel in H. apply in_map_iff in H. destruct H as (x & <- & Hx). apply filter_In in Hx. apply in_map, Hx.
  - intros [H N]. unfold kdel. apply in_map_iff in H. destruct H as (x & <- & Hx). apply in_map, filter_In. split; [exact Hx|]. rewrite key_eqb_neq by exact N. reflexivity.
Qed.
Lemma put_in d k v k' : In k' (map fst (@dset _ V key_eqb d k v)) <-> k' = k \/ In k' (map fst d).
Proof.
  split; [intros H; apply put_keys in H; destruct H as [H|H]; auto|]. intros [->|H]; [|apply put_keys, H]. apply (get_in _ k v), get_put_same.
Qed.
Lemma union_in e : forall d k, In k (map fst (@kunion V d e)) <-> In k (map fst d) \/ In k (map fst e).
Proof.
  induction e as [|[k0 v0] e IH]; intros d k; unfold kunion in *; cbn [fold_left map fst snd In]; [split; [auto|intros [H|[]]; exact H]|].
  rewrite IH, put_in. split; [intros [[H|H]|H]; auto|intros [H|[H|H]]; auto].
Qed.
Lemma call_raise named d e : call_kwargs named d = Raise e <-> e = TypeError /\ (In None (map fst d) \/ exists k, In (Some k) (map fst d) /\ In (Some k) (map fst (named : kwargs V))).
Proof.
  unfold call_kwargs. destruct (existsb _ d) eqn:E.
  - apply existsb_exists in E. destruct E as ([k v] & Hin & Hk). apply (in_map fst) in Hin. cbn [fst] in *. split; [intros H|intros [-> _]; reflexivity].
    injection H as <-. split; [reflexivity|]. destruct k as [k|]; [|left; exact Hin]. right. exists k. split; [exact Hin|]. unfold kget in Hk. destruct (get named (Some k)) eqn:G; [|discriminate]. eapply get_in, G.
  - split; [discriminate|]. intros [_ H]. exfalso.
    assert (A : existsb (fun x => match fst x with None => true | Some k => match kget named k with Some _ => true | None => false end end) d = true); [|congruence].
    apply existsb_exists. destruct H as [H|(k & H & G)].
    + apply in_map_iff in H. destruct H as (x & F & Hx). exists x. rewrite F. auto.
    + apply in_map_iff in H. destruct H as (x & F & Hx). exists x. split; [exact Hx|]. rewrite F. unfold kget. destruct (get named (Some k)) eqn:Z; [reflexivity|]. apply get_none in Z. contradiction.
Qed.
End Get.
