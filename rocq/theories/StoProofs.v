(** The storage writes the concatenation of everything stored. *)
From Coq Require Import String List Arith ZArith Bool Lia.
From Verif Require Import StoModel StoSpec Py PyLemmas.
Import ListNotations.
Local Open Scope list_scope.
Local Open Scope nat_scope.

Section Storage.
Variable row : Type.
Notation arr := (arr row).
Definition mem (k : string) (ks : list string) : bool := existsb (String.eqb k) ks.
Lemma mem_in k ks : mem k ks = true <-> In k ks.
Proof.
  unfold mem. rewrite existsb_exists. split.
  - intros [x [Hx E]]. apply String.eqb_eq in E. subst. exact Hx.
  - intros H. exists k. split; auto. apply String.eqb_refl.
Qed.
Lemma mem_not k ks : mem k ks = false <-> ~ In k ks.
Proof. rewrite <- mem_in. destruct (mem k ks); intuition congruence. Qed.
Definition add (ks : list string) (k : string) : list string := if mem k ks then ks else ks ++ [k].
Definition adds (ks : list string) (l : list string) : list string := fold_left add l ks.
Definition dict_of (ks : list string) (f : string -> list arr) : dict row := map (fun k => (k, f k)) ks.
Lemma dict_ext ks f g : (forall k, In k ks -> f k = g k) -> dict_of ks f = dict_of ks g.
Proof. intros H. apply map_ext_in. intros k Hk. rewrite (H k Hk). reflexivity. Qed.
Lemma dict_keys ks f : map fst (dict_of ks f) = ks.
Proof. unfold dict_of. rewrite map_map. cbn [fst]. apply map_id. Qed.
Lemma add_nodup ks k : NoDup ks -> NoDup (add ks k).
Proof.
  unfold add. destruct (mem k ks) eqn:E; auto. intros H. apply mem_not in E.
  apply NoDup_Add with (a := k) (l := ks); [|auto]. rewrite <- (app_nil_r ks) at 1. apply Add_app.
Qed.
Lemma extend_dict k v ks f : NoDup ks -> (~ In k ks -> f k = []) ->
  extend k v (dict_of ks f) = dict_of (add ks k) (fun q => if String.eqb k q then f q ++ v else f q).
Proof.
  unfold add. induction ks as [|x ks IH]; intros D E.
  - simpl. rewrite String.eqb_refl, E by auto. reflexivity.
  - inversion D as [|? ? N D']; subst. cbn [dict_of map extend]. unfold mem. cbn [existsb]. destruct (String.eqb_spec k x) as [->|Q].
    + cbn [orb dict_of map]. rewrite String.eqb_refl. f_equal. apply map_ext_in. intros q Hq.
      destruct (String.eqb_spec x q) as [->|]; [contradiction|reflexivity].
    + cbn [orb]. change (map (fun k0 => (k0, f k0)) ks) with (dict_of ks f). rewrite IH; auto.
      2: { intros H. apply E. simpl. intuition congruence. }
      change (existsb (String.eqb k) ks) with (mem k ks). destruct (mem k ks); cbn [dict_of map app].
      * destruct (String.eqb_spec k x); [congruence|]. reflexivity.
      * destruct (String.eqb_spec k x); [congruence|]. reflexivity.
Qed.
Lemma adds_nodup l : forall ks, NoDup ks -> NoDup (adds ks l).
Proof. induction l as [|k l IH]; intros ks H; simpl; auto. apply IH. apply add_nodup. exact H. Qed.
Lemma adds_in l : forall ks q, In q (adds ks l) <-> In q ks \/ In q l.
Proof.
  induction l as [|k l IH]; intros ks q; simpl; [tauto|]. rewrite IH. unfold add. destruct (mem k ks) eqn:E.
  - apply mem_in in E. intuition (subst; auto).
  - rewrite in_app_iff. simpl. intuition (subst; auto).
Qed.
(** Extending by a list of pairs *)
Definition given (ps : list (string * list arr)) (q : string) : list arr :=
  flat_map (fun kv => if String.eqb (fst kv) q then snd kv else []) ps.
Lemma extend_all ps : forall ks f, NoDup ks -> (forall q, ~ In q ks -> f q = []) ->
  fold_left (fun d kv => extend (fst kv) (snd kv) d) ps (dict_of ks f) = dict_of (adds ks (map fst ps)) (fun q => f q ++ given ps q).
Proof.
  induction ps as [|[k v] ps IH]; intros ks f D E.
  - simpl. apply dict_ext. intros q _. rewrite app_nil_r. reflexivity.
  - cbn [fold_left map fst snd]. rewrite extend_dict; auto. rewrite IH.
    + unfold adds. cbn [fold_left]. apply dict_ext. intros q _. unfold given at 2. cbn [flat_map fst snd].
      change (flat_map (fun kv : string * list arr => if String.eqb (fst kv) q then snd kv else []) ps) with (given ps q).
      destruct (String.eqb k q); [rewrite app_assoc; reflexivity|reflexivity].
    + apply add_nodup; auto.
    + intros q Hq. assert (Hq' : ~ In q ks). { intros H. apply Hq. unfold add. destruct (mem k ks); [auto|apply in_app_iff; auto]. }
      destruct (String.eqb_spec k q) as [->|]; [|auto]. exfalso. apply Hq. unfold add. destruct (mem q ks) eqn:M; [apply mem_in; auto|]. apply in_app_iff. right. left. reflexivity.
Qed.
Lemma given_single (l : list (string * arr)) q : given (map (fun kv => (fst kv, [snd kv])) l) q = under row q l.
Proof.
  unfold given, under. induction l as [|[k a] l IH]; simpl; auto. rewrite (String.eqb_sym q k). destruct (String.eqb k q); simpl; rewrite IH; reflexivity.
Qed.
Lemma given_dict ks f q : NoDup ks -> given (dict_of ks f) q = if mem q ks then f q else [].
Proof.
  unfold given, dict_of. induction ks as [|k ks IH]; intros D; simpl; auto. inversion D as [|? ? N D']; subst. rewrite IH by auto.
  destruct (String.eqb_spec k q) as [->|Q].
  - rewrite String.eqb_refl. cbn [orb]. apply mem_not in N. rewrite N, app_nil_r. reflexivity.
  - destruct (String.eqb_spec q k); [congruence|]. reflexivity.
Qed.
Lemma adds_prefix more : forall ks, NoDup (ks ++ more) -> adds ks (ks ++ more) = ks ++ more.
Proof.
  assert (A : forall l ks, (forall q, In q l -> In q ks) -> adds ks l = ks).
  { induction l as [|k l IH]; intros ks H; simpl; auto. unfold add. assert (M : mem k ks = true) by (apply mem_in; apply H; left; auto).
    rewrite M. apply IH. intros q Hq. apply H. right; auto. }
  assert (B : forall l ks, NoDup (ks ++ l) -> adds ks l = ks ++ l).
  { induction l as [|k l IH]; intros ks D; simpl; [rewrite app_nil_r; auto|]. unfold add.
    assert (M : mem k ks = false). { apply mem_not. intros H. apply NoDup_remove_2 in D. apply D. apply in_app_iff. auto. }
    rewrite M. rewrite IH; rewrite <- app_assoc; auto. }
  intros ks D. unfold adds. rewrite fold_left_app. change (fold_left add ks ks) with (adds ks ks). rewrite A by auto. apply B. exact D.
Qed.

Lemma nodup_left {A} (a b : list A) : NoDup (a ++ b) -> NoDup a.
Proof.
  induction a as [|x a IH]; intros D; [constructor|]. simpl in D. inversion D as [|? ? N D']; subst. constructor; auto.
  intros H. apply N. apply in_app_iff. auto.
Qed.

(** What a storage holds after [h] was stored *)
Definition holds (every : Z) (h : list (string * arr)) (s : storage row) : Prop :=
  exists kd more fd ft, let kt := kd ++ more in
    s = Storage row every (dict_of kd fd) (dict_of kt ft) /\ kt = adds [] (map fst h) /\
    (forall q, ~ In q kd -> fd q = []) /\ (forall q, ~ In q kt -> ft q = []) /\ (forall q, fd q ++ ft q = under row q h).
Lemma holds_nodup h : NoDup (adds [] (map (@fst string arr) h)).
Proof. apply adds_nodup. constructor. Qed.
Lemma holds_new every : holds every [] (new_storage row every).
Proof. exists [], [], (fun _ => []), (fun _ => []). cbn. repeat split; auto. Qed.
Lemma transfer_form every h s : holds every h s ->
  transfer row s = Storage row every (dict_of (adds [] (map fst h)) (fun q => under row q h)) (dict_of (adds [] (map fst h)) (fun _ => [])).
Proof.
  intros (kd & more & fd & ft & E & K & Hd & Ht & U). assert (D := holds_nodup h). rewrite <- K in D |- *. subst s.
  unfold transfer. cbn [transfer_every_steps data temp]. f_equal.
  - rewrite extend_all; [|exact (nodup_left _ _ D)|exact Hd].
    rewrite dict_keys, (adds_prefix more kd D). apply dict_ext.
    intros q Hq. rewrite (given_dict _ _ _ D). apply mem_in in Hq. rewrite Hq. apply U.
  - unfold dict_of. rewrite map_map. reflexivity.
Qed.
Lemma under_none h q : ~ In q (map fst h) -> under row q h = [].
Proof.
  unfold under. induction h as [|[k a] h IH]; simpl; intros N; auto. destruct (String.eqb_spec q k) as [->|]; [tauto|]. apply IH. tauto.
Qed.
Lemma holds_transfer every h s : holds every h s -> holds every h (transfer row s).
Proof.
  intros H. rewrite (transfer_form _ _ _ H). exists (adds [] (map fst h)), [], (fun q => under row q h), (fun _ => []). cbv zeta.
  rewrite app_nil_r. repeat split; auto.
  - intros q N. apply under_none. intros Hq. apply N. apply adds_in. auto.
  - intros q. apply app_nil_r.
Qed.
Lemma under_app q a b : under row q (a ++ b) = under row q a ++ under row q b.
Proof. unfold under. rewrite filter_app, map_app. reflexivity. Qed.
Lemma store_holds every h s n a : every <> 0%Z -> holds every h s -> exists s', store row s n a = Ok s' /\ holds every (h ++ a) s'.
Proof.
  intros NZ H. assert (H0 := H). destruct H as (kd & more & fd & ft & E & K & Hd & Ht & U).
  assert (D := holds_nodup h). rewrite <- K in D.
  set (s1 := Storage row (transfer_every_steps row s) (data row s) (fold_left (fun d kv => extend (fst kv) [snd kv] d) a (temp row s))).
  assert (H1 : holds every (h ++ a) s1).
  { assert (F : fold_left (fun d kv => extend (fst kv) [snd kv] d) a (temp row s) =
              dict_of (adds (kd ++ more) (map fst a)) (fun q => ft q ++ under row q a)).
    { subst s. cbn [temp].
      assert (G : forall d, fold_left (fun d kv => extend (fst kv) [snd kv] d) a d = fold_left (fun d kv => extend (fst kv) (snd kv) d) (map (fun kv => (fst kv, [snd kv])) a) d).
      { clear. induction a as [|x a IH]; intros d; simpl; auto. }
      rewrite G, extend_all by auto. rewrite map_map. cbn [fst]. apply dict_ext. intros q _. rewrite given_single. reflexivity. }
    assert (P : exists more', adds (kd ++ more) (map fst a) = kd ++ more').
    { assert (Q : forall l ks, exists m, adds ks l = ks ++ m).
      { clear. induction l as [|k l IH]; intros ks; simpl; [exists []; rewrite app_nil_r; auto|]. destruct (IH (add ks k)) as [m Em]. unfold adds in *. rewrite Em.
        unfold add. destruct (mem k ks); [eauto|]. exists (k :: m). rewrite <- app_assoc. reflexivity. }
      destruct (Q (map fst a) (kd ++ more)) as [m Em]. exists (more ++ m). rewrite Em, app_assoc. reflexivity. }
    destruct P as [more' P]. exists kd, more', fd, (fun q => ft q ++ under row q a). cbv zeta. rewrite <- P.
    assert (K' : adds (kd ++ more) (map fst a) = adds [] (map fst (h ++ a))).
    { rewrite K, map_app. unfold adds. rewrite fold_left_app. reflexivity. }
    split; [unfold s1; rewrite F; subst s; reflexivity|]. split; [exact K'|]. split; [exact Hd|]. split.
    - intros q N. rewrite K', adds_in, map_app, in_app_iff in N. rewrite Ht, under_none; [reflexivity|tauto|].
      rewrite K, adds_in. tauto.
    - intros q. rewrite app_assoc, U, under_app. reflexivity. }
  unfold store. fold s1. assert (Es : transfer_every_steps row s1 = every) by (subst s; reflexivity). rewrite Es.
  destruct (Z.eqb_spec every 0) as [|_]; [contradiction|].
  destruct (n mod every =? 0)%Z; [exists (transfer row s1); split; auto; apply holds_transfer; auto|exists s1; auto].
Qed.

(** Keys in order of first appearance *)
Lemma first_keys_adds (h : list (string * arr)) : forall ks seen, (forall q, In q ks <-> In q seen) -> adds ks (map fst h) = ks ++ first_keys row seen h.
Proof.
  induction h as [|[k a] h IH]; intros ks seen E; simpl; [rewrite app_nil_r; auto|].
  assert (M : mem k ks = existsb (String.eqb k) seen).
  { apply eq_true_iff_eq. rewrite mem_in. change (existsb (String.eqb k) seen) with (mem k seen). rewrite mem_in. apply E. }
  unfold add at 1. rewrite M. destruct (existsb (String.eqb k) seen); [apply IH; exact E|].
  change (fold_left add (map fst h) (ks ++ [k])) with (adds (ks ++ [k]) (map fst h)). rewrite (IH _ (k :: seen)).
  - rewrite <- app_assoc. reflexivity.
  - intros q. rewrite in_app_iff. simpl. rewrite E. tauto.
Qed.
Lemma concat_ok shape (l : list arr) : l <> [] -> Forall (fun a => trail a = Some shape) l ->
  concatenate l = Ok (Arr (match l with a :: _ => trail a | [] => None end) (flat_map rows l)).
Proof.
  intros NE F. unfold concatenate. destruct l as [|a l]; [congruence|].
  assert (B : forallb (fun b => shape_eqb (trail a) (trail b)) (a :: l) = true).
  { apply forallb_forall. intros b Hb. rewrite Forall_forall in F. rewrite (F b Hb), (F a (or_introl eq_refl)). simpl.
    destruct (list_eq_dec Nat.eq_dec shape shape); congruence. }
  rewrite B. reflexivity.
Qed.
Lemma under_in q a h : In a (under row q h) -> In (q, a) h.
Proof.
  unfold under. rewrite in_map_iff. intros [[k b] [E H]]. cbn in E. subst b. apply filter_In in H. destruct H as [H Q].
  apply String.eqb_eq in Q. cbn in Q. subst k. exact H.
Qed.
Lemma write_holds every shape h s : holds every h s -> compatible row shape h ->
  exists s', write row s = Ok (s', expected row h) /\ holds every h s'.
Proof.
  intros H C. exists (transfer row s). split; [|apply holds_transfer; auto].
  assert (Dt : data row (transfer row s) = dict_of (adds [] (map fst h)) (fun q => under row q h)) by (rewrite (transfer_form _ _ _ H); reflexivity).
  unfold write. cbv zeta. rewrite Dt.
  assert (K := first_keys_adds h [] [] (fun q => iff_refl _)). cbn [app] in K.
  destruct h as [|[k0 a0] h0].
  { reflexivity. }
  set (h := (k0, a0) :: h0) in *.
  assert (NE : dict_of (adds [] (map fst h)) (fun q => under row q h) <> []).
  { rewrite K. discriminate. }
  assert (R : rmap (fun kv => bind (concatenate (snd kv)) (fun a => Ok (fst kv, a))) (dict_of (adds [] (map fst h)) (fun q => under row q h))
    = Ok (map (fun k => (k, Arr (match under row k h with a :: _ => trail a | [] => None end) (flat_map rows (under row k h)))) (first_keys row [] h))).
  { rewrite <- K. apply rmap_ok. unfold dict_of.
    assert (A : forall q, In q (adds [] (map fst h)) -> In q (map fst h)) by (intros q Hq; apply adds_in in Hq; destruct Hq as [[]|]; auto).
    clear K NE Dt. induction (adds [] (map fst h)) as [|q ks IH]; cbn [map]; [constructor|]. constructor; [|apply IH; intros; apply A; right; auto].
    assert (C1 : Forall (fun a => trail a = Some (shape q)) (under row q h)).
    { apply Forall_forall. intros a Ha. apply under_in in Ha. unfold compatible in C. rewrite Forall_forall in C. apply (C (q, a) Ha). }
    assert (N : under row q h <> []).
    { assert (Hq : In q (map fst h)) by (apply A; left; auto). apply in_map_iff in Hq. destruct Hq as [[k a] [E Hq]]. cbn in E. subst k.
      intros Z. assert (Ha : In a (under row q h)).
      { unfold under. apply in_map_iff. exists (q, a). split; auto. apply filter_In. split; auto. apply String.eqb_refl. }
      rewrite Z in Ha. contradiction. }
    cbn [snd fst]. rewrite (concat_ok (shape q) _ N C1). reflexivity. }
  destruct (dict_of (adds [] (map fst h)) (fun q => under row q h)) as [|kv d]; [congruence|]. rewrite R. cbn [bind].
  unfold savez_compressed.
  assert (S : existsb (fun kv => String.eqb (fst kv) "filepath" || String.eqb (fst kv) "file")
    (map (fun k => (k, Arr (match under row k h with a :: _ => trail a | [] => None end) (flat_map rows (under row k h)))) (first_keys row [] h)) = false).
  { destruct (existsb _ _) eqn:B; auto. apply existsb_exists in B. destruct B as [[k a] [Hin B]]. apply in_map_iff in Hin. destruct Hin as [k' [Ek Hk]].
    injection Ek as -> _. cbn [fst] in B. rewrite <- K in Hk. apply adds_in in Hk. destruct Hk as [[]|Hk]. apply in_map_iff in Hk. destruct Hk as [[k1 b] [E1 Hk]].
    cbn in E1. subst k1. unfold compatible in C. rewrite Forall_forall in C. apply (C (k, b)) in Hk. cbn [fst] in Hk. destruct Hk as [_ [N1 N2]].
    apply orb_true_iff in B. rewrite !String.eqb_eq in B. tauto. }
  rewrite S. cbn [bind]. unfold expected. fold h. reflexivity.
Qed.
Lemma play_holds every shape : every <> 0%Z -> forall l h s, holds every h s -> compatible row shape (h ++ stored row l) ->
  play row s l = Ok (map (expected row) (histories row h l)).
Proof.
  intros NZ. induction l as [|e l IH]; intros h s H C; [reflexivity|]. destruct e as [n a|].
  - cbn [play histories]. destruct (store_holds every h s n a NZ H) as [s' [E H']]. rewrite E. cbn [bind]. apply IH; auto.
    unfold stored in *. cbn [flat_map] in C. rewrite <- app_assoc. exact C.
  - cbn [play histories map]. unfold stored in C. cbn [flat_map app] in C. fold (stored row l) in C.
    assert (C1 : compatible row shape h). { unfold compatible in *. apply Forall_app in C. tauto. }
    destruct (write_holds every shape h s H C1) as [s' [E H']]. rewrite E. cbn [bind fst snd]. rewrite (IH h s' H' C). reflexivity.
Qed.
Lemma storage_writes every shape l : every <> 0%Z -> compatible row shape (stored row l) ->
  play row (new_storage row every) l = Ok (map (expected row) (histories row [] l)).
Proof. intros NZ C. apply (play_holds every shape NZ l [] _ (holds_new every)). exact C. Qed.
Lemma storage_zero n a l : play row (new_storage row 0) (Store n a :: l) = Raise ZeroDivisionError.
Proof. reflexivity. Qed.
End Storage.
