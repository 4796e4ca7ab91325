(** Proof of C28. *)
From Coq Require Import List Arith ZArith Bool Lia Permutation.
From Verif Require Import Py PyLemmas TreeModel TreeSpec TreeProofs TreeProofs2 TreeProofs3 MapModel MapSpec.
Import ListNotations.
Local Open Scope nat_scope.

Lemma insert_by_perm {T} leb (x : T) l : Permutation (insert_by leb x l) (x :: l).
Proof.
  induction l as [|y l IH]; simpl; auto. destruct (leb x y); auto. rewrite IH. apply perm_swap.
Qed.
Lemma sort_by_perm {T} leb (l : list T) : Permutation (sort_by leb l) l.
Proof. induction l as [|x l IH]; simpl; auto. rewrite insert_by_perm, IH. auto. Qed.
Lemma natural_sort_perm l : Permutation (natural_sort l) l.
Proof. apply sort_by_perm. Qed.

Lemma inb_str_true k l : inb_str k l = true <-> In k l.
Proof.
  unfold inb_str. rewrite existsb_exists. split.
  - intros [x [I E]]. destruct (str_eqb_spec k x); [subst; auto|discriminate].
  - intros I. exists k. split; auto. apply str_eqb_refl.
Qed.
Lemma dget_some_in {V} (d : list (str * V)) k v : dget d k = Some v -> In (k, v) d.
Proof.
  induction d as [|[k' v'] d IH]; simpl; [discriminate|]. destruct (str_eqb_spec k' k) as [->|]; auto. intros E. injection E as ->. auto.
Qed.
Lemma dget_none_in {V} (d : list (str * V)) k : dget d k = None -> ~ In k (map fst d).
Proof.
  induction d as [|[k' v'] d IH]; simpl; auto. destruct (str_eqb_spec k' k) as [->|N]; [discriminate|]. intros E [->|I]; [congruence|]. apply IH; auto.
Qed.

Section P.
Variable pat : Type.
Variable search : pat -> str -> bool.
Variable sub : pat -> str -> str -> str.
Variable array : Type.
Variable dtype : Type.
Variable dtype_eqb : dtype -> dtype -> bool.
Variable shape_of : array -> list nat.
Variable dtype_of : array -> dtype.
Variable astype : array -> dtype -> array.
Variable broadcast_to : array -> list nat -> res array.
Variable transform : kind -> array -> array -> res array.
Variable stack : Z -> list array -> res array.
Notation rule := (rule pat).
Notation urule := (urule pat).
Notation find_rule := (find_rule pat search).
Notation rename := (rename pat sub).
Notation written := (written pat).
Notation in_force := (in_force pat search).
Notation goes := (goes pat search sub).
Notation no_rule := (no_rule pat search).
Notation tx := (tx array).
Notation build_step := (build_step pat search sub array).

Lemma to_tuple_ok a l : to_tuple a = Ok l <-> tuple a l.
Proof.
  split; [|intros []; auto]. destruct a; simpl; intros E; [injection E as <-; constructor|injection E as <-; constructor|discriminate].
Qed.
Lemma str_eqb_eq a b : str_eqb a b = true -> a = b.
Proof. destruct (str_eqb_spec a b); [auto|discriminate]. Qed.
Lemma parse_written u r : parse_rule pat u = Ok r <-> written u (r_pattern _ r) (r_kind _ r).
Proof.
  split.
  - destruct u as [r'|p t tr]; simpl. { intros E. injection E as <-. constructor. }
    destruct tr as [[name args]|].
    + destruct t as [t|]; [|discriminate]. intros E. apply bind_ok in E. destruct E as [k [Ek E]]. injection E as <-. cbn [r_pattern r_kind].
      destruct (str_eqb name s_reshape) eqn:N1; [apply str_eqb_eq in N1; subst|].
      { destruct args as [|[z|l|] [|? ?]]; try discriminate; apply Ok_inj in Ek; subst k; constructor. }
      destruct (str_eqb name s_squeeze) eqn:N2; [apply str_eqb_eq in N2; subst|].
      { destruct args as [|[z|l|] [|? ?]]; try discriminate; apply Ok_inj in Ek; subst k; constructor. }
      destruct (str_eqb name s_stack) eqn:N3; [apply str_eqb_eq in N3; subst|].
      { destruct args as [|[z|l|] [|? ?]]; try discriminate; apply Ok_inj in Ek; subst k; constructor. }
      destruct (str_eqb name s_expand_tile) eqn:N4; [apply str_eqb_eq in N4; subst|].
      { destruct args as [|a [|r [|? ?]]]; try discriminate. apply bind_ok in Ek. destruct Ek as [la [Ea Ek]].
        apply bind_ok in Ek. destruct Ek as [lr [Er Ek]]. apply Ok_inj in Ek. subst k. apply to_tuple_ok in Ea, Er. constructor; auto. }
      destruct (str_eqb name s_vit_zoom) eqn:N5; [apply str_eqb_eq in N5; subst; apply Ok_inj in Ek; subst k; constructor|].
      destruct (str_eqb name s_zoom) eqn:N6; [apply str_eqb_eq in N6; subst; apply Ok_inj in Ek; subst k; constructor|discriminate].
    + intros E. destruct t as [[|c t]|]; apply Ok_inj in E; subst r; simpl; constructor. discriminate.
  - destruct r as [p k]. simpl. intros W. inversion W; subst; try reflexivity.
    + destruct r; reflexivity.
    + simpl. destruct t; [contradiction|auto].
    + simpl. rewrite (proj2 (to_tuple_ok a la)), (proj2 (to_tuple_ok r lr)); auto.
Qed.
Lemma written_fun u p k p' k' : written u p k -> written u p' k' -> p = p' /\ k = k'.
Proof.
  intros W W'. pose proof (proj2 (parse_written u {| r_pattern := p; r_kind := k |}) W) as E.
  rewrite (proj2 (parse_written u {| r_pattern := p'; r_kind := k' |}) W') in E. injection E as -> ->. auto.
Qed.

Lemma parse_forall us rs : parse_rules pat us = Ok rs -> Forall2 (fun u r => written u (r_pattern _ r) (r_kind _ r)) us rs.
Proof.
  unfold parse_rules. intros E. apply rmap_ok in E. induction E; constructor; auto. apply parse_written; auto.
Qed.
Lemma find_in_force us rs key r : Forall2 (fun u r => written u (r_pattern _ r) (r_kind _ r)) us rs ->
  find_rule rs key = Some r -> in_force us key (r_pattern _ r) (r_kind _ r).
Proof.
  induction 1 as [|u r0 us rs W F IH]; simpl; [discriminate|]. unfold MapModel.find_rule in *. simpl. destruct (search (r_pattern pat r0) key) eqn:S.
  - intros E. injection E as ->. exists [], u, us. repeat split; auto.
  - intros E. destruct (IH E) as [b [u' [a [-> [W' [S' Fb]]]]]]. exists (u :: b), u', a. repeat split; auto. constructor; auto.
    intros p' k' W2. destruct (written_fun _ _ _ _ _ W W2) as [<- _]. auto.
Qed.
Lemma find_no_rule us rs key : Forall2 (fun u r => written u (r_pattern _ r) (r_kind _ r)) us rs ->
  find_rule rs key = None <-> no_rule us key.
Proof.
  induction 1 as [|u r0 us rs W F IH]; unfold MapModel.find_rule, MapSpec.no_rule in *; simpl. { split; auto. }
  destruct (search (r_pattern pat r0) key) eqn:S.
  - split; [discriminate|]. intros N. inversion N; subst. rewrite (H1 _ _ W) in S. discriminate.
  - rewrite IH. split; intros N; [constructor|inversion N]; auto. intros p' k' W2. destruct (written_fun _ _ _ _ _ W W2) as [<- _]. auto.
Qed.
Lemma in_force_find us rs key p k : Forall2 (fun u r => written u (r_pattern _ r) (r_kind _ r)) us rs ->
  in_force us key p k -> find_rule rs key = Some {| r_pattern := p; r_kind := k |}.
Proof.
  intros F [b [u [a [-> [W [S Fb]]]]]]. revert rs F. induction Fb as [|u' b H Fb IH]; intros rs F; inversion F; subst; unfold MapModel.find_rule in *; simpl.
  - destruct (written_fun _ _ _ _ _ W H1) as [-> ->]. rewrite S. destruct y; auto.
  - rewrite (H _ _ H2). apply IH. auto.
Qed.

(** Where a source key goes. *)
Definition dest (rs : list rule) (key : str) : option (kind * str) :=
  match find_rule rs key with
  | Some r => match new_name (r_kind _ r) with Some t => Some (r_kind _ r, sub (r_pattern _ r) t key) | None => None end
  | None => Some (KRegex [], key)
  end.
Lemma goes_dest us rs key k dst : Forall2 (fun u r => written u (r_pattern _ r) (r_kind _ r)) us rs ->
  goes us key k dst <-> dest rs key = Some (k, dst).
Proof.
  intros F. unfold dest. split.
  - intros [[p [t [I [Nn ->]]]]|[Nr [-> ->]]].
    + rewrite (in_force_find _ _ _ _ _ F I). simpl. rewrite Nn. auto.
    + rewrite (proj2 (find_no_rule _ _ _ F) Nr). auto.
  - destruct (find_rule rs key) as [r|] eqn:E.
    + destruct (new_name (r_kind pat r)) as [t|] eqn:Nn; [|discriminate]. intros G. injection G as <- <-. left.
      exists (r_pattern _ r), t. repeat split; auto. eapply find_in_force; eauto.
    + intros G. injection G as <- <-. right. repeat split; auto. eapply find_no_rule; eauto.
Qed.

Definition stacksb (k : kind) : bool := match k with KStack _ _ => true | _ => false end.
Lemma stacksb_true k : stacksb k = true <-> stacks k.
Proof. unfold stacks. destruct k; simpl; split; try discriminate; eauto; intros [? [? ?]]; discriminate. Qed.

(** ** The loop of build *)
Section Build.
Variable fl : flags.
Variable rs : list rule.
Variables sf tf : list (str * flatv array).

Lemma build_step_eq used out key st' : build_step fl rs sf tf (used, out) key = Ok st' ->
  (find_rule rs key = None -> raise_source fl = false) /\
  ((dest rs key = None /\ st' = (used, out)) \/
   exists k d tv, dest rs key = Some (k, d) /\ dget tf d = Some tv /\ (In d used -> stacksb k = true) /\
     ((dget sf key = Some FEmpty /\ tv = FEmpty /\ st' = (d :: used, out)) \/
      exists s t x, dget sf key = Some (FLeaf s) /\ tv = FLeaf t /\ new_tx array k (dget out d) s t = Ok x /\ st' = (d :: used, dset out d x))).
Proof.
  unfold MapModel.build_step, dest. destruct (find_rule rs key) as [r|] eqn:Fr.
  - intros E. split; [discriminate|]. destruct (new_name (r_kind pat r)) as [t|] eqn:Nn.
    + right. assert (R : rename r key = sub (r_pattern pat r) t key) by (unfold MapModel.rename; destruct (r_kind pat r); simpl in Nn; try discriminate; injection Nn as ->; auto).
      rewrite R in E. set (d := sub (r_pattern pat r) t key) in *. clearbody d.
      assert (E' : match dget tf d with None => Raise KeyError | Some target_value =>
         if inb_str d used && negb (stacksb (r_kind pat r)) then Raise ValueError else match dget sf key with None => Raise KeyError | Some src_value =>
            match src_value, target_value with FEmpty, FEmpty => Ok (d :: used, out)
            | FLeaf s, FLeaf t => bind (new_tx array (r_kind pat r) (dget out d) s t) (fun t => Ok (d :: used, dset out d t))
            | _, _ => Raise ValueError end end end = Ok st').
      { destruct (r_kind pat r); simpl in Nn; try discriminate; exact E. }
      clear E. exists (r_kind pat r), d. destruct (dget tf d) as [tv|]; [|discriminate]. exists tv. do 2 (split; auto).
      destruct (inb_str d used && negb (stacksb (r_kind pat r))) eqn:B; [discriminate|]. split.
      { intros I. apply inb_str_true in I. rewrite I in B. simpl in B. destruct (stacksb _); auto. }
      destruct (dget sf key) as [[s|]|]; try discriminate; destruct tv as [x|]; try discriminate.
      * right. apply bind_ok in E'. destruct E' as [y [Ey E']]. exists s, x, y. apply Ok_inj in E'. auto.
      * left. apply Ok_inj in E'. auto.
    + left. destruct (r_kind pat r); simpl in Nn; try discriminate. apply Ok_inj in E. auto.
  - destruct (raise_source fl); [discriminate|]. intros E. split; auto. right. unfold identity_rename in E. exists (KRegex []), key.
    destruct (dget tf key) as [tv|]; [|discriminate]. exists tv. do 2 (split; auto). simpl in E. rewrite andb_true_r in E.
    destruct (inb_str key used) eqn:B; [discriminate|]. split; [intros I; apply inb_str_true in I; congruence|].
    destruct (dget sf key) as [[s|]|]; try discriminate; destruct tv as [x|]; try discriminate.
    + right. exists s, x, (Tx1 array (KRegex []) s x). simpl in E. apply Ok_inj in E. auto.
    + left. apply Ok_inj in E. auto.
Qed.

Definition hit (d key : str) : bool :=
  match dest rs key with
  | Some (_, d') => str_eqb d' d && match dget sf key with Some (FLeaf _) => true | _ => false end
  | None => false
  end.
Definition hits (done : list str) (d : str) : list str := filter (hit d) done.

Definition described (hs : list str) (d : str) (x : tx) (t : array) : Prop :=
  (exists key k s, hs = [key] /\ dest rs key = Some (k, d) /\ dget sf key = Some (FLeaf s) /\ stacksb k = false /\ x = Tx1 array k s t) \/
  (exists h hs' rep a ss, hs = h :: hs' /\ dest rs h = Some (KStack rep a, d) /\
     Forall2 (fun key s => dget sf key = Some (FLeaf s)) hs ss /\
     Forall (fun key => exists k, dest rs key = Some (k, d) /\ stacksb k = true) hs /\ x = TxStack array a ss t).

Record inv (done : list str) (st : list str * list (str * tx)) : Prop := {
  i_used : forall d, In d (fst st) <-> exists key k, In key done /\ dest rs key = Some (k, d);
  i_out : forall d, match dget (snd st) d with
                    | None => hits done d = []
                    | Some x => exists t, dget tf d = Some (FLeaf t) /\ described (hits done d) d x t
                    end;
  i_src : forall key, In key done -> find_rule rs key = None -> raise_source fl = false;
  i_nodup : NoDup (map fst (snd st));
  i_all : forall key k d, In key done -> dest rs key = Some (k, d) ->
            exists sv tv, dget sf key = Some sv /\ dget tf d = Some tv /\ (sv = FEmpty <-> tv = FEmpty) }.

Lemma hits_app done key d : hits (done ++ [key]) d = hits done d ++ (if hit d key then [key] else []).
Proof. unfold hits. rewrite filter_app. simpl. destruct (hit d key); auto. Qed.
Lemma dset_keys {V} (o : list (str * V)) d x : map fst (dset o d x) = if inb_str d (map fst o) then map fst o else map fst o ++ [d].
Proof.
  induction o as [|[k v] o IH]; simpl; auto. unfold inb_str in *. simpl. destruct (str_eqb_spec k d) as [->|N].
  - rewrite str_eqb_refl. auto.
  - simpl. destruct (str_eqb_spec d k); [congruence|]. simpl. rewrite IH. destruct (existsb _ _); auto.
Qed.
Lemma dset_nodup {V} (o : list (str * V)) d x : NoDup (map fst o) -> NoDup (map fst (dset o d x)).
Proof.
  intros N. rewrite dset_keys. destruct (inb_str d (map fst o)) eqn:B; auto. apply NoDup_rev in N. rewrite <- rev_involutive. apply NoDup_rev.
  rewrite rev_app_distr. simpl. constructor; auto. rewrite <- in_rev. intros I. apply inb_str_true in I. congruence.
Qed.

Lemma inv_step done st key st' : inv done st -> build_step fl rs sf tf st key = Ok st' -> inv (done ++ [key]) st'.
Proof.
  intros [Iu Io Is In_ Ia] E. destruct st as [used out]. apply build_step_eq in E. destruct E as [Es E]. cbn [fst snd] in *.
  assert (Is' : forall key0, In key0 (done ++ [key]) -> find_rule rs key0 = None -> raise_source fl = false).
  { intros k0 I Ef. apply in_app_or in I. destruct I as [I|[<-|[]]]; eauto. }
  destruct E as [[D ->]|[k [d [tv [D [T [Su E]]]]]]].
  - constructor; cbn [fst snd]; auto.
    + intros d. rewrite Iu. split; intros [k0 [k1 [I E]]]; exists k0, k1; split; auto; [apply in_or_app; auto|].
      apply in_app_or in I. destruct I as [I|[<-|[]]]; [auto|congruence].
    + intros d. rewrite hits_app. unfold hit. rewrite D, app_nil_r. apply Io.
    + intros k0 k1 d I E. apply in_app_or in I. destruct I as [I|[<-|[]]]; [eauto|congruence].
  - assert (Iu' : forall d0, In d0 (d :: used) <-> exists key0 k0, In key0 (done ++ [key]) /\ dest rs key0 = Some (k0, d0)).
    { intros d0. simpl. rewrite Iu. split.
      - intros [<-|[k0 [k1 [I E0]]]]; [exists key, k; split; auto; apply in_or_app; simpl; auto|exists k0, k1; split; auto; apply in_or_app; auto].
      - intros [k0 [k1 [I E0]]]. apply in_app_or in I. destruct I as [I|[<-|[]]]; [right; eauto|]. left. congruence. }
    assert (Ia' : forall sv, dget sf key = Some sv -> (sv = FEmpty <-> tv = FEmpty) -> forall key0 k0 d0, In key0 (done ++ [key]) -> dest rs key0 = Some (k0, d0) ->
       exists sv tv, dget sf key0 = Some sv /\ dget tf d0 = Some tv /\ (sv = FEmpty <-> tv = FEmpty)).
    { intros sv E1 E2 k0 k1 d0 I E0. apply in_app_or in I. destruct I as [I|[<-|[]]]; [eauto|]. rewrite D in E0. injection E0 as <- <-. eauto. }
    destruct E as [[S [-> ->]]|[s [t [x [S [-> [Nx ->]]]]]]].
    + constructor; cbn [fst snd]; auto.
      * intros d0. rewrite hits_app. unfold hit. rewrite D, S, andb_false_r, app_nil_r. apply Io.
      * apply (Ia' FEmpty); auto. split; auto.
    + constructor; cbn [fst snd]; auto.
      * intros d0. rewrite dget_dset, hits_app. unfold hit. rewrite D, S, andb_true_r. specialize (Io d0).
        destruct (str_eqb_spec d d0) as [<-|Nd]; [|rewrite app_nil_r; auto].
        exists t. split; auto. destruct (stacksb k) eqn:B.
        -- destruct k as [| | | |rep axis| | |]; try discriminate. simpl in Nx. destruct (dget out d) as [[k1 s1 t1|a l t1]|] eqn:Do.
           ++ discriminate.
           ++ apply Ok_inj in Nx. subst x. destruct Io as [t2 [T2 De]]. assert (t2 = t) by congruence. subst t2.
              destruct De as [[? [? [? [_ [_ [_ [_ ?]]]]]]]|[h [hs' [rep' [a' [ss [Eh [Dh [F2 [Fk Ex]]]]]]]]]]; [discriminate|].
              injection Ex as <- <- ->. right. exists h, (hs' ++ [key]), rep', a, (l ++ [s]). rewrite Eh in *. repeat split; auto.
              ** apply (Forall2_app F2). constructor; auto.
              ** apply (proj2 (Forall_app _ (h :: hs') [key])). split; auto. constructor; auto. exists (KStack rep axis). auto.
           ++ apply Ok_inj in Nx. subst x. rewrite Io. right. exists key, [], rep, axis, [s]. repeat split; auto.
              ** constructor; auto.
              ** constructor; auto. exists (KStack rep axis). auto.
        -- assert (H0 : hits done d = []).
           { destruct (hits done d) as [|h hs] eqn:Eh; auto. exfalso.
             assert (Ih : In h (hits done d)) by (rewrite Eh; simpl; auto). unfold hits in Ih. apply filter_In in Ih. destruct Ih as [Ih Eh'].
             unfold hit in Eh'. destruct (dest rs h) as [[k' d']|] eqn:Dh; [|discriminate]. apply andb_true_iff in Eh'. destruct Eh' as [Ed _]. apply str_eqb_eq in Ed. subst d'.
             assert (false = true) by (apply Su; apply Iu; eauto). discriminate. }
           rewrite H0. left. exists key, k, s. repeat split; auto. destruct k; try discriminate; simpl in Nx; apply Ok_inj in Nx; auto.
      * apply dset_nodup; auto.
      * apply (Ia' (FLeaf s)); auto. split; discriminate.
Qed.
Lemma inv_loop l : forall done st st', inv done st -> rfold (build_step fl rs sf tf) l st = Ok st' -> inv (done ++ l) st'.
Proof.
  induction l as [|key l IH]; intros done st st' I E; simpl in E. { injection E as <-. rewrite app_nil_r. auto. }
  apply bind_ok in E. destruct E as [st1 [E1 E]]. apply (inv_step _ _ _ _ I) in E1. change (key :: l) with ([key] ++ l). rewrite app_assoc. apply (IH _ _ _ E1 E).
Qed.

Lemma inv_start : inv [] ([], []).
Proof using.
  constructor; simpl.
  - intros d. split; [intros []|intros [? [? [[] _]]]].
  - reflexivity.
  - intros ? [].
  - constructor.
  - intros ? ? ? [].
Qed.
Lemma build_inv txs : build pat search sub array fl rs sf tf = Ok txs ->
  exists used, inv (natural_sort (map fst sf)) (used, txs) /\
    forall d x, In (d, FLeaf x) tf -> raise_target fl = true -> In d used.
Proof.
  unfold build. intros E. apply bind_ok in E. destruct E as [[used out] [E1 E]]. destruct (existsb _ tf) eqn:B; [discriminate|].
  apply Ok_inj in E. subst out. exists used. split.
  - apply (inv_loop _ [] ([], []) _) in E1; auto. apply inv_start.
  - intros d x I R. apply inb_str_true. destruct (inb_str d used) eqn:U; auto. exfalso.
    rewrite <- not_true_iff_false in B. apply B. apply existsb_exists. exists (d, FLeaf x). split; auto. simpl. rewrite U, R. auto.
Qed.
End Build.
End P.
