(** Processes that only read between computations over all devices. *)
From Coq Require Import List Arith NArith Bool Lia.
From Verif Require Import BaseModel Py SynModel SynSpec SynProofs SynProofs2.
Import ListNotations.
Local Open Scope nat_scope.

(** [p] becomes [c] by reading and waiting, if the checkpoints are [s] and none is being
    saved. *)
Inductive goes (s : list nat) : nat -> prog -> prog -> Prop :=
| go_here c : goes s 0 c c
| go_has n x k c : goes s n (k (existsb (Nat.eqb x) s)) c -> goes s (S n) (HasStep x k) c
| go_latest n k c : goes s n (k (latest_of s)) c -> goes s (S n) (LatestStep k) c
| go_wait n k c : goes s n k c -> goes s (S n) (Wait k) c.
Lemma goes_trans s n p c : goes s n p c -> forall m d, goes s m c d -> goes s (n + m) p d.
Proof. induction 1; intros m d G; simpl; [exact G|constructor; auto ..]. Qed.

Definition nonlocal (c : prog) : Prop :=
  match c with Psum _ _ | Compute _ _ | Save _ _ | Return => True | _ => False end.

Definition islocal (c : prog) : Prop := match c with HasStep _ _ | LatestStep _ | Wait _ => True | _ => False end.
Lemma goes_local s n p c : goes s n p c -> n <> 0 -> islocal p.
Proof. inversion 1; subst; intros; [congruence|exact I ..]. Qed.
Lemma goes_other s n p c : goes s n p c -> ~ islocal p -> p = c.
Proof. inversion 1; subst; intros NL; [reflexivity|exfalso; apply NL; exact I ..]. Qed.

Lemma pivot {T} (a : list T) : forall b c d x, a ++ x :: b = c ++ x :: d -> length a = length c -> a = c /\ b = d.
Proof.
  induction a as [|y a IH]; intros b [|z c] d x E L; try discriminate; simpl in E.
  - injection E as ->. auto.
  - injection E as -> E. destruct (IH _ _ _ _ E) as [-> ->]; [simpl in L; lia|]. auto.
Qed.

Definition lag (s : list nat) (ps cs : list prog) : Prop := Forall2 (fun p c => exists n, goes s n p c) ps cs.

Section Ok.
Variable Q : world -> Prop.
Notation W ps d f s p := (World ps d f s p [] []).

Lemma set_at (ps : list prog) i p q : nth_error ps i = Some p -> exists a b, ps = a ++ p :: b /\ length a = i /\ firstn i ps ++ q :: skipn (S i) ps = a ++ q :: b.
Proof.
  intros E. destruct (nth_error_split _ _ E) as (a & b & -> & L). exists a, b. split; [reflexivity|]. split; [exact L|].
  subst i. f_equal.
  - rewrite firstn_app, Nat.sub_diag, firstn_all. simpl. apply app_nil_r.
  - f_equal. rewrite skipn_app. replace (S (length a) - length a) with 1 by lia. rewrite (skipn_all2 a) by lia. reflexivity.
Qed.

Lemma lag_numbers s ps cs : lag s ps cs ->
  exists l, map (fun t => snd (fst t)) l = ps /\ map snd l = cs /\ Forall (fun t : nat * prog * prog => goes s (fst (fst t)) (snd (fst t)) (snd t)) l.
Proof.
  induction 1 as [|p c ps cs [n G] _ (l & <- & <- & F)]; [exists []; repeat split; constructor|].
  exists ((n, p, c) :: l). repeat split. constructor; [exact G|exact F].
Qed.

Lemma goes_raises s n e c : goes s n (Raises e) c -> c = Raises e.
Proof. inversion 1; subst; reflexivity. Qed.
Lemma goes_return s n c : goes s n Return c -> n = 0.
Proof. inversion 1; subst; reflexivity. Qed.

Definition total (l : list (nat * prog * prog)) : nat := list_sum (map (fun t => fst (fst t)) l).

Lemma local_safe N : forall d f s l, total l <= N ->
  Forall (fun t : nat * prog * prog => goes s (fst (fst t)) (snd (fst t)) (snd t)) l ->
  Forall (fun t => nonlocal (snd t)) l ->
  Safe Q (W (map snd l) d f s None) -> Safe Q (W (map (fun t => snd (fst t)) l) d f s None).
Proof.
  induction N as [N IH] using lt_wf_ind. intros d f s l LN G NL SF.
  destruct (list_sum (map (fun t => fst (fst t)) l)) eqn:T.
  - (* all there *)
    replace (map (fun t => snd (fst t)) l) with (map snd l); [exact SF|]. apply map_ext_in. intros [[n p] c] I.
    rewrite Forall_forall in G. specialize (G _ I). cbn [fst snd] in *.
    assert (n = 0). { assert (In n (map (fun t => fst (fst t)) l)) by (apply in_map_iff; exists (n, p, c); auto).
      clear - T H. induction (map (fun t => fst (fst t)) l) as [|x r IHr]; [contradiction|]. simpl in T. destruct H as [->|H]; [lia|]. apply IHr; [lia|exact H]. }
    subst n. inversion G; subst. reflexivity.
  - (* someone has still to go *)
    assert (EX : exists t, In t l /\ fst (fst t) <> 0).
    { clear - T. revert n T. induction l as [|t l IHl]; intros n T; [discriminate|]. simpl in T.
      destruct (fst (fst t)) eqn:E; [|exists t; split; [left; reflexivity|rewrite E; discriminate]].
      destruct (IHl _ T) as (t' & I & H). exists t'. split; [right; exact I|exact H]. }
    assert (UPD : forall i p q, nth_error (map (fun t => snd (fst t)) l) i = Some p ->
        (forall m c, goes s m p c -> nonlocal c -> exists m', m = S m' /\ goes s m' q c) ->
        Safe Q (W (firstn i (map (fun t => snd (fst t)) l) ++ q :: skipn (S i) (map (fun t => snd (fst t)) l)) d f s None)).
    { intros i p q E H. destruct (set_at _ _ _ q E) as (a & b & Eab & La & ->).
      rewrite nth_error_map in E. destruct (nth_error l i) as [[[m p'] c]|] eqn:El; [|discriminate].
      simpl in E. injection E as ->. destruct (nth_error_split _ _ El) as (l1 & l2 & -> & L1).
      rewrite map_app in Eab. cbn [map fst snd] in Eab.
      assert (a = map (fun t => snd (fst t)) l1 /\ b = map (fun t => snd (fst t)) l2) as [-> ->].
      { apply (pivot _ _ _ _ p (eq_sym Eab)). rewrite map_length. congruence. }
      apply Forall_app in G. destruct G as [G1 G2]. inversion G2 as [|? ? Gp G3]; subst.
      apply Forall_app in NL. destruct NL as [N1 N2]. inversion N2 as [|? ? Np N3]; subst. cbn [fst snd] in *.
      destruct (H m c Gp Np) as (m' & -> & Gq).
      replace (map (fun t => snd (fst t)) l1 ++ q :: map (fun t => snd (fst t)) l2)
        with (map (fun t : nat * prog * prog => snd (fst t)) (l1 ++ (m', q, c) :: l2)) by (rewrite map_app; reflexivity).
      assert (TT : total (l1 ++ (m', q, c) :: l2) < N).
      { unfold total in *. rewrite map_app, list_sum_app in *. cbn [map fst snd] in *.
        change (list_sum (S m' :: ?x)) with (S m' + list_sum x) in *.
        change (list_sum (m' :: map (fun t : nat * prog * prog => fst (fst t)) l2)) with (m' + list_sum (map (fun t : nat * prog * prog => fst (fst t)) l2)).
        change (list_sum (S m' :: map (fun t : nat * prog * prog => fst (fst t)) l2)) with (S m' + list_sum (map (fun t : nat * prog * prog => fst (fst t)) l2)) in LN. lia. }
      apply (IH _ TT); [lia| | |].
      - apply Forall_app. split; [exact G1|]. constructor; [exact Gq|exact G3].
      - apply Forall_app. split; [exact N1|]. constructor; [exact Np|exact N3].
      - rewrite map_app in *. exact SF. }
    destruct EX as ([[m p] c] & I & M). cbn [fst] in M.
    pose proof I as I'. apply In_nth_error in I'. destruct I' as [i Ei].
    assert (Ep : nth_error (map (fun t => snd (fst t)) l) i = Some p) by (rewrite nth_error_map, Ei; reflexivity).
    assert (Gp : goes s m p c) by (rewrite Forall_forall in G; exact (G _ I)).
    assert (Ipp : In p (map (fun t => snd (fst t)) l)) by (apply in_map_iff; exists (m, p, c); auto).
    constructor.
    + intros e IR. apply in_map_iff in IR. destruct IR as ([[m2 p2] c2] & E2 & I2). cbn [fst snd] in E2. subst p2.
      rewrite Forall_forall in G, NL. specialize (G _ I2). specialize (NL _ I2). cbn [fst snd] in *.
      apply goes_raises in G. subst c2. exact NL.
    + reflexivity.
    + left. inversion Gp as [|? x k ? Gk|? k ? Gk|? k ? Gk]; subst; [contradiction M; reflexivity| | |].
      * eexists. eapply st_hasstep. exact Ep.
      * eexists. eapply st_latest. exact Ep.
      * eexists. eapply st_wait; [exact Ep|reflexivity].
    + intros w' ST.
      assert (NOT : forall A (g : A -> prog) xs, (forall x, ~ islocal (g x)) -> map (fun t => snd (fst t)) l <> map g xs).
      { intros A g xs H E. rewrite E in Ipp. apply in_map_iff in Ipp. destruct Ipp as (x & <- & _). apply (H x).
        exact (goes_local _ _ _ _ Gp M). }
      assert (OTHER : forall j q, nth_error (map (fun t => snd (fst t)) l) j = Some q -> ~ islocal q -> nonlocal q).
      { intros j q E NQ. rewrite nth_error_map in E. destruct (nth_error l j) as [[[m2 p2] c2]|] eqn:E2; [|discriminate].
        simpl in E. injection E as ->. apply nth_error_In in E2. rewrite Forall_forall in G, NL. specialize (G _ E2). specialize (NL _ E2).
        cbn [fst snd] in *. rewrite (goes_other _ _ _ _ G NQ). exact NL. }
      inversion ST; subst; cbn [procs dirs files steps pending writes failed] in *.
      * exfalso. exact (OTHER _ _ H (fun x => x)).
      * exfalso. exact (OTHER _ _ H (fun x => x)).
      * apply (UPD _ _ _ H). intros m2 c2 G2 N2. inversion G2; subst; [contradiction|]. eexists. split; [reflexivity|assumption].
      * apply (UPD _ _ _ H). intros m2 c2 G2 N2. inversion G2; subst; [contradiction|]. eexists. split; [reflexivity|assumption].
      * apply (UPD _ _ _ H). intros m2 c2 G2 N2. inversion G2; subst; [contradiction|]. eexists. split; [reflexivity|assumption].
      * exfalso. exact (OTHER _ _ H (fun x => x)).
      * exfalso. eapply NOT; [|exact H]. intros x y. exact y.
      * exfalso. eapply NOT; [|exact H]. intros x y. exact y.
      * exfalso. eapply NOT; [|exact H]. intros x y. exact y.
      * discriminate.
      * destruct l0; discriminate.
      * destruct l0; discriminate.
Qed.
End Ok.
