(** Proofs for C74 to C77: bounds, scales and independence. *)
From Coq Require Import List Arith ZArith Bool Lia Reals Lra Permutation.
From Verif Require Import NdArray NdLemmas TreeModel OptModel OptSpec SchedModel NumModel NumSpec NumProofs Py PyLemmas.
Import ListNotations.
Local Open Scope nat_scope.

(** * Norms *)
Lemma total_nonneg {A} (f : A -> R) l : (forall x, In x l -> (0 <= f x)%R) -> (0 <= total (map f l))%R.
Proof. induction l as [|x l IH]; intros H; cbn; [lra|]. assert (0 <= f x)%R by (apply H; left; auto). assert (0 <= total (map f l))%R by (apply IH; intros; apply H; right; auto). lra. Qed.
Lemma total_le {A} (f g : A -> R) l : (forall x, In x l -> (f x <= g x)%R) -> (total (map f l) <= total (map g l))%R.
Proof. induction l as [|x l IH]; intros H; cbn; [lra|]. assert (f x <= g x)%R by (apply H; left; auto). assert (total (map f l) <= total (map g l))%R by (apply IH; intros; apply H; right; auto). lra. Qed.
Lemma total_plus {A} (f g : A -> R) l : total (map (fun x => f x + g x)%R l) = (total (map f l) + total (map g l))%R.
Proof. induction l; cbn; [|rewrite IHl]; lra. Qed.
Lemma total_scale {A} q (f : A -> R) l : total (map (fun x => q * f x)%R l) = (q * total (map f l))%R.
Proof. induction l; cbn; [|rewrite IHl]; lra. Qed.
Lemma cs_step A B C x y : (0 <= A -> 0 <= B -> C * C <= A * B -> (x * y + C) * (x * y + C) <= (x * x + A) * (y * y + B))%R.
Proof.
  intros HA HB H.
  assert (K : (2 * (x * y * C) <= x * x * B + A * (y * y))%R).
  { destruct (Rle_or_lt (2 * (x * y * C)) (x * x * B + A * (y * y))) as [L|L]; [exact L|exfalso].
    assert (P : (0 <= x * x * B + A * (y * y))%R) by (pose proof (Rle_0_sqr x); pose proof (Rle_0_sqr y); unfold Rsqr in *; apply Rplus_le_le_0_compat; apply Rmult_le_pos; auto).
    assert (Q : ((x * x * B + A * (y * y)) * (x * x * B + A * (y * y)) < 2 * (x * y * C) * (2 * (x * y * C)))%R) by (apply Rmult_le_0_lt_compat; auto).
    assert (Q2 : (4 * (x * x * B) * (A * (y * y)) <= (x * x * B + A * (y * y)) * (x * x * B + A * (y * y)))%R) by (pose proof (Rle_0_sqr (x * x * B - A * (y * y))); unfold Rsqr in *; lra).
    assert (Q3 : (4 * ((x * y) * (x * y)) * (C * C) <= 4 * ((x * y) * (x * y)) * (A * B))%R) by (apply Rmult_le_compat_l; auto; pose proof (Rle_0_sqr (x * y)); unfold Rsqr in *; lra).
    lra. }
  lra.
Qed.
Lemma cauchy {A} (f g : A -> R) l : (total (map (fun x => f x * g x) l) * total (map (fun x => f x * g x) l) <= total (map (fun x => Rsqr (f x)) l) * total (map (fun x => Rsqr (g x)) l))%R.
Proof.
  induction l as [|x l IH]; cbn [map total]; [lra|]. unfold Rsqr at 1 3. apply cs_step; auto; apply total_nonneg; intros; apply Rle_0_sqr.
Qed.
Lemma norm_nonneg E u : (0 <= norm E u)%R. Proof. apply sqrt_pos. Qed.
Lemma norm_sq E u : (norm E u * norm E u = total (map (fun c => Rsqr (u c)) E))%R.
Proof. apply sqrt_sqrt. apply total_nonneg. intros. apply Rle_0_sqr. Qed.
Lemma norm_ext E u v : (forall k, In k E -> u k = v k) -> norm E u = norm E v.
Proof. intros H. unfold norm. f_equal. apply total_ext. intros k I. rewrite (H k I). reflexivity. Qed.
Lemma norm_mono E u v : (forall k, In k E -> (Rabs (u k) <= Rabs (v k))%R) -> (norm E u <= norm E v)%R.
Proof. intros H. apply sqrt_le_1_alt. apply total_le. intros k I. apply Rsqr_le_abs_1. auto. Qed.
Lemma norm_plus E u v : (norm E (fun k => u k + v k)%R <= norm E u + norm E v)%R.
Proof.
  apply Rsqr_incr_0_var; [|pose proof (norm_nonneg E u); pose proof (norm_nonneg E v); lra].
  unfold Rsqr. rewrite norm_sq.
  assert (Q : total (map (fun c => Rsqr (u c + v c)) E) = (total (map (fun c => Rsqr (u c)) E) + 2 * total (map (fun c => u c * v c)%R E) + total (map (fun c => Rsqr (v c)) E))%R).
  { rewrite <- total_scale, <- !total_plus. apply total_ext. intros. unfold Rsqr. lra. }
  rewrite Q. rewrite <- !norm_sq.
  assert (K : (total (map (fun c => u c * v c) E) <= norm E u * norm E v)%R).
  { destruct (Rle_or_lt (total (map (fun c => u c * v c)%R E)) 0) as [L|L]; [pose proof (norm_nonneg E u); pose proof (norm_nonneg E v); assert (0 <= norm E u * norm E v)%R by (apply Rmult_le_pos; auto); lra|].
    apply Rsqr_incr_0_var; [|apply Rmult_le_pos; apply norm_nonneg]. unfold Rsqr.
    pose proof (cauchy u v E) as CS. rewrite <- !norm_sq in CS. lra. }
  lra.
Qed.
Lemma norm_scale E q u : norm E (fun k => q * u k)%R = (Rabs q * norm E u)%R.
Proof.
  unfold norm. rewrite (total_ext _ (fun c => (Rsqr q * Rsqr (u c))%R)) by (intros; unfold Rsqr; lra).
  rewrite total_scale, sqrt_mult_alt by apply Rle_0_sqr. rewrite sqrt_Rsqr_abs. reflexivity.
Qed.

(** * Discounted sums *)
Lemma discounted_ind (P : list R -> Prop) : P [] -> (forall l x, P l -> P (l ++ [x])) -> forall l, P l.
Proof. intros H0 H l. induction l using rev_ind; auto. Qed.
Lemma discounted_scale q w l : discounted q (map (Rmult w) l) = (w * discounted q l)%R.
Proof. induction l as [|x l IH] using rev_ind; [unfold discounted; cbn; lra|]. rewrite map_app. cbn [map]. rewrite !discounted_snoc, IH. lra. Qed.
Lemma discounted_bound q B l : (0 <= q < 1)%R -> (0 <= B)%R -> Forall (fun x => (Rabs x <= B)%R) l -> (Rabs (discounted q l) <= B / (1 - q))%R.
Proof.
  intros Q HB. induction l as [|x l IH] using rev_ind; intros F.
  - unfold discounted. cbn. rewrite Rabs_R0. apply Rmult_le_pos; [auto|]. left. apply Rinv_0_lt_compat. lra.
  - apply Forall_app in F. destruct F as [F Fx]. inversion Fx; subst. specialize (IH F). rewrite discounted_snoc.
    eapply Rle_trans; [apply Rabs_triang|]. rewrite Rabs_mult, (Rabs_pos_eq q) by lra.
    assert (K : (B / (1 - q) = q * (B / (1 - q)) + B)%R) by (field; lra). rewrite K. apply Rplus_le_compat; [apply Rmult_le_compat_l; lra|auto].
Qed.
Lemma discounted_ext q l l' : l = l' -> discounted q l = discounted q l'. Proof. intros ->. reflexivity. Qed.
Definition colv (hs : list vec) (k : coord) : list R := map (fun h => h k) hs.
Lemma discounted_norm E q B hs : (0 <= q < 1)%R -> (0 <= B)%R -> Forall (fun h => (norm E h <= B)%R) hs -> (norm E (fun k => discounted q (colv hs k)) <= B / (1 - q))%R.
Proof.
  intros Q HB. induction hs as [|h hs IH] using rev_ind; intros F.
  - rewrite (norm_ext E _ (fun k => 0 * 0)%R) by (intros; unfold discounted; cbn; lra). rewrite (norm_scale E 0 (fun _ => 0%R)), Rabs_R0, Rmult_0_l.
    apply Rmult_le_pos; [auto|]. left. apply Rinv_0_lt_compat. lra.
  - apply Forall_app in F. destruct F as [F Fx]. inversion Fx; subst. specialize (IH F).
    rewrite (norm_ext E _ (fun k => (q * discounted q (colv hs k) + h k)%R)) by (intros; unfold colv; rewrite map_app; cbn [map]; rewrite discounted_snoc; reflexivity).
    eapply Rle_trans; [apply norm_plus|]. rewrite norm_scale, (Rabs_pos_eq q) by lra.
    assert (K : (B / (1 - q) = q * (B / (1 - q)) + B)%R) by (field; lra). rewrite K. apply Rplus_le_compat; [apply Rmult_le_compat_l; lra|auto].
Qed.

(** * Clipping *)
Section Clip.
Variable regex : Type.
Variable search : regex -> str -> bool.
Lemma clipped_norm E c g h x : clipped regex E c g h -> on (clip_norm _ c) x -> (0 < x)%R -> (norm E h <= x)%R.
Proof.
  intros (N & _) O X. destruct (N x O) as [A B]. destruct (Rlt_or_le (norm E g) x) as [L|L].
  - rewrite (norm_ext E h g) by auto. lra.
  - rewrite (norm_ext E h (fun k => (x / norm E g) * g k)%R) by (intros; rewrite B by auto; unfold Rdiv; ring).
    rewrite norm_scale, Rabs_pos_eq by (apply Rmult_le_pos; [lra|left; apply Rinv_0_lt_compat; lra]). right. field. lra.
Qed.
Lemma clipped_value E c g h x k : clipped regex E c g h -> on (clip_value _ c) x -> (0 < x)%R -> (Rabs (h k) <= x)%R.
Proof.
  intros (_ & V & _) O X. rewrite (V x O). apply Rabs_le. split.
  - apply Rmin_glb; [apply Rmax_r|lra].
  - apply Rmin_r.
Qed.
End Clip.

Section Created.
Variable regex : Type.
Variable search : regex -> str -> bool.
Variable argsort : list nat -> list nat.
Hypothesis AS : sorts argsort.
Variable shapes : list (str * list nat).
Notation E := (entries shapes).
Notation created := (create_optimizer regex search argsort shapes).
Notation params := (params _).
Notation trained tx gs p0 := (train shapes tx gs (create tx p0)).
Notation stepped tx gs g p0 := (fst (apply_gradients shapes tx g (train shapes tx gs (create tx p0)))).

Lemma frozen_dec c n : frozen_param regex search c n \/ ~ frozen_param regex search c n.
Proof.
  destruct (existsb (fun r => search r n) (frozen _ c)) eqn:X.
  - left. left. apply existsb_search in X. split; [|exact X]. intros N. rewrite N in X. destruct X as (r & [] & _).
  - destruct (trainable _ c) eqn:T.
    + right. intros [[_ Q]|[N _]]; [apply existsb_search in Q; congruence|congruence].
    + destruct (existsb (fun r => search r n) (trainable _ c)) eqn:Y.
      * right. intros [[_ Q]|[_ Q]]; [apply existsb_search in Q; congruence|]. apply existsb_none in Q. congruence.
      * left. right. split; [rewrite T; discriminate|]. apply existsb_none. exact Y.
Qed.

(** A bound of the optimizer's directions bounds the change of the parameters. *)
Lemma step_bound c tx lr wd p0 gs g n i B : created c = Ok tx -> rate_is regex c lr -> decay_is regex search c n wd ->
  (forall shape, dget shapes n = Some shape -> unfactored (optimizer _ c) shape) -> (0 <= B)%R ->
  (forall hs u, Forall2 (seen regex search E c) (gs ++ [g]) hs -> direction (optimizer _ c) (colv hs (n, i)) u -> (Rabs u <= B)%R) ->
  (Rabs (params (stepped tx gs g p0) (n, i) - params (trained tx gs p0) (n, i)) <= Rabs (lr (length gs)) * (B + Rabs wd * Rabs (params (trained tx gs p0) (n, i))))%R.
Proof.
  intros CR RI DI U HB H. destruct (step_formula regex search argsort shapes c tx lr p0 gs g AS CR RI) as (_ & hs & F & Q). destruct (Q n i) as [Q1 Q2].
  destruct (frozen_dec c n) as [FR|NF].
  - rewrite (Q1 FR). rewrite Rminus_eq_0, Rabs_R0. apply Rmult_le_pos; [apply Rabs_pos|]. apply Rplus_le_le_0_compat; auto. apply Rmult_le_pos; apply Rabs_pos.
  - destruct (Q2 NF U) as (wd' & u & D' & DIR & ->). rewrite (decay_inj _ _ _ _ _ _ D' DI) in *.
    match goal with |- (Rabs (?a - ?b - ?a) <= _)%R => replace (a - b - a)%R with (- b)%R by lra end.
    rewrite Rabs_Ropp, Rabs_mult. apply Rmult_le_compat_l; [apply Rabs_pos|]. eapply Rle_trans; [apply Rabs_triang|]. rewrite Rabs_mult.
    apply Rplus_le_compat_r. eapply H; [exact F|exact DIR].
Qed.

Lemma sgd_direction_bound m nest x l u B : momentum_is m x -> (0 <= x < 1)%R -> (0 <= B)%R -> l <> [] -> Forall (fun y => (Rabs y <= B)%R) l ->
  direction (Sgd m nest) l u -> (Rabs u <= B / (1 - x))%R.
Proof.
  intros M X HB N F [D1 D2]. destruct (exists_last N) as (l0 & y & ->). pose proof F as F0. apply Forall_app in F0. destruct F0 as [F1 F2]. inversion F2; subst.
  assert (K : (B / (1 - x) = x * (B / (1 - x)) + B)%R) by (field; lra).
  assert (P : (0 <= B / (1 - x))%R) by (apply Rmult_le_pos; [auto|]; left; apply Rinv_0_lt_compat; lra).
  destruct M as [[O ->]|O].
  - rewrite (D1 O), last_last. replace (B / (1 - 0))%R with B by (field; lra). auto.
  - rewrite (D2 x O), last_last. destruct nest; [|apply discounted_bound; auto].
    eapply Rle_trans; [apply Rabs_triang|]. rewrite Rabs_mult, (Rabs_pos_eq x) by lra. rewrite K, Rplus_comm. apply Rplus_le_compat; auto.
    apply Rmult_le_compat_l; [lra|]. apply discounted_bound; auto.
Qed.
Lemma seen_all c gs hs (P : vec -> Prop) : Forall2 (seen regex search E c) gs hs -> (forall g h, clipped regex E c g h -> P h) -> Forall P hs.
Proof. intros F H. induction F as [|g h gs hs (g' & _ & C) F IH]; constructor; eauto. Qed.
Lemma seen_nonempty {g : vec} {gs : list vec} {hs : list vec} {P : vec -> vec -> Prop} : Forall2 P (gs ++ [g]) hs -> hs <> [].
Proof. intros F ->. inversion F. destruct gs; discriminate. Qed.

Lemma value_bound c tx lr wd p0 gs g n i a m nest x : created c = Ok tx -> rate_is regex c lr -> decay_is regex search c n wd ->
  on (clip_value _ c) a -> (0 < a)%R -> optimizer _ c = Sgd m nest -> momentum_is m x -> (0 <= x < 1)%R ->
  (Rabs (params (stepped tx gs g p0) (n, i) - params (trained tx gs p0) (n, i)) <=
   Rabs (lr (length gs)) * (a / (1 - x) + Rabs wd * Rabs (params (trained tx gs p0) (n, i))))%R.
Proof.
  intros CR RI DI O A OP M X. apply step_bound with (c := c); auto; [rewrite OP; exact (fun _ _ => I)| |rewrite OP].
  - apply Rmult_le_pos; [lra|]. left. apply Rinv_0_lt_compat. lra.
  - intros hs u F D. apply (sgd_direction_bound m nest x (colv hs (n, i)) u a); auto; [lra| |].
    + apply seen_nonempty in F. unfold colv. destruct hs; [congruence|discriminate].
    + apply Forall_map. eapply seen_all; [exact F|]. intros g0 h C. cbv beta. eapply clipped_value; eauto.
Qed.

Lemma norm_bound c tx lr W p0 gs g b m nest x : created c = Ok tx -> rate_is regex c lr -> (forall n wd, decay_is regex search c n wd -> (Rabs wd <= W)%R) ->
  on (clip_norm _ c) b -> (0 < b)%R -> optimizer _ c = Sgd m nest -> momentum_is m x -> (0 <= x < 1)%R ->
  (norm E (fun k => params (stepped tx gs g p0) k - params (trained tx gs p0) k) <=
   Rabs (lr (length gs)) * (b / (1 - x) + W * norm E (params (trained tx gs p0))))%R.
Proof.
  intros CR RI DI O B OP M X. destruct (step_formula regex search argsort shapes c tx lr p0 gs g AS CR RI) as (_ & hs & F & Q).
  set (s := trained tx gs p0) in *. set (s' := stepped tx gs g p0) in *.
  assert (HS : Forall (fun h => (norm E h <= b)%R) hs) by (eapply seen_all; [exact F|]; intros g0 h C; eapply clipped_norm; eauto).
  pose proof (seen_nonempty F) as NE. destruct (exists_last NE) as (hs0 & h & EH).
  assert (Hh : (norm E h <= b)%R) by (subst hs; apply Forall_app in HS; destruct HS as [_ HS]; inversion HS; auto).
  set (dir := fun k => match truthy R is_zero m with None => h k | Some _ => if nest then (h k + x * discounted x (colv hs k))%R else discounted x (colv hs k) end).
  assert (W0 : (0 <= W)%R).
  { destruct (anatomy _ _ _ _ _ _ CR) as (? & ? & ? & ? & ? & ? & wd & ? & ? & ? & _ & _ & [_ PD _ _ _] & _). eapply Rle_trans; [apply Rabs_pos|]. apply (DI [] _ (PD [])). }
  assert (K : (b / (1 - x) = x * (b / (1 - x)) + b)%R) by (field; lra).
  assert (ND : (norm E dir <= b / (1 - x))%R).
  { assert (P : (0 <= b / (1 - x))%R) by (apply Rmult_le_pos; [lra|]; left; apply Rinv_0_lt_compat; lra).
    unfold dir. destruct M as [[OM ->]|OM].
    - apply truthy_none in OM. rewrite OM. replace (b / (1 - 0))%R with b by (field; lra). auto.
    - apply truthy_some in OM. rewrite OM. destruct nest; [|apply discounted_norm; auto; lra].
      eapply Rle_trans; [apply norm_plus|]. rewrite norm_scale, (Rabs_pos_eq x) by lra. rewrite K, Rplus_comm. apply Rplus_le_compat; auto.
      apply Rmult_le_compat_l; [lra|]. apply discounted_norm; auto; lra. }
  eapply Rle_trans with (norm E (fun k => Rabs (lr (length gs)) * (Rabs (dir k) + W * Rabs (params s k)))%R).
  - apply norm_mono. intros [n i] _. destruct (Q n i) as [Q1 Q2].
    rewrite (Rabs_pos_eq (Rabs (lr (length gs)) * _)) by (apply Rmult_le_pos; [apply Rabs_pos|]; apply Rplus_le_le_0_compat; [apply Rabs_pos|apply Rmult_le_pos; auto; apply Rabs_pos]).
    destruct (frozen_dec c n) as [FR|NF].
    + rewrite (Q1 FR), Rminus_eq_0, Rabs_R0. apply Rmult_le_pos; [apply Rabs_pos|]; apply Rplus_le_le_0_compat; [apply Rabs_pos|apply Rmult_le_pos; auto; apply Rabs_pos].
    + destruct (Q2 NF) as (wd & u & D' & DIR & ->); [intros; rewrite OP; exact I|].
      match goal with |- (Rabs (?a - ?b - ?a) <= _)%R => replace (a - b - a)%R with (- b)%R by lra end.
      rewrite Rabs_Ropp, Rabs_mult. apply Rmult_le_compat_l; [apply Rabs_pos|]. eapply Rle_trans; [apply Rabs_triang|]. rewrite Rabs_mult.
      apply Rplus_le_compat; [|apply Rmult_le_compat_r; [apply Rabs_pos|eauto]].
      assert (EU : u = dir (n, i)).
      { rewrite OP in DIR. destruct DIR as [D1 D2]. unfold dir. assert (LS : last (map (fun h => h (n, i)) hs) 0%R = h (n, i)) by (rewrite EH, map_app; cbn [map]; apply last_last). fold (colv hs (n, i)) in *.
        destruct M as [[OM _]|OM]; [rewrite (proj2 (truthy_none m) OM), (D1 OM)|rewrite (proj2 (truthy_some m x) OM), (D2 x OM)]; rewrite ?LS; reflexivity. }
      rewrite EU. apply Rle_refl.
  - rewrite norm_scale, Rabs_Rabsolu. apply Rmult_le_compat_l; [apply Rabs_pos|]. eapply Rle_trans; [apply norm_plus|].
    rewrite norm_scale, (Rabs_pos_eq W) by auto. apply Rplus_le_compat.
    + eapply Rle_trans; [|exact ND]. apply norm_mono. intros. rewrite Rabs_Rabsolu. lra.
    + apply Rmult_le_compat_l; auto. apply norm_mono. intros. rewrite Rabs_Rabsolu. lra.
Qed.
End Created.
