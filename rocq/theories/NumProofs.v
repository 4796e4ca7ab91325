(** Proofs for C74 to C77. *)
From Coq Require Import List Arith ZArith Bool Lia Reals Lra Permutation.
From Verif Require Import NdArray NdLemmas TreeModel OptModel OptSpec OptProofs3 SchedModel NumModel NumSpec Py PyLemmas.
Import ListNotations.
Local Open Scope nat_scope.

(** * Sequences of updates *)
Fixpoint outs (a : op) (s : st a) (l : list (vec * vec)) : list (vec * vec) :=
  match l with
  | [] => []
  | up :: l => let r := update a (fst up) s (snd up) in (fst r, snd up) :: outs a (snd r) l
  end.
Definition final (a : op) (s : st a) (l : list (vec * vec)) : st a :=
  fold_left (fun s up => snd (update a (fst up) s (snd up))) l s.
Definition result (a : op) (l : list (vec * vec)) (u p : vec) : vec := fst (update a u (final a (init a) l) p).

Lemma outs_length a l : forall s, length (outs a s l) = length l.
Proof. induction l; intros s; cbn; auto. Qed.
Lemma final_then a b l : forall sa sb, final (then_ a b) (sa, sb) l = (final a sa l, final b sb (outs a sa l)).
Proof. induction l as [|[u p] l IH]; intros sa sb; cbn; [reflexivity|]. apply IH. Qed.
Lemma outs_then a b l : forall sa sb, outs (then_ a b) (sa, sb) l = outs b sb (outs a sa l).
Proof. induction l as [|[u p] l IH]; intros sa sb; cbn; [reflexivity|]. f_equal. apply IH. Qed.
Lemma result_then a b l u p : result (then_ a b) l u p = result b (outs a (init a) l) (result a l u p) p.
Proof. unfold result. cbn [init then_ update]. rewrite final_then. reflexivity. Qed.
Lemma outs_stateless f l : forall s, outs (stateless f) s l = map (fun up => (f (fst up) (snd up), snd up)) l.
Proof. induction l as [|[u p] l IH]; intros s; cbn; [reflexivity|]. f_equal. apply IH. Qed.
Lemma result_stateless f l u p : result (stateless f) l u p = f u p.
Proof. reflexivity. Qed.
Lemma result_identity l u p : result identity l u p = u.
Proof. reflexivity. Qed.
Lemma outs_identity l : forall s, outs identity s l = l.
Proof. induction l as [|[u p] l IH]; intros s; cbn; [reflexivity|]. f_equal. apply IH. Qed.

(** The history of a training: the gradients with the parameters at each step *)
Section Train.
Variable shapes : list (str * list nat).
Fixpoint hist (tx : op) (gs : list vec) (s : train_state tx) : list (vec * vec) :=
  match gs with
  | [] => []
  | g :: gs => (g, params _ s) :: hist tx gs (fst (apply_gradients shapes tx g s))
  end.
Lemma hist_fst tx gs : forall s, map fst (hist tx gs s) = gs.
Proof. induction gs as [|g gs IH]; intros s; cbn; [reflexivity|]. f_equal. apply IH. Qed.
Lemma hist_length tx gs s : length (hist tx gs s) = length gs.
Proof. rewrite <- (hist_fst tx gs s) at 2. rewrite map_length. reflexivity. Qed.
Lemma train_state_hist tx gs : forall s, opt_state _ (train shapes tx gs s) = final tx (opt_state _ s) (hist tx gs s).
Proof. induction gs as [|g gs IH]; intros s; cbn; [reflexivity|]. unfold train in IH. rewrite IH. reflexivity. Qed.
Lemma train_step tx gs : forall s, step _ (train shapes tx gs s) = step _ s + length gs.
Proof. induction gs as [|g gs IH]; intros s; cbn; [lia|]. unfold train in IH. rewrite IH. cbn. lia. Qed.
Lemma train_snoc tx gs g s : train shapes tx (gs ++ [g]) s = fst (apply_gradients shapes tx g (train shapes tx gs s)).
Proof. unfold train. rewrite fold_left_app. reflexivity. Qed.
Lemma apply_params tx gs g p0 c : let s := train shapes tx gs (create tx p0) in
  params _ (fst (apply_gradients shapes tx g s)) c = (params _ s c + result tx (hist tx gs (create tx p0)) g (params _ s) c)%R.
Proof. cbn. rewrite train_state_hist. reflexivity. Qed.
End Train.

(** * The optimizers *)
Lemma total_app a b : total (a ++ b) = (total a + total b)%R.
Proof. induction a; cbn; [|rewrite IHa]; lra. Qed.
Lemma total_mult q l : total (map (Rmult q) l) = (q * total l)%R.
Proof. induction l; cbn; [|rewrite IHl]; lra. Qed.
Lemma total_rsum l : rsum l = total l.
Proof. induction l; cbn; [|rewrite <- IHl]; reflexivity. Qed.
Lemma total_ext {A} (f g : A -> R) l : (forall x, In x l -> f x = g x) -> total (map f l) = total (map g l).
Proof. intros H. rewrite (map_ext_in f g) by exact H. reflexivity. Qed.
Lemma discounted_snoc q l x : discounted q (l ++ [x]) = (q * discounted q l + x)%R.
Proof.
  unfold discounted. rewrite app_length, Nat.add_1_r, seq_S, map_app, total_app. cbn [map total plus].
  rewrite app_nth2, Nat.sub_diag by lia. cbn [nth]. replace (S (length l) - 1 - length l) with 0 by lia. rewrite pow_O.
  rewrite <- total_mult, map_map.
  rewrite (total_ext (fun i => (q ^ (S (length l) - 1 - i) * nth i (l ++ [x]) 0)%R) (fun i => (q * (q ^ (length l - 1 - i) * nth i l 0))%R) (seq 0 (length l))); [lra|].
  intros i I. apply in_seq in I. rewrite app_nth1 by lia. replace (S (length l) - 1 - i) with (S (length l - 1 - i)) by lia. cbn [pow]. lra.
Qed.
Definition col (c : coord) (l : list (vec * vec)) : list R := map (fun up => fst up c) l.
Lemma col_snoc c l u p : col c (l ++ [(u, p)]) = col c l ++ [u c].
Proof. unfold col. rewrite map_app. reflexivity. Qed.
Lemma final_snoc a l u p s : final a s (l ++ [(u, p)]) = snd (update a u (final a s l) p).
Proof. unfold final. rewrite fold_left_app. reflexivity. Qed.
Lemma outs_snoc a l u p : outs a (init a) (l ++ [(u, p)]) = outs a (init a) l ++ [(result a l u p, p)].
Proof.
  unfold result. generalize (init a). induction l as [|[v q] l IH]; intros s; cbn; [reflexivity|]. f_equal. apply IH.
Qed.
Lemma discounted_nil q : discounted q [] = 0%R. Proof. reflexivity. Qed.
Lemma final_trace d n l c : final (trace d n) (init (trace d n)) l c = discounted d (col c l).
Proof.
  induction l as [|[u p] l IH] using rev_ind; [reflexivity|]. rewrite final_snoc, col_snoc, discounted_snoc, <- IH. cbn. lra.
Qed.
Lemma result_trace d n l u p c : result (trace d n) l u p c =
  if n then (u c + d * discounted d (col c l ++ [u c]))%R else discounted d (col c l ++ [u c]).
Proof.
  unfold result. cbn [update trace]. rewrite discounted_snoc. pose proof (final_trace d n l c) as F. destruct n; cbn [fst]; rewrite F; lra.
Qed.
Lemma final_adam b1 b2 e r l c : let s := final (scale_by_adam b1 b2 e r) (init (scale_by_adam b1 b2 e r)) l in
  fst s = length l /\ fst (snd s) c = ((1 - b1) * discounted b1 (col c l))%R /\
  snd (snd s) c = ((1 - b2) * discounted b2 (map Rsqr (col c l)))%R.
Proof.
  induction l as [|[u p] l IH] using rev_ind; [unfold discounted; cbn; repeat split; lra|].
  cbv zeta in *. rewrite final_snoc, col_snoc, map_app, app_length. cbn [length map]. rewrite !discounted_snoc.
  destruct IH as (I1 & I2 & I3). cbn [update scale_by_adam fst snd]. rewrite I1, I2, I3. unfold Rsqr. split; [lia|]. split; lra.
Qed.
Lemma col_length c l : length (col c l) = length l.
Proof. apply map_length. Qed.
Lemma result_adam b1 b2 e r l u p c : direction (Adam b1 b2 e r) (col c l ++ [u c]) (result (scale_by_adam b1 b2 e r) l u p c).
Proof.
  cbn [direction]. unfold result. destruct (final_adam b1 b2 e r l c) as (I1 & I2 & I3). cbn [update scale_by_adam fst snd] in *.
  rewrite map_app, app_length. cbn [length map]. rewrite !discounted_snoc, col_length, Nat.add_1_r.
  change (fst (final (scale_by_adam b1 b2 e r) (init (scale_by_adam b1 b2 e r)) l) = length l) in I1.
  cbv beta in *. cbn [init scale_by_adam] in *. rewrite I1, I2, I3.
  replace ((1 - b1) * (b1 * discounted b1 (col c l) + u c))%R with ((1 - b1) * u c + b1 * ((1 - b1) * discounted b1 (col c l)))%R by lra.
  replace ((1 - b2) * (b2 * discounted b2 (map Rsqr (col c l)) + (u c)²))%R with ((1 - b2) * (u c * u c) + b2 * ((1 - b2) * discounted b2 (map Rsqr (col c l))))%R by (unfold Rsqr; lra).
  reflexivity.
Qed.
Lemma is_zero_true x : is_zero x = true <-> x = 0%R.
Proof. unfold is_zero. destruct (Req_EM_T x 0); split; congruence. Qed.
Lemma truthy_some o x : truthy R is_zero o = Some x <-> on o x.
Proof.
  unfold truthy, on. destruct o as [y|]; [|split; [discriminate|intros [E _]; discriminate]].
  destruct (is_zero y) eqn:Z.
  - apply is_zero_true in Z. split; [discriminate|]. intros [E N]. congruence.
  - split; [intros E; injection E as ->; split; auto; intros ->; rewrite (proj2 (is_zero_true 0) eq_refl) in Z; discriminate|intros [E _]; congruence].
Qed.
Lemma truthy_none o : truthy R is_zero o = None <-> off o.
Proof.
  unfold truthy, off. destruct o as [y|]; [|split; auto].
  destruct (is_zero y) eqn:Z.
  - apply is_zero_true in Z. subst. split; auto.
  - split; [discriminate|]. intros [E|E]; [discriminate|]. injection E as ->. rewrite (proj2 (is_zero_true 0) eq_refl) in Z. discriminate.
Qed.
Lemma on_off o x : on o x -> off o -> False.
Proof. intros [-> N] [E|E]; congruence. Qed.
Lemma on_inj o x y : on o x -> on o y -> x = y.
Proof. intros [-> _] [E _]. congruence. Qed.
Lemma on_or_off o : off o \/ exists x, on o x.
Proof. destruct (truthy R is_zero o) as [x|] eqn:E; [right; exists x; apply truthy_some; exact E|left; apply truthy_none; exact E]. Qed.

Lemma result_sgd m n l u p c : direction (Sgd m n) (col c l ++ [u c]) (result (trace_momentum m n) l u p c).
Proof.
  cbn [direction]. unfold trace_momentum. destruct (truthy R is_zero m) as [x|] eqn:E.
  - apply truthy_some in E. split; [intros O; destruct (on_off _ _ E O)|]. intros y Y. rewrite (on_inj _ _ _ Y E), result_trace, last_last. reflexivity.
  - apply truthy_none in E. split; [intros _; rewrite last_last; reflexivity|]. intros y Y. destruct (on_off _ _ Y E).
Qed.

(** * Adafactor *)
Lemma final_ema d l c : final (ema d) (init (ema d)) l c = ((1 - d) * discounted d (col c l))%R.
Proof.
  induction l as [|[u p] l IH] using rev_ind; [unfold discounted; cbn; lra|].
  rewrite final_snoc, col_snoc, discounted_snoc. cbn [update ema snd]. rewrite IH. lra.
Qed.
Lemma result_ema d l u p c : result (ema d) l u p c = ((1 - d) * discounted d (col c l ++ [u c]))%R.
Proof. unfold result. pose proof (final_ema d (l ++ [(u, p)]) c) as F. rewrite final_snoc, col_snoc in F. rewrite <- F. reflexivity. Qed.

Section Factor.
Variable argsort : list nat -> list nat.
Hypothesis AS : sorts argsort.
Variable shapes : list (str * list nat).
Lemma factored_some md shape d1 d0 : factored_dims argsort md shape = Some (d1, d0) ->
  d1 <> d0 /\ d1 < length shape /\ d0 < length shape /\ md <= nth d1 shape 0 /\ md <= nth d0 shape 0.
Proof.
  unfold factored_dims. destruct (length shape <? 2) eqn:L; [discriminate|]. apply Nat.ltb_ge in L.
  destruct (nth (nth (length shape - 2) (argsort shape) 0) shape 0 <? md) eqn:M; [discriminate|]. apply Nat.ltb_ge in M.
  intros E. injection E as E1 E0. destruct (AS shape) as [P S]. pose proof (Permutation_length P) as PL. rewrite seq_length in PL.
  assert (ND : NoDup (argsort shape)) by (eapply Permutation_NoDup; [apply Permutation_sym; exact P|apply seq_NoDup]).
  assert (B : forall k, k < length shape -> nth k (argsort shape) 0 < length shape).
  { intros k K. assert (I : In (nth k (argsort shape) 0) (seq 0 (length shape))) by (eapply Permutation_in; [exact P|apply nth_In; lia]). apply in_seq in I. lia. }
  specialize (S (length shape - 2) (length shape - 1)). subst. split; [|split; [apply B; lia|split; [apply B; lia|split; [exact M|]]]].
  - intros E. apply (proj1 (NoDup_nth (argsort shape) 0) ND) in E; lia.
  - lia.
Qed.
Lemma factored_none dr dm o e md m shape : unfactored (Adafactor dr dm o e md m) shape -> factored_dims argsort md shape = None.
Proof.
  cbn [unfactored]. intros U. destruct (factored_dims argsort md shape) as [[d1 d0]|] eqn:F; auto.
  apply factored_some in F. destruct F as (N & L1 & L0 & M1 & M0).
  destruct (le_lt_dec d1 d0) as [L|L]; [destruct (U d1 d0)|destruct (U d0 d1)]; lia.
Qed.

(** The second moments without factors *)
Fixpoint rms (d : nat -> R) (eps : R) (f : nat -> R) (t : nat) : R :=
  match t with O => 0%R | S t => (d t * rms d eps f t + (1 - d t) * (Rsqr (f t) + eps))%R end.
Lemma rms_ext d eps f g t : (forall i, i < t -> f i = g i) -> rms d eps f t = rms d eps g t.
Proof. induction t as [|t IH]; intros H; cbn [rms]; [reflexivity|]. rewrite IH, (H t) by (intros; try apply H; lia). reflexivity. Qed.
Section Rms.
Variable dr eps : R. Variable off_ md : nat. Variable fn : Z -> R -> R.
Let op := scale_by_factored_rms argsort shapes dr off_ md eps fn.
Let d t := fn (Z.of_nat t - Z.of_nat off_)%Z dr.
Lemma final_rms l c : factored_dims argsort md (shape_of shapes (fst c)) = None ->
  fst (final op (init op) l) = length l /\
  fst (snd (final op (init op) l)) c = rms d eps (fun t => nth t (col c l) 0%R) (length l).
Proof.
  intros F. induction l as [|[u p] l IH] using rev_ind; [split; reflexivity|].
  rewrite final_snoc, app_length, Nat.add_1_r. cbn [rms]. destruct IH as [I1 I2].
  destruct (final op (init op) l) as [count [v [vr vc]]] eqn:E. cbn [fst snd] in I1, I2. subst count.
  cbn [op update scale_by_factored_rms fst snd]. split; [reflexivity|]. rewrite F. rewrite col_snoc, app_nth2, col_length, Nat.sub_diag by (rewrite col_length; lia). cbn [nth].
  rewrite I2. unfold d, Rsqr. f_equal. f_equal. apply rms_ext. intros i I. rewrite app_nth1 by (rewrite col_length; lia). reflexivity.
Qed.
Lemma result_rms l u p c : factored_dims argsort md (shape_of shapes (fst c)) = None ->
  result op l u p c = (u c / sqrt (rms d eps (fun t => nth t (col c l ++ [u c]) 0%R) (S (length l))))%R.
Proof.
  intros F. pose proof (final_rms l c F) as [I1 I2]. unfold result. destruct (final op (init op) l) as [count [v [vr vc]]] eqn:E.
  cbn [fst snd] in I1, I2. subst count. cbn [op update scale_by_factored_rms fst snd]. rewrite F. unfold Rdiv. f_equal. f_equal. f_equal.
  cbn [rms]. rewrite app_nth2, col_length, Nat.sub_diag by (rewrite col_length; lia). cbn [nth]. rewrite I2. unfold d, Rsqr. f_equal. f_equal.
  apply rms_ext. intros i I. rewrite app_nth1 by (rewrite col_length; lia). reflexivity.
Qed.
Lemma outs_rms l c : factored_dims argsort md (shape_of shapes (fst c)) = None ->
  col c (outs op (init op) l) = map (fun t => (nth t (col c l) 0 / sqrt (rms d eps (fun t => nth t (col c l) 0%R) (S t)))%R) (seq 0 (length l)).
Proof.
  intros F. induction l as [|[u p] l IH] using rev_ind; [reflexivity|].
  rewrite outs_snoc, !col_snoc, IH, app_length, Nat.add_1_r, seq_S, map_app. cbn [map plus]. f_equal.
  - apply map_ext_in. intros t T. apply in_seq in T. rewrite app_nth1 by (rewrite col_length; lia). rewrite (rms_ext d eps (fun t => nth t (col c l) 0%R) (fun t => nth t (col c l ++ [u c]) 0%R) (S t)); [reflexivity|].
    intros i I. rewrite app_nth1 by (rewrite col_length; lia). reflexivity.
  - rewrite (result_rms l u p c F), app_nth2, col_length, Nat.sub_diag by (rewrite col_length; lia). reflexivity.
Qed.
End Rms.
Lemma decay_pow dm t o r : decay_rate_pow dm (Z.of_nat t - Z.of_nat o) r = Rmin dm (1 - / Rpower (INR t - INR o + 1) r).
Proof. unfold decay_rate_pow. rewrite minus_IZR, <- !INR_IZR_INZ, Rpower_Ropp. reflexivity. Qed.
Lemma rms_rate d d' eps f t : (forall i, d i = d' i) -> rms d eps f t = rms d' eps f t.
Proof. intros H. induction t as [|t IH]; cbn [rms]; [reflexivity|]. rewrite IH, H. reflexivity. Qed.
Lemma result_factor dr dm o e md m l u p c : unfactored (Adafactor dr dm o e md m) (shape_of shapes (fst c)) ->
  direction (Adafactor dr dm o e md m) (col c l ++ [u c]) (result (scale_by_big_vision_adafactor argsort shapes dr dm o e md m) l u p c).
Proof.
  intros U. apply (factored_none dr dm o e md m) in U. cbn [direction].
  set (d := fun t => Rmin dm (1 - / Rpower (INR t - INR o + 1) dr)).
  set (L := col c l ++ [u c]). set (fn := fun t => nth t L 0%R).
  assert (LL : length L = S (length l)) by (unfold L; rewrite app_length, col_length; cbn; lia).
  exists (rms d e fn). split; [reflexivity|]. split; [intros t _; reflexivity|].
  unfold scale_by_big_vision_adafactor. cbn [chain fold_right]. rewrite result_then.
  set (rop := scale_by_factored_rms argsort shapes dr o md e (decay_rate_pow dm)).
  assert (RV : forall t, rms (fun t => decay_rate_pow dm (Z.of_nat t - Z.of_nat o) dr) e fn t = rms d e fn t) by (intros t; apply rms_rate; intros; apply decay_pow).
  assert (Q : col c (outs rop (init rop) l) ++ [result rop l u p c] = map (fun t => (nth t L 0 / sqrt (rms d e fn (S t)))%R) (seq 0 (length L))).
  { pose proof (outs_rms dr e o md (decay_rate_pow dm) (l ++ [(u, p)]) c U) as E. fold rop in E. rewrite outs_snoc, !col_snoc in E. fold L in E. rewrite E.
    rewrite app_length, LL, Nat.add_1_r. apply map_ext. intros t. rewrite <- RV. reflexivity. }
  rewrite <- Q. split.
  - intros O. apply truthy_none in O. rewrite O, result_then, last_last. reflexivity.
  - intros x X. apply truthy_some in X. rewrite X, result_then, result_identity, result_ema. reflexivity.
Qed.
End Factor.

(** * The whole optimizer *)
Section Created.
Variable regex : Type.
Variable search : regex -> str -> bool.
Variable argsort : list nat -> list nat.
Variable shapes : list (str * list nat).
Notation E := (entries shapes).
Notation created := (create_optimizer regex search argsort shapes).

Lemma norm_eq u : global_norm shapes u = norm E u.
Proof. unfold global_norm, norm. rewrite total_rsum. reflexivity. Qed.

Definition optim_op (o : optim) : op :=
  match o with
  | Sgd m n => trace_momentum m n
  | Adam b1 b2 e r => scale_by_adam b1 b2 e r
  | Adafactor dr dm o e md m => scale_by_big_vision_adafactor argsort shapes dr dm o e md m
  | OtherOptim => identity
  end.
Definition six (S C : vec -> vec -> vec) (o : optim) (D : vec -> vec -> vec) (lr : schedule) (F : vec -> vec -> vec) : op :=
  chain [stateless S; stateless C; optim_op o; stateless D; scale_by_learning_rate lr; stateless F].

Record parts (c : config regex) (w wd : str -> R) (C : vec -> vec) (lr : nat -> R) (fr : str -> bool) : Prop := {
  p_scale : forall n, scale_is regex search c n (w n);
  p_decay : forall n, decay_is regex search c n (wd n);
  p_clip : forall g, clipped regex E c g (C g);
  p_rate : rate_is regex c lr;
  p_frozen : forall n, fr n = true <-> frozen_param regex search c n }.

Lemma existsb_search l n : existsb (fun r => search r n) l = true <-> exists r, In r l /\ search r n = true.
Proof. apply existsb_exists. Qed.
Lemma existsb_none l n : existsb (fun r => search r n) l = false <-> forall r, In r l -> search r n = false.
Proof.
  split.
  - intros H r I. destruct (search r n) eqn:S; auto. assert (T : existsb (fun r => search r n) l = true) by (apply existsb_exists; eauto). congruence.
  - intros H. destruct (existsb (fun r => search r n) l) eqn:T; auto. apply existsb_exists in T. destruct T as (r & I & S). rewrite (H r I) in S. discriminate.
Qed.

Lemma anatomy c tx : created c = Ok tx -> exists S C D lr F w wd C' lr' fr,
  tx = six S C (optimizer _ c) D lr F /\ optimizer _ c <> OtherOptim /\ parts c w wd C' lr' fr /\
  (forall u p n i, S u p (n, i) = (w n * u (n, i))%R) /\ (forall u p, C u p = C' u) /\
  (forall u p n i, D u p (n, i) = (u (n, i) + wd n * p (n, i))%R) /\ (forall t, lr (Z.of_nat t) = lr' t) /\
  (forall u p n i, F u p (n, i) = if fr n then 0%R else u (n, i)) /\
  (off (clip_norm _ c) -> forall u u' k, u k = u' k -> C' u k = C' u' k).
Proof.
  unfold create_optimizer. intros H. apply bind_ok in H. destruct H as (cl & HC & H). apply bind_ok in H. destruct H as (o & HO & H).
  apply bind_ok in H. destruct H as (lr & HL & H). apply bind_ok in H. destruct H as (fr & HF & H). apply Ok_inj in H. subst tx.
  assert (S_ : exists S, gradient_scaling regex search (gradient_scale _ c) = stateless S /\
            forall u p n i, S u p (n, i) = (first_value regex search R (gradient_scale _ c) n 1 * u (n, i))%R).
  { unfold gradient_scaling. destruct (gradient_scale _ c); eexists; (split; [reflexivity|]); intros; cbn [fst first_value]; lra. }
  assert (C_ : exists C C', cl = stateless C /\ (forall u p, C u p = C' u) /\ (forall g, clipped regex E c g (C' g)) /\
            (off (clip_norm _ c) -> forall u u' k, u k = u' k -> C' u k = C' u' k)).
  { unfold gradient_clipping in HC. destruct (truthy R is_zero (clip_norm _ c)) as [g|] eqn:TN; destruct (truthy R is_zero (clip_value _ c)) as [a|] eqn:TV; try discriminate; apply Ok_inj in HC; subst cl.
    - apply truthy_some in TN. apply truthy_none in TV. eexists. exists (fun u => if Rlt_dec (global_norm shapes u) g then u else fun c => (u c / global_norm shapes u * g)%R).
      split; [reflexivity|]. split; [reflexivity|]. split.
      + intros u. split; [|split].
        * intros x X. rewrite (on_inj _ _ _ X TN). rewrite <- norm_eq. split; intros Q; destruct (Rlt_dec (global_norm shapes u) g); try reflexivity; lra.
        * intros x X. destruct (on_off _ _ X TV).
        * intros O. destruct (on_off _ _ TN O).
      + intros O. destruct (on_off _ _ TN O).
    - apply truthy_some in TV. apply truthy_none in TN. eexists. exists (fun u => pw (fun x => Rmin (Rmax x (- a)) a) u).
      split; [reflexivity|]. split; [reflexivity|]. split.
      + intros u. split; [|split].
        * intros x X. destruct (on_off _ _ X TN).
        * intros x X. rewrite (on_inj _ _ _ X TV). reflexivity.
        * intros _ O. destruct (on_off _ _ TV O).
      + intros _ u u' k Q. unfold pw. rewrite Q. reflexivity.
    - apply truthy_none in TV. apply truthy_none in TN. eexists. exists (fun u => u). split; [reflexivity|]. split; [reflexivity|]. split.
      + intros u. split; [|split]; try reflexivity; intros x X; [destruct (on_off _ _ X TN)|destruct (on_off _ _ X TV)].
      + auto. }
  assert (D_ : exists D wd, add_decayed_weights regex search (weight_decay _ c) = stateless D /\ (forall n, decay_is regex search c n (wd n)) /\
            forall u p n i, D u p (n, i) = (u (n, i) + wd n * p (n, i))%R).
  { unfold add_decayed_weights, decay_is. destruct (weight_decay _ c) as [|x|[|r l]].
    - eexists. exists (fun _ => 0%R). split; [reflexivity|]. split; [auto|]. intros. lra.
    - destruct (is_zero x) eqn:Z; [apply is_zero_true in Z; subst x|]; eexists; eexists (fun _ => _); (split; [reflexivity|]); split; try reflexivity; intros; lra.
    - eexists. exists (fun _ => 0%R). split; [reflexivity|]. split; [|intros; lra]. intros n. right. split; [reflexivity|constructor].
    - eexists. exists (fun n => first_value regex search R (r :: l) n 0%R). split; [reflexivity|]. split; [|reflexivity]. intros n. apply OptProofs3.first_value_match. }
  assert (F_ : exists F b, fr = stateless F /\ (forall n, b n = true <-> frozen_param regex search c n) /\ forall u p n i, F u p (n, i) = if b n : bool then 0%R else u (n, i)).
  { unfold freeze_weights in HF. unfold frozen_param. destruct (frozen _ c) as [|f fl]; destruct (trainable _ c) as [|t tl]; try discriminate; apply Ok_inj in HF; subst fr.
    - eexists. exists (fun _ => false). split; [reflexivity|]. split; [|reflexivity]. intros n. split; [discriminate|]. intros [[N _]|[N _]]; congruence.
    - eexists. exists (fun n => if existsb (fun r => search r n) (t :: tl) then false else true). split; [reflexivity|]. split; [|reflexivity]. intros n.
      destruct (existsb (fun r => search r n) (t :: tl)) eqn:X.
      + split; [discriminate|]. intros [[N _]|[_ Q]]; [congruence|]. apply existsb_none in Q. congruence.
      + split; [|auto]. intros _. right. split; [discriminate|]. apply existsb_none. exact X.
    - eexists. exists (fun n => if existsb (fun r => search r n) (f :: fl) then true else false). split; [reflexivity|]. split; [|reflexivity]. intros n.
      destruct (existsb (fun r => search r n) (f :: fl)) eqn:X.
      + split; [|auto]. intros _. left. split; [discriminate|]. apply existsb_search. exact X.
      + split; [discriminate|]. intros [[_ Q]|[N _]]; [|congruence]. apply existsb_search in Q. congruence. }
  assert (O_ : o = optim_op (optimizer _ c) /\ optimizer _ c <> OtherOptim) by (destruct (optimizer _ c); try discriminate; apply Ok_inj in HO; subst o; split; auto; discriminate).
  assert (L_ : rate_is regex c (fun t => lr (Z.of_nat t))).
  { unfold rate_is. destruct (learning_rate _ c) as [v|a]; cbn [create_learning_rate_schedule] in HL; [apply Ok_inj in HL; subst lr; auto|]. exists lr. split; auto. }
  destruct S_ as (S & -> & HS). destruct C_ as (C & C' & -> & HC1 & HC2 & HC3). destruct D_ as (D & wd & -> & HD1 & HD2). destruct F_ as (F & b & -> & HF1 & HF2). destruct O_ as [-> HO1].
  exists S, C, D, lr, F, (fun n => first_value regex search R (gradient_scale _ c) n 1%R), wd, C', (fun t => lr (Z.of_nat t)), b.
  split; [reflexivity|]. split; [exact HO1|]. split; [|repeat split; auto].
  split; auto. intros n. apply OptProofs3.first_value_match.
Qed.
Lemma first_match_inj rules d n w w' : first_match regex search R rules d n w -> first_match regex search R rules d n w' -> w = w'.
Proof.
  revert w w'. induction rules as [|[r v] rules IH]; intros w w' H H'.
  - destruct H as [(b & r & a & E & _)|[-> _]]; [destruct b; discriminate|]. destruct H' as [(b & r & a & E & _)|[-> _]]; [destruct b; discriminate|]. reflexivity.
  - assert (Q : forall x, first_match regex search R ((r, v) :: rules) d n x -> (search r n = true /\ x = v) \/ (search r n = false /\ first_match regex search R rules d n x)).
    { intros x [(b & r0 & a & E & S & F)|[-> F]].
      - destruct b as [|[r1 v1] b]; cbn in E; injection E; intros; subst; [left; auto|]. inversion F; subst. right. split; auto. left. exists b, r0, a. auto.
      - inversion F; subst. right. split; auto. right. auto. }
    apply Q in H. apply Q in H'. destruct H as [[A B]|[A B]], H' as [[A' B']|[A' B']]; try congruence. eapply IH; eassumption.
Qed.
Lemma rate_inj c lr lr' : rate_is regex c lr -> rate_is regex c lr' -> forall t, lr t = lr' t.
Proof.
  unfold rate_is. destruct (learning_rate _ c) as [v|a]; [intros H H' t; rewrite H, H'; reflexivity|].
  intros (s & E & H) (s' & E' & H') t. rewrite H, H'. rewrite E in E'. apply Ok_inj in E'. subst. reflexivity.
Qed.
Lemma decay_inj c n w w' : decay_is regex search c n w -> decay_is regex search c n w' -> w = w'.
Proof. unfold decay_is. destruct (weight_decay _ c); [congruence|congruence|apply first_match_inj]. Qed.

Lemma final_lr lr l : forall s, final (scale_by_learning_rate lr) s l = s + length l.
Proof. induction l as [|[u p] l IH]; intros s; cbn; [lia|]. unfold final in IH. rewrite IH. lia. Qed.

Lemma result_six S C o D lr F l u p : result (six S C o D lr F) l u p =
  F (fun k => (D (result (optim_op o) (map (fun up => (C (S (fst up) (snd up)) (snd up), snd up)) l) (C (S u p) p) p) p k * - lr (Z.of_nat (length l)))%R) p.
Proof.
  unfold six. cbn [chain fold_right]. rewrite !result_then, !outs_stateless, map_map, result_identity, !result_stateless. f_equal.
  unfold result at 1. cbn [update scale_by_learning_rate fst snd init]. rewrite final_lr, map_length, outs_length, map_length. reflexivity.
Qed.
Lemma result_optim (AS : sorts argsort) o l u p n i : o <> OtherOptim -> (forall shape, dget shapes n = Some shape -> unfactored o shape) ->
  direction o (col (n, i) l ++ [u (n, i)]) (result (optim_op o) l u p (n, i)).
Proof.
  intros N U. destruct o; cbn [optim_op]; [apply result_sgd|apply result_adam| |congruence].
  apply result_factor; auto. cbn [fst]. unfold shape_of. destruct (dget shapes n) as [s|]; [apply U; reflexivity|]. cbn. intros; lia.
Qed.

Notation params := (params _).
Notation step := (step _).
(** * One training step after any number of steps *)
Lemma step_formula c tx lr p0 gs g : sorts argsort -> created c = Ok tx -> rate_is regex c lr ->
  let s := train shapes tx gs (create tx p0) in let s' := fst (apply_gradients shapes tx g s) in
  step s' = S (length gs) /\
  exists hs, Forall2 (seen regex search E c) (gs ++ [g]) hs /\
  forall n i, (frozen_param regex search c n -> params s' (n, i) = params s (n, i)) /\
    (~ frozen_param regex search c n -> (forall shape, dget shapes n = Some shape -> unfactored (optimizer _ c) shape) ->
     exists wd u, decay_is regex search c n wd /\ direction (optimizer _ c) (map (fun h => h (n, i)) hs) u /\
       params s' (n, i) = (params s (n, i) - lr (length gs) * (u + wd * params s (n, i)))%R).
Proof.
  intros AS CR RI. cbv zeta. destruct (anatomy c tx CR) as (S & C & D & l & F & w & wd & C' & lr' & fr & -> & NO & [PS PD PC PR PF] & HS & HC & HD & HL & HF & _).
  set (tx := six S C (optimizer regex c) D l F). split; [rewrite <- train_snoc, train_step, app_length; cbn; lia|].
  set (L := hist shapes tx gs (create tx p0)). set (s := train shapes tx gs (create tx p0)).
  exists (map (fun up => C' (S (fst up) (snd up))) (L ++ [(g, params s)])). split.
  { replace (gs ++ [g]) with (map fst (L ++ [(g, params s)])) by (rewrite map_app; unfold L; rewrite hist_fst; reflexivity).
    generalize (L ++ [(g, params s)]). intros l0. induction l0 as [|[u p] l0 IH]; cbn [map]; constructor; auto. cbn [fst snd].
    exists (S u p). split; [|apply PC]. intros n. exists (w n). split; [apply PS|]. intros i. apply HS. }
  assert (R : forall n i, params (fst (apply_gradients shapes tx g s)) (n, i) =
    (params s (n, i) + if fr n then 0 else (result (optim_op (optimizer _ c)) (map (fun up => (C (S (fst up) (snd up)) (snd up), snd up)) L) (C (S g (params s)) (params s)) (params s) (n, i) + wd n * params s (n, i)) * - lr (length gs))%R).
  { intros n i. unfold s. rewrite apply_params. fold s. fold L. unfold tx at 2. rewrite result_six, HF, HD. unfold L at 2. rewrite hist_length, HL, (rate_inj c lr lr' RI PR). reflexivity. }
  intros n i. rewrite R. split.
  - intros FR. apply PF in FR. rewrite FR. lra.
  - intros NF U. assert (FF : fr n = false) by (destruct (fr n) eqn:Q; auto; destruct NF; apply PF; exact Q). rewrite FF.
    match goal with |- context [(result ?a ?b ?d ?e (n, i) + _)%R] => exists (wd n), (result a b d e (n, i)) end. split; [apply PD|]. split; [|lra].
    rewrite map_app, map_app. cbn [map fst snd]. rewrite <- (HC (S g (params s)) (params s)).
    pose proof (result_optim AS (optimizer _ c) (map (fun up => (C (S (fst up) (snd up)) (snd up), snd up)) L) (C (S g (params s)) (params s)) (params s) n i NO U) as RO.
    unfold col in RO. rewrite map_map in RO. cbn [fst] in RO. rewrite map_map.
    rewrite (map_ext_in (fun x => C' (S (fst x) (snd x)) (n, i)) (fun x => C (S (fst x) (snd x)) (snd x) (n, i))) by (intros; rewrite HC; reflexivity). exact RO.
Qed.

Lemma reports tx g s : let r := apply_gradients shapes tx g s in
  n_grads (snd r) = norm E g /\ n_params (snd r) = norm E (params (fst r)) /\
  n_updates (snd r) = norm E (fun k => (params (fst r) k - params s k)%R).
Proof.
  cbn. rewrite !norm_eq. split; [reflexivity|]. split; [reflexivity|]. unfold norm. f_equal. apply total_ext. intros k _. f_equal. lra.
Qed.

Lemma errors c : (exists tx, created c = Ok tx) <->
  (off (clip_norm _ c) \/ off (clip_value _ c)) /\ optimizer _ c <> OtherOptim /\ (exists lr, rate_is regex c lr) /\ (frozen _ c = [] \/ trainable _ c = []).
Proof.
  split.
  - intros [tx H]. destruct (anatomy c tx H) as (? & ? & ? & ? & ? & ? & ? & ? & lr & ? & _ & NO & [_ _ _ PR _] & _).
    unfold create_optimizer in H. apply bind_ok in H. destruct H as (cl & HC & H). apply bind_ok in H. destruct H as (o & HO & H).
    apply bind_ok in H. destruct H as (l & HL & H). apply bind_ok in H. destruct H as (f & HF & _). split; [|split; [exact NO|split; [exists lr; exact PR|]]].
    + unfold gradient_clipping in HC. destruct (truthy R is_zero (clip_norm _ c)) eqn:TN; [destruct (truthy R is_zero (clip_value _ c)) eqn:TV; [discriminate|right; apply truthy_none; exact TV]|left; apply truthy_none; exact TN].
    + unfold freeze_weights in HF. destruct (frozen _ c), (trainable _ c); auto; discriminate.
  - intros (HC & HO & (lr & HL) & HF). unfold create_optimizer.
    assert (C1 : exists cl, gradient_clipping shapes (clip_norm _ c) (clip_value _ c) = Ok cl).
    { unfold gradient_clipping. destruct HC as [O|O]; apply truthy_none in O; rewrite O; [destruct (truthy R is_zero (clip_value _ c))|destruct (truthy R is_zero (clip_norm _ c))]; eexists; reflexivity. }
    destruct C1 as [cl ->]. cbn [bind].
    assert (O1 : exists o, match optimizer _ c with Adam b1 b2 eps eps_root => Ok (scale_by_adam b1 b2 eps eps_root)
      | Adafactor dr dmax off eps md m => Ok (scale_by_big_vision_adafactor argsort shapes dr dmax off eps md m)
      | Sgd m nesterov => Ok (trace_momentum m nesterov) | OtherOptim => Raise ValueError end = Ok o) by (destruct (optimizer _ c); try congruence; eexists; reflexivity).
    destruct O1 as [o ->]. cbn [bind].
    assert (L1 : exists l, create_learning_rate_schedule (total_steps _ c) match learning_rate _ c with inl v => Constant v | inr a => a end = Ok l).
    { unfold rate_is in HL. destruct (learning_rate _ c) as [v|a]; [eexists; reflexivity|]. destruct HL as (s & E1 & _). exists s. exact E1. }
    destruct L1 as [l ->]. cbn [bind].
    assert (F1 : exists f, freeze_weights regex search (frozen _ c) (trainable _ c) = Ok f).
    { unfold freeze_weights. destruct HF as [->| ->]; [destruct (trainable _ c)|destruct (frozen _ c)]; eexists; reflexivity. }
    destruct F1 as [f ->]. eexists. reflexivity.
Qed.
End Created.
