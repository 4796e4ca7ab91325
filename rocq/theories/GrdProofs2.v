(** Proofs for C87: where nothing is tied, forward mode gives the derivative. *)
From Coq Require Import List Arith ZArith Bool Reals Lia Lra FunctionalExtensionality.
From Verif Require Import Prim PrimLemmas MoeModel MoeSpec MoeProofs MoeProps SoftModel SoftSpec SoftProofs EnsProofs GrdModel GrdSpec GrdProofs.
Import ListNotations.
Local Open Scope nat_scope.

Definition near (t0 : R) (P : R -> Prop) : Prop := exists h, (0 < h)%R /\ forall t, (Rabs (t - t0) < h)%R -> P t.
Lemma near_and t0 (P Q : R -> Prop) : near t0 P -> near t0 Q -> near t0 (fun t => P t /\ Q t).
Proof.
  intros (h & Hh & HP) (k & Hk & HQ). exists (Rmin h k). split; [apply Rmin_pos; auto|]. intros t Ht.
  split; [apply HP; eapply Rlt_le_trans; [exact Ht|apply Rmin_l]|apply HQ; eapply Rlt_le_trans; [exact Ht|apply Rmin_r]].
Qed.
Lemma near_true t0 (P : R -> Prop) : (forall t, P t) -> near t0 P.
Proof. intros H. exists 1%R. split; [lra|auto]. Qed.
Lemma near_mono t0 (P Q : R -> Prop) : near t0 P -> (forall t, P t -> Q t) -> near t0 Q.
Proof. intros (h & Hh & HP) H. exists h. auto. Qed.
Lemma near_all t0 n (P : nat -> R -> Prop) : (forall i, i < n -> near t0 (P i)) -> near t0 (fun t => forall i, i < n -> P i t).
Proof.
  induction n as [|n IH]; intros H. { apply near_true. intros; lia. }
  eapply near_mono. { apply near_and; [apply IH; intros i Hi; apply H; lia|apply (H n); lia]. }
  intros t [A B] i Hi. destruct (Nat.eq_dec i n) as [->|]; auto. apply A. lia.
Qed.
Lemma near_lt t0 f g : continuity_pt f t0 -> continuity_pt g t0 -> (f t0 < g t0)%R -> near t0 (fun t => f t < g t)%R.
Proof.
  intros Cf Cg H. set (e := ((g t0 - f t0) / 2)%R). assert (He : (0 < e)%R) by (unfold e; lra).
  destruct (Cf e He) as (h & Hh & HP). destruct (Cg e He) as (k & Hk & HQ). cbn in HP, HQ. unfold R_dist in *.
  exists (Rmin h k). split; [apply Rmin_pos; auto|]. intros t Ht.
  destruct (Req_EM_T t t0) as [->|Hn]; auto.
  assert (A : (Rabs (f t - f t0) < e)%R). { apply HP. split; [split; [exact I|auto]|]. eapply Rlt_le_trans; [exact Ht|apply Rmin_l]. }
  assert (B : (Rabs (g t - g t0) < e)%R). { apply HQ. split; [split; [exact I|auto]|]. eapply Rlt_le_trans; [exact Ht|apply Rmin_r]. }
  apply Rabs_def2 in A, B. unfold e in *. lra.
Qed.
Lemma near_order t0 f g : continuity_pt f t0 -> continuity_pt g t0 -> f t0 <> g t0 -> near t0 (fun t => sleb Ralg (f t) (g t) = sleb Ralg (f t0) (g t0)).
Proof.
  intros Cf Cg H. cbn [sleb Ralg]. destruct (Rle_dec (f t0) (g t0)) as [L|L].
  - eapply near_mono; [apply near_lt; [exact Cf|exact Cg|lra]|]. cbn. intros t Ht. destruct (Rle_dec (f t) (g t)); auto. lra.
  - eapply near_mono; [apply (near_lt t0 g f Cg Cf); lra|]. cbn. intros t Ht. destruct (Rle_dec (f t) (g t)); auto. lra.
Qed.
(** The same preferences near t0 *)
Lemma near_preferred t0 n (v : R -> nat -> R) : (forall i, i < n -> continuity_pt (fun t => v t i) t0) -> no_ties n (v t0) ->
  near t0 (fun t => forall i, i < n -> forall j, j < n -> preferred (A := Ralg) (v t) i j = preferred (A := Ralg) (v t0) i j).
Proof.
  intros Cv N. apply near_all. intros i Hi. apply near_all. intros j Hj. destruct (Nat.eq_dec i j) as [->|Hij].
  - apply near_true. intros t. unfold preferred. rewrite Nat.ltb_irrefl, !andb_false_r, !orb_false_r. cbn [sleb Ralg].
    destruct (Rle_dec (v t j) (v t j)), (Rle_dec (v t0 j) (v t0 j)); auto; lra.
  - assert (Q1 : v t0 i <> v t0 j) by (intros X; apply Hij; apply N; auto). assert (Q2 : v t0 j <> v t0 i) by auto.
    eapply near_mono; [apply near_and; [apply (near_order t0 (fun t => v t i) (fun t => v t j))|apply (near_order t0 (fun t => v t j) (fun t => v t i))]; auto|].
    cbn beta. intros t [A B]. unfold preferred. rewrite A, B. reflexivity.
Qed.
Lemma best_same n K (v v' : nat -> R) ch : (forall i, i < n -> forall j, j < n -> preferred (A := Ralg) v' i j = preferred (A := Ralg) v i j) ->
  best_choices (A := Ralg) n K v ch -> best_choices (A := Ralg) n K v' ch.
Proof.
  intros H (A & B & C). repeat split; auto.
  - intros k k' Hk Hk'. rewrite H by (apply A; lia). auto.
  - intros i Hi Hn k Hk. rewrite H by auto. auto.
Qed.
Lemma row_max_first n K (row : nat -> R) ch : 1 <= K -> best_choices (A := Ralg) n K row ch -> row_max (A := Ralg) n row = row (ch 0).
Proof.
  intros HK B. destruct (first_choice_max Ralg_laws n K row ch HK B) as [A1 A2]. cbn [sleb Ralg] in A1, A2.
  destruct (Rle_dec (row (ch 0)) (row_max (A := Ralg) n row)); [|discriminate]. destruct (Rle_dec (row_max (A := Ralg) n row) (row (ch 0))); [|discriminate]. lra.
Qed.
Lemma row_max_largest n row : 1 <= n -> row_max (A := Ralg) n row = largest n row.
Proof.
  destruct n as [|n]; [lia|]. intros _. induction n as [|n IH]; [reflexivity|].
  change (largest (S (S n)) row) with (Rmax (largest (S n) row) (row (S n))). rewrite <- IH.
  change (row_max (A := Ralg) (S (S n)) row) with (if sleb Ralg (row (S n)) (row_max (A := Ralg) (S n) row) then row_max (A := Ralg) (S n) row else row (S n)).
  set (m := row_max (A := Ralg) (S n) row). cbn [sleb Ralg]. unfold Rmax. destruct (Rle_dec (row (S n)) m), (Rle_dec m (row (S n))); lra.
Qed.
Lemma competitors_same bp Sz E K (v v' : nat -> nat -> R) ch s k :
  (bp = true -> forall i, i < Sz -> forall j, j < Sz -> preferred (A := Ralg) (fun s => row_max (A := Ralg) E (v' s)) i j = preferred (A := Ralg) (fun s => row_max (A := Ralg) E (v s)) i j) ->
  s < Sz -> competitors (A := Ralg) bp Sz E K v' ch s k = competitors (A := Ralg) bp Sz E K v ch s k.
Proof.
  intros H Hs. unfold competitors. f_equal. apply filter_ext_in. intros [s' k'] Hin. apply in_prod_iff in Hin. destruct Hin as [Hs' _]. apply in_seq in Hs'. cbn [fst snd].
  f_equal. unfold priority. f_equal. f_equal. unfold item_first. destruct bp; auto. apply H; auto. lia.
Qed.

Lemma derivable_sum t0 n (h : nat -> R -> R) h' : (forall i, i < n -> derivable_pt_lim (h i) t0 (h' i)) -> derivable_pt_lim (fun t => sum_to n (fun i => h i t)) t0 (sum_to n h').
Proof.
  intros H. rewrite <- sumf_to. apply (derivable_pt_lim_ext (fun t => sumf n (fun i => h i t))); [intros; apply sumf_to|].
  revert H. induction n as [|n IH]; intros H. { cbn. apply derivable_pt_lim_const. }
  cbn. apply (derivable_pt_lim_plus (fun t => sumf n (fun i => h i t)) (h n)); auto.
Qed.
Lemma derivable_near t0 f g l : near t0 (fun t => f t = g t) -> derivable_pt_lim f t0 l -> derivable_pt_lim g t0 l.
Proof.
  intros (h & Hh & H). apply (derivable_pt_lim_locally_ext f g t0 (t0 - h) (t0 + h)); [lra|]. intros z Hz. apply H. apply Rabs_def1; lra.
Qed.
Lemma derivable_cont f t l : derivable_pt_lim f t l -> continuity_pt f t.
Proof. intros H. apply derivable_continuous_pt. exists l. auto. Qed.

Definition of_opt (x : option (nat -> nat -> nat -> R)) : nat -> nat -> nat -> R := match x with Some o => o | None => fun _ _ _ => 0%R end.

Section Layer.
Variables (G Sz E K C : nat) (bp : bool) (t0 : R).
Variables (gates : R -> nat -> nat -> nat -> R) (gates' : nat -> nat -> nat -> R).
Variables (f : R -> nat -> (nat -> R) -> nat -> R) (F : R -> nat -> (nat -> nat -> R) -> nat -> nat -> R) (data : R -> nat -> nat -> nat -> R).
Variables (fd : nat -> vec Dalg -> vec Dalg) (Fd : nat -> (nat -> vec Dalg) -> nat -> vec Dalg) (dd : nat -> nat -> vec Dalg).
Hypothesis HF : forall t e buf j, F t e buf j = f t e (buf j).
Hypothesis HFd : forall e buf j, Fd e buf j = fd e (buf j).
Hypothesis Hg' : forall g s e, derivable_pt_lim (fun t => gates t g s e) t0 (gates' g s e).
Hypothesis Hf' : forall g s e d, g < G -> s < Sz -> e < E -> moves (fun t => f t e (data t g s) d) t0 (fst (fd e (dd g s)) d) (snd (fd e (dd g s)) d).

Let gD (g s e : nat) : R * R := (gates t0 g s e, gates' g s e).

Section Experts.
Hypothesis HS : 1 <= Sz. Hypothesis HK : 1 <= K. Hypothesis HE : K <= E.
Hypothesis N1 : forall g s, g < G -> s < Sz -> no_ties E (gates t0 g s).
Hypothesis N2 : bp = true -> forall g, g < G -> no_ties Sz (fun s => largest E (gates t0 g s)).

Let top t g s k := nth k (top_k (sleb Ralg) E K (gates t g s)) 0.
Lemma top_best t g s : best_choices (A := Ralg) E K (gates t g s) (top t g s).
Proof. apply (best_choices_top_k Ralg_laws (gates t g s) E K). auto. Qed.
Let ch := top t0.
Lemma near_choices g : g < G -> near t0 (fun t =>
  (forall s, s < Sz -> best_choices (A := Ralg) E K (gates t g s) (ch g s)) /\
  forall s k, s < Sz -> competitors (A := Ralg) bp Sz E K (gates t g) (ch g) s k = competitors (A := Ralg) bp Sz E K (gates t0 g) (ch g) s k).
Proof.
  intros Hg.
  assert (Cg : forall s e, continuity_pt (fun t => gates t g s e) t0) by (intros; eapply derivable_cont; apply Hg').
  assert (A : near t0 (fun t => forall s, s < Sz -> best_choices (A := Ralg) E K (gates t g s) (ch g s))).
  { apply near_all. intros s Hs. eapply near_mono; [apply (near_preferred t0 E (fun t => gates t g s)); auto|]. cbn beta. intros t Ht. apply (best_same E K (gates t0 g s)); auto. apply top_best. }
  assert (B : near t0 (fun t => bp = true -> forall i, i < Sz -> forall j, j < Sz ->
     preferred (A := Ralg) (fun s => gates t g s (ch g s 0)) i j = preferred (A := Ralg) (fun s => gates t0 g s (ch g s 0)) i j)).
  { destruct (bool_dec bp true) as [Eb|Eb]; [|apply near_true; congruence].
    eapply near_mono; [apply (near_preferred t0 Sz (fun t s => gates t g s (ch g s 0))); auto|auto].
    intros i j Hi Hj Q. apply (N2 Eb g Hg); auto. rewrite <- !row_max_largest by lia. rewrite !(row_max_first E K _ (ch g _)) by (auto; apply top_best). auto. }
  eapply near_mono; [apply near_and; [exact A|exact B]|]. cbn beta. intros t [At Bt]. split; auto.
  intros s k Hs. apply competitors_same; auto. intros Eb i Hi j Hj.
  unfold preferred in *. rewrite !(row_max_first E K (gates t g _) (ch g _)) by auto. rewrite !(row_max_first E K (gates t0 g _) (ch g _)) by (auto; apply top_best).
  apply (Bt Eb i Hi j Hj).
Qed.
(** The real layer near t0 *)
Lemma near_output g s d : g < G -> s < Sz -> near t0 (fun t => forall o o', einsum_layer (A := Ralg) G Sz E K C bp (gates t) (F t) (data t) = Some o ->
   indices_layer (A := Ralg) G Sz E K C bp (gates t) (F t) (data t) = Some o' ->
   o g s d = kept_sum bp Sz E K C (gates t0 g) (ch g) s (fun e => gates t g s e * f t e (data t g s) d)%R /\ o' g s d = o g s d).
Proof.
  intros Hg Hs. eapply near_mono; [apply (near_choices g Hg)|]. cbn beta. intros t [Bt Ct] o o' Eo Eo'.
  destruct (layer_some Ralg Ralg_laws G Sz E K C bp (gates t) (f t) (F t) (data t) HS HK HE (HF t)) as (o1 & o2 & E1 & E2 & H). rewrite E1 in Eo. rewrite E2 in Eo'. injection Eo as <-. injection Eo' as <-.
  set (cht := fun g' s' => if Nat.eq_dec g' g then ch g s' else top t g' s').
  destruct (H cht) with (g := g) (s := s) as [-> ->]; auto.
  { intros g' s' Hs'. unfold cht. destruct (Nat.eq_dec g' g) as [->|]; [auto|apply top_best]. }
  split; [|reflexivity]. unfold top_experts_output. rewrite sum_over_R. unfold kept_sum. apply sum_to_ext. intros k Hk.
  replace (cht g) with (ch g) by (apply functional_extensionality; intros; unfold cht; destruct (Nat.eq_dec g g); congruence).
  rewrite Ct by auto. destruct (_ <? C); reflexivity.
Qed.
Lemma experts_true : exists o oi, (forall t, einsum_layer (A := Ralg) G Sz E K C bp (gates t) (F t) (data t) = Some (o t)) /\
  (forall t, indices_layer (A := Ralg) G Sz E K C bp (gates t) (F t) (data t) = Some (oi t)) /\
  exists od odi, einsum_layer (A := Dalg) G Sz E K C bp (fun g s e => (gates t0 g s e, gates' g s e)) Fd dd = Some od /\
    indices_layer (A := Dalg) G Sz E K C bp (fun g s e => (gates t0 g s e, gates' g s e)) Fd dd = Some odi /\
  forall g s d, g < G -> s < Sz ->
    moves (fun t => o t g s d) t0 (fst (od g s) d) (snd (od g s) d) /\ moves (fun t => oi t g s d) t0 (fst (odi g s) d) (snd (odi g s) d).
Proof.
  exists (fun t => of_opt (einsum_layer (A := Ralg) G Sz E K C bp (gates t) (F t) (data t))), (fun t => of_opt (indices_layer (A := Ralg) G Sz E K C bp (gates t) (F t) (data t))).
  assert (EQ : forall t, einsum_layer (A := Ralg) G Sz E K C bp (gates t) (F t) (data t) = Some (of_opt (einsum_layer (A := Ralg) G Sz E K C bp (gates t) (F t) (data t))) /\
     indices_layer (A := Ralg) G Sz E K C bp (gates t) (F t) (data t) = Some (of_opt (indices_layer (A := Ralg) G Sz E K C bp (gates t) (F t) (data t)))).
  { intros t. destruct (layer_some Ralg Ralg_laws G Sz E K C bp (gates t) (f t) (F t) (data t) HS HK HE (HF t)) as (o1 & o2 & E1 & E2 & _). rewrite E1, E2. auto. }
  split; [intros t; apply EQ|]. split; [intros t; apply EQ|].
  destruct (jvp_layer G Sz E K C bp gD fd Fd dd HS HK HE HFd) as (od & odi & E1 & E2 & H). exists od, odi. split; [exact E1|]. split; [exact E2|].
  intros g s d Hg Hs. destruct (H ch) with (g := g) (s := s) (d := d) as [[V T] [Vi Ti]]; auto.
  { intros g' s' _. apply top_best. }
  cbn [fst snd gD] in V, T. unfold gD in V, T. cbn [fst snd] in V, T.
  pose proof (near_output g s d Hg Hs) as NO.
  assert (NE : near t0 (fun t => kept_sum bp Sz E K C (gates t0 g) (ch g) s (fun e => gates t g s e * f t e (data t g s) d)%R = of_opt (einsum_layer (A := Ralg) G Sz E K C bp (gates t) (F t) (data t)) g s d)).
  { eapply near_mono; [exact NO|]. cbn beta. intros t Ht. destruct (Ht _ _ (proj1 (EQ t)) (proj2 (EQ t))) as [-> _]. reflexivity. }
  assert (NI : near t0 (fun t => kept_sum bp Sz E K C (gates t0 g) (ch g) s (fun e => gates t g s e * f t e (data t g s) d)%R = of_opt (indices_layer (A := Ralg) G Sz E K C bp (gates t) (F t) (data t)) g s d)).
  { eapply near_mono; [exact NO|]. cbn beta. intros t Ht. destruct (Ht _ _ (proj1 (EQ t)) (proj2 (EQ t))) as [Q ->]. symmetry. exact Q. }
  assert (V0 : kept_sum bp Sz E K C (gates t0 g) (ch g) s (fun e => gates t0 g s e * f t0 e (data t0 g s) d)%R = fst (od g s) d).
  { rewrite V. apply kept_sum_ext. intros e (k & Hk & <- & _). destruct (Hf' g s (ch g s k) d Hg Hs) as [-> _]; auto. apply top_best. auto. }
  assert (D0 : derivable_pt_lim (fun t => kept_sum bp Sz E K C (gates t0 g) (ch g) s (fun e => gates t g s e * f t e (data t g s) d)%R) t0 (snd (od g s) d)).
  { rewrite T. unfold kept_sum. apply (derivable_sum t0 K (fun k t => if competitors (A := Ralg) bp Sz E K (gates t0 g) (ch g) s k <? C then (gates t g s (ch g s k) * f t (ch g s k) (data t g s) d)%R else 0%R)).
    intros k Hk. destruct (_ <? C); [|apply derivable_pt_lim_const].
    assert (He : ch g s k < E) by (apply top_best; auto).
    destruct (Hf' g s (ch g s k) d Hg Hs He) as [Fv FD]. rewrite <- Fv.
    apply (derivable_pt_lim_mult (fun t => gates t g s (ch g s k)) (fun t => f t (ch g s k) (data t g s) d) t0); auto. }
  rewrite Vi, Ti. split; split.
  - destruct NE as (h & Hh & Q). rewrite <- (Q t0) by (replace (t0 - t0)%R with 0%R by lra; rewrite Rabs_R0; lra). exact V0.
  - apply (derivable_near t0 _ _ _ NE D0).
  - destruct NI as (h & Hh & Q). rewrite <- (Q t0) by (replace (t0 - t0)%R with 0%R by lra; rewrite Rabs_R0; lra). exact V0.
  - apply (derivable_near t0 _ _ _ NI D0).
Qed.
End Experts.

Section Items.
Hypothesis HE : 1 <= E. Hypothesis HC : C <= Sz.
Hypothesis N1 : forall g e, g < G -> e < E -> no_ties Sz (fun s => gates t0 g s e).
Let top t g e c := nth c (top_k (sleb Ralg) Sz C (fun s => gates t g s e)) 0.
Lemma top_best_items t g e : best_choices (A := Ralg) Sz C (fun s => gates t g s e) (top t g e).
Proof. apply (best_choices_top_k Ralg_laws (fun s => gates t g s e) Sz C). auto. Qed.
Let ch := top t0.
Lemma items_true : exists o, (forall t, items_layer (A := Ralg) G Sz E C (gates t) (F t) (data t) = Some (o t)) /\
  exists od, items_layer (A := Dalg) G Sz E C (fun g s e => (gates t0 g s e, gates' g s e)) Fd dd = Some od /\
  forall g s d, g < G -> s < Sz -> moves (fun t => o t g s d) t0 (fst (od g s) d) (snd (od g s) d).
Proof.
  exists (fun t => of_opt (items_layer (A := Ralg) G Sz E C (gates t) (F t) (data t))).
  assert (EQ : forall t, items_layer (A := Ralg) G Sz E C (gates t) (F t) (data t) = Some (of_opt (items_layer (A := Ralg) G Sz E C (gates t) (F t) (data t)))).
  { intros t. destruct (items_some Ralg Ralg_laws G Sz E C (gates t) (f t) (F t) (data t) HE HC (HF t)) as (o1 & E1 & _). rewrite E1. auto. }
  split; auto.
  destruct (jvp_items G Sz E C gD fd Fd dd HE HC HFd) as (od & E1 & H). exists od. split; [exact E1|].
  intros g s d Hg Hs. destruct (H ch) with (g := g) (s := s) (d := d) as [V T]; auto.
  { intros g' e' _. apply top_best_items. }
  unfold gD in V, T. cbn [fst snd] in V, T.
  assert (NB : near t0 (fun t => forall e, e < E -> best_choices (A := Ralg) Sz C (fun s => gates t g s e) (ch g e))).
  { apply near_all. intros e He. eapply near_mono; [apply (near_preferred t0 Sz (fun t s => gates t g s e)); auto|].
    - intros i Hi. eapply derivable_cont. apply Hg'.
    - cbn beta. intros t Ht. apply (best_same Sz C (fun s => gates t0 g s e)); auto. apply top_best_items. }
  assert (NE : near t0 (fun t => picked_sum E C (ch g) s (fun e => gates t g s e * f t e (data t g s) d)%R = of_opt (items_layer (A := Ralg) G Sz E C (gates t) (F t) (data t)) g s d)).
  { eapply near_mono; [exact NB|]. cbn beta. intros t Bt.
    destruct (items_some Ralg Ralg_laws G Sz E C (gates t) (f t) (F t) (data t) HE HC (HF t)) as (o1 & Eo & Ho). rewrite Eo. cbn [of_opt].
    set (cht := fun g' e' => if Nat.eq_dec g' g then ch g e' else top t g' e').
    rewrite (Ho cht); auto.
    - unfold top_items_output. rewrite sum_over_R. unfold picked_sum. apply sum_to_ext. intros e He.
      replace (cht g) with (ch g) by (apply functional_extensionality; intros; unfold cht; destruct (Nat.eq_dec g g); congruence).
      destruct (existsb _ _); reflexivity.
    - intros g' e' He'. unfold cht. destruct (Nat.eq_dec g' g) as [->|]; [auto|apply top_best_items]. }
  assert (V0 : picked_sum E C (ch g) s (fun e => gates t0 g s e * f t0 e (data t0 g s) d)%R = fst (od g s) d).
  { rewrite V. apply sum_to_ext. intros e He. destruct (Hf' g s e d Hg Hs He) as [-> _]. reflexivity. }
  assert (D0 : derivable_pt_lim (fun t => picked_sum E C (ch g) s (fun e => gates t g s e * f t e (data t g s) d)%R) t0 (snd (od g s) d)).
  { rewrite T. unfold picked_sum. apply (derivable_sum t0 E (fun e t => if existsb (fun c => ch g e c =? s) (seq 0 C) then (gates t g s e * f t e (data t g s) d)%R else 0%R)).
    intros e He. destruct (existsb _ _); [|apply derivable_pt_lim_const].
    destruct (Hf' g s e d Hg Hs He) as [Fv FD]. rewrite <- Fv.
    apply (derivable_pt_lim_mult (fun t => gates t g s e) (fun t => f t e (data t g s) d) t0); auto. }
  split.
  - destruct NE as (h & Hh & Q). rewrite <- (Q t0) by (replace (t0 - t0)%R with 0%R by lra; rewrite Rabs_R0; lra). exact V0.
  - apply (derivable_near t0 _ _ _ NE D0).
Qed.
End Items.
End Layer.
