(** Proofs for C45. *)
From Coq Require Import List Arith ZArith Bool Lia.
From Verif Require Import Prim PrimLemmas MoeModel MoeSpec MoeProofs CwModel CwSpec.
From Verif Require Import Py PyLemmas.
Import ListNotations.
Local Open Scope nat_scope.

Section P.
Context {A : alg} (L : alg_laws A) (sadd : sc A -> sc A -> sc A) (SL : sum_laws A sadd).

Lemma ssum_zero n f : (forall i, i < n -> f i = szero A) -> ssum sadd n f = szero A.
Proof. induction n; simpl; intros H; auto. rewrite IHn, H by auto. apply (sadd_zero _ _ SL). Qed.
Lemma ssum_single n f i0 : i0 < n -> (forall i, i < n -> i <> i0 -> f i = szero A) -> ssum sadd n f = f i0.
Proof.
  induction n; simpl; intros Hi H; [lia|]. destruct (Nat.eq_dec i0 n) as [->|Hne].
  - rewrite ssum_zero by (intros; apply H; lia). apply (zero_sadd _ _ SL).
  - rewrite IHn by (intros; try apply H; lia). rewrite (H n) by lia. apply (sadd_zero _ _ SL).
Qed.

(** The sum over the choices of an item as a sum over the experts *)
Lemma by_expert E K (ch : nat -> nat) (keep : nat -> bool) (v : nat -> vec A) :
  (forall k, k < K -> ch k < E) -> (forall k k', k < K -> k' < K -> ch k = ch k' -> k = k') ->
  vsum A K (fun k => if keep k then v (ch k) else vzero A) =
  vsum A E (fun e => if existsb (fun k => (ch k =? e) && keep k) (seq 0 K) then v e else vzero A).
Proof.
  intros R I. rewrite (vsum_ext K _ (fun k => vsum A E (fun e => if (ch k =? e) && keep k then v e else vzero A))).
  - rewrite (vsum_swap L). apply vsum_ext. intros e He. destruct (existsb _ _) eqn:Ex.
    + apply existsb_exists in Ex. destruct Ex as (k & Hk & B). apply in_seq in Hk. apply andb_true_iff in B. destruct B as [B1 B2]. apply Nat.eqb_eq in B1.
      rewrite (vsum_single L K _ k); [rewrite B1, Nat.eqb_refl, B2; auto|lia|]. intros i Hi Hne. destruct (Nat.eqb_spec (ch i) e) as [Q|]; auto. exfalso. apply Hne. apply I; auto; [lia|congruence].
    + apply (vsum_zero L). intros k Hk. destruct ((ch k =? e) && keep k) eqn:B; auto. exfalso.
      assert (existsb (fun k => (ch k =? e) && keep k) (seq 0 K) = true) by (apply existsb_exists; exists k; split; auto; apply in_seq; lia). congruence.
  - intros k Hk. symmetry. rewrite (vsum_single L E _ (ch k)); [rewrite Nat.eqb_refl; auto|auto|]. intros i Hi Hne. replace (ch k =? i) with false by (symmetry; apply Nat.eqb_neq; auto). auto.
Qed.

Lemma rows_at G S E w g s e : s < S -> snd (rows (A := A) G S E w) (g * S + s) e = w g s e.
Proof.
  intros Hs. cbn [rows snd]. replace ((g * S + s) / S) with g. replace ((g * S + s) mod S) with s; auto.
  - symmetry. rewrite Nat.add_comm, Nat.mod_add by lia. apply Nat.mod_small; auto.
  - symmetry. rewrite Nat.add_comm, Nat.div_add by lia. rewrite Nat.div_small by auto. auto.
Qed.

Section TopExperts.
Variables (G Sz E K C : nat) (gates : nat -> nat -> nat -> sc A) (bp : bool).
Hypotheses (HS : 1 <= Sz) (HK : 1 <= K) (HE : K <= E).
Lemma kept_by_expert ch f (x : nat -> vec A) g s (w : nat -> sc A) : (forall g s, s < Sz -> best_choices E K (gates g s) (ch g s)) -> s < Sz ->
  (forall e, e < E -> w e = if existsb (fun k => (ch g s k =? e) && (competitors bp Sz E K (gates g) (ch g) s k <? C)) (seq 0 K) then gates g s e else szero A) ->
  top_experts_output bp Sz E K C (gates g) (ch g) f x s = sum_over E (fun e => vscale A (w e) (f e (x s))).
Proof using L HE HK.
  intros Hch Hs W. unfold top_experts_output. rewrite !(sum_over_vsum L).
  rewrite (by_expert E K (ch g s) (fun k => competitors bp Sz E K (gates g) (ch g) s k <? C) (fun e => vscale A (gates g s e) (f e (x s)))).
  - apply vsum_ext. intros e He. rewrite W by auto. destruct (existsb _ _); auto. symmetry. apply (scale_zero _ L).
  - intros k Hk. destruct (Hch g s Hs) as (R & _). auto.
  - intros k k' Hk Hk' Q. exact (best_choices_inj L _ E K (ch g s) (Hch g s Hs) k k' Hk Hk' Q).
Qed.
Lemma cw_einsum : exists d w, einsum_dispatcher_of Sz E K C gates bp = Some d /\
  combine_weights_of sadd (DEinsum G Sz E C d) = Ok (G * Sz, E, w) /\
  describes G Sz E (layer (DEinsum G Sz E C d)) (fun g s => w (g * Sz + s)).
Proof using L SL HS HK HE.
  destruct (einsum_dispatcher_spec L Sz E K C gates bp HS HK HE) as (d & Hd & dw & Hdw & Hs).
  exists d. eexists. split; [exact Hd|]. split; [reflexivity|].
  destruct (choices_exist L Sz E K gates HE) as (ch & Hch).
  intros f F HF data g s Hg Hsl. cbn [layer].
  rewrite (einsum_layer L G Sz E K C gates bp HS HK HE ch Hch f F HF d data g s Hd Hg Hsl).
  apply kept_by_expert; auto. intros e He.
  match goal with |- ?l = _ => change l with (snd (rows (A := A) G Sz E (fun g s e => ssum sadd C (fun c => ed_combine d g s e c))) (g * Sz + s) e) end.
  rewrite rows_at by auto. cbv beta.
  destruct (existsb _ (seq 0 K)) eqn:Ex.
  - apply existsb_exists in Ex. destruct Ex as (k & Hk & B). apply in_seq in Hk. apply andb_true_iff in B. destruct B as [B1 B2]. apply Nat.eqb_eq in B1. apply Nat.ltb_lt in B2.
    rewrite (ssum_single C _ (competitors bp Sz E K (gates g) (ch g) s k)); auto.
    + destruct (Hs ch Hch g s e (competitors bp Sz E K (gates g) (ch g) s k) Hsl) as [E1 E2]. rewrite E2, E1.
      replace (existsb _ (seq 0 K)) with true; [apply (mul_one _ L)|]. symmetry. apply existsb_exists. exists k. split; [apply in_seq; lia|]. rewrite B1, Nat.eqb_refl. apply Nat.eqb_refl.
    + intros c Hc Hne. destruct (Hs ch Hch g s e c Hsl) as [E1 E2]. rewrite E2, E1. replace (existsb _ (seq 0 K)) with false; [apply (mul_zero _ L)|]. symmetry. apply Bool.not_true_is_false. intros X. apply existsb_exists in X.
      destruct X as (k' & Hk' & B'). apply in_seq in Hk'. apply andb_true_iff in B'. destruct B' as [B1' B2']. apply Nat.eqb_eq in B1'. apply Nat.eqb_eq in B2'.
      assert (k' = k) by (apply (best_choices_inj L _ E K (ch g s) (Hch g s Hsl)); [lia|lia|congruence]). subst k'. apply Hne. symmetry. exact B2'.
  - apply ssum_zero. intros c Hc. destruct (Hs ch Hch g s e c Hsl) as [E1 E2]. rewrite E2, E1. replace (existsb _ (seq 0 K)) with false; [apply (mul_zero _ L)|]. symmetry. apply Bool.not_true_is_false. intros X. apply existsb_exists in X.
    destruct X as (k' & Hk' & B'). apply in_seq in Hk'. apply andb_true_iff in B'. destruct B' as [B1' B2']. apply Nat.eqb_eq in B2'.
    apply Bool.not_true_iff_false in Ex. apply Ex. apply existsb_exists. exists k'. split; [apply in_seq; lia|]. rewrite B1'. apply Nat.ltb_lt. unfold slot_of in B2'. rewrite B2'. auto.
Qed.
Lemma cw_indices_value : exists d w, indices_dispatcher_of Sz E K gates bp = Some d /\
  combine_weights_of sadd (DIndices G Sz K E C d) = Ok (G * Sz, E, w) /\
  forall ch, (forall g s, s < Sz -> best_choices E K (gates g s) (ch g s)) -> forall g s e, s < Sz ->
    w (g * Sz + s) e = if existsb (fun k => ch g s k =? e) (seq 0 K) then gates g s e else szero A.
Proof using L SL HS HK HE.
  destruct (indices_dispatcher_spec L Sz E K gates bp HS HK HE) as (d & Hd & Hs).
  exists d. eexists. split; [exact Hd|]. split; [reflexivity|]. intros ch Hch g s e Hsl.
  match goal with |- ?l = _ => change l with (snd (rows (A := A) G Sz E (fun g s e => ssum sadd K (fun k => smul A (b2s A (id_expert d g s k =? e)) (id_combine d g s k)))) (g * Sz + s) e) end.
  rewrite rows_at by auto. cbv beta. destruct (existsb _ (seq 0 K)) eqn:Ex.
  - apply existsb_exists in Ex. destruct Ex as (k & Hk & B1). apply in_seq in Hk. apply Nat.eqb_eq in B1.
    rewrite (ssum_single K _ k); [|lia|].
    + destruct (Hs ch Hch g s k Hsl ltac:(lia)) as (E1 & _ & E2). rewrite E1, E2, B1, Nat.eqb_refl. apply (one_mul _ _ SL).
    + intros i Hi Hne. destruct (Hs ch Hch g s i Hsl Hi) as (E1 & _ & _). rewrite E1. replace (ch g s i =? e) with false; [apply (zero_mul _ _ SL)|]. symmetry. apply Nat.eqb_neq. intros Q. apply Hne.
      apply (best_choices_inj L _ E K (ch g s) (Hch g s Hsl)); [lia|lia|congruence].
  - apply ssum_zero. intros k Hk. destruct (Hs ch Hch g s k Hsl Hk) as (E1 & _ & _). rewrite E1. replace (ch g s k =? e) with false; [apply (zero_mul _ _ SL)|]. symmetry. apply Bool.not_true_is_false. intros Q.
    apply Bool.not_true_iff_false in Ex. apply Ex. apply existsb_exists. exists k. split; [apply in_seq; lia|auto].
Qed.
(** The indices dispatcher, when no choice is beyond the capacity *)
Lemma cw_indices ch : (forall g s, s < Sz -> best_choices E K (gates g s) (ch g s)) ->
  (forall g s k, g < G -> s < Sz -> k < K -> competitors bp Sz E K (gates g) (ch g) s k < C) ->
  exists d w, indices_dispatcher_of Sz E K gates bp = Some d /\
  combine_weights_of sadd (DIndices G Sz K E C d) = Ok (G * Sz, E, w) /\
  describes G Sz E (layer (DIndices G Sz K E C d)) (fun g s => w (g * Sz + s)).
Proof using L SL HS HK HE.
  intros Hch Room. destruct cw_indices_value as (d & w & Hd & Hw & V). exists d, w. split; [exact Hd|]. split; [exact Hw|].
  intros f F HF data g s Hg Hsl. cbn [layer]. rewrite (indices_layer L G Sz E K C gates bp HS HK HE ch Hch f F HF d data g s Hd Hg Hsl).
  apply kept_by_expert; auto. intros e He. rewrite (V ch Hch g s e Hsl).
  assert (Q : forall l, (forall k, In k l -> k < K) -> existsb (fun k => ch g s k =? e) l = existsb (fun k => (ch g s k =? e) && (competitors bp Sz E K (gates g) (ch g) s k <? C)) l).
  { induction l as [|k l IH]; intros R; auto. cbn [existsb]. rewrite IH by (intros; apply R; right; auto). f_equal.
    replace (competitors bp Sz E K (gates g) (ch g) s k <? C) with true by (symmetry; apply Nat.ltb_lt; apply Room; auto; apply R; left; auto). rewrite andb_true_r. auto. }
  rewrite Q; auto. intros k Hk. apply in_seq in Hk. lia.
Qed.
End TopExperts.

Lemma cw_top_items G Sz E C gates : 1 <= E -> C <= Sz -> exists d w, top_items_dispatcher_of Sz E C gates = Some d /\
  combine_weights_of sadd (DEinsum G Sz E C d) = Ok (G * Sz, E, w) /\
  describes G Sz E (layer (DEinsum G Sz E C d)) (fun g s => w (g * Sz + s)).
Proof using L SL.
  intros HE HC. destruct (top_items_choices_exist L Sz E C HC gates) as (ch & Hch).
  destruct (top_items_dispatcher_spec L Sz E C HC gates ch Hch) as (d & Hd & dw & Hdw & Hs).
  exists d. eexists. split; [exact Hd|]. split; [reflexivity|]. intros f F HF data g s Hg Hsl. cbn [layer].
  rewrite (top_items_layer L Sz E C HC G gates ch HE Hch f F HF d data g s Hd Hg Hsl). unfold top_items_output. rewrite !(sum_over_vsum L). apply vsum_ext. intros e He.
  match goal with |- _ = vscale A ?l _ => change l with (snd (rows (A := A) G Sz E (fun g s e => ssum sadd C (fun c => ed_combine d g s e c))) (g * Sz + s) e) end.
  rewrite rows_at by auto. cbv beta. destruct (existsb _ (seq 0 C)) eqn:Ex.
  - apply existsb_exists in Ex. destruct Ex as (c & Hc & B). apply in_seq in Hc. rewrite (ssum_single C _ c); [|lia|].
    + destruct (Hs g s e c He ltac:(lia)) as [_ E2]. rewrite E2, B. cbn [b2s]. rewrite (mul_one _ L). auto.
    + intros i Hi Hne. destruct (Hs g s e i He Hi) as [_ E2]. rewrite E2. replace (ch g e i =? s) with false; [apply (mul_zero _ L)|]. symmetry. apply Nat.eqb_neq. intros Q. apply Hne. apply Nat.eqb_eq in B.
      apply (best_choices_inj L _ Sz C (ch g e) (Hch g e He)); [lia|lia|congruence].
  - rewrite ssum_zero; [symmetry; apply (scale_zero _ L)|]. intros c Hc. destruct (Hs g s e c He Hc) as [_ E2]. rewrite E2. replace (ch g e c =? s) with false; [apply (mul_zero _ L)|]. symmetry. apply Bool.not_true_is_false. intros Q.
    apply Bool.not_true_iff_false in Ex. apply Ex. apply existsb_exists. exists c. split; [apply in_seq; lia|auto].
Qed.

Lemma describes_unique G Sz E run w w' : describes (A := A) G Sz E run w -> describes G Sz E run w' ->
  forall g s e x, g < G -> s < Sz -> e < E -> vscale A (w g s e) x = vscale A (w' g s e) x.
Proof using L.
  clear SL. intros D D' g s e x Hg Hs He. pose (f := fun e' (_ : vec A) => if e' =? e then x else vzero A).
  assert (Q := D f (fun e buf j => f e (buf j)) (fun _ _ _ => eq_refl) (fun _ _ => vzero A) g s Hg Hs).
  rewrite (D' f (fun e buf j => f e (buf j)) (fun _ _ _ => eq_refl) (fun _ _ => vzero A) g s Hg Hs) in Q. rewrite !(sum_over_vsum L) in Q. unfold f in Q.
  rewrite !(vsum_single L E _ e) in Q by (auto; intros i _ N; replace (i =? e) with false by (symmetry; apply Nat.eqb_neq; auto); apply (scale_vzero _ L)).
  rewrite Nat.eqb_refl in Q. auto.
Qed.

Lemma of_supported d : (exists m, combine_weights_of sadd d = Ok m) <-> supported d = true.
Proof. destruct d as [| | |[]]; simpl; (split; intros H; [try reflexivity; destruct H as [m H]; discriminate H | try discriminate H; eexists; reflexivity]). Qed.
Lemma of_unsupported d : supported d = false -> combine_weights_of sadd d = Raise TypeError.
Proof. destruct d as [| | |[]]; simpl; intros H; first [reflexivity | discriminate H]. Qed.
Lemma get_ok {K} (l : list (K * dispatcher A)) : Forall (fun kv => supported (snd kv) = true) l ->
  exists out, get_combine_weights sadd (Some l) = Ok out /\ Forall2 (fun kv r => fst r = fst kv /\ combine_weights_of sadd (snd kv) = Ok (snd r)) l out.
Proof.
  induction 1 as [|[k d] l H _ (out & E & F)]; [exists []; split; auto|]. cbn [snd] in H. apply of_supported in H. destruct H as (m & H).
  exists ((k, m) :: out). cbn [get_combine_weights rmap] in *. cbn [fst snd] in *. split; [|constructor; auto]. rewrite H. cbn [bind]. rewrite E. auto.
Qed.
Lemma get_fails {K} (l : list (K * dispatcher A)) : Exists (fun kv => supported (snd kv) = false) l -> get_combine_weights sadd (Some l) = Raise TypeError.
Proof.
  induction l as [|[k d] l IH]; intros H; [inversion H|]. cbn [get_combine_weights rmap fst snd] in *. destruct (supported d) eqn:S0.
  - pose proof (proj2 (of_supported d) S0) as (m & ->). cbn [bind]. apply Exists_cons in H. destruct H as [H|H]; [cbn [snd] in H; congruence|]. rewrite IH by auto. auto.
  - rewrite of_unsupported by auto. auto.
Qed.
Lemma per_image_ok n E w B : 1 <= B -> exists r, per_image (A := A) B (n * B, E, w) = Ok r /\ fst r = n /\ forall b t e, snd r b t e = w (b * n + t) e.
Proof.
  intros HB. unfold per_image. rewrite Nat.mod_mul by lia. replace (B =? 0) with false by (symmetry; apply Nat.eqb_neq; lia). cbn [orb Nat.eqb negb]. eexists. split; [reflexivity|]. cbn [fst snd]. rewrite Nat.div_mul by lia. auto.
Qed.
End P.

Lemma Z_sum_laws : sum_laws Zalg Z.add.
Proof. constructor; [exact Z.add_0_r|exact Z.add_0_l|exact Z.mul_1_l|exact Z.mul_0_l]. Qed.
Lemma indices_refuted : exists G Sz E K C gates d w,
  1 <= Sz /\ 1 <= K /\ K <= E /\ indices_dispatcher_of (A := Zalg) Sz E K gates false = Some d /\
  combine_weights_of (A := Zalg) Z.add (DIndices G Sz K E C d) = Ok (G * Sz, E, w) /\
  ~ describes (A := Zalg) G Sz E (layer (DIndices G Sz K E C d)) (fun g s => w (g * Sz + s)).
Proof.
  exists 1, 2, 1, 1, 1, (fun _ _ _ => 1%Z). do 2 eexists. do 3 (split; [lia|]). split; [reflexivity|]. split; [reflexivity|].
  intros D. assert (Q := D (fun _ _ => 1%Z) (fun _ _ _ => 1%Z) (fun _ _ _ => eq_refl) (fun _ _ => 1%Z) 0 1 ltac:(lia) ltac:(lia)). vm_compute in Q. discriminate.
Qed.
