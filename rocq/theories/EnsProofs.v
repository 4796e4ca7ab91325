(** Proofs for C46. *)
From Coq Require Import List Arith ZArith Bool Reals Lia Lra FunctionalExtensionality.
From Verif Require Import Prim PrimLemmas MoeModel MoeSpec MoeProofs SoftModel SoftSpec SoftProofs TreeModel TreeProofs EvalModel AuxModel AuxSpec AuxProofs EnsModel EnsSpec.
From Verif Require Import Py PyLemmas.
Import ListNotations.
Local Open Scope nat_scope.

Lemma Ralg_laws : alg_laws Ralg.
Proof.
  constructor; cbn.
  - intros a b. destruct (Rle_dec a b); auto. destruct (Rle_dec b a); auto. lra.
  - intros a b c. destruct (Rle_dec a b), (Rle_dec b c), (Rle_dec a c); intros; auto; try discriminate. lra.
  - intros a b. destruct (Rle_dec (- a) (- b)), (Rle_dec b a); auto; lra.
  - intros; lra.
  - intros; lra.
  - intros; apply functional_extensionality; intros; lra.
  - intros; apply functional_extensionality; intros; lra.
  - intros; apply functional_extensionality; intros; lra.
  - intros; apply functional_extensionality; intros; lra.
  - intros; apply functional_extensionality; intros; lra.
  - intros; apply functional_extensionality; intros; lra.
Qed.

Lemma reshape_to_ok {V} B M T Sz (x : nat -> nat -> V) G : 1 <= M -> 1 <= Sz -> G * Sz = B * T * M ->
  exists y, reshape_to (B * M) T Sz M x = Ok (G, y) /\
    forall g s b m t, t < T -> m < M -> placed Sz T M g s b m t -> y g s = x (b * M + m) t.
Proof.
  intros HM HS Q. unfold reshape_to. replace (M =? 0) with false by (symmetry; apply Nat.eqb_neq; lia). rewrite Nat.div_mul by lia. rewrite Nat.eqb_refl. cbn [negb].
  replace (Sz =? 0) with false by (symmetry; apply Nat.eqb_neq; lia). rewrite <- Q, Nat.mod_mul by lia. cbn [orb Nat.eqb negb]. rewrite Nat.div_mul by lia.
  eexists. split; [reflexivity|]. intros g s b m t Ht Hm P. unfold unravel2. unfold placed in P. rewrite P. rewrite ravel3_at by auto. unfold unravel3. rewrite ravel2_at by auto. auto.
Qed.
Lemma reshape_from_ok {V} B M T Sz (y : nat -> nat -> V) G : 1 <= M -> 1 <= T -> G * Sz = B * T * M ->
  exists z, reshape_from G Sz T M y = Ok (B * M, z) /\
    forall g s b m t, s < Sz -> t < T -> m < M -> placed Sz T M g s b m t -> z (b * M + m) t = y g s.
Proof.
  intros HM HT Q. unfold reshape_from. rewrite Q. rewrite <- Nat.mul_assoc.
  replace (T * M =? 0) with false by (symmetry; apply Nat.eqb_neq; intros X; apply Nat.mul_eq_0 in X; lia). rewrite Nat.mod_mul by (intros X; apply Nat.mul_eq_0 in X; lia). cbn [orb Nat.eqb negb].
  rewrite Nat.div_mul by (intros X; apply Nat.mul_eq_0 in X; lia). eexists. split; [reflexivity|].
  intros g s b m t Hs Ht Hm P. unfold unravel2. rewrite ravel3_at by auto. unfold unravel3. unfold placed in P. rewrite <- P. rewrite ravel2_at by auto. auto.
Qed.
Lemma placed_exists Sz T M G B b m t : 1 <= Sz -> G * Sz = B * T * M -> b < B -> t < T -> m < M -> exists g s, g < G /\ s < Sz /\ placed Sz T M g s b m t.
Proof.
  intros HS Q Hb Ht Hm. exists (((b * T + t) * M + m) / Sz), (((b * T + t) * M + m) mod Sz).
  assert (L : (b * T + t) * M + m < G * Sz). { rewrite Q. assert (b * T + t + 1 <= B * T) by nia. nia. }
  split; [apply Nat.div_lt_upper_bound; lia|]. split; [apply Nat.mod_upper_bound; lia|]. unfold placed. rewrite Nat.mul_comm. symmetry. apply Nat.div_mod. lia.
Qed.
Lemma placed_member Sz T M g s b m t : 1 <= M -> Sz mod M = 0 -> m < M -> placed Sz T M g s b m t -> s mod M = m.
Proof.
  intros HM D Hm P. unfold placed in P. assert (X : (g * Sz + s) mod M = m) by (rewrite P, Nat.add_comm, Nat.mod_add by lia; apply Nat.mod_small; auto).
  rewrite <- X. apply Nat.mod_divides in D; [|lia]. destruct D as [q D]. rewrite D. replace (g * (M * q) + s) with (s + (g * q) * M) by ring. rewrite Nat.mod_add by lia. auto.
Qed.
Lemma reshape_roundtrip {V} B M T Sz (x : nat -> nat -> V) G : 1 <= M -> 1 <= Sz -> 1 <= T -> G * Sz = B * T * M ->
  exists y z, reshape_to (B * M) T Sz M x = Ok (G, y) /\ reshape_from G Sz T M y = Ok (B * M, z) /\
    forall r t, r < B * M -> t < T -> z r t = x r t.
Proof.
  intros HM HS HT Q. destruct (reshape_to_ok B M T Sz x G HM HS Q) as (y & E1 & V1). destruct (reshape_from_ok B M T Sz y G HM HT Q) as (z & E2 & V2).
  exists y, z. split; [exact E1|]. split; [exact E2|]. intros r t Hr Ht. assert (Hb : r / M < B) by (apply Nat.div_lt_upper_bound; lia). assert (Hm : r mod M < M) by (apply Nat.mod_upper_bound; lia).
  replace r with (r / M * M + r mod M) by (rewrite Nat.mul_comm; symmetry; apply Nat.div_mod; lia).
  destruct (placed_exists Sz T M G B (r / M) (r mod M) t HS Q Hb Ht Hm) as (g & s & Hg & Hs & P). rewrite (V2 g s (r / M) (r mod M) t Hs Ht Hm P). apply V1; auto.
Qed.

Lemma rmap_app {A B} (f : A -> res B) l l' : rmap f (l ++ l') = bind (rmap f l) (fun a => bind (rmap f l') (fun b => Ok (a ++ b))).
Proof.
  induction l as [|x l IH]; cbn [app rmap bind].
  - destruct (rmap f l'); auto.
  - destruct (f x); cbn [bind]; auto. rewrite IH. destruct (rmap f l); cbn [bind]; auto. destruct (rmap f l'); auto.
Qed.

(** ** Gates *)
Section Gates.
Variable cdf : R -> R.
Variables (M E K : nat) (det : bool) (std gw iw lw : R) (dense : nat -> (nat -> R) -> nat -> R) (normal : nat -> nat -> nat -> nat -> R).
Lemma member_gates G Sz q (logits nrm : nat -> nat -> nat -> R) : 1 <= K -> K <= q ->
  exists gates m, compute_gates_softmax_and_metrics cdf G Sz q K det std gw iw lw logits nrm = Ok (gates, m) /\
    forall g s e, gates g s e = softmax q (fun e => if (quiet det std) then logits g s e else (logits g s e + std / INR q * nrm g s e)%R) e.
Proof.
  intros H1 H2. unfold compute_gates_softmax_and_metrics. replace (K <=? q) with true by (symmetry; apply Nat.leb_le; auto). replace (1 <=? K) with true by (symmetry; apply Nat.leb_le; auto). cbn [andb negb]. cbv zeta. unfold quiet.
  destruct (det || _).
  - match goal with |- context [weighted_sum ?l] => destruct (weighted_shaped G l) as (aux & EA & _) end. { repeat constructor; apply groups_shaped. } rewrite EA. cbn [bind]. do 2 eexists. split; [reflexivity|]. auto.
  - match goal with |- context [weighted_sum ?l] => destruct (weighted_shaped G l) as (aux & EA & _) end. { repeat constructor; apply groups_shaped. } rewrite EA. cbn [bind]. do 2 eexists. split; [reflexivity|]. intros. cbv beta. match goal with |- softmax _ ?a _ = softmax _ ?b _ => replace a with b; auto end. apply functional_extensionality. intros. f_equal. unfold Rdiv. ring.
Qed.
Lemma gates_ok G Sz inputs : 1 <= M -> E mod M = 0 -> Sz mod M = 0 -> 1 <= K -> K <= E / M ->
  exists gates ms, ensemble_gates cdf M E K det std gw iw lw dense normal G Sz inputs = Ok (gates, ms) /\ length ms = M /\
    forall g s e, s < Sz -> e < E ->
      gates g s e = if member_of E M e =? s mod M
                    then softmax (E / M) (member_logits M E (quiet det std) std (dense (s mod M)) (inputs g s) (normal (s mod M) g (s / M))) (e mod (E / M))
                    else 0%R.
Proof.
  intros HM DE DS H1 H2. unfold ensemble_gates. replace (M =? 0) with false by (symmetry; apply Nat.eqb_neq; lia). rewrite DE, DS. cbn [Nat.eqb negb].
  set (F := fun m => compute_gates_softmax_and_metrics _ _ _ _ _ _ _ _ _ _ _ _).
  assert (A : forall n, exists l, rmap F (seq 0 n) = Ok l /\ length l = n /\ forall m, m < n -> exists gt ms, F m = Ok (gt, ms) /\ nth m l (fun _ _ _ => 0%R, []) = (gt, ms)).
  { induction n as [|n IH]; [exists []; split; [reflexivity|]; split; auto; intros; lia|]. destruct IH as (l & EL & LL & NL).
    destruct (member_gates G (Sz / M) (E / M) (fun g i => dense n (unravel2 M (inputs g) i n)) (normal n) H1 H2) as (gt & ms & EG & _).
    exists (l ++ [(gt, ms)]). split; [|split; [rewrite app_length; simpl; lia|]].
    - rewrite seq_S, rmap_app, EL. cbn [bind rmap Nat.add]. replace (F n) with (Ok (gt, ms)) by (symmetry; exact EG). reflexivity.
    - intros m Hm. destruct (Nat.eq_dec m n) as [->|N].
      + exists gt, ms. split; [exact EG|]. rewrite app_nth2 by lia. rewrite LL, Nat.sub_diag. auto.
      + destruct (NL m ltac:(lia)) as (gt' & ms' & E1 & E2). exists gt', ms'. split; auto. rewrite app_nth1 by lia. auto. }
  destruct (A M) as (l & EL & LL & NL). rewrite EL. cbn [bind]. do 2 eexists. split; [reflexivity|]. split; [rewrite map_length; auto|].
  intros g s e Hs He. set (q := E / M) in *. set (r := Sz / M) in *.
  assert (SZ : Sz = M * r) by (unfold r; apply Nat.div_exact; auto; lia). assert (EZ : E = M * q) by (unfold q; apply Nat.div_exact; auto; lia).
  assert (Hm : s mod M < M) by (apply Nat.mod_upper_bound; lia). assert (Hi : s / M < r) by (apply Nat.div_lt_upper_bound; lia).
  unfold ravel2, unravel2, block_diag, member_of. fold q.
  replace ((s mod M * r + s / M) / r) with (s mod M) by (rewrite Nat.add_comm, Nat.div_add, Nat.div_small by lia; auto).
  replace ((s mod M * r + s / M) mod r) with (s / M) by (rewrite Nat.add_comm, Nat.mod_add, Nat.mod_small by lia; auto).
  rewrite (Nat.eqb_sym (s mod M)). destruct (Nat.eqb_spec (e / q) (s mod M)) as [Q|]; auto.
  destruct (NL (s mod M) Hm) as (gt & ms & E1 & E2). rewrite E2. cbn [fst].
  destruct (member_gates G r q (fun g i => dense (s mod M) (unravel2 M (inputs g) i (s mod M))) (normal (s mod M)) H1 H2) as (gt' & ms' & E3 & V).
  assert (X : Ok (gt, ms) = Ok (gt', ms')) by (rewrite <- E1; exact E3). apply Ok_inj in X. injection X as -> ->.
  rewrite V. f_equal. apply functional_extensionality. intros e'. unfold member_logits, unravel2. fold q. replace (s / M * M + s mod M) with s by (rewrite Nat.mul_comm; apply Nat.div_mod; lia). auto.
Qed.
Lemma gates_errors G Sz inputs : 
  ensemble_gates cdf M E K det std gw iw lw dense normal G Sz inputs = Raise ValueError <-> ~ (1 <= M /\ E mod M = 0 /\ Sz mod M = 0 /\ 1 <= K /\ K <= E / M).
Proof.
  split.
  - intros H (A & B & C & D1 & D2). destruct (gates_ok G Sz inputs A B C D1 D2) as (x & y & Q & _). rewrite Q in H. discriminate.
  - intros N. unfold ensemble_gates. destruct (Nat.eqb_spec M 0); auto. destruct (Nat.eqb_spec (E mod M) 0) as [HE|]; auto. destruct (Nat.eqb_spec (Sz mod M) 0) as [HZ|]; auto. cbn [negb].
    destruct M as [|M'] eqn:EM; [contradiction|]. cbn [seq rmap].
    match goal with |- context [compute_gates_softmax_and_metrics ?a ?b ?c ?d ?e ?f ?g ?h ?i ?j ?k ?l] => assert (X : compute_gates_softmax_and_metrics a b c d e f g h i j k l = Raise ValueError) end.
    { apply router_error. intros [? ?]. apply N. repeat split; auto. lia. }
    rewrite X. auto.
Qed.
End Gates.

(** ** Choices *)
Lemma own_experts E M K m row ch : 1 <= M -> E mod M = 0 -> K <= E / M -> m < M ->
  (forall e, e < E -> member_of E M e = m -> (0 < row e)%R) -> (forall e, e < E -> member_of E M e <> m -> row e = 0%R) ->
  @best_choices Ralg E K row ch -> forall k, k < K -> member_of E M (ch k) = m.
Proof.
  intros HM DE HK Hm P Z B k Hk. destruct (Nat.eq_dec (member_of E M (ch k)) m) as [|N]; auto. exfalso.
  set (q := E / M) in *. assert (EZ : E = M * q) by (unfold q; apply Nat.div_exact; auto; lia). destruct B as (B1 & B2 & B3).
  assert (INJ := best_choices_inj Ralg_laws row E K ch (conj B1 (conj B2 B3))).
  destruct (existsb (fun e => negb (existsb (fun k => ch k =? e) (seq 0 K))) (seq (m * q) q)) eqn:X.
  - apply existsb_exists in X. destruct X as (e & I & NE). apply in_seq in I. apply negb_true_iff in NE.
    assert (He : e < E) by nia. assert (ME : member_of E M e = m). { unfold member_of. fold q. symmetry. apply (Nat.div_unique e q m (e - m * q)); lia. }
    assert (NC : forall k, k < K -> ch k <> e). { intros k' Hk' Q. apply Bool.not_true_iff_false in NE. apply NE. apply existsb_exists. exists k'. split; [apply in_seq; lia|]. apply Nat.eqb_eq; auto. }
    assert (PR := B3 e He NC k Hk). unfold preferred in PR. cbn [Ralg sleb] in PR. rewrite (Z (ch k)) in PR by auto. assert (PE := P e He ME).
    destruct (Rle_dec 0 (row e)); [|lra]. destruct (Rle_dec (row e) 0); [lra|]. simpl in PR. discriminate.
  - assert (ALL : forall e, In e (seq (m * q) q) -> In e (map ch (seq 0 K))).
    { intros e I. destruct (in_dec Nat.eq_dec e (map ch (seq 0 K))) as [|NI]; auto. exfalso. apply Bool.not_true_iff_false in X. apply X. apply existsb_exists. exists e. split; auto. apply negb_true_iff. apply Bool.not_true_is_false. intros Y. apply existsb_exists in Y. destruct Y as (k' & I' & Q). apply Nat.eqb_eq in Q. apply NI. apply in_map_iff. eauto. }
    assert (ND : NoDup (ch k :: seq (m * q) q)). { constructor; [|apply seq_NoDup]. intros I. apply in_seq in I. apply N. unfold member_of. fold q. symmetry. apply (Nat.div_unique (ch k) q m (ch k - m * q)); lia. }
    assert (LE := NoDup_incl_length ND (l' := map ch (seq 0 K))). rewrite map_length, seq_length in LE. cbn [length] in LE. rewrite seq_length in LE.
    assert (S q <= K); [|lia]. apply LE. intros e [<-|I]; auto. apply in_map_iff. exists k. split; auto. apply in_seq. lia.
Qed.

Lemma row_max_eq E (g g' : nat -> R) : (forall e, e < E -> g e = g' e) -> 1 <= E -> @row_max Ralg E g = @row_max Ralg E g'.
Proof.
  intros H HE. induction E as [|n IH]; [lia|]. destruct n; [simpl; apply H; lia|]. change (@row_max Ralg (S (S n)) g) with (if sleb Ralg (g (S n)) (@row_max Ralg (S n) g) then @row_max Ralg (S n) g else g (S n)).
  change (@row_max Ralg (S (S n)) g') with (if sleb Ralg (g' (S n)) (@row_max Ralg (S n) g') then @row_max Ralg (S n) g' else g' (S n)). rewrite <- IH by (intros; try apply H; lia). rewrite H by lia. auto.
Qed.
Lemma best_choices_rows E K (v v' : nat -> R) ch : (forall e, e < E -> v e = v' e) -> @best_choices Ralg E K v ch -> @best_choices Ralg E K v' ch.
Proof.
  intros H (B1 & B2 & B3). assert (PP : forall i j, i < E -> j < E -> @preferred Ralg v i j = @preferred Ralg v' i j) by (intros; unfold preferred; rewrite !H by auto; auto).
  split; [auto|]. split.
  - intros k k' L1 L2. rewrite <- PP by (apply B1; lia). auto.
  - intros i Hi N k Hk. rewrite <- PP by auto. auto.
Qed.
(** The output of an item only depends on the items that share its experts. *)
Lemma output_local bp Sz E K C (gates gates' : nat -> nat -> R) (ch ch' : nat -> nat -> nat) (f f' : nat -> vec Ralg -> vec Ralg) (x x' : nat -> vec Ralg) (mem : nat -> nat) (emem : nat -> nat) s :
  1 <= E -> K <= E -> s < Sz ->
  (forall s, s < Sz -> @best_choices Ralg E K (gates s) (ch s)) -> (forall s, s < Sz -> @best_choices Ralg E K (gates' s) (ch' s)) ->
  (forall s k, s < Sz -> k < K -> emem (ch s k) = mem s) -> (forall s k, s < Sz -> k < K -> emem (ch' s k) = mem s) ->
  (forall s' e, s' < Sz -> mem s' = mem s -> e < E -> gates s' e = gates' s' e) ->
  x s = x' s -> (forall e y, e < E -> emem e = mem s -> f e y = f' e y) ->
  @top_experts_output Ralg bp Sz E K C gates ch f x s = @top_experts_output Ralg bp Sz E K C gates' ch' f' x' s.
Proof.
  intros HE HK Hs B B' M1 M2 GE XE FE.
  assert (CH : forall s' k, s' < Sz -> mem s' = mem s -> k < K -> ch s' k = ch' s' k).
  { intros s' k Hs' ME Hk. apply (best_choices_unique Ralg_laws (gates' s') E K (ch s') (ch' s')); auto. apply best_choices_rows with (gates s'); auto. }
  assert (BE : forall s' k, s' < Sz -> k < K -> ch s' k < E) by (intros s' k H1 H2; apply (B s' H1); auto).
  unfold top_experts_output. rewrite !(sum_over_vsum Ralg_laws). apply vsum_ext. intros k Hk.
  assert (CO : @competitors Ralg bp Sz E K gates ch s k = @competitors Ralg bp Sz E K gates' ch' s k).
  { unfold competitors. f_equal. apply filter_ext_in. intros [s' k'] I. apply in_prod_iff in I. destruct I as [I1 I2]. apply in_seq in I1. apply in_seq in I2. cbn [fst snd].
    destruct (Nat.eq_dec (mem s') (mem s)) as [ME|NE].
    - rewrite (CH s' k'), (CH s k) by (auto; lia). f_equal. unfold priority. f_equal. f_equal. unfold item_first. destruct bp; auto. unfold preferred.
      rewrite (row_max_eq E (gates s') (gates' s')), (row_max_eq E (gates s) (gates' s)) by (auto; intros; apply GE; auto; lia). auto.
    - replace (ch s' k' =? ch s k) with false; [replace (ch' s' k' =? ch' s k) with false; auto|]; symmetry; apply Nat.eqb_neq; intros Q; apply NE.
      + rewrite <- (M2 s' k'), <- (M2 s k) by (auto; lia). rewrite Q. auto.
      + rewrite <- (M1 s' k'), <- (M1 s k) by (auto; lia). rewrite Q. auto. }
  rewrite CO. destruct (_ <? C); auto. rewrite <- (CH s k) by auto. rewrite (GE s (ch s k)) by auto. rewrite XE. rewrite (FE (ch s k)) by auto. auto.
Qed.

Section Route.
Variable cdf : R -> R.
Variables (M E K : nat) (det : bool) (std gw iw lw : R).
Hypotheses (HM : 1 <= M) (DE : E mod M = 0) (HK : 1 <= K) (HKE : K <= E / M).
Lemma q_pos : 1 <= E / M /\ E = M * (E / M).
Proof using DE HM HK HKE. clear - DE HM HK HKE. split; [lia|]. apply Nat.div_exact; auto; lia. Qed.
Lemma gates_routing dense normal G Sz inputs gates ms : Sz mod M = 0 ->
  ensemble_gates cdf M E K det std gw iw lw dense normal G Sz inputs = Ok (gates, ms) ->
  forall g s, s < Sz ->
    (forall e, e < E -> member_of E M e = s mod M -> (0 < gates g s e)%R) /\
    (forall e, e < E -> member_of E M e <> s mod M -> gates g s e = 0%R) /\
    sum_to (E / M) (fun j => gates g s (s mod M * (E / M) + j)) = 1%R /\
    (forall ch, @best_choices Ralg E K (gates g s) ch -> forall k, k < K -> member_of E M (ch k) = s mod M).
Proof using HM DE HK HKE.
  intros DS EG g s Hs. destruct (gates_ok cdf M E K det std gw iw lw dense normal G Sz inputs HM DE DS HK HKE) as (gates' & ms' & EG' & _ & V).
  rewrite EG in EG'. apply Ok_inj in EG'. injection EG' as <- <-. destruct q_pos as [Q1 Q2]. assert (Hm : s mod M < M) by (apply Nat.mod_upper_bound; lia).
  assert (P : forall e, e < E -> member_of E M e = s mod M -> (0 < gates g s e)%R).
  { intros e He ME. rewrite V by auto. rewrite ME, Nat.eqb_refl. apply softmax_row; auto. }
  assert (Z : forall e, e < E -> member_of E M e <> s mod M -> gates g s e = 0%R).
  { intros e He ME. rewrite V by auto. destruct (Nat.eqb_spec (member_of E M e) (s mod M)); [contradiction|auto]. }
  split; [exact P|]. split; [exact Z|]. split.
  - rewrite <- (proj2 (softmax_row (E / M) (member_logits M E (quiet det std) std (dense (s mod M)) (inputs g s) (normal (s mod M) g (s / M))) Q1)).
    apply sumf_to_ext. intros j Hj. rewrite V by (auto; nia). unfold member_of. 
    replace ((s mod M * (E / M) + j) / (E / M)) with (s mod M) by (rewrite Nat.add_comm, Nat.div_add, Nat.div_small by lia; auto).
    replace ((s mod M * (E / M) + j) mod (E / M)) with j by (rewrite Nat.add_comm, Nat.mod_add, Nat.mod_small by lia; auto). rewrite Nat.eqb_refl. auto.
  - intros ch B. exact (own_experts E M K (s mod M) (gates g s) ch HM DE HKE Hm P Z B).
Qed.

Variables (B T Sz C G : nat) (bp : bool).
Hypotheses (HT : 1 <= T) (HS : 1 <= Sz) (DS : Sz mod M = 0) (HG : G * Sz = B * T * M).
Lemma layer_ok dense normal experts x : exists y gates ms out,
  reshape_to (B * M) T Sz M x = Ok (G, y) /\ ensemble_gates cdf M E K det std gw iw lw dense normal G Sz y = Ok (gates, ms) /\
  ensemble_layer cdf M E K det std gw iw lw dense normal (B * M) T Sz C bp experts x = Ok (B * M, out, ms) /\ length ms = M /\
  (forall g s b m t, t < T -> m < M -> placed Sz T M g s b m t -> y g s = x (b * M + m) t) /\
  forall ch, (forall g s, s < Sz -> @best_choices Ralg E K (gates g s) (ch g s)) ->
  forall g s b m t, g < G -> s < Sz -> t < T -> m < M -> placed Sz T M g s b m t ->
    out (b * M + m) t = @top_experts_output Ralg bp Sz E K C (gates g) (ch g) experts (y g) s.
Proof using HM DE HK HKE HT HS DS HG.
  destruct (reshape_to_ok B M T Sz x G HM HS HG) as (y & EY & VY).
  destruct (gates_ok cdf M E K det std gw iw lw dense normal G Sz y HM DE DS HK HKE) as (gates & ms & EG & LM & _).
  assert (KE : K <= E) by (destruct q_pos as [? Q]; rewrite Q; nia).
  destruct (einsum_dispatcher_spec Ralg_laws Sz E K C gates bp HS HK KE) as (d & ED & _).
  set (outputs := @sparse_moe Ralg (@einsum_do_dispatch Ralg G Sz E C d) (@einsum_do_combine Ralg G Sz E C (G * C) d) (fun e buffer j => experts e (buffer j)) y).
  destruct (reshape_from_ok B M T Sz outputs G HM HT HG) as (z & EZ & VZ).
  exists y, gates, ms, z. split; [exact EY|]. split; [exact EG|]. split; [|split; [exact LM|split; [exact VY|]]].
  - unfold ensemble_layer. replace (M =? 0) with false by (symmetry; apply Nat.eqb_neq; lia).
    replace (reshape_to (B * M) T Sz M x) with (Ok (G, y)) by (symmetry; exact EY). cbn [bind]. rewrite EG. cbn [bind fst snd].
    match goal with |- context [match ?a with Some _ => _ | None => _ end] => replace a with (Some d) by (symmetry; exact ED) end.
    match goal with |- bind ?a _ = _ => replace a with (Ok (B * M, z)) by (symmetry; exact EZ) end. reflexivity.
  - intros ch Hch g s b m t Hg Hs Ht Hm P. rewrite (VZ g s b m t Hs Ht Hm P). unfold outputs.
    exact (einsum_layer Ralg_laws G Sz E K C gates bp HS HK KE ch Hch experts (fun e buffer j => experts e (buffer j)) (fun _ _ _ => eq_refl) d y g s ED Hg Hs).
Qed.
Lemma layer_independent dense dense' normal normal' experts experts' x x' m : m < M ->
  (forall v e, dense m v e = dense' m v e) -> (forall g i e, normal m g i e = normal' m g i e) ->
  (forall e v, e < E -> member_of E M e = m -> experts e v = experts' e v) ->
  (forall b t, b < B -> t < T -> x (b * M + m) t = x' (b * M + m) t) ->
  exists out ms out' ms',
    ensemble_layer cdf M E K det std gw iw lw dense normal (B * M) T Sz C bp experts x = Ok (B * M, out, ms) /\
    ensemble_layer cdf M E K det std gw iw lw dense' normal' (B * M) T Sz C bp experts' x' = Ok (B * M, out', ms') /\
    forall b t, b < B -> t < T -> out (b * M + m) t = out' (b * M + m) t.
Proof using HM DE HK HKE HT HS DS HG.
  intros Hm D N X I. destruct (layer_ok dense normal experts x) as (y & gates & ms & out & EY & EG & EL & _ & VY & V).
  destruct (layer_ok dense' normal' experts' x') as (y' & gates' & ms' & out' & EY' & EG' & EL' & _ & VY' & V').
  exists out, ms, out', ms'. split; [exact EL|]. split; [exact EL'|]. intros b t Hb Ht.
  assert (KE : K <= E) by (destruct q_pos as [? Q]; rewrite Q; nia).
  destruct (placed_exists Sz T M G B b m t HS HG Hb Ht Hm) as (g & s & Hg & Hs & P).
  destruct (choices_exist Ralg_laws Sz E K gates KE) as (ch & Hch). destruct (choices_exist Ralg_laws Sz E K gates' KE) as (ch' & Hch').
  rewrite (V ch Hch g s b m t Hg Hs Ht Hm P), (V' ch' Hch' g s b m t Hg Hs Ht Hm P).
  assert (SM : s mod M = m) by (apply (placed_member Sz T M g s b m t); auto).
  assert (YE : forall s', s' < Sz -> s' mod M = m -> y g s' = y' g s').
  { intros s' Hs' MS. pose (i := g * Sz + s'). assert (HI : i < G * Sz) by (unfold i; nia).
    assert (IM : i mod M = m). { unfold i. rewrite <- MS. pose proof (proj1 (Nat.mod_divides Sz M ltac:(lia)) DS) as [q Dq]. rewrite Dq. replace (g * (M * q) + s') with (s' + (g * q) * M) by ring. rewrite Nat.mod_add by lia. auto. }
    assert (P' : placed Sz T M g s' (i / M / T) m ((i / M) mod T)). { unfold placed. fold i. rewrite (Nat.mul_comm (i / M / T)). rewrite <- Nat.div_mod by lia. rewrite <- IM. rewrite Nat.mul_comm. apply Nat.div_mod. lia. }
    assert (TT : (i / M) mod T < T) by (apply Nat.mod_upper_bound; lia).
    assert (BB : i / M / T < B). { apply Nat.div_lt_upper_bound; [lia|]. apply Nat.div_lt_upper_bound; [lia|]. rewrite HG in HI. lia. }
    rewrite (VY g s' _ m _ TT Hm P'), (VY' g s' _ m _ TT Hm P'). apply I; auto. }
  apply (output_local bp Sz E K C (gates g) (gates' g) (ch g) (ch' g) experts experts' (y g) (y' g) (fun s => s mod M) (member_of E M) s); auto.
  - destruct q_pos. nia.
  - intros s' k Hs' Hk. apply (gates_routing dense normal G Sz y gates ms DS EG g s' Hs'); auto.
  - intros s' k Hs' Hk. apply (gates_routing dense' normal' G Sz y' gates' ms' DS EG' g s' Hs'); auto.
  - intros s' e Hs' MS He. rewrite SM in MS.
    destruct (gates_ok cdf M E K det std gw iw lw dense normal G Sz y HM DE DS HK HKE) as (g1 & m1 & E1 & _ & V1). rewrite EG in E1. apply Ok_inj in E1. injection E1 as <- <-.
    destruct (gates_ok cdf M E K det std gw iw lw dense' normal' G Sz y' HM DE DS HK HKE) as (g2 & m2 & E2 & _ & V2). rewrite EG' in E2. apply Ok_inj in E2. injection E2 as <- <-.
    rewrite V1, V2 by auto. rewrite MS, (YE s' Hs' MS). destruct (_ =? _); auto.
    replace (member_logits M E (quiet det std) std (dense m) (y' g s') (normal m g (s' / M))) with (member_logits M E (quiet det std) std (dense' m) (y' g s') (normal' m g (s' / M))); auto.
    apply functional_extensionality. intros e'. unfold member_logits. rewrite <- D, <- N. auto.
  - intros e v He ME. apply X; auto. congruence.
Qed.
End Route.

(** ** Encoder *)
Section Enc2.
Variable Y : Type.
Variables (moe moe' : nat -> batch Y -> res (batch Y * metrics_t)) (dense : nat -> batch Y -> res (batch Y)).
Variables (M m : nat).
Hypothesis HM : m < M.
(** The layers treat the members separately. *)
Hypothesis moe_local : forall i x x' y y', same_member M m x x' -> moe i x = Ok y -> moe' i x' = Ok y' -> same_member M m (fst y) (fst y').
Hypothesis dense_local : forall i x x' y y', same_member M m x x' -> dense i x = Ok y -> dense i x' = Ok y' -> same_member M m y y'.
Lemma same_refl (x : batch Y) : same_member M m x x.
Proof using. clear. split; auto. Qed.
Lemma encoder_local L layers x y ms y' ms' :
  encoder_ensemble Y moe dense L layers (Some M) x = Ok (y, ms) -> encoder_ensemble Y moe' dense L layers (Some M) x = Ok (y', ms') -> same_member M m y y'.
Proof using HM moe_local dense_local.
  unfold encoder_ensemble. destruct M as [|M'] eqn:EM; [lia|]. rewrite <- EM in *.
  match goal with |- bind (rfold ?A _ _) _ = _ -> bind (rfold ?B _ _) _ = _ -> _ => set (F1 := A); set (F2 := B) end.
  assert (R : forall k r r', rfold F1 (seq 0 k) (x, [], true) = Ok r -> rfold F2 (seq 0 k) (x, [], true) = Ok r' ->
            snd r = snd r' /\ (if snd r then fst (fst r) = fst (fst r') else True) /\ same_member M m (fst (fst r)) (fst (fst r'))).
  { induction k as [|k IH]; intros r r' H H'.
    - cbn [seq rfold] in H, H'. apply Ok_inj in H. apply Ok_inj in H'. subst r r'. split; auto. split; [reflexivity|]. apply same_refl.
    - rewrite seq_S, rfold_app in H, H'. cbn [Nat.add] in H, H'.
      destruct (rfold F1 (seq 0 k) (x, [], true)) as [[[x1 m1] f1]|] eqn:E1; cbn [bind] in H; [|discriminate].
      destruct (rfold F2 (seq 0 k) (x, [], true)) as [[[x2 m2] f2]|] eqn:E2; cbn [bind] in H'; [|discriminate].
      destruct (IH _ _ eq_refl eq_refl) as (Q1 & Q2 & Q3). cbn [fst snd] in Q1, Q2, Q3. subst f2. cbn [rfold] in H, H'. unfold F1 at 1 in H. unfold F2 at 1 in H'.
      destruct (existsb (Nat.eqb k) layers).
      + assert (SM : same_member M m (if f1 then repeat_rows Y M x1 else x1) (if f1 then repeat_rows Y M x2 else x2)) by (destruct f1; [rewrite Q2; apply same_refl|auto]).
        cbv zeta in H, H'. destruct (moe k _) as [y1|] eqn:Y1; cbn [bind] in H; [|discriminate]. destruct (moe' k _) as [y2|] eqn:Y2; cbn [bind] in H'; [|discriminate].
        apply Ok_inj in H. apply Ok_inj in H'. subst r r'. cbn [fst snd]. split; auto. split; auto. eapply moe_local; eauto.
      + destruct (dense k x1) as [y1|] eqn:Y1; cbn [bind] in H; [|discriminate]. destruct (dense k x2) as [y2|] eqn:Y2; cbn [bind] in H'; [|discriminate].
        apply Ok_inj in H. apply Ok_inj in H'. subst r r'. cbn [fst snd]. split; auto. split; [|eapply dense_local; eauto]. destruct f1; auto. subst x2. congruence. }
  intros H H'. destruct (rfold F1 _ _) as [[[x1 m1] f1]|] eqn:E1; cbn [bind] in H; [|discriminate]. destruct (rfold F2 _ _) as [[[x2 m2] f2]|] eqn:E2; cbn [bind] in H'; [|discriminate].
  destruct (R L _ _ E1 E2) as (_ & _ & Q). cbn [fst] in Q.
  destruct (bind (rmap _ m1) py_sum) as [a1|]; cbn [bind] in H; [|discriminate]. destruct (bind (rmap _ m2) py_sum) as [a2|]; cbn [bind] in H'; [|discriminate].
  apply Ok_inj in H. apply Ok_inj in H'. injection H as <- _. injection H' as <- _. auto.
Qed.
End Enc2.

(** Rows of the result: the batch is repeated exactly when there is a MoE layer. *)
Lemma encoder_rows Y moe dense L layers M x y ms :
  (forall i x y, moe i x = Ok y -> fst (fst y) = fst x) -> (forall i x y, dense i x = Ok y -> fst y = fst x) ->
  encoder_ensemble Y moe dense L layers (Some M) x = Ok (y, ms) ->
  fst y = if existsb (fun i => existsb (Nat.eqb i) layers) (seq 0 L) then fst x * M else fst x.
Proof.
  intros RM RD. unfold encoder_ensemble. destruct M as [|M'] eqn:EM; [discriminate|]. rewrite <- EM in *. clear M' EM.
  match goal with |- context [rfold ?F0 (seq 0 L) _] => set (F := F0) end.
  assert (R : forall k r, rfold F (seq 0 k) (x, [], true) = Ok r ->
            snd r = negb (existsb (fun i => existsb (Nat.eqb i) layers) (seq 0 k)) /\ fst (fst (fst r)) = if snd r then fst x else fst x * M).
  { induction k as [|k IH]; intros r H.
    - cbn [seq rfold] in H. apply Ok_inj in H. subst r. auto.
    - rewrite seq_S, rfold_app in H. rewrite seq_S, existsb_app. cbn [Nat.add existsb] in *.
      destruct (rfold F (seq 0 k) (x, [], true)) as [[[x1 m1] f1]|] eqn:E1; cbn [bind] in H; [|discriminate].
      destruct (IH _ eq_refl) as (Q1 & Q2). cbn [fst snd] in Q1, Q2. cbn [rfold] in H. unfold F at 1 in H.
      destruct (existsb (Nat.eqb k) layers).
      + cbv zeta in H. destruct (moe k _) as [y1|] eqn:Y1; cbn [bind] in H; [|discriminate]. apply Ok_inj in H. subst r. cbn [fst snd]. rewrite orb_true_r. split; auto.
        destruct y1 as [[n1 z1] k1]. assert (Q := RM _ _ _ Y1). cbn [fst] in *. rewrite Q. destruct f1; cbn [repeat_rows fst]; rewrite Q2; auto.
      + destruct (dense k x1) as [y1|] eqn:Y1; cbn [bind] in H; [|discriminate]. apply Ok_inj in H. subst r. cbn [fst snd]. rewrite !orb_false_r. split; auto. assert (Q := RD _ _ _ Y1). destruct y1 as [n1 z1]. cbn [fst] in *. rewrite Q. auto. }
  intros H. destruct (rfold F _ _) as [[[x1 m1] f1]|] eqn:E1; cbn [bind] in H; [|discriminate]. destruct (R L _ E1) as (Q1 & Q2). cbn [fst snd] in Q1, Q2.
  destruct (bind (rmap _ m1) py_sum) as [a1|]; cbn [bind] in H; [|discriminate]. apply Ok_inj in H. injection H as <- _. rewrite Q2, Q1. destruct (existsb _ _); auto.
Qed.
Lemma zero_gates_refuted : exists E M K m (row : nat -> R) ch k, 1 <= M /\ E mod M = 0 /\ K <= E / M /\ m < M /\
  (forall e, e < E -> (0 <= row e)%R) /\ (forall e, e < E -> member_of E M e <> m -> row e = 0%R) /\ sum_to E row = 1%R /\
  @best_choices Ralg E K row ch /\ k < K /\ member_of E M (ch k) <> m.
Proof.
  exists 4, 2, 2, 1, (fun e => if e =? 2 then 1%R else 0%R), (fun k => if k =? 0 then 2 else 0), 1.
  split; [lia|]. split; [reflexivity|]. split; [simpl; lia|]. split; [lia|]. split; [intros e _; destruct (e =? 2); lra|]. split.
  { intros e He N. destruct (Nat.eqb_spec e 2) as [->|]; auto. exfalso. apply N. reflexivity. }
  split; [cbv [sum_to seq map fold_right Nat.eqb]; lra|]. split; [|split; [lia|discriminate]]. split; [intros [|[|]]; simpl; lia|]. split.
  - intros [|[|]] [|[|]]; try lia. intros _ _. unfold preferred. simpl. destruct (Rle_dec 1 0); auto. lra.
  - intros i Hi N [|[|]] Hk; try lia; unfold preferred; simpl.
    + assert (i <> 2) by (intros ->; apply (N 0); auto). destruct (Nat.eqb_spec i 2); [contradiction|]. destruct (Rle_dec 1 0); auto. lra.
    + assert (i <> 2) by (intros ->; apply (N 0); auto; lia). assert (i <> 0) by (intros ->; apply (N 1); auto). destruct (Nat.eqb_spec i 2); [contradiction|]. destruct (Rle_dec 0 0); auto. simpl. destruct i; auto; contradiction.
Qed.
(** With layers that work row by row, row b*M+m is image b, encoded by the layers of member m. *)
Lemma encoder_values Y moe dense (fm : nat -> nat -> Y -> Y) (fd : nat -> Y -> Y) L layers M x y ms :
  (forall i x y, moe i x = Ok y -> fst (fst y) = fst x /\ forall r, snd (fst y) r = fm i (r mod M) (snd x r)) ->
  (forall i x y, dense i x = Ok y -> fst y = fst x /\ forall r, snd y r = fd i (snd x r)) ->
  encoder_ensemble Y moe dense L layers (Some M) x = Ok (y, ms) ->
  existsb (fun i => existsb (Nat.eqb i) layers) (seq 0 L) = true ->
  forall b m, m < M -> snd y (b * M + m) = fold_left (fun v i => if existsb (Nat.eqb i) layers then fm i m v else fd i v) (seq 0 L) (snd x b).
Proof.
  intros RM RD. unfold encoder_ensemble. destruct M as [|M'] eqn:EM; [discriminate|]. rewrite <- EM in *. clear M' EM.
  match goal with |- context [rfold ?F0 (seq 0 L) _] => set (F := F0) end. intros H EX b m Hm.
  set (step := fun v i => if existsb (Nat.eqb i) layers then fm i m v else fd i v).
  assert (DM : (b * M + m) / M = b) by (rewrite Nat.div_add_l, Nat.div_small; lia).
  assert (MM : (b * M + m) mod M = m) by (rewrite Nat.add_comm, Nat.mod_add, Nat.mod_small; lia).
  assert (R : forall k r, rfold F (seq 0 k) (x, [], true) = Ok r ->
            snd r = negb (existsb (fun i => existsb (Nat.eqb i) layers) (seq 0 k)) /\
            snd (fst (fst r)) (if snd r then b else b * M + m) = fold_left step (seq 0 k) (snd x b)).
  { induction k as [|k IH]; intros r HR.
    - cbn [seq rfold] in HR. apply Ok_inj in HR. subst r. auto.
    - rewrite seq_S, rfold_app in HR. rewrite seq_S, existsb_app, fold_left_app. cbn [Nat.add existsb fold_left] in *.
      destruct (rfold F (seq 0 k) (x, [], true)) as [[[x1 m1] f1]|] eqn:E1; cbn [bind] in HR; [|discriminate].
      destruct (IH _ eq_refl) as (Q1 & Q2). cbn [fst snd] in Q1, Q2. cbn [rfold] in HR. unfold F at 1 in HR. rewrite <- Q2. unfold step at 1.
      destruct (existsb (Nat.eqb k) layers).
      + cbv zeta in HR. destruct (moe k _) as [y1|] eqn:Y1; cbn [bind] in HR; [|discriminate]. apply Ok_inj in HR. subst r. cbn [fst snd]. rewrite orb_true_r. split; auto.
        destruct (RM _ _ _ Y1) as (_ & Q). destruct y1 as [[n1 z1] k1]. cbn [fst snd] in *. rewrite Q, MM. destruct f1; cbn [repeat_rows snd]; [rewrite DM|]; reflexivity.
      + destruct (dense k x1) as [y1|] eqn:Y1; cbn [bind] in HR; [|discriminate]. apply Ok_inj in HR. subst r. cbn [fst snd]. rewrite !orb_false_r. split; auto.
        destruct (RD _ _ _ Y1) as (_ & Q). destruct y1 as [n1 z1]. cbn [fst snd] in *. rewrite Q. destruct f1; reflexivity. }
  destruct (rfold F _ _) as [[[x1 m1] f1]|] eqn:E1; cbn [bind] in H; [|discriminate]. destruct (R L _ E1) as (Q1 & Q2). cbn [fst snd] in Q1, Q2.
  destruct (bind (rmap _ m1) py_sum) as [a1|]; cbn [bind] in H; [|discriminate]. apply Ok_inj in H. injection H as <- _. rewrite EX in Q1. cbn [negb] in Q1. rewrite Q1 in Q2. exact Q2.
Qed.
