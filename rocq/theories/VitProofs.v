(** Proofs for C62 and C63. *)
From Coq Require Import List Arith ZArith Bool Reals QArith Lia Lra FunctionalExtensionality.
From Verif Require Import Prim PrimLemmas MoeModel MoeSpec MoeProofs SoftModel SoftSpec SoftProofs AuxModel CwModel EnsProofs VitModel VitSpec.
From Verif Require Import Py PyLemmas.
Import ListNotations.
Local Open Scope nat_scope.

(** ** Routing of a group *)
Section Route.
Variables (D : nat) (c : moe_config) (p : moe_params) (Sz : nat).
Let E := mc_num_experts c.
Hypotheses (HS : 1 <= Sz) (HE : 1 <= E).
Definition gates_of (x : nat -> V) : nat -> nat -> R := fun s => softmax (mc_num_experts c) (mp_dense p (x s)).
Definition top_rows (E K : nat) (gates : nat -> nat -> R) (s k : nat) : nat := nth k (top_k (sleb Ralg) E K (gates s)) 0.
Definition soft_fn (P : nat) (x : nat -> V) (s : nat) : V :=
  let l := soft_logits 1 Sz D (mc_num_experts c) P (fun _ => x) (mp_mu p P) (mp_scale p) in
  fun i => sum_to (mc_num_experts c) (fun n => sum_to P (fun q => (soft_combine (mc_num_experts c) P l 0 s n q *
             mp_mlp p n (fun j => sum_to Sz (fun m' => (soft_dispatch Sz l 0 m' n q * x m' j)%R)) i)%R)).
Definition group_fn : res ((nat -> V) -> nat -> V) :=
  match mc_router c with
  | TopExpertsPerItem K name capacity factor mode multiple_of bp =>
      if negb ((K <=? mc_num_experts c) && (1 <=? K)) then Raise ValueError
      else bind (of_moe (top_experts_factory Sz (mc_num_experts c) K name capacity factor mode multiple_of)) (fun nc =>
        Ok (fun x => @top_experts_output Ralg bp Sz (mc_num_experts c) K (Z.to_nat (snd nc)) (gates_of x) (top_rows (mc_num_experts c) K (gates_of x)) (mp_mlp p) x))
  | TopItemsPerExpert name capacity factor mode multiple_of =>
      bind (of_moe (top_items_factory Sz (mc_num_experts c) name capacity factor mode multiple_of)) (fun nc =>
        if Sz <? Z.to_nat (snd nc) then Raise ValueError
        else Ok (fun x => @top_items_output Ralg (mc_num_experts c) (Z.to_nat (snd nc)) (gates_of x)
                            (fun e k => nth k (top_k (sleb Ralg) Sz (Z.to_nat (snd nc)) (fun s => gates_of x s e)) 0) (mp_mlp p) x))
  | SoftRouting num_slots factor =>
      bind (of_moe (soft_num_slots Sz (mc_num_experts c) num_slots factor)) (fun s => Ok (soft_fn (Z.to_nat s)))
  end.

Lemma soft_fn_ext P x x' : (forall s, s < Sz -> x s = x' s) -> forall s, s < Sz -> soft_fn P x s = soft_fn P x' s.
Proof using HS.
  clear - HS. intros X s Hs. unfold soft_fn. apply functional_extensionality. intros i. rewrite <- !sumf_to. apply sumf_ext. intros n Hn. rewrite <- !sumf_to. apply sumf_ext. intros q Hq.
  assert (LE : forall m n q, m < Sz -> soft_logits 1 Sz D (mc_num_experts c) P (fun _ => x) (mp_mu p P) (mp_scale p) 0 m n q = soft_logits 1 Sz D (mc_num_experts c) P (fun _ => x') (mp_mu p P) (mp_scale p) 0 m n q).
  { intros m n0 q0 Hm. rewrite !logits_eq. rewrite X by auto. auto. }
  f_equal.
  - unfold soft_combine. rewrite LE by auto. f_equal. apply sumf_ext. intros n1 _. apply sumf_ext. intros q1 _. rewrite LE by auto. auto.
  - f_equal. apply functional_extensionality. intros j. rewrite <- !sumf_to. apply sumf_ext. intros m Hm. rewrite X by auto. f_equal.
    unfold soft_dispatch. rewrite LE by auto. f_equal. apply sumf_ext. intros m1 Hm1. rewrite LE by auto. auto.
Qed.
Lemma top_items_ext C x x' : C <= Sz -> (forall s, s < Sz -> x s = x' s) -> forall s, s < Sz ->
  @top_items_output Ralg E C (gates_of x) (fun e k => nth k (top_k (sleb Ralg) Sz C (fun s => gates_of x s e)) 0) (mp_mlp p) x s =
  @top_items_output Ralg E C (gates_of x') (fun e k => nth k (top_k (sleb Ralg) Sz C (fun s => gates_of x' s e)) 0) (mp_mlp p) x' s.
Proof using HS.
  clear HE. intros HC X s Hs. unfold top_items_output. rewrite !(sum_over_vsum Ralg_laws). apply vsum_ext. intros e He.
  assert (GE : forall s, s < Sz -> gates_of x s = gates_of x' s) by (intros s' Hs'; unfold gates_of; rewrite X by auto; auto).
  assert (TE : forall k, k < C -> nth k (top_k (sleb Ralg) Sz C (fun s => gates_of x s e)) 0 = nth k (top_k (sleb Ralg) Sz C (fun s => gates_of x' s e)) 0).
  { apply (best_choices_unique Ralg_laws (fun s => gates_of x' s e) Sz C).
    - apply best_choices_rows with (fun s => gates_of x s e); [intros s' Hs'; rewrite GE by auto; auto|]. apply (best_choices_top_k Ralg_laws); auto.
    - apply (best_choices_top_k Ralg_laws); auto. }
  replace (existsb (fun c0 => nth c0 (top_k (sleb Ralg) Sz C (fun s0 => gates_of x s0 e)) 0 =? s) (seq 0 C))
    with (existsb (fun c0 => nth c0 (top_k (sleb Ralg) Sz C (fun s0 => gates_of x' s0 e)) 0 =? s) (seq 0 C)).
  - destruct (existsb _ _); auto. rewrite GE, X by auto. auto.
  - apply eq_true_iff_eq. rewrite !existsb_exists. split; intros (k & I & Q); exists k; (split; [auto|]); apply in_seq in I; [rewrite TE by lia|rewrite <- TE by lia]; auto.
Qed.
Lemma top_experts_ext bp K C x x' : 1 <= K -> K <= E -> (forall s, s < Sz -> x s = x' s) -> forall s, s < Sz ->
  @top_experts_output Ralg bp Sz E K C (gates_of x) (top_rows E K (gates_of x)) (mp_mlp p) x s =
  @top_experts_output Ralg bp Sz E K C (gates_of x') (top_rows E K (gates_of x')) (mp_mlp p) x' s.
Proof using HS.
  clear HE. intros HK KE X s Hs.
  apply (output_local bp Sz E K C (gates_of x) (gates_of x') _ _ (mp_mlp p) (mp_mlp p) x x' (fun _ => 0) (fun _ => 0) s); auto; try lia.
  - intros s' _. apply (best_choices_top_k Ralg_laws). auto.
  - intros s' _. apply (best_choices_top_k Ralg_laws). auto.
  - intros s' e Hs' _ _. unfold gates_of. rewrite X by auto. auto.
Qed.

Lemma route_spec G :
  match group_fn with
  | Raise e => forall inputs, route D c p G Sz inputs = Raise e
  | Ok h => (forall inputs, exists d, route D c p G Sz inputs = Ok d /\
               forall g s, g < G -> s < Sz -> layer d (fun e buffer j => mp_mlp p e (buffer j)) inputs g s = h (inputs g) s) /\
            (forall x x', (forall s, s < Sz -> x s = x' s) -> forall s, s < Sz -> h x s = h x' s)
  end.
Proof using HS HE.
  unfold group_fn, route. fold E. destruct (mc_router c) as [K name cap cf mode mult bp|name cap cf mode mult|ns cf].
  - destruct ((K <=? E) && (1 <=? K)) eqn:KE; cbn [negb]; [|auto]. apply andb_true_iff in KE. destruct KE as [KE HK]. apply Nat.leb_le in KE, HK.
    destruct (top_experts_factory Sz E K name cap cf mode mult) as [[n C]|e] eqn:EF; cbn [of_moe bind]; [|auto]. cbn [fst snd]. split.
    + intros inputs. set (gates := fun g s => softmax E (mp_dense p (inputs g s))).
      assert (BC : forall g s, s < Sz -> @best_choices Ralg E K (gates g s) (top_rows E K (gates_of (inputs g)) s)).
      { intros g s _. apply (best_choices_top_k Ralg_laws). auto. }
      destruct n.
      * destruct (einsum_dispatcher_spec Ralg_laws Sz E K (Z.to_nat C) gates bp HS HK KE) as (d & ED & _).
        exists (DEinsum G Sz E (Z.to_nat C) d). split; [cbn [fst]; setoid_rewrite ED; reflexivity|]. intros g s Hg Hs. cbn [layer].
        exact (einsum_layer Ralg_laws G Sz E K (Z.to_nat C) gates bp HS HK KE (fun g => top_rows E K (gates_of (inputs g))) BC (mp_mlp p) _ (fun _ _ _ => eq_refl) d inputs g s ED Hg Hs).
      * destruct (indices_dispatcher_spec Ralg_laws Sz E K gates bp HS HK KE) as (d & ED & _).
        exists (DIndices G Sz K E (Z.to_nat C) d). split; [cbn [fst]; setoid_rewrite ED; reflexivity|]. intros g s Hg Hs. cbn [layer].
        exact (indices_layer Ralg_laws G Sz E K (Z.to_nat C) gates bp HS HK KE (fun g => top_rows E K (gates_of (inputs g))) BC (mp_mlp p) _ (fun _ _ _ => eq_refl) d inputs g s ED Hg Hs).
      * unfold top_experts_factory in EF. destruct (resolve_capacity _ _ _ _ _ _); [destruct name|]; discriminate.
    + intros x x' X s Hs. apply top_experts_ext; auto.
  - destruct (top_items_factory Sz E name cap cf mode mult) as [[n C]|e] eqn:EF; cbn [of_moe bind]; [|auto]. cbn [snd].
    destruct (Nat.ltb_spec Sz (Z.to_nat C)) as [LT|LE].
    + intros inputs. rewrite (proj1 (top_items_full Ralg_laws G Sz E (Z.to_nat C) _ HE) LT). auto.
    + split; [|intros; apply top_items_ext; auto].
      intros inputs. set (gates := fun g s => softmax E (mp_dense p (inputs g s))).
      destruct (proj2 (top_items_full Ralg_laws G Sz E (Z.to_nat C) gates HE) LE) as (_ & d & dw & ED & _ & SP).
      exists (DEinsum G Sz E (Z.to_nat C) d). split; [setoid_rewrite ED; reflexivity|]. intros g s Hg Hs. cbn [layer].
      refine (proj2 (proj2 (SP (fun g e k => nth k (top_k (sleb Ralg) Sz (Z.to_nat C) (fun s => gates g s e)) 0) _)) (mp_mlp p) _ (fun _ _ _ => eq_refl) inputs g s Hg Hs).
      intros g' e He. apply (best_choices_top_k Ralg_laws). auto.
  - unfold soft_router. destruct (soft_num_slots Sz E ns cf) as [s|e]; cbn [of_moe bind]; [|auto]. cbn [fst snd]. split; [|intros; apply soft_fn_ext; auto].
    intros inputs. eexists. split; [reflexivity|]. intros g s0 Hg Hs. cbn [layer]. apply functional_extensionality. intros i. set (P := Z.to_nat s).
    set (l := add_noise _ _ _ _). transitivity (soft_layer G Sz E P (soft_dispatcher Sz E P l) (mp_mlp p) inputs g s0 i); [reflexivity|].
    rewrite layer_output; [|lia| |auto].
    2:{ intros e x y XY j. replace x with y by (apply functional_extensionality; intros; auto). auto. }
    unfold soft_fn. fold E. rewrite <- !sumf_to. apply sumf_ext. intros n Hn. rewrite <- !sumf_to. apply sumf_ext. intros q Hq.
    assert (LE : forall m n q, l g m n q = soft_logits 1 Sz D E P (fun _ => inputs g) (mp_mu p P) (mp_scale p) 0 m n q).
    { intros m n0 q0. unfold l, add_noise. cbn [negb andb]. rewrite !logits_eq. auto. }
    f_equal.
    + unfold soft_combine. rewrite LE. f_equal. apply sumf_ext. intros n1 _. apply sumf_ext. intros q1 _. rewrite LE. auto.
    + f_equal. apply functional_extensionality. intros j. rewrite <- !sumf_to. apply sumf_ext. intros m Hm. f_equal.
      unfold soft_dispatch. rewrite LE. f_equal. apply sumf_ext. intros m1 Hm1. rewrite LE. auto.
Qed.
End Route.

(** ** Operations on batches *)
(** Sequences of length T, with a number of tokens that is a multiple of the size of the groups *)
Definition rect (T : nat) (x : batch) : Prop := x <> [] /\ forall s, In s x -> length s = T.
Definition whole (Sz T : nat) (x : batch) : Prop := rect T x /\ (length x * T) mod Sz = 0.
Lemma concat_len {X} T (x : list (list X)) : (forall s, In s x -> length s = T) -> length (concat x) = length x * T.
Proof. induction x as [|s x IH]; intros H; auto. cbn [concat length]. rewrite app_length, IH, H by (intros; try apply H; simpl; auto). lia. Qed.
Lemma rect_seq_len T x : rect T x -> seq_len x = T.
Proof. intros [N H]. destruct x as [|s x]; [contradiction|]. apply H. simpl. auto. Qed.
Lemma whole_app Sz T a b : 1 <= Sz -> whole Sz T a -> whole Sz T b -> whole Sz T (a ++ b).
Proof.
  intros HS [[N A] MA] [[_ B] MB]. split; [split|].
  - destruct a; [contradiction|discriminate].
  - intros s I. apply in_app_or in I. destruct I; auto.
  - rewrite app_length, Nat.mul_add_distr_r. rewrite Nat.add_mod, MA, MB by lia. apply Nat.mod_0_l. lia.
Qed.

(** An operation that raises for all batches, or acts on parts of a batch *)
Definition splits {X Y} (okx : list X -> Prop) (oky : list Y -> Prop) (op : list X -> res (list Y)) : Prop :=
  (exists e, forall x, okx x -> op x = Raise e) \/
  (exists F, (forall x, okx x -> op x = Ok (F x) /\ oky (F x) /\ length (F x) = length x) /\ (forall a b, okx a -> okx b -> F (a ++ b) = F a ++ F b)).
Lemma splits_bind {X Y Z} (okx : list X -> Prop) (oky : list Y -> Prop) (okz : list Z -> Prop) f g :
  splits okx oky f -> splits oky okz g -> splits okx okz (fun x => bind (f x) g).
Proof.
  intros [(e & F)|(F & F1 & F2)] S.
  - left. exists e. intros x Hx. rewrite F by auto. auto.
  - destruct S as [(e & G)|(G & G1 & G2)].
    + left. exists e. intros x Hx. destruct (F1 x Hx) as (-> & O & _). cbn [bind]. auto.
    + right. exists (fun x => G (F x)). split.
      * intros x Hx. destruct (F1 x Hx) as (-> & O & L). cbn [bind]. destruct (G1 _ O) as (A & B & L'). split; [auto|]. split; [auto|]. rewrite L', L. auto.
      * intros a b Ha Hb. rewrite F2 by auto. apply G2; apply F1; auto.
Qed.
Lemma splits_ext {X Y} (okx : list X -> Prop) (oky : list Y -> Prop) f g : (forall x, okx x -> f x = g x) -> splits okx oky f -> splits okx oky g.
Proof.
  intros E [(e & F)|(F & F1 & F2)]; [left; exists e|right; exists F; split; auto]; intros x Hx; rewrite <- E by auto; auto.
Qed.
Lemma splits_map {X Y} (okx : list X -> Prop) (oky : list Y -> Prop) (f : X -> Y) : (forall x, okx x -> oky (map f x)) -> splits okx oky (fun x => Ok (map f x)).
Proof. intros H. right. exists (map f). split; [intros; rewrite map_length; auto|]. intros. apply map_app. Qed.
Lemma splits_spec {X Y} (okx : list X -> Prop) (oky : list Y -> Prop) op a b : splits okx oky op -> okx a -> okx b -> okx (a ++ b) ->
  op (a ++ b) = bind (op a) (fun x => bind (op b) (fun y => Ok (x ++ y))).
Proof.
  intros [(e & F)|(F & F1 & F2)] Ha Hb Hab.
  - rewrite !F by auto. auto.
  - rewrite (proj1 (F1 _ Hab)), (proj1 (F1 _ Ha)), (proj1 (F1 _ Hb)). cbn [bind]. rewrite F2 by auto. auto.
Qed.

Lemma rect_map T x f : (forall s, length (f s) = length s) -> rect T x -> rect T (map f x).
Proof. intros L [N H]. split; [destruct x; [contradiction|discriminate]|]. intros s I. apply in_map_iff in I. destruct I as (s' & <- & I). rewrite L. auto. Qed.
Lemma whole_map Sz T x f : (forall s, length (f s) = length s) -> whole Sz T x -> whole Sz T (map f x).
Proof. intros L [R M]. split; [apply rect_map; auto|]. rewrite map_length. auto. Qed.
Lemma add_seq_len n x y : length (add_seq n x y) = n.
Proof. unfold add_seq. rewrite map_length, seq_length. auto. Qed.

(** *** The MoE block *)
Section Moe.
Variables (D : nat) (c : moe_config) (p : moe_params).
Hypotheses (HS : 1 <= mc_group_size c) (HE : 1 <= mc_num_experts c).
Let Sz := mc_group_size c.
(** The block, given what it does to a group *)
Definition moe_fn (h : (nat -> V) -> nat -> V) (T : nat) (x : batch) : batch :=
  map (fun b => map (fun t => h (fun s => nth ((b * T + t) / mc_group_size c * mc_group_size c + s) (concat x) (vzero Ralg)) ((b * T + t) mod mc_group_size c)) (seq 0 T)) (seq 0 (length x)).
Lemma moe_fn_len h T x : length (moe_fn h T x) = length x.
Proof. unfold moe_fn. rewrite map_length, seq_length. auto. Qed.
Lemma moe_fn_rect h T x : rect T x -> rect T (moe_fn h T x).
Proof.
  intros [N H]. split; [destruct x; [contradiction|discriminate]|]. intros s I. unfold moe_fn in I. apply in_map_iff in I. destruct I as (b & <- & _). rewrite map_length, seq_length. auto.
Qed.
Lemma mlp_moe_block_spec T :
  match group_fn D c p Sz with
  | Raise e => forall x, whole Sz T x -> mlp_moe_block D c p x = Raise e
  | Ok h => (forall x, whole Sz T x -> mlp_moe_block D c p x = Ok (moe_fn h T x)) /\ (forall x x', (forall s, s < Sz -> x s = x' s) -> forall s, s < Sz -> h x s = h x' s)
  end.
Proof using HS HE.
  assert (EQ : forall x, whole Sz T x -> mlp_moe_block D c p x =
    let groups := unravel2 Sz (fun i => nth i (concat x) (vzero Ralg)) in
    bind (route D c p (length x * T / Sz) Sz groups) (fun d =>
    let outputs := layer d (fun e buffer j => mp_mlp p e (buffer j)) groups in
    Ok (map (fun b => map (unravel2 T (ravel2 Sz outputs) b) (seq 0 T)) (seq 0 (length x))))).
  { intros x [R M]. unfold mlp_moe_block. fold Sz. rewrite (concat_len T) by apply R. rewrite M.
    replace (Sz =? 0) with false by (symmetry; apply Nat.eqb_neq; unfold Sz in *; lia). cbn [Nat.eqb negb orb]. rewrite (rect_seq_len T) by auto. auto. }
  assert (RS := fun G => route_spec D c p Sz HS HE G).
  destruct (group_fn D c p Sz) as [h|e].
  - split; [|apply (RS 0)]. intros x W. rewrite EQ by auto. destruct (proj1 (RS (length x * T / Sz)) (unravel2 Sz (fun i => nth i (concat x) (vzero Ralg)))) as (d & ED & LD).
    cbv zeta. setoid_rewrite ED. cbn [bind]. f_equal. unfold moe_fn. fold Sz. apply map_ext_in. intros b Hb. apply map_ext_in. intros t Ht. apply in_seq in Hb, Ht.
    unfold unravel2 at 1, ravel2. destruct W as [R M].
    assert (HI : b * T + t < length x * T) by nia. rewrite LD.
    + reflexivity.
    + apply Nat.div_lt_upper_bound; [unfold Sz in *; lia|]. rewrite <- Nat.div_exact in M by (unfold Sz in *; lia). rewrite <- M. auto.
    + apply Nat.mod_upper_bound. unfold Sz in *. lia.
  - intros x W. rewrite EQ by auto. cbv zeta. rewrite (RS (length x * T / Sz)). auto.
Qed.
Lemma moe_fn_app h T a b : (forall x x', (forall s, s < Sz -> x s = x' s) -> forall s, s < Sz -> h x s = h x' s) ->
  whole Sz T a -> whole Sz T b -> moe_fn h T (a ++ b) = moe_fn h T a ++ moe_fn h T b.
Proof using HS.
  clear HE. intros EXT [[NA RA] MA] [[NB RB] MB]. unfold moe_fn. fold Sz. rewrite concat_app, app_length, seq_app, map_app. assert (LA := concat_len T a RA). assert (LB := concat_len T b RB).
  assert (S0 : Sz <> 0) by (unfold Sz in *; lia). rewrite <- Nat.div_exact in MA by auto. set (q := length a * T / Sz) in *. f_equal.
  - apply map_ext_in. intros i Hi. apply map_ext_in. intros t Ht. apply in_seq in Hi, Ht. assert (HI : i * T + t < length a * T) by nia.
    apply EXT; [|apply Nat.mod_upper_bound; auto]. intros s Hs. apply app_nth1. rewrite LA. assert ((i * T + t) / Sz < q) by (apply Nat.div_lt_upper_bound; lia). nia.
  - cbn [Nat.add]. assert (SH : forall m n, seq m n = map (fun i => m + i) (seq 0 n)).
    { intros m n. revert m. induction n as [|n IH]; intros m; auto. cbn [seq map]. rewrite Nat.add_0_r. f_equal. rewrite IH, (IH 1), map_map. apply map_ext. intros. lia. }
    rewrite (SH (length a) (length b)), map_map. apply map_ext_in. intros i Hi. apply map_ext_in. intros t Ht. apply in_seq in Hi, Ht.
    assert (IE : (length a + i) * T + t = (i * T + t) + q * Sz) by lia. rewrite IE, Nat.mod_add, Nat.div_add by auto.
    apply EXT; [|apply Nat.mod_upper_bound; auto]. intros s Hs. generalize ((i * T + t) / Sz). intros k.
    rewrite Nat.mul_add_distr_r. rewrite app_nth2 by (rewrite LA; lia). f_equal. rewrite LA. lia.
Qed.
Lemma moe_block_splits T : splits (whole Sz T) (whole Sz T) (mlp_moe_block D c p).
Proof using HS HE.
  assert (SP := mlp_moe_block_spec T). destruct (group_fn D c p Sz) as [h|e]; [|left; exists e; auto]. destruct SP as [SP EXT].
  right. exists (moe_fn h T). split.
  - intros x W. split; [apply SP; auto|]. split; [|apply moe_fn_len]. split; [apply moe_fn_rect, W|]. rewrite moe_fn_len. apply W.
  - intros a b A B. apply moe_fn_app; auto.
Qed.
End Moe.

(** *** The encoder *)
Lemma add_batch_app a b a' b' : length a = length a' -> add_batch (a ++ b) (a' ++ b') = add_batch a a' ++ add_batch b b'.
Proof.
  intros L. unfold add_batch. rewrite <- map_app. f_equal. revert a' L. induction a as [|x a IH]; intros [|y a'] L; try discriminate; auto. cbn [app combine]. f_equal. apply IH. simpl in L. lia.
Qed.
Lemma whole_add Sz T a b : length a = length b -> whole Sz T a -> whole Sz T (add_batch a b).
Proof.
  intros L [[N R] M]. unfold add_batch. split; [split|].
  - destruct a as [|x a]; [contradiction|]. destruct b; discriminate.
  - intros s I. apply in_map_iff in I. destruct I as ((x, y) & <- & I). rewrite add_seq_len. cbn [fst]. apply R. apply in_combine_l in I. auto.
  - rewrite map_length, combine_length, <- L, Nat.min_id. auto.
Qed.
Lemma residual_splits Sz T (f : batch -> batch) (op : batch -> res batch) :
  (forall x, whole Sz T x -> whole Sz T (f x)) -> (forall a b, f (a ++ b) = f a ++ f b) -> (forall x, length (f x) = length x) ->
  splits (whole Sz T) (whole Sz T) op ->
  splits (whole Sz T) (whole Sz T) (fun x => bind (op (f x)) (fun y => Ok (add_batch x y))).
Proof.
  intros W A L S. destruct S as [(e & F)|(F & F1 & F2)].
  - left. exists e. intros x Hx. rewrite F by auto. auto.
  - right. exists (fun x => add_batch x (F (f x))). assert (LF : forall x, whole Sz T x -> length (F (f x)) = length x).
    { intros x Hx. rewrite <- (L x). apply F1. auto. }
    split.
    + intros x Hx. rewrite (proj1 (F1 (f x) (W x Hx))). cbn [bind]. split; [auto|]. split; [apply whole_add; auto; rewrite LF by auto; auto|].
      unfold add_batch. rewrite map_length, combine_length, LF, Nat.min_id by auto. auto.
    + intros a b Ha Hb. rewrite A, F2 by auto. apply add_batch_app. rewrite LF by auto. auto.
Qed.
Lemma block_splits is_moe D c p T : 1 <= mc_group_size c -> 1 <= mc_num_experts c ->
  splits (whole (mc_group_size c) T) (whole (mc_group_size c) T) (encoder_block is_moe D c p).
Proof.
  intros HS HE. set (Sz := mc_group_size c) in *. unfold encoder_block.
  set (att := fun s => add_seq (length s) (bp_attention p (map (bp_norm1 p) s)) s).
  set (op := fun y => if is_moe then mlp_moe_block D c (bp_moe p) y else Ok (map (map (bp_mlp p)) y)).
  apply (splits_bind (whole Sz T) (whole Sz T) (whole Sz T) (fun x => Ok (map att x)) (fun x => bind (op (map (map (bp_norm2 p)) x)) (fun y => Ok (add_batch x y)))).
  - apply splits_map. intros x W. apply whole_map; auto. intros s. unfold att. apply add_seq_len.
  - apply (residual_splits Sz T (map (map (bp_norm2 p))) op).
    + intros x W. apply whole_map; auto. intros. apply map_length.
    + intros. apply map_app.
    + intros. apply map_length.
    + unfold op. destruct is_moe; [apply moe_block_splits; auto|]. apply splits_map. intros x W. apply whole_map; auto. intros. apply map_length.
Qed.
Lemma blocks_splits D c ep T l : 1 <= mc_group_size (ec_moe c) -> 1 <= mc_num_experts (ec_moe c) ->
  splits (whole (mc_group_size (ec_moe c)) T) (whole (mc_group_size (ec_moe c)) T)
    (rfold (fun x block => encoder_block (existsb (Nat.eqb block) (ec_layers c)) D (ec_moe c) (ep_block ep block) x) l).
Proof.
  intros HS HE. induction l as [|i l IH].
  - right. exists (fun x => x). split; [auto|]. auto.
  - cbn [rfold]. apply (splits_bind _ (whole (mc_group_size (ec_moe c)) T)); auto. apply block_splits; auto.
Qed.
Lemma add_rows_len pe s : length (add_rows pe s) = length s.
Proof. unfold add_rows. rewrite map_length, seq_length. auto. Qed.
Lemma position_splits Sz D pe learned T : splits (whole Sz T) (whole Sz T) (add_position_emb D pe learned).
Proof.
  unfold add_position_emb. set (e := match pe with Some e => e | None => _ end). destruct (match pe_name e with Some n => n | None => PosLearned end).
  - right. exists (fun x => x). auto.
  - apply splits_map. intros x W. apply whole_map; auto. intros. apply add_rows_len.
  - destruct (pe_h e) as [h|]; [|left; exists KeyError; auto]. destruct (pe_w e) as [w|]; [|left; exists KeyError; auto].
    destruct (negb (D mod 4 =? 0) || (D <? 8)); [left; exists ValueError; auto|].
    apply (splits_ext (whole Sz T) (whole Sz T) (fun x => if T =? h * w then Ok (map (add_rows (posembed w D (match pe_temperature e with Some t => t | None => default_temperature end))) x)
      else if T =? h * w + 1 then Ok (map (fun s => firstn 1 s ++ add_rows (posembed w D (match pe_temperature e with Some t => t | None => default_temperature end)) (skipn 1 s)) x) else Raise ValueError)).
    { intros x [R _]. rewrite (rect_seq_len T) by auto. auto. }
    destruct (T =? h * w); [apply splits_map; intros x W; apply whole_map; auto; intros; apply add_rows_len|]. destruct (T =? h * w + 1); [|left; exists ValueError; auto].
    apply splits_map. intros x W. apply whole_map; auto. intros s. rewrite app_length, add_rows_len, firstn_length, skipn_length. destruct s; simpl; lia.
  - left. exists ValueError. auto.
Qed.
Lemma encoder_splits D c pe ep T : 1 <= mc_group_size (ec_moe c) -> 1 <= mc_num_experts (ec_moe c) ->
  splits (whole (mc_group_size (ec_moe c)) T) (whole (mc_group_size (ec_moe c)) T) (encoder_moe D c pe ep).
Proof.
  intros HS HE. unfold encoder_moe. apply (splits_bind _ (whole (mc_group_size (ec_moe c)) T)); [apply position_splits|].
  apply (splits_bind _ (whole (mc_group_size (ec_moe c)) T)); [apply blocks_splits; auto|]. apply splits_map. intros x W. apply whole_map; auto. intros. apply map_length.
Qed.
(** *** The classifier *)
Lemma vit_splits {I} D c pe cls nc (p : vit_params I) h w : 1 <= mc_group_size (ec_moe c) -> 1 <= mc_num_experts (ec_moe c) ->
  splits (fun x => x <> [] /\ (length x * tokens_per_image cls h w) mod mc_group_size (ec_moe c) = 0) (fun _ => True) (vit_moe D c pe cls nc p h w).
Proof.
  intros HS HE. unfold vit_moe. destruct (grid_kwargs h w pe) as [pe'|e]; cbn [bind]; [|left; exists e; auto].
  set (Sz := mc_group_size (ec_moe c)) in *. set (T := tokens_per_image cls h w).
  set (tok := fun i => match cls with ClsToken => vp_cls p :: tokens h w (vp_embedding p i) | _ => tokens h w (vp_embedding p i) end).
  set (rest := fun x => bind (match cls with
        | ClsToken | Cls0 => Ok (map (fun s => nth 0 s (vzero Ralg)) x)
        | ClsGap => Ok (map mean_tokens x)
        | ClsMap => Ok (map (vp_map p) x)
        | ClsOther => Raise ValueError
        end) (fun x => let x := map (vp_pre_logits p) x in Ok (match nc with Some (S _) => map (vp_head p) x | _ => x end))).
  apply (splits_ext _ _ (fun images => bind (Ok (map tok images)) (fun x => bind (encoder_moe D c pe' (vp_encoder p) x) rest))).
  { intros x _. cbn [bind]. f_equal. f_equal. unfold tok. destruct cls; auto. rewrite map_map. auto. }
  apply (splits_bind _ (whole Sz T)).
  - apply splits_map. intros x [N M]. split; [split|].
    + destruct x; [contradiction|discriminate].
    + intros s Hs. apply in_map_iff in Hs. destruct Hs as (i & <- & _). unfold tok, T, tokens_per_image, tokens. destruct cls; cbn [length]; rewrite map_length, seq_length; auto.
    + rewrite map_length. auto.
  - apply (splits_bind _ (whole Sz T)); [apply encoder_splits; auto|]. unfold rest.
    apply (splits_bind _ (fun _ => True)).
    + destruct cls; try (apply splits_map; auto). left. exists ValueError. auto.
    + apply (splits_ext _ _ (fun x => Ok (map (fun v => match nc with Some (S _) => vp_head p (vp_pre_logits p v) | _ => vp_pre_logits p v end) x))).
      * intros x _. destruct nc as [[|n]|]; auto. rewrite map_map. auto.
      * apply splits_map. auto.
Qed.

(** ** C62: batches *)
Lemma vit_groups {I} D c pe cls nc (p : vit_params I) h w a b : 1 <= mc_group_size (ec_moe c) -> 1 <= mc_num_experts (ec_moe c) -> a <> [] -> b <> [] ->
  (length a * tokens_per_image cls h w) mod mc_group_size (ec_moe c) = 0 -> (length b * tokens_per_image cls h w) mod mc_group_size (ec_moe c) = 0 ->
  vit_moe D c pe cls nc p h w (a ++ b) =
    bind (vit_moe D c pe cls nc p h w a) (fun x => bind (vit_moe D c pe cls nc p h w b) (fun y => Ok (x ++ y))).
Proof.
  intros HS HE NA NB A B. apply (splits_spec _ _ _ a b (vit_splits D c pe cls nc p h w HS HE)); auto. split; [destruct a; [contradiction|discriminate]|].
  rewrite app_length, Nat.mul_add_distr_r. rewrite Nat.add_mod, A, B by lia. apply Nat.mod_0_l. lia.
Qed.
Lemma vit_images {I} D c pe cls nc (p : vit_params I) h w images out : 1 <= mc_group_size (ec_moe c) -> 1 <= mc_num_experts (ec_moe c) ->
  tokens_per_image cls h w mod mc_group_size (ec_moe c) = 0 -> images <> [] ->
  (vit_moe D c pe cls nc p h w images = Ok out <-> Forall2 (fun i o => vit_moe D c pe cls nc p h w [i] = Ok [o]) images out).
Proof.
  intros HS HE M N. set (F := vit_moe D c pe cls nc p h w).
  assert (MM : forall l : list I, (length l * tokens_per_image cls h w) mod mc_group_size (ec_moe c) = 0) by (intros l; rewrite Nat.mul_mod, M, Nat.mul_0_r by lia; apply Nat.mod_0_l; lia).
  assert (L1 : forall i o, F [i] = Ok o -> exists v, o = [v]).
  { intros i o Q. destruct (vit_splits D c pe cls nc p h w HS HE) as [(e & G)|(G & G1 & _)].
    - unfold F in Q. rewrite G in Q; [discriminate|]. split; [discriminate|apply MM].
    - destruct (G1 [i]) as (Q' & _ & L); [split; [discriminate|apply MM]|]. unfold F in Q. rewrite Q in Q'. apply Ok_inj in Q'. subst o. destruct (G [i]) as [|v [|? ?]]; try discriminate. eauto. }
  revert out. induction images as [|i l IH]; [contradiction|]. intros out. destruct l as [|j l].
  - split.
    + intros Q. destruct (L1 i out Q) as (v & ->). constructor; auto.
    + intros Q. inversion Q as [|? ? ? ? Q1 Q2]; subst. inversion Q2; subst. exact Q1.
  - assert (SP : F (i :: j :: l) = bind (F [i]) (fun x => bind (F (j :: l)) (fun y => Ok (x ++ y)))).
    { apply (vit_groups D c pe cls nc p h w [i] (j :: l)); auto; discriminate. }
    rewrite SP. split.
    + intros Q. apply bind_ok in Q. destruct Q as (x & Q1 & Q). apply bind_ok in Q. destruct Q as (y & Q2 & Q). apply Ok_inj in Q. subst out. destruct (L1 i x Q1) as (v & ->). cbn [app]. constructor; auto. apply IH; auto. discriminate.
    + intros Q. inversion Q as [|? v ? o Q1 Q2]; subst. apply IH in Q2; [|discriminate]. rewrite Q1, Q2. auto.
Qed.

(** *** Enough capacity *)
Lemma competitors_lt {A : alg} (L : alg_laws A) bp S E K (gates : nat -> nat -> sc A) ch s k : s < S -> k < K ->
  (forall s, s < S -> best_choices E K (gates s) (ch s)) -> competitors bp S E K gates ch s k < S.
Proof.
  intros Hs Hk B. unfold competitors. set (l := filter _ _). assert (ND : NoDup (map fst l)).
  { assert (NP : NoDup l). { unfold l. apply NoDup_filter. clear. generalize (seq_NoDup S 0). induction (seq 0 S) as [|a m IH]; intros H; [constructor|]. inversion H; subst. cbn [list_prod]. 
      assert (G : forall x y : list (nat * nat), NoDup x -> NoDup y -> (forall z, In z x -> ~ In z y) -> NoDup (x ++ y)).
      { induction x as [|z x IHx]; intros y X Y Z; auto. inversion X; subst. cbn [app]. constructor; [|apply IHx; auto; intros; apply Z; simpl; auto]. intros I. apply in_app_or in I. destruct I as [I|I]; [contradiction|]. apply (Z z); simpl; auto. }
      apply G; [apply FinFun.Injective_map_NoDup; [intros u v Q; congruence|apply seq_NoDup]|auto|]. intros [u v] I J. apply in_map_iff in I. destruct I as (? & Q & _). injection Q as <- <-. apply in_prod_iff in J. apply H2. apply J. }
    assert (IN : forall x, In x l -> fst x < S /\ snd x < K /\ ch (fst x) (snd x) = ch s k).
    { intros x I. unfold l in I. apply filter_In in I. destruct I as [I Q]. destruct x as [a b]. apply in_prod_iff in I. destruct I as [I1 I2]. apply in_seq in I1, I2. apply andb_true_iff in Q. destruct Q as [Q _]. apply Nat.eqb_eq in Q. cbn [fst snd] in *. repeat split; auto; lia. }
    clearbody l. induction NP as [|x m NI NP IH]; [constructor|]. cbn [map]. constructor; [|apply IH; intros; apply IN; simpl; auto].
    intros I. apply in_map_iff in I. destruct I as (y & Q & I). apply NI. destruct (IN x ltac:(simpl; auto)) as (X1 & X2 & X3). destruct (IN y ltac:(simpl; auto)) as (Y1 & Y2 & Y3).
    assert (SQ : snd x = snd y). { apply (best_choices_inj L (gates (fst x)) E K (ch (fst x))); auto. rewrite X3, <- Y3, Q. auto. }
    destruct x, y; cbn [fst snd] in *; subst. auto. }
  rewrite <- (map_length fst). assert (LE := NoDup_incl_length (l := s :: map fst l) (l' := seq 0 S)). rewrite seq_length in LE. cbn [length] in LE. apply LE.
  - constructor; auto. intros I. apply in_map_iff in I. destruct I as ([a b] & Q & I). cbn [fst] in Q. subst a. unfold l in I. apply filter_In in I. destruct I as [I Q]. cbn [fst snd] in Q. apply in_prod_iff in I. destruct I as [_ I]. apply in_seq in I.
    apply andb_true_iff in Q. destruct Q as [Q1 Q2]. apply Nat.eqb_eq in Q1. assert (b = k) by (apply (best_choices_inj L (gates s) E K (ch s)); auto; lia). subst b. rewrite (priority_irrefl L) in Q2. discriminate.
  - intros x [<-|I]; [apply in_seq; lia|]. apply in_map_iff in I. destruct I as ([a b] & <- & I). unfold l in I. apply filter_In in I. destruct I as [I _]. apply in_prod_iff in I. apply I.
Qed.

Section Enough.
Variables (D : nat) (c : moe_config).
Variables (K : nat) (name : dispatcher_name) (cap : option Z) (cf : option Q) (mode : rounding) (mult : option Z) (bp : bool) (n : dispatcher_name) (C : Z).
Hypotheses (HS : 1 <= mc_group_size c) (HK : 1 <= K) (KE : K <= mc_num_experts c).
Hypothesis HR : mc_router c = TopExpertsPerItem K name cap cf mode mult bp.
Hypothesis HC : top_experts_factory (mc_group_size c) (mc_num_experts c) K name cap cf mode mult = MoeModel.Ok (n, C).
Hypothesis HN : (Z.of_nat (mc_group_size c) <= C)%Z.
Definition mix_of (E K : nat) (p : moe_params) (v : V) : V :=
  let gates := softmax E (mp_dense p v) in
  @sum_over Ralg K (fun k => vscale Ralg (gates (nth k (top_k (sleb Ralg) E K gates) 0)) (mp_mlp p (nth k (top_k (sleb Ralg) E K gates) 0) v)).
Lemma mix_of_ok p : is_mixture (mc_num_experts c) K p (mix_of (mc_num_experts c) K p).
Proof using KE.
  clear - KE. intros v ch B. unfold mix_of. rewrite !(sum_over_vsum Ralg_laws). apply vsum_ext. intros k Hk.
  assert (Q : nth k (top_k (sleb Ralg) (mc_num_experts c) K (softmax (mc_num_experts c) (mp_dense p v))) 0 = ch k); [|setoid_rewrite Q; auto].
  apply (best_choices_unique Ralg_laws (softmax (mc_num_experts c) (mp_dense p v)) (mc_num_experts c) K (fun k => nth k (top_k (sleb Ralg) (mc_num_experts c) K (softmax (mc_num_experts c) (mp_dense p v))) 0) ch); auto.
  apply (best_choices_top_k Ralg_laws); auto.
Qed.
Lemma moe_block_mix p T x : whole (mc_group_size c) T x -> mlp_moe_block D c p x = Ok (map (map (mix_of (mc_num_experts c) K p)) x).
Proof using HS HK KE HR HC HN.
  intros W. assert (SP := mlp_moe_block_spec D c p HS ltac:(lia) T). unfold group_fn in SP. rewrite HR, HC in SP.
  replace (K <=? mc_num_experts c) with true in SP by (symmetry; apply Nat.leb_le; auto). replace (1 <=? K) with true in SP by (symmetry; apply Nat.leb_le; auto). cbn [negb andb of_moe bind snd] in SP.
  rewrite (proj1 SP x W). f_equal. destruct W as [[N R] M].
  set (h := fun y => _). assert (HH : forall y s, s < mc_group_size c -> h y s = mix_of (mc_num_experts c) K p (y s)).
  { intros y s Hs. unfold h, top_experts_output, mix_of. rewrite !(sum_over_vsum Ralg_laws). apply vsum_ext. intros k Hk.
    assert (CL := competitors_lt Ralg_laws bp (mc_group_size c) (mc_num_experts c) K (gates_of c p y) (top_rows (mc_num_experts c) K (gates_of c p y)) s k Hs Hk
       (fun s _ => best_choices_top_k Ralg_laws _ _ _ KE)).
    replace (_ <? Z.to_nat C) with true; [reflexivity|]. symmetry. apply Nat.ltb_lt. lia. }
  clearbody h. unfold moe_fn. set (mix := mix_of (mc_num_experts c) K p) in *.
  assert (EL : forall b t, b < length x -> t < T -> nth (b * T + t) (concat x) (vzero Ralg) = nth t (nth b x []) (vzero Ralg)).
  { clear - R. induction x as [|s x IH]; [simpl; lia|]. intros b t Hb Ht. cbn [concat]. assert (LS := R s ltac:(simpl; auto)). destruct b as [|b].
    - rewrite app_nth1 by lia. auto.
    - rewrite app_nth2 by (rewrite LS; nia). rewrite LS. replace (S b * T + t - T) with (b * T + t) by nia. simpl in Hb. rewrite IH; auto; [|lia]. intros. apply R. simpl. auto. }
  apply nth_ext with (d := []) (d' := []); [rewrite !map_length, seq_length; auto|]. intros b Hb. rewrite map_length, seq_length in Hb.
  rewrite (nth_indep (map (map mix) x) [] (map mix [])) by (rewrite map_length; auto). rewrite map_nth.
  set (ff := fun b => map _ (seq 0 T)). rewrite (nth_indep _ [] (ff 0)) by (rewrite map_length, seq_length; auto). rewrite map_nth, seq_nth by auto. cbn [Nat.add].
  assert (LB : length (nth b x []) = T) by (apply R, nth_In; auto). unfold ff.
  apply nth_ext with (d := vzero Ralg) (d' := vzero Ralg); [rewrite !map_length, seq_length; auto|]. intros t Ht. rewrite map_length, seq_length in Ht.
  rewrite (nth_indep (map mix _) _ (mix (vzero Ralg))) by (rewrite map_length; lia). rewrite map_nth.
  set (gg := fun t => h _ _). rewrite (nth_indep (map gg _) _ (gg 0)) by (rewrite map_length, seq_length; auto). rewrite map_nth, seq_nth by auto. cbn [Nat.add]. unfold gg.
  rewrite HH by (apply Nat.mod_upper_bound; lia). f_equal. rewrite Nat.mul_comm, <- Nat.div_mod by lia. apply EL; auto.
Qed.
End Enough.
Lemma vit_no_drop {I} D c pe cls nc (p : vit_params I) h w K name cap cf mode mult bp n C images :
  1 <= mc_group_size (ec_moe c) -> 1 <= K -> K <= mc_num_experts (ec_moe c) ->
  mc_router (ec_moe c) = TopExpertsPerItem K name cap cf mode mult bp ->
  top_experts_factory (mc_group_size (ec_moe c)) (mc_num_experts (ec_moe c)) K name cap cf mode mult = MoeModel.Ok (n, C) ->
  (Z.of_nat (mc_group_size (ec_moe c)) <= C)%Z ->
  images <> [] -> (length images * tokens_per_image cls h w) mod mc_group_size (ec_moe c) = 0 ->
  exists mlps, (forall i, if existsb (Nat.eqb i) (ec_layers c) then is_mixture (mc_num_experts (ec_moe c)) K (bp_moe (ep_block (vp_encoder p) i)) (mlps i)
                          else mlps i = bp_mlp (ep_block (vp_encoder p) i)) /\
    vit_moe D c pe cls nc p h w images = vit_moe D (without_moe c) pe cls nc (with_mlps mlps p) h w images.
Proof.
  intros HS HK KE HR HC HN N M. exists (fun i => if existsb (Nat.eqb i) (ec_layers c) then mix_of (mc_num_experts (ec_moe c)) K (bp_moe (ep_block (vp_encoder p) i)) else bp_mlp (ep_block (vp_encoder p) i)).
  split. { intros i. destruct (existsb _ _); auto. apply mix_of_ok. auto. }
  set (mlps := fun i => if existsb (Nat.eqb i) (ec_layers c) then _ else _).
  unfold vit_moe. destruct (grid_kwargs h w pe) as [pe'|e]; cbn [bind]; [|auto]. cbn [vp_embedding vp_cls vp_map vp_pre_logits vp_head vp_encoder with_mlps].
  set (x := match cls with ClsToken => _ | _ => _ end). set (Sz := mc_group_size (ec_moe c)) in *. set (T := tokens_per_image cls h w) in *.
  assert (W : whole Sz T x).
  { unfold x. split; [split|].
    - destruct images; [contradiction|]. destruct cls; discriminate.
    - intros s Hs. unfold T, tokens_per_image, tokens in *. destruct cls; apply in_map_iff in Hs; destruct Hs as (i & <- & Hs); cbn [length]; try (rewrite map_length, seq_length; auto).
      apply in_map_iff in Hs. destruct Hs as (? & <- & _). rewrite map_length, seq_length. auto.
    - destruct cls; rewrite ?map_length; auto. }
  clearbody x. f_equal. unfold encoder_moe. cbn [ep_learned ep_norm ep_block without_moe ec_num_layers ec_layers ec_moe].
  destruct (position_splits Sz D pe' (ep_learned (vp_encoder p)) T) as [(e & G)|(G & G1 & _)]; [rewrite G by auto; auto|].
  destruct (G1 x W) as (-> & W1 & _). cbn [bind]. generalize dependent (G x). clear x W G G1. intros x W. f_equal.
  generalize (seq 0 (ec_num_layers c)). intros l. revert x W. induction l as [|i l IH]; intros x W; auto. cbn [rfold].
  assert (EQ : encoder_block (existsb (Nat.eqb i) (ec_layers c)) D (ec_moe c) (ep_block (vp_encoder p) i) x =
     encoder_block (existsb (Nat.eqb i) []) D {| mc_group_size := 1; mc_num_experts := 1; mc_router := SoftRouting None None |}
       {| bp_norm1 := bp_norm1 (ep_block (vp_encoder p) i); bp_attention := bp_attention (ep_block (vp_encoder p) i); bp_norm2 := bp_norm2 (ep_block (vp_encoder p) i);
          bp_mlp := mlps i; bp_moe := bp_moe (ep_block (vp_encoder p) i) |} x).
  { cbn [existsb]. unfold encoder_block. cbn [bp_norm1 bp_attention bp_norm2 bp_mlp bp_moe]. set (y := map (fun s => add_seq _ _ s) x).
    assert (WY : whole Sz T (map (map (bp_norm2 (ep_block (vp_encoder p) i))) y)).
    { apply whole_map; [intros; apply map_length|]. apply whole_map; auto. intros. apply add_seq_len. }
    unfold mlps. destruct (existsb (Nat.eqb i) (ec_layers c)); auto.
    rewrite (moe_block_mix D (ec_moe c) K name cap cf mode mult bp n C HS HK KE HR HC HN (bp_moe (ep_block (vp_encoder p) i)) T _ WY). auto. }
  rewrite EQ. destruct (block_splits (existsb (Nat.eqb i) (ec_layers c)) D (ec_moe c) (ep_block (vp_encoder p) i) T HS ltac:(lia)) as [(e & G)|(G & G1 & _)].
  - rewrite <- EQ, G by auto. auto.
  - destruct (G1 x W) as (Q & W1 & _). rewrite <- EQ, Q. cbn [bind]. apply IH. auto.
Qed.
(** A capacity factor of at least E / K is enough. *)
Lemma factor_enough Sz E K name cf mode mult n C : 1 <= Sz -> 1 <= K -> 1 <= E ->
  (inject_Z (Z.of_nat E) <= cf * inject_Z (Z.of_nat K))%Q ->
  top_experts_factory Sz E K name None (Some cf) mode mult = MoeModel.Ok (n, C) -> (Z.of_nat Sz <= C)%Z.
Proof.
  intros HS HK HE F Q. unfold top_experts_factory, resolve_capacity in Q. destruct (compute_capacity _ _ _ _ _) as [C'|] eqn:EC; [|discriminate]. assert (C' = C) by (destruct name; try discriminate; injection Q; auto). subst C'. clear Q.
  assert (MD : mode <> OtherRounding) by (intros ->; discriminate).
  destruct (compute_capacity_correct (Z.of_nat Sz * Z.of_nat K) (Z.of_nat E) cf mode mult ltac:(nia) ltac:(lia) MD) as (m & RT & C1 & C2).
  assert (GE : (inject_Z (Z.of_nat Sz) <= inject_Z (Z.of_nat Sz * Z.of_nat K) * cf / inject_Z (Z.of_nat E))%Q).
  { apply Qle_shift_div_l; [unfold Qlt; simpl; lia|]. rewrite inject_Z_mult. setoid_replace (inject_Z (Z.of_nat Sz) * inject_Z (Z.of_nat K) * cf)%Q with (inject_Z (Z.of_nat Sz) * (cf * inject_Z (Z.of_nat K)))%Q by ring.
    rewrite !(Qmult_comm (inject_Z (Z.of_nat Sz))). apply Qmult_le_compat_r; auto. unfold Qle; simpl; lia. }
  assert (LM : (Z.of_nat Sz <= m)%Z).
  { destruct mode; cbn [rounds_to] in RT; [| |contradiction].
    - rewrite Zle_Qle. eapply Qle_trans; [exact GE|]. apply RT.
    - destruct RT as [[_ R2] R3]. assert (X : (inject_Z (Z.of_nat Sz) <= inject_Z m + (1 # 2))%Q) by (eapply Qle_trans; [exact GE|exact R2]). unfold Qle in X; simpl in X. lia. }
  destruct (Z.lt_ge_cases m 1) as [L|G]; [rewrite C1 in EC by auto; discriminate|]. destruct (C2 G) as (c' & Q & LC). rewrite Q in EC. injection EC as <-. destruct LC as (L1 & _ & _). lia.
Qed.

(** *** Priority by position: earlier images only *)
Definition causal {X Y} (okx : list X -> Prop) (op : list X -> res (list Y)) : Prop :=
  forall x x' y y', okx x -> okx x' -> op x = Ok y -> op x' = Ok y' -> forall n, firstn n x = firstn n x' -> firstn n y = firstn n y'.
Lemma causal_bind {X Y Z} (okx : list X -> Prop) (oky : list Y -> Prop) (f : list X -> res (list Y)) (g : list Y -> res (list Z)) :
  splits okx oky f -> causal okx f -> causal oky g -> causal okx (fun x => bind (f x) g).
Proof.
  intros S CF CG x x' z z' Hx Hx' E E' n Q. apply bind_ok in E. destruct E as (y & E1 & E2). apply bind_ok in E'. destruct E' as (y' & E1' & E2').
  assert (OK : forall x y, okx x -> f x = Ok y -> oky y).
  { intros u v Hu Ev. destruct S as [(e & F)|(F & F1 & _)]; [rewrite F in Ev by auto; discriminate|]. destruct (F1 u Hu) as (Q1 & Q2 & _). rewrite Q1 in Ev. apply Ok_inj in Ev. subst. auto. }
  apply (CG y y' z z'); eauto.
Qed.
Lemma causal_map {X Y} (okx : list X -> Prop) (f : X -> Y) : causal okx (fun x => Ok (map f x)).
Proof. intros x x' y y' _ _ E E' n Q. apply Ok_inj in E, E'. subst. rewrite !firstn_map, Q. auto. Qed.
Lemma causal_ext {X Y} (okx : list X -> Prop) (f g : list X -> res (list Y)) : (forall x, okx x -> f x = g x) -> causal okx f -> causal okx g.
Proof. intros E C x x' y y' Hx Hx' Q Q'. apply C; auto; rewrite E; auto. Qed.
Lemma firstn_concat T x : (forall s, In s x -> length s = T) -> forall n, firstn (n * T) (concat x) = @concat V (firstn n x).
Proof.
  intros R. induction x as [|s x IH]; intros n; [rewrite !firstn_nil; auto|]. destruct n as [|n]; auto. cbn [concat firstn]. assert (LS := R s ltac:(simpl; auto)).
  replace (S n * T) with (length s + n * T) by lia. rewrite firstn_app_2, IH; auto. intros. apply R. simpl. auto.
Qed.
Lemma nth_firstn_eq {X} (l l' : list X) n d : firstn n l = firstn n l' -> forall i, i < n -> nth i l d = nth i l' d.
Proof.
  revert l l'. induction n as [|n IH]; intros l l' Q i Hi; [lia|]. destruct l as [|x l], l' as [|x' l']; try discriminate; auto. simpl in Q. injection Q as -> Q. destruct i as [|i]; auto. simpl. apply IH; auto. lia.
Qed.
Section Causal.
Variables (D : nat) (c : moe_config) (p : moe_params).
Variables (name : dispatcher_name) (cap : option Z) (cf : option Q) (mode : rounding) (mult : option Z).
Hypotheses (HS : 1 <= mc_group_size c) (HE : 1 <= mc_num_experts c).
Hypothesis HR : mc_router c = TopExpertsPerItem 1 name cap cf mode mult false.
Lemma moe_block_causal T : causal (whole (mc_group_size c) T) (mlp_moe_block D c p).
Proof using HS HE HR.
  intros x x' y y' W W' E E' n Q. assert (SP := mlp_moe_block_spec D c p HS HE T). unfold group_fn in SP. rewrite HR in SP.
  destruct (negb ((1 <=? mc_num_experts c) && (1 <=? 1))); [rewrite SP in E by auto; discriminate|].
  destruct (top_experts_factory (mc_group_size c) (mc_num_experts c) 1 name cap cf mode mult) as [[nm C]|e]; cbn [of_moe bind snd] in SP; [|rewrite SP in E by auto; discriminate].
  destruct SP as [SP _]. rewrite SP in E by auto. rewrite SP in E' by auto. apply Ok_inj in E, E'. subst y y'. clear SP.
  set (h := fun y => _). assert (HH : forall u u' s, s < mc_group_size c -> (forall r, r <= s -> u r = u' r) -> h u s = h u' s).
  { intros u u' s Hs U. unfold h, top_experts_output. rewrite !(sum_over_vsum Ralg_laws). apply vsum_ext. intros k Hk. assert (k = 0) by lia. subst k.
    assert (GE : forall r, r <= s -> gates_of c p u r = gates_of c p u' r) by (intros r Hr; unfold gates_of; rewrite U by auto; auto).
    assert (CE : forall r, r <= s -> forall k, top_rows (mc_num_experts c) 1 (gates_of c p u) r k = top_rows (mc_num_experts c) 1 (gates_of c p u') r k) by (intros r Hr k; unfold top_rows; rewrite GE by auto; auto).
    replace (@competitors Ralg false (mc_group_size c) (mc_num_experts c) 1 (gates_of c p u) (top_rows (mc_num_experts c) 1 (gates_of c p u)) s 0)
      with (@competitors Ralg false (mc_group_size c) (mc_num_experts c) 1 (gates_of c p u') (top_rows (mc_num_experts c) 1 (gates_of c p u')) s 0).
    - rewrite CE, GE, U by auto. auto.
    - unfold competitors. f_equal. apply filter_ext_in. intros [r k'] I. apply in_prod_iff in I. destruct I as [_ I]. apply in_seq in I. cbn [fst snd]. assert (k' = 0) by lia. subst k'.
      unfold priority, item_first. change (0 <? 0) with false. change (0 =? 0) with true. cbn [orb andb]. destruct (Nat.ltb_spec r s) as [L|G].
      + rewrite (CE r ltac:(lia)), (CE s ltac:(lia)). auto.
      + rewrite !andb_false_r. auto. }
  clearbody h. destruct W as [[N R] M], W' as [[N' R'] M']. unfold moe_fn. rewrite !firstn_map.
  assert (LN : Nat.min n (length x) = Nat.min n (length x')) by (rewrite <- !firstn_length, Q; auto).
  assert (FS : forall k m, firstn k (seq 0 m) = seq 0 (Nat.min k m)).
  { intros k m. generalize 0. revert m. induction k as [|k IH]; intros [|m] a; auto. cbn [firstn seq Nat.min]. rewrite IH. auto. }
  rewrite !FS, LN. apply map_ext_in. intros b Hb. apply map_ext_in. intros t Ht. apply in_seq in Hb, Ht. apply HH; [apply Nat.mod_upper_bound; lia|].
  intros r Hr. apply (nth_firstn_eq _ _ (n * T)); [rewrite !(firstn_concat T), Q; auto|].
  assert (DM := Nat.div_mod (b * T + t) (mc_group_size c) ltac:(lia)). assert (b * T + t < n * T) by nia. lia.
Qed.
End Causal.
Lemma causal_residual Sz T (f : batch -> batch) (op : batch -> res batch) :
  (forall x, whole Sz T x -> whole Sz T (f x)) -> (forall n x, firstn n (f x) = f (firstn n x)) -> causal (whole Sz T) op ->
  causal (whole Sz T) (fun x => bind (op (f x)) (fun y => Ok (add_batch x y))).
Proof.
  intros W FF C x x' z z' Hx Hx' E E' n Q. apply bind_ok in E. destruct E as (y & E1 & E2). apply bind_ok in E'. destruct E' as (y' & E1' & E2'). apply Ok_inj in E2, E2'. subst z z'.
  assert (QY : firstn n y = firstn n y') by (apply (C (f x) (f x') y y'); auto; rewrite !FF, Q; auto).
  unfold add_batch. rewrite !firstn_map, !combine_firstn, Q, QY. auto.
Qed.
Section CausalVit.
Variables (D : nat) (c : encoder_config).
Variables (name : dispatcher_name) (cap : option Z) (cf : option Q) (mode : rounding) (mult : option Z).
Hypotheses (HS : 1 <= mc_group_size (ec_moe c)) (HE : 1 <= mc_num_experts (ec_moe c)).
Hypothesis HR : mc_router (ec_moe c) = TopExpertsPerItem 1 name cap cf mode mult false.
Let Sz := mc_group_size (ec_moe c).
Lemma block_causal is_moe p T : causal (whole Sz T) (encoder_block is_moe D (ec_moe c) p).
Proof using HS HE HR.
  unfold encoder_block. set (att := fun s => add_seq (length s) (bp_attention p (map (bp_norm1 p) s)) s).
  set (op := fun y => if is_moe then mlp_moe_block D (ec_moe c) (bp_moe p) y else Ok (map (map (bp_mlp p)) y)).
  apply (causal_bind (whole Sz T) (whole Sz T) (fun x => Ok (map att x)) (fun x => bind (op (map (map (bp_norm2 p)) x)) (fun y => Ok (add_batch x y)))).
  - apply splits_map. intros x W. apply whole_map; auto. intros s. unfold att. apply add_seq_len.
  - apply causal_map.
  - apply (causal_residual Sz T (map (map (bp_norm2 p))) op).
    + intros x W. apply whole_map; auto. intros. apply map_length.
    + intros. apply firstn_map.
    + unfold op. destruct is_moe; [apply (moe_block_causal D (ec_moe c) _ name cap cf mode mult HS HE HR)|apply causal_map].
Qed.
Lemma blocks_causal ep T l : causal (whole Sz T) (rfold (fun x block => encoder_block (existsb (Nat.eqb block) (ec_layers c)) D (ec_moe c) (ep_block ep block) x) l).
Proof using HS HE HR.
  induction l as [|i l IH].
  - intros x x' y y' _ _ E E' n Q. cbn [rfold] in E, E'. apply Ok_inj in E, E'. subst. auto.
  - cbn [rfold]. apply (causal_bind _ (whole Sz T)); auto; [apply block_splits; auto|apply block_causal].
Qed.
Lemma position_causal pe learned T : causal (whole Sz T) (add_position_emb D pe learned).
Proof using.
  clear. unfold add_position_emb. set (e := match pe with Some e => e | None => _ end). destruct (match pe_name e with Some n => n | None => PosLearned end).
  - intros x x' y y' _ _ E E' n Q. apply Ok_inj in E, E'. subst. auto.
  - apply causal_map.
  - destruct (pe_h e) as [h|]; [|intros x x' y y' _ _ E; discriminate]. destruct (pe_w e) as [w|]; [|intros x x' y y' _ _ E; discriminate].
    destruct (negb (D mod 4 =? 0) || (D <? 8)); [intros x x' y y' _ _ E; discriminate|].
    apply (causal_ext _ (fun x => if T =? h * w then Ok (map (add_rows (posembed w D (match pe_temperature e with Some t => t | None => default_temperature end))) x)
      else if T =? h * w + 1 then Ok (map (fun s => firstn 1 s ++ add_rows (posembed w D (match pe_temperature e with Some t => t | None => default_temperature end)) (skipn 1 s)) x) else Raise ValueError)).
    { intros x [R _]. rewrite (rect_seq_len T) by auto. auto. }
    destruct (T =? h * w); [apply causal_map|]. destruct (T =? h * w + 1); [apply causal_map|intros x x' y y' _ _ E; discriminate].
  - intros x x' y y' _ _ E; discriminate.
Qed.
Lemma vit_earlier {I} pe cls nc (p : vit_params I) h w images images' out out' n :
  images <> [] -> images' <> [] -> (length images * tokens_per_image cls h w) mod Sz = 0 -> (length images' * tokens_per_image cls h w) mod Sz = 0 ->
  vit_moe D c pe cls nc p h w images = Ok out -> vit_moe D c pe cls nc p h w images' = Ok out' ->
  firstn n images = firstn n images' -> firstn n out = firstn n out'.
Proof using HS HE HR.
  intros N N' M M' E E' Q. revert out out' E E' n Q. unfold vit_moe. destruct (grid_kwargs h w pe) as [pe'|e]; cbn [bind]; [|intros ? ? X; discriminate].
  set (T := tokens_per_image cls h w) in *.
  set (tok := fun i => match cls with ClsToken => vp_cls p :: tokens h w (vp_embedding p i) | _ => tokens h w (vp_embedding p i) end).
  set (rest := fun x => bind (match cls with
        | ClsToken | Cls0 => Ok (map (fun s => nth 0 s (vzero Ralg)) x)
        | ClsGap => Ok (map mean_tokens x)
        | ClsMap => Ok (map (vp_map p) x)
        | ClsOther => Raise ValueError
        end) (fun x => let x := map (vp_pre_logits p) x in Ok (match nc with Some (S _) => map (vp_head p) x | _ => x end))).
  set (okx := fun x : list I => x <> [] /\ (length x * T) mod Sz = 0).
  assert (W : forall x, okx x -> whole Sz T (map tok x)).
  { intros x [Nx Mx]. split; [split|].
    + destruct x; [contradiction|discriminate].
    + intros s Hs. apply in_map_iff in Hs. destruct Hs as (i & <- & _). unfold tok, T, tokens_per_image, tokens. destruct cls; cbn [length]; rewrite map_length, seq_length; auto.
    + rewrite map_length. auto. }
  assert (C : causal okx (fun images => bind (Ok (map tok images)) (fun x => bind (encoder_moe D c pe' (vp_encoder p) x) rest))).
  { apply (causal_bind _ (whole Sz T)); [apply splits_map; auto|apply causal_map|]. apply (causal_bind _ (whole Sz T)); [apply encoder_splits; auto| |].
    - unfold encoder_moe. apply (causal_bind _ (whole Sz T)); [apply position_splits|apply position_causal|].
      apply (causal_bind _ (whole Sz T)); [apply blocks_splits; auto|apply blocks_causal|apply causal_map].
    - unfold rest. apply (causal_bind _ (fun _ => True)).
      + destruct cls; try (apply splits_map; auto). left. exists ValueError. auto.
      + destruct cls; try apply causal_map. intros x x' y y' _ _ X; discriminate.
      + apply (causal_ext _ (fun x => Ok (map (fun v => match nc with Some (S _) => vp_head p (vp_pre_logits p v) | _ => vp_pre_logits p v end) x))).
        * intros x _. destruct nc as [[|k]|]; auto. rewrite map_map. auto.
        * apply causal_map. }
  intros out out' E E'.
  assert (TE : forall l, match cls with ClsToken => map (fun s => vp_cls p :: s) (map (fun i => tokens h w (vp_embedding p i)) l) | _ => map (fun i => tokens h w (vp_embedding p i)) l end = map tok l).
  { intros l. unfold tok. destruct cls; auto. apply map_map. }
  rewrite TE in E, E'. apply (C images images' out out'); auto; split; auto.
Qed.
End CausalVit.

(** *** The batch does not split into groups *)
Lemma vit_ragged {I} D c pe cls nc (p : vit_params I) h w images out i :
  i < ec_num_layers c -> existsb (Nat.eqb i) (ec_layers c) = true -> images <> [] ->
  mc_group_size (ec_moe c) = 0 \/ (length images * tokens_per_image cls h w) mod mc_group_size (ec_moe c) <> 0 ->
  vit_moe D c pe cls nc p h w images <> Ok out.
Proof.
  intros Hi Li N M Q. unfold vit_moe in Q. apply bind_ok in Q. destruct Q as (pe' & _ & Q). apply bind_ok in Q. destruct Q as (x & Q & _). unfold encoder_moe in Q.
  apply bind_ok in Q. destruct Q as (x1 & Q1 & Q). apply bind_ok in Q. destruct Q as (x2 & Q2 & _). set (T := tokens_per_image cls h w) in *.
  set (ok := fun x : batch => rect T x /\ length x = length images).
  assert (W : ok x1).
  { assert (W0 : forall x0, x0 = match cls with ClsToken => map (fun s => vp_cls p :: s) (map (fun i => tokens h w (vp_embedding p i)) images) | _ => map (fun i => tokens h w (vp_embedding p i)) images end -> ok x0).
    { intros x0 ->. split; [split|].
      - destruct images; [contradiction|]. destruct cls; discriminate.
      - intros s Hs. unfold T, tokens_per_image, tokens in *. destruct cls; apply in_map_iff in Hs; destruct Hs as (j & <- & Hs); cbn [length]; try (rewrite map_length, seq_length; auto).
        apply in_map_iff in Hs. destruct Hs as (? & <- & _). rewrite map_length, seq_length. auto.
      - destruct cls; rewrite ?map_length; auto. }
    assert (S1 := position_splits 1 D pe' (ep_learned (vp_encoder p)) T). set (x0 := match cls with ClsToken => _ | _ => _ end) in Q1. destruct (W0 x0 eq_refl) as [R L].
    assert (W1 : whole 1 T x0) by (split; auto; apply Nat.mod_1_r).
    destruct S1 as [(e & F)|(F & F1 & _)]; [rewrite F in Q1 by auto; discriminate|]. destruct (F1 x0 W1) as (Q3 & [R' _] & L'). rewrite Q3 in Q1. apply Ok_inj in Q1. subst x1. split; auto. rewrite L'. auto. }
  assert (BK : forall b x y, ok x -> encoder_block b D (ec_moe c) (ep_block (vp_encoder p) i) x = Ok y -> b = false).
  { intros b y z [R L] QB. destruct b; auto. exfalso. unfold encoder_block in QB. apply bind_ok in QB. destruct QB as (u & QB & _). unfold mlp_moe_block in QB.
    set (v := map (map _) _) in QB. assert (LV : length (concat v) = length images * T).
    { rewrite (concat_len T); [unfold v; rewrite !map_length; auto|]. intros s Hs. unfold v in Hs. apply in_map_iff in Hs. destruct Hs as (s1 & <- & Hs). rewrite map_length. apply in_map_iff in Hs. destruct Hs as (s2 & <- & Hs). rewrite add_seq_len. apply R. auto. }
    rewrite LV in QB. destruct (Nat.eqb_spec (mc_group_size (ec_moe c)) 0) as [|G0]; [discriminate|]. destruct (Nat.eqb_spec ((length images * T) mod mc_group_size (ec_moe c)) 0); [|discriminate]. destruct M; contradiction. }
  assert (ST : forall b j x y, ok x -> (j = i -> b = true) -> encoder_block b D (ec_moe c) (ep_block (vp_encoder p) j) x = Ok y -> j <> i /\ (b = false -> ok y)).
  { intros b j y z O J QB. split.
    - intros ->. rewrite (BK b y z O QB) in J. specialize (J eq_refl). discriminate.
    - intros ->. unfold encoder_block in QB. cbn [bind] in QB. apply Ok_inj in QB. subst z. destruct O as [[NR R] L]. unfold add_batch. split; [split|].
      + destruct y; [contradiction|discriminate].
      + intros s Hs. apply in_map_iff in Hs. destruct Hs as ((s1, s2) & <- & Hs). rewrite add_seq_len. cbn [fst]. apply in_combine_l in Hs. apply in_map_iff in Hs. destruct Hs as (s3 & <- & Hs). rewrite add_seq_len. auto.
      + rewrite map_length, combine_length, !map_length, Nat.min_id. auto. }
  assert (LOOP : forall l x y, ok x -> In i l -> rfold (fun x block => encoder_block (existsb (Nat.eqb block) (ec_layers c)) D (ec_moe c) (ep_block (vp_encoder p) block) x) l x = Ok y -> False).
  { induction l as [|j l IH]; intros y z O I0 QL; [contradiction|]. cbn [rfold] in QL. apply bind_ok in QL. destruct QL as (u & QB & QL).
    destruct (existsb (Nat.eqb j) (ec_layers c)) eqn:LJ.
    - unfold encoder_block in QB. apply bind_ok in QB. destruct QB as (u1 & QB & _). unfold mlp_moe_block in QB. destruct O as [R L].
      set (v := map (map _) _) in QB. assert (LV : length (concat v) = length images * T).
      { rewrite (concat_len T); [unfold v; rewrite !map_length; auto|]. intros s Hs. unfold v in Hs. apply in_map_iff in Hs. destruct Hs as (s1 & <- & Hs). rewrite map_length. apply in_map_iff in Hs. destruct Hs as (s2 & <- & Hs). rewrite add_seq_len. apply R. auto. }
      rewrite LV in QB. destruct (Nat.eqb_spec (mc_group_size (ec_moe c)) 0) as [|G0]; [discriminate|]. destruct (Nat.eqb_spec ((length images * T) mod mc_group_size (ec_moe c)) 0); [|discriminate]. destruct M; contradiction.
    - destruct (ST false j y u O) as [_ O2]; [intros ->; congruence|auto|]. destruct I0 as [->|I0]; [congruence|]. eapply IH; [|exact I0|exact QL]. auto. }
  apply (LOOP (seq 0 (ec_num_layers c)) x1 x2); auto. apply in_seq. lia.
Qed.

(** *** Groups with several images *)
Definition vec2 (a b : R) : V := fun d => match d with 0 => a | 1 => b | _ => 0%R end.
Definition double (v : V) : V := vadd Ralg v v.
Definition demo_tokens (a b : V) (s : nat) : V := nth s [double a; double b] (vzero Ralg).
Definition demo_layer (bp : bool) (x : nat -> V) : nat -> V :=
  @top_experts_output Ralg bp 2 2 1 1 (fun s => softmax 2 (x s)) (top_rows 2 1 (fun s => softmax 2 (x s))) (fun _ v => v) x.
Lemma demo_eq bp a b : demo bp [a; b] =
  Ok [vadd Ralg (double a) (demo_layer bp (demo_tokens a b) 0); vadd Ralg (double b) (demo_layer bp (demo_tokens a b) 1)].
Proof.
  assert (ZZ : forall v : V, vadd Ralg v (fun _ => 0%R) = v) by (intros v; apply functional_extensionality; intros; cbn; lra).
  unfold demo, vit_moe. cbn [grid_kwargs bind]. cbn [map demo_params vp_embedding tokens Nat.mul Nat.add seq ravel2]. unfold encoder_moe. cbn [add_position_emb pe_name bind vp_encoder ep_learned map].
  unfold tokens. cbn [Nat.mul Nat.add seq map]. unfold add_rows. cbn [length seq map nth]. unfold ravel2. rewrite !ZZ.
  cbn [demo_config ec_num_layers seq rfold ec_layers existsb Nat.eqb orb ep_block ec_moe]. unfold encoder_block. cbn [bp_norm1 bp_attention bp_norm2 bp_mlp bp_moe map].
  unfold add_seq at 1 3. cbn [length seq map nth]. fold (double a) (double b).
  assert (IDM : forall s : list V, map (fun v => v) s = s) by (intros; apply map_id).
  assert (SP := mlp_moe_block_spec 2 (ec_moe (demo_config bp)) (bp_moe (ep_block (vp_encoder demo_params) 0)) ltac:(cbn; lia) ltac:(cbn; lia) 1).
  cbn [group_fn ec_moe demo_config mc_router mc_group_size mc_num_experts Nat.leb andb negb] in SP.
  match type of SP with context [of_moe ?f] => replace f with (MoeModel.Ok (NameEinsum, 1%Z)) in SP by reflexivity end. cbn [of_moe bind snd] in SP. destruct SP as [SP _].
  cbn [bp_moe ep_block vp_encoder demo_params] in SP.
  rewrite SP; [|split; [split; [discriminate|intros s [<-|[<-|[]]]; reflexivity]|reflexivity]].
  cbn [bind]. unfold moe_fn. cbn [length seq map mc_group_size concat app Nat.mul Nat.add]. change (0 / 2) with 0. change (1 / 2) with 0. change (0 mod 2) with 0. change (1 mod 2) with 1. cbn [Nat.mul Nat.add].
  unfold add_batch. cbn [combine map fst snd length]. unfold add_seq. cbn [length seq map nth ep_norm vp_pre_logits]. cbn [demo_params vp_pre_logits vp_encoder ep_norm nth map]. reflexivity.
Qed.
Lemma softmax2_lt (row : nat -> R) i j : (row i < row j)%R -> (softmax 2 row i < softmax 2 row j)%R.
Proof.
  intros H. unfold softmax, Rdiv. apply Rmult_lt_compat_r; [|apply exp_increasing; auto]. apply Rinv_0_lt_compat. apply sumf_pos; [lia|]. intros. apply exp_pos.
Qed.
Lemma softmax2_pos (row : nat -> R) i : (0 < softmax 2 row i)%R.
Proof. unfold softmax, Rdiv. apply Rmult_lt_0_compat; [apply exp_pos|]. apply Rinv_0_lt_compat. apply sumf_pos; [lia|]. intros. apply exp_pos. Qed.
Lemma top2 (gates : nat -> nat -> R) s i j : (i = 0 /\ j = 1 \/ i = 1 /\ j = 0) -> (gates s j < gates s i)%R -> top_rows 2 1 gates s 0 = i.
Proof.
  intros IJ H. unfold top_rows. apply (best_choices_unique Ralg_laws (gates s) 2 1 (fun k => nth k (top_k (sleb Ralg) 2 1 (gates s)) 0) (fun _ => i)); [apply (best_choices_top_k Ralg_laws); lia| |lia].
  split; [intros; lia|]. split; [intros; lia|]. intros e He NE k Hk. assert (e <> i) by (intros ->; apply (NE 0); auto). assert (e = j) by lia. subst e. unfold preferred. cbn [sleb Ralg]. destruct (Rle_dec (gates s i) (gates s j)); [lra|auto].
Qed.
Lemma demo_tokens_lt a b s : demo_tokens a b s = match s with 0 => double a | 1 => double b | _ => vzero Ralg end.
Proof. destruct s as [|[|s]]; auto. unfold demo_tokens. cbn. destruct s; auto. Qed.
(** A token alone with its expert, and one displaced by another. *)
Lemma demo_layer_kept bp x s : s < 2 ->
  top_rows 2 1 (fun s => softmax 2 (x s)) 0 0 <> top_rows 2 1 (fun s => softmax 2 (x s)) 1 0 ->
  demo_layer bp x s 0 = (softmax 2 (x s) (top_rows 2 1 (fun s => softmax 2 (x s)) s 0) * x s 0%nat)%R.
Proof.
  intros Hs NE. unfold demo_layer, top_experts_output, sum_over. cbn [seq fold_right].
  replace (competitors bp 2 2 1 _ _ s 0) with 0; [cbn; lra|]. symmetry. unfold competitors. cbn [seq list_prod app map filter fst snd].
  assert (I : forall g s, @priority Ralg bp 2 g s 0 s 0 = false) by (intros; apply (priority_irrefl Ralg_laws)).
  destruct s as [|[|s]]; [| |lia].
  - rewrite I, andb_false_r. destruct (Nat.eqb_spec (top_rows 2 1 (fun s => softmax 2 (x s)) 1 0) (top_rows 2 1 (fun s => softmax 2 (x s)) 0 0)); [congruence|]. auto.
  - rewrite I, andb_false_r. destruct (Nat.eqb_spec (top_rows 2 1 (fun s => softmax 2 (x s)) 0 0) (top_rows 2 1 (fun s => softmax 2 (x s)) 1 0)); [congruence|]. auto.
Qed.
Lemma demo_layer_dropped bp x s s' : s < 2 -> s' < 2 ->
  top_rows 2 1 (fun s => softmax 2 (x s)) s' 0 = top_rows 2 1 (fun s => softmax 2 (x s)) s 0 -> @item_first Ralg bp 2 (fun s => softmax 2 (x s)) s' s = true ->
  demo_layer bp x s 0 = 0%R.
Proof.
  intros Hs Hs' EQ IF. unfold demo_layer, top_experts_output, sum_over. cbn [seq fold_right].
  match goal with |- context [?c <? 1] => assert (c <> 0) end.
  { unfold competitors. intros Z. apply length_zero_iff_nil in Z. assert (IN : In (s', 0) (list_prod (seq 0 2) (seq 0 1))) by (apply in_prod; apply in_seq; lia).
    match type of Z with filter ?f ?l = [] => assert (F : In (s', 0) (filter f l)) end.
    { apply filter_In. split; auto. cbn [fst snd]. rewrite EQ, Nat.eqb_refl. unfold priority. rewrite IF. reflexivity. }
    rewrite Z in F. destruct F. }
  match goal with |- context [?c <? 1] => destruct (Nat.ltb_spec c 1); [lia|] end. cbn. lra.
Qed.
(** Another image that comes before takes the place in the expert. *)
Lemma vit_other_refuted : exists a a' b out out',
  demo false [a; b] = Ok out /\ demo false [a'; b] = Ok out' /\ nth_error out 1 <> nth_error out' 1.
Proof.
  exists (vec2 1 0), (vec2 0 1), (vec2 1 0). do 2 eexists. split; [apply demo_eq|]. split; [apply demo_eq|]. intros Q. cbn [nth_error] in Q. injection Q as Q.
  assert (Q0 := f_equal (fun f => f 0) Q). clear Q. cbn [vadd Ralg] in Q0.
  rewrite (demo_layer_dropped false _ 1 0) in Q0; [|lia|lia| |reflexivity].
  2:{ rewrite (top2 _ 0 0 1), (top2 _ 1 0 1); auto; apply softmax2_lt; rewrite demo_tokens_lt; unfold double, vec2; cbn; lra. }
  assert (A0 : top_rows 2 1 (fun s => softmax 2 (demo_tokens (vec2 0 1) (vec2 1 0) s)) 0 0 = 1) by (apply (top2 _ 0 1 0); auto; apply softmax2_lt; rewrite demo_tokens_lt; unfold double, vec2; cbn; lra).
  assert (A1 : top_rows 2 1 (fun s => softmax 2 (demo_tokens (vec2 0 1) (vec2 1 0) s)) 1 0 = 0) by (apply (top2 _ 1 0 1); auto; apply softmax2_lt; rewrite demo_tokens_lt; unfold double, vec2; cbn; lra).
  rewrite demo_layer_kept in Q0; [|lia|rewrite A0, A1; lia]. rewrite A1 in Q0. assert (P := softmax2_pos (demo_tokens (vec2 0 1) (vec2 1 0) 1) 0).
  set (g := softmax 2 _ 0) in *. rewrite demo_tokens_lt in Q0. unfold double, vec2 in Q0. cbn [vadd Ralg] in Q0. nra.
Qed.
(** With batch priority, so does one that comes later. *)
Lemma vit_later_refuted : exists a b b' out out',
  demo true [a; b] = Ok out /\ demo true [a; b'] = Ok out' /\ nth_error out 0 <> nth_error out' 0.
Proof.
  exists (vec2 1 0), (vec2 2 0), (vec2 0 1). do 2 eexists. split; [apply demo_eq|]. split; [apply demo_eq|]. intros Q. cbn [nth_error] in Q. injection Q as Q.
  assert (Q0 := f_equal (fun f => f 0) Q). clear Q. cbn [vadd Ralg] in Q0.
  assert (LT : forall s, s < 2 -> (softmax 2 (demo_tokens (vec2 1 0) (vec2 2 0) s) 1 < softmax 2 (demo_tokens (vec2 1 0) (vec2 2 0) s) 0)%R).
  { intros s Hs. apply softmax2_lt. rewrite demo_tokens_lt. destruct s as [|[|s]]; [| |lia]; unfold double, vec2; cbn; lra. }
  rewrite (demo_layer_dropped true _ 0 1) in Q0; [|lia|lia| |].
  2:{ rewrite (top2 _ 0 0 1), (top2 _ 1 0 1); auto; apply LT; lia. }
  2:{ assert (RM : forall s, s < 2 -> @row_max Ralg 2 (softmax 2 (demo_tokens (vec2 1 0) (vec2 2 0) s)) = softmax 2 (demo_tokens (vec2 1 0) (vec2 2 0) s) 0).
      { intros s Hs. specialize (LT s Hs). cbn [row_max]. cbn [sleb Ralg]. destruct (Rle_dec _ _); auto; lra. }
      unfold item_first, preferred. rewrite !RM by lia. cbn [sleb Ralg].
      assert (L01 : (softmax 2 (demo_tokens (vec2 1 0) (vec2 2 0) 0) 0 < softmax 2 (demo_tokens (vec2 1 0) (vec2 2 0) 1) 0)%R).
      { rewrite !demo_tokens_lt. unfold softmax, double, vec2. cbn [sumf vadd Ralg]. replace (0 + 0)%R with 0%R by lra. rewrite exp_0. assert (EE : (exp (1 + 1) < exp (2 + 2))%R) by (apply exp_increasing; lra).
        assert (P := exp_pos (1 + 1)). set (u := exp (1 + 1)) in *. set (v := exp (2 + 2)) in *. unfold sumf. apply Rmult_lt_reg_r with (u + 1)%R; [lra|].
        apply Rmult_lt_reg_r with (v + 1)%R; [lra|]. field_simplify; lra. }
      destruct (Rle_dec (softmax 2 (demo_tokens (vec2 1 0) (vec2 2 0) 1) 0) (softmax 2 (demo_tokens (vec2 1 0) (vec2 2 0) 0) 0)); [lra|reflexivity]. }
  assert (A0 : top_rows 2 1 (fun s => softmax 2 (demo_tokens (vec2 1 0) (vec2 0 1) s)) 0 0 = 0) by (apply (top2 _ 0 0 1); auto; apply softmax2_lt; rewrite demo_tokens_lt; unfold double, vec2; cbn; lra).
  assert (A1 : top_rows 2 1 (fun s => softmax 2 (demo_tokens (vec2 1 0) (vec2 0 1) s)) 1 0 = 1) by (apply (top2 _ 1 1 0); auto; apply softmax2_lt; rewrite demo_tokens_lt; unfold double, vec2; cbn; lra).
  rewrite demo_layer_kept in Q0; [|lia|rewrite A0, A1; lia]. rewrite A0 in Q0. assert (P := softmax2_pos (demo_tokens (vec2 1 0) (vec2 0 1) 0) 0).
  set (g := softmax 2 _ 0) in *. rewrite demo_tokens_lt in Q0. unfold double, vec2 in Q0. cbn [vadd Ralg] in Q0. nra.
Qed.

(** ** Sinusoidal embeddings *)
Lemma omega_eq c t i : omega c t i = frequency c t i.
Proof.
  unfold omega, frequency, Rpower. set (a := (INR i / INR (c / 4 - 1))%R). replace (- a * ln t)%R with (- (a * ln t))%R by ring. rewrite exp_Ropp. unfold Rdiv. lra.
Qed.
Lemma posembed_eq w c t y x d : c mod 4 = 0 -> 8 <= c -> x < w -> d < c -> posembed w c t (y * w + x) d = sincos c t y x d.
Proof.
  intros M G Hx Hd. set (q := c / 4). assert (CQ : c = 4 * q) by (unfold q; assert (A := Nat.div_mod_eq c 4); lia). assert (Q : 2 <= q) by lia.
  unfold posembed, ravel2, sincos. fold q.
  assert (DV : (y * w + x) / w = y) by (rewrite Nat.add_comm, Nat.div_add, Nat.div_small by lia; lia).
  assert (MD : (y * w + x) mod w = x) by (rewrite Nat.add_comm, Nat.mod_add, Nat.mod_small by lia; lia).
  rewrite DV, MD. assert (B : forall k r, r < q -> d = q * k + r -> d / q = k /\ d mod q = r).
  { intros k r R ->. split; [symmetry; apply (Nat.div_unique _ _ k r); lia|symmetry; apply (Nat.mod_unique _ _ k r); lia]. }
  unfold concat4.
  destruct (Nat.ltb_spec d q); [destruct (B 0 d) as [-> ->]; try lia; rewrite omega_eq; auto|].
  destruct (Nat.ltb_spec d (q + q)); [destruct (B 1 (d - q)) as [-> ->]; try lia; rewrite omega_eq; auto|].
  destruct (Nat.ltb_spec d (q + q + q)); [destruct (B 2 (d - (q + q))) as [-> ->]; try lia; rewrite omega_eq; auto|].
  destruct (B 3 (d - (q + q + q))) as [-> ->]; try lia. rewrite omega_eq; auto.
Qed.
Lemma add_rows_nth pe s t : t < length s -> nth t (add_rows pe s) (vzero Ralg) = vadd Ralg (nth t s (vzero Ralg)) (pe t).
Proof.
  intros Ht. unfold add_rows. rewrite nth_indep with (d' := vadd Ralg (nth 0 s (vzero Ralg)) (pe 0)) by (rewrite map_length, seq_length; auto).
  rewrite (map_nth (fun t => vadd Ralg (nth t s (vzero Ralg)) (pe t)) (seq 0 (length s)) 0 t). rewrite seq_nth by auto. auto.
Qed.
Lemma tokens_nth h w patch y x : y < h -> x < w -> nth (y * w + x) (tokens h w patch) (vzero Ralg) = patch y x.
Proof.
  intros Hy Hx. assert (L : y * w + x < h * w) by nia. unfold tokens. rewrite nth_indep with (d' := ravel2 w patch 0) by (rewrite map_length, seq_length; auto).
  rewrite map_nth, seq_nth by auto. cbn [Nat.add]. unfold ravel2. rewrite (Nat.add_comm (y * w)), Nat.div_add, Nat.mod_add, Nat.div_small, Nat.mod_small by lia. auto.
Qed.
Lemma tokens_len h w patch : length (tokens h w patch) = h * w.
Proof. unfold tokens. now rewrite map_length, seq_length. Qed.

Lemma classic_cls cls : cls = ClsToken \/ cls <> ClsToken.
Proof. destruct cls; auto; right; discriminate. Qed.
(** The tokens that the encoder gets are the patches with the embedding of their place. *)
Lemma vit_sincos {I} D e cls (p : vit_params I) h w images t : D mod 4 = 0 -> 8 <= D -> images <> [] -> pe_name e = Some PosSincos2d ->
  t = match pe_temperature e with Some t => t | None => default_temperature end ->
  exists e' out, grid_kwargs h w (Some (Some e)) = Ok e' /\
    add_position_emb D e' (ep_learned (vp_encoder p)) (map (input_tokens cls p h w) images) = Ok out /\
    Forall2 (fun i s => length s = tokens_per_image cls h w /\
               (cls = ClsToken -> nth 0 s (vzero Ralg) = vp_cls p) /\
               forall y x d, y < h -> x < w -> d < D ->
                 nth (y * w + x + match cls with ClsToken => 1 | _ => 0 end) s (vzero Ralg) d = (vp_embedding p i y x d + sincos D t y x d)%R) images out.
Proof.
  intros M G NE EN ET. unfold grid_kwargs. rewrite EN. eexists.
  exists (map (fun s => match cls with ClsToken => firstn 1 s ++ add_rows (posembed w D t) (skipn 1 s) | _ => add_rows (posembed w D t) s end) (map (input_tokens cls p h w) images)).
  split; [reflexivity|]. unfold add_position_emb. cbn [pe_name pe_h pe_w pe_temperature]. rewrite <- ET.
  replace (negb (D mod 4 =? 0)) with false by (rewrite M; auto). destruct (Nat.ltb_spec D 8); [lia|]. cbn [orb].
  assert (SL : seq_len (map (input_tokens cls p h w) images) = tokens_per_image cls h w).
  { destruct images as [|i l]; [easy|]. unfold seq_len. cbn [map hd]. unfold input_tokens, tokens_per_image. destruct cls; cbn [length]; rewrite tokens_len; auto. }
  rewrite SL. assert (MAP : forall (f : list V -> list V) (P : I -> list V -> Prop), (forall i, P i (f (input_tokens cls p h w i))) -> Forall2 P images (map f (map (input_tokens cls p h w) images))).
  { intros f P HP. clear - HP. induction images; cbn; constructor; auto. }
  destruct (classic_cls cls) as [-> |NT].
  - cbn [tokens_per_image]. destruct (Nat.eqb_spec (S (h * w)) (h * w)); [lia|]. replace (h * w + 1) with (S (h * w)) by lia. rewrite Nat.eqb_refl. split; [reflexivity|].
    apply MAP. intros i. cbn [input_tokens firstn skipn app]. split; [cbn [length]; rewrite add_rows_len, tokens_len; auto|]. split; auto.
    intros y x d Hy Hx Hd. rewrite Nat.add_1_r. cbn [nth]. rewrite add_rows_nth by (rewrite tokens_len; nia). rewrite tokens_nth by auto. cbn [vadd Ralg]. rewrite posembed_eq by auto. auto.
  - assert (TT : tokens_per_image cls h w = h * w) by (destruct cls; cbn; congruence). rewrite TT, Nat.eqb_refl. split; [destruct cls; [elim NT|..]; reflexivity|].
    assert (IT : forall i, input_tokens cls p h w i = tokens h w (vp_embedding p i)) by (intros; destruct cls; cbn; congruence).
    apply MAP. intros i. rewrite IT. replace (match cls with ClsToken => _ | _ => _ end) with (add_rows (posembed w D t) (tokens h w (vp_embedding p i))) by (destruct cls; [elim NT|..]; reflexivity). split; [rewrite add_rows_len, tokens_len; auto|]. split; [congruence|].
    intros y x d Hy Hx Hd. replace (match cls with ClsToken => 1 | _ => 0 end) with 0 by (destruct cls; congruence). rewrite Nat.add_0_r. rewrite add_rows_nth by (rewrite tokens_len; nia).
    rewrite tokens_nth by auto. cbn [vadd Ralg]. rewrite posembed_eq by auto. auto.
Qed.
Lemma mean_ok {I} (p : vit_params I) s : represents ClsGap p s (mean_tokens s).
Proof.
  intros d. unfold mean_tokens. set (q := sumf _ _). destruct s as [|v s]; [unfold q; cbn; lra|]. cbv beta. field. apply not_0_INR. discriminate.
Qed.
(** The network uses these tokens. *)
Lemma vit_position {I} D c pe cls nc (p : vit_params I) h w images out : vit_moe D c pe cls nc p h w images = Ok out ->
  exists e x y, grid_kwargs h w pe = Ok e /\ add_position_emb D e (ep_learned (vp_encoder p)) (map (input_tokens cls p h w) images) = Ok x /\
    encoder_moe D c (Some {| pe_name := Some PosNone; pe_h := None; pe_w := None; pe_temperature := None |}) (vp_encoder p) x = Ok y /\
    exists z, Forall2 (represents cls p) y z /\ out = map (fun v => let v := vp_pre_logits p v in match nc with Some (S _) => vp_head p v | _ => v end) z.
Proof.
  unfold vit_moe. intros E. destruct (bind_ok _ _ _ E) as (e & Ee & E1). clear E. destruct (bind_ok _ _ _ E1) as (y & Ey & E2). clear E1.
  replace (match cls with ClsToken => _ | _ => _ end) with (map (input_tokens cls p h w) images) in Ey by (unfold input_tokens; destruct cls; rewrite ?map_map; auto).
  unfold encoder_moe in Ey. destruct (bind_ok _ _ _ Ey) as (x & Ex & Ey2). exists e, x, y. split; auto. split; auto. split; [exact Ey2|].
  destruct (bind_ok _ _ _ E2) as (z & Ez & E3). clear E2. exists z. split.
  - destruct cls; try discriminate; apply Ok_inj in Ez; subst z; clear; (induction y as [|s y IH]; cbn [map]; constructor; auto); try reflexivity. apply mean_ok.
  - apply Ok_inj in E3. subst out. destruct nc as [[|k]|]; rewrite ?map_map; auto.
Qed.
(** When [add_position_emb] fails, and how *)
Lemma position_errors D pe learned inputs :
  (exists out, add_position_emb D (Some pe) learned inputs = Ok out) <->
  match pe_name pe with
  | None | Some PosNone | Some PosLearned => True
  | Some PosSincos2d => exists h w, pe_h pe = Some h /\ pe_w pe = Some w /\ D mod 4 = 0 /\ 8 <= D /\ (seq_len inputs = h * w \/ seq_len inputs = h * w + 1)
  | Some PosOther => False
  end.
Proof.
  unfold add_position_emb. destruct (pe_name pe) as [[]|]; try (split; eauto; fail).
  - split; [|intros (h & w & -> & -> & M & G & L)].
    + intros (out & E). destruct (pe_h pe) as [h|]; [|discriminate]. destruct (pe_w pe) as [w|]; [|discriminate]. exists h, w. do 2 (split; [reflexivity|]).
      destruct (Nat.eqb_spec (D mod 4) 0); [|discriminate]. destruct (Nat.ltb_spec D 8); [discriminate|]. cbn [negb orb] in E.
      destruct (Nat.eqb_spec (seq_len inputs) (h * w)); [auto|]. destruct (Nat.eqb_spec (seq_len inputs) (h * w + 1)); [auto|discriminate].
    + rewrite M. destruct (Nat.ltb_spec D 8); [lia|]. cbn [Nat.eqb negb orb]. destruct (Nat.eqb_spec (seq_len inputs) (h * w)); [eauto|]. destruct (Nat.eqb_spec (seq_len inputs) (h * w + 1)); [eauto|lia].
  - split; [intros (o & E); discriminate|easy].
Qed.
Lemma position_error_kind D pe learned inputs e : add_position_emb D pe learned inputs = Raise e ->
  (e = KeyError /\ exists p, pe = Some p /\ pe_name p = Some PosSincos2d /\ (pe_h p = None \/ pe_w p = None)) \/ e = ValueError.
Proof.
  unfold add_position_emb. destruct pe as [pe|]; [|cbn; discriminate]. destruct (pe_name pe) as [[]|] eqn:N; try discriminate; [|injection 1; auto].
  destruct (pe_h pe) eqn:H; [|intros E; injection E as <-; left; eauto 6]. destruct (pe_w pe) eqn:W; [|intros E; injection E as <-; left; eauto 6]. right. revert H0.
  destruct (_ || _); [injection 1; auto|]. destruct (_ =? _); [discriminate|]. destruct (_ =? _); [discriminate|]. injection 1; auto.
Qed.
(** The network gives the encoder the shape of the grid, so only the hidden size and the name matter. *)
Lemma vit_position_errors {I} D e cls (p : vit_params I) h w images : images <> [] ->
  (exists e' out, grid_kwargs h w e = Ok e' /\ add_position_emb D e' (ep_learned (vp_encoder p)) (map (input_tokens cls p h w) images) = Ok out) <->
  match e with
  | None => True
  | Some None => False
  | Some (Some pe) => match pe_name pe with None | Some PosNone | Some PosLearned => True | Some PosSincos2d => D mod 4 = 0 /\ 8 <= D | Some PosOther => False end
  end.
Proof.
  intros NE. assert (SL : seq_len (map (input_tokens cls p h w) images) = tokens_per_image cls h w).
  { destruct images as [|i l]; [easy|]. unfold seq_len. cbn [map hd]. unfold input_tokens, tokens_per_image. destruct cls; cbn [length]; rewrite tokens_len; auto. }
  destruct e as [[pe|]|]; cbn [grid_kwargs].
  - destruct (pe_name pe) as [[]|] eqn:N.
    + split; auto. intros _. do 2 eexists. split; [reflexivity|]. unfold add_position_emb. cbv zeta iota. rewrite N. reflexivity.
    + split; auto. intros _. do 2 eexists. split; [reflexivity|]. unfold add_position_emb. cbv zeta iota. rewrite N. reflexivity.
    + split.
      * intros (e' & out & E & A). apply Ok_inj in E. subst e'. assert (X := proj1 (position_errors D _ _ _) (ex_intro _ out A)). cbn [pe_name pe_h pe_w] in X. destruct X as (h' & w' & _ & _ & M & G & _). auto.
      * intros [M G]. set (pe' := {| pe_name := _; pe_h := _; pe_w := _; pe_temperature := _ |}). destruct (proj2 (position_errors D pe' (ep_learned (vp_encoder p)) (map (input_tokens cls p h w) images))) as [out A]; [|eauto].
        cbn [pe' pe_name pe_h pe_w]. exists h, w. do 4 (split; auto). rewrite SL. destruct cls; cbn; lia.
    + split; [|easy]. intros (e' & out & E & A). apply Ok_inj in E. subst e'. unfold add_position_emb in A. rewrite N in A. discriminate.
    + split; auto. intros _. do 2 eexists. split; [reflexivity|]. unfold add_position_emb. cbv zeta iota. rewrite N. reflexivity.
  - split; [|easy]. intros (e' & out & E & _). discriminate.
  - split; auto. intros _. do 2 eexists. split; reflexivity.
Qed.

Lemma sumf_app a b f : sumf (a + b) f = (sumf a f + sumf b (fun i => f (a + i)%nat))%R.
Proof. induction b; [rewrite Nat.add_0_r; cbn; lra|]. rewrite Nat.add_succ_r. cbn [sumf]. rewrite IHb. lra. Qed.
Lemma sumf_plus n f g : sumf n (fun i => (f i + g i)%R) = (sumf n f + sumf n g)%R.
Proof. induction n; cbn [sumf]; [lra|]. rewrite IHn. lra. Qed.
(** The scalar product of two embeddings depends only on the displacement. *)
Lemma sincos_dot c t y x y' x' : c mod 4 = 0 ->
  sumf c (fun d => (sincos c t y x d * sincos c t y' x' d)%R) =
  sumf (c / 4) (fun i => (cos (frequency c t i * (INR x - INR x')) + cos (frequency c t i * (INR y - INR y')))%R).
Proof.
  intros M. set (q := c / 4). assert (CQ : c = q + (q + (q + q))) by (unfold q; assert (A := Nat.div_mod_eq c 4); lia).
  destruct (Nat.eq_dec q 0) as [Z|Z]; [rewrite CQ, Z; cbn; lra|]. replace (sumf c) with (sumf (q + (q + (q + q)))) by (f_equal; lia). rewrite !sumf_app, <- !sumf_plus. apply sumf_ext. intros i Hi.
  assert (B : forall k, (k * q + i) / q = k /\ (k * q + i) mod q = i).
  { intros k. split; [symmetry; apply (Nat.div_unique _ _ k i); lia|symmetry; apply (Nat.mod_unique _ _ k i); lia]. }
  unfold sincos. fold q. replace (q + (q + (q + i))) with (3 * q + i) by lia. replace (q + (q + i)) with (2 * q + i) by lia. replace (q + i) with (1 * q + i) by lia.
  rewrite (Nat.div_small i q), (Nat.mod_small i q) by auto. destruct (B 1) as [-> ->], (B 2) as [-> ->], (B 3) as [-> ->].
  replace (frequency c t i * (INR x - INR x'))%R with (INR x * frequency c t i - INR x' * frequency c t i)%R by ring.
  replace (frequency c t i * (INR y - INR y'))%R with (INR y * frequency c t i - INR y' * frequency c t i)%R by ring. rewrite !cos_minus. ring.
Qed.
(** All embeddings have the same norm. *)
Lemma sincos_norm c t y x : c mod 4 = 0 -> sumf c (fun d => (sincos c t y x d * sincos c t y x d)%R) = (INR c / 2)%R.
Proof.
  intros M. rewrite sincos_dot by auto. rewrite !Rminus_diag_eq by auto. assert (X : forall n, sumf n (fun i => (cos (frequency c t i * 0) + cos (frequency c t i * 0))%R) = (2 * INR n)%R).
  { induction n; [cbn; lra|]. cbn [sumf]. rewrite IHn, Rmult_0_r, cos_0, S_INR. lra. }
  rewrite X. rewrite (Nat.div_mod_eq c 4) at 2. rewrite M, Nat.add_0_r, mult_INR. cbn [INR]. lra.
Qed.
Lemma cos_lt_1 a : (0 < a < 6)%R -> (cos a < 1)%R.
Proof.
  intros [A B]. replace a with (2 * (a / 2))%R by lra. rewrite cos_2a_sin. assert (P := PI2_3_2). assert (S := sin_gt_0 (a / 2) ltac:(lra) ltac:(lra)). nra.
Qed.
(** Different places of the grid have different embeddings, unless the grid is much larger than the temperature. *)
Lemma sincos_inj c t h w y x y' x' : c mod 4 = 0 -> 8 <= c -> (0 < t)%R -> (INR h <= 6 * t)%R -> (INR w <= 6 * t)%R ->
  y < h -> x < w -> y' < h -> x' < w -> (forall d, d < c -> sincos c t y x d = sincos c t y' x' d) -> y = y' /\ x = x'.
Proof.
  intros M G T Hh Hw Hy Hx Hy' Hx' EQ. set (q := c / 4). assert (CQ : c = 4 * q) by (unfold q; assert (A := Nat.div_mod_eq c 4); lia).
  assert (FL : frequency c t (q - 1) = (/ t)%R).
  { unfold frequency. fold q. assert (0 < INR (q - 1))%R by (apply (lt_INR 0); lia). replace (- (INR (q - 1) / INR (q - 1)) * ln t)%R with (- ln t)%R by (field; lra). rewrite exp_Ropp, exp_ln; auto. }
  assert (B : forall k, (k * q + (q - 1)) / q = k /\ (k * q + (q - 1)) mod q = q - 1).
  { intros k. split; [symmetry; apply (Nat.div_unique _ _ k (q - 1)); lia|symmetry; apply (Nat.mod_unique _ _ k (q - 1)); lia]. }
  assert (V4 : forall k, k < 4 -> sincos c t y x (k * q + (q - 1)) = sincos c t y' x' (k * q + (q - 1))) by (intros k Hk; apply EQ; nia).
  assert (K0 := V4 0 ltac:(lia)). assert (K1 := V4 1 ltac:(lia)). assert (K2 := V4 2 ltac:(lia)). assert (K3 := V4 3 ltac:(lia)).
  unfold sincos in K0, K1, K2, K3. fold q in K0, K1, K2, K3. destruct (B 0) as [B0 B0'], (B 1) as [B1 B1'], (B 2) as [B2 B2'], (B 3) as [B3 B3'].
  rewrite ?B0, ?B0', FL in K0. rewrite ?B1, ?B1', FL in K1. rewrite ?B2, ?B2', FL in K2. rewrite ?B3, ?B3', FL in K3.
  assert (ONE : forall n a b, a < n -> b < n -> (INR n <= 6 * t)%R -> sin (INR a * / t) = sin (INR b * / t) -> cos (INR a * / t) = cos (INR b * / t) -> ~ a < b).
  { intros n a b Ha Hb Hn S C AB. assert (C1 : cos (INR b * / t - INR a * / t) = 1%R). { rewrite cos_minus, S, C. assert (X := sin2_cos2 (INR b * / t)). unfold Rsqr in X. lra. }
    assert (IT : (0 < / t)%R) by (apply Rinv_0_lt_compat; auto). assert (AB' : (INR a < INR b)%R) by (apply lt_INR; auto). assert (BN : (INR b < INR n)%R) by (apply lt_INR; auto). assert (A0 := pos_INR a).
    assert (X := cos_lt_1 (INR b * / t - INR a * / t)). assert (TT : (t * / t = 1)%R) by (apply Rinv_r; lra). apply Rlt_irrefl with 1%R. rewrite <- C1 at 1. apply X. split; [nra|].
    replace (INR b * / t - INR a * / t)%R with ((INR b - INR a) * / t)%R by ring. apply Rlt_le_trans with ((6 * t) * / t)%R; [|rewrite Rmult_assoc, TT; lra]. apply Rmult_lt_compat_r; auto. lra. }
  split.
  - destruct (lt_eq_lt_dec y y') as [[L|E]|L]; auto; exfalso; [apply (ONE h y y')|apply (ONE h y' y)]; auto.
  - destruct (lt_eq_lt_dec x x') as [[L|E]|L]; auto; exfalso; [apply (ONE w x x')|apply (ONE w x' x)]; auto.
Qed.

(** Images in different batches, when nothing is dropped *)
Lemma mixture_unique E K p m m' : K <= E -> is_mixture E K p m -> is_mixture E K p m' -> m = m'.
Proof.
  intros HK M M'. apply functional_extensionality. intros v. set (ch := fun k => nth k (top_k (sleb Ralg) E K (softmax E (mp_dense p v))) 0).
  assert (B : @best_choices Ralg E K (softmax E (mp_dense p v)) ch) by (apply (best_choices_top_k Ralg_laws); auto). rewrite (M v ch B), (M' v ch B). auto.
Qed.
Lemma vit_no_drop_images {I} D c pe cls nc (p : vit_params I) h w K name cap cf mode mult bp n C images images' out out' i j x :
  1 <= mc_group_size (ec_moe c) -> 1 <= K -> K <= mc_num_experts (ec_moe c) ->
  mc_router (ec_moe c) = TopExpertsPerItem K name cap cf mode mult bp ->
  top_experts_factory (mc_group_size (ec_moe c)) (mc_num_experts (ec_moe c)) K name cap cf mode mult = MoeModel.Ok (n, C) ->
  (Z.of_nat (mc_group_size (ec_moe c)) <= C)%Z ->
  (length images * tokens_per_image cls h w) mod mc_group_size (ec_moe c) = 0 -> (length images' * tokens_per_image cls h w) mod mc_group_size (ec_moe c) = 0 ->
  vit_moe D c pe cls nc p h w images = Ok out -> vit_moe D c pe cls nc p h w images' = Ok out' ->
  nth_error images i = Some x -> nth_error images' j = Some x -> exists y, nth_error out i = Some y /\ nth_error out' j = Some y.
Proof.
  intros HS HK HE HR HF HC M M' O O' N N'.
  assert (NE : images <> []) by (intros ->; destruct i; discriminate). assert (NE' : images' <> []) by (intros ->; destruct j; discriminate).
  destruct (vit_no_drop D c pe cls nc p h w K name cap cf mode mult bp n C images HS HK HE HR HF HC NE M) as (m & Hm & Q).
  destruct (vit_no_drop D c pe cls nc p h w K name cap cf mode mult bp n C images' HS HK HE HR HF HC NE' M') as (m' & Hm' & Q').
  assert (EQ : m' = m).
  { apply functional_extensionality. intros b. specialize (Hm b). specialize (Hm' b). destruct (existsb _ _); [|congruence]. eapply mixture_unique; eauto. }
  subst m'. rewrite O in Q. rewrite O' in Q'. symmetry in Q, Q'.
  assert (T1 : tokens_per_image cls h w mod mc_group_size (ec_moe (without_moe c)) = 0) by (apply Nat.mod_1_r).
  apply (vit_images D (without_moe c)) in Q; [|cbn; lia|cbn; lia|auto|auto]. apply (vit_images D (without_moe c)) in Q'; [|cbn; lia|cbn; lia|auto|auto].
  assert (F : forall (P : I -> V -> Prop) l l' i x, Forall2 P l l' -> nth_error l i = Some x -> exists y, nth_error l' i = Some y /\ P x y).
  { clear. intros P l l' i x HF. revert i. induction HF; intros [|i] E; try discriminate; cbn in *; [injection E as ->; eauto|eauto]. }
  destruct (F _ _ _ _ _ Q N) as (y & Y & PY). destruct (F _ _ _ _ _ Q' N') as (y' & Y' & PY'). cbv beta in PY, PY'. rewrite PY in PY'. injection PY' as <-. eauto.
Qed.
