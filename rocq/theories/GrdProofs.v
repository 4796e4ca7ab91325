(** Proofs for C87: layers. *)
From Coq Require Import List Arith ZArith Bool Reals Lia Lra FunctionalExtensionality.
From Verif Require Import Prim PrimLemmas MoeModel MoeSpec MoeProofs MoeProps SoftModel SoftSpec SoftProofs EnsProofs GrdModel GrdSpec.
Import ListNotations.
Local Open Scope nat_scope.

Lemma pair_fun_eq (a b a' b' : nat -> R) : (forall d, a d = b d) -> (forall d, a' d = b' d) -> (a, a') = (b, b').
Proof. intros H H'. f_equal; apply functional_extensionality; auto. Qed.
Lemma Dalg_laws : alg_laws Dalg.
Proof.
  constructor; cbn.
  - intros a b. destruct (Rle_dec (fst a) (fst b)); auto. destruct (Rle_dec (fst b) (fst a)); auto. lra.
  - intros a b c. destruct (Rle_dec (fst a) (fst b)), (Rle_dec (fst b) (fst c)), (Rle_dec (fst a) (fst c)); intros; auto; try discriminate. lra.
  - intros a b. destruct (Rle_dec (- fst a) (- fst b)), (Rle_dec (fst b) (fst a)); auto; lra.
  - intros [a a']; cbn. f_equal; lra.
  - intros [a a']; cbn. f_equal; lra.
  - intros [x x'] [y y']. apply pair_fun_eq; intros; cbn; lra.
  - intros [x x'] [y y'] [z z']. apply pair_fun_eq; intros; cbn; lra.
  - intros [x x']. apply pair_fun_eq; intros; cbn; lra.
  - intros [x x']. apply pair_fun_eq; intros; cbn; lra.
  - intros [x x']. apply pair_fun_eq; intros; cbn; lra.
  - intros [a a']. apply pair_fun_eq; intros; cbn; lra.
Qed.

Definition prim (x : nat -> R * R) : nat -> R := fun i => fst (x i).
Lemma preferred_D (v : nat -> R * R) i j : preferred (A := Dalg) v i j = preferred (A := Ralg) (prim v) i j.
Proof. reflexivity. Qed.
Lemma best_D n K (v : nat -> R * R) ch : best_choices (A := Ralg) n K (prim v) ch -> best_choices (A := Dalg) n K v ch.
Proof. intros H. exact H. Qed.
Lemma row_max_D n (row : nat -> R * R) : fst (row_max (A := Dalg) n row) = row_max (A := Ralg) n (prim row).
Proof.
  induction n as [|[|n] IH]; [reflexivity|reflexivity|].
  change (fst (if sleb Dalg (row (S n)) (row_max (A := Dalg) (S n) row) then row_max (A := Dalg) (S n) row else row (S n)) =
          if sleb Ralg (prim row (S n)) (row_max (A := Ralg) (S n) (prim row)) then row_max (A := Ralg) (S n) (prim row) else prim row (S n)).
  rewrite <- IH. cbn [sleb Dalg Ralg]. unfold prim. destruct (Rle_dec (fst (row (S n))) (fst (row_max (A := Dalg) (S n) row))); reflexivity.
Qed.
Lemma competitors_D bp Sz E K (gates : nat -> nat -> R * R) ch s k :
  competitors (A := Dalg) bp Sz E K gates ch s k = competitors (A := Ralg) bp Sz E K (fun s => prim (gates s)) ch s k.
Proof.
  unfold competitors. f_equal. apply filter_ext. intros [s' k']. cbn [fst snd]. f_equal. unfold priority. f_equal. f_equal. unfold item_first. destruct bp; auto.
  unfold preferred. cbn [sleb Dalg Ralg]. rewrite !row_max_D. reflexivity.
Qed.
Lemma sum_over_D n (f : nat -> vec Dalg) d : fst (sum_over (A := Dalg) n f) d = sum_to n (fun i => fst (f i) d) /\ snd (sum_over (A := Dalg) n f) d = sum_to n (fun i => snd (f i) d).
Proof. unfold sum_over, sum_to. induction (seq 0 n) as [|i l [I1 I2]]; [split; reflexivity|]. cbn in I1, I2 |- *. rewrite I1, I2. auto. Qed.
Lemma sum_over_R n (f : nat -> vec Ralg) d : sum_over (A := Ralg) n f d = sum_to n (fun i => f i d).
Proof. unfold sum_over, sum_to. induction (seq 0 n) as [|i l I]; [reflexivity|]. cbn in I |- *. rewrite I. auto. Qed.
Lemma sum_to_ext n f g : (forall i, i < n -> f i = g i) -> sum_to n f = sum_to n g.
Proof. intros H. rewrite <- !sumf_to. apply sumf_ext. auto. Qed.

Lemma layer_some (A : alg) (L : alg_laws A) G Sz E K C bp (gates : nat -> nat -> nat -> sc A) f F data :
  1 <= Sz -> 1 <= K -> K <= E -> (forall e buf j, F e buf j = f e (buf j)) ->
  exists o o', einsum_layer G Sz E K C bp gates F data = Some o /\ indices_layer G Sz E K C bp gates F data = Some o' /\
    forall ch, (forall g s, s < Sz -> best_choices E K (gates g s) (ch g s)) ->
    forall g s, g < G -> s < Sz -> o g s = top_experts_output bp Sz E K C (gates g) (ch g) f (data g) s /\ o' g s = top_experts_output bp Sz E K C (gates g) (ch g) f (data g) s.
Proof.
  intros HS HK HE HF. destruct (C06_layer_semantics A L G Sz E K C gates bp HS HK HE) as (d & i & Ed & Ei & H).
  unfold einsum_layer, indices_layer. rewrite Ed, Ei. do 2 eexists. split; [reflexivity|]. split; [reflexivity|]. intros ch B g s Hg Hs. exact (H ch B f F HF data g s Hg Hs).
Qed.
Lemma items_some (A : alg) (L : alg_laws A) G Sz E C (gates : nat -> nat -> nat -> sc A) f F data :
  1 <= E -> C <= Sz -> (forall e buf j, F e buf j = f e (buf j)) ->
  exists o, items_layer G Sz E C gates F data = Some o /\
    forall ch, (forall g e, e < E -> best_choices Sz C (fun s => gates g s e) (ch g e)) ->
    forall g s, g < G -> s < Sz -> o g s = top_items_output E C (gates g) (ch g) f (data g) s.
Proof.
  intros HE HC HF. destruct (proj2 (C07_top_items A L G Sz E C gates HE) HC) as (_ & d & dw & Ed & _ & H).
  unfold items_layer. rewrite Ed. eexists. split; [reflexivity|]. intros ch B g s Hg Hs. exact (proj2 (proj2 (H ch B)) f F HF data g s Hg Hs).
Qed.

(** ** Forward mode *)
Lemma out_D bp Sz E K C (gates : nat -> nat -> R * R) ch f x s d :
  fst (top_experts_output (A := Dalg) bp Sz E K C gates ch f x s) d =
    kept_sum bp Sz E K C (fun s e => fst (gates s e)) ch s (fun e => fst (gates s e) * fst (f e (x s)) d)%R /\
  snd (top_experts_output (A := Dalg) bp Sz E K C gates ch f x s) d =
    kept_sum bp Sz E K C (fun s e => fst (gates s e)) ch s (fun e => snd (gates s e) * fst (f e (x s)) d + fst (gates s e) * snd (f e (x s)) d)%R.
Proof.
  unfold top_experts_output, kept_sum. destruct (sum_over_D K (fun k => if competitors (A := Dalg) bp Sz E K gates ch s k <? C then vscale Dalg (gates s (ch s k)) (f (ch s k) (x s)) else vzero Dalg) d) as [-> ->].
  split; apply sum_to_ext; intros k Hk; rewrite competitors_D; unfold prim; destruct (competitors (A := Ralg) bp Sz E K (fun s0 i => fst (gates s0 i)) ch s k <? C); reflexivity.
Qed.
Lemma jvp_layer G Sz E K C bp (gates : nat -> nat -> nat -> R * R) f F data :
  1 <= Sz -> 1 <= K -> K <= E -> (forall e buf j, F e buf j = f e (buf j)) ->
  exists o o', einsum_layer (A := Dalg) G Sz E K C bp gates F data = Some o /\ indices_layer (A := Dalg) G Sz E K C bp gates F data = Some o' /\
    forall ch, (forall g s, s < Sz -> best_choices (A := Ralg) E K (fun e => fst (gates g s e)) (ch g s)) ->
    forall g s d, g < G -> s < Sz ->
      (fst (o g s) d = kept_sum bp Sz E K C (fun s e => fst (gates g s e)) (ch g) s (fun e => fst (gates g s e) * fst (f e (data g s)) d)%R /\
       snd (o g s) d = kept_sum bp Sz E K C (fun s e => fst (gates g s e)) (ch g) s
         (fun e => snd (gates g s e) * fst (f e (data g s)) d + fst (gates g s e) * snd (f e (data g s)) d)%R) /\
      fst (o' g s) d = fst (o g s) d /\ snd (o' g s) d = snd (o g s) d.
Proof.
  intros HS HK HE HF. destruct (layer_some Dalg Dalg_laws G Sz E K C bp gates f F data HS HK HE HF) as (o & o' & E1 & E2 & H).
  exists o, o'. split; auto. split; auto. intros ch B g s d Hg Hs. destruct (H ch B g s Hg Hs) as [-> ->]. split; [|split; reflexivity]. apply out_D.
Qed.
Lemma jvp_items G Sz E C (gates : nat -> nat -> nat -> R * R) f F data :
  1 <= E -> C <= Sz -> (forall e buf j, F e buf j = f e (buf j)) ->
  exists o, items_layer (A := Dalg) G Sz E C gates F data = Some o /\
    forall ch, (forall g e, e < E -> best_choices (A := Ralg) Sz C (fun s => fst (gates g s e)) (ch g e)) ->
    forall g s d, g < G -> s < Sz ->
      fst (o g s) d = picked_sum E C (ch g) s (fun e => fst (gates g s e) * fst (f e (data g s)) d)%R /\
      snd (o g s) d = picked_sum E C (ch g) s (fun e => snd (gates g s e) * fst (f e (data g s)) d + fst (gates g s e) * snd (f e (data g s)) d)%R.
Proof.
  intros HE HC HF. destruct (items_some Dalg Dalg_laws G Sz E C gates f F data HE HC HF) as (o & E1 & H).
  exists o. split; auto. intros ch B g s d Hg Hs. rewrite (H ch B g s Hg Hs). unfold top_items_output, picked_sum.
  destruct (sum_over_D E (fun e => if existsb (fun c => ch g e c =? s) (seq 0 C) then vscale Dalg (gates g s e) (f e (data g s)) else vzero Dalg) d) as [-> ->].
  split; apply sum_to_ext; intros e He; destruct (existsb _ _); reflexivity.
Qed.

Lemma kept_sum_ext bp Sz E K C gates ch s t t' : (forall e, kept bp Sz E K C gates ch s e -> t e = t' e) -> kept_sum bp Sz E K C gates ch s t = kept_sum bp Sz E K C gates ch s t'.
Proof. intros H. apply sum_to_ext. intros k Hk. destruct (_ <? C) eqn:Q; auto. apply Nat.ltb_lt in Q. apply H. exists k. auto. Qed.
(** Only gates and experts of kept choices matter for the tangent. *)
Lemma jvp_blocked G Sz E K C bp (gates gates' : nat -> nat -> nat -> R * R) f f' F F' data ch g s d :
  1 <= Sz -> 1 <= K -> K <= E -> (forall e buf j, F e buf j = f e (buf j)) -> (forall e buf j, F' e buf j = f' e (buf j)) ->
  (forall g s, s < Sz -> best_choices (A := Ralg) E K (fun e => fst (gates g s e)) (ch g s)) ->
  g < G -> s < Sz ->
  (forall g s e, fst (gates' g s e) = fst (gates g s e)) ->
  (forall e, kept bp Sz E K C (fun s e => fst (gates g s e)) (ch g) s e -> snd (gates' g s e) = snd (gates g s e) /\ f' e (data g s) = f e (data g s)) ->
  exists o o', einsum_layer (A := Dalg) G Sz E K C bp gates F data = Some o /\ einsum_layer (A := Dalg) G Sz E K C bp gates' F' data = Some o' /\
    fst (o' g s) d = fst (o g s) d /\ snd (o' g s) d = snd (o g s) d.
Proof.
  intros HS HK HE HF HF' B Hg Hs P T.
  pose proof (jvp_layer G Sz E K C bp gates f F data HS HK HE HF) as (o & oi & E1 & _ & H1).
  destruct (jvp_layer G Sz E K C bp gates' f' F' data HS HK HE HF') as (o' & oi' & E2 & _ & H2).
  exists o, o'. split; auto. split; auto.
  assert (Q : (fun g s e => fst (gates' g s e)) = (fun g s e => fst (gates g s e))) by (do 3 (apply functional_extensionality; intros); apply P).
  assert (Qs : forall g s, (fun e => fst (gates' g s e)) = (fun e => fst (gates g s e))) by (intros; apply functional_extensionality; intros; apply P).
  assert (Qg : (fun s e => fst (gates' g s e)) = (fun s e => fst (gates g s e))) by (do 2 (apply functional_extensionality; intros); apply P).
  assert (B' : forall g s, s < Sz -> best_choices (A := Ralg) E K (fun e => fst (gates' g s e)) (ch g s)) by (intros g' s' Hs'; rewrite Qs; auto).
  pose proof (H1 ch B g s d Hg Hs) as [[V1 T1] _]. pose proof (H2 ch B' g s d Hg Hs) as [[V2 T2] _]. rewrite V1, V2, T1, T2.
  rewrite Qg. split; apply kept_sum_ext; intros e He; destruct (T e He) as [Ta Tb]; rewrite Tb, ?Ta, !P; reflexivity.
Qed.
