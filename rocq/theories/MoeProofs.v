(** Proofs for MoE routing. *)
From Coq Require Import List Arith ZArith Bool Lia Permutation Sorted QArith Qround ZifyBool ZifyNat.
From Verif Require Import Prim PrimLemmas MoeModel MoeSpec.
Import ListNotations.
Local Open Scope nat_scope.

Ltac Zify.zify_post_hook ::= Z.div_mod_to_equations.

Lemma Zalg_laws : alg_laws Zalg.
Proof.
  split; simpl; intros; try lia.
  destruct x; reflexivity.
Qed.

(* ---------------- sums ---------------- *)
Section Sums.
  Context {A : alg} (L : alg_laws A).
  Let V := vec A.

  Lemma add_zero_l (x : vec A) : vadd A (vzero A) x = x.
  Proof. rewrite (add_comm _ L). apply (add_zero _ L). Qed.

  Lemma vsum_ext n (f g : nat -> V) : (forall i, i < n -> f i = g i) -> vsum A n f = vsum A n g.
  Proof. induction n; simpl; intros H; auto. rewrite IHn, H; auto. Qed.

  Lemma vsum_zero n (f : nat -> V) : (forall i, i < n -> f i = vzero A) -> vsum A n f = vzero A.
  Proof.
    induction n; simpl; intros H; auto. rewrite IHn, H; auto. apply (add_zero _ L).
  Qed.

  Lemma vsum_single n (f : nat -> V) i0 :
    i0 < n -> (forall i, i < n -> i <> i0 -> f i = vzero A) -> vsum A n f = f i0.
  Proof.
    induction n; simpl; intros Hi H; [lia|].
    destruct (Nat.eq_dec i0 n) as [->|Hne].
    - rewrite vsum_zero by (intros; apply H; lia). apply add_zero_l.
    - rewrite IHn by (intros; try apply H; lia).
      rewrite (H n) by lia. apply (add_zero _ L).
  Qed.

  Lemma vsum_add n (f g : nat -> V) :
    vsum A n (fun i => vadd A (f i) (g i)) = vadd A (vsum A n f) (vsum A n g).
  Proof.
    induction n; simpl. symmetry; apply (add_zero _ L).
    rewrite IHn. rewrite <- !(add_assoc _ L). f_equal.
    rewrite !(add_assoc _ L). f_equal. apply (add_comm _ L).
  Qed.

  Lemma vsum_swap n m (f : nat -> nat -> V) :
    vsum A n (fun i => vsum A m (fun j => f i j)) = vsum A m (fun j => vsum A n (fun i => f i j)).
  Proof.
    induction n; simpl.
    - symmetry. apply vsum_zero; auto.
    - rewrite IHn, <- vsum_add. reflexivity.
  Qed.

  Lemma vsum_app n m (f : nat -> V) :
    vsum A (n + m) f = vadd A (vsum A n f) (vsum A m (fun j => f (n + j))).
  Proof.
    induction m; simpl.
    - rewrite Nat.add_0_r. symmetry; apply (add_zero _ L).
    - rewrite Nat.add_succ_r. simpl. rewrite IHm. symmetry. apply (add_assoc _ L).
  Qed.

  Lemma vsum_flat n m (f : nat -> V) :
    vsum A (n * m) f = vsum A n (fun i => vsum A m (fun j => f (i * m + j))).
  Proof.
    induction n; simpl; auto.
    rewrite Nat.add_comm, vsum_app, IHn. reflexivity.
  Qed.

  Lemma sum_over_vsum n (f : nat -> V) : sum_over n f = vsum A n f.
  Proof.
    unfold sum_over.
    assert (G : forall l (a : V), fold_right (fun i acc => vadd A (f i) acc) a l
      = vadd A (fold_right (fun i acc => vadd A (f i) acc) (vzero A) l) a).
    { induction l as [|x l IH]; simpl; intros a. symmetry; apply add_zero_l.
      rewrite (IH a). apply (add_assoc _ L). }
    induction n; auto.
    rewrite seq_S, fold_right_app. cbn [fold_right].
    rewrite G, IHn. simpl. f_equal. apply (add_zero _ L).
  Qed.

  Lemma b2s_scale b (x : V) : vscale A (b2s A b) x = if b then x else vzero A.
  Proof. destruct b; simpl; [apply (scale_one _ L)|apply (scale_zero _ L)]. Qed.

  Lemma b2s_mul a b x : vscale A (smul A a (b2s A b)) x = if b then vscale A a x else vzero A.
  Proof.
    destruct b; simpl. now rewrite (mul_one _ L).
    rewrite (mul_zero _ L). apply (scale_zero _ L).
  Qed.

  (** A sum over cells (e, c) of an indicator "some k < K sits in the cell" becomes a sum
      over k, provided no two k sit in the same cell. *)
  Lemma cells_sum E C K (ce : nat -> nat) (cc : nat -> nat) (X : nat -> nat -> V) :
    (forall k, k < K -> ce k < E) ->
    (forall k k', k < K -> k' < K -> ce k = ce k' -> k = k') ->
    vsum A E (fun e => vsum A C (fun c =>
      if existsb (fun k => (ce k =? e) && (cc k =? c)) (seq 0 K) then X e c else vzero A))
    = vsum A K (fun k => if cc k <? C then X (ce k) (cc k) else vzero A).
  Proof.
    intros Hce Hinj.
    transitivity (vsum A E (fun e => vsum A C (fun c => vsum A K (fun k =>
      if (ce k =? e) && (cc k =? c) then X e c else vzero A)))).
    { apply vsum_ext; intros e He. apply vsum_ext; intros c Hc.
      destruct (existsb _ _) eqn:Ex.
      - apply existsb_exists in Ex. destruct Ex as (k & Hk & Hb). apply in_seq in Hk.
        rewrite (vsum_single K _ k); [now rewrite Hb|lia|].
        intros i Hi Hne. destruct ((ce i =? e) && (cc i =? c)) eqn:Ei; auto.
        exfalso. apply Hne. apply Hinj; lia.
      - symmetry. apply vsum_zero. intros k Hk.
        destruct ((ce k =? e) && (cc k =? c)) eqn:Ei; auto.
        assert (existsb (fun k => (ce k =? e) && (cc k =? c)) (seq 0 K) = true).
        { apply existsb_exists. exists k; split; auto. apply in_seq; lia. }
        congruence. }
    transitivity (vsum A E (fun e => vsum A K (fun k => vsum A C (fun c =>
      if (ce k =? e) && (cc k =? c) then X e c else vzero A)))).
    { apply vsum_ext; intros. apply vsum_swap. }
    rewrite vsum_swap. apply vsum_ext; intros k Hk.
    rewrite (vsum_single E _ (ce k)); [|auto|].
    - destruct (cc k <? C) eqn:Ec.
      + rewrite (vsum_single C _ (cc k)); [|lia|].
        * now rewrite !Nat.eqb_refl.
        * intros i Hi Hne. destruct (cc k =? i) eqn:Ei; [lia|]. now rewrite andb_false_r.
      + apply vsum_zero. intros i Hi. destruct (cc k =? i) eqn:Ei; [lia|].
        now rewrite andb_false_r.
    - intros e He Hne. apply vsum_zero. intros c Hc.
      destruct (ce k =? e) eqn:Ei; [lia|]. reflexivity.
  Qed.
End Sums.

(* ---------------- preference order ---------------- *)
Section Pref.
  Context {A : alg} (L : alg_laws A) (val : nat -> sc A).
  Let cmp i j := sleb A (val j) (val i).

  Lemma cmp_total i j : cmp i j = true \/ cmp j i = true.
  Proof. unfold cmp. destruct (leb_total _ L (val j) (val i)); auto. Qed.
  Lemma cmp_trans i j k : cmp i j = true -> cmp j k = true -> cmp i k = true.
  Proof. unfold cmp. intros. eapply (leb_trans _ L); eauto. Qed.

  Lemma preferred_before i j : preferred val i j = true <-> before cmp i j.
  Proof.
    unfold preferred, before, cmp.
    destruct (leb_total _ L (val i) (val j)) as [H|H]; rewrite ?H; simpl.
    - destruct (sleb A (val j) (val i)); simpl; rewrite ?Nat.ltb_lt; intuition congruence.
    - destruct (sleb A (val i) (val j)); simpl; rewrite ?Nat.ltb_lt; intuition congruence.
  Qed.

  Lemma preferred_irrefl i : preferred val i i = false.
  Proof.
    destruct (preferred val i i) eqn:E; auto. apply preferred_before in E.
    exfalso. eapply before_irrefl; eauto.
  Qed.
  Lemma preferred_trans i j k :
    preferred val i j = true -> preferred val j k = true -> preferred val i k = true.
  Proof.
    rewrite !preferred_before. apply before_trans. exact cmp_trans.
  Qed.
  Lemma preferred_total i j : i <> j -> preferred val i j = true \/ preferred val j i = true.
  Proof. rewrite !preferred_before. apply before_total. exact cmp_total. Qed.
  Lemma preferred_asym i j : preferred val i j = true -> preferred val j i = false.
  Proof.
    intros H. destruct (preferred val j i) eqn:E; auto.
    rewrite <- (preferred_irrefl i). symmetry. eapply preferred_trans; eauto.
  Qed.

  Lemma best_choices_top_k n K :
    K <= n -> best_choices n K val (fun k => nth k (top_k (sleb A) n K val) 0).
  Proof.
    intros HK.
    destruct (sort_firstn cmp cmp_total cmp_trans n K HK) as (H1 & H2 & H3 & H4 & H5).
    change (firstn K (sort_idx cmp n)) with (top_k (sleb A) n K val) in *.
    repeat split.
    - intros k Hk. apply H3. apply nth_In. lia.
    - intros k k' Hlt Hk'. apply preferred_before. apply ssorted_nth; auto. lia.
    - intros i Hi Hni k Hk. apply preferred_before. apply H5; auto.
      + apply nth_In; lia.
      + intros Hin. apply (In_nth _ _ 0) in Hin. destruct Hin as (k0 & Hk0 & Heq).
        apply (Hni k0); auto. lia.
  Qed.

  Lemma best_choices_inj n K ch :
    best_choices n K val ch -> forall k k', k < K -> k' < K -> ch k = ch k' -> k = k'.
  Proof.
    intros (_ & H & _) k k' Hk Hk' He.
    destruct (lt_eq_lt_dec k k') as [[Hl|Hl]|Hl]; auto; exfalso.
    - specialize (H _ _ Hl Hk'). rewrite He, preferred_irrefl in H. discriminate.
    - specialize (H _ _ Hl Hk). rewrite He, preferred_irrefl in H. discriminate.
  Qed.

  (** The specification determines the choices. *)
  Lemma best_choices_unique n K ch ch' :
    best_choices n K val ch -> best_choices n K val ch' ->
    forall k, k < K -> ch k = ch' k.
  Proof.
    intros (A1 & A2 & A3) (B1 & B2 & B3).
    induction k as [k IH] using lt_wf_ind. intros Hk.
    destruct (Nat.eq_dec (ch k) (ch' k)) as [|Hne]; auto. exfalso.
    (* ch k is not among ch' 0..k-1, so either appears later in ch' or not at all *)
    assert (P1 : preferred val (ch' k) (ch k) = true).
    { assert (D : (exists j, j < K /\ ch' j = ch k) \/ (forall j, j < K -> ch' j <> ch k)).
      { clear. induction K as [|m IHm]. right; intros; lia.
        destruct IHm as [(j & Hj & Hje)|Hn]; [left; exists j; split; auto|].
        destruct (Nat.eq_dec (ch' m) (ch k)); [left; exists m; auto|].
        right. intros j Hj. destruct (Nat.eq_dec j m); [subst; auto|apply Hn; lia]. }
      destruct D as [(j & Hj & Hje)|Hn].
      - rewrite <- Hje. apply B2; auto.
        destruct (lt_eq_lt_dec j k) as [[Hl|Hl]|Hl]; auto; exfalso.
        + rewrite <- (IH j Hl Hj) in Hje.
          specialize (A2 _ _ Hl Hk). rewrite Hje, preferred_irrefl in A2. discriminate.
        + subst. congruence.
      - apply B3; auto. }
    assert (P2 : preferred val (ch k) (ch' k) = true).
    { assert (D : (exists j, j < K /\ ch j = ch' k) \/ (forall j, j < K -> ch j <> ch' k)).
      { clear. induction K as [|m IHm]. right; intros; lia.
        destruct IHm as [(j & Hj & Hje)|Hn]; [left; exists j; split; auto|].
        destruct (Nat.eq_dec (ch m) (ch' k)); [left; exists m; auto|].
        right. intros j Hj. destruct (Nat.eq_dec j m); [subst; auto|apply Hn; lia]. }
      destruct D as [(j & Hj & Hje)|Hn].
      - rewrite <- Hje. apply A2; auto.
        destruct (lt_eq_lt_dec j k) as [[Hl|Hl]|Hl]; auto; exfalso.
        + rewrite (IH j Hl Hj) in Hje.
          specialize (B2 _ _ Hl Hk). rewrite Hje, preferred_irrefl in B2. discriminate.
        + subst. congruence.
      - apply A3; auto. }
    rewrite (preferred_asym _ _ P1) in P2. discriminate.
  Qed.
End Pref.

Section RowMax.
  Context {A : alg} (L : alg_laws A).

  Lemma row_max_ge n (row : nat -> sc A) i :
    i < n -> sleb A (row i) (row_max n row) = true.
  Proof.
    induction n as [|n IH]; [lia|]. intros Hi.
    destruct n as [|n].
    - assert (i = 0) by lia. subst. simpl. destruct (leb_total _ L (row 0) (row 0)); auto.
    - cbn [row_max]. fold (@row_max A). change (match n with 0 => row 0 | S _ => _ end) with (row_max (S n) row) in *.
      destruct (sleb A (row (S n)) (row_max (S n) row)) eqn:E.
      + destruct (Nat.eq_dec i (S n)) as [->|]; auto. apply IH; lia.
      + assert (sleb A (row_max (S n) row) (row (S n)) = true)
          by (destruct (leb_total _ L (row_max (S n) row) (row (S n))); congruence).
        destruct (Nat.eq_dec i (S n)) as [->|].
        * destruct (leb_total _ L (row (S n)) (row (S n))); auto.
        * eapply (leb_trans _ L); [apply IH; lia|auto].
  Qed.

  Lemma row_max_attained n (row : nat -> sc A) :
    1 <= n -> exists i, i < n /\ row_max n row = row i.
  Proof.
    induction n as [|n IH]; [lia|]. intros _.
    destruct n as [|n].
    - exists 0; split; auto.
    - destruct (IH ltac:(lia)) as (i & Hi & He).
      cbn [row_max]. change (match n with 0 => row 0 | S _ => _ end) with (row_max (S n) row) in *.
      destruct (sleb A (row (S n)) (row_max (S n) row)).
      + exists i; split; auto.
      + exists (S n); split; auto.
  Qed.

  (** The first choice has the largest gate, up to order-equivalence. *)
  Lemma first_choice_max n K (row : nat -> sc A) ch :
    1 <= K -> best_choices n K row ch ->
    sleb A (row (ch 0)) (row_max n row) = true /\ sleb A (row_max n row) (row (ch 0)) = true.
  Proof.
    intros HK B. pose proof B as (B1 & B2 & B3).
    assert (H0 : ch 0 < n) by (apply B1; lia).
    split. apply row_max_ge; auto.
    destruct (row_max_attained n row ltac:(lia)) as (i & Hi & ->).
    destruct (Nat.eq_dec (ch 0) i) as [->|Hne].
    { destruct (leb_total _ L (row i) (row i)); auto. }
    assert (P : preferred row (ch 0) i = true).
    { assert (D : (exists j, j < K /\ ch j = i) \/ (forall j, j < K -> ch j <> i)).
      { clear. induction K as [|m IHm]. right; intros; lia.
        destruct IHm as [(j & Hj & Hje)|Hn]; [left; exists j; split; auto|].
        destruct (Nat.eq_dec (ch m) i); [left; exists m; auto|].
        right. intros j Hj. destruct (Nat.eq_dec j m); [subst; auto|apply Hn; lia]. }
      destruct D as [(j & Hj & <-)|Hn].
      - apply B2; auto. destruct j; [congruence|lia].
      - apply B3; auto. }
    apply (preferred_before L) in P. destruct P; auto.
  Qed.
End RowMax.

(* ---------------- buffer slots ---------------- *)
Lemma filter_length_perm {T} (P : T -> bool) l l' :
  Permutation l l' -> length (filter P l) = length (filter P l').
Proof.
  induction 1; simpl; auto; try lia.
  - destruct (P x); simpl; lia.
  - destruct (P x), (P y); simpl; lia.
Qed.

Lemma filter_map_length {T U} (P : U -> bool) (f : T -> U) l :
  length (filter P (map f l)) = length (filter (fun x => P (f x)) l).
Proof. induction l; simpl; auto. destruct (P (f a)); simpl; auto. Qed.

Lemma filter_seq_prefix (P : nat -> bool) i n :
  i <= n ->
  length (filter P (seq 0 i)) = length (filter (fun j => P j && (j <? i)) (seq 0 n)).
Proof.
  intros H. replace n with (i + (n - i)) by lia. rewrite seq_app, filter_app, app_length.
  simpl.
  replace (filter (fun j => P j && (j <? i)) (seq i (n - i))) with (@nil nat).
  - simpl. rewrite Nat.add_0_r. f_equal. apply filter_ext_in. intros j Hj.
    apply in_seq in Hj. replace (j <? i) with true by lia. now rewrite andb_true_r.
  - symmetry.
    induction (seq i (n - i)) as [|x l IH] eqn:E; auto.
    assert (F : forall l, Forall (fun j => i <= j) l -> filter (fun j => P j && (j <? i)) l = []).
    { clear. induction l as [|x l IH]; intros F; auto. inversion F; subst. simpl.
      replace (x <? i) with false by lia. rewrite andb_false_r. auto. }
    apply F. rewrite <- E. apply Forall_forall. intros j Hj. apply in_seq in Hj. lia.
Qed.

Lemma slot_count (S K e s k : nat) (index : nat -> nat -> nat) (perm inv : nat -> nat)
  (prec : nat -> nat -> bool) :
  (forall q, q < S -> inv q < S /\ perm (inv q) = q) ->
  (forall p, p < S -> perm p < S) ->
  (forall p q, p < S -> q < S -> prec (perm p) (perm q) = (p <? q)) ->
  s < S -> k < K ->
  length (filter (fun j => index (perm (j mod S)) (j / S) =? e) (seq 0 (k * S + inv s)))
  = length (filter (fun p => (index (fst p) (snd p) =? e) &&
        ((snd p <? k) || ((snd p =? k) && prec (fst p) s)))
      (list_prod (seq 0 S) (seq 0 K))).
Proof.
  intros Hinv Hperm Hprec Hs Hk.
  destruct (Hinv s Hs) as [His Hps].
  rewrite (filter_seq_prefix _ _ (K * S)) by nia.
  set (phi := fun j => (perm (j mod S), j / S)).
  assert (HP : Permutation (map phi (seq 0 (K * S))) (list_prod (seq 0 S) (seq 0 K))).
  { assert (Hlen : length (map phi (seq 0 (K * S))) = length (list_prod (seq 0 S) (seq 0 K)))
      by (rewrite map_length, prod_length, !seq_length; lia).
    assert (Hsub : forall x, In x (list_prod (seq 0 S) (seq 0 K)) -> In x (map phi (seq 0 (K * S)))).
    { intros [a b] Hin. apply in_prod_iff in Hin. destruct Hin as [Ha Hb].
      apply in_seq in Ha. apply in_seq in Hb.
      apply in_map_iff. exists (b * S + inv a).
      destruct (Hinv a ltac:(lia)) as [Hia Hpa].
      destruct (divmod_lin b (inv a) S Hia) as [E1 E2].
      unfold phi. rewrite E1, E2, Hpa. split; auto. apply in_seq. nia. }
    assert (Hnd : NoDup (list_prod (seq 0 S) (seq 0 K))).
    { clear. generalize (seq_NoDup S 0). induction (seq 0 S) as [|a l IH]; simpl; intros H.
      constructor. inversion H; subst.
      assert (forall l1 l2 : list (nat * nat), NoDup l1 -> NoDup l2 ->
         (forall x, In x l1 -> ~ In x l2) -> NoDup (l1 ++ l2)).
      { induction l1; simpl; intros; auto. inversion H0; subst. constructor.
        - intros Hin. apply in_app_or in Hin. destruct Hin; auto. eapply H4; eauto.
        - apply IHl1; auto. }
      apply H0; auto.
      - apply FinFun.Injective_map_NoDup. intros x y Hxy; congruence. apply seq_NoDup.
      - intros [x y] H4 H5. apply in_map_iff in H4. destruct H4 as (z & Hz & _).
        apply in_prod_iff in H5. inversion Hz; subst. tauto. }
    symmetry. apply NoDup_Permutation_bis; auto. lia. }
  rewrite <- (filter_length_perm _ _ _ HP), filter_map_length.
  f_equal. apply filter_ext_in. intros j Hj. apply in_seq in Hj.
  unfold phi; simpl. f_equal.
  assert (HS : S <> 0) by lia.
  pose proof (Nat.mod_upper_bound j S HS) as Hm.
  pose proof (Nat.div_mod j S HS) as Hd.
  replace (prec (perm (j mod S)) s) with (j mod S <? inv s)
    by (rewrite <- Hps at 2; symmetry; apply Hprec; auto).
  set (q := j / S) in *. set (r := j mod S) in *. clearbody q r. subst j.
  rewrite (Nat.mul_comm k S).
  destruct (lt_eq_lt_dec q k) as [[Hq|Hq]|Hq].
  - replace (q <? k) with true by lia. simpl.
    assert (S * q + S <= S * k) by nia. lia.
  - subst q. replace (k <? k) with false by lia. rewrite Nat.eqb_refl. simpl. generalize (S * k). intros; lia.
  - replace (q <? k) with false by lia. replace (q =? k) with false by lia. simpl.
    assert (S * k + S <= S * q) by nia. lia.
Qed.

Lemma preferred_equiv {A} (L : alg_laws A) (v v' : nat -> sc A) i j :
  sleb A (v i) (v' i) = true -> sleb A (v' i) (v i) = true ->
  sleb A (v j) (v' j) = true -> sleb A (v' j) (v j) = true ->
  preferred v i j = preferred v' i j.
Proof.
  intros H1 H2 H3 H4. unfold preferred.
  assert (E1 : sleb A (v i) (v j) = sleb A (v' i) (v' j)).
  { apply eq_true_iff_eq. split; intros H.
    - eapply (leb_trans _ L); [exact H2|]. eapply (leb_trans _ L); [exact H|exact H3].
    - eapply (leb_trans _ L); [exact H1|]. eapply (leb_trans _ L); [exact H|exact H4]. }
  assert (E2 : sleb A (v j) (v i) = sleb A (v' j) (v' i)).
  { apply eq_true_iff_eq. split; intros H.
    - eapply (leb_trans _ L); [exact H4|]. eapply (leb_trans _ L); [exact H|exact H1].
    - eapply (leb_trans _ L); [exact H3|]. eapply (leb_trans _ L); [exact H|exact H2]. }
  rewrite E1, E2. reflexivity.
Qed.

Lemma competitors_ext {A : alg} bp S E K (gates : nat -> nat -> sc A) ch ch' s k :
  (forall s k, s < S -> k < K -> ch s k = ch' s k) -> s < S -> k < K ->
  competitors bp S E K gates ch s k = competitors bp S E K gates ch' s k.
Proof.
  intros H Hs Hk. unfold competitors. f_equal. apply filter_ext_in.
  intros [a b] Hin. apply in_prod_iff in Hin. destruct Hin as [Ha Hb].
  apply in_seq in Ha. apply in_seq in Hb. simpl. rewrite !H by lia. reflexivity.
Qed.

Section Common.
  Context {A : alg} (L : alg_laws A).
  Variables (S E K : nat) (gates : nat -> nat -> sc A) (bp : bool).
  Hypotheses (HS : 1 <= S) (HK : 1 <= K) (HE : K <= E).

  Let index0 := fun s k => nth k (top_k (sleb A) E K (gates s)) 0.

  Lemma index0_best s : best_choices E K (gates s) (index0 s).
  Proof. apply (best_choices_top_k L); auto. Qed.

  Let permL := argsort (sleb A) S (fun s => sneg A (gates s (index0 s 0))).

  Lemma permL_perm : Permutation (seq 0 S) permL.
  Proof. apply sort_idx_perm. Qed.

  Let perm := if bp then fun p => nth p permL 0 else fun p => p.
  Let inv := if bp then fun s => nth s (argsort Nat.leb S (fun p => nth p permL 0)) 0
             else fun s => s.

  Lemma inv_ok q : q < S -> inv q < S /\ perm (inv q) = q.
  Proof.
    intros Hq. unfold inv, perm. destruct bp; auto.
    apply (argsort_inverse S permL permL_perm q Hq).
  Qed.

  Lemma perm_ok p : p < S -> perm p < S.
  Proof.
    intros Hp. unfold perm. destruct bp; auto.
    assert (In (nth p permL 0) permL).
    { apply nth_In. rewrite <- (Permutation_length permL_perm), seq_length. auto. }
    eapply Permutation_in in H; [|apply Permutation_sym, permL_perm]. apply in_seq in H. lia.
  Qed.

  Lemma prec_ok p q : p < S -> q < S ->
    item_first bp E gates (perm p) (perm q) = (p <? q).
  Proof.
    intros Hp Hq. unfold item_first. pose proof (perm_ok p Hp) as Hpp.
    pose proof (perm_ok q Hq) as Hqq.
    unfold perm in *. destruct bp; auto.
    rewrite (preferred_equiv L _ (fun s => gates s (index0 s 0)));
      try (apply (first_choice_max L E K); auto; apply index0_best).
    apply eq_true_iff_eq. rewrite (preferred_before L), Nat.ltb_lt.
    set (cmp := fun i j => sleb A (gates j (index0 j 0)) (gates i (index0 i 0))).
    assert (Hc : permL = sort_idx cmp S).
    { unfold permL, argsort.
      enough (G : forall (c1 c2 : nat -> nat -> bool), (forall i j, c1 i j = c2 i j) ->
        forall l, fold_right (insert_idx c1) [] l = fold_right (insert_idx c2) [] l).
      { apply G. intros i j. apply (neg_leb _ L). }
      intros c1 c2 Hc. induction l; simpl; auto. rewrite IHl.
      generalize (fold_right (insert_idx c2) [] l). clear - Hc.
      induction l; simpl; auto. rewrite Hc, IHl. reflexivity. }
    rewrite Hc. symmetry. apply sort_nth_before; auto; unfold cmp.
    - intros i j. destruct (leb_total _ L (gates j (index0 j 0)) (gates i (index0 i 0))); auto.
    - intros i j k H1 H2. eapply (leb_trans _ L); eauto.
  Qed.

  Lemma common_correct :
    exists t, top_experts_common S E K gates bp = Some t /\
      forall ch, (forall s, s < S -> best_choices E K (gates s) (ch s)) ->
      forall s k, s < S -> k < K ->
        te_expert t s k = ch s k /\ te_combine t s k = gates s (ch s k) /\
        forall e, te_buffer t s k e =
          if e =? ch s k then Z.of_nat (competitors bp S E K gates ch s k) else (-1)%Z.
  Proof.
    unfold top_experts_common.
    replace (K =? 0) with false by lia. replace (S =? 0) with false by lia.
    replace (E <? K) with false by lia. cbn [orb].
    eexists. split; [reflexivity|].
    intros ch Hch.
    assert (Hci : forall s k, s < S -> k < K -> ch s k = index0 s k).
    { intros s k Hs Hk. eapply (best_choices_unique L); eauto. apply index0_best. }
    intros s k Hs Hk. rewrite (Hci s k) by auto.
    rewrite (competitors_ext bp S E K gates ch index0) by auto.
    destruct (inv_ok s Hs) as [Hi1 Hi2].
    destruct (divmod_lin k (inv s) S Hi1) as [Ed Em].
    (* common form of both branches *)
    set (flat := fun i => index0 (perm (i mod S)) (i / S)).
    assert (Hflat : flat (k * S + inv s) = index0 s k)
      by (unfold flat; rewrite Ed, Em, Hi2; reflexivity).
    assert (Hbuf : forall e,
      (cumsum (fun j => one_hot (flat j) e) (k * S + inv s)
        * one_hot (flat (k * S + inv s)%nat) e - 1)%Z
      = if e =? index0 s k then Z.of_nat (competitors bp S E K gates index0 s k) else (-1)%Z).
    { intros e. rewrite Hflat. unfold one_hot at 2. rewrite (Nat.eqb_sym e).
      destruct (index0 s k =? e) eqn:Ee; [|lia].
      rewrite cumsum_count, seq_S, filter_app, app_length. cbn [filter plus].
      rewrite Hflat, Ee. cbn [length].
      apply Nat.eqb_eq in Ee. unfold competitors. rewrite Ee.
      unfold flat.
      rewrite (slot_count S K e s k index0 perm inv (item_first bp E gates)); auto.
      - unfold priority. lia.
      - apply inv_ok.
      - apply perm_ok.
      - apply prec_ok. }
    unfold flat, perm, inv in *. clear - Hflat Hbuf.
    destruct bp; cbn [te_expert te_combine te_buffer]; repeat split; auto.
  Qed.
End Common.

Lemma common_fails {A : alg} S E K (gates : nat -> nat -> sc A) bp :
  E < K -> top_experts_common S E K gates bp = None.
Proof.
  intros H. unfold top_experts_common. replace (E <? K) with true by lia.
  now rewrite orb_true_r.
Qed.

(* ---------------- competitors: injectivity, no holes ---------------- *)
Section Slots.
  Context {A : alg} (L : alg_laws A).
  Variables (bp : bool) (S E K : nat) (gates : nat -> nat -> sc A) (ch : nat -> nat -> nat).

  Lemma item_first_irrefl s : item_first bp E gates s s = false.
  Proof. unfold item_first. destruct bp. apply (preferred_irrefl L). apply Nat.ltb_irrefl. Qed.
  Lemma item_first_trans a b c :
    item_first bp E gates a b = true -> item_first bp E gates b c = true ->
    item_first bp E gates a c = true.
  Proof. unfold item_first. destruct bp. apply (preferred_trans L). rewrite !Nat.ltb_lt. lia. Qed.
  Lemma item_first_total a b :
    a <> b -> item_first bp E gates a b = true \/ item_first bp E gates b a = true.
  Proof. unfold item_first. destruct bp. apply (preferred_total L). rewrite !Nat.ltb_lt. lia. Qed.

  Lemma priority_irrefl s k : priority bp E gates s k s k = false.
  Proof.
    unfold priority. rewrite item_first_irrefl, Nat.ltb_irrefl, andb_false_r. reflexivity.
  Qed.
  Lemma priority_trans a b c d e f :
    priority bp E gates a b c d = true -> priority bp E gates c d e f = true ->
    priority bp E gates a b e f = true.
  Proof.
    unfold priority. rewrite !orb_true_iff, !andb_true_iff, !Nat.ltb_lt, !Nat.eqb_eq.
    intros [H1|[H1 H2]] [H3|[H3 H4]]; try (left; lia).
    right; split; [lia|]. eapply item_first_trans; eauto.
  Qed.
  Lemma priority_total a b c d : (a, b) <> (c, d) ->
    priority bp E gates a b c d = true \/ priority bp E gates c d a b = true.
  Proof.
    intros H. unfold priority. rewrite !orb_true_iff, !andb_true_iff, !Nat.ltb_lt, !Nat.eqb_eq.
    destruct (lt_eq_lt_dec b d) as [[|Hbd]|]; [auto| |auto].
    assert (a <> c) by congruence.
    destruct (item_first_total a c); auto.
  Qed.

  Let pairs := list_prod (seq 0 S) (seq 0 K).

  Lemma in_pairs s k : In (s, k) pairs <-> s < S /\ k < K.
  Proof. unfold pairs. rewrite in_prod_iff, !in_seq. lia. Qed.

  Lemma count_lt {T} (P Q : T -> bool) l x :
    (forall y, P y = true -> Q y = true) -> In x l -> P x = false -> Q x = true ->
    length (filter P l) < length (filter Q l).
  Proof.
    intros HPQ. induction l as [|y l IH]; simpl; [tauto|].
    assert (Hle : length (filter P l) <= length (filter Q l)).
    { clear IH. induction l as [|z l IH]; simpl; auto.
      destruct (P z) eqn:Ez. rewrite (HPQ _ Ez). simpl; lia.
      destruct (Q z); simpl; lia. }
    intros [->|Hin] Hp Hq.
    - rewrite Hp, Hq. simpl. lia.
    - specialize (IH Hin Hp Hq). destruct (P y) eqn:Ey.
      + rewrite (HPQ _ Ey). simpl. lia.
      + destruct (Q y); simpl; lia.
  Qed.

  Lemma competitors_mono s k s' k' :
    s < S -> k < K -> ch s k = ch s' k' -> priority bp E gates s k s' k' = true ->
    competitors bp S E K gates ch s k < competitors bp S E K gates ch s' k'.
  Proof.
    intros Hs Hk Hc Hp. unfold competitors. apply count_lt with (x := (s, k)).
    - intros [a b]; simpl. rewrite !andb_true_iff. intros [H1 H2]. split.
      rewrite <- Hc; auto. eapply priority_trans; eauto.
    - apply in_pairs; auto.
    - simpl. now rewrite priority_irrefl, andb_false_r.
    - simpl. rewrite Hc, Nat.eqb_refl. auto.
  Qed.

  Lemma competitors_inj s k s' k' :
    s < S -> k < K -> s' < S -> k' < K -> ch s k = ch s' k' ->
    competitors bp S E K gates ch s k = competitors bp S E K gates ch s' k' ->
    s = s' /\ k = k'.
  Proof.
    intros Hs Hk Hs' Hk' Hc He.
    destruct (Nat.eq_dec s s') as [|Hne1], (Nat.eq_dec k k') as [|Hne2]; auto;
    (destruct (priority_total s k s' k') as [H|H]; [congruence| |];
      [pose proof (competitors_mono s k s' k' Hs Hk Hc H)
      |pose proof (competitors_mono s' k' s k Hs' Hk' (eq_sym Hc) H)]; lia).
  Qed.

  (** Slots below an occupied slot are occupied. *)
  Lemma competitors_no_holes s k n :
    s < S -> k < K -> n < competitors bp S E K gates ch s k ->
    exists s' k', s' < S /\ k' < K /\ ch s' k' = ch s k /\
      priority bp E gates s' k' s k = true /\
      competitors bp S E K gates ch s' k' = n.
  Proof.
    intros Hs Hk.
    (* strong induction on the number of competitors: take the lowest-priority competitor *)
    remember (competitors bp S E K gates ch s k) as m eqn:Hm.
    revert s k Hs Hk Hm. induction m as [m IH] using lt_wf_ind.
    intros s k Hs Hk Hm Hn.
    set (comp := filter (fun p => (ch (fst p) (snd p) =? ch s k)
                  && priority bp E gates (fst p) (snd p) s k) pairs).
    assert (Hcl : length comp = m) by (symmetry; exact Hm).
    (* the maximal element of comp *)
    assert (Hmax : forall l : list (nat * nat), l <> [] -> exists x, In x l /\
      forall y, In y l -> y <> x -> priority bp E gates (fst y) (snd y) (fst x) (snd x) = true).
    { induction l as [|x l IHl]; [congruence|]. intros _.
      destruct l as [|y l].
      - exists x. split; [left; auto|]. intros y [->|[]]; congruence.
      - destruct IHl as (z & Hz & Hmz); [congruence|].
        destruct (list_eq_dec Nat.eq_dec [fst x; snd x] [fst z; snd z]) as [He|Hne].
        + exists z. split; [right; auto|]. intros w [->|Hw] Hwz.
          * exfalso. apply Hwz. destruct w, z; simpl in He. congruence.
          * auto.
        + destruct (priority_total (fst x) (snd x) (fst z) (snd z)) as [H|H].
          { intros Heq. apply Hne. congruence. }
          * exists z. split; [right; auto|]. intros w [->|Hw] Hwz; auto.
          * exists x. split; [left; auto|]. intros w [->|Hw] Hwx; [congruence|].
            destruct (list_eq_dec Nat.eq_dec [fst w; snd w] [fst z; snd z]) as [He|Hne'].
            { assert (w = z) by (destruct w, z; simpl in He; congruence). subst. auto. }
            eapply priority_trans; [|exact H]. apply Hmz; auto. congruence. }
    destruct (Hmax comp) as ([s1 k1] & Hin & Hmx).
    { intros Hnil. rewrite Hnil in Hcl. simpl in Hcl. lia. }
    apply filter_In in Hin. destruct Hin as [Hin Hb]. apply in_pairs in Hin.
    simpl in Hb. apply andb_true_iff in Hb. destruct Hb as [Hb1 Hb2].
    apply Nat.eqb_eq in Hb1. destruct Hin as [Hs1 Hk1].
    assert (H1 : competitors bp S E K gates ch s1 k1 = m - 1).
    { assert (Hlt : competitors bp S E K gates ch s1 k1 < m)
        by (rewrite Hm; apply competitors_mono; auto).
      assert (Hge : m <= Datatypes.S (competitors bp S E K gates ch s1 k1)).
      { rewrite <- Hcl. unfold competitors, comp. fold pairs.
        assert (Hnd : NoDup pairs).
        { unfold pairs. clear. generalize (seq_NoDup S 0).
          induction (seq 0 S) as [|a l IHl]; simpl; intros H. constructor. inversion H; subst.
          assert (G : forall l1 l2 : list (nat * nat), NoDup l1 -> NoDup l2 ->
             (forall x, In x l1 -> ~ In x l2) -> NoDup (l1 ++ l2)).
          { induction l1; simpl; intros; auto. inversion H0; subst. constructor.
            - intros Hin. apply in_app_or in Hin. destruct Hin; auto. eapply H4; eauto.
            - apply IHl1; auto. }
          apply G; auto.
          - apply FinFun.Injective_map_NoDup. intros x y Hxy; congruence. apply seq_NoDup.
          - intros [x y] H4 H5. apply in_map_iff in H4. destruct H4 as (z & Hz & _).
            apply in_prod_iff in H5. inversion Hz; subst. tauto. }
        set (f1 := filter (fun p => (ch (fst p) (snd p) =? ch s1 k1)
                  && priority bp E gates (fst p) (snd p) s1 k1) pairs).
        change (length comp <= length ((s1, k1) :: f1)).
        apply NoDup_incl_length. { apply NoDup_filter; auto. }
        intros [a b] Hab. destruct (list_eq_dec Nat.eq_dec [a; b] [s1; k1]) as [He|Hne].
        - left. congruence.
        - right. unfold f1. pose proof Hab as Hab'.
          apply filter_In in Hab. destruct Hab as [Hab1 Hab2].
          apply andb_true_iff in Hab2. destruct Hab2 as [Hab2 _]. simpl in Hab2.
          apply filter_In. split; auto. simpl. rewrite Hb1, Hab2. simpl.
          apply (Hmx (a, b)); auto. congruence. }
      lia. }
    destruct (Nat.eq_dec n (m - 1)) as [->|Hne].
    - exists s1, k1. auto.
    - destruct (IH (m - 1) ltac:(lia) s1 k1 Hs1 Hk1 (eq_sym H1) ltac:(lia))
        as (s' & k' & X1 & X2 & X3 & X4 & X5).
      exists s', k'. repeat split; auto. congruence. eapply priority_trans; eauto.
  Qed.
End Slots.

(* ---------------- dispatcher weights ---------------- *)
Section Weights.
  Context {A : alg} (L : alg_laws A).
  Variables (S E K C : nat) (gates : nat -> nat -> sc A) (bp : bool).
  Hypotheses (HS : 1 <= S) (HK : 1 <= K) (HE : K <= E).

  Lemma einsum_weights :
    exists dw cw, top_experts_einsum S E K C gates bp = Some (dw, cw) /\
      forall ch, (forall s, s < S -> best_choices E K (gates s) (ch s)) ->
      forall s e c, s < S ->
        dw s e c = b2s A (existsb (fun k => (ch s k =? e)
                     && (competitors bp S E K gates ch s k =? c)) (seq 0 K)) /\
        cw s e c = smul A (gates s e) (dw s e c).
  Proof.
    destruct (common_correct L S E K gates bp HS HK HE) as (t & Ht & Hspec).
    unfold top_experts_einsum. rewrite Ht. do 2 eexists. split; [reflexivity|].
    intros ch Hch s e c Hs. split; [|reflexivity].
    f_equal. apply eq_true_iff_eq. rewrite Z.eqb_eq, existsb_exists.
    destruct (zmax_spec K (fun k => te_buffer t s k e) HK) as [(i & Hi & Hmax) Hge].
    assert (Hb : forall k, k < K -> te_buffer t s k e =
      if e =? ch s k then Z.of_nat (competitors bp S E K gates ch s k) else (-1)%Z).
    { intros k Hk. destruct (Hspec ch Hch s k Hs Hk) as (_ & _ & H). apply H. }
    split.
    - intros H. rewrite Hmax, Hb in H by auto.
      destruct (e =? ch s i) eqn:Ei; [|lia].
      exists i. split. apply in_seq; lia. apply andb_true_iff. lia.
    - intros (k & Hk & Hkb). apply in_seq in Hk. apply andb_true_iff in Hkb.
      destruct Hkb as [H1 H2]. apply Nat.eqb_eq in H1. apply Nat.eqb_eq in H2.
      specialize (Hge k ltac:(lia)). simpl in Hge. rewrite Hb in Hge by lia.
      rewrite H1, Nat.eqb_refl in Hge.
      rewrite Hb in Hmax by auto.
      destruct (e =? ch s i) eqn:Ei; [|lia].
      apply Nat.eqb_eq in Ei.
      assert (k = i).
      { apply (best_choices_inj L (gates s) E K (ch s) (Hch s Hs)); try lia. }
      subst. lia.
  Qed.

  Lemma indices_weights :
    exists ie ib w, top_experts_indices S E K gates bp = Some (ie, ib, w) /\
      forall ch, (forall s, s < S -> best_choices E K (gates s) (ch s)) ->
      forall s k, s < S -> k < K ->
        ie s k = ch s k /\ ib s k = Z.of_nat (competitors bp S E K gates ch s k) /\
        w s k = gates s (ch s k).
  Proof.
    destruct (common_correct L S E K gates bp HS HK HE) as (t & Ht & Hspec).
    unfold top_experts_indices. rewrite Ht. do 3 eexists. split; [reflexivity|].
    intros ch Hch s k Hs Hk.
    destruct (Hspec ch Hch s k Hs Hk) as (H1 & H2 & H3). repeat split; auto.
    destruct (zmax_spec E (fun e => te_buffer t s k e) ltac:(lia)) as [(i & Hi & Hmax) Hge].
    destruct (Hch s Hs) as (Hr & _ & _). specialize (Hr k Hk).
    specialize (Hge (ch s k) Hr). simpl in Hge. rewrite H3, Nat.eqb_refl in Hge.
    rewrite Hmax, H3 in *. destruct (i =? ch s k); lia.
  Qed.
End Weights.

(* ---------------- reordering ---------------- *)
(** Position of group [g] in an expert's buffer. *)
Definition a2a_pos (G E g : nat) : nat :=
  if G mod E =? 0 then (g mod (G / E)) * E + g / (G / E) else g.
Definition a2a_inv (G E j : nat) : nat :=
  if G mod E =? 0 then (j mod E) * (G / E) + j / E else j.

Lemma a2a_div (G E : nat) : 1 <= E -> G mod E = 0 -> G = E * (G / E).
Proof. intros HE H. pose proof (Nat.div_mod G E ltac:(lia)). lia. Qed.

Lemma a2a_pos_inv G E g : 1 <= E -> g < G -> a2a_pos G E g < G /\ a2a_inv G E (a2a_pos G E g) = g.
Proof.
  intros HE Hg. unfold a2a_pos, a2a_inv. destruct (G mod E =? 0) eqn:Eq; [|auto].
  apply Nat.eqb_eq in Eq. pose proof (a2a_div G E HE Eq) as HG.
  set (q := G / E) in *. assert (Hq : q <> 0) by (intros ->; lia).
  pose proof (Nat.mod_upper_bound g q Hq). pose proof (Nat.div_mod g q Hq).
  assert (g / q < E) by (apply Nat.div_lt_upper_bound; lia).
  destruct (divmod_lin (g mod q) (g / q) E ltac:(auto)) as [E1 E2].
  rewrite E1, E2. split; nia.
Qed.

Lemma a2a_inv_pos G E j : 1 <= E -> j < G -> a2a_inv G E j < G /\ a2a_pos G E (a2a_inv G E j) = j.
Proof.
  intros HE Hj. unfold a2a_pos, a2a_inv. destruct (G mod E =? 0) eqn:Eq; [|auto].
  apply Nat.eqb_eq in Eq. pose proof (a2a_div G E HE Eq) as HG.
  set (q := G / E) in *. assert (Hq : q <> 0) by (intros ->; lia).
  pose proof (Nat.mod_upper_bound j E ltac:(lia)). pose proof (Nat.div_mod j E ltac:(lia)).
  assert (j / E < q) by (apply Nat.div_lt_upper_bound; lia).
  destruct (divmod_lin (j mod E) (j / E) q ltac:(auto)) as [E1 E2].
  rewrite E1, E2. split; nia.
Qed.

Lemma dispatch_at {T} G E C (f : nat -> nat -> nat -> T) g e c :
  1 <= E -> g < G -> e < E -> c < C ->
  dispatch_a2a G E C f e (a2a_pos G E g * C + c) = f g e c.
Proof.
  intros HE Hg He Hc. unfold dispatch_a2a, a2a_pos, unravel2.
  destruct (G mod E =? 0) eqn:Eq.
  - apply Nat.eqb_eq in Eq. pose proof (a2a_div G E HE Eq) as HG.
    set (q := G / E) in *. assert (Hq : q <> 0) by (intros ->; lia).
    pose proof (Nat.mod_upper_bound g q Hq) as Hm. pose proof (Nat.div_mod g q Hq) as Hd.
    assert (g / q < E) by (apply Nat.div_lt_upper_bound; lia).
    set (a := g / q) in *. set (b := g mod q) in *.
    replace (e * (G * C) + ((b * E + a) * C + c))
      with (((e * q + b) * E + a) * C + c) by (rewrite HG; ring).
    rewrite ravel4_at by auto. unfold swap02, unravel4.
    rewrite ravel3_at by auto. f_equal. lia.
  - replace (e * (G * C) + (g * C + c)) with ((e * G + g) * C + c) by ring.
    rewrite ravel3_at by auto. reflexivity.
Qed.

Lemma receive_at {T} G E C (h : nat -> nat -> T) g e c :
  1 <= E -> g < G -> e < E -> c < C ->
  receive_a2a E G (G * C) h g e c = h e (a2a_pos G E g * C + c).
Proof.
  intros HE Hg He Hc. unfold receive_a2a, a2a_pos.
  replace (G * C / G) with C by (rewrite Nat.mul_comm, Nat.div_mul; lia).
  destruct (G mod E =? 0) eqn:Eq.
  - apply Nat.eqb_eq in Eq. pose proof (a2a_div G E HE Eq) as HG.
    set (q := G / E) in *. assert (Hq : q <> 0) by (intros ->; lia).
    pose proof (Nat.mod_upper_bound g q Hq) as Hm. pose proof (Nat.div_mod g q Hq) as Hd.
    assert (g / q < E) by (apply Nat.div_lt_upper_bound; lia).
    set (a := g / q) in *. set (b := g mod q) in *.
    unfold unravel3.
    replace ((g * E + e) * C + c) with (((a * q + b) * E + e) * C + c) by (rewrite Hd; ring).
    rewrite ravel4_at by auto. unfold swap02, unravel4.
    replace (((e * q + b) * E + a) * C + c)
      with (e * (G * C) + ((b * E + a) * C + c)) by (rewrite HG; ring).
    apply ravel2_at. assert (b * E + a < G) by nia. nia.
  - unfold swap01, unravel3.
    replace ((e * G + g) * C + c) with (e * (G * C) + (g * C + c)) by ring.
    apply ravel2_at. nia.
Qed.

Lemma a2a_cell G E C j : 1 <= E -> j < G * C ->
  exists g c, g < G /\ c < C /\ j = a2a_pos G E g * C + c.
Proof.
  intros HE Hj. assert (HC : C <> 0) by lia.
  pose proof (Nat.div_mod j C HC) as Hd. pose proof (Nat.mod_upper_bound j C HC).
  assert (j / C < G) by (apply Nat.div_lt_upper_bound; lia).
  destruct (a2a_inv_pos G E (j / C) HE ltac:(auto)) as [H1 H2].
  exists (a2a_inv G E (j / C)), (j mod C). rewrite H2. repeat split; auto. lia.
Qed.

(* ---------------- layer semantics ---------------- *)
Lemma top_experts_einsum_none {A : alg} S E K C (g g' : nat -> nat -> sc A) bp :
  top_experts_einsum S E K C g bp = None -> top_experts_einsum S E K C g' bp = None.
Proof.
  unfold top_experts_einsum, top_experts_common.
  destruct ((K =? 0) || (S =? 0) || (E <? K)); auto. discriminate.
Qed.

Section Layer.
  Context {A : alg} (L : alg_laws A).
  Variables (G S E K C : nat) (gates : nat -> nat -> nat -> sc A) (bp : bool).
  Hypotheses (HS : 1 <= S) (HK : 1 <= K) (HE : K <= E).

  Definition slot_of (ch : nat -> nat -> nat -> nat) g s k :=
    competitors bp S E K (gates g) (ch g) s k.

  Lemma einsum_dispatcher_spec :
    exists d, einsum_dispatcher_of S E K C gates bp = Some d /\
      exists dw, ed_dispatch d = Some dw /\
      forall ch, (forall g s, s < S -> best_choices E K (gates g s) (ch g s)) ->
      forall g s e c, s < S ->
        dw g s e c = b2s A (existsb (fun k => (ch g s k =? e) && (slot_of ch g s k =? c))
                             (seq 0 K)) /\
        ed_combine d g s e c = smul A (gates g s e) (dw g s e c).
  Proof.
    unfold einsum_dispatcher_of.
    destruct (einsum_weights L S E K C (gates 0) bp HS HK HE) as (dw0 & cw0 & H0 & _).
    rewrite H0. eexists. split; [reflexivity|]. eexists. split; [reflexivity|].
    intros ch Hch g s e c Hs. cbn [ed_combine].
    destruct (einsum_weights L S E K C (gates g) bp HS HK HE) as (dw & cw & Hg & Hw).
    rewrite Hg. cbn [fst snd]. apply (Hw (ch g)); auto.
  Qed.

  Lemma indices_dispatcher_spec :
    exists d, indices_dispatcher_of S E K gates bp = Some d /\
      forall ch, (forall g s, s < S -> best_choices E K (gates g s) (ch g s)) ->
      forall g s k, s < S -> k < K ->
        id_expert d g s k = ch g s k /\ id_buffer d g s k = Z.of_nat (slot_of ch g s k) /\
        id_combine d g s k = gates g s (ch g s k).
  Proof.
    unfold indices_dispatcher_of.
    destruct (indices_weights L S E K (gates 0) bp HS HK HE) as (x0 & y0 & z0 & H0 & _).
    rewrite H0. eexists. split; [reflexivity|].
    intros ch Hch g s k Hs Hk. cbn [id_expert id_buffer id_combine].
    destruct (indices_weights L S E K (gates g) bp HS HK HE) as (x & y & z & Hg & Hw).
    rewrite Hg. cbn [fst snd]. apply (Hw (ch g)); auto.
  Qed.

  Lemma choices_exist :
    exists ch, forall g s, s < S -> best_choices E K (gates g s) (ch g s).
  Proof.
    exists (fun g s k => nth k (top_k (sleb A) E K (gates g s)) 0).
    intros. apply (best_choices_top_k L); auto.
  Qed.

  Variable ch : nat -> nat -> nat -> nat.
  Hypothesis Hch : forall g s, s < S -> best_choices E K (gates g s) (ch g s).

  Lemma ch_inj g s k k' : s < S -> k < K -> k' < K -> ch g s k = ch g s k' -> k = k'.
  Proof. intros Hs. apply (best_choices_inj L (gates g s) E K). auto. Qed.

  Lemma slot_inj g s k s' k' : s < S -> k < K -> s' < S -> k' < K ->
    ch g s k = ch g s' k' -> slot_of ch g s k = slot_of ch g s' k' -> s = s' /\ k = k'.
  Proof. intros. apply (competitors_inj L bp S E K (gates g) (ch g)); auto. Qed.

  (** Contents of the buffers before the reordering. *)
  Definition cell (data : nat -> nat -> vec A) g e c : vec A :=
    vsum A S (fun s => vsum A K (fun k =>
      if (ch g s k =? e) && (slot_of ch g s k =? c) then data g s else vzero A)).

  Lemma cell_at data g s k : s < S -> k < K ->
    cell data g (ch g s k) (slot_of ch g s k) = data g s.
  Proof.
    intros Hs Hk. unfold cell.
    rewrite (vsum_single L S _ s Hs).
    - rewrite (vsum_single L K _ k Hk). now rewrite !Nat.eqb_refl.
      intros k' Hk' Hne. destruct (ch g s k' =? ch g s k) eqn:E1; auto.
      exfalso. apply Hne. apply (ch_inj g s); auto. lia.
    - intros s' Hs' Hne. apply (vsum_zero L). intros k' Hk'.
      destruct (ch g s' k' =? ch g s k) eqn:E1; auto.
      destruct (slot_of ch g s' k' =? slot_of ch g s k) eqn:E2; auto.
      exfalso. apply Hne. eapply (slot_inj g s' k' s k); auto; lia.
  Qed.

  Lemma einsum_dispatch_cell d data g e c :
    einsum_dispatcher_of S E K C gates bp = Some d -> g < G -> e < E -> c < C ->
    einsum_do_dispatch G S E C d data e (a2a_pos G E g * C + c) = cell data g e c.
  Proof.
    intros Hd Hg He Hc.
    destruct einsum_dispatcher_spec as (d' & Hd' & dw & Hdw & Hs).
    rewrite Hd in Hd'. inversion Hd'; subst d'.
    unfold einsum_do_dispatch. rewrite dispatch_at by lia.
    unfold cell. apply vsum_ext. intros s Hss.
    unfold ed_dispatch_weights. rewrite Hdw.
    destruct (Hs ch Hch g s e c Hss) as [-> _]. rewrite (b2s_scale L).
    destruct (existsb _ _) eqn:Ex.
    - apply existsb_exists in Ex. destruct Ex as (k & Hk & Hb). apply in_seq in Hk.
      rewrite (vsum_single L K _ k); [now rewrite Hb|lia|].
      intros i Hi Hne. destruct ((ch g s i =? e) && (slot_of ch g s i =? c)) eqn:Ei; auto.
      exfalso. apply Hne. apply (ch_inj g s); auto; lia.
    - symmetry. apply (vsum_zero L). intros k Hk.
      destruct ((ch g s k =? e) && (slot_of ch g s k =? c)) eqn:Ei; auto.
      assert (existsb (fun k => (ch g s k =? e) && (slot_of ch g s k =? c)) (seq 0 K) = true).
      { apply existsb_exists. exists k; split; auto. apply in_seq; lia. }
      congruence.
  Qed.

  Lemma indices_dispatch_cell d data g e c :
    indices_dispatcher_of S E K gates bp = Some d -> g < G -> e < E -> c < C ->
    indices_do_dispatch G S K E C d data e (a2a_pos G E g * C + c) = cell data g e c.
  Proof.
    intros Hd Hg He Hc.
    destruct indices_dispatcher_spec as (d' & Hd' & Hs).
    rewrite Hd in Hd'. inversion Hd'; subst d'.
    unfold indices_do_dispatch. rewrite dispatch_at by lia.
    unfold scatter_nd, cell. rewrite (vsum_flat L).
    apply vsum_ext; intros s Hss. apply vsum_ext; intros k Hk.
    rewrite !ravel2_at by auto.
    destruct (divmod_lin s k K Hk) as [-> _].
    destruct (Hs ch Hch g s k Hss Hk) as (-> & -> & _).
    unfold norm_index. replace (Z.of_nat (slot_of ch g s k) <? 0)%Z with false by lia.
    replace (Z.of_nat (slot_of ch g s k) =? Z.of_nat c)%Z with (slot_of ch g s k =? c) by lia.
    reflexivity.
  Qed.

  (** Combining arbitrary expert outputs. *)
  Definition gathered (h : nat -> nat -> nat -> vec A) g s : vec A :=
    vsum A K (fun k => if slot_of ch g s k <? C
      then vscale A (gates g s (ch g s k)) (h g (ch g s k) (slot_of ch g s k))
      else vzero A).

  Lemma ch_lt g s k : s < S -> k < K -> ch g s k < E.
  Proof. intros Hs Hk. destruct (Hch g s Hs) as (H & _). auto. Qed.

  Lemma einsum_combine_gathered d h g s :
    einsum_dispatcher_of S E K C gates bp = Some d -> g < G -> s < S ->
    einsum_do_combine G S E C (G * C) d h g s
    = gathered (fun g e c => h e (a2a_pos G E g * C + c)) g s.
  Proof.
    intros Hd Hg Hs.
    destruct einsum_dispatcher_spec as (d' & Hd' & dw & Hdw & Hsp).
    rewrite Hd in Hd'. inversion Hd'; subst d'.
    unfold einsum_do_combine, gathered.
    rewrite <- (cells_sum L E C K (ch g s) (slot_of ch g s)
      (fun e c => vscale A (gates g s e) (h e (a2a_pos G E g * C + c)))).
    - apply vsum_ext; intros e He. apply vsum_ext; intros c Hc.
      destruct (Hsp ch Hch g s e c Hs) as [H1 H2]. rewrite H2, H1, (b2s_mul L).
      rewrite receive_at by lia. reflexivity.
    - intros; apply ch_lt; auto.
    - intros k k' Hk Hk'. apply ch_inj; auto.
  Qed.

  Lemma indices_combine_gathered d h g s :
    indices_dispatcher_of S E K gates bp = Some d -> g < G -> s < S ->
    indices_do_combine G S K E C (G * C) d h g s
    = gathered (fun g e c => h e (a2a_pos G E g * C + c)) g s.
  Proof.
    intros Hd Hg Hs.
    destruct indices_dispatcher_spec as (d' & Hd' & Hsp).
    rewrite Hd in Hd'. inversion Hd'; subst d'.
    unfold indices_do_combine, gathered. apply vsum_ext; intros k Hk.
    destruct (Hsp ch Hch g s k Hs Hk) as (-> & -> & ->).
    pose proof (ch_lt g s k Hs Hk) as Hlt.
    rewrite (b2s_scale L). replace (ch g s k <? E) with true by lia. simpl.
    replace (Z.of_nat (slot_of ch g s k) <? Z.of_nat C)%Z with (slot_of ch g s k <? C) by lia.
    destruct (slot_of ch g s k <? C) eqn:Es; [|apply (scale_vzero _ L)].
    f_equal. unfold clamp_index, norm_index.
    replace (Z.of_nat (slot_of ch g s k) <? 0)%Z with false by lia.
    replace (Z.of_nat (ch g s k) <? 0)%Z with false by lia.
    replace (Z.to_nat (Z.min (Z.max (Z.of_nat (ch g s k)) 0) (Z.of_nat E - 1)))
      with (ch g s k) by lia.
    replace (Z.to_nat (Z.min (Z.max (Z.of_nat (slot_of ch g s k)) 0) (Z.of_nat C - 1)))
      with (slot_of ch g s k) by lia.
    apply receive_at; lia.
  Qed.

  Variable f : nat -> vec A -> vec A.
  Variable F : nat -> (nat -> vec A) -> nat -> vec A.
  Hypothesis HF : forall e buf j, F e buf j = f e (buf j).

  Lemma layer_gathered (dispatched : nat -> nat -> vec A) data g s :
    (forall e c, e < E -> c < C -> dispatched e (a2a_pos G E g * C + c) = cell data g e c) ->
    s < S ->
    gathered (fun g e c => F e (dispatched e) (a2a_pos G E g * C + c)) g s
    = top_experts_output bp S E K C (gates g) (ch g) f (data g) s.
  Proof.
    intros Hd Hs. unfold gathered, top_experts_output. rewrite (sum_over_vsum L).
    apply vsum_ext; intros k Hk. unfold slot_of at 1. fold (slot_of ch g s k).
    change (competitors bp S E K (gates g) (ch g) s k) with (slot_of ch g s k).
    destruct (slot_of ch g s k <? C) eqn:Es; auto.
    rewrite HF, Hd by (try apply ch_lt; auto; lia).
    rewrite cell_at by auto. reflexivity.
  Qed.

  Lemma einsum_layer d data g s :
    einsum_dispatcher_of S E K C gates bp = Some d -> g < G -> s < S ->
    sparse_moe (einsum_do_dispatch G S E C d) (einsum_do_combine G S E C (G * C) d) F data g s
    = top_experts_output bp S E K C (gates g) (ch g) f (data g) s.
  Proof.
    intros Hd Hg Hs. unfold sparse_moe. rewrite einsum_combine_gathered by auto.
    apply layer_gathered; auto. intros. apply einsum_dispatch_cell; auto.
  Qed.

  Lemma indices_layer d data g s :
    indices_dispatcher_of S E K gates bp = Some d -> g < G -> s < S ->
    sparse_moe (indices_do_dispatch G S K E C d) (indices_do_combine G S K E C (G * C) d) F data g s
    = top_experts_output bp S E K C (gates g) (ch g) f (data g) s.
  Proof.
    intros Hd Hg Hs. unfold sparse_moe. rewrite indices_combine_gathered by auto.
    apply layer_gathered; auto. intros. apply indices_dispatch_cell; auto.
  Qed.
End Layer.

(* ---------------- top-items routing ---------------- *)
Section TopItems.
  Context {A : alg} (L : alg_laws A).
  Variables (S E C : nat).
  Hypotheses (HC : C <= S).

  Lemma top_items_spec (gates : nat -> nat -> sc A) :
    exists t, top_items_einsum S E C gates = Some t /\
      (forall ch, (forall e, e < E -> best_choices S C (fun s => gates s e) (ch e)) ->
       forall e c, e < E -> c < C ->
         ti_index t e c = ch e c /\ ti_gates t e c = gates (ch e c) e /\
         forall s, ti_dispatch t s e c = b2s A (ch e c =? s) /\
                   ti_combine t s e c = smul A (gates s e) (b2s A (ch e c =? s))).
  Proof.
    unfold top_items_einsum. replace (S <? C) with false by lia.
    eexists. split; [reflexivity|].
    intros ch Hch e c He Hc. cbn [ti_index ti_gates ti_dispatch ti_combine].
    assert (Heq : nth c (top_k (sleb A) S C (fun s => gates s e)) 0 = ch e c).
    { apply (best_choices_unique L (fun s => gates s e) S C
        (fun k => nth k (top_k (sleb A) S C (fun s => gates s e)) 0)); auto.
      apply (best_choices_top_k L); auto. }
    rewrite Heq. auto.
  Qed.

  Lemma top_items_choices_exist (gates : nat -> nat -> nat -> sc A) :
    exists ch, forall g e, e < E -> best_choices S C (fun s => gates g s e) (ch g e).
  Proof.
    exists (fun g e k => nth k (top_k (sleb A) S C (fun s => gates g s e)) 0).
    intros. apply (best_choices_top_k L); auto.
  Qed.

  Variables (G : nat) (gates : nat -> nat -> nat -> sc A) (ch : nat -> nat -> nat -> nat).
  Hypothesis HE : 1 <= E.
  Hypothesis Hch : forall g e, e < E -> best_choices S C (fun s => gates g s e) (ch g e).

  Lemma top_items_dispatcher_spec :
    exists d, top_items_dispatcher_of S E C gates = Some d /\
      exists dw, ed_dispatch d = Some dw /\
      forall g s e c, e < E -> c < C ->
        dw g s e c = b2s A (ch g e c =? s) /\
        ed_combine d g s e c = smul A (gates g s e) (b2s A (ch g e c =? s)).
  Proof.
    unfold top_items_dispatcher_of.
    destruct (top_items_spec (gates 0)) as (t0 & H0 & _). rewrite H0.
    eexists. split; [reflexivity|]. eexists. split; [reflexivity|].
    intros g s e c He Hc. cbn [ed_combine].
    destruct (top_items_spec (gates g)) as (t & Ht & Hs). rewrite Ht. cbn [fst snd].
    destruct (Hs (ch g) (fun e => Hch g e) e c He Hc) as (_ & _ & H). apply H.
  Qed.

  Variable f : nat -> vec A -> vec A.
  Variable F : nat -> (nat -> vec A) -> nat -> vec A.
  Hypothesis HF : forall e buf j, F e buf j = f e (buf j).

  Lemma top_items_dispatch_at d data g e c :
    top_items_dispatcher_of S E C gates = Some d -> g < G -> e < E -> c < C ->
    einsum_do_dispatch G S E C d data e (a2a_pos G E g * C + c) = data g (ch g e c).
  Proof.
    intros Hd Hg He Hc.
    destruct top_items_dispatcher_spec as (d' & Hd' & dw & Hdw & Hs).
    rewrite Hd in Hd'. inversion Hd'; subst d'.
    unfold einsum_do_dispatch. rewrite dispatch_at by lia.
    destruct (Hch g e He) as (Hr & _ & _).
    rewrite (vsum_single L S _ (ch g e c)); [|auto|].
    - unfold ed_dispatch_weights. rewrite Hdw. destruct (Hs g (ch g e c) e c He Hc) as [-> _].
      rewrite (b2s_scale L), Nat.eqb_refl. reflexivity.
    - intros s Hs' Hne. unfold ed_dispatch_weights. rewrite Hdw.
      destruct (Hs g s e c He Hc) as [-> _].
      rewrite (b2s_scale L). replace (ch g e c =? s) with false by lia. reflexivity.
  Qed.

  Lemma top_items_layer d data g s :
    top_items_dispatcher_of S E C gates = Some d -> g < G -> s < S ->
    sparse_moe (einsum_do_dispatch G S E C d) (einsum_do_combine G S E C (G * C) d) F data g s
    = top_items_output E C (gates g) (ch g) f (data g) s.
  Proof.
    intros Hd Hg Hs'. unfold sparse_moe, top_items_output.
    destruct top_items_dispatcher_spec as (d' & Hd' & dw & Hdw & Hs).
    pose proof Hd as Hd2. rewrite Hd in Hd'. inversion Hd'; subst d'.
    rewrite (sum_over_vsum L). unfold einsum_do_combine.
    apply vsum_ext; intros e He.
    assert (Hcell : forall c, c < C ->
      vscale A (ed_combine d g s e c)
        (receive_a2a E G (G * C) (fun e0 => F e0 (einsum_do_dispatch G S E C d data e0)) g e c)
      = if ch g e c =? s then vscale A (gates g s e) (f e (data g s)) else vzero A).
    { intros c Hc. destruct (Hs g s e c He Hc) as [_ ->]. rewrite (b2s_mul L).
      destruct (ch g e c =? s) eqn:Es; auto.
      rewrite receive_at by lia. rewrite HF, (top_items_dispatch_at d data g e c) by auto.
      apply Nat.eqb_eq in Es. rewrite Es. reflexivity. }
    rewrite (vsum_ext C _ _ Hcell).
    destruct (existsb _ _) eqn:Ex.
    - apply existsb_exists in Ex. destruct Ex as (c & Hc & Hb). apply in_seq in Hc.
      rewrite (vsum_single L C _ c); [now rewrite Hb|lia|].
      intros i Hi Hne. destruct (ch g e i =? s) eqn:Ei; auto.
      exfalso. apply Hne.
      apply (best_choices_inj L _ S C (ch g e) (Hch g e He)); try lia.
    - apply (vsum_zero L). intros c Hc. destruct (ch g e c =? s) eqn:Ei; auto.
      assert (existsb (fun c => ch g e c =? s) (seq 0 C) = true).
      { apply existsb_exists. exists c; split; auto. apply in_seq; lia. }
      congruence.
  Qed.
End TopItems.

Lemma top_items_fails {A : alg} S E C (gates : nat -> nat -> sc A) :
  S < C -> top_items_einsum S E C gates = None.
Proof. intros H. unfold top_items_einsum. now replace (S <? C) with true by lia. Qed.

(* ---------------- metrics ---------------- *)
Lemma zsum_ext n f g : (forall i, i < n -> f i = g i) -> zsum n f = zsum n g.
Proof. induction n; simpl; intros H; auto. rewrite IHn, H; auto. Qed.

Lemma zsum_count n (P : nat -> bool) :
  zsum n (fun i => if P i then 1%Z else 0%Z) = Z.of_nat (length (filter P (seq 0 n))).
Proof.
  induction n; auto. cbn [zsum]. rewrite IHn, seq_S, filter_app, app_length. cbn [filter plus].
  destruct (P n); simpl length; lia.
Qed.

Lemma zsum_at_most_one n (P : nat -> bool) :
  (forall i j, i < n -> j < n -> P i = true -> P j = true -> i = j) ->
  zsum n (fun i => if P i then 1%Z else 0%Z) = if existsb P (seq 0 n) then 1%Z else 0%Z.
Proof.
  induction n; intros H; auto. cbn [zsum]. rewrite IHn by (intros; apply H; auto).
  rewrite seq_S, existsb_app. cbn [existsb plus]. rewrite orb_false_r.
  destruct (existsb P (seq 0 n)) eqn:Ex; destruct (P n) eqn:En; simpl; auto.
  exfalso. apply existsb_exists in Ex. destruct Ex as (i & Hi & Hb). apply in_seq in Hi.
  specialize (H i n ltac:(lia) ltac:(lia) Hb En). lia.
Qed.

Lemma sc_best_spec {A : alg} (L : alg_laws A) (dir : bool) (l : list (sc A)) :
  l <> [] ->
  let le a b := if dir then sleb A a b else sleb A b a in
  exists v, sc_best (fun a b => negb (le b a)) l = Some v /\ In v l /\
            (forall x, In x l -> le v x = true).
Proof.
  intros Hl le. destruct l as [|x r]; [congruence|]. clear Hl. simpl.
  assert (Ht : forall a b, le a b = true \/ le b a = true)
    by (intros a b; unfold le; destruct dir; apply (leb_total _ L)).
  assert (Htr : forall a b c, le a b = true -> le b c = true -> le a c = true)
    by (intros a b c; unfold le; destruct dir; intros; eapply (leb_trans _ L); eauto).
  enough (G : forall r x, let v := fold_left (fun m y => if negb (le m y) then y else m) r x in
     (v = x \/ In v r) /\ le v x = true /\ forall y, In y r -> le v y = true).
  { destruct (G r x) as (H1 & H2 & H3). eexists. split; [reflexivity|].
    simpl in *. split; [destruct H1; auto|]. intros y [<-|Hy]; auto. }
  clear r x. induction r as [|y r IH]; intros x; simpl.
  - repeat split; auto. destruct (Ht x x); auto.
  - destruct (IH (if negb (le x y) then y else x)) as (H1 & H2 & H3).
    simpl in *. destruct (le x y) eqn:Exy; simpl in *.
    + repeat split.
      * destruct H1; auto.
      * auto.
      * intros z [<-|Hz]; auto. eapply Htr; eauto.
    + assert (le y x = true) by (destruct (Ht x y); congruence).
      repeat split.
      * destruct H1; auto.
      * eapply Htr; eauto.
      * intros z [<-|Hz]; auto.
Qed.

Section Metrics.
  Context {A : alg} (L : alg_laws A).
  Variables (S E C : nat) (gates : nat -> nat -> sc A) (ch : nat -> nat -> nat).
  Hypotheses (HC : C <= S) (HS : 1 <= S) (HE : 1 <= E).
  Hypothesis Hch : forall e, e < E -> best_choices S C (fun s => gates s e) (ch e).

  Lemma num_experts_per_item t s :
    top_items_einsum S E C gates = Some t ->
    zsum E (fun e => zsum C (fun c => one_hot (ti_index t e c) s))
    = Z.of_nat (selecting_experts E C ch s).
  Proof.
    intros Ht. destruct (top_items_spec L S E C HC gates) as (t' & Ht' & Hs).
    rewrite Ht in Ht'. inversion Ht'; subst t'.
    unfold selecting_experts. rewrite <- zsum_count. apply zsum_ext. intros e He.
    rewrite <- zsum_at_most_one.
    - apply zsum_ext. intros c Hc. destruct (Hs ch Hch e c He Hc) as [-> _]. reflexivity.
    - intros i j Hi Hj H1 H2.
      apply (best_choices_inj L _ S C (ch e) (Hch e He)); try lia.
  Qed.

  Lemma metrics_correct t :
    top_items_einsum S E C gates = Some t ->
    let m := top_items_metrics_of S E C t in
    let n := selecting_experts E C ch in
    ((exists s, s < S /\ tm_experts_min m = Z.of_nat (n s)) /\
     (forall s, s < S -> (tm_experts_min m <= Z.of_nat (n s))%Z)) /\
    ((exists s, s < S /\ tm_experts_max m = Z.of_nat (n s)) /\
     (forall s, s < S -> (Z.of_nat (n s) <= tm_experts_max m)%Z)) /\
    (1 <= C ->
      (exists e c, e < E /\ c < C /\ tm_gate_min m = Some (gates (ch e c) e) /\
        forall e' c', e' < E -> c' < C ->
          sleb A (gates (ch e c) e) (gates (ch e' c') e') = true) /\
      (exists e c, e < E /\ c < C /\ tm_gate_max m = Some (gates (ch e c) e) /\
        forall e' c', e' < E -> c' < C ->
          sleb A (gates (ch e' c') e') (gates (ch e c) e) = true)) /\
    (forall t, In t (map fst (tm_ratios m)) <-> (t = E \/ exists i, t = 2 ^ i /\ t <= E)) /\
    (forall t q, In (t, q) (tm_ratios m) ->
      q == inject_Z (Z.of_nat (length (filter (fun s => t <=? n s) (seq 0 S))))
           / inject_Z (Z.of_nat S))%Q.
  Proof.
    intros Ht m n.
    assert (Hn : forall s, zsum E (fun e => zsum C (fun c => one_hot (ti_index t e c) s))
                           = Z.of_nat (n s)) by (intros; apply num_experts_per_item; auto).
    destruct (top_items_spec L S E C HC gates) as (t' & Ht' & Hs).
    rewrite Ht in Ht'. inversion Ht'; subst t'. clear Ht'.
    assert (Hsel : forall x, In x (map (fun ec => ti_gates t (fst ec) (snd ec))
                      (list_prod (seq 0 E) (seq 0 C))) <->
                   exists e c, e < E /\ c < C /\ x = gates (ch e c) e).
    { intros x. rewrite in_map_iff. split.
      - intros ([e c] & <- & Hin). apply in_prod_iff in Hin. rewrite !in_seq in Hin.
        exists e, c. destruct Hin. repeat split; try lia. simpl.
        destruct (Hs ch Hch e c) as (_ & Hg0 & _); try lia. auto.
      - intros (e & c & He & Hc & ->). exists (e, c). simpl.
        destruct (Hs ch Hch e c He Hc) as (_ & H & _). split; auto.
        apply in_prod; apply in_seq; lia. }
    split; [|split; [|split; [|split]]].
    - unfold m; cbn [top_items_metrics_of tm_experts_min].
      destruct (zmin_spec S (fun s => zsum E (fun e => zsum C (fun c => one_hot (ti_index t e c) s))) HS)
        as [(s & Hss & Hv) Hle].
      split. exists s; split; auto. rewrite Hv. apply Hn.
      intros s' Hs'. rewrite <- Hn. apply Hle; auto.
    - unfold m; cbn [top_items_metrics_of tm_experts_max].
      destruct (zmax_spec S (fun s => zsum E (fun e => zsum C (fun c => one_hot (ti_index t e c) s))) HS)
        as [(s & Hss & Hv) Hle].
      split. exists s; split; auto. rewrite Hv. apply Hn.
      intros s' Hs'. rewrite <- Hn. apply Hle; auto.
    - intros HC1.
      assert (Hne : map (fun ec => ti_gates t (fst ec) (snd ec))
                      (list_prod (seq 0 E) (seq 0 C)) <> []).
      { intros Hnil. assert (Hin : In (gates (ch 0 0) 0) []).
        { rewrite <- Hnil. apply Hsel. exists 0, 0. repeat split; lia. }
        inversion Hin. }
      split.
      + destruct (sc_best_spec L true _ Hne) as (v & Hv & Hin & Hle). simpl in *.
        apply Hsel in Hin. destruct Hin as (e & c & He & Hc & ->).
        exists e, c. repeat split; auto.
        intros e' c' He' Hc'. apply Hle. apply Hsel. exists e', c'; auto.
      + destruct (sc_best_spec L false _ Hne) as (v & Hv & Hin & Hle). simpl in *.
        apply Hsel in Hin. destruct Hin as (e & c & He & Hc & ->).
        exists e, c. repeat split; auto.
        intros e' c' He' Hc'. apply Hle. apply Hsel. exists e', c'; auto.
    - intros t0. unfold m; cbn [top_items_metrics_of tm_ratios].
      rewrite map_map. simpl. rewrite map_id, in_app_iff, in_map_iff. split.
      + intros [(i & <- & Hi)|[<-|[]]]; auto. right. exists i. split; auto.
        apply in_seq in Hi. pose proof (Nat.log2_spec E ltac:(lia)) as [H _].
        eapply Nat.le_trans; [|exact H]. apply Nat.pow_le_mono_r; lia.
      + intros [->|(i & -> & Hi)]; [right; left; auto|]. left. exists i. split; auto.
        apply in_seq. pose proof (Nat.log2_le_pow2 E i ltac:(lia)). lia.
    - intros t0 q Hin. unfold m in Hin; cbn [top_items_metrics_of tm_ratios] in Hin.
      apply in_map_iff in Hin. destruct Hin as (x & Hx & _). inversion Hx; subst x q. clear Hx.
      rewrite (zsum_ext S _ (fun s => if t0 <=? n s then 1%Z else 0%Z)).
      + rewrite zsum_count. unfold Qdiv. rewrite Qmake_Qdiv.
        replace (Z.pos (Pos.of_nat S)) with (Z.of_nat S); [reflexivity|].
        rewrite <- positive_nat_Z, Nat2Pos.id by lia. reflexivity.
      + intros s Hss. rewrite Hn.
        replace (Z.of_nat t0 <=? Z.of_nat (n s))%Z with (t0 <=? n s) by lia. reflexivity.
  Qed.
End Metrics.

(* ---------------- capacity ---------------- *)
Lemma rounds_ceil q : rounds_to Ceil q (Qceiling q).
Proof.
  split.
  - pose proof (Qceiling_lt q) as H. unfold Z.sub in H. rewrite inject_Z_plus in H. exact H.
  - apply Qle_ceiling.
Qed.

Lemma rounds_half_even q : rounds_to Round q (round_half_even q).
Proof.
  unfold round_half_even. pose proof (Qfloor_le q) as H1.
  pose proof (Qlt_floor q) as H2. rewrite inject_Z_plus in H2.
  set (f := Qfloor q) in *. simpl rounds_to.
  change (inject_Z 1) with 1%Q in H2.
  destruct (Qcompare_spec (q - inject_Z f) (1 # 2)) as [H|H|H].
  - (* tie *)
    destruct (Z.even f) eqn:Ev.
    + split; [|intros _; now apply Z.even_spec].
      assert (q == inject_Z f + (1 # 2))%Q by (rewrite <- H; ring).
      rewrite H0. split.
      * apply Qplus_le_r. discriminate.
      * apply Qle_refl.
    + assert (Hodd : Z.even (f + 1) = true).
      { rewrite Z.even_add, Ev. reflexivity. }
      split; [|intros _; now apply Z.even_spec].
      rewrite inject_Z_plus. change (inject_Z 1) with 1%Q.
      assert (q == inject_Z f + 1 - (1 # 2))%Q.
      { setoid_replace q with ((q - inject_Z f) + inject_Z f)%Q by ring. rewrite H. ring. }
      rewrite H0. split; [apply Qle_refl|].
      apply Qplus_le_r. discriminate.
  - assert (Hq : (q < inject_Z f + (1 # 2))%Q).
    { setoid_replace q with ((q - inject_Z f) + inject_Z f)%Q by ring.
      rewrite (Qplus_comm (inject_Z f)). apply Qplus_lt_l. exact H. }
    split; [split|].
    + eapply Qle_trans; [|exact H1]. rewrite <- (Qplus_0_r (inject_Z f)) at 2.
      apply Qplus_le_r. discriminate.
    + apply Qlt_le_weak; auto.
    + intros [He|He]; exfalso.
      * rewrite He in H1. apply (Qle_not_lt _ _ H1).
        rewrite <- (Qplus_0_r (inject_Z f)) at 2. apply Qplus_lt_r. reflexivity.
      * rewrite He in Hq. apply (Qlt_irrefl _ Hq).
  - assert (Hq : (inject_Z f + (1 # 2) < q)%Q).
    { setoid_replace q with ((q - inject_Z f) + inject_Z f)%Q at 1 by ring.
      rewrite (Qplus_comm (inject_Z f)). apply Qplus_lt_l. exact H. }
    rewrite inject_Z_plus. change (inject_Z 1) with 1%Q.
    split; [split|].
    + apply Qlt_le_weak. setoid_replace (inject_Z f + 1 - (1 # 2))%Q with (inject_Z f + (1 # 2))%Q by ring.
      auto.
    + apply Qlt_le_weak. eapply Qlt_trans; [exact H2|].
      rewrite <- (Qplus_0_r (inject_Z f + 1)) at 1. apply Qplus_lt_r. reflexivity.
    + intros [He|He]; exfalso.
      * rewrite He in Hq. apply (Qlt_irrefl (inject_Z f + (1 # 2))).
        setoid_replace (inject_Z f + 1 - (1 # 2))%Q with (inject_Z f + (1 # 2))%Q in Hq by ring. auto.
      * rewrite He in H2. apply (Qlt_irrefl (inject_Z f + 1)).
        eapply Qlt_trans; [|exact H2].
        rewrite <- (Qplus_0_r (inject_Z f + 1)) at 1. apply Qplus_lt_r. reflexivity.
Qed.

Lemma least_capacity_round_up n m :
  (0 < m)%Z -> least_capacity (Some m) n (n + (- n) mod m)%Z.
Proof.
  intros Hm. unfold least_capacity.
  pose proof (Z.mod_pos_bound (- n) m Hm) as Hb.
  pose proof (Z.div_mod (- n) m ltac:(lia)) as Hd.
  split; [lia|]. split.
  - intros _. exists (- (- n / m))%Z. lia.
  - intros x Hx Hdv. specialize (Hdv Hm). destruct Hdv as [y ->].
    set (r := ((- n) mod m)%Z) in *. set (q := (- n / m)%Z) in *. clearbody r q.
    assert (n + r = m * (- q))%Z by lia.
    assert (m * (- q) < y * m + m)%Z by lia.
    assert (- q < y + 1)%Z by nia. nia.
Qed.

Lemma compute_capacity_correct tokens experts cf mode mult :
  (0 < tokens)%Z -> (0 < experts)%Z -> mode <> OtherRounding ->
  let r := (inject_Z tokens * cf / inject_Z experts)%Q in
  exists n, rounds_to mode r n /\
    ((n < 1)%Z -> compute_capacity tokens experts cf mode mult = Raise ValueError) /\
    ((1 <= n)%Z -> exists c, compute_capacity tokens experts cf mode mult = Ok c /\
                             least_capacity mult n c).
Proof.
  intros Ht He Hm r.
  set (n := match mode with Ceil => Qceiling r | _ => round_half_even r end).
  assert (Hfin : compute_capacity tokens experts cf mode mult =
    if (n <? 1)%Z then Raise ValueError
    else Ok match mult with
            | Some m => if (0 <? m)%Z then (n + (- n) mod m)%Z else n
            | None => n end).
  { unfold compute_capacity. replace (experts =? 0)%Z with false by lia.
    replace (tokens =? 0)%Z with false by lia.
    destruct mode; try congruence; reflexivity. }
  exists n. split; [|split].
  - unfold n. destruct mode; [apply rounds_ceil|apply rounds_half_even|congruence].
  - intros H. rewrite Hfin. now replace (n <? 1)%Z with true by lia.
  - intros H. rewrite Hfin. replace (n <? 1)%Z with false by lia.
    eexists. split; [reflexivity|].
    destruct mult as [m|]; [|repeat split; auto; lia].
    destruct (0 <? m)%Z eqn:Em.
    + apply least_capacity_round_up. lia.
    + repeat split; auto; try lia.
Qed.

Lemma capacity_enough tokens experts cf mult c :
  (0 < tokens)%Z -> (0 < experts)%Z ->
  compute_capacity tokens experts cf Ceil mult = Ok c ->
  (inject_Z tokens * cf <= inject_Z (experts * c))%Q.
Proof.
  intros Ht He Hc.
  destruct (compute_capacity_correct tokens experts cf Ceil mult Ht He ltac:(congruence))
    as (n & [_ Hr] & Hf & Hok).
  destruct (Z_lt_le_dec n 1) as [Hlt|Hle].
  { rewrite (Hf Hlt) in Hc. discriminate. }
  destruct (Hok Hle) as (c' & Hc' & (Hnc & _)). rewrite Hc in Hc'. inversion Hc'; subst c'.
  assert (Hpos : (0 < inject_Z experts)%Q) by (change 0%Q with (inject_Z 0); rewrite <- Zlt_Qlt; lia).
  apply Qle_trans with (inject_Z experts * inject_Z n)%Q.
  - apply (Qmult_le_l _ _ (inject_Z experts) Hpos) in Hr.
    setoid_replace (inject_Z experts * (inject_Z tokens * cf / inject_Z experts))%Q
      with (inject_Z tokens * cf)%Q in Hr; auto.
    field. intros H. rewrite H in Hpos. apply (Qlt_irrefl _ Hpos).
  - rewrite inject_Z_mult. apply (Qmult_le_l _ _ (inject_Z experts) Hpos).
    rewrite <- Zle_Qle. auto.
Qed.

Lemma capacity_le_group S E cf mode mult c :
  1 <= S -> 1 <= E -> (cf <= inject_Z (Z.of_nat E))%Q ->
  match mult with Some m => (0 < m)%Z -> (m | Z.of_nat S)%Z | None => True end ->
  compute_capacity (Z.of_nat S) (Z.of_nat E) cf mode mult = Ok c ->
  (c <= Z.of_nat S)%Z.
Proof.
  intros HS HE Hcf Hm Hc.
  assert (Hmode : mode <> OtherRounding) by (intros ->; simpl in Hc; discriminate).
  destruct (compute_capacity_correct (Z.of_nat S) (Z.of_nat E) cf mode mult
     ltac:(lia) ltac:(lia) Hmode) as (n & Hr & Hf & Hok).
  destruct (Z_lt_le_dec n 1) as [Hlt|Hle].
  { rewrite (Hf Hlt) in Hc. discriminate. }
  destruct (Hok Hle) as (c' & Hc' & (Hnc & Hadm & Hleast)).
  rewrite Hc in Hc'. inversion Hc'; subst c'.
  apply Hleast; [|destruct mult; auto].
  set (r := (inject_Z (Z.of_nat S) * cf / inject_Z (Z.of_nat E))%Q) in *.
  assert (HEq : (0 < inject_Z (Z.of_nat E))%Q)
    by (change 0%Q with (inject_Z 0); rewrite <- Zlt_Qlt; lia).
  assert (HSq : (0 < inject_Z (Z.of_nat S))%Q)
    by (change 0%Q with (inject_Z 0); rewrite <- Zlt_Qlt; lia).
  assert (Hrs : (r <= inject_Z (Z.of_nat S))%Q).
  { unfold r. apply Qle_shift_div_r; auto. apply Qmult_le_l; auto. }
  destruct mode; [| |congruence]; simpl in Hr.
  - destruct Hr as [Hr _].
    assert (H : (inject_Z n - 1 < inject_Z (Z.of_nat S))%Q) by (eapply Qlt_le_trans; eauto).
    assert (H2 : (inject_Z (n - 1) < inject_Z (Z.of_nat S))%Q).
    { unfold Z.sub. rewrite inject_Z_plus. exact H. }
    rewrite <- Zlt_Qlt in H2. lia.
  - destruct Hr as [[Hr _] _].
    assert (H : (inject_Z n - (1 # 2) <= inject_Z (Z.of_nat S))%Q) by (eapply Qle_trans; eauto).
    assert (H2 : (inject_Z (n - 1) < inject_Z (Z.of_nat S))%Q).
    { unfold Z.sub. rewrite inject_Z_plus. eapply Qlt_le_trans; [|exact H].
      apply Qplus_lt_r. reflexivity. }
    rewrite <- Zlt_Qlt in H2. lia.
Qed.

(* ---------------- statements used in MoeProps.v ---------------- *)
Lemma best_choices_ext {A : alg} n K (v : nat -> sc A) ch ch' :
  (forall k, k < K -> ch k = ch' k) -> best_choices n K v ch -> best_choices n K v ch'.
Proof.
  intros H (B1 & B2 & B3). repeat split.
  - intros k Hk. rewrite <- H by auto. auto.
  - intros k k' Hl Hk. rewrite <- !H by lia. auto.
  - intros i Hi Hn k Hk. rewrite <- H by auto. apply B3; auto.
    intros k0 Hk0. rewrite H by auto. auto.
Qed.

Lemma experts_are_best {A : alg} (L : alg_laws A) S E K (gates : nat -> nat -> sc A) bp :
  1 <= S -> 1 <= K -> K <= E ->
  exists t, top_experts_common S E K gates bp = Some t /\
    forall s, s < S -> best_choices E K (gates s) (te_expert t s) /\
      (forall k k', k < K -> k' < K -> te_expert t s k = te_expert t s k' -> k = k') /\
      (forall k, k < K -> te_combine t s k = gates s (te_expert t s k)).
Proof.
  intros HS HK HE.
  destruct (common_correct L S E K gates bp HS HK HE) as (t & Ht & Hsp).
  exists t. split; auto. intros s Hs.
  set (ch := fun s k => nth k (top_k (sleb A) E K (gates s)) 0).
  assert (Hch : forall s, s < S -> best_choices E K (gates s) (ch s))
    by (intros; apply (best_choices_top_k L); auto).
  assert (Hb : best_choices E K (gates s) (te_expert t s)).
  { apply (best_choices_ext E K _ (ch s)); auto.
    intros k Hk. symmetry. apply (Hsp ch Hch s k Hs Hk). }
  split; [exact Hb|]. split.
  - apply (best_choices_inj L (gates s) E K); auto.
  - intros k Hk. destruct (Hsp ch Hch s k Hs Hk) as (-> & -> & _). reflexivity.
Qed.

(** Slots of the einsum dispatcher. *)
Lemma einsum_slots {A : alg} (L : alg_laws A) S E K C (gates : nat -> nat -> sc A) bp dw cw :
  1 <= S -> 1 <= K -> K <= E ->
  top_experts_einsum S E K C gates bp = Some (dw, cw) ->
  (* never shared *)
  (forall s s' e c, s < S -> s' < S -> dw s e c <> szero A -> dw s' e c <> szero A -> s = s') /\
  (* an item is sent at most once to an expert *)
  (forall s e c c', s < S -> dw s e c <> szero A -> dw s e c' <> szero A -> c = c') /\
  (* no expert gets more than C items *)
  (forall e (l : list nat), NoDup l ->
     (forall s, In s l -> s < S /\ exists c, c < C /\ dw s e c <> szero A) -> length l <= C) /\
  (* an item goes to at most K experts *)
  (forall s (l : list nat), s < S -> NoDup l ->
     (forall e, In e l -> exists c, dw s e c <> szero A) -> length l <= K) /\
  (* no holes *)
  (forall s e c c', s < S -> dw s e c <> szero A -> c' < c ->
     exists s', s' < S /\ dw s' e c' = sone A) /\
  (* the combine weight is the gate in the slot and 0 elsewhere *)
  (forall s e c, s < S -> cw s e c = szero A \/ (dw s e c = sone A /\ cw s e c = gates s e)).
Proof.
  intros HS HK HE Hd.
  destruct (einsum_weights L S E K C gates bp HS HK HE) as (dw' & cw' & Hd' & Hw).
  rewrite Hd in Hd'. inversion Hd'; subst dw' cw'. clear Hd'.
  set (ch := fun s k => nth k (top_k (sleb A) E K (gates s)) 0).
  assert (Hch : forall s, s < S -> best_choices E K (gates s) (ch s))
    by (intros; apply (best_choices_top_k L); auto).
  specialize (Hw ch Hch).
  assert (Hnz : forall s e c, s < S -> dw s e c <> szero A ->
    exists k, k < K /\ ch s k = e /\ competitors bp S E K gates ch s k = c).
  { intros s e c Hs Hn. destruct (Hw s e c Hs) as [Heq _]. rewrite Heq in Hn.
    destruct (existsb _ _) eqn:Ex; [|simpl in Hn; congruence].
    apply existsb_exists in Ex. destruct Ex as (k & Hk & Hb). apply in_seq in Hk.
    exists k. lia. }
  assert (Hone : forall s k, s < S -> k < K ->
    dw s (ch s k) (competitors bp S E K gates ch s k) = sone A).
  { intros s k Hs Hk. destruct (Hw s (ch s k) (competitors bp S E K gates ch s k) Hs) as [-> _].
    replace (existsb _ _) with true; auto. symmetry. apply existsb_exists.
    exists k. split; [apply in_seq; lia|]. now rewrite !Nat.eqb_refl. }
  assert (Hpick : forall (P : nat -> nat -> Prop) (l : list nat),
    (forall x, In x l -> exists y, P x y) ->
    exists m, length m = length l /\ Forall2 P l m).
  { intros P l. induction l as [|x l IH]; intros H.
    - exists []. split; auto.
    - destruct IH as (m & Hm & HF); [intros; apply H; right; auto|].
      destruct (H x (or_introl eq_refl)) as (y & Hy).
      exists (y :: m). simpl. split; auto. }
  assert (Hnd2 : forall (P : nat -> nat -> Prop) l m,
    Forall2 P l m -> NoDup l -> (forall x x' y, In x l -> In x' l -> P x y -> P x' y -> x = x') ->
    NoDup m).
  { intros P l m HF. induction HF as [|x y l m Hxy HF IH]; intros Hnd Hinj; [constructor|].
    inversion Hnd; subst. constructor.
    - intros Hin. clear IH.
      assert (exists x', In x' l /\ P x' y) as (x' & Hx' & HP).
      { clear - HF Hin. induction HF; [inversion Hin|]. destruct Hin as [<-|Hin].
        exists x; split; [left; auto|auto].
        destruct (IHHF Hin) as (x' & ? & ?). exists x'; split; [right; auto|auto]. }
      assert (x = x') by (eapply Hinj; eauto; [left; auto|right; auto]). subst. auto.
    - apply IH; auto. intros; eapply Hinj; eauto; right; auto. }
  assert (Hbound : forall (P : nat -> nat -> Prop) l n,
    NoDup l -> (forall x, In x l -> exists y, y < n /\ P x y) ->
    (forall x x' y, In x l -> In x' l -> P x y -> P x' y -> x = x') -> length l <= n).
  { intros P l n Hnd Hex Hinj.
    destruct (Hpick (fun x y => y < n /\ P x y) l Hex) as (m & Hm & HF).
    rewrite <- Hm, <- (seq_length n 0). apply NoDup_incl_length.
    - eapply Hnd2; eauto. intros x x' y Hx Hx' [_ H1] [_ H2]. eauto.
    - clear - HF. intros y Hy. induction HF; [inversion Hy|]. destruct Hy as [<-|Hy]; auto.
      apply in_seq. lia. }
  assert (Hshare : forall s s' e c, s < S -> s' < S -> dw s e c <> szero A -> dw s' e c <> szero A -> s = s').
  { intros s s' e c Hs Hs' H1 H2.
    destruct (Hnz s e c Hs H1) as (k & Hk & Hke & Hkc).
    destruct (Hnz s' e c Hs' H2) as (k' & Hk' & Hke' & Hkc').
    apply (competitors_inj L bp S E K gates ch s k s' k'); auto; congruence. }
  split; [exact Hshare|]. split; [|split; [|split; [|split]]].
  - intros s e c c' Hs H1 H2.
    destruct (Hnz s e c Hs H1) as (k & Hk & Hke & Hkc).
    destruct (Hnz s e c' Hs H2) as (k' & Hk' & Hke' & Hkc').
    assert (k = k') by (apply (best_choices_inj L (gates s) E K (ch s) (Hch s Hs)); auto; congruence).
    congruence.
  - intros e l Hnd Hl. apply (Hbound (fun s c => s < S /\ dw s e c <> szero A) l C Hnd).
    + intros s Hs. destruct (Hl s Hs) as (Hss & c & Hc & Hcd). exists c. auto.
    + intros s s' c _ _ [Hs H1] [Hs' H2]. eapply Hshare; eauto.
  - intros s l Hs Hnd Hl. apply (Hbound (fun e k => ch s k = e) l K Hnd).
    + intros e He. destruct (Hl e He) as (c & Hc).
      destruct (Hnz s e c Hs Hc) as (k & Hk & Hke & _). exists k; auto.
    + intros; congruence.
  - intros s e c c' Hs H1 Hc'.
    destruct (Hnz s e c Hs H1) as (k & Hk & Hke & Hkc).
    destruct (competitors_no_holes L bp S E K gates ch s k c' Hs Hk ltac:(lia))
      as (s' & k' & X1 & X2 & X3 & _ & X5).
    exists s'. split; auto. rewrite <- Hke, <- X3, <- X5. apply Hone; auto.
  - intros s e c Hs. destruct (Hw s e c Hs) as [H1 H2]. rewrite H2.
    destruct (existsb _ _) in H1; simpl in H1; rewrite H1.
    + right. split; auto. apply (mul_one _ L).
    + left. apply (mul_zero _ L).
Qed.

(** Slots of the indices dispatcher. *)
Lemma indices_slots {A : alg} (L : alg_laws A) S E K (gates : nat -> nat -> sc A) bp ie ib w :
  1 <= S -> 1 <= K -> K <= E ->
  top_experts_indices S E K gates bp = Some (ie, ib, w) ->
  (forall s k s' k', s < S -> k < K -> s' < S -> k' < K ->
     ie s k = ie s' k' -> ib s k = ib s' k' -> s = s' /\ k = k') /\
  (forall s k k', s < S -> k < K -> k' < K -> ie s k = ie s k' -> k = k') /\
  (forall s k, s < S -> k < K -> ie s k < E /\ (0 <= ib s k)%Z /\ w s k = gates s (ie s k)) /\
  (forall s k n, s < S -> k < K -> (0 <= n < ib s k)%Z ->
     exists s' k', s' < S /\ k' < K /\ ie s' k' = ie s k /\ ib s' k' = n).
Proof.
  intros HS HK HE Hd.
  destruct (indices_weights L S E K gates bp HS HK HE) as (ie' & ib' & w' & Hd' & Hw).
  rewrite Hd in Hd'. inversion Hd'; subst ie' ib' w'. clear Hd'.
  set (ch := fun s k => nth k (top_k (sleb A) E K (gates s)) 0).
  assert (Hch : forall s, s < S -> best_choices E K (gates s) (ch s))
    by (intros; apply (best_choices_top_k L); auto).
  specialize (Hw ch Hch). repeat split.
  - destruct (Hw s k H H0) as (E1 & E2 & _). destruct (Hw s' k' H1 H2) as (E3 & E4 & _).
    apply (competitors_inj L bp S E K gates ch s k s' k'); auto; try congruence. lia.
  - destruct (Hw s k H H0) as (E1 & E2 & _). destruct (Hw s' k' H1 H2) as (E3 & E4 & _).
    apply (competitors_inj L bp S E K gates ch s k s' k'); auto; try congruence. lia.
  - intros s k k' Hs Hk Hk' He. destruct (Hw s k Hs Hk) as (E1 & _). destruct (Hw s k' Hs Hk') as (E2 & _).
    apply (best_choices_inj L (gates s) E K (ch s) (Hch s Hs)); auto; congruence.
  - destruct (Hw s k H H0) as (-> & _). destruct (Hch s H) as (Hr & _). auto.
  - destruct (Hw s k H H0) as (_ & -> & _). lia.
  - destruct (Hw s k H H0) as (-> & _ & ->). auto.
  - intros s k n Hs Hk Hn. destruct (Hw s k Hs Hk) as (E1 & E2 & _).
    destruct (competitors_no_holes L bp S E K gates ch s k (Z.to_nat n) Hs Hk ltac:(lia))
      as (s' & k' & X1 & X2 & X3 & _ & X5).
    exists s', k'. destruct (Hw s' k' X1 X2) as (E3 & E4 & _). repeat split; auto; try congruence. lia.
Qed.

(** Interchangeability. *)
Lemma dispatchers_agree {A : alg} (L : alg_laws A) G S E K C
  (gates : nat -> nat -> nat -> sc A) bp :
  1 <= S -> 1 <= K -> K <= E ->
  exists d i, einsum_dispatcher_of S E K C gates bp = Some d /\
    indices_dispatcher_of S E K gates bp = Some i /\
    (forall data e j, e < E -> j < G * C ->
       einsum_do_dispatch G S E C d data e j = indices_do_dispatch G S K E C i data e j) /\
    (forall h g s, g < G -> s < S ->
       einsum_do_combine G S E C (G * C) d h g s = indices_do_combine G S K E C (G * C) i h g s).
Proof.
  intros HS HK HE.
  destruct (einsum_dispatcher_spec L S E K C gates bp HS HK HE) as (d & Hd & _).
  destruct (indices_dispatcher_spec L S E K gates bp HS HK HE) as (i & Hi & _).
  destruct (choices_exist L S E K gates HE) as (ch & Hch).
  exists d, i. repeat split; auto.
  - intros data e j He Hj. destruct (a2a_cell G E C j ltac:(lia) Hj) as (g & c & Hg & Hc & ->).
    erewrite einsum_dispatch_cell by eauto. erewrite indices_dispatch_cell by eauto. reflexivity.
  - intros h g s Hg Hs.
    erewrite einsum_combine_gathered by eauto. erewrite indices_combine_gathered by eauto. reflexivity.
Qed.

Lemma a2a_layout G E C : 1 <= E ->
  exists pos inv : nat -> nat,
    (forall g, g < G -> pos g < G /\ inv (pos g) = g) /\
    (forall j, j < G -> inv j < G /\ pos (inv j) = j) /\
    forall (T : Type),
      (forall (f : nat -> nat -> nat -> T) g e c, g < G -> e < E -> c < C ->
         dispatch_a2a G E C f e (pos g * C + c) = f g e c) /\
      (forall (h : nat -> nat -> T) g e c, g < G -> e < E -> c < C ->
         receive_a2a E G (G * C) h g e c = h e (pos g * C + c)) /\
      (forall (f : nat -> nat -> nat -> T) g e c, g < G -> e < E -> c < C ->
         receive_a2a E G (G * C) (dispatch_a2a G E C f) g e c = f g e c) /\
      (forall (h : nat -> nat -> T) e j, e < E -> j < G * C ->
         dispatch_a2a G E C (receive_a2a E G (G * C) h) e j = h e j).
Proof.
  intros HE. exists (a2a_pos G E), (a2a_inv G E).
  split; [intros; apply a2a_pos_inv; auto|].
  split; [intros; apply a2a_inv_pos; auto|].
  intros T. split; [intros; apply dispatch_at; auto|].
  split; [intros; apply receive_at; auto|]. split.
  - intros. rewrite receive_at by auto. apply dispatch_at; auto.
  - intros h e j He Hj. destruct (a2a_cell G E C j HE Hj) as (g & c & Hg & Hc & ->).
    rewrite dispatch_at by auto. apply receive_at; auto.
Qed.

Lemma top_items_full {A : alg} (L : alg_laws A) G S E C (gates : nat -> nat -> nat -> sc A) :
  1 <= E ->
  (S < C -> top_items_dispatcher_of S E C gates = None) /\
  (C <= S ->
   (exists ch, forall g e, e < E -> best_choices S C (fun s => gates g s e) (ch g e)) /\
   exists d dw, top_items_dispatcher_of S E C gates = Some d /\ ed_dispatch d = Some dw /\
   forall ch, (forall g e, e < E -> best_choices S C (fun s => gates g s e) (ch g e)) ->
     (forall g s e c, e < E -> c < C ->
        dw g s e c = b2s A (ch g e c =? s) /\
        ed_combine d g s e c = smul A (gates g s e) (b2s A (ch g e c =? s))) /\
     (forall g e c c', e < E -> c < C -> c' < C -> ch g e c = ch g e c' -> c = c') /\
     (forall (f : nat -> vec A -> vec A) (F : nat -> (nat -> vec A) -> nat -> vec A),
      (forall e buf j, F e buf j = f e (buf j)) ->
      forall data g s, g < G -> s < S ->
        sparse_moe (einsum_do_dispatch G S E C d) (einsum_do_combine G S E C (G * C) d) F data g s
        = top_items_output E C (gates g) (ch g) f (data g) s)).
Proof.
  intros HE. split.
  - intros H. unfold top_items_dispatcher_of. rewrite top_items_fails; auto.
  - intros HC. pose proof (top_items_choices_exist L S E C HC gates) as (ch0 & Hch0).
    split; [exists ch0; exact Hch0|].
    destruct (top_items_dispatcher_spec L S E C HC gates ch0 Hch0) as (d & Hd & dw & Hdw & _).
    exists d, dw. split; [exact Hd|]. split; [exact Hdw|].
    intros ch Hch.
    destruct (top_items_dispatcher_spec L S E C HC gates ch Hch) as (d' & Hd' & dw' & Hdw' & Hs).
    rewrite Hd in Hd'. inversion Hd'; subst d'. rewrite Hdw in Hdw'. inversion Hdw'; subst dw'.
    split; [exact Hs|]. split.
    + intros g e c c' He. apply (best_choices_inj L _ S C (ch g e) (Hch g e He)).
    + intros f F HF data g s Hg Hs'.
      apply (top_items_layer L S E C HC G gates ch HE Hch f F HF d data g s); auto.
Qed.

Lemma factory_arguments S E K name mode mult :
  (top_experts_factory S E K name None None mode mult = Raise ValueError /\
   top_items_factory S E name None None mode mult = Raise ValueError) /\
  (forall c f, top_experts_factory S E K name (Some c) (Some f) mode mult = Raise ValueError /\
               top_items_factory S E name (Some c) (Some f) mode mult = Raise ValueError) /\
  (forall c, c <> 0%Z ->
     top_experts_factory S E K name (Some c) None mode mult
       = match name with NameOther => Raise ValueError | _ => Ok (name, c) end /\
     top_items_factory S E name (Some c) None mode mult
       = match name with NameEinsum => Ok (name, c) | _ => Raise ValueError end) /\
  (exists e, top_experts_factory S E K name (Some 0%Z) None mode mult = Raise e /\
             top_items_factory S E name (Some 0%Z) None mode mult = Raise e) /\
  (forall f k c, top_experts_factory S E K name None (Some f) mode mult = Ok (k, c) <->
     k = name /\ name <> NameOther /\
     compute_capacity (Z.of_nat (S * K)) (Z.of_nat E) f mode mult = Ok c) /\
  (forall f k c, top_items_factory S E name None (Some f) mode mult = Ok (k, c) <->
     k = name /\ name = NameEinsum /\
     compute_capacity (Z.of_nat S) (Z.of_nat E) f mode mult = Ok c).
Proof.
  unfold top_experts_factory, top_items_factory, resolve_capacity.
  split; [split; reflexivity|]. split; [split; reflexivity|]. split; [|split; [|split]].
  - intros c Hc. replace (c =? 0)%Z with false by lia. destruct name; split; reflexivity.
  - destruct mode; eexists; split; reflexivity.
  - intros f k c. rewrite Nat2Z.inj_mul.
    destruct (compute_capacity (Z.of_nat S * Z.of_nat K) (Z.of_nat E) f mode mult) as [c0|e0];
      destruct name; split; intros H; try discriminate;
      try (inversion H; subst; repeat split; congruence);
      destruct H as (-> & H1 & H2); congruence.
  - intros f k c.
    destruct (compute_capacity (Z.of_nat S) (Z.of_nat E) f mode mult) as [c0|e0];
      destruct name; split; intros H; try discriminate;
      try (inversion H; subst; repeat split; congruence);
      destruct H as (-> & H1 & H2); congruence.
Qed.
