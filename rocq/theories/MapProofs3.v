(** Proof of C29. *)
From Coq Require Import List Arith ZArith QArith Bool Lia Permutation Sorted.
From Verif Require Import Py PyLemmas TreeModel TreeSpec TreeProofs TreeProofs2 TreeProofs3 MapModel MapSpec MapProofs MapProofs2.
Import ListNotations.
Local Open Scope nat_scope.

(** ** Comparisons *)
Record good {T} (cmp : T -> T -> comparison) : Prop := {
  g_sym : forall a b, cmp b a = CompOpp (cmp a b);
  g_eq : forall a b c, cmp a b = Eq -> cmp a c = cmp b c;
  g_lt : forall a b c, cmp a b = Lt -> cmp b c = Lt -> cmp a c = Lt }.

Lemma good_nat : good Nat.compare.
Proof.
  constructor.
  - intros a b. apply Nat.compare_antisym.
  - intros a b c E. apply Nat.compare_eq in E. subst. auto.
  - intros a b c. rewrite !Nat.compare_lt_iff. lia.
Qed.
Lemma good_Q : good Qcompare.
Proof.
  constructor.
  - intros a b. symmetry. apply Qcompare_antisym.
  - intros a b c E. apply Qeq_alt in E. rewrite E. auto.
  - intros a b c. rewrite <- !Qlt_alt. apply Qlt_trans.
Qed.

(** Lexicographic combination. *)
Definition lex (c d : comparison) : comparison := match c with Eq => d | _ => c end.
Lemma good_lex {T U} (c1 : T -> T -> comparison) (c2 : U -> U -> comparison) :
  good c1 -> good c2 -> good (fun a b : T * U => lex (c1 (fst a) (fst b)) (c2 (snd a) (snd b))).
Proof.
  intros [S1 E1 L1] [S2 E2 L2]. constructor.
  - intros [a a'] [b b']. simpl. rewrite (S1 a b), (S2 a' b'). destruct (c1 a b); auto.
  - intros [a a'] [b b'] [c c']. simpl. destruct (c1 a b) eqn:X; simpl; try discriminate. intros Y. rewrite (E1 a b c X), (E2 a' b' c' Y). auto.
  - intros [a a'] [b b'] [c c']. simpl. intros X Y. destruct (c1 a b) eqn:X1; simpl in X; try discriminate.
    + rewrite (E1 a b c X1). destruct (c1 b c); simpl in *; try discriminate; eauto.
    + destruct (c1 b c) eqn:Y1; simpl in Y; try discriminate.
      * assert (K : c1 a c = Lt). { rewrite (S1 c a). rewrite <- (E1 b c a) by auto. rewrite (S1 a b), X1. auto. } rewrite K. auto.
      * rewrite (L1 a b c); auto.
Qed.
Section Lists.
Context {T : Type} (cmp : T -> T -> comparison) (G : good cmp).
Fixpoint list_cmp (a b : list T) : comparison :=
  match a, b with
  | [], [] => Eq
  | [], _ :: _ => Lt
  | _ :: _, [] => Gt
  | x :: a, y :: b => lex (cmp x y) (list_cmp a b)
  end.
Lemma good_list : good list_cmp.
Proof using G.
  destruct G as [S1 E1 L1]. constructor.
  - induction a as [|x a IH]; intros [|y b]; simpl; auto. rewrite (S1 x y), (IH b). destruct (cmp x y); auto.
  - induction a as [|x a IH]; intros [|y b] [|z c]; simpl; try discriminate; auto. destruct (cmp x y) eqn:X; simpl; try discriminate.
    intros Y. rewrite (E1 x y z X), (IH b c Y). auto.
  - induction a as [|x a IH]; intros [|y b] [|z c]; simpl; try discriminate; auto. intros X Y. destruct (cmp x y) eqn:X1; simpl in X; try discriminate.
    + rewrite (E1 x y z X1). destruct (cmp y z); simpl in *; try discriminate; eauto.
    + destruct (cmp y z) eqn:Y1; simpl in Y; try discriminate.
      * assert (K : cmp x z = Lt). { rewrite (S1 z x). rewrite <- (E1 y z x) by auto. rewrite (S1 x y), X1. auto. } rewrite K. auto.
      * rewrite (L1 x y z); auto.
Qed.
End Lists.
Lemma str_cmp_list a : forall b, str_cmp a b = list_cmp Nat.compare a b.
Proof. induction a as [|x a IH]; intros [|y b]; simpl; auto. rewrite IH. destruct (Nat.compare x y); auto. Qed.
Definition pair_cmp (a b : Q * str) : comparison := lex (Qcompare (fst a) (fst b)) (list_cmp Nat.compare (snd a) (snd b)).
Lemma pairs_cmp_list a : forall b, pairs_cmp a b = list_cmp pair_cmp a b.
Proof.
  induction a as [|[x s] a IH]; intros [|[y t] b]; simpl; auto. unfold pair_cmp. simpl. rewrite IH, <- str_cmp_list. destruct (Qcompare x y); simpl; auto.
  destruct (str_cmp s t); auto.
Qed.
Definition key_cmp (a b : str * list (Q * str)) : comparison :=
  lex (list_cmp Nat.compare (fst a) (fst b)) (list_cmp pair_cmp (snd a) (snd b)).
Lemma good_key : good key_cmp.
Proof.
  apply (good_lex (list_cmp Nat.compare) (list_cmp pair_cmp)); [apply good_list, good_nat|]. apply good_list.
  apply (good_lex Qcompare (list_cmp Nat.compare)); [apply good_Q|apply good_list, good_nat].
Qed.
Lemma key_leb_cmp a b : key_leb a b = true <-> key_cmp a b <> Gt.
Proof.
  unfold key_leb, key_cmp. rewrite str_cmp_list, pairs_cmp_list. destruct (list_cmp Nat.compare (fst a) (fst b)); simpl.
  - destruct (list_cmp pair_cmp (snd a) (snd b)); split; congruence.
  - split; congruence.
  - split; congruence.
Qed.
Lemma good_trans {T} (cmp : T -> T -> comparison) : good cmp -> forall a b c, cmp a b <> Gt -> cmp b c <> Gt -> cmp a c <> Gt.
Proof.
  intros [S1 E1 L1] a b c X Y. destruct (cmp a b) eqn:X1; [| |contradiction].
  - rewrite (E1 a b c X1). auto.
  - destruct (cmp b c) eqn:Y1; [| |contradiction].
    + rewrite (S1 c a). rewrite <- (E1 b c a) by auto. rewrite (S1 a b), X1. discriminate.
    + rewrite (L1 a b c); auto.
Qed.

(** ** Sorting *)
Lemma sort_by_sorted {T} (leb : T -> T -> bool) l : (forall a b, leb a b = false -> leb b a = true) ->
  (forall a b c, leb a b = true -> leb b c = true -> leb a c = true) -> StronglySorted (fun a b => leb a b = true) (sort_by leb l).
Proof.
  intros To Tr. induction l as [|x l IH]; simpl; [constructor|]. induction IH as [|y m S IHS F]; simpl. { repeat constructor. }
  destruct (leb x y) eqn:E.
  - constructor; [constructor; auto|]. constructor; auto. rewrite Forall_forall in *. intros z I. eauto.
  - constructor; auto. rewrite Forall_forall in *. intros z I. apply Permutation_in with (l' := x :: m) in I; [|apply insert_by_perm].
    destruct I as [<-|I]; auto.
Qed.
Lemma natural_sorted l : StronglySorted (fun a b => key_cmp (split_keys a) (split_keys b) <> Gt) (natural_sort l).
Proof.
  assert (H : StronglySorted (fun a b => key_leb (split_keys a) (split_keys b) = true) (natural_sort l)).
  { apply sort_by_sorted.
    - intros a b E. apply key_leb_cmp. intros K. rewrite (g_sym _ good_key) in K. assert (N : key_leb (split_keys a) (split_keys b) = true); [|congruence].
      apply key_leb_cmp. intros K2. rewrite K2 in K. discriminate.
    - intros a b c. rewrite !key_leb_cmp. apply good_trans, good_key. }
  induction H as [|a m S IH F]; constructor; auto. rewrite Forall_forall in *. intros b I. apply key_leb_cmp. auto.
Qed.
Lemma sorted_filter {T} (R : T -> T -> Prop) f l : StronglySorted R l -> StronglySorted R (filter f l).
Proof.
  induction 1 as [|a l S IH F]; simpl; [constructor|]. destruct (f a); auto. constructor; auto. rewrite Forall_forall in *. intros b I. apply filter_In in I. apply F. tauto.
Qed.

(** ** Splitting names *)
Definition digit (c : nat) : Prop := 48 <= c <= 57.
Lemma is_digit_true c : is_digit c = true <-> digit c.
Proof. unfold is_digit, digit. rewrite andb_true_iff, !Nat.leb_le. tauto. Qed.
Lemma is_digit_false c : is_digit c = false <-> ~ digit c.
Proof. rewrite <- not_true_iff_false, is_digit_true. tauto. Qed.

Definition starts (P : nat -> Prop) (s : str) : Prop := match s with [] => False | c :: _ => P c end.
Lemma span_text s : ~ starts digit s -> span_digits s = ([], s).
Proof. destruct s as [|c s]; simpl; auto. intros N. apply is_digit_false in N. rewrite N. auto. Qed.
Lemma span_number ds : forall s, Forall digit ds -> ~ starts digit s -> span_digits (ds ++ s) = (ds, s).
Proof.
  induction ds as [|c ds IH]; intros s F N; simpl. { apply span_text; auto. }
  inversion F; subst. apply is_digit_true in H1. rewrite H1, IH; auto.
Qed.

Lemma mantissa_text v rest : no_digit v -> (v <> [] /\ not_last [46] v) \/ rest = [] -> mantissa (v ++ rest) = None.
Proof.
  intros ND H. unfold mantissa. destruct v as [|c v].
  { destruct H as [[H _]|H]; [contradiction|]. subst rest. auto. }
  inversion ND; subst. simpl. assert (Nc : is_digit c = false) by (apply is_digit_false; auto). rewrite Nc.
  destruct (c =? c_dot) eqn:Ec; auto. apply Nat.eqb_eq in Ec. subst c.
  rewrite span_text; auto. destruct v as [|c v]; simpl.
  - destruct H as [[_ H]| ->]; auto. exfalso. apply (H 46 (or_introl eq_refl) []). auto.
  - inversion H3; subst. auto.
Qed.
Lemma not_last_tail cs c v : v <> [] -> not_last cs (c :: v) -> not_last cs v.
Proof. intros Nv H d I u E. apply (H d I (c :: u)). rewrite E. auto. Qed.
Lemma not_last_incl cs cs' v : incl cs cs' -> not_last cs' v -> not_last cs v.
Proof. intros Ic H d I. apply H. auto. Qed.
Lemma number_at_text v rest : v <> [] -> no_digit v -> not_last [43; 45; 46] v \/ rest = [] -> number_at (v ++ rest) = None.
Proof.
  intros Nv ND H. unfold number_at. destruct v as [|c v]; [contradiction|].
  assert (K : mantissa ((c :: v) ++ rest) = None).
  { apply mantissa_text; auto. destruct H as [H|H]; auto. left. split; auto. eapply not_last_incl; [|exact H]. intros x [<-|[]]; simpl; auto. }
  assert (K2 : c = 43 \/ c = 45 -> mantissa (v ++ rest) = None).
  { intros Ec. apply mantissa_text; [inversion ND; auto|]. destruct H as [H|H]; auto. left. assert (v <> []).
    { intros ->. destruct Ec as [->| ->]; [apply (H 43 ltac:(simpl; auto) [])|apply (H 45 ltac:(simpl; auto) [])]; auto. }
    split; auto. eapply not_last_incl; [|eapply not_last_tail; eauto]. intros x [<-|[]]; simpl; auto. }
  simpl opt_sign. unfold c_minus, c_plus. destruct (c =? 45) eqn:E1; [apply Nat.eqb_eq in E1; rewrite K2; auto|].
  destruct (c =? 43) eqn:E2; [apply Nat.eqb_eq in E2; rewrite K2; auto|]. simpl app in K. rewrite K. auto.
Qed.

Lemma number_at_number ds rest n : numeral ds n -> ~ starts digit rest -> ~ starts (eq 46) rest -> exponent rest = (0%Z, rest) ->
  exists q, number_at (ds ++ rest) = Some (q, rest) /\ (q == inject_Z n)%Q.
Proof.
  intros [Ne [F ->]] N1 N2 Ex. unfold number_at.
  assert (Es : opt_sign (ds ++ rest) = (false, ds ++ rest)).
  { destruct ds as [|c ds]; [contradiction|]. inversion F; subst. simpl. unfold c_minus, c_plus. destruct (c =? 45) eqn:E1; [apply Nat.eqb_eq in E1; lia|].
    destruct (c =? 43) eqn:E2; [apply Nat.eqb_eq in E2; lia|]. auto. }
  rewrite Es.
  assert (Em : mantissa (ds ++ rest) = Some (ds, [], rest)).
  { unfold mantissa. rewrite span_number; auto. destruct ds as [|d ds]; [contradiction|]. destruct rest as [|c rest]; auto.
    destruct (c =? c_dot) eqn:E; auto. apply Nat.eqb_eq in E. exfalso. apply N2. simpl. auto. }
  rewrite Em, Ex. eexists. split; [reflexivity|]. rewrite app_nil_r. cbn [length Z.of_nat]. change (0 - 0)%Z with 0%Z. change (Qpower 10 0) with 1%Q. rewrite Qmult_1_r.
  unfold digits_value. reflexivity.
Qed.

(** The text after a number does not continue it. *)
Lemma exponent_text t rest : no_digit t -> (t <> [] /\ not_last [43; 45; 46] t /\ t <> [101] /\ t <> [69]) \/ rest = [] ->
  exponent (t ++ rest) = (0%Z, t ++ rest).
Proof.
  intros ND H. destruct t as [|c t]. { destruct H as [[H _]|H]; [contradiction|subst; auto]. }
  simpl. destruct (is_e c) eqn:Ee; auto. inversion ND; subst.
  assert (Ht : t <> [] \/ rest = []).
  { destruct H as [[_ [_ [H1 H4]]]|H]; auto. left. intros ->. unfold is_e in Ee. apply orb_true_iff in Ee. destruct Ee as [E|E]; apply Nat.eqb_eq in E; subst c; auto. }
  assert (Sp : forall v, no_digit v -> (v <> [] \/ rest = []) -> span_digits (v ++ rest) = ([], v ++ rest)).
  { intros v Nv Hv. apply span_text. destruct v as [|d v]; simpl. { destruct Hv as [Hv| ->]; [contradiction|]. auto. } inversion Nv; auto. }
  destruct (opt_sign (t ++ rest)) as [neg r1] eqn:Eo.
  assert (K : exists v, r1 = v ++ rest /\ no_digit v /\ (v <> [] \/ rest = [])).
  { destruct t as [|d t].
    - destruct Ht as [Ht|Ht]; [contradiction|]. subst rest. simpl in Eo. injection Eo as <- <-. exists []. auto.
    - simpl in Eo. assert (Ks : d = 45 \/ d = 43 -> t <> [] \/ rest = []).
      { intros Ed. destruct H as [[_ [H _]]|H]; auto. left. intros ->. destruct Ed as [->| ->]; [apply (H 45 ltac:(simpl; auto) [c])|apply (H 43 ltac:(simpl; auto) [c])]; auto. }
      unfold c_minus, c_plus in Eo. inversion H3; subst. destruct (d =? 45) eqn:E1.
      { apply Nat.eqb_eq in E1. injection Eo as <- <-. exists t. auto. }
      destruct (d =? 43) eqn:E2. { apply Nat.eqb_eq in E2. injection Eo as <- <-. exists t. auto. }
      injection Eo as <- <-. exists (d :: t). auto. }
  destruct K as [v [-> [Nv Hv]]]. rewrite Sp; auto.
Qed.

Lemma split_text t : forall rest fuel, no_digit t -> not_last [43; 45; 46] t \/ rest = [] -> length (t ++ rest) < fuel ->
  split_keys_ fuel (t ++ rest) = (t ++ fst (split_keys_ (fuel - length t) rest), snd (split_keys_ (fuel - length t) rest)).
Proof.
  induction t as [|c t IH]; intros rest fuel ND H L.
  - cbn [app length]. rewrite Nat.sub_0_r. destruct (split_keys_ fuel rest); auto.
  - destruct fuel as [|fuel]; [lia|]. cbn [split_keys_]. rewrite number_at_text by (auto; discriminate). cbn [app]. simpl in L. inversion ND; subst.
    rewrite (IH rest fuel); auto; try lia. destruct H as [H|H]; auto. left. destruct t; [intros d I u E; destruct u; discriminate|].
    eapply not_last_tail; eauto; discriminate.
Qed.

Lemma split_numbered t0 ts ns name : numbered t0 ts ns name -> clean t0 ts -> forall fuel, length name < fuel ->
  exists qs, split_keys_ fuel name = (t0, qs) /\ Forall2 (fun (nt : Z * str) (qt : Q * str) => (fst qt == inject_Z (fst nt))%Q /\ snd qt = snd nt) (combine ns ts) qs.
Proof.
  induction 1 as [t0|t0 ds n t ts ns rest Nm H IH]; intros [C1 [C2 C3]] fuel L.
  - exists []. split; [|constructor]. rewrite <- (app_nil_r t0) at 1. rewrite split_text; rewrite ?app_nil_r; auto.
    destruct (fuel - length t0) eqn:E; simpl; rewrite ?app_nil_r; auto.
  - rewrite split_text; auto; [|left; apply C2; discriminate].
    rewrite !app_length in L. assert (Dl : 0 < length ds) by (destruct Nm as [Nm _]; destruct ds; [contradiction|simpl; lia]).
    destruct (fuel - length t0) as [|f] eqn:Ef; [lia|]. cbn [split_keys_].
    assert (Cr : clean t ts).
    { destruct ts as [|t' ts]; simpl in C3; repeat split; tauto. }
    assert (Rs : exists rr, rest = t ++ rr /\ (rr = [] \/ ts <> [])).
    { inversion H; subst; [exists []; rewrite app_nil_r; auto|]. eexists. split; [reflexivity|]. right. discriminate. }
    destruct Rs as [rr [Er Hr]].
    assert (Ct : no_digit t /\ not_first [46] t) by (destruct ts; simpl in C3; tauto).
    assert (Ct2 : ts <> [] -> t <> [] /\ not_last [43; 45; 46] t /\ t <> [101] /\ t <> [69]) by (destruct ts; simpl in C3; [contradiction|tauto]).
    assert (Hs : forall P : nat -> Prop, (forall c u, t = c :: u -> ~ P c) -> ~ starts P rest).
    { intros P HP. subst rest. destruct t as [|c u]; simpl; [|apply (HP c u); auto]. destruct Hr as [->|Hr]; simpl; auto. destruct (Ct2 Hr) as [K _]. contradiction. }
    destruct (number_at_number ds rest n Nm) as [q [Eq Qq]].
    + apply Hs. intros c u ->. destruct Ct as [Ct _]. inversion Ct; auto.
    + apply Hs. intros c u -> <-. destruct Ct as [_ Ct]. apply (Ct 46 (or_introl eq_refl) u). auto.
    + subst rest. apply exponent_text; [tauto|]. destruct Hr as [->|Hr]; auto.
    + rewrite Eq. destruct (IH Cr f) as [qs [Es Fs]]; [lia|]. rewrite Es. simpl. exists ((q, t) :: qs). rewrite app_nil_r. split; auto.
Qed.
Lemma numbered_len t0 ts ns name : numbered t0 ts ns name -> length ns = length ts.
Proof. induction 1; simpl; auto. Qed.

Lemma numbered_order t0 ts na nb a b : clean t0 ts -> numbered t0 ts na a -> numbered t0 ts nb b ->
  key_cmp (split_keys a) (split_keys b) <> Gt -> num_le na nb.
Proof.
  intros C Ha Hb. unfold split_keys.
  destruct (split_numbered _ _ _ _ Ha C (S (length a))) as [qa [-> Fa]]; [lia|].
  destruct (split_numbered _ _ _ _ Hb C (S (length b))) as [qb [-> Fb]]; [lia|].
  apply numbered_len in Ha, Hb. unfold key_cmp. simpl.
  assert (Re : forall s, list_cmp Nat.compare s s = Eq) by (intros s; induction s as [|c s IH]; simpl; auto; rewrite Nat.compare_refl; auto).
  rewrite Re. simpl. clear C t0 a b. revert na nb qa qb Ha Hb Fa Fb. induction ts as [|t ts IH]; intros na nb qa qb Ha Hb Fa Fb H.
  - destruct na; [constructor|discriminate].
  - destruct na as [|x na]; [discriminate|]. destruct nb as [|y nb]; [discriminate|]. simpl in Fa, Fb. inversion Fa as [|? [q s] ? ? [E1 E2] Fa']; subst. inversion Fb as [|? [r s'] ? ? [E3 E4] Fb']; subst.
    simpl in *. unfold pair_cmp at 1 in H. simpl in H. subst. rewrite Re in H. rewrite E1, E3 in H.
    assert (Ez : Qcompare (inject_Z x) (inject_Z y) = Z.compare x y) by (unfold Qcompare, inject_Z; simpl; rewrite !Z.mul_1_r; auto).
    rewrite Ez in H. destruct (Z.compare_spec x y) as [->|L|G]; simpl in H.
    + apply nl_eq. eapply IH; eauto.
    + apply nl_lt; auto.
    + contradiction.
Qed.

(** ** C29 *)
Section P.
Variable pat : Type.
Variable search : pat -> str -> bool.
Variable sub : pat -> str -> str -> str.
Variable array : Type.
Variable dtype : Type.
Variable dtype_eqb : dtype -> dtype -> bool.
Variable shape_of : array -> list nat.
Variable dtype_of : array -> dtype.
Variable astype : array -> dtype -> array.
Variable broadcast_to : array -> list nat -> res array.
Variable transform : kind -> array -> array -> res array.
Variable stack : Z -> list array -> res array.
Hypothesis dtype_eqb_spec : forall a b, reflect (a = b) (dtype_eqb a b).
Notation goes := (goes pat search sub).
Notation map_state_dict := (map_state_dict pat search sub array dtype dtype_eqb shape_of dtype_of astype broadcast_to transform stack).
Notation fitted := (fitted array dtype shape_of dtype_of astype broadcast_to).
Notation assigned := (assigned pat search sub array dtype shape_of dtype_of astype broadcast_to transform stack).
Notation named_array := (named_array array).

Lemma assigned_weaken (o1 o2 : list str -> Prop) fl us source p x y : (forall l, o1 l -> o2 l) ->
  assigned o1 fl us source p x y -> assigned o2 fl us source p x y.
Proof. intros H A. destruct A; [apply as_initialised|eapply as_single|eapply as_stacked]; eauto. Qed.
Lemma related_weaken {L M} (R S : list str -> L -> M -> Prop) : (forall p x y, R p x y -> S p x y) ->
  forall t p r, related R p t r -> related S p t r.
Proof.
  intros H t. induction t as [x|cs IH] using tree_ind'; intros p r E; inversion E; subst; constructor; auto.
  revert ds H2 E. induction cs as [|kc cs IHc]; intros ds F E; inversion F; subst; constructor.
  - inversion IH; subst. destruct H2; split; auto.
  - inversion IH; subst. apply IHc; auto. constructor. auto.
Qed.
Lemma related_leaf {L M} (R : list str -> L -> M -> Prop) t p r : related R p t r -> wf (fun _ => True) t -> forall q x, leaf_at t q x -> exists y, leaf_at r q y /\ R (p ++ q) x y.
Proof.
  intros H _ q x Hl. revert p r H. induction Hl as [x|cs k c q x I Hl IH]; intros p r H; inversion H as [? ? y Ry|? ? ds F2]; subst.
  - exists y. rewrite app_nil_r. split; auto. constructor.
  - assert (G : exists d, In (k, d) ds /\ related R (p ++ [k]) c d).
    { clear - F2 I. induction F2 as [|kc [k' d] cs ds [E1 E2] F IH]; [contradiction|]. destruct I as [->|I].
      - simpl in *. subst k'. exists d. split; auto.
      - destruct (IH I) as [d' [J K]]. exists d'. split; [right; auto|auto]. }
    destruct G as [d [J K]]. destruct (IH _ _ K) as [y [Hy Ry]]. exists y. split; [econstructor; eauto|]. rewrite <- app_assoc in Ry. auto.
Qed.

Lemma stack_order fl us source target out p x t0 ts : wf no_slash source -> wf (fun _ => True) target ->
  map_state_dict fl us source target = Ok out -> leaf_at target p x -> clean t0 ts ->
  (forall key s k, named_array source key s -> goes us key k (join p) -> exists ns, numbered t0 ts ns key) ->
  (exists key s k, named_array source key s /\ goes us key k (join p) /\ stacks k) ->
  exists axis l w y, leaf_at out p y /\ NoDup (map fst l) /\
    (forall key s, In (key, s) l <-> named_array source key s /\ exists k, goes us key k (join p)) /\
    StronglySorted (fun a b => forall na nb, numbered t0 ts na a -> numbered t0 ts nb b -> num_le na nb) (map fst l) /\
    stack axis (map snd l) = Ok w /\ fitted fl w x y.
Proof using dtype_eqb_spec.
  intros Ws Wt E Lx C Hn [key0 [s0 [k0 [Nm0 [Go0 St0]]]]].
  destruct (map_ok _ _ _ _ _ _ _ _ _ _ _ _ dtype_eqb_spec _ _ _ _ _ Ws Wt E) as [R _].
  destruct (related_leaf _ _ _ _ R Wt p x Lx) as [y [Ly A]]. simpl in A. destruct A as [No _|key s k w y Nm Go Ns Un T F|first t axis l w y ND [f [l0 Ord]] Iff St Hd Go Es F].
  - exfalso. apply (No key0 s0 k0); auto.
  - exfalso. pose proof (Un key0 s0 k0 Nm0 Go0). subst key0.
    unfold map_state_dict in E. destruct (map_parts _ _ _ _ _ _ _ _ _ _ _ _ _ _ _ _ _ E) as [sf [tf [rs [txs [fo [u [_ [_ [E3 _]]]]]]]]].
    apply parse_forall in E3. apply (goes_dest _ _ _ _ _ _ _ _ E3) in Go, Go0. assert (k0 = k) by congruence. subst. contradiction.
  - exists axis, l, w, y. do 3 (split; [assumption|]). split; [|split; assumption].
    rewrite Ord. assert (SF : StronglySorted (fun a b => key_cmp (split_keys a) (split_keys b) <> Gt) (filter f (natural_sort l0))) by (apply sorted_filter, natural_sorted).
    clear - SF C. induction SF as [|a m S IH Fa]; constructor; auto. rewrite Forall_forall in *. intros b I na nb Ha Hb.
    eapply numbered_order; eauto.
Qed.
End P.

Lemma map_only_matched pat (search : pat -> str -> bool) (sub : pat -> str -> str -> str) array dtype
    (dtype_eqb : dtype -> dtype -> bool) (shape_of : array -> list nat) (dtype_of : array -> dtype)
    (astype : array -> dtype -> array) (broadcast_to : array -> list nat -> res array)
    (transform : kind -> array -> array -> res array) (stack : Z -> list array -> res array) :
  (forall a b, reflect (a = b) (dtype_eqb a b)) ->
  forall fl rules source target out, wf no_slash source -> wf (fun _ => True) target ->
  map_state_dict pat search sub array dtype dtype_eqb shape_of dtype_of astype broadcast_to transform stack
    fl rules source target = Ok out ->
  related (assigned pat search sub array dtype shape_of dtype_of astype broadcast_to transform stack
             (fun _ => True) fl rules source) [] target out /\
  (raise_source fl = true -> forall key s, named_array array source key s -> ~ no_rule pat search rules key).
Proof.
  intros De fl rules source target out Ws Wt E. destruct (map_ok _ _ _ _ _ _ _ _ _ _ _ _ De _ _ _ _ _ Ws Wt E) as [R H]. split; auto.
  eapply related_weaken; [|exact R]. intros p x y A. eapply assigned_weaken; [|exact A]. auto.
Qed.
