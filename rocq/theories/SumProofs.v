From Coq Require Import String List Arith NArith ZArith Bool Lia Reals Permutation.
From Verif Require TreeModel AuxModel BaseModel BaseProofs2 TreeProofs.
From Verif Require Import PyLemmas NdArray NdLemmas TfModel SumModel SumSpec Py.
Import ListNotations.
Local Open Scope list_scope.
Local Open Scope nat_scope.

(** ** Cells *)
Lemma memb_in i l : memb i l = true <-> In i l.
Proof. unfold memb. rewrite existsb_exists. split; [intros (x & I & E); apply Nat.eqb_eq in E; subst; auto|intros I; exists i; rewrite Nat.eqb_refl; auto]. Qed.
Lemma memb_ext i l l' : (In i l <-> In i l') -> memb i l = memb i l'.
Proof. intros H. destruct (memb i l) eqn:E, (memb i l') eqn:E'; auto; [apply memb_in, H, memb_in in E|apply memb_in, H, memb_in in E']; congruence. Qed.

Fixpoint agr (axes : list nat) (k : nat) (idx c : list nat) : bool :=
  match c, idx with
  | y :: c, x :: idx => (memb k axes || (y =? x)) && agr axes (S k) idx c
  | _, _ => true
  end.
Lemma agr_forallb axes idx c : forall k, length idx = length c ->
  forallb (fun i => memb (k + i) axes || (nth i c 0 =? nth i idx 0)) (seq 0 (length c)) = agr axes k idx c.
Proof.
  revert idx. induction c as [|y c IH]; intros [|x idx] k L; try discriminate; auto. cbn [length seq forallb agr nth].
  rewrite Nat.add_0_r. f_equal. rewrite <- IH by (simpl in L; lia). rewrite <- seq_shift.
  generalize (seq 0 (length c)). intros l. induction l as [|i l IHl]; auto. cbn [map forallb]. rewrite IHl. f_equal. f_equal. f_equal. lia.
Qed.
Lemma agrees_agr axes idx c : length idx = length c -> agrees axes idx c = agr axes 0 idx c.
Proof. intros L. rewrite <- agr_forallb by auto. reflexivity. Qed.

Lemma filter_flat_map {S T} (p : T -> bool) (f : S -> list T) l : filter p (flat_map f l) = flat_map (fun x => filter p (f x)) l.
Proof. induction l; simpl; auto. rewrite filter_app, IHl. auto. Qed.
Lemma filter_map_cons (p : list nat -> bool) y l : filter p (map (cons y) l) = map (cons y) (filter (fun c => p (y :: c)) l).
Proof. induction l; simpl; auto. rewrite IHl. destruct (p (y :: a)); auto. Qed.
Lemma flat_map_single {T} (f : nat -> list T) x : forall n s, s <= x < s + n -> (forall y, y <> x -> f y = []) -> flat_map f (seq s n) = f x.
Proof.
  induction n as [|n IH]; intros s Hx Z; [lia|]. simpl. destruct (Nat.eq_dec s x) as [->|N].
  - assert (E : forall n s, x < s -> flat_map f (seq s n) = []). { clear -Z. induction n; intros s H; simpl; auto. rewrite Z, IHn by lia. auto. }
    rewrite E by lia. apply app_nil_r.
  - rewrite Z by auto. simpl. apply IH; auto. lia.
Qed.
Lemma filter_ext_in' {T} (p q : T -> bool) l : (forall x, In x l -> p x = q x) -> filter p l = filter q l.
Proof. induction l; simpl; intros H; auto. rewrite H, IHl by auto. auto. Qed.

Lemma cells_filter axes ds : forall k idx, inb (kept axes k ds) idx -> cells axes k ds idx = filter (agr axes k idx) (indices ds).
Proof.
  induction ds as [|d ds IH]; intros k idx H. { cbn. destruct idx; auto. }
  cbn [kept] in H. inversion H as [|x d' idx' ds' Hx F]; subst. cbn [cells indices]. rewrite filter_flat_map.
  assert (E : forall y, filter (agr axes k (x :: idx')) (map (cons y) (indices ds)) = if memb k axes || (y =? x) then map (cons y) (cells axes (S k) ds idx') else []).
  { intros y. rewrite filter_map_cons. cbn [agr]. rewrite IH by auto. destruct (memb k axes || (y =? x)); auto.
    cbn [andb]. clear. induction (indices ds); auto. }
  rewrite (flat_map_ext _ _ E). destruct (memb k axes) eqn:M; auto.
  cbn [flat_map orb]. rewrite app_nil_r. rewrite (flat_map_single _ x); [rewrite Nat.eqb_refl; auto|lia|].
  intros y Ny. apply Nat.eqb_neq in Ny. rewrite Ny. auto.
Qed.
Lemma kept_length axes ds : forall k, length (kept axes k ds) = length ds.
Proof. induction ds; intros k; simpl; auto. Qed.
Lemma inb_length ds idx : inb ds idx -> length idx = length ds.
Proof. apply Forall2_len. Qed.
Lemma cells_fibre a axes idx : inb (kept axes 0 (dims a)) idx -> map (at_ a) (cells axes 0 (dims a) idx) = fibre a axes idx.
Proof.
  intros H. unfold fibre. f_equal. rewrite cells_filter by auto. apply filter_ext_in'. intros c Hc. symmetry. apply agrees_agr.
  apply indices_in, inb_length in Hc. apply inb_length in H. rewrite kept_length in H. lia.
Qed.
Lemma kept_nth axes ds : forall k i, i < length ds -> nth i (kept axes k ds) 0 = if memb (k + i) axes then 1 else nth i ds 0.
Proof. induction ds as [|d ds IH]; intros k [|i] H; simpl in *; try lia; rewrite ?Nat.add_0_r; auto. rewrite IH by lia. rewrite <- Nat.add_succ_comm. auto. Qed.

(** ** Compositions *)
Lemma flat_map_swap {S T U} (f : S -> T -> list U) xs ys :
  Permutation (flat_map (fun x => flat_map (f x) ys) xs) (flat_map (fun y => flat_map (fun x => f x y) xs) ys).
Proof.
  induction xs as [|x xs IH]; simpl. { clear. induction ys; simpl; auto. }
  rewrite IH. clear. induction ys as [|y ys IH]; simpl; auto. rewrite <- IH.
  rewrite <- !app_assoc. apply Permutation_app_head. rewrite !app_assoc. apply Permutation_app_tail. apply Permutation_app_comm.
Qed.
Lemma flat_map_perm {S T} (f g : S -> list T) l : (forall x, In x l -> Permutation (f x) (g x)) -> Permutation (flat_map f l) (flat_map g l).
Proof. induction l; simpl; intros H; auto. apply Permutation_app; auto. Qed.
Lemma flat_map_flat_map {S T U} (f : T -> list U) (g : S -> list T) l : flat_map f (flat_map g l) = flat_map (fun x => flat_map f (g x)) l.
Proof. induction l; simpl; auto. rewrite flat_map_app, IHl. auto. Qed.
Lemma flat_map_map {S T U} (f : T -> list U) (g : S -> T) l : flat_map f (map g l) = flat_map (fun x => f (g x)) l.
Proof. induction l; simpl; auto. rewrite IHl. auto. Qed.
Lemma map_flat_map {S T U} (f : T -> U) (g : S -> list T) l : map f (flat_map g l) = flat_map (fun x => map f (g x)) l.
Proof. induction l; simpl; auto. rewrite map_app, IHl. auto. Qed.

Definition union (A B C : list nat) : Prop := forall i, In i C <-> In i A \/ In i B.
Lemma memb_union A B C i : union A B C -> memb i C = memb i A || memb i B.
Proof. intros H. apply eq_true_iff_eq. rewrite orb_true_iff, !memb_in. apply H. Qed.
Lemma kept_kept A B C ds : union A B C -> forall k, kept B k (kept A k ds) = kept C k ds.
Proof. intros U. induction ds as [|d ds IH]; intros k; simpl; auto. rewrite IH, (memb_union A B C) by auto. destruct (memb k A), (memb k B); auto. Qed.
Lemma cells_cells A B C ds : union A B C -> forall k idx, inb (kept C k ds) idx ->
  Permutation (flat_map (cells A k ds) (cells B k (kept A k ds) idx)) (cells C k ds idx).
Proof.
  intros U. induction ds as [|d ds IH]; intros k idx H. { cbn. destruct idx; auto. }
  cbn [kept] in *. inversion H as [|x d' idx' ds' Hx F]; subst. cbn [cells].
  rewrite flat_map_flat_map. rewrite (memb_union A B C k) in * by auto. specialize (IH (S k) idx' F).
  set (cb := cells B (S k) (kept A (S k) ds) idx') in *.
  destruct (memb k A) eqn:MA; cbn [orb] in *.
  - assert (E : (if memb k B then seq 0 1 else [x]) = [0]). { destruct (memb k B); auto. f_equal. lia. }
    rewrite E. cbn [flat_map]. rewrite app_nil_r, flat_map_map.
    etransitivity; [apply (flat_map_swap (fun c y => map (cons y) (cells A (S k) ds c)))|]. apply flat_map_perm. intros y _. rewrite <- map_flat_map. apply Permutation_map. auto.
  - apply flat_map_perm. intros y _. rewrite flat_map_map.
    rewrite (flat_map_ext _ (fun c => map (cons y) (cells A (S k) ds c))). 2:{ intros c. cbn. rewrite app_nil_r. auto. }
    rewrite <- map_flat_map. apply Permutation_map. auto.
Qed.
Lemma cells_inb A ds : forall k idx c, inb (kept A k ds) idx -> In c (cells A k ds idx) -> inb ds c.
Proof. intros k idx c H I. rewrite cells_filter in I by auto. apply filter_In in I. apply indices_in. tauto. Qed.
Lemma cells_length A ds : forall k idx idx', inb (kept A k ds) idx -> inb (kept A k ds) idx' -> length (cells A k ds idx) = length (cells A k ds idx').
Proof.
  induction ds as [|d ds IH]; intros k idx idx' H H'. { destruct idx, idx'; auto. }
  cbn [kept] in *. inversion H as [|x d1 i1 ds1 Hx F]; inversion H' as [|x' d1' i1' ds1' Hx' F']; subst. cbn [cells].
  specialize (IH (S k) i1 i1' F F').
  destruct (memb k A).
  - generalize (seq 0 d). induction l; simpl; auto. rewrite !app_length, !map_length. lia.
  - simpl. rewrite !app_nil_r, !map_length. auto.
Qed.
Lemma cells_nonempty A ds : forall k idx, inb (kept A k ds) idx -> (forall i, i < length ds -> In (k + i) A -> nth i ds 1 <> 0) -> cells A k ds idx <> [].
Proof.
  induction ds as [|d ds IH]; intros k idx H Z. { destruct idx; discriminate. }
  cbn [kept] in *. inversion H as [|x d1 i1 ds1 Hx F]; subst. cbn [cells].
  assert (N : cells A (S k) ds i1 <> []).
  { apply IH; auto. intros i L I. apply (Z (S i)); [simpl; lia|]. rewrite <- Nat.add_succ_comm. auto. }
  destruct (memb k A) eqn:M.
  - assert (D : d <> 0). { apply (Z 0); [simpl; lia|]. rewrite Nat.add_0_r. apply memb_in. auto. }
    destruct d; [lia|]. simpl. destruct (cells A (S k) ds i1); [congruence|discriminate].
  - simpl. destruct (cells A (S k) ds i1); [congruence|discriminate].
Qed.

(** ** Operations *)
Lemma finite_map xs : finite (map Some xs) = Some xs.
Proof. induction xs; simpl; auto. rewrite IHxs. auto. Qed.
Lemma finite_some l xs : finite l = Some xs -> l = map Some xs.
Proof. revert xs. induction l as [|[x|] l IH]; simpl; intros xs H; [injection H as <-; auto| |discriminate]. destruct (finite l); [|discriminate]. injection H as <-. simpl. f_equal. auto. Qed.
Lemma finite_none l : finite l = None <-> In None l.
Proof.
  induction l as [|[x|] l IH]; simpl; [split; [discriminate|tauto]| |tauto].
  destruct (finite l); split; intros H; try discriminate; [destruct H as [H|H]; [discriminate|apply IH in H; discriminate]|right; apply IH; auto|auto].
Qed.
Lemma rmin_spec x l r : rmin (x :: l) = Some r -> In r (x :: l) /\ forall y, In y (x :: l) -> (r <= y)%R.
Proof.
  cbn [rmin]. intros H. injection H as <-. revert x. induction l as [|z l IH]; intros x; cbn [fold_left].
  { split; [left; auto|]. intros y [->|[]]. apply Rle_refl. }
  destruct (IH (Rmin x z)) as [I L]. split.
  - destruct I as [E|I]; [|right; right; auto]. rewrite <- E. unfold Rmin. destruct (Rle_dec x z); [left|right; left]; auto.
  - intros y [<-|[<-|I']]; [| |apply L; right; auto]; (eapply Rle_trans; [apply L; left; reflexivity|]); [apply Rmin_l|apply Rmin_r].
Qed.
Lemma rmax_spec x l r : rmax (x :: l) = Some r -> In r (x :: l) /\ forall y, In y (x :: l) -> (y <= r)%R.
Proof.
  cbn [rmax]. intros H. injection H as <-. revert x. induction l as [|z l IH]; intros x; cbn [fold_left].
  { split; [left; auto|]. intros y [->|[]]. apply Rle_refl. }
  destruct (IH (Rmax x z)) as [I L]. split.
  - destruct I as [E|I]; [|right; right; auto]. rewrite <- E. unfold Rmax. destruct (Rle_dec x z); [right; left|left]; auto.
  - intros y [<-|[<-|I']]; [| |apply L; right; auto]; (eapply Rle_trans; [|apply L; left; reflexivity]); [apply Rmax_l|apply Rmax_r].
Qed.
Lemma rsum_nonneg l : (forall x, In x l -> (0 <= x)%R) -> (0 <= rsum l)%R.
Proof. induction l as [|x l IH]; simpl; intros H; [apply Rle_refl|]. apply Rplus_le_le_0_compat; auto. Qed.
Lemma squares_nonneg l : (0 <= rsum (map (fun x => x * x) l))%R.
Proof. apply rsum_nonneg. intros x I. apply in_map_iff in I. destruct I as (y & <- & _). apply Rle_0_sqr. Qed.
Lemma rmean_some l : l <> [] -> rmean l = Some (average l).
Proof. destruct l; [congruence|]. reflexivity. Qed.
Lemma average_nonneg l : (forall x, In x l -> (0 <= x)%R) -> l <> [] -> (0 <= average l)%R.
Proof. intros H N. unfold average. apply Rmult_le_pos; [apply rsum_nonneg; auto|]. apply Rlt_le, Rinv_0_lt_compat, lt_0_INR. destruct l; [congruence|simpl; lia]. Qed.

Lemma op_fun_result o l : (o = Min \/ o = Max -> l <> []) -> is_result o l (op_fun o l).
Proof.
  intros N. unfold is_result, op_fun, lift. destruct (finite l) as [xs|] eqn:E; [right|left; split; auto; apply finite_none; auto].
  apply finite_some in E. subst l. exists xs. split; auto.
  assert (N' : o = Min \/ o = Max -> xs <> []). { intros H Z. subst. apply N in H. apply H. reflexivity. }
  destruct o; auto.
  - eexists. split; [reflexivity|]. split; [apply sqrt_pos|]. apply sqrt_sqrt. apply squares_nonneg.
  - destruct xs; [left; auto|right]. split; [discriminate|]. reflexivity.
  - destruct xs as [|x xs]; [left; auto|right]. split; [discriminate|]. unfold rstd. rewrite rmean_some by discriminate.
    rewrite rmean_some by discriminate. eexists. split; [reflexivity|]. split; [apply sqrt_pos|]. apply sqrt_sqrt. apply average_nonneg; [|discriminate].
    intros z I. apply in_map_iff in I. destruct I as (y & <- & _). apply Rle_0_sqr.
  - destruct xs as [|x xs]; [exfalso; apply N'; auto|]. eexists. split; [reflexivity|]. apply rmin_spec. reflexivity.
  - destruct xs as [|x xs]; [exfalso; apply N'; auto|]. eexists. split; [reflexivity|]. apply rmax_spec. reflexivity.
Qed.

(** Permutations *)
Lemma rsum_perm l l' : Permutation l l' -> rsum l = rsum l'.
Proof. induction 1; simpl; auto; [rewrite IHPermutation; auto|ring|congruence]. Qed.
Lemma perm_map_some {T} (xs : list T) l : Permutation (map Some xs) l -> exists ys, l = map Some ys /\ Permutation xs ys.
Proof. intros P. apply Permutation_sym in P. apply Permutation_map_inv in P. destruct P as (ys & -> & P). exists ys. split; auto. Qed.
Lemma op_fun_perm o l l' : o <> Std -> Permutation l l' -> op_fun o l = op_fun o l'.
Proof.
  intros N P. unfold op_fun, lift. destruct (finite l) as [xs|] eqn:E.
  - apply finite_some in E. subst. apply perm_map_some in P. destruct P as (ys & -> & P). rewrite finite_map.
    destruct o; [| |congruence| | |].
    + unfold rnorm. f_equal. f_equal. apply rsum_perm, Permutation_map. auto.
    + destruct xs as [|x xs]; [apply Permutation_nil in P; subst; auto|].
      destruct ys as [|y ys]; [apply Permutation_sym, Permutation_nil in P; discriminate|]. rewrite !rmean_some by discriminate.
      f_equal. unfold average. change total with rsum. rewrite (rsum_perm _ _ P), (Permutation_length P). auto.
    + f_equal. apply rsum_perm. auto.
    + destruct xs as [|x xs]; [apply Permutation_nil in P; subst; auto|].
      destruct ys as [|y ys]; [apply Permutation_sym, Permutation_nil in P; discriminate|].
      destruct (rmin (x :: xs)) as [r|] eqn:E; [|discriminate]. destruct (rmin (y :: ys)) as [r'|] eqn:E'; [|discriminate].
      apply rmin_spec in E. apply rmin_spec in E'. f_equal. apply Rle_antisym; [apply E|apply E'].
      * apply (Permutation_in _ (Permutation_sym P)). tauto. * apply (Permutation_in _ P). tauto.
    + destruct xs as [|x xs]; [apply Permutation_nil in P; subst; auto|].
      destruct ys as [|y ys]; [apply Permutation_sym, Permutation_nil in P; discriminate|].
      destruct (rmax (x :: xs)) as [r|] eqn:E; [|discriminate]. destruct (rmax (y :: ys)) as [r'|] eqn:E'; [|discriminate].
      apply rmax_spec in E. apply rmax_spec in E'. f_equal. apply Rle_antisym; [apply E'|apply E].
      * apply (Permutation_in _ P). tauto. * apply (Permutation_in _ (Permutation_sym P)). tauto.
  - apply finite_none in E. assert (E' : finite l' = None) by (apply finite_none, (Permutation_in _ P); auto). rewrite E'. auto.
Qed.

(** Operations on results *)
Lemma rsum_app l l' : rsum (l ++ l') = (rsum l + rsum l')%R.
Proof. unfold rsum. induction l; simpl; [ring|]. rewrite IHl. ring. Qed.
Lemma rsum_concat ls : rsum (concat ls) = rsum (map rsum ls).
Proof. induction ls; simpl; auto. rewrite rsum_app, IHls. auto. Qed.
Lemma finite_concat ls xss : Forall2 (fun l xs => finite l = Some xs) ls xss -> finite (concat ls) = Some (concat xss).
Proof. induction 1 as [|l xs ls xss H F IH]; auto. simpl. apply finite_some in H. apply finite_some in IH. rewrite H, IH, <- map_app. apply finite_map. Qed.
Lemma finite_all ls : (exists xss, Forall2 (fun l xs => finite l = Some xs) ls xss) \/ exists l, In l ls /\ finite l = None.
Proof.
  induction ls as [|l ls IH]; [left; exists []; constructor|]. destruct (finite l) as [xs|] eqn:E; [|right; exists l; split; [left|]; auto].
  destruct IH as [[xss F]|(l' & I & E')]; [left; exists (xs :: xss); constructor; auto|right; exists l'; split; [right|]; auto].
Qed.
Lemma rmean_scale n xss : n <> 0 -> Forall (fun xs => length xs = n) xss -> length (concat xss) = length xss * n /\ rsum (map average xss) = (rsum (concat xss) / INR n)%R.
Proof.
  intros N. induction 1 as [|xs xss H F IH]; simpl. { split; auto. unfold Rdiv. ring. }
  destruct IH as [L IH]. rewrite app_length, L, H. split; auto. change (fold_right Rplus 0%R) with rsum. rewrite IH, rsum_app. unfold average. change total with rsum. rewrite H. unfold Rdiv. ring.
Qed.
Lemma op_fun_concat o ls n : o <> Std -> (forall l, In l ls -> length l = n) -> (o = Min \/ o = Max -> n <> 0) ->
  op_fun o (map (op_fun o) ls) = op_fun o (concat ls).
Proof.
  intros NS HL NZ. unfold op_fun at 1 3, lift. destruct (finite_all ls) as [[xss F]|(l & I & E)].
  2:{ assert (E1 : finite (map (op_fun o) ls) = None). { apply finite_none, in_map_iff. exists l. split; auto. unfold op_fun, lift. rewrite E. auto. }
      assert (E2 : finite (concat ls) = None). { apply finite_none, in_concat. exists l. split; auto. apply finite_none. auto. }
      rewrite E1, E2. auto. }
  rewrite (finite_concat _ _ F).
  assert (Ls : ls = map (map Some) xss). { clear -F. induction F; simpl; auto. rewrite IHF. apply finite_some in H. rewrite H. auto. }
  clear F. subst ls.
  assert (HL' : Forall (fun xs => length xs = n) xss). { apply Forall_forall. intros xs I. rewrite <- (HL (map Some xs)); [rewrite map_length; auto|apply in_map; auto]. }
  clear HL. rewrite map_map.
  rewrite (map_ext _ (match o with Mean => rmean | Std => rstd | Sum => fun l => Some (rsum l) | Min => rmin | Max => rmax | Norm => rnorm end)).
  2:{ intros xs. unfold op_fun, lift. rewrite finite_map. auto. }
  destruct o; [| |congruence| | |].
  - unfold rnorm. rewrite (map_ext _ (fun xs => Some (sqrt (rsum (map (fun x => x * x)%R xs))))) by auto.
    rewrite <- (map_map (fun xs => sqrt (rsum (map (fun x => x * x)%R xs))) Some), finite_map, map_map. f_equal. f_equal.
    rewrite concat_map, rsum_concat, map_map. f_equal. apply map_ext. intros xs. apply sqrt_sqrt, squares_nonneg.
  - destruct n as [|n].
    + assert (E : concat xss = []). { clear -HL'. induction HL'; auto. destruct x; [auto|discriminate]. }
      rewrite E. destruct xss as [|xs xss]; auto. inversion HL'; subst. destruct xs; [|discriminate]. reflexivity.
    + rewrite (map_ext_in _ (fun xs => Some (average xs))). 2:{ intros xs I. rewrite Forall_forall in HL'. apply HL' in I. apply rmean_some. destruct xs; discriminate. }
      rewrite <- (map_map average Some), finite_map. destruct (rmean_scale (S n) xss) as [L M]; auto.
      destruct xss as [|xs xss]; auto. rewrite !rmean_some; [|intros Z; rewrite Z in L; simpl in L; lia|discriminate].
      f_equal. unfold average at 1 3. change total with rsum. rewrite M, L, map_length, mult_INR. field. split; apply not_0_INR; simpl; lia.
  - rewrite <- (map_map rsum Some), finite_map. f_equal. symmetry. apply rsum_concat.
  - assert (G : exists ms, map rmin xss = map Some ms /\ Forall2 (fun xs m => rmin xs = Some m) xss ms).
    { assert (NZ' : n <> 0) by auto. clear -HL' NZ'. induction HL' as [|xs xss H F IH]; [exists []; split; auto|]. destruct IH as (ms & E & F').
      destruct xs as [|x xs]; [simpl in H; congruence|]. eexists (_ :: ms). cbn [map]. rewrite E. split; [cbn [rmin]; reflexivity|constructor; auto; reflexivity]. }
    destruct G as (ms & E & F). rewrite E, finite_map.
    destruct F as [|xs m xss ms Hm F]; auto.
    destruct (rmin (m :: ms)) as [r|] eqn:Er; [|discriminate]. apply rmin_spec in Er. destruct Er as [Ir Lr].
    destruct xs as [|x xs]; [discriminate|]. cbn [concat app]. destruct (rmin (x :: xs ++ concat xss)) as [r'|] eqn:Er'; [|discriminate].
    apply rmin_spec in Er'. destruct Er' as [Ir' Lr'].
    assert (F2 : Forall2 (fun xs m => rmin xs = Some m) ((x :: xs) :: xss) (m :: ms)) by (constructor; auto). clear Hm F E HL' NZ.
    f_equal. apply Rle_antisym.
    + change (x :: xs ++ concat xss) with (concat ((x :: xs) :: xss)) in Ir'. apply in_concat in Ir'. destruct Ir' as (ys & Iy & Ir').
      clear Ir Lr'. revert Lr. generalize (m :: ms) F2. generalize ((x :: xs) :: xss) Iy. clear -Ir'. intros xss I ms F. induction F as [|ys' m' xss ms H F IH]; intros L; [destruct I|].
      destruct I as [->|I]; [|apply IH; auto; intros; apply L; right; auto]. destruct ys as [|y ys]; [destruct Ir'|]. apply rmin_spec in H. eapply Rle_trans; [apply L; left; reflexivity|apply H; auto].
    + apply Lr'. change (x :: xs ++ concat xss) with (concat ((x :: xs) :: xss)). clear -Ir F2. revert Ir. induction F2 as [|ys m' xss' ms' H F IH]; intros I; [destruct I|].
      simpl. apply in_or_app. destruct I as [->|I]; [left|right; auto]. destruct ys; [discriminate|]. apply rmin_spec in H. apply H.
  - assert (G : exists ms, map rmax xss = map Some ms /\ Forall2 (fun xs m => rmax xs = Some m) xss ms).
    { assert (NZ' : n <> 0) by auto. clear -HL' NZ'. induction HL' as [|xs xss H F IH]; [exists []; split; auto|]. destruct IH as (ms & E & F').
      destruct xs as [|x xs]; [simpl in H; congruence|]. eexists (_ :: ms). cbn [map]. rewrite E. split; [cbn [rmax]; reflexivity|constructor; auto; reflexivity]. }
    destruct G as (ms & E & F). rewrite E, finite_map.
    destruct F as [|xs m xss ms Hm F]; auto.
    destruct (rmax (m :: ms)) as [r|] eqn:Er; [|discriminate]. apply rmax_spec in Er. destruct Er as [Ir Lr].
    destruct xs as [|x xs]; [discriminate|]. cbn [concat app]. destruct (rmax (x :: xs ++ concat xss)) as [r'|] eqn:Er'; [|discriminate].
    apply rmax_spec in Er'. destruct Er' as [Ir' Lr'].
    assert (F2 : Forall2 (fun xs m => rmax xs = Some m) ((x :: xs) :: xss) (m :: ms)) by (constructor; auto). clear Hm F E HL' NZ.
    f_equal. apply Rle_antisym.
    + apply Lr'. change (x :: xs ++ concat xss) with (concat ((x :: xs) :: xss)). clear -Ir F2. revert Ir. induction F2 as [|ys m' xss' ms' H F IH]; intros I; [destruct I|].
      simpl. apply in_or_app. destruct I as [->|I]; [left|right; auto]. destruct ys; [discriminate|]. apply rmax_spec in H. apply H.
    + change (x :: xs ++ concat xss) with (concat ((x :: xs) :: xss)) in Ir'. apply in_concat in Ir'. destruct Ir' as (ys & Iy & Ir').
      clear Ir Lr'. revert Lr. generalize (m :: ms) F2. generalize ((x :: xs) :: xss) Iy. clear -Ir'. intros xss I ms F. induction F as [|ys' m' xss ms H F IH]; intros L; [destruct I|].
      destruct I as [->|I]; [|apply IH; auto; intros; apply L; right; auto]. destruct ys as [|y ys]; [destruct Ir'|]. apply rmax_spec in H. eapply Rle_trans; [apply H; auto|apply L; left; reflexivity].
Qed.

(** ** Transformations *)
From Verif Require TfSpec TfProofs.
Lemma dget_op n : TreeModel.dget TRANSFORMATION n = match find (fun no => TreeModel.str_eqb (fst no) n) TRANSFORMATION with Some no => Some (snd no) | None => None end.
Proof. generalize TRANSFORMATION. intros l. induction l as [|[k v] l IH]; auto. cbn [TreeModel.dget find fst]. destruct (TreeModel.str_eqb k n); auto. Qed.
Lemma dget_name o : TreeModel.dget TRANSFORMATION (name_of o) = Some o.
Proof. destruct o; reflexivity. Qed.
Lemma dget_inv n o : TreeModel.dget TRANSFORMATION n = Some o -> n = name_of o.
Proof.
  unfold TRANSFORMATION. cbn [TreeModel.dget]. unfold TreeModel.str_eqb.
  repeat (match goal with |- context [list_eq_dec ?a ?b ?c] => destruct (list_eq_dec a b c) as [E|_]; [intros H; injection H as <-; symmetry; exact E|] end). discriminate.
Qed.
Lemma name_inj o o' : name_of o = name_of o' -> o = o'.
Proof. intros H. assert (E := dget_name o). rewrite H, dget_name in E. congruence. Qed.

Lemma distinct_nodup l : distinct l = true <-> NoDup l.
Proof.
  induction l as [|x l IH]; simpl; [split; auto; constructor|]. rewrite andb_true_iff, negb_true_iff, IH. split.
  - intros [M N]. constructor; auto. intros I. apply memb_in in I. congruence.
  - intros H. inversion H; subst. split; auto. destruct (memb x l) eqn:E; auto. apply memb_in in E. contradiction.
Qed.
Definition the_axes (n : nat) (given : option (list Z)) : res (list nat) :=
  match given with
  | None => Ok (seq 0 n)
  | Some axes => bind (rmap (canon n) axes) (fun axes => if distinct axes then Ok axes else Raise ValueError)
  end.
Lemma the_axes_ok n given axes : the_axes n given = Ok axes -> reduced n given axes.
Proof.
  destruct given as [l|]; cbn [the_axes reduced].
  - intros H. apply bind_ok in H. destruct H as (l' & E & H). destruct (distinct l') eqn:D; [|discriminate]. injection H as ->.
    apply distinct_nodup in D. split; auto. apply rmap_ok in E. clear -E. induction E; constructor; auto. apply TfProofs.canon_inv in H. exact H.
  - intros H. injection H as <-. intros i. rewrite in_seq. lia.
Qed.
Lemma the_axes_total n given axes : reduced n given axes -> exists axes', the_axes n given = Ok axes' /\ forall i, In i axes' <-> In i axes.
Proof.
  destruct given as [l|]; cbn [the_axes reduced].
  - intros [N F]. exists axes. split; [|tauto]. assert (E : rmap (canon n) l = Ok axes). { apply rmap_ok. clear -F. induction F; constructor; auto. apply TfProofs.canon_ok. exact H. }
    rewrite E. cbn [bind]. apply distinct_nodup in N. rewrite N. auto.
  - intros H. exists (seq 0 n). split; auto. intros i. rewrite in_seq, H. lia.
Qed.
Lemma the_axes_cases n given : (exists axes, the_axes n given = Ok axes) \/ the_axes n given = Raise ValueError.
Proof.
  destruct (the_axes n given) as [axes|e] eqn:E; [left; eauto|right]. destruct given as [l|]; [|discriminate]. cbn [the_axes] in E.
  destruct (rmap (canon n) l) as [l'|e'] eqn:E'; cbn [bind] in E; [destruct (distinct l'); congruence|].
  injection E as <-. f_equal. clear -E'. revert E'. induction l as [|z l IH]; cbn [rmap]; [discriminate|].
  destruct (TfProofs.canon_cases n z) as [(p & _ & ->)|[_ ->]]; cbn [bind]; [|congruence].
  destruct (rmap (canon n) l); cbn [bind]; [discriminate|auto].
Qed.
Lemma apply_op_axes o given a : apply_op o given a = bind (the_axes (length (dims a)) given) (fun axes =>
  if match o with Min | Max => existsb (fun i => nth i (dims a) 1 =? 0) axes | _ => false end then Raise ValueError else Ok (reduce (op_fun o) axes a)).
Proof. destruct given; reflexivity. Qed.

Definition extremal (o : op) : bool := match o with Min | Max => true | _ => false end.
Lemma extremal_iff o : extremal o = true <-> o = Min \/ o = Max.
Proof. destruct o; simpl; split; intros H; try discriminate; auto; destruct H; discriminate. Qed.
Definition empty_axis (a : arr) (axes : list nat) : bool := existsb (fun i => nth i (dims a) 1 =? 0) axes.
Lemma empty_axis_spec a axes : empty_axis a axes = true <-> exists i, In i axes /\ nth i (dims a) 1 = 0.
Proof. unfold empty_axis. rewrite existsb_exists. split; intros (i & I & E); exists i; split; auto; apply Nat.eqb_eq; auto. Qed.
Lemma apply_op_eq o given a : apply_op o given a = bind (the_axes (length (dims a)) given) (fun axes =>
  if extremal o && empty_axis a axes then Raise ValueError else Ok (reduce (op_fun o) axes a)).
Proof. rewrite apply_op_axes. destruct (the_axes _ _); auto. cbn [bind]. destruct o; reflexivity. Qed.

Definition seg (t : transform) : str := operation t ++ match given_axes t with None => [] | Some l => str_of_tuple l end.
Definition step (so : str * arr) (t : transform) : res (str * arr) :=
  match TreeModel.dget TRANSFORMATION (operation t) with
  | None => Raise ValueError
  | Some o => bind (apply_op o (given_axes t) (snd so)) (fun output => Ok (fst so ++ chars "_" ++ seg t, output))
  end.
Lemma transform_array_eq a ts : transform_array a ts = rfold step ts ([], a).
Proof. reflexivity. Qed.
Lemma rfold_step_prefix p ts : forall s a, rfold step ts (p ++ s, a) = bind (rfold step ts (s, a)) (fun '(s, b) => Ok (p ++ s, b)).
Proof.
  induction ts as [|t ts IH]; intros s a; cbn [rfold]; auto.
  unfold step at 1 3. cbn [snd fst]. destruct (TreeModel.dget TRANSFORMATION (operation t)) as [o|]; auto.
  destruct (apply_op o (given_axes t) a) as [b|e]; cbn [bind]; auto. rewrite <- app_assoc, IH. auto.
Qed.
Lemma transform_cons a t ts : transform_array a (t :: ts) =
  bind (transform_array a [t]) (fun '(s1, b) => bind (transform_array b ts) (fun '(s2, c) => Ok (s1 ++ s2, c))).
Proof.
  rewrite !transform_array_eq. cbn [rfold]. unfold step at 1 3. cbn [snd fst]. destruct (TreeModel.dget TRANSFORMATION (operation t)) as [o|]; auto.
  destruct (apply_op o (given_axes t) a) as [b|e]; cbn [bind]; auto. rewrite transform_array_eq.
  rewrite <- (app_nil_r ([] ++ chars "_" ++ seg t)) at 1. rewrite rfold_step_prefix. auto.
Qed.
Lemma transform_one a t o : operation t = name_of o -> transform_array a [t] = bind (apply_op o (given_axes t) a) (fun b => Ok (chars "_" ++ seg t, b)).
Proof. intros E. rewrite transform_array_eq. cbn [rfold]. unfold step. rewrite E, dget_name. cbn [fst snd]. destruct (apply_op o (given_axes t) a); auto. Qed.

Lemma fibre_ext a axes axes' idx : (forall i, In i axes' <-> In i axes) -> fibre a axes' idx = fibre a axes idx.
Proof.
  intros H. unfold fibre. f_equal. apply filter_ext_in'. intros c _. unfold agrees. generalize (seq 0 (length c)). induction l; simpl; auto. rewrite IHl. f_equal. f_equal.
  apply (memb_ext a0 axes' axes). auto.
Qed.
Lemma transform_values a t o axes : operation t = name_of o -> reduced (length (dims a)) (given_axes t) axes ->
  (o = Min \/ o = Max -> forall i, In i axes -> nth i (dims a) 1 <> 0) ->
  exists suffix b, transform_array a [t] = Ok (suffix, b) /\ length (dims b) = length (dims a) /\
    (forall i, i < length (dims a) -> nth i (dims b) 0 = if in_dec Nat.eq_dec i axes then 1 else nth i (dims a) 0) /\
    forall idx, In idx (indices (dims b)) -> is_result o (fibre a axes idx) (at_ b idx).
Proof.
  intros E Rd Z. destruct (the_axes_total _ _ _ Rd) as (axes' & Ea & Hi). rewrite (transform_one a t o E), apply_op_eq, Ea. cbn [bind].
  assert (X : extremal o && empty_axis a axes' = false).
  { destruct (extremal o) eqn:Eo; auto. apply extremal_iff in Eo. cbn. destruct (empty_axis a axes') eqn:Ee; auto. apply empty_axis_spec in Ee.
    destruct Ee as (i & I & Ei). apply Hi in I. exfalso. exact (Z Eo i I Ei). }
  rewrite X. cbn [bind]. do 2 eexists. split; [reflexivity|]. cbn [reduce dims at_]. split; [apply kept_length|]. split.
  - intros i L. rewrite kept_nth by auto. cbn [plus]. destruct (in_dec Nat.eq_dec i axes) as [I|I]; destruct (memb i axes') eqn:M; auto; [apply Hi, memb_in in I|apply memb_in, Hi in M]; congruence.
  - intros idx H. apply indices_in in H. rewrite <- (fibre_ext a axes axes' idx Hi), <- (cells_fibre a axes' idx H). apply op_fun_result.
    intros Eo N. apply map_eq_nil in N. revert N. apply cells_nonempty; auto. cbn [plus]. intros i L I. apply Z; auto. apply Hi. auto.
Qed.
Lemma transform_errors a t e : transform_array a [t] = Raise e <-> e = ValueError /\ invalid a t.
Proof.
  destruct (TreeModel.dget TRANSFORMATION (operation t)) as [o|] eqn:D.
  2:{ assert (H : transform_array a [t] = Raise ValueError) by (rewrite transform_array_eq; cbn [rfold]; unfold step; rewrite D; auto).
      rewrite H. split; [|intros [-> _]; auto]. intros X. injection X as <-. split; auto. left. intros o Eo. rewrite Eo, dget_name in D. discriminate. }
  apply dget_inv in D. rewrite (transform_one a t o D), apply_op_eq. destruct (the_axes_cases (length (dims a)) (given_axes t)) as [(axes & Ea)|Ea]; rewrite Ea; cbn [bind].
  - pose proof (the_axes_ok _ _ _ Ea) as Rd. destruct (extremal o && empty_axis a axes) eqn:X; cbn [bind].
    + apply andb_true_iff in X. destruct X as [X1 X2]. apply extremal_iff in X1. apply empty_axis_spec in X2. destruct X2 as (i & I & Ei).
      split; [|intros [-> _]; auto]. intros H. injection H as <-. split; auto. right. right. exists axes, i. split; auto. rewrite D. destruct X1 as [->| ->]; auto.
    + split; [discriminate|]. intros [_ [H|[H|(axes' & i & H1 & H2 & H3 & H4)]]]; [destruct (H o D)|destruct (H axes Rd)|].
      destruct (the_axes_total _ _ _ H2) as (axes'' & Ea' & Hi). rewrite Ea in Ea'. injection Ea' as <-. apply Hi in H3.
      assert (X1 : extremal o = true). { apply extremal_iff. rewrite D in H1. destruct H1 as [H1|H1]; apply name_inj in H1; auto. }
      assert (X2 : empty_axis a axes = true). { apply empty_axis_spec. exists i. auto. } rewrite X1, X2 in X. discriminate.
  - split; [|intros [-> _]; auto]. intros H. injection H as <-. split; auto. right. left. intros axes Rd. destruct (the_axes_total _ _ _ Rd) as (? & H & _). congruence.
Qed.
Lemma transform_total_or_error a t : (exists sb, transform_array a [t] = Ok sb) \/ transform_array a [t] = Raise ValueError.
Proof. destruct (transform_array a [t]) as [sb|e] eqn:E; [left; eauto|right]. f_equal. apply transform_errors in E. tauto. Qed.

Lemma transform_inv a t s b : transform_array a [t] = Ok (s, b) ->
  exists o axes, operation t = name_of o /\ the_axes (length (dims a)) (given_axes t) = Ok axes /\ (extremal o && empty_axis a axes = false) /\ s = chars "_" ++ seg t /\ b = reduce (op_fun o) axes a.
Proof.
  intros H. destruct (TreeModel.dget TRANSFORMATION (operation t)) as [o|] eqn:D.
  - apply dget_inv in D. rewrite (transform_one a t o D), apply_op_eq in H. apply bind_ok in H. destruct H as (b' & H & E). apply Ok_inj in E. injection E as <- <-.
    apply bind_ok in H. destruct H as (axes & Ea & H). destruct (extremal o && empty_axis a axes) eqn:X; [discriminate|]. injection H as <-. exists o, axes. auto.
  - rewrite transform_array_eq in H. cbn [rfold] in H. unfold step in H. rewrite D in H. discriminate.
Qed.
(** The same operation twice *)
Lemma compose_ops o a t1 t2 t A B C s c : o <> Std -> operation t1 = name_of o -> operation t2 = name_of o -> operation t = name_of o ->
  transform_array a [t1; t2] = Ok (s, c) ->
  reduced (length (dims a)) (given_axes t1) A -> reduced (length (dims a)) (given_axes t2) B -> reduced (length (dims a)) (given_axes t) C ->
  (forall i, In i C <-> In i A \/ In i B) ->
  exists s' c', transform_array a [t] = Ok (s', c') /\ same_array c c'.
Proof.
  intros NS E1 E2 E H RA RB RC U. rewrite transform_cons in H. apply bind_ok in H. destruct H as ([s1 b] & H1 & H). apply bind_ok in H. destruct H as ([s2 c2] & H2 & H).
  apply Ok_inj in H. injection H as <- <-.
  apply transform_inv in H1. destruct H1 as (o1 & A' & N1 & EA & XA & _ & ->). apply transform_inv in H2. destruct H2 as (o2 & B' & N2 & EB & XB & _ & ->).
  rewrite E1 in N1. apply name_inj in N1. rewrite E2 in N2. apply name_inj in N2. subst o1 o2.
  cbn [reduce dims] in EB, XB. rewrite kept_length in EB.
  destruct (the_axes_total _ _ _ RA) as (A'' & EA' & HA). rewrite EA in EA'. apply Ok_inj in EA'. subst A''.
  destruct (the_axes_total _ _ _ RB) as (B'' & EB' & HB). rewrite EB in EB'. apply Ok_inj in EB'. subst B''.
  destruct (the_axes_total _ _ _ RC) as (C' & EC & HC). rewrite (transform_one a t o E), apply_op_eq, EC. cbn [bind].
  assert (U' : union A' B' C'). { intros i. rewrite HC, U, HA, HB. tauto. }
  assert (Bd : forall i, In i B' -> i < length (dims a)). { intros i I. apply HB in I. revert I. clear -RB. unfold reduced in RB. destruct (given_axes t2); [|intros I; apply RB; auto].
    destruct RB as [_ F]. induction F; simpl; [tauto|]. intros [->|I]; auto. tauto. }
  assert (X : extremal o && empty_axis a C' = false).
  { destruct (extremal o); auto. cbn [andb] in *. destruct (empty_axis a C') eqn:X; auto. apply empty_axis_spec in X. destruct X as (i & I & Ei).
    apply U' in I. destruct (in_dec Nat.eq_dec i A') as [IA|IA].
    - assert (Y : empty_axis a A' = true) by (apply empty_axis_spec; eauto). congruence.
    - destruct I as [I|I]; [contradiction|]. assert (Y : empty_axis (reduce (op_fun o) A' a) B' = true); [|congruence].
      apply empty_axis_spec. exists i. split; auto. cbn [reduce dims]. pose proof (Bd i I) as L. rewrite (nth_indep _ 1 0) by (rewrite kept_length; auto).
      rewrite kept_nth by auto. cbn [plus]. destruct (memb i A') eqn:M; [apply memb_in in M; contradiction|]. rewrite (nth_indep _ 0 1) by auto. auto. }
  rewrite X. cbn [bind]. do 2 eexists. split; [reflexivity|]. split; cbn [reduce dims at_].
  - apply kept_kept. auto.
  - intros idx I. apply indices_in in I. rewrite (kept_kept A' B' C') in I by auto.
    assert (IB : inb (kept B' 0 (kept A' 0 (dims a))) idx) by (rewrite (kept_kept A' B' C') by auto; auto).
    rewrite <- (map_map (fun c => map (at_ a) (cells A' 0 (dims a) c)) (op_fun o)).
    set (cb := cells B' 0 (kept A' 0 (dims a)) idx).
    assert (Hcb : forall c, In c cb -> inb (kept A' 0 (dims a)) c). { intros c Hc. apply (cells_inb B' _ 0 idx); auto. }
    assert (HL : exists n, (forall c, In c cb -> length (cells A' 0 (dims a) c) = n) /\ (extremal o = true -> n <> 0)).
    { destruct cb as [|c0 cb'] eqn:Ecb; [exists 1; split; [intros c []|auto]|]. exists (length (cells A' 0 (dims a) c0)). split.
      - intros c Hc. apply cells_length; apply Hcb; auto. left; auto.
      - intros Eo. rewrite Eo in XA. cbn in XA. intros Z. apply length_zero_iff_nil in Z. revert Z. apply cells_nonempty; [apply Hcb; left; auto|].
        intros i L Ii Zi. assert (Y : empty_axis a A' = true) by (apply empty_axis_spec; exists i; auto). congruence. }
    destruct HL as (n & HL & Hn). rewrite (op_fun_concat o _ n).
    + apply op_fun_perm; auto. rewrite <- map_map, <- concat_map, <- flat_map_concat_map. apply Permutation_map, cells_cells; auto.
    + auto.
    + intros l Hl. apply in_map_iff in Hl. destruct Hl as (c & <- & Hc). rewrite map_length. auto.
    + intros Ho. apply Hn, extremal_iff. auto.
Qed.

Lemma transform_sequence a t ts s c : transform_array a (t :: ts) = Ok (s, c) <->
  exists s1 b s2, transform_array a [t] = Ok (s1, b) /\ transform_array b ts = Ok (s2, c) /\ s = s1 ++ s2.
Proof.
  rewrite transform_cons. split.
  - intros H. apply bind_ok in H. destruct H as ([s1 b] & H1 & H). apply bind_ok in H. destruct H as ([s2 c'] & H2 & H). apply Ok_inj in H. injection H as <- <-. eauto 6.
  - intros (s1 & b & s2 & H1 & H2 & ->). rewrite H1. cbn [bind]. rewrite H2. auto.
Qed.
Lemma transform_none a : transform_array a [] = Ok ([], a).
Proof. reflexivity. Qed.
Lemma whole_array a t o : operation t = name_of o -> given_axes t = None -> (o = Min \/ o = Max -> ~ In 0 (dims a)) ->
  exists suffix b, transform_array a [t] = Ok (suffix, b) /\ dims b = repeat 1 (length (dims a)) /\ is_result o (flatten a) (at_ b (repeat 0 (length (dims a)))).
Proof.
  intros E Ea Z. assert (Rd : reduced (length (dims a)) (given_axes t) (seq 0 (length (dims a)))). { rewrite Ea. intros i. rewrite in_seq. lia. }
  destruct (transform_values a t o _ E Rd) as (s & b & H & L & D & V).
  { intros Ho i I. apply in_seq in I. intros Ei. apply (Z Ho). rewrite <- Ei. apply nth_In. lia. }
  assert (Db : dims b = repeat 1 (length (dims a))).
  { apply (nth_ext _ _ 0 0); [rewrite repeat_length; auto|]. intros i Hi. rewrite L in Hi. rewrite D by auto. destruct (in_dec Nat.eq_dec i _) as [I|I]; [|destruct I; apply in_seq; lia].
    rewrite (nth_indep _ 0 1) by (rewrite repeat_length; auto). symmetry. apply nth_repeat. }
  exists s, b. split; auto. split; auto.
  assert (I0 : In (repeat 0 (length (dims a))) (indices (dims b))). { rewrite Db. apply indices_in. generalize (length (dims a)). unfold inb. induction n; simpl; constructor; auto. }
  specialize (V _ I0). replace (flatten a) with (fibre a (seq 0 (length (dims a))) (repeat 0 (length (dims a)))); auto.
  unfold fibre, flatten. f_equal. rewrite (filter_ext_in' _ (fun _ => true)). { clear. induction (indices (dims a)); simpl; auto. rewrite IHl. auto. }
  intros c Hc. apply indices_in, inb_length in Hc. unfold agrees. apply forallb_forall. intros i Hi. apply in_seq in Hi. apply orb_true_iff. left.
  apply (memb_in i). apply in_seq. lia.
Qed.

(** ** Summaries *)
Definition rule_result (m : nat) (key : str) (value : arr) (r : rule) : res (list (str * val)) :=
  if pattern r key then
    bind (transform_array value (transforms r)) (fun '(suffix, summary) =>
    if m <? prod (dims summary) then Raise ValueError else Ok (yields (key ++ suffix) summary))
  else Ok [].
Lemma summarize_eq rules m key value : summarize rules m key value = bind (rmap (rule_result m key value) rules) (fun ls => Ok (concat ls)).
Proof. reflexivity. Qed.
Lemma rule_result_ok m key value r l : rule_result m key value r = Ok l -> summary_of m (key, value) r l.
Proof.
  unfold rule_result, summary_of. cbn [fst snd]. destruct (pattern r key); [|intros H; injection H as <-; left; auto]. intros H. right. split; auto.
  apply bind_ok in H. destruct H as ([suffix b] & E & H). destruct (Nat.ltb_spec m (prod (dims b))) as [|L]; [discriminate|]. injection H as <-.
  exists suffix, b. split; auto. unfold yields. rewrite map_length, indices_length, map_map. split; auto. split; auto.
  intros nv I. apply in_map_iff in I. destruct I as (idx & <- & _). cbn [fst]. eexists. rewrite <- app_assoc. reflexivity.
Qed.
Lemma concat_concat {T} (ls : list (list (list T))) : concat (map (@concat T) ls) = concat (concat ls).
Proof. induction ls; simpl; auto. rewrite IHls, concat_app. auto. Qed.
Lemma call_results rules m tree out w : call rules m tree = Ok (out, w) ->
  exists lls, Forall2 (fun kv ls => Forall2 (fun r l => rule_result m (fst kv) (snd kv) r = Ok l) rules ls) tree lls /\ out = concat (concat lls).
Proof.
  intros H. unfold call in H. apply bind_ok in H. destruct H as (ls & E & H). apply Ok_inj in H. injection H as <- _. apply rmap_ok in E.
  assert (G : exists lls, Forall2 (fun kv ls => Forall2 (fun r l => rule_result m (fst kv) (snd kv) r = Ok l) rules ls) tree lls /\ ls = map (@concat _) lls).
  { clear -E. induction E as [|kv l tree ls H F IH]; [exists []; split; constructor|]. destruct IH as (lls & F' & ->). rewrite summarize_eq in H. apply bind_ok in H. destruct H as (ls' & E & H). apply Ok_inj in H. subst l.
    apply rmap_ok in E. exists (ls' :: lls). split; [constructor; auto|auto]. }
  destruct G as (lls & F & ->). exists lls. split; auto. apply concat_concat.
Qed.
Lemma filter_length_zero {T} (p : T -> bool) l : length (filter p l) = 0 <-> forall x, In x l -> p x = false.
Proof.
  induction l as [|x l IH]; simpl; [tauto|]. destruct (p x) eqn:E; simpl.
  - split; [discriminate|]. intros H. rewrite (H x) in E by auto. discriminate.
  - rewrite IH. split; [intros H y [<-|I]; auto|auto].
Qed.
Lemma in_numbered {T} (l : list T) : forall s i x, In (i, x) (combine (seq s (length l)) l) <-> s <= i /\ nth_error l (i - s) = Some x.
Proof.
  induction l as [|y l IH]; intros s i x; cbn [length seq combine].
  - split; [intros []|]. intros [_ H]. destruct (i - s); discriminate.
  - cbn [In]. rewrite IH. split.
    + intros [E|[L H]]; [injection E as <- <-; split; auto; rewrite Nat.sub_diag; auto|]. split; [lia|]. replace (i - s) with (S (i - S s)) by lia. auto.
    + intros [L H]. destruct (Nat.eq_dec i s) as [->|N]; [left; rewrite Nat.sub_diag in H; injection H as <-; auto|right; split; [lia|]]. replace (i - s) with (S (i - S s)) in H by lia. auto.
Qed.
Lemma call_spec rules m tree out w : call rules m tree = Ok (out, w) ->
  (exists lls, Forall2 (fun kv ls => Forall2 (summary_of m kv) rules ls) tree lls /\ out = concat (concat lls)) /\
  (forall i, In i w <-> exists r, nth_error rules i = Some r /\ forall kv, In kv tree -> pattern r (fst kv) = false).
Proof.
  intros H. split.
  - destruct (call_results _ _ _ _ _ H) as (lls & F & ->). exists lls. split; auto. clear -F. induction F as [|kv ls tree lls H F IH]; constructor; auto.
    clear -H. induction H; constructor; auto. apply rule_result_ok in H. destruct kv. exact H.
  - unfold call in H. apply bind_ok in H. destruct H as (ls & _ & H). apply Ok_inj in H. injection H as _ <-. intros i. rewrite in_map_iff. split.
    + intros ([j r] & <- & I). apply filter_In in I. destruct I as [I Z]. apply in_numbered in I. rewrite Nat.sub_0_r in I. exists r. split; [tauto|]. apply Nat.eqb_eq in Z. cbn [snd] in Z. apply filter_length_zero in Z || idtac.
      intros kv Ikv. cbn [snd] in Z. exact (proj1 (filter_length_zero (fun kv => pattern r (fst kv)) tree) Z kv Ikv).
    + intros (r & E & Z). exists (i, r). split; auto. apply filter_In. split; [apply in_numbered; rewrite Nat.sub_0_r; split; auto; lia|]. cbn [snd]. apply Nat.eqb_eq. apply filter_length_zero. auto.
Qed.
Lemma rmap_raise {T U} (f : T -> res U) l e : rmap f l = Raise e -> exists x, In x l /\ f x = Raise e.
Proof.
  induction l as [|x l IH]; cbn [rmap]; [discriminate|]. destruct (f x) eqn:E; cbn [bind]; [|intros H; injection H as ->; exists x; split; [left|]; auto].
  destruct (rmap f l); cbn [bind]; [discriminate|]. intros H. injection H as ->. destruct IH as (y & I & Ey); auto. exists y. split; [right|]; auto.
Qed.
Lemma rmap_raise_if {T U} (f : T -> res U) l x : (forall y e, f y = Raise e -> e = ValueError) -> In x l -> (forall y, f x <> Ok y) -> rmap f l = Raise ValueError.
Proof.
  intros HE. induction l as [|z l IH]; cbn [rmap]; [intros []|]. intros I N. destruct (f z) eqn:E; cbn [bind]; [|f_equal; eauto].
  destruct I as [->|I]; [destruct (N _ E)|]. rewrite IH; auto.
Qed.
Lemma transform_array_error a ts e : transform_array a ts = Raise e -> e = ValueError.
Proof.
  revert a. induction ts as [|t ts IH]; intros a; [discriminate|]. rewrite transform_cons. destruct (transform_array a [t]) as [[s b]|e'] eqn:E; cbn [bind].
  - destruct (transform_array b ts) as [[s' c]|e'] eqn:E'; cbn [bind]; [discriminate|]. intros H. injection H as <-. eauto.
  - intros H. injection H as <-. apply transform_errors in E. tauto.
Qed.
Lemma rule_result_error m key value r e : rule_result m key value r = Raise e -> e = ValueError.
Proof.
  unfold rule_result. destruct (pattern r key); [|discriminate]. destruct (transform_array value (transforms r)) as [[s b]|e'] eqn:E; cbn [bind].
  - destruct (m <? prod (dims b)); congruence.
  - intros H. injection H as <-. eapply transform_array_error; eauto.
Qed.
Lemma summarize_error rules m key value e : summarize rules m key value = Raise e -> e = ValueError.
Proof. rewrite summarize_eq. destruct (rmap _ rules) eqn:E; cbn [bind]; [discriminate|]. intros H. injection H as <-. apply rmap_raise in E. destruct E as (r & _ & E). apply rule_result_error in E. auto. Qed.
Lemma call_errors rules m tree e : call rules m tree = Raise e <->
  e = ValueError /\ exists key value r, In (key, value) tree /\ In r rules /\ pattern r key = true /\
    (transform_array value (transforms r) = Raise ValueError \/ exists suffix b, transform_array value (transforms r) = Ok (suffix, b) /\ m < prod (dims b)).
Proof.
  split.
  - intros H. unfold call in H. destruct (rmap _ tree) eqn:E; cbn [bind] in H; [discriminate|]. injection H as ->. apply rmap_raise in E. destruct E as ([key value] & I & E).
    pose proof (summarize_error _ _ _ _ _ E) as ->. split; auto. cbn [fst snd] in E. rewrite summarize_eq in E. destruct (rmap _ rules) eqn:E'; cbn [bind] in E; [discriminate|]. injection E as ->.
    apply rmap_raise in E'. destruct E' as (r & Ir & E'). exists key, value, r. split; auto. split; auto. unfold rule_result in E'. destruct (pattern r key); [|discriminate]. split; auto.
    destruct (transform_array value (transforms r)) as [[s b]|e'] eqn:Et; cbn [bind] in E'; [|left; congruence]. right. exists s, b. split; auto. destruct (Nat.ltb_spec m (prod (dims b))); [auto|discriminate].
  - intros (-> & key & value & r & I & Ir & P & H). unfold call.
    assert (N : forall l, rule_result m key value r <> Ok l).
    { unfold rule_result. rewrite P. destruct H as [-> | (s & b & -> & L)]; cbn [bind]; [discriminate|]. apply Nat.ltb_lt in L. rewrite L. discriminate. }
    rewrite (rmap_raise_if _ tree (key, value)); auto.
    + intros [k v] e. cbn [fst snd]. apply summarize_error.
    + intros l E. cbn [fst snd] in E. rewrite summarize_eq in E. rewrite (rmap_raise_if _ rules r) in E; [discriminate| |auto|auto]. intros y e. apply rule_result_error.
Qed.

(** ** Names *)
Lemma N_to_nat_inj_map l l' : map N.to_nat l = map N.to_nat l' -> l = l'.
Proof. revert l'. induction l as [|x l IH]; intros [|y l'] H; try discriminate; auto. injection H as H1 H2. apply N2Nat.inj in H1. f_equal; auto. Qed.
Lemma str_of_nat_inj i j : str_of_nat i = str_of_nat j -> i = j.
Proof.
  unfold str_of_nat. intros H. apply N_to_nat_inj_map in H. assert (K := BaseProofs2.int_of_str 0 (N.of_nat i)). simpl in K. rewrite H in K.
  assert (K' := BaseProofs2.int_of_str 0 (N.of_nat j)). simpl in K'. rewrite K in K'. apply Nat2N.inj in K'. auto.
Qed.
Lemma str_of_nat_digits n : str_of_nat n <> [] /\ Forall (fun c => 48 <= c <= 57) (str_of_nat n).
Proof.
  unfold str_of_nat. pose proof (BaseProofs2.str_of_N_digits (N.of_nat n)) as [Nn F]. split; [intros H; apply map_eq_nil in H; contradiction|].
  apply Forall_map. eapply Forall_impl; [|exact F]. cbn. intros c Hc. lia.
Qed.
Lemma str_of_Z_chars z : str_of_Z z <> [] /\ Forall (fun c => c = 45 \/ 48 <= c <= 57) (str_of_Z z).
Proof.
  unfold str_of_Z. destruct (z <? 0)%Z; [split; [discriminate|constructor; [auto|]]|split; [apply str_of_nat_digits|]]; (eapply Forall_impl; [|apply str_of_nat_digits]; cbn; auto).
Qed.
Lemma str_of_Z_inj y z : str_of_Z y = str_of_Z z -> y = z.
Proof.
  assert (D : forall n r, str_of_nat n <> 45 :: r). { intros n r E. pose proof (str_of_nat_digits n) as [_ F]. rewrite E in F. inversion F; lia. }
  unfold str_of_Z. destruct (Z.ltb_spec y 0), (Z.ltb_spec z 0); intros E.
  - injection E as E. apply str_of_nat_inj in E. lia.
  - symmetry in E. apply D in E. contradiction.
  - apply D in E. contradiction.
  - apply str_of_nat_inj in E. lia.
Qed.
(** Text before the first c *)
Lemma split_at (c : nat) a b x y : ~ In c a -> ~ In c b -> a ++ c :: x = b ++ c :: y -> a = b /\ x = y.
Proof.
  revert b. induction a as [|u a IH]; intros [|v b] Ha Hb E; cbn [app] in E; cbn [In] in *.
  - injection E as ->. auto.
  - injection E as -> _. tauto.
  - injection E as -> _. tauto.
  - injection E as -> E. destruct (IH b) as [-> ->]; auto.
Qed.
Lemma no_comma z : ~ In 44 (str_of_Z z).
Proof. intros I. destruct (str_of_Z_chars z) as [_ F]. rewrite Forall_forall in F. apply F in I. lia. Qed.
Lemma no_paren z : ~ In 41 (str_of_Z z).
Proof. intros I. destruct (str_of_Z_chars z) as [_ F]. rewrite Forall_forall in F. apply F in I. lia. Qed.
Lemma not_in_app {T} (c : T) a b : ~ In c a -> ~ In c b -> ~ In c (a ++ b).
Proof. rewrite in_app_iff. tauto. Qed.

Lemma tuple_tail_inj x y l l' : join (chars ", ") (map str_of_Z (x :: l)) ++ [41] = join (chars ", ") (map str_of_Z (y :: l')) ++ [41] -> x :: l = y :: l'.
Proof.
  revert x y l'. induction l as [|x' l IH]; intros x y [|y' l'] E.
  - cbn [map join] in E. apply split_at in E; auto using no_paren. destruct E as [E _]. apply str_of_Z_inj in E. subst. auto.
  - exfalso. cbn [map] in E. assert (I : In 44 (str_of_Z x ++ [41])).
    { cbn [join] in E. rewrite E. apply in_or_app. left. apply in_or_app. right. left. auto. }
    revert I. apply not_in_app; [apply no_comma|cbn; lia].
  - exfalso. cbn [map] in E. assert (I : In 44 (str_of_Z y ++ [41])).
    { cbn [join] in E. rewrite <- E. apply in_or_app. left. apply in_or_app. right. left. auto. }
    revert I. apply not_in_app; [apply no_comma|cbn; lia].
  - change (join (chars ", ") (map str_of_Z (x :: x' :: l))) with (str_of_Z x ++ 44 :: 32 :: join (chars ", ") (map str_of_Z (x' :: l))) in E.
    change (join (chars ", ") (map str_of_Z (y :: y' :: l'))) with (str_of_Z y ++ 44 :: 32 :: join (chars ", ") (map str_of_Z (y' :: l'))) in E.
    rewrite <- !app_assoc in E. cbn [app] in E. apply split_at in E; auto using no_comma. destruct E as [E1 E2]. injection E2 as E2. apply str_of_Z_inj in E1. apply IH in E2. congruence.
Qed.
Lemma tuple_eq l : str_of_tuple l = match l with [] => [40; 41] | [x] => 40 :: str_of_Z x ++ [44; 41] | l => 40 :: join (chars ", ") (map str_of_Z l) ++ [41] end.
Proof. destruct l as [|x [|y l]]; reflexivity. Qed.
Lemma tuple_inj l l' : str_of_tuple l = str_of_tuple l' -> l = l'.
Proof.
  rewrite !tuple_eq. destruct l as [|x [|x' l]], l' as [|y [|y' l']]; intros E; auto; injection E as E.
  - exfalso. destruct (str_of_Z_chars y) as [Ny F]. destruct (str_of_Z y) as [|c s]; [congruence|]. injection E as Ec _. inversion F; lia.
  - exfalso. rewrite <- !app_assoc in E. destruct (str_of_Z_chars y) as [Ny F]. destruct (str_of_Z y) as [|c s]; [congruence|]. injection E as Ec _. inversion F; lia.
  - exfalso. destruct (str_of_Z_chars x) as [Ny F]. destruct (str_of_Z x) as [|c s]; [congruence|]. injection E as Ec _. inversion F; lia.
  - apply split_at in E; auto using no_comma. destruct E as [E _]. apply str_of_Z_inj in E. subst. auto.
  - exfalso. rewrite <- !app_assoc in E. cbn [app] in E. apply split_at in E; auto using no_comma. destruct E as [_ E]. discriminate.
  - exfalso. rewrite <- !app_assoc in E. destruct (str_of_Z_chars x) as [Ny F]. destruct (str_of_Z x) as [|c s]; [congruence|]. injection E as Ec _. inversion F; lia.
  - exfalso. rewrite <- !app_assoc in E. cbn [app] in E. apply split_at in E; auto using no_comma. destruct E as [_ E]. discriminate.
  - apply tuple_tail_inj. auto.
Qed.
Definition tuple_char (c : nat) : Prop := c = 40 \/ c = 41 \/ c = 44 \/ c = 32 \/ c = 45 \/ 48 <= c <= 57.
Lemma join_chars (P : nat -> Prop) sep l : Forall P sep -> Forall (Forall P) l -> Forall P (join sep l).
Proof. intros Hs. induction 1 as [|x l H F IH]; [constructor|]. destruct l; [exact H|]. cbn [join]. apply Forall_app. split; auto. apply Forall_app. split; auto. Qed.
Lemma tuple_chars l : Forall tuple_char (str_of_tuple l).
Proof.
  assert (Z : forall z, Forall tuple_char (str_of_Z z)). { intros z. eapply Forall_impl; [|apply str_of_Z_chars]. cbn. unfold tuple_char. lia. }
  assert (J : Forall tuple_char (join (chars ", ") (map str_of_Z l))). { apply join_chars; [change (chars ", ") with [44; 32]; (unfold tuple_char; repeat (apply Forall_cons; [lia|]); apply Forall_nil)|]. apply Forall_map, Forall_forall. auto. }
  rewrite tuple_eq. destruct l as [|x [|y l]].
  - (unfold tuple_char; repeat (apply Forall_cons; [lia|]); apply Forall_nil).
  - constructor; [unfold tuple_char; auto|]. apply Forall_app. split; auto. (unfold tuple_char; repeat (apply Forall_cons; [lia|]); apply Forall_nil).
  - constructor; [unfold tuple_char; auto|]. apply Forall_app. split; auto. (unfold tuple_char; repeat (apply Forall_cons; [lia|]); apply Forall_nil).
Qed.
Lemma name_chars o : Forall (fun c => 97 <= c <= 122) (name_of o).
Proof. destruct o; vm_compute; repeat constructor; lia. Qed.
Lemma seg_chars t : known t -> Forall (fun c => c <> 95 /\ c <> 91) (seg t).
Proof.
  intros [o E]. unfold seg. rewrite E. apply Forall_app. split; [eapply Forall_impl; [|apply name_chars]; cbn; lia|].
  destruct (given_axes t); [|constructor]. eapply Forall_impl; [|apply tuple_chars]. unfold tuple_char. cbn. lia.
Qed.
Lemma seg_inj t t' : known t -> known t' -> seg t = seg t' -> meaning t = meaning t'.
Proof.
  intros [o E] [o' E']. unfold seg, meaning. rewrite E, E'.
  assert (P : forall o, ~ In 40 (name_of o)). { intros o2 I. pose proof (name_chars o2) as F. rewrite Forall_forall in F. apply F in I. lia. }
  assert (Tp : forall l, exists r, str_of_tuple l = 40 :: r). { intros l. rewrite tuple_eq. destruct l as [|x [|y l]]; eauto. }
  destruct (given_axes t) as [l|], (given_axes t') as [l'|]; intros H; rewrite ?app_nil_r in H.
  - destruct (Tp l) as [r Hr], (Tp l') as [r' Hr']. rewrite Hr, Hr' in H. apply split_at in H; auto. destruct H as [-> H]. subst r'. rewrite <- Hr' in Hr. apply tuple_inj in Hr. subst. auto.
  - exfalso. destruct (Tp l) as [r Hr]. rewrite Hr in H. apply (P o'). rewrite <- H. apply in_or_app. right. left. auto.
  - exfalso. destruct (Tp l') as [r Hr]. rewrite Hr in H. apply (P o). rewrite H. apply in_or_app. right. left. auto.
  - rewrite H. auto.
Qed.
Definition suffix_of (ts : list transform) : str := flat_map (fun t => 95 :: seg t) ts.
Lemma transform_suffix ts : forall a s b, transform_array a ts = Ok (s, b) -> s = suffix_of ts /\ Forall known ts.
Proof.
  induction ts as [|t ts IH]; intros a s b H. { apply Ok_inj in H. injection H as <- _. split; constructor. }
  apply transform_sequence in H. destruct H as (s1 & b1 & s2 & H1 & H2 & ->). apply transform_inv in H1. destruct H1 as (o & _ & E & _ & _ & -> & _). apply IH in H2. destruct H2 as [-> K].
  split; auto. constructor; auto. exists o. auto.
Qed.
Lemma suffix_inj ts : forall ts', Forall known ts -> Forall known ts' -> suffix_of ts = suffix_of ts' -> map meaning ts = map meaning ts'.
Proof.
  induction ts as [|t ts IH]; intros [|t' ts'] K K' E; auto; try discriminate.
  inversion K as [|? ? Kt Ks]; inversion K' as [|? ? Kt' Ks']; subst. cbn [suffix_of flat_map] in E. fold (suffix_of ts) (suffix_of ts') in E. cbn [app] in E. injection E as E.
  assert (U : forall t, known t -> ~ In 95 (seg t)). { intros u Ku I. pose proof (seg_chars u Ku) as F. rewrite Forall_forall in F. apply F in I. tauto. }
  assert (G : seg t = seg t' /\ suffix_of ts = suffix_of ts').
  { destruct ts as [|u ts], ts' as [|u' ts']; cbn [suffix_of flat_map app] in *.
    - rewrite !app_nil_r in E. auto.
    - exfalso. rewrite app_nil_r in E. apply (U t Kt). rewrite E. apply in_or_app. right. left. auto.
    - exfalso. rewrite app_nil_r in E. apply (U t' Kt'). rewrite <- E. apply in_or_app. right. left. auto.
    - apply split_at in E; auto. destruct E as [-> E]. rewrite E. auto. }
  destruct G as [G1 G2]. cbn [map]. f_equal; [apply seg_inj; auto|apply IH; auto].
Qed.
Lemma suffix_chars ts : Forall known ts -> ~ In 91 (suffix_of ts).
Proof.
  intros K. unfold suffix_of. rewrite in_flat_map. intros (t & I & H). rewrite Forall_forall in K. apply K in I. destruct H as [H|H]; [discriminate|].
  apply seg_chars in I. rewrite Forall_forall in I. apply I in H. tauto.
Qed.

Lemma idx_join_inj l l' : length l = length l' -> join (chars ",") (map str_of_nat l) = join (chars ",") (map str_of_nat l') -> l = l'.
Proof.
  assert (C : forall n, ~ In 44 (str_of_nat n)). { intros n I. pose proof (str_of_nat_digits n) as [_ F]. rewrite Forall_forall in F. apply F in I. lia. }
  revert l'. induction l as [|x l IH]; intros [|y l'] L E; try discriminate; auto.
  destruct l as [|x' l], l' as [|y' l']; try discriminate.
  - cbn [map join] in E. apply str_of_nat_inj in E. subst. auto.
  - change (join (chars ",") (map str_of_nat (x :: x' :: l))) with (str_of_nat x ++ 44 :: join (chars ",") (map str_of_nat (x' :: l))) in E.
    change (join (chars ",") (map str_of_nat (y :: y' :: l'))) with (str_of_nat y ++ 44 :: join (chars ",") (map str_of_nat (y' :: l'))) in E.
    apply split_at in E; auto. destruct E as [E1 E2]. apply str_of_nat_inj in E1. apply IH in E2; [congruence|simpl in *; lia].
Qed.
Definition big (shape idx : list nat) : list nat := map fst (filter (fun p => 1 <? snd p) (combine idx shape)).
Lemma index_suffix_eq shape idx : index_suffix shape idx = match join (chars ",") (map str_of_nat (big shape idx)) with [] => [] | s => 91 :: s ++ [93] end.
Proof. unfold index_suffix, big. rewrite map_map. destruct (join _ _); reflexivity. Qed.
Lemma big_length shape : forall idx idx', length idx = length shape -> length idx' = length shape -> length (big shape idx) = length (big shape idx').
Proof.
  unfold big. induction shape as [|d shape IH]; intros [|x idx] [|y idx'] L L'; try discriminate; auto. cbn [combine filter snd]. specialize (IH idx idx'). simpl in L, L'. rewrite !map_length in *.
  destruct (1 <? d); simpl; rewrite IH by lia; auto.
Qed.
Lemma big_inj shape : forall idx idx', inb shape idx -> inb shape idx' -> big shape idx = big shape idx' -> idx = idx'.
Proof.
  unfold big. induction shape as [|d shape IH]; intros idx idx' H H' E; inversion H as [|x ? i ? Hx F]; inversion H' as [|x' ? i' ? Hx' F']; subst; auto.
  cbn [combine filter snd] in E. destruct (Nat.ltb_spec 1 d) as [L|L]; cbn [map fst] in E.
  - injection E as -> E. f_equal. auto.
  - f_equal; [lia|auto].
Qed.
Lemma index_suffix_inj shape idx idx' : inb shape idx -> inb shape idx' -> index_suffix shape idx = index_suffix shape idx' -> idx = idx'.
Proof.
  intros H H' E. apply (big_inj shape); auto. apply idx_join_inj. { apply big_length; apply inb_length; auto. }
  rewrite !index_suffix_eq in E. destruct (join _ (map str_of_nat (big shape idx))), (join _ (map str_of_nat (big shape idx'))); try discriminate; auto.
  injection E as -> E. apply app_inj_tail in E. destruct E as [-> _]. auto.
Qed.
Lemma index_suffix_head shape idx : index_suffix shape idx = [] \/ exists r, index_suffix shape idx = 91 :: r.
Proof. rewrite index_suffix_eq. destruct (join _ _); eauto. Qed.
Lemma yields_nodup p b : NoDup (map fst (yields p b)).
Proof.
  unfold yields. rewrite map_map. cbn [fst]. assert (G : forall l, NoDup l -> (forall x, In x l -> inb (dims b) x) -> NoDup (map (fun idx => p ++ index_suffix (dims b) idx) l)).
  { induction 1 as [|x l N _ IH]; simpl; intros HI; [constructor|]. constructor; [|apply IH; auto]. intros I. apply in_map_iff in I. destruct I as (y & E & I).
    apply app_inv_head in E. apply index_suffix_inj in E; auto. subst. contradiction. }
  apply G; [apply indices_nodup|]. intros x. apply indices_in.
Qed.
(** Text after the key *)
Lemma rest_inj ts ts' i i' : Forall known ts -> Forall known ts' -> (i = [] \/ exists r, i = 91 :: r) -> (i' = [] \/ exists r, i' = 91 :: r) ->
  suffix_of ts ++ i = suffix_of ts' ++ i' -> suffix_of ts = suffix_of ts' /\ i = i'.
Proof.
  intros K K' Hi Hi' E. pose proof (suffix_chars ts K) as U. pose proof (suffix_chars ts' K') as U'.
  destruct Hi as [->|[r ->]], Hi' as [->|[r' ->]]; rewrite ?app_nil_r in E.
  - auto.
  - exfalso. apply U. rewrite E. apply in_or_app. right. left. auto.
  - exfalso. apply U'. rewrite <- E. apply in_or_app. right. left. auto.
  - apply split_at in E; auto. destruct E as [-> ->]. auto.
Qed.
Lemma prefix_cases {T} (a b x y : list T) : a ++ x = b ++ y -> (exists t, b = a ++ t /\ x = t ++ y) \/ (exists t, a = b ++ t /\ y = t ++ x).
Proof.
  revert b. induction a as [|u a IH]; intros b E. { left. exists b. auto. }
  destruct b as [|v b]. { right. exists (u :: a). auto. }
  cbn [app] in E. injection E as -> E. destruct (IH b E) as [(t & -> & ->)|(t & -> & ->)]; [left|right]; exists t; auto.
Qed.
Lemma rest_head ts i c r : (i = [] \/ exists r, i = 91 :: r) -> suffix_of ts ++ i = c :: r -> c = 95 \/ c = 91.
Proof. intros Hi E. destruct ts as [|t ts]; cbn in E; [destruct Hi as [->|[q ->]]; [discriminate|injection E as <- _; auto]|injection E as <- _; auto]. Qed.

(** Names of the values of a rule *)
Lemma rule_result_names m key value r l : rule_result m key value r = Ok l -> l <> [] -> pattern r key = true /\ Forall known (transforms r) /\
  exists b, l = yields (key ++ suffix_of (transforms r)) b.
Proof.
  unfold rule_result. destruct (pattern r key); [|intros H N; injection H as <-; congruence]. intros H _. split; auto. apply bind_ok in H. destruct H as ([s b] & E & H).
  destruct (m <? prod (dims b)); [discriminate|]. apply Ok_inj in H. apply transform_suffix in E. destruct E as [-> K]. split; auto. exists b. auto.
Qed.
Lemma yields_rest p b n : In n (map fst (yields p b)) -> exists idx, n = p ++ index_suffix (dims b) idx.
Proof. unfold yields. rewrite map_map. intros I. apply in_map_iff in I. destruct I as (idx & <- & _). exists idx. auto. Qed.

Definition matching (rules : list rule) (key : str) : list rule := filter (fun r => pattern r key) rules.
Lemma key_names rules m key value ls : Forall2 (fun r l => rule_result m key value r = Ok l) rules ls ->
  NoDup (map (fun r => map meaning (transforms r)) (matching rules key)) -> NoDup (map fst (concat ls)) /\
  forall n, In n (map fst (concat ls)) -> exists r i, In r (matching rules key) /\ Forall known (transforms r) /\ (i = [] \/ exists q, i = 91 :: q) /\ n = key ++ suffix_of (transforms r) ++ i.
Proof.
  induction 1 as [|r l rules ls H F IH]; intros ND. { cbn. split; [constructor|intros n []]. }
  unfold matching in *. cbn [filter] in ND |- *.
  assert (ND' : NoDup (map (fun r => map meaning (transforms r)) (filter (fun r => pattern r key) rules))). { destruct (pattern r key); auto. inversion ND; auto. }
  destruct (IH ND') as [N1 N2]. cbn [concat]. rewrite map_app.
  destruct l as [|nv l].
  { cbn [map app]. split; auto. intros n I. destruct (N2 n I) as (r' & i & I' & R). exists r', i. split; auto. destruct (pattern r key); [right|]; auto. }
  destruct (rule_result_names _ _ _ _ _ H) as (P & K & b & E); [discriminate|]. rewrite E. clear E H. rewrite P in *. inversion ND as [|? ? Nin _]; subst.
  split.
  - apply NoDup_app_intro; auto using yields_nodup. intros n I1 I2. apply yields_rest in I1. destruct I1 as (idx & ->). apply N2 in I2. destruct I2 as (r' & i & I' & K' & Hi & E).
    rewrite <- app_assoc in E. apply app_inv_head in E. apply rest_inj in E; auto using index_suffix_head. destruct E as [E _]. apply suffix_inj in E; auto.
    apply Nin. rewrite E. apply (in_map (fun r => map meaning (transforms r))). auto.
  - intros n I. apply in_app_iff in I. destruct I as [I|I].
    + apply yields_rest in I. destruct I as (idx & ->). exists r, (index_suffix (dims b) idx). split; [left; auto|]. split; auto. split; [apply index_suffix_head|]. rewrite app_assoc. auto.
    + destruct (N2 n I) as (r' & i & I' & R). exists r', i. split; auto. right. auto.
Qed.
Lemma call_names rules m tree out w : call rules m tree = Ok (out, w) -> NoDup (map fst tree) ->
  (forall k k', In k (map fst tree) -> In k' (map fst tree) -> ~ prolongs k k') ->
  (forall k, In k (map fst tree) -> NoDup (map (fun r => map meaning (transforms r)) (filter (fun r => pattern r k) rules))) ->
  NoDup (map fst out).
Proof.
  intros H ND HP HR. destruct (call_results _ _ _ _ _ H) as (lls & F & ->). clear H.
  assert (G : NoDup (map fst (concat (concat lls))) /\ forall n, In n (map fst (concat (concat lls))) -> exists k ts i, In k (map fst tree) /\ (i = [] \/ exists q, i = 91 :: q) /\ n = k ++ suffix_of ts ++ i).
  { revert ND HP HR. induction F as [|[key value] ls tree lls H F IH]; intros ND HP HR. { cbn. split; [constructor|intros n []]. }
    cbn [map fst] in *. inversion ND as [|? ? Nin ND']; subst. destruct IH as [N1 N2]; auto. { intros. apply HP; right; auto. } { intros. apply HR. right. auto. }
    cbn [concat]. rewrite concat_app, map_app. destruct (key_names _ _ _ _ _ H) as [M1 M2]. { apply HR. left. auto. }
    split.
    - apply NoDup_app_intro; auto. intros n I1 I2. apply M2 in I1. destruct I1 as (r & i & _ & _ & Hi & ->). apply N2 in I2. destruct I2 as (k & ts & i' & Ik & Hi' & E).
      apply prefix_cases in E. destruct E as [(t & Ek & E)|(t & Ek & E)].
      + destruct t as [|c t]; [rewrite app_nil_r in Ek; subst; contradiction|]. apply (HP key k); [left; auto|right; auto|]. exists c, t. split; auto. cbn [app] in E. apply rest_head in E; auto.
      + destruct t as [|c t]; [rewrite app_nil_r in Ek; subst; contradiction|]. apply (HP k key); [right; auto|left; auto|]. exists c, t. split; auto. cbn [app] in E. apply rest_head in E; auto.
    - intros n I. apply in_app_iff in I. destruct I as [I|I].
      + apply M2 in I. destruct I as (r & i & _ & _ & Hi & ->). exists key, (transforms r), i. split; [left|]; auto.
      + apply N2 in I. destruct I as (k & ts & i & Ik & R). exists k, ts, i. split; [right|]; auto. }
  apply G.
Qed.
Lemma name_begins rules m tree out w : call rules m tree = Ok (out, w) -> forall n v, In (n, v) out ->
  exists k r rest, In k (map fst tree) /\ In r rules /\ pattern r k = true /\ n = k ++ rest /\ (rest = [] \/ exists c q, rest = c :: q /\ (c = 95 \/ c = 91)).
Proof.
  intros H n v I. destruct (call_results _ _ _ _ _ H) as (lls & F & ->). clear H. apply in_concat in I. destruct I as (l & Il & I). apply in_concat in Il. destruct Il as (ls & Ils & Il).
  induction F as [|[key value] ls' tree lls H F IH]; [destruct Ils|]. destruct Ils as [->|Ils]; [|destruct IH as (k & r & rest & Ik & R); auto; exists k, r, rest; split; [right|]; auto].
  clear IH F. exists key. cbn [fst snd] in H.
  assert (G : exists r, In r rules /\ rule_result m key value r = Ok l). { clear -H Il. induction H as [|r l' rules ls H F IH]; [destruct Il|]. destruct Il as [->|Il]; [exists r; split; [left|]; auto|destruct IH as (r' & Ir & R); auto; exists r'; split; [right|]; auto]. }
  destruct G as (r & Ir & Er). apply rule_result_names in Er; [|intros Z; subst; destruct I]. destruct Er as (P & K & b & ->). apply (in_map fst) in I. apply yields_rest in I. destruct I as (idx & E). cbn [fst] in E. subst n.
  exists r. rewrite <- app_assoc. eexists. split; [left; auto|]. split; auto. split; auto. split; [reflexivity|].
  destruct (suffix_of (transforms r) ++ index_suffix (dims b) idx) as [|c q] eqn:E; [left; auto|right]. exists c, q. split; auto. eapply rest_head; [|exact E]. apply index_suffix_head.
Qed.

(** ** Metrics *)
Lemma str_eqb_refl k : TreeModel.str_eqb k k = true.
Proof. unfold TreeModel.str_eqb. destruct (list_eq_dec Nat.eq_dec k k); congruence. Qed.
Lemma str_eqb_ne k k' : k <> k' -> TreeModel.str_eqb k k' = false.
Proof. unfold TreeModel.str_eqb. destruct (list_eq_dec Nat.eq_dec k k'); congruence. Qed.
Lemma dget_dset {V} (d : list (TreeModel.str * V)) k v k' : TreeModel.dget (TreeModel.dset d k v) k' = if TreeModel.str_eqb k k' then Some v else TreeModel.dget d k'.
Proof.
  induction d as [|[k0 v0] d IH]; cbn; auto. destruct (TreeModel.str_eqb k0 k) eqn:E; cbn.
  - unfold TreeModel.str_eqb in E. destruct (list_eq_dec Nat.eq_dec k0 k) as [->|]; [|discriminate]. destruct (TreeModel.str_eqb k k'); auto.
  - destruct (TreeModel.str_eqb k0 k') eqn:E'; auto. unfold TreeModel.str_eqb in E'. destruct (list_eq_dec Nat.eq_dec k0 k') as [->|]; [|discriminate].
    rewrite str_eqb_ne; auto. intros ->. rewrite str_eqb_refl in E. discriminate.
Qed.
Lemma dupdate_get {V} (e d : list (TreeModel.str * V)) k : ~ In k (map fst e) -> TreeModel.dget (TreeModel.dupdate d e) k = TreeModel.dget d k.
Proof. revert d. unfold TreeModel.dupdate. induction e as [|[k0 v0] e IH]; cbn; intros d N; auto. rewrite IH by tauto. rewrite dget_dset, str_eqb_ne; auto. Qed.
Lemma dupdate_in {V} (e d : list (TreeModel.str * V)) k v : NoDup (map fst e) -> In (k, v) e -> TreeModel.dget (TreeModel.dupdate d e) k = Some v.
Proof.
  revert d. unfold TreeModel.dupdate. induction e as [|[k0 v0] e IH]; cbn [map fst fold_left]; intros d N I; [destruct I|]. inversion N; subst. destruct I as [E|I]; [|apply IH; auto].
  injection E as -> ->. cbn [snd]. fold (TreeModel.dupdate (TreeModel.dset d k v) e). rewrite dupdate_get by auto. rewrite dget_dset, str_eqb_refl. auto.
Qed.
Definition step_tree (state_flat grads_flat : list (str * arr)) : list (str * arr) := state_flat ++ map (fun kv => (chars "params_grads/" ++ fst kv, snd kv)) grads_flat.
Lemma step_metrics rules m metrics state_flat grads_flat metrics' :
  NoDup (map fst (step_tree state_flat grads_flat)) ->
  summarize_step (Some (rules, m)) metrics state_flat grads_flat = Ok metrics' ->
  exists out w, call rules m (step_tree state_flat grads_flat) = Ok (out, w) /\
    (forall k, ~ In k (map fst out) -> entry metrics' k = entry metrics k) /\
    (NoDup (map fst out) -> forall k v, In (k, v) out -> entry metrics' k = Some v).
Proof.
  intros ND H. cbn [summarize_step] in H. rewrite TreeProofs.dupdate_new in H by exact ND. apply bind_ok in H. destruct H as ([out w] & E & H). apply Ok_inj in H. subst metrics'.
  exists out, w. split; auto. split; intros; unfold entry; cbn [fst]; [apply dupdate_get|apply dupdate_in]; auto.
Qed.

(** The same name has the same value. *)
Lemma apply_meaning ts ts' a : map meaning ts = map meaning ts' -> transform_array a ts = transform_array a ts'.
Proof.
  rewrite !transform_array_eq. generalize (@nil nat, a). revert ts'. induction ts as [|t ts IH]; intros [|t' ts'] so E; try discriminate; auto.
  cbn [map] in E. injection E as E1 E2 E. cbn [rfold].
  assert (Es : step so t = step so t') by (unfold step, seg; rewrite E1, E2; auto). rewrite Es. destruct (step so t'); cbn [bind]; auto.
Qed.
Lemma in_results rules m tree lls n v : Forall2 (fun kv ls => Forall2 (fun r l => rule_result m (fst kv) (snd kv) r = Ok l) rules ls) tree lls -> In (n, v) (concat (concat lls)) ->
  exists key value r b idx, In (key, value) tree /\ Forall known (transforms r) /\ transform_array value (transforms r) = Ok (suffix_of (transforms r), b) /\ inb (dims b) idx /\
    n = key ++ suffix_of (transforms r) ++ index_suffix (dims b) idx /\ v = at_ b idx.
Proof.
  intros F I. apply in_concat in I. destruct I as (l & Il & I). apply in_concat in Il. destruct Il as (ls & Ils & Il).
  induction F as [|[key value] ls' tree lls H F IH]; [destruct Ils|]. destruct Ils as [->|Ils].
  2:{ destruct IH as (k & v' & r & b & idx & Ik & R); auto. exists k, v', r, b, idx. split; [right|]; auto. }
  clear IH F. exists key, value. cbn [fst snd] in H.
  assert (G : exists r, In r rules /\ rule_result m key value r = Ok l). { clear -H Il. induction H as [|r l' rules ls H F IH]; [destruct Il|]. destruct Il as [->|Il]; [exists r; split; [left|]; auto|destruct IH as (r' & Ir & R); auto; exists r'; split; [right|]; auto]. }
  destruct G as (r & _ & Er). unfold rule_result in Er. destruct (pattern r key); [|injection Er as <-; destruct I]. apply bind_ok in Er. destruct Er as ([s b] & E & Er).
  destruct (m <? prod (dims b)); [discriminate|]. apply Ok_inj in Er. subst l. pose proof (transform_suffix _ _ _ _ E) as [-> K]. unfold yields in I. apply in_map_iff in I. destruct I as (idx & En & I).
  injection En as <- <-. exists r, b, idx. split; [left; auto|]. split; auto. split; auto. split; [apply indices_in; auto|]. rewrite app_assoc. auto.
Qed.
Lemma nodup_fst {V} (l : list (str * V)) k v v' : NoDup (map fst l) -> In (k, v) l -> In (k, v') l -> v = v'.
Proof.
  induction l as [|[k0 v0] l IH]; cbn; intros N I I'; [destruct I|]. inversion N as [|? ? Nin N']; subst.
  destruct I as [E|I], I' as [E'|I']; [congruence| | |auto]; exfalso; apply Nin; [injection E as -> ->; apply (in_map fst) in I'|injection E' as -> ->; apply (in_map fst) in I]; auto.
Qed.
Lemma call_functional rules m tree out w : call rules m tree = Ok (out, w) -> NoDup (map fst tree) ->
  (forall k k', In k (map fst tree) -> In k' (map fst tree) -> ~ prolongs k k') ->
  forall n v v', In (n, v) out -> In (n, v') out -> v = v'.
Proof.
  intros H ND HP n v v' I I'. destruct (call_results _ _ _ _ _ H) as (lls & F & ->). clear H.
  destruct (in_results _ _ _ _ _ _ F I) as (k & a & r & b & idx & Ik & K & E & B & En & ->). destruct (in_results _ _ _ _ _ _ F I') as (k' & a' & r' & b' & idx' & Ik' & K' & E' & B' & En' & ->).
  pose proof (in_map fst _ _ Ik) as Jk. pose proof (in_map fst _ _ Ik') as Jk'. cbn [fst] in Jk, Jk'. rewrite En in En'.
  assert (k = k').
  { destruct (prefix_cases _ _ _ _ En') as [(t & Ek & Et)|(t & Ek & Et)]; (destruct t as [|c t]; [rewrite app_nil_r in Ek; auto|]); exfalso.
    - apply (HP k k'); auto. exists c, t. split; auto. cbn [app] in Et. apply rest_head in Et; auto using index_suffix_head.
    - apply (HP k' k); auto. exists c, t. split; auto. cbn [app] in Et. apply rest_head in Et; auto using index_suffix_head. }
  subst k'. apply app_inv_head in En'. pose proof (nodup_fst _ _ _ _ ND Ik Ik') as <-. apply rest_inj in En'; auto using index_suffix_head. destruct En' as [Es Ei].
  apply suffix_inj in Es; auto. rewrite (apply_meaning _ _ a Es), E' in E. apply Ok_inj in E. injection E as _ <-. apply index_suffix_inj in Ei; auto. subst. auto.
Qed.
Lemma dupdate_functional {V} (e d : list (TreeModel.str * V)) k v : (forall v', In (k, v') e -> v' = v) -> In (k, v) e -> TreeModel.dget (TreeModel.dupdate d e) k = Some v.
Proof.
  assert (G : forall e d, (forall v', In (k, v') e -> v' = v) -> TreeModel.dget d k = Some v -> TreeModel.dget (TreeModel.dupdate d e) k = Some v).
  { clear. unfold TreeModel.dupdate. induction e as [|[k0 v0] e IH]; cbn; intros d Hf Hd; auto. apply IH; auto. rewrite dget_dset. destruct (TreeModel.str_eqb k0 k) eqn:E; auto.
    unfold TreeModel.str_eqb in E. destruct (list_eq_dec Nat.eq_dec k0 k) as [->|]; [|discriminate]. f_equal. apply Hf. auto. }
  revert d. unfold TreeModel.dupdate. induction e as [|[k0 v0] e IH]; cbn [fold_left]; intros d Hf I; [destruct I|]. destruct I as [E|I]; [|apply IH; auto; intros; apply Hf; right; auto].
  injection E as -> ->. cbn [fst snd]. apply G; [intros; apply Hf; right; auto|]. rewrite dget_dset, str_eqb_refl. auto.
Qed.
Lemma step_no_loss rules m metrics state_flat grads_flat metrics' :
  let tree := state_flat ++ map (fun kv => (chars "params_grads/" ++ fst kv, snd kv)) grads_flat in
  NoDup (map fst tree) -> (forall k k', In k (map fst tree) -> In k' (map fst tree) -> ~ prolongs k k') ->
  summarize_step (Some (rules, m)) metrics state_flat grads_flat = Ok metrics' ->
  exists out w, call rules m tree = Ok (out, w) /\ (forall n v, In (n, v) out -> entry metrics' n = Some v) /\
    forall n, ~ In n (map fst out) -> entry metrics' n = entry metrics n.
Proof.
  intros tree ND HP H. destruct (step_metrics _ _ _ _ _ _ ND H) as (out & w & E & H1 & _). exists out, w. split; auto. split; auto.
  intros n v I. cbn [summarize_step] in H. rewrite TreeProofs.dupdate_new in H by exact ND. unfold step_tree in E.
  apply bind_ok in H. destruct H as ([out' w'] & E' & H). pose proof (eq_trans (eq_sym E) E') as X. apply Ok_inj in X. injection X as <- <-. apply Ok_inj in H. subst metrics'.
  unfold entry. apply dupdate_functional; auto. intros v' I'. eapply call_functional; eauto.
Qed.
Lemma step_kept rules m metrics state_flat grads_flat metrics' n :
  summarize_step (Some (rules, m)) metrics state_flat grads_flat = Ok metrics' ->
  NoDup (map fst (state_flat ++ map (fun kv => (chars "params_grads/" ++ fst kv, snd kv)) grads_flat)) ->
  (forall k rest, In k (map fst state_flat) -> n <> k ++ rest) -> (forall rest, n <> chars "params_grads/" ++ rest) ->
  entry metrics' n = entry metrics n.
Proof.
  intros H ND Hs Hg. destruct (step_metrics _ _ _ _ _ _ ND H) as (out & w & E & H1 & _). apply H1. intros I. apply in_map_iff in I. destruct I as ([n' v] & <- & I). cbn [fst] in *.
  destruct (name_begins _ _ _ _ _ E n' v I) as (k & r & rest & Ik & _ & _ & En & _). unfold step_tree in Ik. rewrite map_app in Ik. apply in_app_iff in Ik. destruct Ik as [Ik|Ik]; [exact (Hs k rest Ik En)|].
  rewrite map_map in Ik. apply in_map_iff in Ik. destruct Ik as ([k0 v0] & <- & _). cbn [fst] in En. rewrite <- app_assoc in En. exact (Hg _ En).
Qed.
Lemma no_summarizer metrics state_flat grads_flat : summarize_step None metrics state_flat grads_flat = Ok metrics.
Proof. reflexivity. Qed.

Lemma create_list rs rules m : rs <> [] -> create_tree_summarizer (RuleList rs) = Ok (Some (rules, m)) -> m = 1 /\
  Forall2 (fun r r' => match r with Bare p => pattern r' = p /\ transforms r' = [] | Seq (Some (p, ts)) => pattern r' = p /\ transforms r' = ts | Seq None => False end) rs rules.
Proof.
  intros N H. destruct rs as [|r0 rs]; [congruence|]. cbn [create_tree_summarizer] in H. apply bind_ok in H. destruct H as (rules' & E & H). apply Ok_inj in H. injection H as <- <-. split; auto.
  apply rmap_ok in E. clear N. induction E as [|r r' l l' H F IH]; constructor; auto. destruct r as [p|[[p ts]|]]; [| |discriminate]; apply Ok_inj in H; subst; auto.
Qed.
Lemma create_error rs : create_tree_summarizer (RuleList rs) = Raise ValueError <-> In (Seq None) rs.
Proof.
  assert (G : forall l, (exists rules, post_init l = Ok rules) \/ post_init l = Raise ValueError). { intros l. unfold post_init. induction l as [|r l IH]; cbn [rmap]; [left; eauto|].
    destruct r as [p|[[p ts]|]]; cbn [bind]; [| |auto]; (destruct IH as [[rules ->]| ->]; cbn [bind]; [left; eauto|right; auto]). }
  assert (G2 : forall l, post_init l = Raise ValueError <-> In (Seq None) l).
  { intros l. specialize (G l). unfold post_init in *. induction l as [|r l IH]; cbn [rmap In] in *; [split; [discriminate|tauto]|].
    destruct r as [p|[[p ts]|]]; cbn [bind] in *.
    - destruct (rmap _ l) eqn:El; cbn [bind] in *; [split; [discriminate|]; intros [X|X]; [discriminate|]; apply IH in X; [discriminate|eauto]|].
      destruct G as [[? G]|G]; [discriminate|]. injection G as ->. split; auto. intros _. right. apply IH; auto.
    - destruct (rmap _ l) eqn:El; cbn [bind] in *; [split; [discriminate|]; intros [X|X]; [discriminate|]; apply IH in X; [discriminate|eauto]|].
      destruct G as [[? G]|G]; [discriminate|]. injection G as ->. split; auto. intros _. right. apply IH; auto.
    - split; auto. }
  destruct rs as [|r rs]; [cbn; split; [discriminate|tauto]|]. rewrite <- G2. cbn [create_tree_summarizer]. destruct (post_init (r :: rs)); cbn [bind]; split; congruence.
Qed.
