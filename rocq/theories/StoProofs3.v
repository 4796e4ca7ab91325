(** Storing does not change the reports, and the reports are those of the stored examples. *)
From Coq Require Import String Ascii List Arith ZArith Bool Reals Lra Lia.
From Verif Require Import EvalModel AttModel AttSpec AttProofs StoModel StoSpec StoProofs StoProofs2 Py PyLemmas.
Import ListNotations.
Local Open Scope list_scope.
Local Open Scope nat_scope.

Lemma get_map {A} (f : string -> A) k ks : In k ks -> get k (map (fun k => (k, f k)) ks) = Some (f k).
Proof.
  induction ks as [|k' ks IH]; [contradiction|]. intros [->|H]; simpl.
  - rewrite String.eqb_refl. reflexivity.
  - destruct (String.eqb_spec k k') as [->|]; auto.
Qed.
Lemma rows_expected row (l : list (string * arr row)) f k : expected row l = Some f -> In k (map fst l) ->
  get k f = Some (Arr (match under row k l with a :: _ => trail a | [] => None end) (flat_map rows (under row k l))).
Proof.
  destruct l as [|kv l]; [discriminate|]. intros E H. set (h := kv :: l) in *.
  assert (E2 : f = map (fun k => (k, Arr (match under row k h with a :: _ => trail a | [] => None end) (flat_map rows (under row k h)))) (first_keys row [] h)) by (injection E; auto).
  rewrite E2. clear E E2. apply (get_map (fun k => Arr (match under row k h with a :: _ => trail a | [] => None end) (flat_map rows (under row k h)))).
  assert (K := first_keys_adds row h [] [] (fun q => iff_refl _)). cbn [app] in K. rewrite <- K. apply adds_in. right. exact H.
Qed.
Lemma under_flat row {B} (f : B -> list (string * arr row)) k l : under row k (flat_map f l) = flat_map (fun b => under row k (f b)) l.
Proof. induction l as [|b l IH]; [reflexivity|]. cbn [flat_map]. rewrite under_app, IH. reflexivity. Qed.
Lemma append_inj a b c : (a ++ b)%string = (a ++ c)%string -> b = c.
Proof. induction a as [|x a IH]; simpl; intros E; [exact E|]. injection E as E. auto. Qed.

Section Run.
Variable X Y rngs_t : Type.
Variable attack_fn : list X -> list Y -> rngs_t -> res (list X * rngs_t).
Variable compute_fn : list X -> list Y -> rngs_t -> res outputs.
Variable name : nat -> string.
Notation cell := (cell X Y).
Notation step := (step X Y rngs_t attack_fn compute_fn name).
Notation run := (run X Y rngs_t attack_fn compute_fn name).
Notation result := (result X Y).
Notation arrays := (arrays X Y name).

Definition shapes : string -> list nat := fun _ => [].
Lemma arrays_compatible (r : result) : compatible cell shapes (arrays r).
Proof.
  unfold compatible, StoProofs2.arrays, batch_arrays. rewrite !Forall_app. split; [repeat constructor; discriminate|].
  split; apply Forall_forall; intros kv H; unfold routed in H; apply in_map_iff in H; destruct H as [kc [<- _]]; cbn; repeat split; discriminate.
Qed.
Lemma all_compatible (rs : list result) : compatible cell shapes (flat_map arrays rs).
Proof. unfold compatible. apply Forall_flat_map. apply Forall_forall. intros r _. apply arrays_compatible. Qed.

(** *** Storing does not change the run *)
Lemma loop_stored every bs : every <> 0%Z -> forall n s st h, holds cell every h st ->
  match rfold step bs (n, s, None) with
  | Ok c => snd c = None /\ exists rs st', rfold step bs (n, s, Some st) = Ok (fst c, Some st') /\ holds cell every (h ++ flat_map arrays rs) st' /\ length rs = length bs
  | Raise e => rfold step bs (n, s, Some st) = Raise e
  end.
Proof.
  intros NZ. induction bs as [|[[x y] v] bs IH]; intros n s st h H.
  - cbn. split; [reflexivity|]. exists [], st. cbn. rewrite app_nil_r. auto.
  - cbn [rfold]. unfold StoModel.step at 1 3 5. destruct (attack X Y rngs_t attack_fn compute_fn s x y v) as [[[[s1 xm] o0] om]|e]; [|reflexivity]. cbn [bind].
    destruct (store_holds cell every h st n (batch_arrays X Y name x y v xm o0 om) NZ H) as [st1 [E1 H1]]. rewrite E1. cbn [bind].
    specialize (IH (n + 1)%Z s1 st1 _ H1). destruct (rfold step bs _) as [c|e]; [|exact IH].
    destruct IH as [N (rs & st' & E & H' & L)]. split; [exact N|]. exists (Res X Y x y v xm o0 om :: rs), st'. cbn [flat_map length]. rewrite app_assoc. auto.
Qed.
Lemma run_stored keys rngs n every bs : every <> 0%Z ->
  match run keys rngs n None bs with
  | Ok rep => examples _ _ _ rep = None /\ exists f, run keys rngs n (Some every) bs = Ok (Report _ _ _ (before _ _ _ rep) (after_step _ _ _ rep) (after _ _ _ rep) (final _ _ _ rep) f)
  | Raise e => run keys rngs n (Some every) bs = Raise e
  end.
Proof.
  intros NZ. unfold StoModel.run. cbn [option_map]. assert (L := loop_stored every bs NZ 1%Z (create _ keys rngs) (new_storage cell every) [] (holds_new cell every)).
  destruct (rfold step bs (1%Z, create _ keys rngs, None)) as [[[m s] st]|e]; [|rewrite L; reflexivity].
  destruct L as [N (rs & st' & E & H & _)]. cbn [snd] in N. subst st. rewrite E. cbn [bind fst snd examples before after after_step final]. split; [reflexivity|].
  destruct (write_holds cell every shapes _ _ H (all_compatible rs)) as [st2 [W _]]. rewrite W. cbn [bind snd]. eexists. reflexivity.
Qed.
Lemma run_zero keys rngs n b bs rep : run keys rngs n (Some 0%Z) (b :: bs) <> Ok rep.
Proof.
  unfold StoModel.run. cbn [option_map rfold]. destruct b as [[x y] v]. unfold StoModel.step at 1.
  destruct (attack X Y rngs_t attack_fn compute_fn _ x y v) as [[[[s1 xm] o0] om]|e]; cbn; discriminate.
Qed.

(** *** The columns *)
Notation col r key C l := (under cell key (arrays r) = [column X Y C l]).
Lemma under_routed key p w : (forall k, In k (map fst w) -> String.eqb key (p ++ name k) = false) -> under cell key (routed X Y name p w) = [].
Proof.
  intros H. apply under_none. intros I. unfold routed in I. rewrite map_map in I. apply in_map_iff in I. destruct I as [kc [E I]]. cbn [fst] in E.
  assert (Q := H (fst kc) (in_map fst _ _ I)). rewrite E in Q. rewrite String.eqb_refl in Q. discriminate.
Qed.
Lemma under_plain key (r : result) : (forall s, String.eqb key ("cw_0/" ++ s) = false) -> (forall s, String.eqb key ("cw_m/" ++ s) = false) ->
  under cell key (arrays r) = under cell key [("x_0", column X Y (CX X Y) (r_x _ _ r)); ("y_0", column X Y (CN X Y) (o_pred (r_0 _ _ r))); ("l_0", column X Y (CF X Y) (o_loss (r_0 _ _ r)));
    ("x_m", column X Y (CX X Y) (r_xm _ _ r)); ("y_m", column X Y (CN X Y) (o_pred (r_m _ _ r))); ("l_m", column X Y (CF X Y) (o_loss (r_m _ _ r)));
    ("y", column X Y (CY X Y) (r_y _ _ r)); ("valid", column X Y (CB X Y) (r_v _ _ r))]%string.
Proof.
  intros H0 Hm. unfold StoProofs2.arrays, batch_arrays. rewrite !under_app. rewrite (under_routed key "cw_0/"), (under_routed key "cw_m/") by auto. rewrite !app_nil_r. reflexivity.
Qed.
Lemma under_match p w k : (forall a b, In a (map fst w) -> In b (map fst w) -> name a = name b -> a = b) -> NoDup (map fst w) -> In k (map fst w) ->
  under cell (p ++ name k) (routed X Y name p w) = [column X Y (CW X Y) (assoc k w)].
Proof.
  induction w as [|[k' c] w IH]; intros INJ D H; [contradiction|]. cbn [map fst] in *. inversion D as [|? ? N D']; subst. unfold routed. cbn [map fst snd]. unfold under. cbn [filter fst].
  destruct (Nat.eqb_spec k k') as [->|NE].
  - rewrite String.eqb_refl. cbn [map snd assoc]. rewrite Nat.eqb_refl. f_equal. apply (under_routed _ _ w). intros q Hq. apply String.eqb_neq. intros E. apply append_inj in E.
    apply INJ in E; [subst; contradiction|left; reflexivity|right; exact Hq].
  - destruct (String.eqb_spec (p ++ name k) (p ++ name k')) as [E|_].
    + exfalso. apply append_inj in E. apply NE. apply INJ; [exact H|left; reflexivity|exact E].
    + cbn [assoc]. apply Nat.eqb_neq in NE. rewrite NE. apply IH; [intros a b Ha Hb; apply INJ; right; assumption|exact D'|]. destruct H as [->|H]; [rewrite Nat.eqb_refl in NE; discriminate|exact H].
Qed.
Lemma under_cw0 keys (r : result) k : (forall a b, In a keys -> In b keys -> name a = name b -> a = b) -> NoDup keys -> In k keys -> map fst (o_cw (r_0 _ _ r)) = keys -> map fst (o_cw (r_m _ _ r)) = keys ->
  under cell ("cw_0/" ++ name k) (arrays r) = [column X Y (CW X Y) (assoc k (o_cw (r_0 _ _ r)))].
Proof.
  intros INJ D H K0 Km. unfold StoProofs2.arrays, batch_arrays. rewrite !under_app. rewrite (under_routed _ "cw_m/") by reflexivity. rewrite (under_match "cw_0/") by (rewrite K0; auto). reflexivity.
Qed.
Lemma under_cwm keys (r : result) k : (forall a b, In a keys -> In b keys -> name a = name b -> a = b) -> NoDup keys -> In k keys -> map fst (o_cw (r_0 _ _ r)) = keys -> map fst (o_cw (r_m _ _ r)) = keys ->
  under cell ("cw_m/" ++ name k) (arrays r) = [column X Y (CW X Y) (assoc k (o_cw (r_m _ _ r)))].
Proof.
  intros INJ D H K0 Km. unfold StoProofs2.arrays, batch_arrays. rewrite !under_app. rewrite (under_routed _ "cw_0/") by reflexivity. rewrite (under_match "cw_m/") by (rewrite Km; auto). reflexivity.
Qed.
Lemma column_cells {A} rs key (C : A -> cell) (g : result -> list A) f : rs <> [] -> expected cell (flat_map arrays rs) = Some f ->
  (forall r, In r rs -> under cell key (arrays r) = [column X Y C (g r)]) -> cells X Y key f = map C (flat_map g rs).
Proof.
  intros NE E H. unfold cells. rewrite (rows_expected _ _ _ key E).
  - cbn [rows]. rewrite under_flat. clear NE E. induction rs as [|r rs IH]; [reflexivity|]. cbn [flat_map]. rewrite (H r (or_introl eq_refl)). cbn [app flat_map column rows].
    rewrite map_app, IH by (intros q Hq; apply H; right; exact Hq). reflexivity.
  - destruct rs as [|r rs]; [contradiction|]. assert (U := H r (or_introl eq_refl)). assert (In (key, column X Y C (g r)) (arrays r)) by (apply under_in; rewrite U; left; reflexivity).
    apply in_map_iff. exists (key, column X Y C (g r)). split; [reflexivity|]. cbn [flat_map]. apply in_or_app. left. exact H0.
Qed.

(** *** The reports *)
Variables (value : Y -> nat -> R) (tokens experts : nat -> nat).
Lemma flat_combine {A B} (f : result -> list A) (g : result -> list B) rs : Forall (fun r => length (f r) = length (g r)) rs ->
  combine (flat_map f rs) (flat_map g rs) = flat_map (fun r => combine (f r) (g r)) rs.
Proof. induction 1 as [|r rs H F IH]; [reflexivity|]. cbn [flat_map]. rewrite combine_app by exact H. rewrite IH. reflexivity. Qed.
Lemma total_flat {A} (h : A -> R) (f : result -> list A) rs : total (map h (flat_map f rs)) = total (map (fun r => total (map h (f r))) rs).
Proof. induction rs as [|r rs IH]; [reflexivity|]. cbn [flat_map map]. rewrite map_app, total_app, IH. reflexivity. Qed.
Lemma hits_all rs (p : result -> list nat) : Forall (fun r => length (r_y _ _ r) = length (r_v _ _ r) /\ length (p r) = length (r_v _ _ r)) rs ->
  total (map (fun vyp : bool * (Y * nat) => if fst vyp then value (fst (snd vyp)) (snd (snd vyp)) else 0%R) (combine (flat_map (r_v _ _) rs) (combine (flat_map (r_y _ _) rs) (flat_map p rs)))) =
  total (map (fun r => total (map (fun vyp : bool * (Y * nat) => if fst vyp then value (fst (snd vyp)) (snd (snd vyp)) else 0%R) (combine (r_v _ _ r) (combine (r_y _ _ r) (p r))))) rs).
Proof.
  intros F. rewrite (flat_combine (r_y _ _) p) by (eapply Forall_impl; [|exact F]; intros r [A B]; congruence).
  rewrite (flat_combine (r_v _ _)) by (eapply Forall_impl; [|exact F]; intros r [A B]; rewrite combine_length; lia). apply total_flat.
Qed.
Lemma changes_all rs : Forall (fun r => length (o_pred (r_m X Y r)) = length (o_pred (r_0 _ _ r))) rs ->
  length (filter (fun ab => negb (fst ab =? snd ab)) (combine (flat_map (fun r => o_pred (r_m _ _ r)) rs) (flat_map (fun r => o_pred (r_0 _ _ r)) rs))) = list_sum (map (changes X Y) rs).
Proof.
  intros F. rewrite (flat_combine (fun r => o_pred (r_m _ _ r))) by exact F. clear F. induction rs as [|r rs IH]; [reflexivity|]. cbn [flat_map map]. rewrite filter_app, app_length, IH. reflexivity.
Qed.
Lemma attacked_rows s bs rs s' : attacked X Y rngs_t attack_fn compute_fn s bs rs s' ->
  flat_map (r_x _ _) rs = flat_map (fun b => fst (fst b)) bs /\ flat_map (r_y _ _) rs = flat_map (fun b => snd (fst b)) bs /\ flat_map (r_v _ _) rs = flat_map snd bs /\ length rs = length bs.
Proof. induction 1 as [|s x y v s1 xm o0 om bs rs s' A AA (I1 & I2 & I3 & I4)]; [auto|]. cbn [flat_map r_x r_y r_v fst snd length]. rewrite I1, I2, I3, I4. auto. Qed.
Lemma run_reports keys rngs n every bs rep : sound_outputs X Y compute_fn value tokens experts -> NoDup keys -> (forall a b, In a keys -> In b keys -> name a = name b -> a = b) ->
  Forall (well_formed X Y) bs -> bs <> [] -> run keys rngs n (Some every) bs = Ok rep ->
  exists f, examples _ _ _ rep = Some f /\
    cells X Y "x_0" f = map (CX X Y) (flat_map (fun b => fst (fst b)) bs) /\
    cells X Y "y" f = map (CY X Y) (flat_map (fun b => snd (fst b)) bs) /\
    cells X Y "valid" f = map (CB X Y) (flat_map snd bs) /\
    before _ _ _ rep = [("error", error_rate X Y value "y_0" f); ("loss", mean_loss X Y "l_0" f)]%string /\
    after_step _ _ _ rep = n /\
    after _ _ _ rep = [("error", error_rate X Y value "y_m" f); ("loss", mean_loss X Y "l_m" f); ("prediction_changes", changed_rate X Y f)]%string ++
      map (fun k => (("routing_changes/" ++ name k)%string, routing_change X Y (experts k) ("cw_0/" ++ name k) ("cw_m/" ++ name k) f)) keys.
Proof.
  intros SOUND D INJ W NE E.
  assert (NZ : every <> 0%Z). { intros ->. destruct bs as [|b bs]; [contradiction|]. apply (run_zero _ _ _ _ _ _ E). }
  unfold StoModel.run in E. cbn [option_map] in E. apply bind_ok in E. destruct E as [c [EL E]].
  destruct (loop_attacked X Y rngs_t attack_fn compute_fn name _ _ _ _ _ EL) as (rs & s' & A & Hs & HS). destruct c as [[m s] st]. cbn [fst snd] in *. subst s'.
  destruct (HS [] every NZ (holds_new cell every)) as [st' [-> H]]. cbn [app] in H.
  destruct (write_holds cell every shapes _ _ H (all_compatible rs)) as [st2 [Wr _]]. rewrite Wr in E. cbn [bind snd] in E. apply Ok_inj in E. subst rep. cbn [examples before after after_step].
  destruct (attacked_rows _ _ _ _ A) as (R1 & R2 & R3 & R4).
  assert (NR : rs <> []). { intros ->. destruct bs; [contradiction|discriminate]. }
  destruct (attacked_facts X Y rngs_t attack_fn compute_fn value tokens experts SOUND keys D _ _ _ _ A W (fun _ => Some 0%R) eq_refl) as (G & N1 & N2 & N3 & N4 & N5).
  cbn [create num_images num_changes num_correct sum_loss fst snd Nat.add] in N1, N2, N3, N4. rewrite !fadd_0 in N3, N4.
  assert (EX : exists f, expected cell (flat_map arrays rs) = Some f). { destruct rs as [|r rs]; [contradiction|]. eexists. reflexivity. }
  destruct EX as [f EF]. exists f. split; [exact EF|].
  assert (P : forall A key (C : A -> cell) (g : result -> list A), (forall r, In r rs -> under cell key (arrays r) = [column X Y C (g r)]) -> cells X Y key f = map C (flat_map g rs)).
  { intros. apply column_cells; auto. }
  assert (Cx := P _ "x_0"%string (CX X Y) (r_x _ _) (fun r _ => under_plain "x_0" r (fun _ => eq_refl) (fun _ => eq_refl))).
  assert (Cy := P _ "y"%string (CY X Y) (r_y _ _) (fun r _ => under_plain "y" r (fun _ => eq_refl) (fun _ => eq_refl))).
  assert (Cv := P _ "valid"%string (CB X Y) (r_v _ _) (fun r _ => under_plain "valid" r (fun _ => eq_refl) (fun _ => eq_refl))).
  assert (Cp0 := P _ "y_0"%string (CN X Y) (fun r => o_pred (r_0 _ _ r)) (fun r _ => under_plain "y_0" r (fun _ => eq_refl) (fun _ => eq_refl))).
  assert (Cpm := P _ "y_m"%string (CN X Y) (fun r => o_pred (r_m _ _ r)) (fun r _ => under_plain "y_m" r (fun _ => eq_refl) (fun _ => eq_refl))).
  assert (Cl0 := P _ "l_0"%string (CF X Y) (fun r => o_loss (r_0 _ _ r)) (fun r _ => under_plain "l_0" r (fun _ => eq_refl) (fun _ => eq_refl))).
  assert (Clm := P _ "l_m"%string (CF X Y) (fun r => o_loss (r_m _ _ r)) (fun r _ => under_plain "l_m" r (fun _ => eq_refl) (fun _ => eq_refl))).
  split; [rewrite Cx, R1; reflexivity|]. split; [rewrite Cy, R2; reflexivity|]. split; [rewrite Cv, R3; reflexivity|].
  assert (Vm : marks X Y "valid" f = flat_map (r_v _ _) rs) by (unfold marks; rewrite Cv, map_map; apply map_id).
  assert (Vy : labels X Y "y" f = flat_map (r_y _ _) rs).
  { unfold labels. rewrite Cy. generalize (flat_map (r_y X Y) rs). intros l. induction l as [|a l IH]; [reflexivity|]. cbn. rewrite IH. reflexivity. }
  assert (V0 : ints X Y "y_0" f = flat_map (fun r => o_pred (r_0 _ _ r)) rs) by (unfold ints; rewrite Cp0, map_map; apply map_id).
  assert (V1 : ints X Y "y_m" f = flat_map (fun r => o_pred (r_m _ _ r)) rs) by (unfold ints; rewrite Cpm, map_map; apply map_id).
  assert (V2 : floats X Y "l_0" f = flat_map (fun r => o_loss (r_0 _ _ r)) rs) by (unfold floats; rewrite Cl0, map_map; apply map_id).
  assert (V3 : floats X Y "l_m" f = flat_map (fun r => o_loss (r_m _ _ r)) rs) by (unfold floats; rewrite Clm, map_map; apply map_id).
  assert (RI : real_images X Y f = num_images _ s). { unfold real_images. rewrite Vm, N1. reflexivity. }
  split; [|split; [reflexivity|]].
  - unfold error_rate, mean_loss, ratio, hits, one_minus_ratio, one_minus. rewrite RI, N3, N4, Vm, Vy, V0, V2, hits_all; [reflexivity|].
    eapply Forall_impl; [|exact G]. intros r Gr. destruct Gr as (g1 & g2 & g3 & g4 & g5 & _). auto.
  - f_equal.
    + unfold error_rate, mean_loss, changed_rate, ratio, hits, one_minus_ratio, one_minus. rewrite RI, N2, N3, N4, Vm, Vy, V0, V1, V3, hits_all, changes_all; [reflexivity| |].
      * eapply Forall_impl; [|exact G]. intros r Gr. destruct Gr as (g1 & g2 & g3 & g4 & g5 & _). congruence.
      * eapply Forall_impl; [|exact G]. intros r Gr. destruct Gr as (g1 & g2 & g3 & g4 & g5 & _). auto.
    + rewrite N5, map_map. apply map_ext_in. intros k Hk. cbn [fst snd]. f_equal. rewrite fadd_0. unfold routing_change, ratio, one_minus_ratio, one_minus. rewrite RI.
      assert (G0 : forall r, In r rs -> under cell ("cw_0/" ++ name k) (arrays r) = [column X Y (CW X Y) (assoc k (o_cw (r_0 _ _ r)))]).
      { intros r Hr. rewrite Forall_forall in G. destruct (G r Hr) as (_ & _ & _ & _ & _ & K0 & Km & _). apply (under_cw0 keys); auto. }
      assert (G1 : forall r, In r rs -> under cell ("cw_m/" ++ name k) (arrays r) = [column X Y (CW X Y) (assoc k (o_cw (r_m _ _ r)))]).
      { intros r Hr. rewrite Forall_forall in G. destruct (G r Hr) as (_ & _ & _ & _ & _ & K0 & Km & _). apply (under_cwm keys); auto. }
      assert (W0 : weights X Y ("cw_0/" ++ name k) f = flat_map (fun r => assoc k (o_cw (r_0 _ _ r))) rs) by (unfold weights; rewrite (P _ _ (CW X Y) _ G0), map_map; apply map_id).
      assert (W1 : weights X Y ("cw_m/" ++ name k) f = flat_map (fun r => assoc k (o_cw (r_m _ _ r))) rs) by (unfold weights; rewrite (P _ _ (CW X Y) _ G1), map_map; apply map_id).
      rewrite W0, W1. reflexivity.
Qed.
End Run.
