(** Interleaved saves (C20, C21). *)
From Coq Require Import Ascii String List Arith NArith Bool Lia Sorted Permutation.
From Verif Require Import BaseModel BaseSpec BaseProofs BaseProofs2 BaseProofs3.
Import ListNotations.
Local Open Scope list_scope.
Local Open Scope N_scope.

Lemma path_in_inj d b d' b' : good_path d b -> good_path d' b' -> path_in d b = path_in d' b' -> d = d' /\ b = b'.
Proof.
  intros G G' E. pose proof (dirname_in d b G) as A. pose proof (dirname_in d' b' G') as A'.
  pose proof (split_path_in d b G) as S. pose proof (split_path_in d' b' G') as S'. rewrite E in *. split; congruence.
Qed.
Lemma good_temp d b : good_path d b -> good_path d (s_ ".tmp." ++ b).
Proof.
  intros [A B]. split; auto. rewrite in_app_iff. intros [H|H]; auto. cbn in H.
  repeat (destruct H as [H|H]; [discriminate|]). contradiction.
Qed.

Section Saves.
Context {B : Type}.
Implicit Types (j k : job B) (t : thread B) (st : fs B).

Lemma temp_ne_path j k : good_job j -> good_job k -> jb_temp j <> jb_path k.
Proof.
  intros [G _] [G' H] E. apply path_in_inj in E; auto; [|apply good_temp; auto]. destruct E as [_ E]. apply (H (jb_base j)). auto.
Qed.
Lemma temp_inj j k : good_job j -> good_job k -> jb_temp j = jb_temp k -> jb_path j = jb_path k.
Proof.
  intros [G _] [G' _] E. apply path_in_inj in E; try apply good_temp; auto. destruct E as [E1 E2].
  apply app_inv_head in E2. unfold jb_path. congruence.
Qed.

Definition after_dir j : list (op B) :=
  OpenWrite (jb_temp j) :: map (Append (jb_temp j)) (jb_pieces j) ++ [Rename (jb_temp j) (jb_path j) (jb_overwrite j)].

Lemma save_ops_eq j : good_job j ->
  save_ops (jb_path j) (jb_pieces j) (jb_overwrite j) (jb_makedirs j) =
  (if jb_makedirs j then [MakeDirs (jb_dir j)] else []) ++ after_dir j.
Proof.
  intros [G _]. unfold save_ops, after_dir. unfold jb_path. rewrite dirname_in, temp_path_in by auto. reflexivity.
Qed.

(** Where a save is. *)
Inductive phase (st0 st : fs B) j : thread B -> Prop :=
| ph_start : jb_makedirs j = true -> fs_file st (jb_path j) = fs_file st0 (jb_path j) ->
    phase st0 st j (Running (MakeDirs (jb_dir j) :: after_dir j))
| ph_dir : (jb_makedirs j = true -> fs_dir st (jb_dir j) = true) -> fs_file st (jb_path j) = fs_file st0 (jb_path j) ->
    phase st0 st j (Running (after_dir j))
| ph_write done rest : jb_pieces j = done ++ rest -> fs_file st (jb_path j) = fs_file st0 (jb_path j) ->
    fs_file st (jb_temp j) = Some (concat done) ->
    phase st0 st j (Running (map (Append (jb_temp j)) rest ++ [Rename (jb_temp j) (jb_path j) (jb_overwrite j)]))
| ph_done : fs_file st (jb_path j) = Some (jb_contents j) -> fs_file st (jb_temp j) = None ->
    phase st0 st j (Running [])
| ph_nodir : fs_file st (jb_path j) = fs_file st0 (jb_path j) -> jb_makedirs j = false ->
    fs_dir st0 (jb_dir j) = false -> phase st0 st j (Failed NotFound)
| ph_exists : fs_file st (jb_path j) = fs_file st0 (jb_path j) -> jb_overwrite j = false ->
    fs_file st0 (jb_path j) <> None -> fs_file st (jb_temp j) = Some (jb_contents j) ->
    phase st0 st j (Failed AlreadyExists).

Lemma phase_frame st0 st st' j t :
  fs_file st' (jb_path j) = fs_file st (jb_path j) -> fs_file st' (jb_temp j) = fs_file st (jb_temp j) ->
  (forall d, fs_dir st d = true -> fs_dir st' d = true) ->
  phase st0 st j t -> phase st0 st' j t.
Proof.
  intros E1 E2 D H. destruct H.
  - apply ph_start; congruence.
  - apply ph_dir; auto; congruence.
  - eapply ph_write; eauto; congruence.
  - apply ph_done; congruence.
  - apply ph_nodir; congruence.
  - apply ph_exists; congruence.
Qed.

Definition only j st st' : Prop :=
  (forall q, q <> jb_path j -> q <> jb_temp j -> fs_file st' q = fs_file st q) /\
  (forall d, fs_dir st d = true -> fs_dir st' d = true).

Lemma set_same st p c : fs_file (set_file st p c) p = c.
Proof. simpl. replace (str_eqb p p) with true; auto. symmetry. apply str_eqb_spec; auto. Qed.
Lemma set_other st p c q : q <> p -> fs_file (set_file st p c) q = fs_file st q.
Proof. intros N. simpl. destruct (str_eqb q p) eqn:E; auto. apply str_eqb_spec in E. contradiction. Qed.

Lemma dirname_temp j : good_job j -> dirname (jb_temp j) = jb_dir j.
Proof. intros [G _]. apply dirname_in. apply good_temp; auto. Qed.

Lemma phase_ok st0 st st' j o todo : good_job j -> phase st0 st j (Running (o :: todo)) -> exec o st = Ok st' ->
  phase st0 st' j (Running todo) /\ only j st st'.
Proof.
  intros G H E. pose proof (temp_ne_path j j G G) as NE. inversion H; subst.
  - simpl in E. injection E as <-. split.
    + apply ph_dir; auto. intros _. simpl. replace (str_eqb (jb_dir j) (jb_dir j)) with true; auto. symmetry. apply str_eqb_spec; auto.
    + split; auto. simpl. intros d ->. apply orb_true_r.
  - simpl in E. destruct (fs_dir st (dirname (jb_temp j))); [|discriminate]. injection E as <-. split.
    + apply (ph_write st0 _ j [] (jb_pieces j)); auto.
      * rewrite set_other by congruence. auto.
      * rewrite set_same. auto.
    + split; auto. intros q _ N. apply set_other; auto.
  - destruct rest as [|p rest].
    + simpl in H0. injection H0 as <- <-. simpl in E. rewrite H3 in E. rewrite app_nil_r in H1.
      assert (E' : Ok (set_file (set_file st (jb_temp j) None) (jb_path j) (Some (concat done))) = Ok st').
      { destruct (fs_file st (jb_path j)), (jb_overwrite j); auto; discriminate. }
      injection E' as <-. split.
      * apply ph_done.
        -- rewrite set_same. unfold jb_contents. congruence.
        -- rewrite set_other by congruence. apply set_same.
      * split; auto. intros q N1 N2. rewrite !set_other; auto.
    + simpl in H0. injection H0 as <- <-. simpl in E. rewrite H3 in E. injection E as <-. split.
      * apply (ph_write st0 _ j (done ++ [p]) rest).
        -- rewrite <- app_assoc. auto.
        -- rewrite set_other by congruence. auto.
        -- rewrite set_same, concat_app. simpl. rewrite app_nil_r. auto.
      * split; auto. intros q _ N. apply set_other; auto.
Qed.

Lemma phase_err st0 st j o todo e : good_job j -> (forall d, fs_dir st0 d = true -> fs_dir st d = true) ->
  phase st0 st j (Running (o :: todo)) -> exec o st = Raise e -> phase st0 st j (Failed e).
Proof.
  intros G D H E. inversion H; subst.
  - discriminate.
  - simpl in E. rewrite dirname_temp in E by auto. destruct (fs_dir st (jb_dir j)) eqn:Ed; [discriminate|]. injection E as <-.
    apply ph_nodir; auto.
    + destruct (jb_makedirs j); auto. discriminate H2; auto.
    + destruct (fs_dir st0 (jb_dir j)) eqn:E0; auto. apply D in E0. congruence.
  - destruct rest as [|p rest]; simpl in H0; injection H0 as <- <-; simpl in E; rewrite H3 in E; [|discriminate].
    rewrite app_nil_r in H1. destruct (fs_file st (jb_path j)) eqn:Ef, (jb_overwrite j) eqn:Eo; try discriminate. injection E as <-.
    apply ph_exists; auto; try congruence. unfold jb_contents. congruence.
Qed.

Definition inv (st0 : fs B) (jobs : list (job B)) (x : fs B * list (thread B)) : Prop :=
  Forall2 (phase st0 (fst x)) jobs (snd x) /\
  (forall d, fs_dir st0 d = true -> fs_dir (fst x) d = true) /\
  (forall q, (forall j, In j jobs -> q <> jb_path j /\ q <> jb_temp j) -> fs_file (fst x) q = fs_file st0 q).

Lemma Forall2_same_r (P Q : job B -> thread B -> Prop) l l' :
  (forall j t, In j l -> P j t -> Q j t) -> Forall2 P l l' -> Forall2 Q l l'.
Proof.
  intros H F. induction F; constructor.
  - apply H; auto. left; auto.
  - apply IHF. intros; apply H; auto. right; auto.
Qed.

Lemma inv_reach st0 jobs x : Forall good_job jobs -> NoDup (map jb_path jobs) ->
  reach (st0, start jobs) x -> inv st0 jobs x.
Proof.
  intros G ND R. induction R as [|y z R IH S].
  - split; [|split]; simpl; auto. unfold start. clear ND. induction G as [|j jobs Gj G IH]; simpl; constructor; auto.
    rewrite save_ops_eq by auto. destruct (jb_makedirs j) eqn:Em; simpl.
    + apply ph_start; auto.
    + apply ph_dir; auto. congruence.
  - destruct IH as [F [D Fr]]. destruct S as [st o todo st' pre post E|st o todo e pre post E]; simpl in *.
    + apply Forall2_app_inv_r in F. destruct F as [jp [jq' [F1 [F2 ->]]]].
      inversion F2 as [|j t jq post' Hj F3]; subst. 
      rewrite Forall_app in G. destruct G as [G1 G2]. inversion G2 as [|? ? Gj G3]; subst. rewrite Forall_forall in G1, G3.
      destruct (phase_ok st0 st st' j o todo Gj Hj E) as [Hj' [O1 O2]].
      rewrite map_app in ND. simpl in ND. pose proof (NoDup_remove_2 _ _ _ ND) as Nj.
      assert (K : forall k, In k (jp ++ jq) -> good_job k -> forall t, phase st0 st k t -> phase st0 st' k t).
      { intros k Ik Gk t. assert (Ne : jb_path k <> jb_path j).
        { intros E'. apply Nj. rewrite <- E', <- map_app. apply in_map. auto. }
        apply phase_frame; auto; apply O1; auto.
        - intros E'. apply (temp_ne_path j k); auto.
        - intros E'. apply (temp_ne_path k j); auto.
        - intros E'. apply Ne. apply temp_inj; auto. }
      split; [|split]; simpl.
      * apply Forall2_app; [|constructor; auto].
        -- eapply Forall2_same_r; [|apply F1]. intros k t I H. apply K; auto. apply in_or_app; auto.
        -- eapply Forall2_same_r; [|apply F3]. intros k t I H. apply K; auto. apply in_or_app; auto.
      * auto.
      * intros q Hq. rewrite <- Fr by auto. destruct (Hq j) as [A1 A2]. { apply in_or_app; right; left; auto. } auto.
    + apply Forall2_app_inv_r in F. destruct F as [jp [jq' [F1 [F2 ->]]]].
      inversion F2 as [|j t jq post' Hj F3]; subst.
      rewrite Forall_app in G. destruct G as [G1 G2]. inversion G2 as [|? ? Gj G3]; subst.
      split; [|split]; simpl; auto. apply Forall2_app; auto. constructor; auto.
      eapply phase_err; eauto.
Qed.

Lemma Forall2_nth {X Y} (P : X -> Y -> Prop) l l' i a b : Forall2 P l l' -> nth_error l i = Some a -> nth_error l' i = Some b -> P a b.
Proof.
  intros F. revert i. induction F as [|x y l l' H F IH]; intros [|i]; simpl; intros E1 E2; try discriminate.
  - congruence.
  - eauto.
Qed.
Lemma Forall2_len {X Y} (P : X -> Y -> Prop) l l' : Forall2 P l l' -> List.length l = List.length l'.
Proof. induction 1; simpl; auto. Qed.

Lemma saves_spec st0 jobs st ths : Forall good_job jobs -> NoDup (map jb_path jobs) ->
  reach (st0, start jobs) (st, ths) ->
  List.length ths = List.length jobs /\
  (forall i j t, nth_error jobs i = Some j -> nth_error ths i = Some t ->
    match t with
    | Running [] => fs_file st (jb_path j) = Some (jb_contents j) /\ fs_file st (jb_temp j) = None
    | Running _ => fs_file st (jb_path j) = fs_file st0 (jb_path j)
    | Failed e => fs_file st (jb_path j) = fs_file st0 (jb_path j) /\
        (e = NotFound /\ jb_makedirs j = false /\ fs_dir st0 (jb_dir j) = false \/
         e = AlreadyExists /\ jb_overwrite j = false /\ fs_file st0 (jb_path j) <> None)
    end) /\
  (forall q, (forall j, In j jobs -> q <> jb_path j /\ q <> jb_temp j) -> fs_file st q = fs_file st0 q).
Proof.
  intros G ND R. destruct (inv_reach st0 jobs _ G ND R) as [F [D Fr]]. simpl in *. split; [|split]; auto.
  - symmetry. eapply Forall2_len; eauto.
  - intros i j t E1 E2. pose proof (Forall2_nth _ _ _ _ _ _ F E1 E2) as H. destruct H; auto 6.
    destruct (map (Append (jb_temp j)) rest ++ _) eqn:E; auto. destruct rest; discriminate.
Qed.

(** ** Progress: a save that has not finished or failed can go on, in finitely many steps. *)
Definition todo_of t : nat := match t with Running l => List.length l | Failed _ => 0 end.
Fixpoint total (ths : list (thread B)) : nat := match ths with [] => 0 | t :: r => (todo_of t + total r)%nat end.
Lemma total_app a b : total (a ++ b) = (total a + total b)%nat.
Proof. induction a; simpl; auto. rewrite IHa. lia. Qed.
Lemma step_less x y : step x y -> (total (snd y) < total (snd x))%nat.
Proof. destruct 1; simpl; rewrite !total_app; simpl; lia. Qed.
Lemma step_exists st ths i o todo : nth_error ths i = Some (Running (o :: todo)) -> exists y, step (st, ths) y.
Proof.
  intros E. apply nth_error_split in E. destruct E as [pre [post [-> _]]].
  destruct (exec o st) as [st'|e] eqn:Ex; eexists; [eapply step_ok|eapply step_err]; eauto.
Qed.

Lemma reach_trans (x y z : fs B * list (thread B)) : reach x y -> reach y z -> reach x z.
Proof. intros R1 R2. induction R2; auto. eapply reach_step; eauto. Qed.

Lemma can_finish (st : fs B) ths : exists st' ths', reach (st, ths) (st', ths') /\ Forall finished ths'.
Proof.
  remember (total ths) as m eqn:Em. revert st ths Em. induction m as [m IH] using lt_wf_ind. intros st ths ->.
  destruct (forallb (fun t : thread B => match t with Running (_ :: _) => false | _ => true end) ths) eqn:E.
  - exists st, ths. split; [apply reach_refl|]. rewrite forallb_forall in E. rewrite Forall_forall. intros t I.
    apply E in I. destruct t as [[|]|]; simpl; auto. discriminate.
  - assert (exists i o todo, nth_error ths i = Some (Running (o :: todo))) as [i [o [todo Ei]]].
    { clear IH. induction ths as [|t ths IH]; [discriminate|]. simpl in E. destruct t as [[|o todo]|e]; simpl in E.
      - destruct (IH E) as [i H]. exists (S i). auto.
      - exists 0%nat, o, todo. auto.
      - destruct (IH E) as [i H]. exists (S i). auto. }
    destruct (step_exists st ths i o todo Ei) as [[st1 ths1] S1].
    pose proof (step_less _ _ S1) as Lt. simpl in Lt.
    destruct (IH (total ths1) Lt st1 ths1 eq_refl) as [st' [ths' [R' F']]].
    exists st', ths'. split; auto. eapply reach_trans; [|apply R']. eapply reach_step; [apply reach_refl|auto].
Qed.

Lemma saves_complete st0 jobs st ths : Forall good_job jobs -> NoDup (map jb_path jobs) ->
  (forall j, In j jobs -> (jb_makedirs j = true \/ fs_dir st0 (jb_dir j) = true) /\
                          (jb_overwrite j = true \/ fs_file st0 (jb_path j) = None)) ->
  reach (st0, start jobs) (st, ths) ->
  (forall e, ~ In (Failed e) ths) /\
  exists st' ths', reach (st, ths) (st', ths') /\ Forall (eq (Running [])) ths'.
Proof.
  intros G ND H.
  assert (K : forall st ths, reach (st0, start jobs) (st, ths) -> forall e, ~ In (Failed e) ths).
  { intros s t R e I. apply In_nth_error in I. destruct I as [i Ei].
    destruct (saves_spec st0 jobs s t G ND R) as [Len [S _]].
    destruct (nth_error jobs i) as [j|] eqn:Ej.
    - specialize (S i j _ Ej Ei). simpl in S. apply nth_error_In in Ej. apply H in Ej. destruct S as [_ S].
      destruct S as [[_ [S1 S2]]|[_ [S1 S2]]]; destruct Ej as [[?|?] [?|?]]; congruence.
    - apply nth_error_None in Ej. rewrite <- Len in Ej. apply nth_error_None in Ej. congruence. }
  intros R. split; [apply (K _ _ R)|]. destruct (can_finish st ths) as [st' [ths' [R' F]]].
  exists st', ths'. split; auto. rewrite Forall_forall in *. intros t I. specialize (F t I).
  destruct t as [[|]|e]; simpl in F; auto; try contradiction.
  exfalso. eapply (K st' ths'); eauto. eapply reach_trans; eauto.
Qed.

(** ** Reported steps *)
Lemma has_step_temp dir b n o : has_step (path_in dir b) n o -> has_step (temp_in dir b) n o.
Proof.
  intros [base [z [sh [So [Sh E]]]]]. unfold temp_in.
  assert (NS : ~ In 47 (s_ "_" ++ repeat 48 z ++ str_of_N n ++ suffix_text o ++ sh)).
  { rewrite !in_app_iff. intros [H|[H|[H|[H|H]]]].
    - cbn in H. destruct H as [H|[]]. discriminate.
    - apply repeat_spec in H. discriminate.
    - pose proof (str_of_N_digits n) as [_ Dg]. rewrite Forall_forall in Dg. apply Dg in H. lia.
    - destruct o as [x|]; [|contradiction]. destruct So as [l [[_ L] ->]]. simpl in H. destruct H as [H|H]; [discriminate|].
      rewrite Forall_forall in L. apply L in H. lia.
    - destruct Sh as [->|[a [c [[_ Da] [[_ Dc] ->]]]]]; [contradiction|]. rewrite !in_app_iff in H. rewrite Forall_forall in Da, Dc.
      destruct H as [H|[H|[H|H]]].
      + cbn in H. destruct H as [H|[]]. discriminate.
      + apply Da in H. lia.
      + cbn in H. repeat (destruct H as [H|H]; [discriminate|]). contradiction.
      + apply Dc in H. lia. }
  remember (s_ "_" ++ repeat 48 z ++ str_of_N n ++ suffix_text o ++ sh) as X eqn:EX.
  destruct dir as [|d0 dir0] eqn:Ed; unfold path_in in *.
  - exists (s_ ".tmp." ++ base), z, sh. split; auto. split; auto. rewrite E, <- EX, <- app_assoc. reflexivity.
  - rewrite <- Ed in *. rewrite app_assoc in E. change (s_ "/") with [47] in *.
    assert (exists b2, base = (dir ++ [47]) ++ b2) as [b2 ->].
    { apply app_eq_app in E. destruct E as [l [[E1 E2]|[E1 E2]]].
      - destruct l as [|c l] using rev_ind. { exists []. rewrite app_nil_r in *. auto. }
        exfalso. rewrite app_assoc in E1. apply app_inj_tail in E1. destruct E1 as [_ <-].
        apply NS. rewrite E2. apply in_or_app. left. apply in_or_app. right. left; auto.
      - exists l. auto. }
    rewrite <- !app_assoc in E. do 2 apply app_inv_head in E. subst b.
    exists ((dir ++ [47]) ++ s_ ".tmp." ++ b2), z, sh. split; auto. split; auto. rewrite <- EX. rewrite <- !app_assoc. reflexivity.
Qed.

Lemma path_in_app dir b r : path_in dir (b ++ r) = path_in dir b ++ r.
Proof. unfold path_in. destruct dir; auto. rewrite <- !app_assoc. auto. Qed.

Lemma under_temp dir base j files st : good_job j -> under dir base j -> lists files st ->
  fs_file st (jb_temp j) <> None -> file_of (temp_in dir base) files (jb_temp j).
Proof.
  intros [[_ G] _] [Ed [r Er]] L N. split. { apply L; auto. } exists r. unfold jb_temp, temp_in. rewrite Ed, Er. split.
  - rewrite app_assoc, path_in_app. auto.
  - rewrite Er in G. intros H. apply G. apply in_or_app; auto.
Qed.

Lemma started_reported st0 jobs st ths dir base files i j t n o :
  Forall good_job jobs -> NoDup (map jb_path jobs) -> reach (st0, start jobs) (st, ths) ->
  lists files st -> nth_error jobs i = Some j -> nth_error ths i = Some t ->
  under dir base j -> has_step (jb_path j) n o -> started j t ->
  step_done dir base files n o -> t = Running [].
Proof.
  intros G ND R L E1 E2 U HS ST [_ SD].
  destruct (inv_reach st0 jobs _ G ND R) as [F _]. simpl in F.
  pose proof (Forall2_nth _ _ _ _ _ _ F E1 E2) as H.
  assert (Gj : good_job j). { rewrite Forall_forall in G. apply G. eapply nth_error_In; eauto. }
  assert (K : fs_file st (jb_temp j) <> None -> False).
  { intros N. apply SD. exists (jb_temp j). split; [eapply under_temp; eauto|].
    unfold jb_temp. apply has_step_temp. auto. }
  inversion H; subst; auto.
  - exfalso. apply ST. right. left. auto.
  - exfalso. apply ST. left. auto.
  - exfalso. apply K. congruence.
  - simpl in ST. discriminate.
  - exfalso. apply K. congruence.
Qed.

Lemma single_reported st0 jobs st ths dir base files n o :
  Forall good_job jobs -> NoDup (map jb_path jobs) -> reach (st0, start jobs) (st, ths) ->
  lists files st -> Forall (under dir base) jobs -> 
  (forall f, has_step f n o -> fs_file st0 f = None) ->
  step_done dir base files n o ->
  exists i j, nth_error jobs i = Some j /\ has_step (jb_path j) n o /\ nth_error ths i = Some (Running []).
Proof.
  intros G ND R L U N0 [[f [Ff HS]] SD].
  destruct (inv_reach st0 jobs _ G ND R) as [F [_ Fr]]. simpl in F, Fr.
  assert (X : fs_file st f <> None). { apply L. apply Ff. }
  destruct (existsb (fun j => str_eqb f (jb_path j) || str_eqb f (jb_temp j)) jobs) eqn:Ex.
  - apply existsb_exists in Ex. destruct Ex as [j [Ij Ej]]. apply orb_true_iff in Ej.
    rewrite Forall_forall in U, G.
    destruct (In_nth_error _ _ Ij) as [i Ei]. destruct Ej as [Ej|Ej]; apply str_eqb_spec in Ej; subst f.
    + exists i, j. split; auto. split; auto.
      destruct (nth_error ths i) as [t|] eqn:Et.
      * pose proof (Forall2_nth _ _ _ _ _ _ F Ei Et) as H. specialize (N0 _ HS).
        inversion H; subst; congruence.
      * apply nth_error_None in Et. apply Forall2_len in F. assert (nth_error jobs i <> None) as Hi by congruence. apply nth_error_Some in Hi. lia.
    + exfalso. apply SD. exists (jb_temp j). split; auto. eapply under_temp; eauto.
  - exfalso. apply X. rewrite Fr; auto. intros j Ij.
    split; intros E'; assert (C : existsb (fun j => str_eqb f (jb_path j) || str_eqb f (jb_temp j)) jobs = true); try congruence;
      apply existsb_exists; exists j; split; auto; apply orb_true_iff; [left|right]; apply str_eqb_spec; auto.
Qed.

(** A schedule: the thread that makes each step. *)
Definition run1 (x : fs B * list (thread B)) (i : nat) : fs B * list (thread B) :=
  match nth_error (snd x) i with
  | Some (Running (o :: todo)) =>
      match exec o (fst x) with
      | Ok st' => (st', firstn i (snd x) ++ Running todo :: skipn (S i) (snd x))
      | Raise e => (fst x, firstn i (snd x) ++ Failed e :: skipn (S i) (snd x))
      end
  | _ => x
  end.
Lemma run1_reach x i : reach x (run1 x i).
Proof.
  unfold run1. destruct (nth_error (snd x) i) as [t|] eqn:E; [|apply reach_refl].
  destruct t as [[|o todo]|e]; try apply reach_refl.
  destruct x as [st ths]. cbn [fst snd] in *. pose proof (nth_error_split _ _ E) as [pre [post [-> <-]]].
  replace (firstn (List.length pre) (pre ++ Running (o :: todo) :: post)) with pre.
  2:{ rewrite firstn_app, Nat.sub_diag, firstn_all. simpl. rewrite app_nil_r. auto. }
  replace (skipn (S (List.length pre)) (pre ++ Running (o :: todo) :: post)) with post.
  2:{ rewrite skipn_app. replace (S (List.length pre) - List.length pre)%nat with 1%nat by lia.
      rewrite skipn_all2 by lia. reflexivity. }
  destruct (exec o st) as [st'|e] eqn:Ex; eapply reach_step; try apply reach_refl; [eapply step_ok|eapply step_err]; eauto.
Qed.
Lemma run_reach sched x : reach x (fold_left run1 sched x).
Proof.
  revert x. induction sched as [|i s IH]; intros x; simpl; [apply reach_refl|].
  eapply reach_trans; [apply run1_reach|apply IH].
Qed.
End Saves.

Lemma reported_started B (st0 : fs B) (jobs : list (job B)) st ths files dir base suffixes p :
  Forall good_job jobs -> NoDup (map jb_path jobs) -> good_path dir base ->
  reach (st0, start jobs) (st, ths) ->
  lists files st -> (forall f, In f files -> ~ In 10 f) ->
  find_latest_complete (path_in dir base) suffixes files = Ok (Some p) ->
  exists n, p = path_in dir base ++ s_ "_" ++ str_of_N n /\
  ((forall i j t o, nth_error jobs i = Some j -> nth_error ths i = Some t ->
      has_step (jb_path j) n o -> started j t) ->
   forall i j o, nth_error jobs i = Some j -> under dir base j ->
     In o (required suffixes) -> has_step (jb_path j) n o ->
     nth_error ths i = Some (Running []) /\ fs_file st (jb_path j) = Some (jb_contents j)).
Proof.
  intros G ND Gp R L NL E. pose proof (latest_spec dir base suffixes files _ Gp NL E) as [n [Ep [D _]]].
  exists n. split; auto. intros ST i j o Ei U Io HS.
  destruct (saves_spec st0 jobs st ths G ND R) as [Len [S _]].
  destruct (nth_error ths i) as [t|] eqn:Et.
  - assert (t = Running []) as ->. { eapply (started_reported st0 jobs st ths dir base files i j t n o); eauto. }
    split; auto. apply (S i j _ Ei Et).
  - apply nth_error_None in Et. rewrite Len in Et. apply nth_error_None in Et. congruence.
Qed.

Lemma reported_single B (st0 : fs B) (jobs : list (job B)) st ths files dir base suffixes p :
  Forall good_job jobs -> NoDup (map jb_path jobs) -> good_path dir base ->
  reach (st0, start jobs) (st, ths) ->
  lists files st -> (forall f, In f files -> ~ In 10 f) ->
  Forall (under dir base) jobs ->
  find_latest_complete (path_in dir base) suffixes files = Ok (Some p) ->
  exists n, p = path_in dir base ++ s_ "_" ++ str_of_N n /\
  forall o, In o (required suffixes) ->
    (forall f, has_step f n o -> fs_file st0 f = None) ->
    exists i j, nth_error jobs i = Some j /\ has_step (jb_path j) n o /\
      nth_error ths i = Some (Running []) /\ fs_file st (jb_path j) = Some (jb_contents j).
Proof.
  intros G ND Gp R L NL U E. pose proof (latest_spec dir base suffixes files _ Gp NL E) as [n [Ep [D _]]].
  exists n. split; auto. intros o Io N0.
  destruct (single_reported st0 jobs st ths dir base files n o G ND R L U N0 (D o Io)) as [i [j [Ei [HS Et]]]].
  exists i, j. split; auto. split; auto. split; auto.
  destruct (saves_spec st0 jobs st ths G ND R) as [Len [S _]]. apply (S i j _ Ei Et).
Qed.
