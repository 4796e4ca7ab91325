(** msgpack round trip. *)
From Coq Require Import Ascii String List Arith ZArith NArith Bool Lia.
From Verif Require Import BaseModel BaseSpec BaseProofs BaseProofs2 SerModel SerSpec.
Import ListNotations.
Local Open Scope list_scope.
Local Open Scope N_scope.

(** ** Numbers *)
Lemma be_length k n : List.length (be k n) = k.
Proof. revert n. induction k as [|k IH]; intros n; simpl; auto. rewrite app_length, IH. simpl. lia. Qed.
Lemma unbe_app a b : unbe (a ++ [b]) = 256 * unbe a + b.
Proof. unfold unbe. rewrite fold_left_app. reflexivity. Qed.
Lemma unbe_be k n : n < 256 ^ N.of_nat k -> unbe (be k n) = n.
Proof.
  revert n. induction k as [|k IH]; intros n H.
  - simpl in *. destruct n; auto. lia.
  - cbn [be]. rewrite unbe_app, IH.
    + pose proof (N.div_mod n 256). lia.
    + rewrite Nat2N.inj_succ, N.pow_succ_r' in H. apply N.div_lt_upper_bound; lia.
Qed.

Lemma take_app a b n : n = len a -> take n (a ++ b) = SOk (a, b).
Proof.
  intros ->. unfold take, len. rewrite app_length. rewrite (proj2 (N.leb_le _ _)) by lia.
  rewrite Nat2N.id. rewrite firstn_app, Nat.sub_diag, firstn_all, skipn_app, Nat.sub_diag, skipn_all. simpl.
  rewrite app_nil_r. reflexivity.
Qed.
Lemma take_num_be k n r : n < 256 ^ N.of_nat k -> take_num (N.of_nat k) (be k n ++ r) = SOk (n, r).
Proof.
  intros H. unfold take_num. rewrite take_app by (unfold len; rewrite be_length; auto). simpl. rewrite unbe_be by auto. reflexivity.
Qed.
Lemma take_num1 n r : n < 256 -> take_num 1 (be 1 n ++ r) = SOk (n, r).
Proof. intros H. apply (take_num_be 1). apply H. Qed.
Lemma take_num2 n r : n < 65536 -> take_num 2 (be 2 n ++ r) = SOk (n, r).
Proof. intros H. apply (take_num_be 2). apply H. Qed.
Lemma take_num4 n r : n < 4294967296 -> take_num 4 (be 4 n ++ r) = SOk (n, r).
Proof. intros H. apply (take_num_be 4). apply H. Qed.
Lemma take_num8 n r : n < 18446744073709551616 -> take_num 8 (be 8 n ++ r) = SOk (n, r).
Proof. intros H. apply (take_num_be 8). apply H. Qed.

Global Opaque be take take_num.

Lemma sbind_ok {T U} (x : sres T) (f : T -> sres U) y : sbind x f = SOk y -> exists a, x = SOk a /\ f a = SOk y.
Proof. destruct x; simpl; intros H; [eauto|discriminate]. Qed.

Lemma SOk_inj {T} (a b : T) : SOk a = SOk b -> a = b.
Proof. congruence. Qed.

Lemma smap_ok {T U} (f : T -> sres U) l l' : smap f l = SOk l' -> Forall2 (fun x y => f x = SOk y) l l'.
Proof.
  revert l'. induction l as [|x l IH]; simpl; intros l' H.
  - injection H as <-. constructor.
  - apply sbind_ok in H. destruct H as [y [E H]]. apply sbind_ok in H. destruct H as [ys [E' H]]. injection H as <-.
    constructor; [exact E|]. apply IH. exact E'.
Qed.
Lemma smap_intro {T U} (f : T -> sres U) l l' : Forall2 (fun x y => f x = SOk y) l l' -> smap f l = SOk l'.
Proof.
  induction 1 as [|x y l l' H F IH]; auto. change (smap f (x :: l)) with (sbind (f x) (fun y => sbind (smap f l) (fun ys => SOk (y :: ys)))).
  rewrite H, IH. reflexivity.
Qed.

(** ** Headers *)
Lemma dec_str_app mk s r : dec_str mk (len s) (s ++ r) = SOk (mk s, r).
Proof. unfold dec_str. rewrite take_app by auto. reflexivity. Qed.

Ltac bcase := match goal with
  | H : (if ?a <? ?b then _ else _) = _ |- _ => destruct (N.ltb_spec a b)
  | H : (if ?a =? ?b then _ else _) = _ |- _ => destruct (N.eqb_spec a b)
  | H : (if Z.leb ?a ?b then _ else _) = _ |- _ => destruct (Z.leb_spec a b)
  end.
Ltac gcase := match goal with
  | |- context [if ?a <? ?b then _ else _] => destruct (N.ltb_spec a b); [try lia|try lia]
  | |- context [if ?a =? ?b then _ else _] => destruct (N.eqb_spec a b); [try lia|try lia]
  | |- context [if ?a <=? ?b then _ else _] => destruct (N.leb_spec a b); [try lia|try lia]
  end.

Lemma dec_neg n r f : 224 <= n < 256 -> dec (S f) (n :: r) = SOk (MInt (Z.of_N n - 256), r).
Proof.
  intros H. cbn [dec].
  rewrite !(proj2 (N.ltb_ge n _)) by lia. rewrite !(proj2 (N.eqb_neq n _)) by lia. rewrite (proj2 (N.leb_le 224 n)) by lia. reflexivity.
Qed.

Lemma dec_fixstr n r f : 160 <= n < 192 -> dec (S f) (n :: r) = dec_str MStr (n - 160) r.
Proof.
  intros H. cbn [dec]. rewrite (proj2 (N.ltb_ge n 128)), (proj2 (N.ltb_ge n 144)), (proj2 (N.ltb_ge n 160)), (proj2 (N.ltb_lt n 192)) by lia.
  reflexivity.
Qed.
Lemma dec_fixarr n r f : 144 <= n < 160 ->
  dec (S f) (n :: r) = sbind (dec_many f (n - 144) r) (fun p => SOk (MArr (fst p), snd p)).
Proof.
  intros H. cbn [dec]. rewrite (proj2 (N.ltb_ge n 128)), (proj2 (N.ltb_ge n 144)), (proj2 (N.ltb_lt n 160)) by lia.
  reflexivity.
Qed.
Lemma dec_fixmap n r f : 128 <= n < 144 ->
  dec (S f) (n :: r) = sbind (dec_pairs f (n - 128) r) (fun p => SOk (MMap (fst p), snd p)).
Proof.
  intros H. cbn [dec]. rewrite (proj2 (N.ltb_ge n 128)), (proj2 (N.ltb_lt n 144)) by lia. reflexivity.
Qed.

Lemma dec_int z b r f : pack_int z = SOk b -> dec (S f) (b ++ r) = SOk (MInt z, r).
Proof.
  unfold pack_int. destruct (Z.leb_spec 0 z) as [Hz|Hz]; cbv zeta; intros H.
  - repeat (bcase; [apply SOk_inj in H; subst|]); try discriminate.
    + cbn [app dec]. rewrite (proj2 (N.ltb_lt _ _)) by lia. rewrite Z2N.id by lia. reflexivity.
    + cbn [app]. cbn -[be]. rewrite take_num1 by lia. cbn -[be]. rewrite Z2N.id by lia. reflexivity.
    + cbn [app]. cbn -[be]. rewrite take_num2 by lia. cbn -[be]. rewrite Z2N.id by lia. reflexivity.
    + cbn [app]. cbn -[be]. rewrite take_num4 by lia. cbn -[be]. rewrite Z2N.id by lia. reflexivity.
    + cbn [app]. cbn -[be]. rewrite take_num8 by lia. cbn -[be]. rewrite Z2N.id by lia. reflexivity.
  - assert (SG : forall bits n, z = (Z.of_N n - 2 ^ bits)%Z -> (2 ^ (bits - 1) <= Z.of_N n)%Z -> signed bits n = z).
    { intros bits n E L. unfold signed. rewrite (proj2 (Z.ltb_ge _ _)) by lia. auto. }
    repeat (bcase; [apply SOk_inj in H; subst|]); try discriminate.
    + cbn [app]. rewrite dec_neg by lia. rewrite Z2N.id by lia. repeat f_equal. lia.
    + cbn [app]. cbn -[be signed]. rewrite take_num1 by lia. cbn -[be signed]. rewrite SG; auto; rewrite Z2N.id by lia; lia.
    + cbn [app]. cbn -[be signed]. rewrite take_num2 by lia. cbn -[be signed]. rewrite SG; auto; rewrite Z2N.id by lia; lia.
    + cbn [app]. cbn -[be signed]. rewrite take_num4 by lia. cbn -[be signed]. rewrite SG; auto; rewrite Z2N.id by lia; lia.
    + cbn [app]. cbn -[be signed]. rewrite take_num8 by lia. cbn -[be signed]. rewrite SG; auto; rewrite Z2N.id by lia; lia.
Qed.

Lemma dec_packed_str s b r f : pack_str s = SOk b -> dec (S f) (b ++ r) = SOk (MStr s, r).
Proof.
  unfold pack_str. cbv zeta. intros H. repeat (bcase; [apply SOk_inj in H; subst|]); try discriminate.
  - cbn [app]. rewrite dec_fixstr by lia. replace (160 + len s - 160) with (len s) by lia. apply dec_str_app.
  - cbn [app]. cbn -[be dec_str]. rewrite <- app_assoc, take_num1 by lia. cbn -[be dec_str]. apply dec_str_app.
  - cbn [app]. cbn -[be dec_str]. rewrite <- app_assoc, take_num2 by lia. cbn -[be dec_str]. apply dec_str_app.
  - cbn [app]. cbn -[be dec_str]. rewrite <- app_assoc, take_num4 by lia. cbn -[be dec_str]. apply dec_str_app.
Qed.

Lemma dec_packed_bin s b r f : pack_bin s = SOk b -> dec (S f) (b ++ r) = SOk (MBin s, r).
Proof.
  unfold pack_bin. cbv zeta. intros H. repeat (bcase; [apply SOk_inj in H; subst|]); try discriminate.
  - cbn [app]. cbn -[be dec_str]. rewrite <- app_assoc, take_num1 by lia. cbn -[be dec_str]. apply dec_str_app.
  - cbn [app]. cbn -[be dec_str]. rewrite <- app_assoc, take_num2 by lia. cbn -[be dec_str]. apply dec_str_app.
  - cbn [app]. cbn -[be dec_str]. rewrite <- app_assoc, take_num4 by lia. cbn -[be dec_str]. apply dec_str_app.
Qed.

Lemma dec_ext_app c s r n : n = len s -> dec_ext n (c :: s ++ r) = SOk (MExt c s, r).
Proof. intros ->. apply dec_str_app. Qed.

Lemma dec_packed_ext c s b r f : pack_ext c s = SOk b -> dec (S f) (b ++ r) = SOk (MExt c s, r).
Proof.
  unfold pack_ext. cbv zeta. intros H. repeat (bcase; [apply SOk_inj in H; subst|]); try discriminate.
  - cbn [app]. cbn -[dec_ext]. apply dec_ext_app; auto.
  - cbn [app]. cbn -[dec_ext]. apply dec_ext_app; auto.
  - cbn [app]. cbn -[dec_ext]. apply dec_ext_app; auto.
  - cbn [app]. cbn -[dec_ext]. apply dec_ext_app; auto.
  - cbn [app]. cbn -[dec_ext]. apply dec_ext_app; auto.
  - cbn [app]. cbn -[be dec_ext]. rewrite <- app_assoc, take_num1 by lia. cbn -[be dec_ext]. apply dec_ext_app; auto.
  - cbn [app]. cbn -[be dec_ext]. rewrite <- app_assoc, take_num2 by lia. cbn -[be dec_ext]. apply dec_ext_app; auto.
  - cbn [app]. cbn -[be dec_ext]. rewrite <- app_assoc, take_num4 by lia. cbn -[be dec_ext]. apply dec_ext_app; auto.
Qed.

Lemma dec_arr n h r f : arr_header n = SOk h ->
  dec (S f) (h ++ r) = sbind (dec_many f n r) (fun p => SOk (MArr (fst p), snd p)).
Proof.
  unfold arr_header. intros H. repeat (bcase; [apply SOk_inj in H; subst|]); try discriminate.
  - cbn [app]. rewrite dec_fixarr by lia. replace (144 + n - 144) with n by lia. reflexivity.
  - cbn [app]. cbn -[be dec_many]. rewrite take_num2 by lia. reflexivity.
  - cbn [app]. cbn -[be dec_many]. rewrite take_num4 by lia. reflexivity.
Qed.
Lemma dec_map n h r f : map_header n = SOk h ->
  dec (S f) (h ++ r) = sbind (dec_pairs f n r) (fun p => SOk (MMap (fst p), snd p)).
Proof.
  unfold map_header. intros H. repeat (bcase; [apply SOk_inj in H; subst|]); try discriminate.
  - cbn [app]. rewrite dec_fixmap by lia. replace (128 + n - 128) with n by lia. reflexivity.
  - cbn [app]. cbn -[be dec_pairs]. rewrite take_num2 by lia. reflexivity.
  - cbn [app]. cbn -[be dec_pairs]. rewrite take_num4 by lia. reflexivity.
Qed.

(** ** Values *)
Section MvInd.
  Variable P : mv -> Prop.
  Hypothesis Hnil : P MNil.
  Hypothesis Hbool : forall b, P (MBool b).
  Hypothesis Hint : forall z, P (MInt z).
  Hypothesis Hfloat : forall b, P (MFloat b).
  Hypothesis Hstr : forall s, P (MStr s).
  Hypothesis Hbin : forall s, P (MBin s).
  Hypothesis Harr : forall l, Forall P l -> P (MArr l).
  Hypothesis Hmap : forall l, Forall (fun kv => P (fst kv) /\ P (snd kv)) l -> P (MMap l).
  Hypothesis Hext : forall c d, P (MExt c d).
  Fixpoint mv_ind' (v : mv) : P v :=
    match v with
    | MNil => Hnil | MBool b => Hbool b | MInt z => Hint z | MFloat b => Hfloat b
    | MStr s => Hstr s | MBin s => Hbin s
    | MArr l => Harr l ((fix go l : Forall P l :=
        match l with [] => Forall_nil _ | x :: r => Forall_cons _ (mv_ind' x) (go r) end) l)
    | MMap l => Hmap l ((fix go l : Forall (fun kv => P (fst kv) /\ P (snd kv)) l :=
        match l with
        | [] => Forall_nil _
        | kv :: r => Forall_cons kv (match kv return P (fst kv) /\ P (snd kv) with (k, v) => conj (mv_ind' k) (mv_ind' v) end) (go r)
        end) l)
    | MExt c d => Hext c d
    end.
End MvInd.

(** Floats have 64 bits. *)
Fixpoint wf (v : mv) : Prop :=
  match v with
  | MFloat b => b < 2 ^ 64
  | MArr l => fold_right (fun x P => wf x /\ P) True l
  | MMap l => fold_right (fun kv P => let '(k, v) := kv in (wf k /\ wf v) /\ P) True l
  | _ => True
  end.

Lemma header_length n h : arr_header n = SOk h \/ map_header n = SOk h -> (1 <= List.length h)%nat.
Proof.
  unfold arr_header, map_header. intros [H|H]; repeat (bcase; [injection H as <-; simpl; lia|]); discriminate.
Qed.

Lemma pack_length v b : packb v = SOk b -> (1 <= List.length b)%nat.
Proof.
  destruct v; cbn [packb]; intros H.
  - injection H as <-. simpl; lia.
  - destruct b0; injection H as <-; simpl; lia.
  - unfold pack_int in H. cbv zeta in H. repeat (bcase; try (injection H as <-; simpl; lia)); discriminate.
  - injection H as <-. simpl; lia.
  - unfold pack_str in H. cbv zeta in H. repeat (bcase; try (injection H as <-; simpl; lia)); discriminate.
  - unfold pack_bin in H. cbv zeta in H. repeat (bcase; try (injection H as <-; simpl; lia)); discriminate.
  - apply sbind_ok in H. destruct H as [h [E H]]. apply sbind_ok in H. destruct H as [bs [_ H]]. injection H as <-.
    rewrite app_length. assert (1 <= List.length h)%nat by (eapply header_length; eauto). lia.
  - apply sbind_ok in H. destruct H as [h [E H]]. apply sbind_ok in H. destruct H as [bs [_ H]]. injection H as <-.
    rewrite app_length. assert (1 <= List.length h)%nat by (eapply header_length; eauto). lia.
  - unfold pack_ext in H. cbv zeta in H. repeat (bcase; try (injection H as <-; simpl; lia)); discriminate.
Qed.

Definition decodes (v : mv) : Prop := wf v -> forall b r f, packb v = SOk b ->
  (2 * List.length b <= f)%nat -> dec f (b ++ r) = SOk (v, r).

Lemma dec_many_ok l : Forall decodes l -> wf (MArr l) -> forall bs r f, Forall2 (fun x y => packb x = SOk y) l bs ->
  (2 * List.length (concat bs) < f)%nat -> dec_many f (N.of_nat (List.length l)) (concat bs ++ r) = SOk (l, r).
Proof.
  induction 1 as [|x l Hx F IH]; intros W bs r f B L.
  - inversion B; subst. destruct f; [simpl in L; lia|]. reflexivity.
  - inversion B as [|? b ? bs' Eb B']; subst. simpl in W, L. destruct W as [Wx Wl]. rewrite app_length in L.
    pose proof (pack_length _ _ Eb) as Lb. destruct f as [|f]; [lia|].
    cbn [dec_many]. rewrite (proj2 (N.eqb_neq _ 0)) by (simpl; lia). cbn [concat]. rewrite <- app_assoc.
    rewrite (Hx Wx b _ f Eb) by lia. cbn [sbind fst snd].
    replace (N.of_nat (List.length (x :: l)) - 1) with (N.of_nat (List.length l)) by (cbn [List.length]; lia).
    rewrite IH; auto; lia.
Qed.

Lemma dec_pairs_ok l : Forall (fun kv => decodes (fst kv) /\ decodes (snd kv)) l -> wf (MMap l) ->
  forall bs r f, Forall2 (fun kv y => exists a b, packb (fst kv) = SOk a /\ packb (snd kv) = SOk b /\ y = a ++ b) l bs ->
  (2 * List.length (concat bs) < f)%nat -> dec_pairs f (N.of_nat (List.length l)) (concat bs ++ r) = SOk (l, r).
Proof.
  induction 1 as [|[k v] l [Hk Hv] F IH]; intros W bs r f B L.
  - inversion B; subst. destruct f; [simpl in L; lia|]. reflexivity.
  - inversion B as [|? y ? bs' [a [b [Ea [Eb ->]]]] B']; subst. simpl in *. destruct W as [[Wk Wv] Wl]. rewrite !app_length in L.
    pose proof (pack_length _ _ Ea) as La. pose proof (pack_length _ _ Eb) as Lb. destruct f as [|f]; [lia|].
    cbn [dec_pairs]. change (N.pos (Pos.of_succ_nat (List.length l))) with (N.of_nat (S (List.length l))).
    rewrite (proj2 (N.eqb_neq _ 0)) by lia. rewrite <- !app_assoc.
    rewrite (Hk Wk a _ f Ea) by lia. cbn [sbind fst snd]. rewrite (Hv Wv b _ f Eb) by lia. cbn [sbind fst snd].
    replace (N.of_nat (S (List.length l)) - 1) with (N.of_nat (List.length l)) by lia.
    rewrite IH; auto; lia.
Qed.

Lemma dec_ok v : decodes v.
Proof.
  induction v as [|b|z|b|s|s|l IH|l IH|c d] using mv_ind'; intros W bs r f E L;
    (destruct f as [|f]; [apply pack_length in E; lia|]).
  - injection E as <-. reflexivity.
  - destruct b; injection E as <-; reflexivity.
  - apply dec_int; auto.
  - injection E as <-. cbn [app]. cbn -[be]. rewrite take_num8 by exact W. reflexivity.
  - apply dec_packed_str; auto.
  - apply dec_packed_bin; auto.
  - cbn [packb] in E. apply sbind_ok in E. destruct E as [h [Eh E]]. apply sbind_ok in E. destruct E as [bss [Ebs E]]. injection E as <-.
    rewrite <- app_assoc, (dec_arr _ _ _ f Eh). apply smap_ok in Ebs. rewrite app_length in L.
    assert (1 <= List.length h)%nat by (eapply header_length; eauto).
    rewrite (dec_many_ok l IH W bss r f Ebs) by lia. reflexivity.
  - cbn [packb] in E. apply sbind_ok in E. destruct E as [h [Eh E]]. apply sbind_ok in E. destruct E as [bss [Ebs E]]. injection E as <-.
    rewrite <- app_assoc, (dec_map _ _ _ f Eh). apply smap_ok in Ebs. rewrite app_length in L.
    assert (1 <= List.length h)%nat by (eapply header_length; eauto).
    rewrite (dec_pairs_ok l IH W bss r f); [reflexivity| |lia].
    clear - Ebs. induction Ebs as [|[k v] y l bss E F IH]; constructor; auto.
    apply sbind_ok in E. destruct E as [a [Ea E]]. apply sbind_ok in E. destruct E as [b [Eb E]]. injection E as <-.
    exists a, b. auto.
  - apply dec_packed_ext; auto.
Qed.

Lemma unpack_pack v b : wf v -> packb v = SOk b -> unpackb b = SOk v.
Proof.
  intros W E. unfold unpackb. rewrite <- (app_nil_r b) at 2. rewrite (dec_ok v W b [] _ E) by lia. reflexivity.
Qed.
