(** Proofs for C66, C67 and C68. *)
From Coq Require Import String QArith Qround ZArith Bool List Arith Lia Sorted.
From Verif Require Import MoeModel VitModel VitSpec CfgModel CfgSpec Py PyLemmas.
From Verif Require VitProofs TreeProofs.
Import ListNotations.
Local Open Scope list_scope.
Local Open Scope nat_scope.

(** ** Strings *)
Lemma lit_app p r : lit p (p ++ r) = Some r.
Proof. induction p as [|c p IH]; cbn; auto. now rewrite Nat.eqb_refl. Qed.
Lemma lit_some p : forall s r, lit p s = Some r -> s = p ++ r.
Proof.
  induction p as [|c p IH]; intros s r E; cbn in E; [now injection E as ->|].
  destruct s as [|d s]; [discriminate|]. destruct (Nat.eqb_spec c d); [|discriminate]. subst d. cbn. f_equal. now apply IH.
Qed.
Lemma take_digits_spec s : forall d r, take_digits s = (d, r) -> s = d ++ r /\ Forall (fun c => is_digit c = true) d.
Proof.
  induction s as [|c s IH]; intros d r E; cbn in E; [injection E as <- <-; split; auto|].
  destruct (is_digit c) eqn:Ec; [|injection E as <- <-; split; auto].
  destruct (take_digits s) as [d' r'] eqn:E'. injection E as <- <-. destruct (IH _ _ eq_refl) as [-> H]. split; auto.
Qed.
Lemma take_digits_app d r : Forall (fun c => is_digit c = true) d -> match r with c :: _ => is_digit c = false | [] => True end ->
  take_digits (d ++ r) = (d, r).
Proof.
  induction d as [|c d IH]; intros H Hr; cbn.
  - destruct r as [|c r]; auto. cbn. now rewrite Hr.
  - inversion H; subst. rewrite H2, IH; auto.
Qed.
Lemma digits_some s d r : digits s = Some (d, r) -> s = d ++ r /\ Forall (fun c => is_digit c = true) d /\ d <> [].
Proof.
  unfold digits. destruct (take_digits s) as [d' r'] eqn:E. apply take_digits_spec in E as [E F].
  destruct d' as [|c d']; [discriminate|]. intros H. injection H as <- <-. repeat split; auto. discriminate.
Qed.
Lemma digits_app d r : Forall (fun c => is_digit c = true) d -> d <> [] -> match r with c :: _ => is_digit c = false | [] => True end ->
  digits (d ++ r) = Some (d, r).
Proof. intros H N Hr. unfold digits. rewrite take_digits_app; auto. destruct d; [congruence|auto]. Qed.
Lemma digit_iff c : is_digit c = true <-> exists d, d < 10 /\ c = 48 + d.
Proof.
  unfold is_digit. rewrite andb_true_iff, !Nat.leb_le. split; [intros [A B]; exists (c - 48); lia|intros [d [A ->]]; lia].
Qed.
Lemma to_int_snoc s c : to_int (s ++ [c]) = 10 * to_int s + (c - 48).
Proof. unfold to_int. now rewrite fold_left_app. Qed.
Lemma numeral_iff s n : numeral s n <-> s <> [] /\ Forall (fun c => is_digit c = true) s /\ to_int s = n.
Proof.
  split.
  - induction 1 as [d H|s n d Hs IH H].
    + split; [discriminate|]. split; [repeat constructor; apply digit_iff; eauto|]. cbn [to_int fold_left]. unfold to_int; cbn [fold_left]. lia.
    + destruct IH as [N [F E]]. split; [destruct s; discriminate|]. split; [apply Forall_app; split; auto; repeat constructor; apply digit_iff; eauto|].
      rewrite to_int_snoc, E. lia.
  - intros [N [F E]]. revert n N F E. induction s as [|c s IH] using rev_ind; intros n N F E; [congruence|].
    apply Forall_app in F as [F Fc]. inversion Fc; subst. apply digit_iff in H1 as [d [Hd ->]]. rewrite to_int_snoc.
    replace (48 + d - 48) with d by lia.
    destruct s as [|x s].
    + cbn [app]. change (to_int []) with 0. rewrite Nat.mul_0_r, Nat.add_0_l. now constructor.
    + constructor; auto. apply IH; auto. discriminate.
Qed.
Lemma match_where_app w r : match_where (where_name w ++ r) = Some (w, r).
Proof. unfold match_where. destruct w; unfold where_name; [now rewrite lit_app|]. reflexivity. Qed.
Lemma match_where_some s w r : match_where s = Some (w, r) -> s = where_name w ++ r.
Proof.
  unfold match_where. destruct (lit (chars "Every") s) eqn:E; [intros H; injection H as <- <-; now apply lit_some|].
  destruct (lit (chars "Last") s) eqn:E'; [|discriminate]. intros H; injection H as <- <-. now apply lit_some.
Qed.
Lemma at_end_iff s : at_end s = true <-> s = [] \/ s = [10].
Proof.
  destruct s as [|c [|c' s]]; cbn; split; intros H; auto; try discriminate.
  - apply Nat.eqb_eq in H. subst. auto.
  - destruct H as [H|H]; [discriminate|]. injection H as ->. reflexivity.
  - destruct H; discriminate.
Qed.

Lemma obind_some {T U} (x : option T) (f : T -> option U) y : obind x f = Some y -> exists a, x = Some a /\ f a = Some y.
Proof. destruct x; cbn; [eauto|discriminate]. Qed.

Ltac step E x H := apply obind_some in E; destruct E as [x [H E]]; cbv beta in E.
Ltac step2 E v x H := apply obind_some in E; destruct E as [[v x] [H E]]; cbv beta iota in E.
Lemma parse s d : match_description s = Some d <-> describes s d.
Proof.
  split.
  - unfold match_description. intros E.
    step E y1 H1. step2 E v y2 H2. step E y3 H3. step2 E p y4 H4. step E y5 H5. step2 E e y6 H6. step E y7 H7. step2 E k y8 H8.
    step E y9 H9. step2 E w y10 H10. step E y11 H11. step2 E n y12 H12. step E y13 H13. step2 E t y14 H14. step E y15 H15.
    destruct (at_end y15) eqn:Ea; [|discriminate]. injection E as <-. apply at_end_iff in Ea.
    apply lit_some in H1, H3, H5, H7, H9, H11, H13, H15.
    apply digits_some in H4, H6, H8, H12, H14. apply match_where_some in H10.
    unfold any_char in H2. destruct y1 as [|c y1]; [discriminate|]. destruct (Nat.eqb_spec c newline); [discriminate|]. injection H2 as <- <-.
    unfold describes. cbn [d_variant d_patch d_experts d_k d_where d_where_num d_epochs].
    exists p, e, k, n, t, y15.
    destruct H4 as [H4 [F4 N4]], H6 as [H6 [F6 N6]], H8 as [H8 [F8 N8]], H12 as [H12 [F12 N12]], H14 as [H14 [F14 N14]].
    split.
    + rewrite H1, H3, H4, H5, H6, H7, H8, H9, H10, H11, H12, H13, H14, H15. now rewrite <- ?app_assoc.
    + repeat split; auto; apply numeral_iff; auto.
  - intros [p [e [k [n [t [tail [-> [Hv [Ht [P [E [K [N T]]]]]]]]]]]]].
    apply numeral_iff in P as [P1 [P2 P3]], E as [E1 [E2 E3]], K as [K1 [K2 K3]], N as [N1 [N2 N3]], T as [T1 [T2 T3]].
    unfold match_description. rewrite lit_app. cbn [obind app any_char].
    destruct (Nat.eqb_spec (d_variant d) newline) as [Q|_]; [now elim Hv|]. cbn [obind].
    rewrite lit_app. cbn [obind]. rewrite digits_app by (auto; reflexivity). cbn [obind].
    rewrite lit_app. cbn [obind]. rewrite digits_app by (auto; reflexivity). cbn [obind].
    rewrite lit_app. cbn [obind]. rewrite digits_app by (auto; reflexivity). cbn [obind].
    rewrite lit_app. cbn [obind]. rewrite match_where_app. cbn [obind].
    rewrite lit_app. cbn [obind]. rewrite digits_app by (auto; reflexivity). cbn [obind].
    rewrite lit_app. cbn [obind]. rewrite digits_app by (auto; reflexivity). cbn [obind].
    rewrite lit_app. cbn [obind].
    replace (at_end tail) with true by (symmetry; apply at_end_iff; auto). rewrite P3, E3, K3, N3, T3. now destruct d.
Qed.

(** ** The positions of the MoE layers *)
Lemma range_len m n j : 1 <= n -> (j < (m + n - 1) / n <-> j * n < m).
Proof.
  intros H. pose proof (Nat.div_mod (m + n - 1) n ltac:(lia)). pose proof (Nat.mod_upper_bound (m + n - 1) n ltac:(lia)).
  set (q := (m + n - 1) / n) in *. split; intros A; nia.
Qed.
Lemma in_range a L n i : 1 <= n -> (In i (py_range a L n) <-> exists j, i = a + j * n /\ i < L).
Proof.
  intros H. unfold py_range. rewrite in_map_iff. split.
  - intros [j [<- Hj]]. apply in_seq in Hj. exists j. split; auto. assert (j < (L - a + n - 1) / n) as J by lia. apply range_len in J; [|lia]. lia.
  - intros [j [-> Hj]]. exists j. split; auto. apply in_seq. split; [lia|]. cbn. apply range_len; [lia|]. lia.
Qed.
Lemma skipn_map {T U} (f : T -> U) k : forall l, skipn k (map f l) = map f (skipn k l).
Proof. induction k; intros [|x l]; cbn; auto. Qed.
Lemma skipn_seq k : forall a n, skipn k (seq a n) = seq (a + k) (n - k).
Proof.
  induction k as [|k IH]; intros a n; [cbn; now rewrite Nat.add_0_r, Nat.sub_0_r|].
  destruct n as [|n]; cbn; auto. rewrite IH. f_equal. lia.
Qed.
Lemma in_skipn_range k a L n i : 1 <= n -> (In i (skipn k (py_range a L n)) <-> exists j, k <= j /\ i = a + j * n /\ i < L).
Proof.
  intros H. unfold py_range. rewrite skipn_map, skipn_seq, in_map_iff. cbn [Nat.add]. split.
  - intros [j [<- Hj]]. apply in_seq in Hj. exists j. split; [lia|]. split; auto.
    assert (j < (L - a + n - 1) / n) as J by lia. apply range_len in J; [|lia]. lia.
  - intros [j [Hk [-> Hj]]]. exists j. split; auto. apply in_seq.
    assert (j < (L - a + n - 1) / n) as J by (apply range_len; lia). lia.
Qed.
Lemma sorted_map_seq (f : nat -> nat) : (forall i j, i < j -> f i < f j) -> forall n a, StronglySorted lt (map f (seq a n)).
Proof.
  intros H. induction n as [|n IH]; intros a; cbn; constructor; auto.
  apply Forall_forall. intros x Hx. apply in_map_iff in Hx as [j [<- Hj]]. apply in_seq in Hj. apply H. lia.
Qed.
Lemma sorted_skipn_range k a L n : 1 <= n -> StronglySorted lt (skipn k (py_range a L n)).
Proof. intros H. unfold py_range. rewrite skipn_map, skipn_seq. apply sorted_map_seq. nia. Qed.
Lemma sorted_skipn_seq k a n : StronglySorted lt (skipn k (seq a n)).
Proof. rewrite skipn_seq, <- (map_id (seq _ _)). apply sorted_map_seq. auto. Qed.
Lemma range_length a L n : length (py_range a L n) = (L - a + n - 1) / n.
Proof. unfold py_range. now rewrite map_length, seq_length. Qed.

Definition layers_at (w : where_) (n L : nat) : list nat :=
  match w with Every => py_range (n - 1) L n | Last => slice_last n (py_range 1 L 2) end.
Lemma slice_last_skipn {T} n (l : list T) : exists k, slice_last n l = skipn k l /\ (n = 0 -> k = 0) /\ (1 <= n -> k = length l - n).
Proof. destruct n; cbn [slice_last]; [exists 0|exists (length l - S n)]; repeat split; auto; lia. Qed.
Lemma layers_spec w n L i : Nat.Even L -> (w = Every -> 1 <= n) -> (In i (layers_at w n L) <-> is_moe_block w n L i).
Proof.
  intros [q HL] Hn. unfold layers_at, is_moe_block. destruct w.
  - specialize (Hn eq_refl). rewrite in_range by lia. split.
    + intros [j [E H]]. split; auto. exists (S j). lia.
    + intros [H [z Hz]]. exists (z - 1). split; auto. destruct z; [lia|]. cbn in Hz |- *. rewrite Nat.sub_0_r. lia.
  - destruct (slice_last_skipn n (py_range 1 L 2)) as [k [-> [K0 K1]]]. rewrite in_skipn_range by lia. rewrite range_length in K1.
    replace (L - 1 + 2 - 1) with (if q =? 0 then 1 else q * 2) in K1 by (destruct (Nat.eqb_spec q 0); lia).
    destruct (Nat.eqb_spec q 0) as [Q|Q].
    + split; [intros [j [? [? ?]]]|intros [? ?]]; lia.
    + rewrite Nat.div_mul in K1 by lia. split.
      * intros [j [A [B C]]]. split; auto. split; [exists j; lia|]. destruct n; [now left|right]. specialize (K1 ltac:(lia)). lia.
      * intros [A [[j B] C]]. exists j. split; [|split; lia]. destruct n; [rewrite K0; lia|]. specialize (K1 ltac:(lia)). destruct C; lia.
Qed.
Lemma layers_sorted w n L : (w = Every -> 1 <= n) -> StronglySorted lt (layers_at w n L).
Proof.
  intros Hn. unfold layers_at. destruct w.
  - apply (sorted_skipn_range 0). auto.
  - destruct (slice_last_skipn n (py_range 1 L 2)) as [k [-> _]]. apply sorted_skipn_range. lia.
Qed.
Lemma layers_length w n L : Nat.Even L -> (w = Every -> 1 <= n) ->
  length (layers_at w n L) = match w, n with Every, _ => L / n | Last, 0 => L / 2 | Last, _ => Nat.min n (L / 2) end.
Proof.
  intros [q HL] Hn. unfold layers_at. destruct w.
  - specialize (Hn eq_refl). rewrite range_length.
    pose proof (Nat.div_mod L n ltac:(lia)). pose proof (Nat.mod_upper_bound L n ltac:(lia)).
    pose proof (Nat.div_mod (L - (n - 1) + n - 1) n ltac:(lia)). pose proof (Nat.mod_upper_bound (L - (n - 1) + n - 1) n ltac:(lia)).
    destruct (Nat.le_gt_cases (n - 1) L) as [C|C]; [f_equal; lia|]. rewrite (Nat.div_small L n) by lia. rewrite Nat.div_small; lia.
  - assert (length (py_range 1 L 2) = q) as E.
    { rewrite range_length. destruct q; [subst; reflexivity|]. replace (L - 1 + 2 - 1) with (S q * 2) by lia. now rewrite Nat.div_mul by lia. }
    assert (L / 2 = q) as E2 by (subst L; rewrite Nat.mul_comm; now rewrite Nat.div_mul by lia).
    rewrite E2. destruct n; cbn [slice_last]; [apply E|]. rewrite skipn_length, E. lia.
Qed.

(** ** Models from descriptions *)
Lemma index_of_cases v :
  index_of [v] (map chars ["S"; "B"; "L"; "H"]%string) =
    if v =? 83 then Ok 0 else if v =? 66 then Ok 1 else if v =? 76 then Ok 2 else if v =? 72 then Ok 3 else Raise ValueError.
Proof.
  cbn [map index_of]. assert (forall (a b : nat), str_eqb [a] [b] = (b =? a)) as E.
  { intros a b. unfold str_eqb. destruct (TreeProofs.str_eqb_spec [a] [b]); destruct (Nat.eqb_spec b a); congruence. }
  change (chars "S") with [83]. change (chars "B") with [66]. change (chars "L") with [76]. change (chars "H") with [72]. rewrite !E.
  repeat match goal with |- context[?a =? ?b] => destruct (a =? b); cbn [bind]; auto end.
Qed.
Definition moe_of (d : description) (image_size : nat) : moe_config :=
  {| mc_group_size := 8 * ((image_size / d_patch d) * (image_size / d_patch d) + 1); mc_num_experts := d_experts d;
     mc_router := TopExpertsPerItem (d_k d) NameEinsum None (Some (105#100)%Q) Ceil (Some 4%Z) false |}.
Definition config_of (d : description) (image_size num_classes : nat) (rep : bool) (x : nat * nat * nat) : model_config :=
  let '(h, L, heads) := x in
  {| m_router_name := default_router_name; m_num_classes := Some num_classes; m_patch_size := d_patch d; m_hidden_size := h; m_classifier := ClsToken;
     m_representation_size := if rep then Some h else None; m_mlp_dim := (4 * N.of_nat h)%N; m_num_heads := heads;
     m_encoder := {| ec_num_layers := L; ec_layers := layers_at (d_where d) (d_where_num d) L; ec_moe := moe_of d image_size |} |}.
Definition description_result (s : str) (image_size num_classes : nat) (rep : bool) : res model_config :=
  match match_description s with
  | None => Raise ValueError
  | Some d =>
      match size_of (d_variant d) with
      | None => Raise ValueError
      | Some x => if d_patch d =? 0 then Raise ZeroDivisionError
                  else if rep && (num_classes =? 0) then Raise ValueError
                  else match d_where d with Every => if d_where_num d =? 0 then Raise ValueError else Ok (config_of d image_size num_classes rep x)
                       | Last => Ok (config_of d image_size num_classes rep x) end
      end
  end.
Lemma get_vmoe_config_eq s image_size nc : get_vmoe_config s image_size nc = description_result s image_size nc true.
Proof.
  unfold get_vmoe_config, description_result. destruct (match_description s) as [d|]; auto.
  rewrite index_of_cases. unfold size_of, floordiv, config_of, layers_at, moe_of.
  do 4 (destruct (_ =? _); [cbn [bind item nth_error]; destruct (d_patch d =? 0); cbn [bind]; auto; cbn [andb]; destruct (nc =? 0); cbn [bind]; auto;
    destruct (d_where d); [destruct (d_where_num d =? 0)|]; reflexivity|]). reflexivity.
Qed.
Lemma get_vmoe_params_eq s image_size nc : get_vmoe_params s image_size nc = description_result s image_size nc false.
Proof.
  unfold get_vmoe_params, description_result. destruct (match_description s) as [d|]; auto.
  rewrite index_of_cases. unfold size_of, floordiv, config_of, layers_at, moe_of.
  do 4 (destruct (_ =? _); [cbn [bind item nth_error]; destruct (d_patch d =? 0); cbn [bind]; auto; cbn [andb bind]; auto;
    destruct (d_where d); [destruct (d_where_num d =? 0)|]; reflexivity|]). reflexivity.
Qed.
Lemma description_ok s image_size nc rep c : description_result s image_size nc rep = Ok c <->
  exists d x, describes s d /\ size_of (d_variant d) = Some x /\ 1 <= d_patch d /\ (rep = true -> 1 <= nc) /\ (d_where d = Every -> 1 <= d_where_num d) /\
    c = config_of d image_size nc rep x.
Proof.
  unfold description_result. split.
  - destruct (match_description s) as [d|] eqn:E; [|discriminate]. apply parse in E.
    destruct (size_of (d_variant d)) as [x|] eqn:Ex; [|discriminate]. destruct (Nat.eqb_spec (d_patch d) 0); [discriminate|].
    destruct (rep && (nc =? 0)) eqn:R; [discriminate|]. intros H. exists d, x. split; auto. split; auto. split; [lia|].
    split; [intros ->; apply Nat.eqb_neq in R; lia|].
    destruct (d_where d); [destruct (Nat.eqb_spec (d_where_num d) 0); [discriminate|]|]; apply Ok_inj in H; subst c; split; auto; try lia. discriminate.
  - intros [d [x [D [X [P [R [W ->]]]]]]]. apply parse in D. rewrite D, X. destruct (Nat.eqb_spec (d_patch d) 0); [lia|].
    destruct (rep && (nc =? 0)) eqn:R'; [apply andb_prop in R' as [-> R']; apply Nat.eqb_eq in R'; specialize (R eq_refl); lia|].
    destruct (d_where d); auto. specialize (W eq_refl). destruct (Nat.eqb_spec (d_where_num d) 0); [lia|auto].
Qed.

Lemma size_cases v x : size_of v = Some x ->
  (v = 83 /\ x = (512, 8, 8)) \/ (v = 66 /\ x = (768, 12, 12)) \/ (v = 76 /\ x = (1024, 24, 16)) \/ (v = 72 /\ x = (1280, 32, 16)).
Proof.
  unfold size_of. repeat match goal with |- context[v =? ?k] => destruct (Nat.eqb_spec v k); [intros H; injection H as <-; auto 8|] end. discriminate.
Qed.
Lemma size_facts v h L heads : size_of v = Some (h, L, heads) ->
  Nat.Even L /\ 8 <= L /\ (h = heads * 64 \/ h = heads * 80) /\ h mod 4 = 0 /\ 1 <= heads.
Proof.
  intros H. apply size_cases in H.
  assert (forall q, Nat.Even (2 * q)) as Ev by (intros q; now exists q).
  destruct H as [[_ H]|[[_ H]|[[_ H]|[_ H]]]]; injection H as -> -> ->;
    (split; [first [exact (Ev 4)|exact (Ev 6)|exact (Ev 12)|exact (Ev 16)]|]); (split; [lia|]); (split; [lia|]); (split; [reflexivity|lia]).
Qed.

Lemma describes_unique s d d' : describes s d -> describes s d' -> d = d'.
Proof. intros A B. apply parse in A, B. congruence. Qed.

Lemma vmoe_accept s image_size nc : (exists c, get_vmoe_config s image_size nc = Ok c) <->
  exists d, describes s d /\ size_of (d_variant d) <> None /\ 1 <= d_patch d /\ 1 <= nc /\ (d_where d = Every -> 1 <= d_where_num d).
Proof.
  rewrite get_vmoe_config_eq. split.
  - intros [c H]. apply description_ok in H as [d [x [A [B [C [D [E F]]]]]]]. exists d. repeat split; auto. congruence.
  - intros [d [A [B [C [D E]]]]]. destruct (size_of (d_variant d)) as [x|] eqn:X; [|congruence].
    exists (config_of d image_size nc true x). apply description_ok. exists d, x. repeat split; auto.
Qed.
Lemma vmoe_fields s image_size nc c d : get_vmoe_config s image_size nc = Ok c -> describes s d ->
  exists h L heads, size_of (d_variant d) = Some (h, L, heads) /\
    m_hidden_size c = h /\ ec_num_layers (m_encoder c) = L /\ m_num_heads c = heads /\ m_mlp_dim c = (4 * N.of_nat h)%N /\ m_representation_size c = Some h /\
    (heads * 64 = h \/ heads * 80 = h) /\ m_patch_size c = d_patch d /\ m_num_classes c = Some nc /\ m_classifier c = ClsToken /\
    mc_num_experts (ec_moe (m_encoder c)) = d_experts d /\
    mc_group_size (ec_moe (m_encoder c)) = 8 * tokens_per_image ClsToken (image_size / d_patch d) (image_size / d_patch d) /\
    exists cf mode mult bp, mc_router (ec_moe (m_encoder c)) = TopExpertsPerItem (d_k d) NameEinsum None (Some cf) mode mult bp /\ cf == 21#20 /\ bp = false.
Proof.
  rewrite get_vmoe_config_eq. intros H D. apply description_ok in H as [d' [x [A [B [C [R [W ->]]]]]]].
  rewrite (describes_unique _ _ _ D A) in *. clear D d. destruct x as [[h L] heads]. exists h, L, heads.
  destruct (size_facts _ _ _ _ B) as [_ [_ [Hh _]]]. cbn [config_of m_hidden_size m_encoder ec_num_layers m_num_heads m_mlp_dim m_representation_size
    m_patch_size m_num_classes m_classifier ec_moe moe_of mc_num_experts mc_group_size mc_router].
  repeat split; auto; try lia.
  - cbn [tokens_per_image]. lia.
  - do 4 eexists. split; [reflexivity|]. split; [reflexivity|reflexivity].
Qed.
Lemma vmoe_blocks s image_size nc c d : get_vmoe_config s image_size nc = Ok c -> describes s d ->
  let L := ec_num_layers (m_encoder c) in let layers := ec_layers (m_encoder c) in
  (forall i, In i layers <-> is_moe_block (d_where d) (d_where_num d) L i) /\ StronglySorted lt layers /\
  length layers = match d_where d, d_where_num d with Every, n => L / n | Last, 0 => L / 2 | Last, n => Nat.min n (L / 2) end.
Proof.
  rewrite get_vmoe_config_eq. intros H D. apply description_ok in H as [d' [x [A [B [C [R [W ->]]]]]]].
  rewrite (describes_unique _ _ _ D A) in *. clear D d. destruct x as [[h L] heads].
  destruct (size_facts _ _ _ _ B) as [HL _]. cbn [config_of m_encoder ec_num_layers ec_layers].
  split; [intros i; now apply layers_spec|]. split; [now apply layers_sorted|]. rewrite layers_length by auto. destruct (d_where d'), (d_where_num d'); auto.
Qed.
Lemma vmoe_errors s image_size nc e : get_vmoe_config s image_size nc = Raise e ->
  e = ValueError \/ (e = ZeroDivisionError /\ exists d, describes s d /\ d_patch d = 0 /\ size_of (d_variant d) <> None).
Proof.
  rewrite get_vmoe_config_eq. unfold description_result. destruct (match_description s) as [d|] eqn:D; [|intros E; injection E; auto].
  apply parse in D. destruct (size_of (d_variant d)) eqn:X; [|intros E; injection E; auto].
  destruct (Nat.eqb_spec (d_patch d) 0); [intros E; injection E as <-; right; split; auto; exists d; repeat split; auto; congruence|].
  destruct (_ && _); [intros E; injection E; auto|]. destruct (d_where d); [destruct (_ =? 0)|]; intros E; try discriminate. injection E; auto.
Qed.
Lemma vmoe_copies s image_size nc : 1 <= nc ->
  get_vmoe_params s image_size nc = bind (get_vmoe_config s image_size nc) (fun c => Ok (without_representation c)).
Proof.
  intros Hn. rewrite get_vmoe_config_eq, get_vmoe_params_eq. unfold description_result. destruct (match_description s) as [d|]; auto.
  destruct (size_of (d_variant d)) as [[[h L] heads]|]; auto. destruct (d_patch d =? 0); auto. destruct (Nat.eqb_spec nc 0); [lia|]. cbn [andb].
  destruct (d_where d); [destruct (d_where_num d =? 0)|]; reflexivity.
Qed.

(** ** Epochs and optimizers *)
Lemma no_comma_none s : Forall (fun c => c <> 44) s -> epochs_anywhere s = None.
Proof.
  induction 1 as [|c s Hc H IH]; cbn [epochs_anywhere]; [reflexivity|].
  assert (epochs_here (c :: s) = None) as E.
  { unfold epochs_here. change (chars ", ") with [44; 32]. cbn [lit]. destruct (Nat.eqb_spec 44 c); [congruence|reflexivity]. }
  rewrite IH. now destruct (c =? newline).
Qed.
Lemma epochs_prefix pre s n : Forall (fun c => c <> 10) pre -> epochs_anywhere s = Some n -> epochs_anywhere (pre ++ s) = Some n.
Proof.
  induction 1 as [|c pre Hc H IH]; cbn [app]; auto. intros E. cbn [epochs_anywhere]. destruct (Nat.eqb_spec c newline); [now elim Hc|]. now rewrite IH.
Qed.
Lemma numeral_no s n c : numeral s n -> is_digit c = false -> Forall (fun x => x <> c) s.
Proof.
  intros H Hc. apply numeral_iff in H as [_ [F _]]. eapply Forall_impl; [|exact F]. cbn. intros a Ha ->. congruence.
Qed.
Lemma epochs_agree s n : get_num_epochs s = Ok n -> attack_get_num_epochs s = Ok n.
Proof.
  unfold get_num_epochs, attack_get_num_epochs. destruct (match_description s) as [d|] eqn:D; [|discriminate]. intros E. apply Ok_inj in E. subst n.
  apply parse in D as [p [e [k [n [t [tail [-> [Hv [Ht [P [E [K [N T]]]]]]]]]]]]].
  assert (epochs_anywhere (chars ", " ++ t ++ chars " Epochs" ++ tail) = Some (d_epochs d)) as H.
  { change (chars ", " ++ t ++ chars " Epochs" ++ tail) with (44 :: 32 :: t ++ chars " Epochs" ++ tail). cbn [epochs_anywhere].
    change (44 =? newline) with false. change (32 =? newline) with false. cbv iota.
    assert (epochs_anywhere (32 :: t ++ chars " Epochs" ++ tail) = None) as Z.
    { apply no_comma_none. constructor; [discriminate|]. apply Forall_app. split; [apply (numeral_no _ _ _ T); reflexivity|]. apply Forall_app.
      split; [repeat constructor; discriminate|]. destruct Ht as [-> | ->]; repeat constructor; discriminate. }
    cbn [epochs_anywhere] in Z. change (32 =? newline) with false in Z. cbv iota in Z. rewrite Z.
    unfold epochs_here. change (44 :: 32 :: t ++ chars " Epochs" ++ tail) with (chars ", " ++ t ++ chars " Epochs" ++ tail).
    rewrite lit_app. cbn [obind]. apply numeral_iff in T as [T1 [T2 T3]].
    rewrite digits_app by (auto; reflexivity). cbn [obind]. rewrite lit_app. cbn [obind].
    replace (at_end tail) with true by (symmetry; apply at_end_iff; auto). now rewrite T3. }
  match goal with |- context[epochs_anywhere ?s] => replace (epochs_anywhere s) with (Some (d_epochs d)); [reflexivity|symmetry] end.
  repeat (rewrite app_assoc). rewrite <- (app_assoc _ (chars " Epochs") tail), <- (app_assoc _ t _), <- (app_assoc _ (chars ", ") _).
  apply epochs_prefix; auto.
  repeat (apply Forall_app; split); try (repeat constructor; discriminate); try (repeat constructor; exact Hv);
    try (eapply numeral_no; [eassumption|reflexivity]). destruct (d_where d); repeat constructor; discriminate.
Qed.

Lemma rate_iff v p q : peak_value v p = Some q <-> paper_rate v p q.
Proof.
  unfold peak_value, paper_rate. change (chars "S") with [83]. change (chars "B") with [66]. change (chars "L") with [76]. change (chars "H") with [72].
  cbn [app TreeModel.dget].
  assert (forall a b c d, TreeModel.str_eqb [a; b] [c; d] = (c =? a) && (d =? b)) as E.
  { intros a b c d. destruct (TreeProofs.str_eqb_spec [a; b] [c; d]) as [X|X]; destruct (Nat.eqb_spec c a), (Nat.eqb_spec d b); cbn; congruence. }
  rewrite !E. split.
  - repeat match goal with |- context[?a =? ?b] => destruct (Nat.eqb_spec a b); subst; cbn [andb] end;
      intros H; try discriminate; injection H as <-; cbn; auto 10.
  - cbn [In]. intros H. repeat (destruct H as [H|H]; [injection H as <- <- <-; reflexivity|]). destruct H.
Qed.
Lemma optimizer_ok s o : get_optimizer_config s = Ok o ->
  exists d, describes s d /\ paper_rate (d_variant d) (d_patch d) (oc_peak o) /\ oc_end o == 1 # 100000 /\ oc_warmup o = 10000%Z /\ oc_weight_decay o == 1 # 10 /\
    oc_clip o = if d_variant d =? 72 then Some 10%Q else None.
Proof.
  unfold get_optimizer_config. destruct (match_description s) as [d|] eqn:D; [|discriminate]. apply parse in D.
  destruct (peak_value _ _) as [q|] eqn:P; [|discriminate]. intros E. apply Ok_inj in E. subst o. exists d. split; auto.
  split; [now apply rate_iff|]. repeat split. cbn [oc_clip]. unfold str_eqb. change (chars "H") with [72].
  destruct (TreeProofs.str_eqb_spec [d_variant d] [72]), (Nat.eqb_spec (d_variant d) 72); congruence.
Qed.
Lemma optimizer_errors s e : get_optimizer_config s = Raise e <->
  (e = ValueError /\ ~ exists d, describes s d) \/ (e = KeyError /\ exists d, describes s d /\ forall q, ~ paper_rate (d_variant d) (d_patch d) q).
Proof.
  unfold get_optimizer_config. destruct (match_description s) as [d|] eqn:D.
  - apply parse in D. destruct (peak_value _ _) as [q|] eqn:P.
    + apply rate_iff in P. split; [discriminate|]. intros [[_ H]|[_ [d' [D' H]]]]; [elim H; eauto|]. rewrite (describes_unique _ _ _ D' D) in H. elim (H q P).
    + split.
      * intros E. injection E as <-. right. split; auto. exists d. split; auto. intros q Q. apply rate_iff in Q. congruence.
      * intros [[_ H]|[-> _]]; auto. elim H; eauto.
  - split.
    + intros E. injection E as <-. left. split; auto. intros [d H]. apply parse in H. congruence.
    + intros [[-> _]|[_ [d [H _]]]]; auto. apply parse in H. congruence.
Qed.

(** ** Dense models of the same size *)
Lemma until_slash_app v r : Forall (fun c => c <> 47) v -> until_slash (v ++ 47 :: r) = (v, 47 :: r).
Proof.
  induction 1 as [|c v Hc H IH]; cbn [app until_slash]; [reflexivity|].
  destruct (Nat.eqb_spec c TreeModel.slash); [now elim Hc|]. now rewrite IH.
Qed.
Lemma attack_sizes s image_size nc c : get_vmoe_config s image_size nc = Ok c ->
  attack_get_vit_config s nc = Ok {| dc_patch_size := m_patch_size c; dc_hidden_size := m_hidden_size c; dc_num_layers := ec_num_layers (m_encoder c);
                                     dc_mlp_dim := m_mlp_dim c; dc_num_heads := m_num_heads c |}.
Proof.
  rewrite get_vmoe_config_eq. intros H. apply description_ok in H as [d [x [D [X [_ [R [_ ->]]]]]]]. specialize (R eq_refl).
  destruct D as [p [e [k [n [t [tail [-> [_ [_ [P _]]]]]]]]]]. apply numeral_iff in P as [P1 [P2 P3]].
  unfold attack_get_vit_config. rewrite lit_app. cbn [obind].
  match goal with |- context[until_slash (_ ++ _ ++ ?r)] => change (until_slash ([d_variant d] ++ chars "/" ++ r)) with (until_slash ([d_variant d] ++ 47 :: r)) end.
  rewrite (until_slash_app [d_variant d]).
  2:{ apply size_cases in X. repeat constructor. intros E. rewrite E in X. destruct X as [[? _]|[[? _]|[[? _]|[? _]]]]; discriminate. }
  change (chars "/") with [47]. cbn [length Nat.eqb app lit obind]. rewrite digits_app by (auto; reflexivity). cbn [obind fst].
  destruct (Nat.eqb_spec nc 0); [lia|]. rewrite P3.
  apply size_cases in X. destruct X as [[-> ->]|[[-> ->]|[[-> ->]|[-> ->]]]]; reflexivity.
Qed.

(** ** Batches *)
Lemma conv_side_div image_size patch_size : 1 <= patch_size -> conv_side image_size patch_size = image_size / patch_size.
Proof.
  intros H. unfold conv_side. destruct (Nat.ltb_spec image_size patch_size); [now rewrite Nat.div_small|].
  replace image_size with (1 * patch_size + (image_size - patch_size)) at 2 by lia. rewrite Nat.div_add_l by lia. lia.
Qed.
Lemma vmoe_predict s image_size nc c I (p : vit_params I) images f : get_vmoe_config s image_size nc = Ok c ->
  c = f \/ (exists q, f = with_capacity_factor q c) ->
  exists d, describes s d /\ 1 <= d_patch d /\
  mc_group_size (ec_moe (m_encoder f)) = 8 * tokens_per_image ClsToken (image_size / d_patch d) (image_size / d_patch d) /\
  predict f p image_size images =
    vit_moe (m_hidden_size f) (m_encoder f) None ClsToken (m_num_classes f) p (image_size / d_patch d) (image_size / d_patch d) images.
Proof.
  rewrite get_vmoe_config_eq. intros H F. apply description_ok in H as [d [x [D [X [P [R [W ->]]]]]]]. exists d. split; auto. split; auto.
  assert (mc_group_size (ec_moe (m_encoder f)) = 8 * tokens_per_image ClsToken (image_size / d_patch d) (image_size / d_patch d) /\
          m_classifier f = ClsToken /\ m_patch_size f = d_patch d /\ create_router (m_router_name f) (mc_router (ec_moe (m_encoder f))) = Ok tt) as [A [B [C G]]].
  { destruct x as [[h L] heads]. destruct F as [<- |[q ->]]; repeat split; cbn -[tokens_per_image]; cbn [tokens_per_image]; try lia; reflexivity. }
  split; auto. unfold predict. rewrite G, B, C, conv_side_div by auto. now destruct (existsb _ _).
Qed.
Lemma eight_mod n T : Nat.divide 8 n -> (n * T) mod (8 * T) = 0.
Proof.
  intros [k ->]. destruct T; [now rewrite !Nat.mul_0_r|]. replace (k * 8 * S T) with (k * (8 * S T)) by lia. apply Nat.mod_mul. lia.
Qed.
Lemma eight_tokens h w : 1 <= 8 * tokens_per_image ClsToken h w.
Proof. cbn [tokens_per_image]. generalize (h * w). lia. Qed.
Lemma vmoe_groups s image_size nc c I (p : vit_params I) a b : get_vmoe_config s image_size nc = Ok c -> 1 <= mc_num_experts (ec_moe (m_encoder c)) ->
  a <> [] -> b <> [] -> Nat.divide 8 (length a) -> Nat.divide 8 (length b) ->
  predict c p image_size (a ++ b) = bind (predict c p image_size a) (fun x => bind (predict c p image_size b) (fun y => Ok (x ++ y))).
Proof.
  intros H E A B LA LB. destruct (vmoe_predict _ _ _ _ I p (a ++ b) c H) as [d [D [P [G Pab]]]]; auto.
  destruct (vmoe_predict _ _ _ _ I p a c H) as [d1 [D1 [_ [_ Pa]]]]; auto. destruct (vmoe_predict _ _ _ _ I p b c H) as [d2 [D2 [_ [_ Pb]]]]; auto.
  rewrite (describes_unique _ _ _ D1 D) in Pa. rewrite (describes_unique _ _ _ D2 D) in Pb. rewrite Pab, Pa, Pb.
  apply VitProofs.vit_groups; auto; rewrite G; [apply eight_tokens| |]; now apply eight_mod.
Qed.
Lemma vmoe_ragged s image_size nc c I (p : vit_params I) images out : get_vmoe_config s image_size nc = Ok c ->
  ec_layers (m_encoder c) <> [] -> ~ Nat.divide 8 (length images) -> predict c p image_size images <> Ok out.
Proof.
  intros H N L. destruct (vmoe_predict _ _ _ _ I p images c H) as [d [D [P [G ->]]]]; auto.
  destruct (vmoe_blocks _ _ _ _ _ H D) as [B _]. destruct (ec_layers (m_encoder c)) as [|i r] eqn:EL; [congruence|].
  destruct (proj1 (B i) (or_introl eq_refl)) as [Hi _].
  apply VitProofs.vit_ragged with (i := i); auto.
  - rewrite EL. cbn. now rewrite Nat.eqb_refl.
  - intros ->. apply L. now exists 0.
  - right. rewrite G. set (T := tokens_per_image _ _ _). assert (1 <= T) by (pose proof (eight_tokens (image_size / d_patch d) (image_size / d_patch d)); unfold T; lia). intros M. apply L.
    apply Nat.mod_divides in M as [q Hq]; [|lia]. exists q. nia.
Qed.
Lemma factory_ok Sz E K f mode : 1 <= Sz -> 1 <= K -> 1 <= E -> (inject_Z (Z.of_nat E) <= f * inject_Z (Z.of_nat K))%Q -> mode = Ceil ->
  exists n C, top_experts_factory Sz E K NameEinsum None (Some f) mode (Some 4%Z) = MoeModel.Ok (n, C).
Proof.
  intros HS HK HE HF ->. unfold top_experts_factory, resolve_capacity, compute_capacity.
  destruct (Z.eqb_spec (Z.of_nat E) 0); [lia|].
  assert (1 <= Qceiling (inject_Z (Z.of_nat Sz * Z.of_nat K) * f / inject_Z (Z.of_nat E)))%Z as Q1.
  { assert (0 < inject_Z (Z.of_nat E))%Q as E0 by (unfold Qlt; cbn; lia).
    assert (0 < inject_Z (Z.of_nat Sz))%Q as S0 by (unfold Qlt; cbn; lia).
    assert (0 < f * inject_Z (Z.of_nat K))%Q as F0 by exact (Qlt_le_trans _ _ _ E0 HF).
    assert (0 < inject_Z (Z.of_nat Sz * Z.of_nat K) * f / inject_Z (Z.of_nat E))%Q as P.
    { apply Qlt_shift_div_l; auto. rewrite Qmult_0_l, inject_Z_mult.
      setoid_replace (inject_Z (Z.of_nat Sz) * inject_Z (Z.of_nat K) * f)%Q with (inject_Z (Z.of_nat Sz) * (f * inject_Z (Z.of_nat K)))%Q by ring.
      rewrite <- (Qmult_0_l (f * inject_Z (Z.of_nat K))). apply Qmult_lt_compat_r; auto. }
    pose proof (Qle_ceiling (inject_Z (Z.of_nat Sz * Z.of_nat K) * f / inject_Z (Z.of_nat E))) as C.
    pose proof (Qlt_le_trans _ _ _ P C) as L. unfold Qlt in L. cbn in L. lia. }
  destruct (Z.ltb_spec (Qceiling (inject_Z (Z.of_nat Sz * Z.of_nat K) * f / inject_Z (Z.of_nat E))) 1); [lia|].
  destruct (Z.eqb_spec (Z.of_nat Sz * Z.of_nat K) 0); [nia|]. eauto.
Qed.
Lemma vmoe_no_drop s image_size nc c d f I (p : vit_params I) images images' out out' i j x : get_vmoe_config s image_size nc = Ok c -> describes s d ->
  1 <= d_k d -> d_k d <= d_experts d -> (inject_Z (Z.of_nat (d_experts d)) <= f * inject_Z (Z.of_nat (d_k d)))%Q ->
  Nat.divide 8 (length images) -> Nat.divide 8 (length images') ->
  predict (with_capacity_factor f c) p image_size images = Ok out -> predict (with_capacity_factor f c) p image_size images' = Ok out' ->
  nth_error images i = Some x -> nth_error images' j = Some x -> exists y, nth_error out i = Some y /\ nth_error out' j = Some y.
Proof.
  intros H D K1 K2 F L L' O O' X X'.
  destruct (vmoe_fields _ _ _ _ _ H D) as [h [Ln [heads [_ [_ [_ [_ [_ [_ [_ [_ [_ [_ [EE [EG [cf [mode [mult [bp [ER [_ _]]]]]]]]]]]]]]]]]]]]].
  set (c' := with_capacity_factor f c) in *.
  destruct (vmoe_predict _ _ _ _ I p images c' H) as [d1 [D1 [P [G Pa]]]]; [right; exists f; reflexivity|].
  destruct (vmoe_predict _ _ _ _ I p images' c' H) as [d2 [D2 [_ [_ Pb]]]]; [right; exists f; reflexivity|].
  rewrite (describes_unique _ _ _ D1 D) in *. rewrite (describes_unique _ _ _ D2 D) in Pb.
  rewrite get_vmoe_config_eq in H. apply description_ok in H as [d3 [xx [D3 [_ [_ [_ [_ HC]]]]]]]. rewrite (describes_unique _ _ _ D3 D) in HC.
  assert (mc_router (ec_moe (m_encoder c')) = TopExpertsPerItem (d_k d) NameEinsum None (Some f) Ceil (Some 4%Z) false) as ER'.
  { subst c'. rewrite HC. destruct xx as [[? ?] ?]. reflexivity. }
  assert (mc_num_experts (ec_moe (m_encoder c')) = d_experts d) as EE' by exact EE.
  assert (1 <= mc_group_size (ec_moe (m_encoder c'))) as G1 by (rewrite G; apply eight_tokens).
  destruct (factory_ok (mc_group_size (ec_moe (m_encoder c'))) (d_experts d) (d_k d) f Ceil) as [n [C HF]]; auto; [lia|].
  eapply (@VitProofs.vit_no_drop_images I (m_hidden_size c') (m_encoder c') None ClsToken (m_num_classes c') p (image_size / d_patch d) (image_size / d_patch d)
    (d_k d) NameEinsum None (Some f) Ceil (Some 4%Z) false n C images images' out out' i j x); auto.
  - rewrite EE'. auto.
  - rewrite EE'. exact HF.
  - apply (VitProofs.factor_enough _ (d_experts d) (d_k d) NameEinsum f Ceil (Some 4%Z) n C); auto. lia.
  - rewrite G. now apply eight_mod.
  - rewrite G. now apply eight_mod.
  - now rewrite <- Pa.
  - now rewrite <- Pb.
Qed.

Lemma dense_ok {I} D c nc (p : vit_params I) h w images : exists out, vit_moe D (without_moe c) None ClsToken nc p h w images = Ok out.
Proof.
  unfold vit_moe. cbn [grid_kwargs bind].
  assert (forall x, exists y, encoder_moe D (without_moe c) None (vp_encoder p) x = Ok y) as H.
  { intros x. unfold encoder_moe. cbn [add_position_emb pe_name bind].
    assert (forall l x, exists y, rfold (fun x block => encoder_block (existsb (Nat.eqb block) (ec_layers (without_moe c))) D (ec_moe (without_moe c)) (ep_block (vp_encoder p) block) x) l x = Ok y) as R.
    { induction l as [|b l IH]; intros x0; cbn [rfold]; [eauto|]. cbn [existsb without_moe ec_layers]. unfold encoder_block at 1. cbn [bind]. apply IH. }
    destruct (R (seq 0 (ec_num_layers (without_moe c))) (map (add_rows (ep_learned (vp_encoder p))) x)) as [y E]. rewrite E. cbn [bind]. eauto. }
  destruct (H (map (fun s => vp_cls p :: s) (map (fun i => tokens h w (vp_embedding p i)) images))) as [y ->]. cbn [bind]. eauto.
Qed.
Lemma vmoe_no_drop_total s image_size nc c d f I (p : vit_params I) images : get_vmoe_config s image_size nc = Ok c -> describes s d ->
  1 <= d_k d -> d_k d <= d_experts d -> (inject_Z (Z.of_nat (d_experts d)) <= f * inject_Z (Z.of_nat (d_k d)))%Q ->
  images <> [] -> Nat.divide 8 (length images) ->
  exists out, predict (with_capacity_factor f c) p image_size images = Ok out /\ length out = length images.
Proof.
  intros H D K1 K2 F N L.
  destruct (vmoe_fields _ _ _ _ _ H D) as [h [Ln [heads [_ [_ [_ [_ [_ [_ [_ [_ [_ [_ [EE _]]]]]]]]]]]]]].
  set (c' := with_capacity_factor f c) in *.
  destruct (vmoe_predict _ _ _ _ I p images c' H) as [d1 [D1 [P [G Pa]]]]; [right; exists f; reflexivity|].
  rewrite (describes_unique _ _ _ D1 D) in *.
  rewrite get_vmoe_config_eq in H. apply description_ok in H as [d3 [xx [D3 [_ [_ [_ [_ HC]]]]]]]. rewrite (describes_unique _ _ _ D3 D) in HC.
  assert (mc_router (ec_moe (m_encoder c')) = TopExpertsPerItem (d_k d) NameEinsum None (Some f) Ceil (Some 4%Z) false) as ER'.
  { subst c'. rewrite HC. destruct xx as [[? ?] ?]. reflexivity. }
  assert (mc_num_experts (ec_moe (m_encoder c')) = d_experts d) as EE' by exact EE.
  assert (1 <= mc_group_size (ec_moe (m_encoder c'))) as G1 by (rewrite G; apply eight_tokens).
  destruct (factory_ok (mc_group_size (ec_moe (m_encoder c'))) (d_experts d) (d_k d) f Ceil) as [n [C HF]]; auto; [lia|].
  destruct (VitProofs.vit_no_drop (m_hidden_size c') (m_encoder c') None ClsToken (m_num_classes c') p (image_size / d_patch d) (image_size / d_patch d)
    (d_k d) NameEinsum None (Some f) Ceil (Some 4%Z) false n C images) as (mlps & _ & Q); auto.
  - rewrite EE'. auto.
  - rewrite EE'. exact HF.
  - apply (VitProofs.factor_enough _ (d_experts d) (d_k d) NameEinsum f Ceil (Some 4%Z) n C); auto. lia.
  - rewrite G. now apply eight_mod.
  - rewrite Pa, Q. destruct (dense_ok (m_hidden_size c') (m_encoder c') (m_num_classes c') (with_mlps mlps p) (image_size / d_patch d) (image_size / d_patch d) images) as [out O].
    exists out. split; auto. apply VitProofs.vit_images in O; auto; try apply Nat.mod_1_r. now rewrite (Forall2_len _ _ _ O).
Qed.

(** ** Soft MoE configurations *)
Lemma item_in {T} (l : list T) i x : item l i = Ok x -> In x l.
Proof. unfold item. destruct (nth_error l i) eqn:E; [|discriminate]. intros H. apply Ok_inj in H. subst. eapply nth_error_In; eauto. Qed.
Lemma soft_vit_inv v patch nc c : soft_get_vit_config v patch nc = Ok c ->
  m_classifier c = ClsGap /\ m_patch_size c = patch /\ m_num_classes c = nc /\ ec_layers (m_encoder c) = [] /\
  mc_group_size (ec_moe (m_encoder c)) = 1 /\ mc_num_experts (ec_moe (m_encoder c)) = 1 /\ 12 <= ec_num_layers (m_encoder c).
Proof.
  unfold soft_get_vit_config. intros E. apply bind_ok in E. destruct E as [vi [_ E]].
  apply bind_ok in E. destruct E as [h [_ E]]. apply bind_ok in E. destruct E as [L [HL E]]. apply bind_ok in E. destruct E as [m [_ E]].
  apply bind_ok in E. destruct E as [n [_ E]]. apply Ok_inj in E. subst c. cbn. repeat split; auto. apply item_in in HL. cbn in HL. lia.
Qed.
Lemma one_image c I (p : vit_params I) image_size images out :
  (existsb (fun i => i <? ec_num_layers (m_encoder c)) (ec_layers (m_encoder c)) = true -> create_router (m_router_name c) (mc_router (ec_moe (m_encoder c))) = Ok tt) ->
  m_classifier c = ClsGap -> 1 <= m_patch_size c -> 1 <= mc_num_experts (ec_moe (m_encoder c)) -> 1 <= mc_group_size (ec_moe (m_encoder c)) ->
  ((image_size / m_patch_size c) * (image_size / m_patch_size c)) mod mc_group_size (ec_moe (m_encoder c)) = 0 -> images <> [] ->
  (predict c p image_size images = Ok out <-> Forall2 (fun i o => predict c p image_size [i] = Ok [o]) images out).
Proof.
  intros R C P E G M N.
  assert (forall l, predict c p image_size l =
    vit_moe (m_hidden_size c) (m_encoder c) None ClsGap (m_num_classes c) p (image_size / m_patch_size c) (image_size / m_patch_size c) l) as EQ.
  { intros l. unfold predict. rewrite C, conv_side_div by auto. destruct (existsb _ _); [rewrite R by auto|]; reflexivity. }
  rewrite EQ. rewrite VitProofs.vit_images by auto.
  clear N. split; induction 1 as [|a b l l' H F IH]; constructor; auto; rewrite ?EQ in *; exact H.
Qed.
Lemma group_is_image side : 1 <= side -> (side * side) mod (side ^ 2) = 0.
Proof. intros H. rewrite Nat.pow_2_r. apply Nat.mod_same. nia. Qed.
Lemma side_pos image_size patch : 1 <= patch -> patch <= image_size -> 1 <= image_size / patch.
Proof. intros A B. apply Nat.div_le_lower_bound; lia. Qed.
Lemma experts_choose_images v patch nc image_size E last_n f c I (p : vit_params I) images out :
  soft_get_experts_choose v patch nc image_size E last_n f = Ok c -> patch <= image_size -> 1 <= E -> images <> [] ->
  (predict c p image_size images = Ok out <-> Forall2 (fun i o => predict c p image_size [i] = Ok [o]) images out).
Proof.
  unfold soft_get_experts_choose. intros H P HE N. apply bind_ok in H. destruct H as [c0 [H0 H]]. apply bind_ok in H. destruct H as [side [Hs H]].
  apply Ok_inj in H. subst c. apply soft_vit_inv in H0 as [A [B [_ [_ [_ [_ _]]]]]].
  unfold floordiv in Hs. destruct (Nat.eqb_spec patch 0); [discriminate|]. apply Ok_inj in Hs. subst side.
  pose proof (side_pos image_size patch ltac:(lia) P) as S1.
  apply one_image; auto; cbn [with_moe m_patch_size m_encoder ec_moe mc_group_size]; rewrite ?B; try lia; try (now apply group_is_image); rewrite Nat.pow_2_r; nia.
Qed.
Lemma soft_images v patch nc image_size E last_n f slots c I (p : vit_params I) images out :
  soft_get_soft_router v patch nc image_size E last_n f slots = Ok c -> patch <= image_size -> 1 <= E -> images <> [] ->
  let c := with_soft_router_path c in
  (predict c p image_size images = Ok out <-> Forall2 (fun i o => predict c p image_size [i] = Ok [o]) images out).
Proof.
  unfold soft_get_soft_router. intros H P HE N. apply bind_ok in H. destruct H as [c0 [H0 H]]. apply bind_ok in H. destruct H as [side [Hs H]].
  apply Ok_inj in H. subst c. apply soft_vit_inv in H0 as [A [B [_ [_ [_ [_ _]]]]]].
  unfold floordiv in Hs. destruct (Nat.eqb_spec patch 0); [discriminate|]. apply Ok_inj in Hs. subst side.
  pose proof (side_pos image_size patch ltac:(lia) P) as S1.
  apply one_image; auto; cbn [with_soft_router_path with_moe m_patch_size m_encoder ec_moe mc_group_size]; rewrite ?B; try lia; try (now apply group_is_image); rewrite Nat.pow_2_r; nia.
Qed.
Lemma vit_config_images v patch nc image_size c I (p : vit_params I) images out :
  soft_get_vit_config v patch nc = Ok c -> 1 <= patch -> images <> [] ->
  (predict c p image_size images = Ok out <-> Forall2 (fun i o => predict c p image_size [i] = Ok [o]) images out).
Proof.
  intros H P N. apply soft_vit_inv in H as [A [B [_ [C [D [E _]]]]]].
  apply one_image; auto; rewrite ?B, ?D, ?E; auto; try lia. rewrite C. discriminate.
Qed.
(** last_n blocks *)
Lemma slice_last_seq n L i : In i (slice_last n (seq 0 L)) <-> i < L /\ (n = 0 \/ L <= i + n).
Proof.
  destruct (slice_last_skipn n (seq 0 L)) as [k [-> [K0 K1]]]. rewrite skipn_seq, in_seq. rewrite seq_length in K1. cbn.
  destruct n; [rewrite K0 by auto; lia|]. rewrite K1 by lia. lia.
Qed.
Lemma soft_blocks v patch nc image_size E last_n f slots c : soft_get_soft_router v patch nc image_size E last_n f slots = Ok c ->
  (forall i, In i (ec_layers (m_encoder c)) <-> i < ec_num_layers (m_encoder c) /\ (last_n = 0 \/ ec_num_layers (m_encoder c) <= i + last_n)) /\
  ec_layers (m_encoder c) <> [].
Proof.
  unfold soft_get_soft_router. intros H. apply bind_ok in H. destruct H as [c0 [H0 H]]. apply bind_ok in H. destruct H as [side [Hs H]].
  apply Ok_inj in H. subst c. apply soft_vit_inv in H0 as [_ [_ [_ [_ [_ [_ L]]]]]]. cbn [with_moe m_encoder ec_layers ec_num_layers].
  assert (forall i, In i (slice_last last_n (seq 0 (ec_num_layers (m_encoder c0)))) <-> i < ec_num_layers (m_encoder c0) /\ (last_n = 0 \/ ec_num_layers (m_encoder c0) <= i + last_n)) as B
    by (intros i; apply slice_last_seq).
  split; auto. intros Z. assert (In (ec_num_layers (m_encoder c0) - 1) []) as X by (rewrite <- Z; apply B; lia). destruct X.
Qed.
Lemma experts_choose_blocks v patch nc image_size E last_n f c : soft_get_experts_choose v patch nc image_size E last_n f = Ok c ->
  forall i, In i (ec_layers (m_encoder c)) <-> i < ec_num_layers (m_encoder c) /\ (last_n = 0 \/ ec_num_layers (m_encoder c) <= i + last_n).
Proof.
  unfold soft_get_experts_choose. intros H. apply bind_ok in H. destruct H as [c0 [H0 H]]. apply bind_ok in H. destruct H as [side [Hs H]].
  apply Ok_inj in H. subst c. intros i. apply slice_last_seq.
Qed.
Lemma soft_no_router v patch nc image_size E last_n f slots c I (p : vit_params I) size images :
  soft_get_soft_router v patch nc image_size E last_n f slots = Ok c -> predict c p size images = Raise AttributeError.
Proof.
  intros H. destruct (soft_blocks _ _ _ _ _ _ _ _ _ H) as [B N]. unfold predict.
  destruct (ec_layers (m_encoder c)) as [|i r] eqn:EL; [congruence|]. destruct (proj1 (B i) (or_introl eq_refl)) as [Hi _].
  cbn [existsb]. apply Nat.ltb_lt in Hi. rewrite Hi. cbn [orb].
  unfold soft_get_soft_router in H. apply bind_ok in H. destruct H as [c0 [H0 H]]. apply bind_ok in H. destruct H as [side [Hs H]].
  apply Ok_inj in H. subst c. reflexivity.
Qed.

(** ** Mixup options *)
Lemma mem_iff k l : mem k l = true <-> In k l.
Proof.
  unfold mem. rewrite existsb_exists. split.
  - intros [x [H E]]. unfold str_eqb in E. destruct (TreeProofs.str_eqb_spec k x); [now subst|discriminate].
  - intros H. exists k. split; auto. apply TreeProofs.str_eqb_refl.
Qed.
Lemma bind_keywords_ok given names kw : (forall k, In k given -> ~ In k names) ->
  (bind_keywords given names kw = Ok tt <-> incl (map fst kw) names) /\ (bind_keywords given names kw = Raise TypeError <-> ~ incl (map fst kw) names).
Proof.
  intros G. unfold bind_keywords. destruct (existsb _ kw) eqn:E.
  - apply existsb_exists in E as [[k v] [Hk E]]. cbn [fst] in E.
    assert (~ incl (map fst kw) names) as X.
    { intros I. assert (In k names) as Ik by (apply I; apply in_map_iff; exists (k, v); auto). apply orb_prop in E as [E|E].
      - apply mem_iff in E. now apply (G k).
      - apply negb_true_iff in E. apply mem_iff in Ik. congruence. }
    split; split; auto; try discriminate. intros I. now elim X.
  - assert (incl (map fst kw) names) as X.
    { intros k Hk. apply in_map_iff in Hk as [[k' v] [<- Hk]]. cbn [fst]. apply mem_iff.
      destruct (mem k' names) eqn:M; auto. assert (existsb (fun kv => mem (fst kv) given || negb (mem (fst kv) names)) kw = true) as C; [|congruence].
      apply existsb_exists. exists (k', v). split; auto. cbn [fst]. rewrite M. apply orb_true_r. }
    split; split; auto; try discriminate. intros I. now elim I.
Qed.
Lemma mixup_names_sep : forall k, In k (map chars ["train_step_fn"; "partition_spec"]%string) -> ~ In k mixup_names.
Proof.
  intros k [<- |[<- |[]]] H; apply mem_iff in H; vm_compute in H; discriminate.
Qed.
Lemma mixup_errors kw e : setup_mixup (Some kw) = Raise e <-> e = TypeError /\ ~ incl (map fst kw) mixup_names.
Proof.
  assert (setup_mixup (Some kw) = wrap_with_mixup kw) as S by (destruct kw; reflexivity). rewrite S. unfold wrap_with_mixup.
  destruct (bind_keywords_ok _ mixup_names kw mixup_names_sep) as [A B]. fold mixup_names.
  destruct (bind_keywords _ mixup_names kw) as [[]|e'] eqn:E.
  - cbn [bind]. split; [|intros [_ N]; elim N; now apply A].
    destruct (get_or kw (chars "concentration") VNone); try discriminate. destruct (Qeq_bool q 0); discriminate.
  - cbn [bind]. assert (e' = TypeError) as -> by (unfold bind_keywords in E; destruct (existsb _ _); [now injection E as <-|discriminate]).
    split; [intros H; injection H as <-; split; auto; now apply B|intros [-> _]; auto].
Qed.
Lemma attack_losses s nc image_size c w : attack_get_vmoe_config s nc image_size = Ok (c, w) ->
  get_vmoe_config s image_size nc = Ok c /\
  w = if mc_num_experts (ec_moe (m_encoder c)) <=? 2 then (0, 0, 1#100)%Q else (5#1000, 5#1000, 0)%Q.
Proof.
  unfold attack_get_vmoe_config. intros H. apply bind_ok in H. destruct H as [c' [Hc H]]. apply Ok_inj in H. injection H as <- <-. split; auto.
  destruct (Nat.ltb_spec 2 (mc_num_experts (ec_moe (m_encoder c')))), (Nat.leb_spec (mc_num_experts (ec_moe (m_encoder c'))) 2); auto; lia.
Qed.
Lemma router_exists s image_size nc c : get_vmoe_config s image_size nc = Ok c -> create_router (m_router_name c) (mc_router (ec_moe (m_encoder c))) = Ok tt.
Proof.
  rewrite get_vmoe_config_eq. intros H. apply description_ok in H as [d [[[h L] heads] [_ [_ [_ [_ [_ ->]]]]]]]. reflexivity.
Qed.
Lemma ec_router_exists v patch nc image_size E last_n f c : soft_get_experts_choose v patch nc image_size E last_n f = Ok c ->
  create_router (m_router_name c) (mc_router (ec_moe (m_encoder c))) = Ok tt.
Proof.
  unfold soft_get_experts_choose. intros H. apply bind_ok in H. destruct H as [c0 [H0 H]]. apply bind_ok in H. destruct H as [side [Hs H]].
  apply Ok_inj in H. subst c. reflexivity.
Qed.
Lemma pretrain_mixup_error : setup_mixup (Some pretrain_mixup) = Raise TypeError.
Proof. reflexivity. Qed.
Lemma mixup_config_ok aug kw : get_mixup_config aug = Ok kw ->
  exists c, get_mixup_concentration aug = Ok c /\
    setup_mixup (Some kw) = Ok (if Qeq_bool c 0 then None else Some {| mo_concentration := VNum c; mo_granularity := VStr (chars "device"); mo_size := VNum 2 |}).
Proof.
  unfold get_mixup_config. intros H. apply bind_ok in H. destruct H as [c [Hc H]]. apply Ok_inj in H. subst kw. exists c. split; auto.
  change ((if Qeq_bool c 0 then @Ok (option mixup_options) None else Ok (Some {| mo_concentration := VNum c; mo_granularity := VStr (chars "device"); mo_size := VNum 2 |})) =
    Ok (if Qeq_bool c 0 then None else Some {| mo_concentration := VNum c; mo_granularity := VStr (chars "device"); mo_size := VNum 2 |})).
  now destruct (Qeq_bool c 0).
Qed.
