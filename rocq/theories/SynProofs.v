(** CRC32. *)
From Coq Require Import List Arith NArith Bool Lia.
From Verif Require Import BaseModel Py SynModel SynSpec.
Import ListNotations.
Local Open Scope N_scope.

Lemma crc_bit_xor a b : crc_bit (N.lxor a b) = N.lxor (crc_bit a) (crc_bit b).
Proof.
  unfold crc_bit. rewrite <- !N.bit0_odd, N.lxor_spec, N.shiftr_lxor.
  destruct (N.testbit a 0), (N.testbit b 0); simpl xorb; cbv iota.
  - rewrite N.lxor_assoc. rewrite (N.lxor_comm poly). rewrite !N.lxor_assoc. rewrite N.lxor_nilpotent, N.lxor_0_r. reflexivity.
  - rewrite !N.lxor_assoc. f_equal. apply N.lxor_comm.
  - rewrite !N.lxor_assoc. reflexivity.
  - reflexivity.
Qed.
Lemma iter_xor n : forall a b, iter n crc_bit (N.lxor a b) = N.lxor (iter n crc_bit a) (iter n crc_bit b).
Proof. induction n; intros a b; simpl; [reflexivity|]. rewrite crc_bit_xor. apply IHn. Qed.
Lemma iter_add {T} (f : T -> T) n : forall m x, iter (n + m) f x = iter m f (iter n f x).
Proof. induction n; intros m x; simpl; [reflexivity|]. apply IHn. Qed.

Lemma crc_bit_double x : crc_bit (2 * x) = x.
Proof.
  unfold crc_bit. rewrite <- N.bit0_odd, N.testbit_even_0. rewrite <- N.div2_spec. rewrite N.div2_div, N.mul_comm, N.div_mul; [reflexivity|lia].
Qed.
Lemma iter8_shift y : iter 8 crc_bit (y * 256) = y.
Proof.
  replace (y * 256) with (2 * (2 * (2 * (2 * (2 * (2 * (2 * (2 * y)))))))) by lia.
  cbn [iter]. rewrite !crc_bit_double. reflexivity.
Qed.

Lemma lt_pow_log a n : a < 2 ^ n -> forall m, n <= m -> N.testbit a m = false.
Proof.
  intros H m Hm. destruct (N.eq_dec a 0) as [->|Z]; [apply N.bits_0|]. apply N.bits_above_log2.
  apply N.log2_lt_pow2; [lia|]. eapply N.lt_le_trans; [exact H|]. apply N.pow_le_mono_r; lia.
Qed.
Lemma bits_lt a n : (forall m, n <= m -> N.testbit a m = false) -> a < 2 ^ n.
Proof.
  intros H. destruct (N.eq_dec a 0) as [->|Z]; [apply N.neq_0_lt_0, N.pow_nonzero; lia|].
  apply N.log2_lt_pow2; [lia|]. destruct (N.lt_ge_cases (N.log2 a) n) as [|G]; [assumption|].
  specialize (H _ G). rewrite N.bit_log2 in H by assumption. discriminate.
Qed.
Lemma lxor_lt a b n : a < 2 ^ n -> b < 2 ^ n -> N.lxor a b < 2 ^ n.
Proof.
  intros A B. apply bits_lt. intros m Hm. rewrite N.lxor_spec, (lt_pow_log a n A m Hm), (lt_pow_log b n B m Hm). reflexivity.
Qed.
Lemma shiftr_lt a n : a < 2 ^ (n + 1) -> N.shiftr a 1 < 2 ^ n.
Proof.
  intros A. apply bits_lt. intros m Hm. rewrite N.shiftr_spec by lia. apply (lt_pow_log a (n + 1) A). lia.
Qed.

Definition word32 (c : N) : Prop := c < 2 ^ 32.
Lemma poly_word : word32 poly. Proof. unfold word32. vm_compute. reflexivity. Qed.
Lemma crc_bit_word c : word32 c -> word32 (crc_bit c).
Proof.
  intros C. assert (S : N.shiftr c 1 < 2 ^ 31) by (apply shiftr_lt; exact C).
  assert (S' : word32 (N.shiftr c 1)) by (unfold word32; eapply N.lt_trans; [exact S|reflexivity]).
  unfold crc_bit. destruct (N.odd c); [|exact S']. apply lxor_lt; [exact S'|exact poly_word].
Qed.
Lemma iter_word n : forall c, word32 c -> word32 (iter n crc_bit c).
Proof. induction n; intros c C; simpl; [exact C|]. apply IHn. apply crc_bit_word. exact C. Qed.
Lemma crc_bit_zero c : word32 c -> crc_bit c = 0 -> c = 0.
Proof.
  intros C E. assert (S : N.shiftr c 1 < 2 ^ 31) by (apply shiftr_lt; exact C).
  unfold crc_bit in E. destruct (N.odd c) eqn:O.
  - apply N.lxor_eq in E. rewrite E in S. exfalso. revert S. vm_compute. discriminate.
  - rewrite <- N.div2_spec in E. rewrite (N.div2_odd c), E, O. reflexivity.
Qed.
Lemma iter_zero n : forall c, word32 c -> iter n crc_bit c = 0 -> c = 0.
Proof.
  induction n; intros c C E; simpl in E; [exact E|]. apply crc_bit_zero; [exact C|]. apply IHn; [|exact E].
  apply crc_bit_word. exact C.
Qed.
Lemma iter_inj n a b : word32 a -> word32 b -> iter n crc_bit a = iter n crc_bit b -> a = b.
Proof.
  intros A B E. apply N.lxor_eq. apply (iter_zero n); [apply lxor_lt; assumption|].
  rewrite iter_xor, E. apply N.lxor_nilpotent.
Qed.

Lemma byte_word b : b < 256 -> word32 b.
Proof. intros H. unfold word32. eapply N.lt_trans; [exact H|reflexivity]. Qed.
Lemma crc_byte_word c b : word32 c -> b < 256 -> word32 (crc_byte c b).
Proof. intros C B. apply iter_word. apply lxor_lt; [exact C|apply byte_word; exact B]. Qed.
Lemma fold_word s : forall c, bytes s -> word32 c -> word32 (fold_left crc_byte s c).
Proof.
  induction s as [|b s IH]; intros c F C; [exact C|]. inversion F; subst. apply IH; [assumption|].
  apply crc_byte_word; assumption.
Qed.
Lemma lxor_cancel_l c a b : N.lxor c a = N.lxor c b -> a = b.
Proof.
  intros E. assert (E' : N.lxor c (N.lxor c a) = N.lxor c (N.lxor c b)) by (rewrite E; reflexivity).
  rewrite <- !N.lxor_assoc, N.lxor_nilpotent, !N.lxor_0_l in E'. exact E'.
Qed.
Lemma lxor_cancel_r c a b : N.lxor a c = N.lxor b c -> a = b.
Proof. rewrite (N.lxor_comm a), (N.lxor_comm b). apply lxor_cancel_l. Qed.

Lemma fold_inj s : forall a b, bytes s -> word32 a -> word32 b -> fold_left crc_byte s a = fold_left crc_byte s b -> a = b.
Proof.
  induction s as [|x s IH]; intros a b F A B E; [exact E|]. inversion F as [|? ? X F']; subst. cbn [fold_left] in E.
  apply IH in E; [|assumption|apply crc_byte_word; assumption|apply crc_byte_word; assumption].
  unfold crc_byte in E. apply iter_inj in E; [|apply lxor_lt; [assumption|apply byte_word; assumption]|apply lxor_lt; [assumption|apply byte_word; assumption]].
  exact (lxor_cancel_r _ _ _ E).
Qed.

(** The bytes as a number, the first byte lowest. *)
Fixpoint word_of (s : list N) : N := match s with [] => 0 | b :: s => N.lxor b (word_of s * 256) end.
Lemma fold_word_of s : forall c, fold_left crc_byte s c = iter (8 * length s) crc_bit (N.lxor c (word_of s)).
Proof.
  induction s as [|b s IH]; intros c.
  - cbn [fold_left word_of length Nat.mul iter]. rewrite N.lxor_0_r. reflexivity.
  - cbn [fold_left word_of length]. rewrite IH. replace (8 * S (length s))%nat with (8 + 8 * length s)%nat by lia.
    rewrite iter_add. f_equal. rewrite <- N.lxor_assoc, iter_xor, iter8_shift. reflexivity.
Qed.
Lemma low_byte b y : b < 256 -> N.lxor b (y * 256) mod 256 = b /\ N.lxor b (y * 256) / 256 = y.
Proof.
  intros B. change 256 with (2 ^ 8). rewrite <- N.land_ones, <- N.shiftr_div_pow2. split.
  - apply N.bits_inj. intros m. rewrite N.land_spec, N.lxor_spec. destruct (N.lt_ge_cases m 8) as [L|G].
    + rewrite N.ones_spec_low by exact L. rewrite N.mul_pow2_bits_low by exact L. rewrite xorb_false_r, andb_true_r. reflexivity.
    + rewrite N.ones_spec_high by exact G. rewrite andb_false_r. symmetry. apply (lt_pow_log b 8 B). exact G.
  - apply N.bits_inj. intros m. rewrite N.shiftr_spec by lia. rewrite N.lxor_spec, N.mul_pow2_bits_add.
    rewrite (lt_pow_log b 8 B) by lia. apply xorb_false_l.
Qed.
Lemma word_of_inj s : forall t, bytes s -> bytes t -> length s = length t -> word_of s = word_of t -> s = t.
Proof.
  induction s as [|a s IH]; intros [|b t] S T L E; try discriminate; [reflexivity|].
  inversion S; inversion T; subst. cbn [word_of] in E.
  destruct (low_byte a (word_of s)) as [A A']; [assumption|]. destruct (low_byte b (word_of t)) as [B B']; [assumption|].
  f_equal; [congruence|]. apply IH; try assumption; [simpl in L; lia|congruence].
Qed.
Lemma word_of_lt s : bytes s -> word_of s < 2 ^ (8 * N.of_nat (length s)).
Proof.
  induction 1 as [|b s B _ IH]; [reflexivity|]. cbn [word_of length].
  replace (8 * N.of_nat (S (length s))) with (8 * N.of_nat (length s) + 8) by lia.
  apply lxor_lt.
  - eapply N.lt_le_trans; [exact B|]. change 256 with (2 ^ 8). apply N.pow_le_mono_r; lia.
  - rewrite N.pow_add_r. change (2 ^ 8) with 256. apply N.mul_lt_mono_pos_r; [lia|exact IH].
Qed.

Lemma burst p u v s :
  bytes p -> bytes u -> bytes v -> bytes s -> length u = length v -> (length u <= 4)%nat ->
  crc32 (p ++ u ++ s) = crc32 (p ++ v ++ s) -> u = v.
Proof.
  intros BP BU BV BS L L4 E. unfold crc32 in E. apply lxor_cancel_r in E. rewrite !fold_left_app in E.
  assert (C : word32 (fold_left crc_byte p ones32)) by (apply fold_word; [exact BP|reflexivity]).
  set (c := fold_left crc_byte p ones32) in *. clearbody c.
  apply fold_inj in E; [|exact BS|apply fold_word; assumption|apply fold_word; assumption].
  rewrite !fold_word_of, L in E.
  assert (W : forall x, bytes x -> (length x <= 4)%nat -> word32 (word_of x)).
  { intros x X X4. unfold word32. eapply N.lt_le_trans; [apply word_of_lt; exact X|]. apply N.pow_le_mono_r; lia. }
  apply iter_inj in E; [|apply lxor_lt; [exact C|apply W; assumption]|apply lxor_lt; [exact C|apply W; [assumption|rewrite <- L; assumption]]].
  apply lxor_cancel_l in E. apply word_of_inj; assumption.
Qed.
Lemma crc32_word s : bytes s -> word32 (crc32 s).
Proof. intros B. apply lxor_lt; [apply fold_word; [exact B|reflexivity]|reflexivity]. Qed.
