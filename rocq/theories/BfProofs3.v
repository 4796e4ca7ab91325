(** Examples and counterexamples for C83. *)
From Coq Require Import List Arith ZArith Bool Reals Lia Lra FunctionalExtensionality.
From Verif Require Import Prim MoeModel MoeSpec SoftModel CwModel BfModel BfSpec BfProofs BfProofs2.
Import ListNotations.
Local Open Scope nat_scope.

Lemma cast_from x e n : (powerRZ 2 e <= Rabs x < powerRZ 2 (e + 1))%R -> (-126 <= e)%Z -> rne (x / powerRZ 2 (e - 7)) = n -> cast x = (IZR n * powerRZ 2 (e - 7))%R.
Proof.
  intros H E N. assert (x <> 0%R). { intros ->. rewrite Rabs_R0 in H. pose proof (pw_pos e). lra. }
  rewrite cast_eq by auto. unfold ulp. rewrite (expo_unique x e H), Z.max_l by lia. rewrite N. reflexivity.
Qed.
Lemma pw8 : powerRZ 2 8 = 256%R. Proof. rewrite pw_Z by lia. reflexivity. Qed.
Lemma pw9 : powerRZ 2 9 = 512%R. Proof. rewrite pw_Z by lia. reflexivity. Qed.
Lemma pw1 : powerRZ 2 1 = 2%R. Proof. rewrite pw_Z by lia. reflexivity. Qed.
Lemma rne_of y i : (IZR i <= y < IZR i + 1)%R -> rne y = if Rlt_dec (y - IZR i) (1 / 2) then i else if Rlt_dec (1 / 2) (y - IZR i) then (i + 1)%Z else if Z.even i then i else (i + 1)%Z.
Proof. intros H. unfold rne, frac_part. rewrite (ip_unique y i H). reflexivity. Qed.
Lemma cast_257 : cast 257 = 256%R.
Proof.
  rewrite (cast_from 257 8 128); try lia; change (8 + 1)%Z with 9%Z; change (8 - 7)%Z with 1%Z; rewrite ?pw8, ?pw9, ?pw1.
  - lra.
  - rewrite Rabs_right; lra.
  - rewrite (rne_of _ 128) by lra. destruct (Rlt_dec _ _); [lra|]. destruct (Rlt_dec _ _); [lra|]. reflexivity.
Qed.
Lemma cast_259 : cast 259 = 260%R.
Proof.
  rewrite (cast_from 259 8 130); try lia; change (8 + 1)%Z with 9%Z; change (8 - 7)%Z with 1%Z; rewrite ?pw8, ?pw9, ?pw1.
  - lra.
  - rewrite Rabs_right; lra.
  - rewrite (rne_of _ 129) by lra. destruct (Rlt_dec _ _); [lra|]. destruct (Rlt_dec _ _); [lra|]. reflexivity.
Qed.

(** One item, one expert, one slot, with weight w *)
Definition one (w : R) : dispatcher Ralg := DEinsum 1 1 1 1 (@Build_einsum_dispatcher Ralg (fun _ _ _ _ => w) (Some (fun _ _ _ _ => 1%R))).
Lemma one_layer w tin tout F data : (forall b j i, F 0 b j i = b j i) -> moe_layer (one w) tin tout F data 0 0 0 = (w * data 0%nat 0%nat 0%nat)%R.
Proof.
  intros H. unfold moe_layer, sparse_moe, one. cbn [do_dispatch do_combine]. unfold einsum_do_combine, einsum_do_dispatch, receive_a2a, dispatch_a2a. unfold ravel4, ravel3, ravel2, unravel4, unravel3, unravel2, swap02. cbn. rewrite H. cbn. ring.
Qed.
