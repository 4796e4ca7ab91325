(** Proofs for C96. *)
From Coq Require Import String List Arith Bool Lia Permutation.
From Verif Require Import DataModel DataSpec DataProofs SdsModel SdsSpec.
From Verif Require Import Py.
Import ListNotations.
Local Open Scope list_scope.
Local Open Scope nat_scope.

Lemma rmap_forall2 {T U} (f : T -> res U) l : forall r, rmap f l = Ok r <-> Forall2 (fun x y => f x = Ok y) l r.
Proof.
  induction l as [|x l IH]; intros r; cbn [rmap].
  - split; [intros H; injection H as <-; constructor|intros H; inversion H; reflexivity].
  - split.
    + intros H. destruct (f x) as [y|e] eqn:E; cbn [bind] in H; [|discriminate]. fold (rmap f) in H. destruct (rmap f l) as [ys|e] eqn:E2; cbn [bind] in H; [|discriminate].
      injection H as <-. constructor; [exact E|apply IH; reflexivity].
    + intros H. inversion H as [|? y ? ys H1 H2]; subst. rewrite H1. cbn [bind]. apply IH in H2. fold (rmap f). rewrite H2. reflexivity.
Qed.
Lemma concat_len {A} (k m : nat) (ls : list (list A)) : Forall (fun r => length r * k = m) ls -> length (concat ls) * k = length ls * m.
Proof. induction 1 as [|r ls H _ IH]; cbn [concat length]; [reflexivity|]. rewrite app_length. nia. Qed.
Lemma global_length {A} mesh (xs : list (list A)) g : to_global_array mesh xs = Ok g -> length g = length (nth 0 xs []) * length xs.
Proof.
  unfold to_global_array. intros H. destruct (rmap _ _) as [b|e] eqn:B; cbn [bind] in H; [|discriminate]. destruct (forallb _ _) eqn:F; [|discriminate]. injection H as <-.
  match goal with |- length (concat ?l) = _ => set (rows := l) in * end.
  assert (L : length rows = length mesh) by (unfold rows; rewrite map_length, seq_length; reflexivity).
  assert (C : length (concat rows) * length mesh = length rows * (length (nth 0 xs []) * length xs)).
  { apply concat_len. apply Forall_forall. intros r Hr. rewrite forallb_forall in F. apply Nat.eqb_eq, F, Hr. }
  rewrite L in C. destruct mesh as [|q mesh].
  - destruct xs as [|x xs]; [reflexivity|]. exfalso. cbn [length seq rmap nth] in B. unfold local_devices in B at 1. cbn in B. discriminate.
  - cbn [length] in C. nia.
Qed.

Section Structs.
Context {D Row : Type}.
Variables (number_or_bool : D -> bool) (device_dtype : D -> D) (p : nat).
Implicit Types (s : leaf_spec D) (x : leaf D Row).

Lemma struct_ok m s st : struct_of D p m s = Ok st <-> exists n r, sp_shape D s = Some n :: r /\ st_shape D st = Some (n * p) :: r /\ st_dtype D st = sp_dtype D s /\ st_sharding D st = axis_names m.
Proof.
  unfold struct_of. destruct (sp_shape D s) as [|[n|] r].
  - split; [discriminate|]. intros (n & r & F & _). discriminate.
  - split.
    + intros H. injection H as <-. exists n, r. auto.
    + intros (n' & r' & F & A & B & C). injection F as <- <-. destruct st; cbn in *; subst. reflexivity.
  - split; [discriminate|]. intros (n & r' & F & _). discriminate.
Qed.
Lemma agree_leaf m s x st y : conforms p s x -> sp_ragged D s = false -> number_or_bool (sp_dtype D s) = true ->
  struct_of D p m s = Ok st -> to_global D Row number_or_bool device_dtype p m x = Ok y -> as_declared device_dtype st y.
Proof.
  intros (Hr & Hd & Hx) R B S G. apply struct_ok in S. destruct S as (n & r & S1 & S2 & S3 & S4). unfold to_global in G. rewrite Hr, R, Hd, B in G. cbn [negb] in G.
  destruct (x_rows D Row x) as [xs|]; [|discriminate]. destruct Hx as (L & n' & F & Sh). destruct (to_global_array _ xs) as [g|e] eqn:T; cbn [bind] in G; [|discriminate]. injection G as <-.
  unfold as_declared. rewrite S1 in Sh. inversion Sh as [|? ? ? ? Sh1 Sh2]; subst. cbn in Sh1. subst n'. rewrite S2, S3, S4.
  assert (E : length (nth 0 xs []) * length xs = n * length xs).
  { destruct xs as [|x0 xs']; [cbn; lia|]. inversion F; subst. cbn [nth]. lia. }
  split; [|split; [reflexivity|split; [reflexivity|]]].
  - constructor; [|exact Sh2]. cbn [fits]. symmetry. exact E.
  - exists (x_rest D Row x). f_equal. symmetry. apply global_length in T. exact T.
Qed.
Lemma agree_batch m specs xs sts ys : Forall2 (conforms p) specs xs -> Forall (fun s => sp_ragged D s = false /\ number_or_bool (sp_dtype D s) = true) specs ->
  get_dataset_shape_dtype_struct D p m specs = Ok sts -> batch_to_global D Row number_or_bool device_dtype p m xs = Ok ys ->
  Forall2 (as_declared device_dtype) sts ys.
Proof.
  unfold get_dataset_shape_dtype_struct, batch_to_global. destruct (mesh_empty m); [discriminate|]. rewrite !rmap_forall2. intros C. revert sts ys.
  induction C as [|s x specs xs H C IH]; intros sts ys K A B; inversion A; subst; inversion B; subst; [constructor|]. inversion K as [|? ? [K1 K2] K3]; subst. constructor; [|apply IH; assumption].
  eapply agree_leaf; eassumption.
Qed.
Lemma fits_known sh a b : Forall (fun o => o <> None) sh -> fits_shape sh a -> fits_shape sh b -> a = b.
Proof.
  intros K A. revert b. induction A as [|o n sh a H A IH]; intros b B; inversion B as [|? m ? b' H' B']; subst; [reflexivity|]. inversion K; subst. f_equal; [|apply IH; assumption].
  destruct o as [k|]; [cbn in *; congruence|contradiction].
Qed.
Lemma struct_errors m specs : 
  (mesh_empty m = true -> get_dataset_shape_dtype_struct D p m specs = Raise AssertionError)
  /\ (mesh_empty m = false -> ((exists sts, get_dataset_shape_dtype_struct D p m specs = Ok sts) <-> forall s, In s specs -> exists n r, sp_shape D s = Some n :: r)).
Proof.
  unfold get_dataset_shape_dtype_struct. split; [intros ->; reflexivity|]. intros ->. split.
  - intros (sts & H). apply rmap_forall2 in H. induction H as [|s st specs sts H _ IH]; intros s' [].
    + subst s'. apply struct_ok in H. destruct H as (n & r & H & _). exists n, r. exact H.
    + apply IH; assumption.
  - intros H. induction specs as [|s specs IH]; [exists []; reflexivity|]. destruct IH as (sts & IH); [intros s' Hs'; apply H; right; exact Hs'|]. destruct (H s (or_introl eq_refl)) as (n & r & E).
    assert (S : struct_of D p m s = Ok {| st_shape := Some (n * p) :: r; st_dtype := sp_dtype D s; st_sharding := axis_names m |}) by (unfold struct_of; rewrite E; reflexivity).
    eexists. apply rmap_forall2. constructor; [exact S|]. apply rmap_forall2 in IH. exact IH.
Qed.
Lemma placed_ok m d s x : 0 < d -> 0 < p -> same_devices (device_process m) p d -> conforms p s x -> sp_ragged D s = false -> number_or_bool (sp_dtype D s) = true ->
  forall n r, sp_shape D s = Some n :: r ->
  (n mod d = 0 -> exists y, to_global D Row number_or_bool device_dtype p m x = Ok y)
  /\ (n mod d <> 0 -> to_global D Row number_or_bool device_dtype p m x = Raise ValueError).
Proof.
  intros Hd Hp SD (Hr & Ht & Hx) R B n r Sh. unfold to_global. rewrite Hr, R, Ht, B. cbn [negb]. destruct (x_rows D Row x) as [xs|]; [|congruence].
  destruct Hx as (L & n' & F & Fs). rewrite Sh in Fs. inversion Fs as [|? ? ? ? F1 F2]; subst. cbn in F1. subst n'. split; intros M.
  - destruct (global_all (device_process m) (length xs) d n xs Hd SD eq_refl F M) as (g & G & _). rewrite G. cbn [bind]. eexists. reflexivity.
  - rewrite (global_error (device_process m) (length xs) d xs 0 Hd SD eq_refl Hp); [reflexivity|]. destruct xs as [|x0 xs]; [cbn in Hp; lia|]. cbn [nth]. inversion F; subst. exact M.
Qed.
End Structs.
