(** Proofs for C95: losses and meshes of attacks. *)
From Coq Require Import String List Arith Bool Reals Lra Lia.
From Verif Require Import MeshModel BldModel.
From Verif Require Import Py NdArray.
Import ListNotations.
Local Open Scope string_scope.
Local Open Scope list_scope.
Local Open Scope nat_scope.

Lemma sum_shift a l : (fold_right Rplus 0 (map (fun x => x + a) l) = fold_right Rplus 0 l + INR (length l) * a)%R.
Proof.
  induction l as [|x l IH]; [cbn; lra|]. cbn [map fold_right length]. rewrite IH, S_INR. lra.
Qed.
Lemma mean_shift a l : l <> [] -> mean (map (fun x => x + a)%R l) = (mean l + a)%R.
Proof.
  intros H. unfold mean. rewrite sum_shift, map_length. assert (0 < INR (length l))%R by (apply lt_0_INR; destruct l; [contradiction|cbn; lia]). field. lra.
Qed.
Lemma objective_with (Lo La : Type) (f : Lo -> La -> list R) x y a : f x y <> [] ->
  attack_objective Lo La f true x y (Some a) = Ok (total_loss Lo La f x y (Some a)).
Proof. intros H. unfold attack_objective, attack_fn, total_loss. cbn [bind]. rewrite mean_shift by exact H. reflexivity. Qed.
Lemma objective_without (Lo La : Type) (f : Lo -> La -> list R) x y aux :
  attack_objective Lo La f false x y aux = Ok (total_loss Lo La f x y None).
Proof. unfold attack_objective, attack_fn, total_loss. cbn [bind]. rewrite Rplus_0_r. reflexivity. Qed.
Lemma mesh_same devices local_devices n : create_mesh devices local_devices n = get_auto_logical_mesh devices local_devices n devices.
Proof.
  unfold create_mesh. destruct (Nat.ltb_spec (length devices) n) as [H|H]; [|reflexivity]. unfold get_auto_logical_mesh.
  destruct devices as [|d ds]; [reflexivity|]. cbv zeta. rewrite !Nat.min_r by lia. reflexivity.
Qed.
Lemma loss_table name r : attack_loss name = Ok r <-> (name = "softmax_xent" /\ r = SoftmaxXent) \/ (name = "sigmoid_xent" /\ r = SigmoidXent).
Proof.
  unfold attack_loss. destruct (String.eqb_spec name "softmax_xent") as [->|H1]; [|destruct (String.eqb_spec name "sigmoid_xent") as [->|H2]].
  - split; [intros F; injection F as <-; auto|intros [[_ ->]|[F _]]; [reflexivity|discriminate]].
  - split; [intros F; injection F as <-; auto|intros [[F _]|[_ ->]]; [discriminate|reflexivity]].
  - split; [discriminate|intros [[F _]|[F _]]; contradiction].
Qed.
Lemma loss_error name e : attack_loss name = Raise e <-> e = ValueError /\ name <> "softmax_xent" /\ name <> "sigmoid_xent".
Proof.
  unfold attack_loss. destruct (String.eqb_spec name "softmax_xent") as [->|H1]; [|destruct (String.eqb_spec name "sigmoid_xent") as [->|H2]].
  - split; [discriminate|intros (_ & F & _); contradiction].
  - split; [discriminate|intros (_ & _ & F); contradiction].
  - split; [intros F; injection F as <-; auto|intros (-> & _); reflexivity].
Qed.
Lemma loss_same name r : attack_loss name = Ok r -> train_loss name = Ok r.
Proof. intros H. apply loss_table in H. destruct H as [[-> ->]|[-> ->]]; reflexivity. Qed.
