From Coq Require Import List Arith Bool.
From Verif Require Import Py.
Import ListNotations.

Lemma bind_ok {T U} (x : res T) (f : T -> res U) y : bind x f = Ok y -> exists a, x = Ok a /\ f a = Ok y.
Proof. destruct x; simpl; intros H; [eauto|discriminate]. Qed.
Lemma Ok_inj {T} (x y : T) : Ok x = Ok y -> x = y.
Proof. congruence. Qed.
Lemma rmap_ok {T U} (f : T -> res U) l l' : rmap f l = Ok l' <-> Forall2 (fun x y => f x = Ok y) l l'.
Proof.
  split.
  - revert l'. induction l as [|x l IH]; simpl; intros l' E. { injection E as <-. constructor. }
    apply bind_ok in E. destruct E as [y [Ey E]]. apply bind_ok in E. destruct E as [ys [Eys E]]. injection E as <-. constructor; auto.
  - induction 1 as [|x y l l' E F IH]; simpl; auto. rewrite E. simpl. fold (rmap f l). rewrite IH. reflexivity.
Qed.
Lemma rmap_ext {T U} (f g : T -> res U) l : (forall x, In x l -> f x = g x) -> rmap f l = rmap g l.
Proof.
  induction l as [|x l IH]; simpl; intros H; auto. rewrite H by auto. fold (rmap f l) (rmap g l). rewrite IH by auto. reflexivity.
Qed.
Lemma rfold_app {S T} (f : S -> T -> res S) l1 l2 s : rfold f (l1 ++ l2) s = bind (rfold f l1 s) (rfold f l2).
Proof. revert s. induction l1 as [|x l IH]; simpl; intros s; auto. destruct (f s x); simpl; auto. Qed.
Lemma Forall2_len {A B} (R : A -> B -> Prop) l l' : Forall2 R l l' -> length l = length l'.
Proof. induction 1; simpl; auto. Qed.
Lemma map_fst_combine {A B} (l : list A) : forall (l' : list B), length l = length l' -> map fst (combine l l') = l.
Proof. induction l as [|a l IH]; intros [|b l']; simpl; intros E; try discriminate; auto. rewrite IH; auto. Qed.
Lemma map_snd_combine {A B} (l : list A) : forall (l' : list B), length l = length l' -> map snd (combine l l') = l'.
Proof. induction l as [|a l IH]; intros [|b l']; simpl; intros E; try discriminate; auto. rewrite IH; auto. Qed.
Lemma rmap_total {T U} (f : T -> res U) l : (forall x, In x l -> exists y, f x = Ok y) -> exists l', rmap f l = Ok l'.
Proof.
  intros H. assert (G : exists l', Forall2 (fun x y => f x = Ok y) l l').
  { induction l as [|x l IH]; [exists []; constructor|]. destruct (H x (or_introl eq_refl)) as [y E].
    destruct IH as [l' F]; [intros; apply H; simpl; auto|]. exists (y :: l'). constructor; auto. }
  destruct G as [l' G]. exists l'. apply rmap_ok. exact G.
Qed.
