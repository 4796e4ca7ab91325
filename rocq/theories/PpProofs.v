(** Proofs for C49, C56 and C57. *)
From Coq Require Import String List Arith ZArith Bool Reals QArith Qround Ascii Lia Lra Permutation.
From Coq Require Lqa.
From Verif Require Import NdArray PyLemmas PpModel PpSpec.
From Verif Require Import Py.
Import ListNotations.
Local Open Scope list_scope.
Local Open Scope nat_scope.

(** ** Dictionaries *)
Lemma dget_set_same d k v : dget String.eqb (set d k v) k = Some v.
Proof.
  unfold set. induction d as [|[k' v'] d IH]; simpl; [rewrite String.eqb_refl; auto|]. destruct (String.eqb k' k) eqn:E; simpl; rewrite E; auto.
Qed.
Lemma dget_set_other d k k' v : k <> k' -> dget String.eqb (set d k v) k' = dget String.eqb d k'.
Proof.
  unfold set. intros N. induction d as [|[a b] d IH]; simpl.
  - destruct (String.eqb_spec k k'); congruence.
  - destruct (String.eqb_spec a k) as [->|]; simpl; destruct (String.eqb_spec k k'); try congruence; destruct (String.eqb a k'); auto.
Qed.
Lemma dget_filter {V} (d : list (string * V)) f k : dget String.eqb (filter (fun kv => f (fst kv)) d) k = if f k then dget String.eqb d k else None.
Proof.
  induction d as [|[a b] d IH]; simpl; [destruct (f k); auto|]. destruct (String.eqb_spec a k) as [->|N].
  - destruct (f k) eqn:F; simpl; [rewrite String.eqb_refl; auto|auto].
  - destruct (f a); simpl; rewrite ?IH; destruct (f k); auto; destruct (String.eqb_spec a k); congruence.
Qed.
Lemma has_get d k v : has d k v -> get d k = Ok v.
Proof. unfold has, get. intros ->. auto. Qed.

(** ** Splitting *)
Lemma split_ne s : split_bar s <> [].
Proof. destruct s as [|c s]; [discriminate|]. cbn [split_bar]. destruct (Ascii.eqb c "|"); [discriminate|]. destruct (split_bar s); discriminate. Qed.
Lemma split_app a b : split_bar (a ++ "|" ++ b)%string = split_bar a ++ split_bar b.
Proof.
  change ("|" ++ b)%string with (String "|" b). induction a as [|c a IH]; [reflexivity|]. cbn [String.append split_bar]. destruct (Ascii.eqb c "|"); [rewrite IH; auto|].
  rewrite IH. assert (N := split_ne a). destruct (split_bar a) as [|p r]; [contradiction|reflexivity].
Qed.
Lemma split_one s : (forall n, String.get n s <> Some "|"%char) -> split_bar s = [s].
Proof.
  induction s as [|c s IH]; intros H; [reflexivity|]. cbn [split_bar]. destruct (Ascii.eqb_spec c "|") as [->|N].
  - exfalso. apply (H 0). reflexivity.
  - rewrite IH; [reflexivity|]. intros n. exact (H (S n)).
Qed.
Lemma rmap_app {T U} (f : T -> res U) a b : rmap f (a ++ b) = bind (rmap f a) (fun x => bind (rmap f b) (fun y => Ok (x ++ y))).
Proof.
  induction a as [|t a IH]; cbn [app]; [simpl; destruct (rmap f b); reflexivity|]. change (rmap f (t :: (a ++ b))) with (bind (f t) (fun y => bind (rmap f (a ++ b)) (fun ys => Ok (y :: ys)))).
  change (rmap f (t :: a)) with (bind (f t) (fun y => bind (rmap f a) (fun ys => Ok (y :: ys)))). rewrite IH. destruct (f t); [|reflexivity]. cbn [bind]. destruct (rmap f a); [|reflexivity]. cbn [bind]. destruct (rmap f b); reflexivity.
Qed.
Lemma rfold_app {S0 T} (f : S0 -> T -> res S0) a b : forall s, rfold f (a ++ b) s = bind (rfold f a s) (rfold f b).
Proof. induction a as [|t a IH]; intros s; [reflexivity|]. cbn [app rfold]. destruct (f s t); cbn [bind]; auto. Qed.

Section Process.
Variables Mod Obj : Type.
Variable parse : string -> res expr.
Variable literal_eval : expr -> res lit.
Variable import_module : string -> res Mod.
Variable getattr : Mod -> string -> res Obj.
Variable call : Obj -> list lit -> list (string * lit) -> res op.
Variable pp_ops : Mod.
Let get_fn := get_data_process_fn Mod Obj parse literal_eval import_module getattr call pp_ops.
Let ops_of := make_ops Mod Obj parse literal_eval import_module getattr call pp_ops.
Lemma ops_app a b : ops_of (a ++ "|" ++ b)%string = bind (ops_of a) (fun x => bind (ops_of b) (fun y => Ok (x ++ y))).
Proof. unfold ops_of, make_ops. rewrite split_app. apply rmap_app. Qed.
Lemma pipe_ok a b fa fb : get_fn a = Ok fa -> get_fn b = Ok fb ->
  exists f, get_fn (a ++ "|" ++ b)%string = Ok f /\ forall h r, f h (Some r) = bind (fa h (Some r)) (fun st => fb (fst st) (Some (snd st))).
Proof.
  unfold get_fn, get_data_process_fn. fold (ops_of a) (ops_of b). change (make_ops Mod Obj parse literal_eval import_module getattr call pp_ops (a ++ "|" ++ b)) with (ops_of (a ++ "|" ++ b)%string).
  rewrite ops_app. change (make_ops Mod Obj parse literal_eval import_module getattr call pp_ops a) with (ops_of a). change (make_ops Mod Obj parse literal_eval import_module getattr call pp_ops b) with (ops_of b).
  destruct (ops_of a) as [x|]; [|discriminate]. destruct (ops_of b) as [y|]; [|discriminate]. cbn [bind]. intros E1 E2. apply Ok_inj in E1, E2. subst. eexists. split; [reflexivity|].
  intros h r. unfold compose_fns. rewrite rfold_app. destruct (rfold _ x (h, r)) as [[h' r']|]; reflexivity.
Qed.
Lemma pipe_error a b e : get_fn a = Raise e \/ (exists f, get_fn a = Ok f) /\ get_fn b = Raise e -> get_fn (a ++ "|" ++ b)%string = Raise e.
Proof.
  unfold get_fn, get_data_process_fn. change (make_ops Mod Obj parse literal_eval import_module getattr call pp_ops (a ++ "|" ++ b)) with (ops_of (a ++ "|" ++ b)%string). rewrite ops_app.
  change (make_ops Mod Obj parse literal_eval import_module getattr call pp_ops a) with (ops_of a). change (make_ops Mod Obj parse literal_eval import_module getattr call pp_ops b) with (ops_of b).
  destruct (ops_of a) as [x|e1]; cbn [bind].
  - intros [H|[_ H]]; [discriminate|]. destruct (ops_of b); [discriminate|]. exact H.
  - intros [H|[[f H] _]]; [exact H|discriminate].
Qed.
Lemma not_dict s f h : get_fn s = Ok f -> f h None = Raise TypeError.
Proof. unfold get_fn, get_data_process_fn. destruct (make_ops _ _ _ _ _ _ _ _ s); [|discriminate]. cbn [bind]. intros E. apply Ok_inj in E. subst. reflexivity. Qed.
End Process.

(** ** Effects *)
Lemma update_same h : forall r d, r < length h -> nth_error (update h r d) r = Some d.
Proof. induction h as [|x h IH]; intros [|r] d H; simpl in *; try lia; auto. apply IH. lia. Qed.
Lemma update_other h : forall r r' d, r <> r' -> nth_error (update h r d) r' = nth_error h r'.
Proof. induction h as [|x h IH]; intros [|r] [|r'] d H; simpl; auto; try congruence. Qed.
Lemma update_length h : forall r d, length (update h r d) = length h.
Proof. induction h as [|x h IH]; intros [|r] d; simpl; auto. Qed.
Lemma in_order_cons o ops d : in_order (o :: ops) d = bind (effect o d) (in_order ops).
Proof.
  unfold in_order. cbn [fold_left bind]. destruct (effect o d) as [d'|e]; [reflexivity|]. cbn [bind].
  assert (K : forall ops, fold_left (fun r o => bind r (effect o)) ops (Raise e) = (Raise e : res dict)) by (induction ops0; auto). apply K.
Qed.
Lemma in_order_app a b d : in_order (a ++ b) d = bind (in_order a d) (in_order b).
Proof. revert d. induction a as [|o a IH]; intros d; [reflexivity|]. cbn [app]. rewrite !in_order_cons. destruct (effect o d); cbn [bind]; auto. Qed.
Lemma run_op_ok o (h : heap) r d : nth_error h r = Some d ->
  match effect o d with
  | Ok d' => exists h' r', run_op o (h, r) = Ok (h', r') /\ nth_error h' r' = Some d' /\ length h <= length h' /\
               (in_place o -> r' = r) /\ (~ in_place o -> r' = length h) /\
               forall i, i < length h -> (in_place o -> i <> r) -> nth_error h' i = nth_error h i
  | Raise e => run_op o (h, r) = Raise e
  end.
Proof.
  intros H. assert (L : r < length h) by (apply nth_error_Some; congruence). unfold run_op. rewrite H. destruct o as [f|f]; cbn [effect]; destruct (f d) as [d'|e]; cbn [bind]; auto.
  - eexists _, _. split; [reflexivity|]. split; [apply update_same; auto|]. rewrite update_length. split; [lia|]. split; [auto|]. split; [simpl; tauto|]. intros i Hi N. apply update_other. intros ->. apply N; simpl; auto.
  - eexists _, _. split; [reflexivity|]. split; [rewrite nth_error_app2, Nat.sub_diag by lia; reflexivity|]. rewrite app_length. split; [simpl; lia|]. split; [simpl; tauto|]. split; [auto|]. intros i Hi _. apply nth_error_app1; auto.
Qed.
Lemma compose_ok ops : forall (h : heap) r d, nth_error h r = Some d ->
  match in_order ops d with
  | Ok d' => exists h' r', compose_fns ops h (Some r) = Ok (h', r') /\ nth_error h' r' = Some d' /\ length h <= length h' /\ forall i, i < length h -> i <> r -> nth_error h' i = nth_error h i
  | Raise e => compose_fns ops h (Some r) = Raise e
  end.
Proof.
  unfold compose_fns. induction ops as [|o ops IH]; intros h r d H.
  - cbn. exists h, r. auto.
  - rewrite in_order_cons. cbn [rfold]. assert (R := run_op_ok o h r d H). destruct (effect o d) as [d1|e]; cbn [bind]; [|cbv beta; rewrite R; reflexivity].
    cbv beta; destruct R as (h1 & r1 & -> & H1 & L1 & P1 & P2 & Q1). cbn [bind]. specialize (IH h1 r1 d1 H1). destruct (in_order ops d1) as [d'|e]; [|exact IH].
    destruct IH as (h' & r' & -> & H' & L' & Q'). exists h', r'. split; [reflexivity|]. split; [exact H'|]. split; [lia|]. intros i Hi N.
    rewrite Q'; [apply Q1; auto|lia|]. intros ->. destruct o; simpl in *; [apply N; auto|assert (X := P2 ltac:(auto)); lia].
Qed.
Lemma caller_changed ops (h : heap) r d d' : nth_error h r = Some d -> Forall in_place ops -> in_order ops d = Ok d' ->
  exists h', compose_fns ops h (Some r) = Ok (h', r) /\ nth_error h' r = Some d'.
Proof.
  unfold compose_fns. revert h d. induction ops as [|o ops IH]; intros h d H F E.
  - cbn in *. apply Ok_inj in E. subst. exists h. auto.
  - inversion F as [|? ? F1 F2]. subst. rewrite in_order_cons in E. cbn [rfold]. assert (R := run_op_ok o h r d H). destruct (effect o d) as [d1|e]; [|discriminate]. cbn [bind] in E.
    destruct R as (h1 & r1 & -> & H1 & L1 & P1 & P2 & Q1). cbn [bind]. rewrite (P1 F1) in *. apply (IH h1 d1); auto.
Qed.
Lemma caller_kept ops o rest (h : heap) r d d1 d' : nth_error h r = Some d -> Forall in_place ops -> ~ in_place o -> in_order ops d = Ok d1 -> in_order (o :: rest) d1 = Ok d' ->
  exists h' r', compose_fns (ops ++ o :: rest) h (Some r) = Ok (h', r') /\ r' <> r /\ nth_error h' r' = Some d' /\ nth_error h' r = Some d1.
Proof.
  intros H F N E1 E2. destruct (caller_changed ops h r d d1 H F E1) as (h1 & C1 & H1).
  assert (L1 : r < length h1) by (apply nth_error_Some; congruence).
  rewrite in_order_cons in E2. assert (R := run_op_ok o h1 r d1 H1). destruct (effect o d1) as [d2|e]; [|discriminate]. cbn [bind] in E2.
  destruct R as (h2 & r2 & C2 & H2 & L2 & _ & P2 & Q2). specialize (P2 N).
  assert (R := compose_ok rest h2 r2 d2 H2). rewrite E2 in R. destruct R as (h3 & r3 & C3 & H3 & L3 & Q3).
  unfold compose_fns in *. rewrite rfold_app. rewrite C1. cbn [bind rfold]. rewrite C2. cbn [bind]. exists h3, r3. split; [exact C3|].
  assert (K : nth_error h3 r = Some d1) by (rewrite Q3 by lia; rewrite Q2 by (auto; intros I; contradiction); auto).
  assert (INV : forall ops st st', rfold (fun st f => run_op f st) ops st = Ok st' -> snd st <> r -> r < length (fst st) -> snd st' <> r).
  { clear. induction ops as [|o ops IH]; intros [h q] st' E Nq L; [cbn in E; apply Ok_inj in E; subst; auto|]. cbn [rfold] in E. destruct (run_op o (h, q)) as [[h1 q1]|] eqn:EO; [|discriminate]. cbn [bind] in E.
    assert (D : exists dd, nth_error h q = Some dd) by (unfold run_op in EO; destruct (nth_error h q); [eauto|discriminate]). destruct D as (dd & D). assert (R := run_op_ok o h q dd D). destruct (effect o dd); [|congruence]. destruct R as (h' & q' & R1 & _ & R2 & R3 & R4 & _). rewrite R1 in EO. apply Ok_inj in EO. injection EO as <- <-.
    apply (IH _ _ E); cbn [fst snd] in *; [|lia]. destruct o; [rewrite R3; simpl; auto|rewrite R4; [lia|simpl; auto]]. }
  split; [|auto]. apply (INV rest (h2, r2) (h3, r3) C3); cbn [fst snd]; lia.
Qed.

(** ** Keys *)
Lemma key_or_ok key inkey outkey i o : keys_of key inkey outkey i o -> key_or key inkey = i /\ key_or key outkey = o.
Proof.
  intros [(k & -> & N & -> & ->)|([->| ->] & -> & ->)]; cbn [key_or]; auto. destruct (String.eqb_spec k ""); [contradiction|auto].
Qed.
Lemma key_or_keys key inkey outkey : keys_of key inkey outkey (key_or key inkey) (key_or key outkey).
Proof.
  destruct key as [k|]; cbn [key_or]; [|right; auto]. destruct (String.eqb_spec k "") as [->|N]; [right; auto|left; exists k; auto].
Qed.
Lemma ikok_ok key inkey outkey f d i o : keys_of key inkey outkey i o ->
  match dget String.eqb d i with
  | None => effect (ikok key inkey outkey f) d = Raise KeyError
  | Some v => match f v with
              | Raise e => effect (ikok key inkey outkey f) d = Raise e
              | Ok v' => exists d', effect (ikok key inkey outkey f) d = Ok d' /\ has d' o v' /\ forall k, k <> o -> same_at d d' k
              end
  end.
Proof.
  intros H. destruct (key_or_ok _ _ _ _ _ H) as [E1 E2].
  cbn [ikok effect]. unfold get. rewrite E1, E2. destruct (dget String.eqb d i) as [v|]; [|reflexivity]. cbn [bind]. destruct (f v) as [v'|e]; [|reflexivity]. cbn [bind].
  eexists. split; [reflexivity|]. split; [apply dget_set_same|]. intros k N. apply dget_set_other. auto.
Qed.
Lemma copy_ok i o d :
  match dget String.eqb d i with
  | None => effect (copy i o) d = Raise KeyError
  | Some v => exists d', effect (copy i o) d = Ok d' /\ has d' o v /\ forall k, k <> o -> same_at d d' k
  end.
Proof.
  cbn [copy effect]. unfold get. destruct (dget String.eqb d i) as [v|]; [|reflexivity]. cbn [bind].
  eexists. split; [reflexivity|]. split; [apply dget_set_same|]. intros k N. apply dget_set_other. auto.
Qed.
Lemma keep_ok keys d : exists d', effect (keep keys) d = Ok d' /\
  (forall k, List.In k keys \/ k = valid_key -> same_at d d' k) /\ (forall k, ~ List.In k keys -> k <> valid_key -> dget String.eqb d' k = None).
Proof.
  cbn [keep effect]. eexists. split; [reflexivity|].
  assert (E : forall k, existsb (String.eqb k) (keys ++ [valid_key]) = true <-> List.In k keys \/ k = valid_key).
  { intros k. rewrite existsb_exists. split.
    - intros (x & I & Q). apply String.eqb_eq in Q. subst x. apply in_app_or in I. destruct I as [I|[I|[]]]; auto.
    - intros H. exists k. rewrite String.eqb_refl. split; auto. apply in_or_app. destruct H as [H| ->]; simpl; auto. }
  unfold same_at. split; intros k; rewrite (dget_filter d (fun k => existsb (String.eqb k) (keys ++ [valid_key]))).
  - intros H. apply E in H. rewrite H. reflexivity.
  - intros N1 N2. destruct (existsb _ _) eqn:Q; [|reflexivity]. apply E in Q. tauto.
Qed.
Lemma ignore_ok lk vk d labels valid : has d lk labels ->
  (has d vk (VBool valid) \/ dget String.eqb d vk = None /\ valid = true) ->
  exists d', effect (ignore_no_labels lk vk) d = Ok d' /\ has d' vk (VBool (valid && (0 <? size labels))) /\ forall k, k <> vk -> same_at d d' k.
Proof.
  intros HL HV. cbn [ignore_no_labels effect]. rewrite (has_get _ _ _ HL).
  replace (match dget String.eqb d vk with Some v => as_bool v | None => Ok true end) with (Ok valid : res bool).
  - cbn [bind]. eexists. split; [reflexivity|]. split; [apply dget_set_same|]. intros k N. apply dget_set_other. auto.
  - destruct HV as [HV|[HV ->]]; [unfold has in HV|]; rewrite HV; reflexivity.
Qed.
Lemma preserve_ok k ops d d' : Forall (preserves k) ops -> in_order ops d = Ok d' -> same_at d d' k.
Proof.
  revert d. induction ops as [|o ops IH]; intros d F E; [cbn in E; apply Ok_inj in E; subst; reflexivity|]. inversion F as [|? ? F1 F2]. subst. rewrite in_order_cons in E.
  destruct (effect o d) as [d1|] eqn:E1; [|discriminate]. cbn [bind] in E. specialize (IH d1 F2 E). unfold same_at in *. rewrite IH. apply F1. auto.
Qed.
Lemma preserves_ops : (forall key inkey outkey i o f, keys_of key inkey outkey i o -> o <> valid_key -> preserves valid_key (ikok key inkey outkey f)) /\ (forall i o, o <> valid_key -> preserves valid_key (copy i o)) /\
  (forall ks, preserves valid_key (keep ks)) /\ (forall lk vk, vk <> valid_key -> preserves valid_key (ignore_no_labels lk vk)).
Proof.
  split; [|split; [|split]].
  - intros key inkey outkey i o f HK N d d' E. assert (K := ikok_ok key inkey outkey f d i o HK). rewrite E in K. destruct (dget _ d _); [|discriminate]. destruct (f v); [|discriminate]. destruct K as (d1 & E1 & _ & S). apply Ok_inj in E1. subst. apply S. auto.
  - intros i o N d d' E. assert (K := copy_ok i o d). rewrite E in K. destruct (dget _ d _); [|discriminate]. destruct K as (d1 & E1 & _ & S). apply Ok_inj in E1. subst. apply S. auto.
  - intros ks d d' E. destruct (keep_ok ks d) as (d1 & E1 & S & _). rewrite E in E1. apply Ok_inj in E1. subst. apply S. auto.
  - intros lk vk N d d' E. cbn [ignore_no_labels effect] in E. destruct (match dget String.eqb d vk with Some v => as_bool v | None => Ok true end) as [b|]; [|discriminate]. cbn [bind] in E. destruct (get d lk); [|discriminate]. cbn [bind] in E. apply Ok_inj in E. subst. apply dget_set_other. auto.
Qed.

(** ** The flag of validity in evaluation *)
Section Valid.
Variables Mod Obj : Type.
Variable parse : string -> res expr.
Variable literal_eval : expr -> res lit.
Variable import_module : string -> res Mod.
Variable getattr : Mod -> string -> res Obj.
Variable call : Obj -> list lit -> list (string * lit) -> res op.
Variable pp_ops : Mod.
Let ops_of := make_ops Mod Obj parse literal_eval import_module getattr call pp_ops.
Let eval_fn := eval_process_fn Mod Obj parse literal_eval import_module getattr call pp_ops.
Lemma eval_ok s ops h r d d' : ops_of s = Ok ops -> nth_error h r = Some d -> in_order ops d = Ok d' ->
  exists f h' r' out, eval_fn s = Ok f /\ f h (Some r) = Ok (h', r') /\ nth_error h' r' = Some out /\
    (forall k, k <> valid_key -> same_at d' out k) /\
    has out valid_key (match dget String.eqb d' valid_key with Some v => v | None => VBool true end).
Proof.
  intros EO H E. unfold eval_fn, eval_process_fn, get_data_process_fn. change (make_ops Mod Obj parse literal_eval import_module getattr call pp_ops s) with (ops_of s). rewrite EO. cbn [bind].
  assert (C := compose_ok ops h r d H). rewrite E in C. destruct C as (h1 & r1 & C & H1 & _ & _).
  assert (M := run_op_ok mask_fn h1 r1 d' H1). cbn [mask_fn effect] in M. destruct M as (h2 & r2 & M & H2 & _).
  eexists _, h2, r2, _. split; [reflexivity|]. split; [rewrite C; exact M|]. split; [exact H2|]. split; [intros k N; apply dget_set_other; auto|apply dget_set_same].
Qed.
Lemma eval_labels s before lk after h r d d1 labels d' : ops_of s = Ok (before ++ ignore_no_labels lk valid_key :: after) -> nth_error h r = Some d ->
  in_order before d = Ok d1 -> has d1 lk labels -> dget String.eqb d1 valid_key = None -> Forall (preserves valid_key) after ->
  in_order (before ++ ignore_no_labels lk valid_key :: after) d = Ok d' ->
  exists f h' r' out, eval_fn s = Ok f /\ f h (Some r) = Ok (h', r') /\ nth_error h' r' = Some out /\ has out valid_key (VBool (0 <? size labels)).
Proof.
  intros EO H E1 HL HV F E. destruct (eval_ok s _ h r d d' EO H E) as (f & h' & r' & out & EF & RF & HO & _ & V). exists f, h', r', out. split; [auto|]. split; [auto|]. split; [auto|].
  rewrite in_order_app, E1 in E. cbn [bind] in E. rewrite in_order_cons in E. destruct (ignore_ok lk valid_key d1 labels true HL (or_intror (conj HV eq_refl))) as (d2 & E2 & V2 & _).
  rewrite E2 in E. cbn [bind] in E. assert (K := preserve_ok valid_key after d2 d' F E). unfold same_at in K. unfold has in V2. rewrite K, V2 in V. exact V.
Qed.
End Valid.

(** ** Calls in strings *)
Section Parse.
Variables Mod Obj : Type.
Variable parse : string -> res expr.
Variable literal_eval : expr -> res lit.
Variable import_module : string -> res Mod.
Variable getattr : Mod -> string -> res Obj.
Let pc := parse_call Mod Obj parse literal_eval import_module getattr.
Lemma call_values f n args kws lits vals : Forall2 (fun a l => literal_eval a = Ok l) args lits -> NoDup (map fst kws) -> Forall2 (fun k v => literal_eval (snd k) = Ok v) kws vals ->
  call_parts literal_eval (Call f args kws n) = Ok (f, lits, combine (map fst kws) vals).
Proof.
  intros F ND FK. cbn [call_parts]. replace (rmap literal_eval args) with (Ok lits : res (list lit)) by (symmetry; apply rmap_ok; auto). cbn [bind].
  assert (K : forall kws vals acc, Forall2 (fun k v => literal_eval (snd k) = Ok v) kws vals -> NoDup (map fst acc ++ map fst kws) ->
            rfold (fun d (kw : option string * expr) => bind (literal_eval (snd kw)) (fun v => Ok (dset key_eqb d (fst kw) v))) kws acc = Ok (acc ++ combine (map fst kws) vals)).
  { clear. induction kws as [|[k e] kws IH]; intros vals acc F ND; inversion F as [|? v ? vals' F1 F2]; subst; [rewrite app_nil_r; reflexivity|]. cbn [rfold map fst snd combine] in *. cbn [snd] in F1. rewrite F1. cbn [bind].
    assert (EQ : dset key_eqb acc k v = acc ++ [(k, v)]).
    { assert (NI : ~ List.In k (map fst acc)). { intros I. apply NoDup_remove_2 in ND. apply ND. apply in_or_app. auto. }
      clear - NI. induction acc as [|[a b] acc IH]; [reflexivity|]. cbn [dset]. assert (Q : key_eqb a k = false).
      { destruct (key_eqb a k) eqn:Q; auto. exfalso. apply NI. left. cbn [fst]. destruct a, k; cbn in Q; try discriminate; auto. apply String.eqb_eq in Q. congruence. }
      rewrite Q. cbn [app]. f_equal. apply IH. intros I. apply NI. right. auto. }
    rewrite EQ. rewrite (IH vals'); auto; [rewrite <- app_assoc; reflexivity|]. rewrite map_app, <- app_assoc. exact ND. }
  rewrite (K kws vals [] FK ND). reflexivity.
Qed.
Lemma call_name text m id n : parse text = Ok (Name id n) -> pc text (inr m) = bind (getattr m id) (fun o => Ok (o, [], [])).
Proof. intros E. unfold pc, parse_call. rewrite E. cbn. destruct (getattr m id); reflexivity. Qed.
Lemma call_args text m id n n' args kws lits vals : parse text = Ok (Call (Name id n) args kws n') ->
  Forall2 (fun a l => literal_eval a = Ok l) args lits -> NoDup (map fst kws) -> Forall2 (fun k v => literal_eval (snd k) = Ok v) kws vals ->
  pc text (inr m) = bind (getattr m id) (fun o => Ok (o, lits, combine (map fst kws) vals)).
Proof.
  intros E F ND FK. unfold pc, parse_call. rewrite E. cbn [bind]. rewrite (call_values _ _ args kws lits vals F ND FK). unfold resolve. cbn [bind fst snd]. destruct (getattr m id); reflexivity.
Qed.
Lemma append_assoc a b c : ((a ++ b) ++ c)%string = (a ++ b ++ c)%string.
Proof. induction a as [|x a IH]; [reflexivity|]. cbn [String.append]. rewrite IH. reflexivity. Qed.
Lemma append_nil a : (a ++ "")%string = a.
Proof. induction a as [|x a IH]; [reflexivity|]. cbn [String.append]. rewrite IH. reflexivity. Qed.
Lemma dots_snoc first parts p : dots ((first :: parts) ++ [p]) = (dots (first :: parts) ++ "." ++ p)%string.
Proof.
  revert first. induction parts as [|q parts IH]; intros first; [reflexivity|]. cbn [app] in *. change (dots (first :: q :: (parts ++ [p]))) with (first ++ "." ++ dots (q :: (parts ++ [p])))%string.
  rewrite IH. change (dots (first :: q :: parts)) with (first ++ "." ++ dots (q :: parts))%string. rewrite !append_assoc. reflexivity.
Qed.
Lemma str_len_app a b : String.length (a ++ b)%string = String.length a + String.length b.
Proof. induction a as [|x a IH]; [reflexivity|]. cbn [String.append String.length]. rewrite IH. reflexivity. Qed.
Lemma substring_app a b : substring 0 (String.length a) (a ++ b)%string = a.
Proof. induction a as [|x a IH]; [destruct b; reflexivity|]. cbn [String.append String.length substring]. rewrite IH. reflexivity. Qed.
Lemma chain_snoc first parts p : chain first (parts ++ [p]) = Attribute (chain first parts) p (end_col (chain first parts) + 1 + String.length p).
Proof. unfold chain. rewrite fold_left_app. reflexivity. Qed.
Lemma chain_ok first parts : end_col (chain first parts) = String.length (dots (first :: parts)) /\ dotted (chain first parts) = true.
Proof.
  induction parts as [|p parts [IH1 IH2]] using rev_ind; [split; reflexivity|]. rewrite chain_snoc. cbn [end_col dotted]. split; [|exact IH2].
  change (first :: parts ++ [p]) with ((first :: parts) ++ [p]). rewrite dots_snoc, !str_len_app, IH1. cbn [String.length]. lia.
Qed.
Lemma dotted_iff e : dotted e = true <-> Dotted e.
Proof.
  induction e as [id n|v IH a n|f IH args kws n|n]; cbn [dotted]; split; intros H; try (constructor; tauto); try discriminate; try inversion H; subst; tauto.
Qed.
Lemma resolve_dotted first parts p rest m :
  resolve Mod Obj import_module getattr (dots (first :: parts ++ [p]) ++ rest)%string m (chain first (parts ++ [p])) =
  bind (import_module (dots (first :: parts))) (fun md => getattr md p).
Proof.
  rewrite chain_snoc. unfold resolve. destruct (chain_ok first parts) as [C1 C2]. rewrite C2, C1. cbn [bind fst snd].
  change (first :: parts ++ [p]) with ((first :: parts) ++ [p]). rewrite dots_snoc, append_assoc, substring_app. reflexivity.
Qed.
Lemma call_dotted first parts p rest m e args kws : parse (dots (first :: parts ++ [p]) ++ rest)%string = Ok e ->
  e = chain first (parts ++ [p]) /\ args = [] /\ kws = [] \/ (exists es ks n, e = Call (chain first (parts ++ [p])) es ks n /\
     Forall2 (fun a l => literal_eval a = Ok l) es args /\ NoDup (map fst ks) /\ map fst kws = map fst ks /\ Forall2 (fun k v => literal_eval (snd k) = Ok (snd v)) ks kws) ->
  pc (dots (first :: parts ++ [p]) ++ rest)%string m = bind (import_module (dots (first :: parts))) (fun md => bind (getattr md p) (fun o => Ok (o, args, kws))).
Proof.
  intros E H. unfold pc, parse_call. rewrite E. cbn [bind].
  assert (CP : call_parts literal_eval e = Ok (chain first (parts ++ [p]), args, kws)).
  { destruct H as [(-> & -> & ->)|(es & ks & n & -> & FA & ND & EK & FK)].
    - rewrite chain_snoc. reflexivity.
    - rewrite (call_values _ n es ks args (map snd kws)); auto.
      + rewrite <- EK. f_equal. f_equal. clear. induction kws as [|[a b] kws IH]; [reflexivity|]. cbn. rewrite IH. reflexivity.
      + clear - FK. induction FK; constructor; auto. }
  rewrite CP. cbn [bind]. rewrite resolve_dotted. destruct (import_module _) as [md|]; [|reflexivity]. cbn [bind]. destruct (getattr md p); reflexivity.
Qed.
Lemma call_nested text m e : parse text = Ok e ->
  match e with
  | Call f args kws _ => ~ Dotted f /\ (forall a, List.In a args -> exists l, literal_eval a = Ok l) /\ (forall k, List.In k kws -> exists l, literal_eval (snd k) = Ok l)
  | e => ~ Dotted e
  end -> pc text m = Raise ValueError.
Proof.
  intros E H. unfold pc, parse_call. rewrite E. cbn [bind].
  assert (R : forall f, ~ Dotted f -> resolve Mod Obj import_module getattr text m f = Raise ValueError).
  { intros f N. unfold resolve. destruct f as [id k|v a k|f' ? ? k|k]; try reflexivity; [exfalso; apply N; constructor|].
    destruct (dotted v) eqn:Q; [|reflexivity]. exfalso. apply N. constructor. apply dotted_iff. exact Q. }
  destruct e as [id n|v a n|f args kws n|n]; cbn [call_parts bind]; try (rewrite R by exact H; reflexivity).
  destruct H as (H & HA & HK).
  assert (A : exists l, rmap literal_eval args = Ok l).
  { clear - HA. induction args as [|a args IH]; [eexists; reflexivity|]. destruct (HA a (or_introl eq_refl)) as (l & EL). destruct IH as (r & ER); [intros; apply HA; right; auto|]. exists (l :: r). cbn [rmap]. rewrite EL. cbn [bind]. rewrite ER. reflexivity. }
  destruct A as (l & ->). cbn [bind].
  assert (K : forall d, exists l, rfold (fun d (kw : option string * expr) => bind (literal_eval (snd kw)) (fun v => Ok (dset key_eqb d (fst kw) v))) kws d = Ok l).
  { clear - HK. induction kws as [|k kws IH]; intros d; [eexists; reflexivity|]. destruct (HK k (or_introl eq_refl)) as (l & EL). cbn [rfold]. rewrite EL. cbn [bind]. apply IH. intros; apply HK; right; auto. }
  destruct (K []) as (kl & ->). cbn [bind]. rewrite R by exact H. reflexivity.
Qed.
End Parse.

(** ** Arguments *)
Lemma bind_args_ok params : forall args kwargs, NoDup (map fst params) -> NoDup (map fst kwargs) ->
  (valid_call params args kwargs -> exists l, bind_args params args kwargs = Ok l /\ length l = length params /\
     forall i p, nth_error params i = Some p -> nth_error l i = bound_value args kwargs i p) /\
  (~ valid_call params args kwargs -> bind_args params args kwargs = Raise TypeError).
Proof.
  induction params as [|[p default] params IH]; intros args kwargs N1 N2.
  - cbn [bind_args]. split.
    + intros (V1 & V2 & V3). destruct args; [|cbn in V1; lia]. destruct kwargs as [|[k v] kwargs].
      * exists []. split; [auto|]. split; [auto|]. intros [|i] q H; discriminate.
      * destruct (V2 k v (or_introl eq_refl)) as (i & q & _ & H & _). destruct i; discriminate.
    + intros NV. destruct args; auto. destruct kwargs; auto. exfalso. apply NV. split; [cbn; lia|]. split; [intros k v []|]. intros [|i] q H; discriminate.
  - cbn [map fst] in N1. inversion N1 as [|? ? NI N1']. subst. cbn [bind_args]. destruct args as [|a args].
    + (* keywords *)
      set (kw' := filter (fun kv => negb (String.eqb (fst kv) p)) kwargs).
      assert (G' : forall k, k <> p -> dget String.eqb kw' k = dget String.eqb kwargs k).
      { intros k Nk. unfold kw'. rewrite (dget_filter kwargs (fun k => negb (String.eqb k p))). destruct (String.eqb_spec k p); [congruence|reflexivity]. }
      assert (N2' : NoDup (map fst kw')).
      { unfold kw'. clear - N2. induction kwargs as [|[k v] kw IH]; [constructor|]. cbn [map fst] in N2. inversion N2; subst. cbn [filter fst]. destruct (negb _); [|auto]. cbn [map fst]. constructor; auto. intros I. apply in_map_iff in I. destruct I as ([k' v'] & E & I). apply filter_In in I. destruct I. cbn in E. subst. apply H1. apply in_map_iff. exists (k, v'). auto. }
      assert (IN : forall k v, List.In (k, v) kwargs -> dget String.eqb kwargs k <> None).
      { clear. intros k v. induction kwargs as [|[k' v'] kw IH]; [intros []|]. cbn [dget]. destruct (String.eqb_spec k' k); [discriminate|]. intros [E|I]; [congruence|auto]. }
      assert (GI : forall k v, dget String.eqb kwargs k = Some v -> List.In (k, v) kwargs).
      { clear. intros k v. induction kwargs as [|[k' v'] kw IH]; [discriminate|]. cbn [dget]. destruct (String.eqb_spec k' k); [intros E; injection E as ->; subst; left; auto|right; auto]. }
      assert (BV : forall i q, List.In q params -> bound_value [] kw' i q = bound_value [] kwargs i q).
      { intros i q I. unfold bound_value. cbn [length]. destruct (Nat.ltb_spec i 0); [lia|]. rewrite G'; auto. intros E. apply NI. rewrite <- E. apply in_map; auto. }
      assert (VC : valid_call ((p, default) :: params) [] kwargs <-> (dget String.eqb kwargs p <> None \/ default <> None) /\ valid_call params [] kw').
      { split.
        - intros (V1 & V2 & V3). split.
          + specialize (V3 0 (p, default) eq_refl). unfold bound_value in V3. cbn [length Nat.ltb Nat.leb fst snd] in V3. destruct (dget _ kwargs p); [left; discriminate|right; auto].
          + split; [cbn; lia|]. split.
            * intros k v I. apply filter_In in I. destruct I as [I Q]. cbn [fst] in Q. destruct (V2 k v I) as ([|i] & q & _ & H & E).
              -- cbn in H. injection H as <-. cbn in E. subst. rewrite String.eqb_refl in Q. discriminate.
              -- exists i, q. split; [cbn; lia|]. auto.
            * intros i q H. rewrite BV by (eapply nth_error_In; eauto). assert (W := V3 (S i) q H). unfold bound_value in *. cbn [length] in *. exact W.
        - intros (D & V1 & V2 & V3). split; [cbn; lia|]. split.
          + intros k v I. destruct (String.eqb_spec k p) as [->|Nk].
            * exists 0, (p, default). split; [cbn; lia|]. auto.
            * destruct (V2 k v) as (i & q & _ & H & E). { apply filter_In. split; auto. cbn. destruct (String.eqb_spec k p); [congruence|reflexivity]. }
              exists (S i), q. split; [cbn; lia|]. auto.
          + intros [|i] q H.
            * cbn in H. injection H as <-. unfold bound_value. cbn [length Nat.ltb Nat.leb fst snd]. destruct (dget _ kwargs p); [discriminate|]. destruct D; auto.
            * cbn in H. assert (W := V3 i q H). rewrite BV in W by (eapply nth_error_In; eauto). unfold bound_value in *. cbn [length] in *. exact W. }
      destruct (dget String.eqb kwargs p) as [v|] eqn:EP.
      * destruct (IH [] kw' N1' N2') as [I1 I2]. split.
        -- intros V. apply VC in V. destruct V as [_ V]. destruct (I1 V) as (l & E & L & B). change (bind_args params [] (filter (fun kv => negb (String.eqb (fst kv) p)) kwargs)) with (bind_args params [] kw'). rewrite E. exists (v :: l). split; [reflexivity|]. split; [cbn; auto|].
           intros [|i] q H.
           ++ cbn in H. injection H as <-. cbn [nth_error]. unfold bound_value. cbn [length Nat.ltb Nat.leb fst]. rewrite EP. reflexivity.
           ++ cbn [nth_error] in *. rewrite (B i q H). rewrite BV by (eapply nth_error_In; eauto). reflexivity.
        -- intros NV. change (bind_args params [] (filter (fun kv => negb (String.eqb (fst kv) p)) kwargs)) with (bind_args params [] kw'). rewrite I2; [reflexivity|]. intros V. apply NV. apply VC. split; auto. left. discriminate.
      * assert (KK : kw' = kwargs).
        { unfold kw'. clear - EP. induction kwargs as [|[k v] kw IH]; [reflexivity|]. cbn [dget] in EP. cbn [filter fst]. destruct (String.eqb_spec k p); [discriminate|]. cbn [negb]. f_equal. auto. }
        rewrite KK in *. destruct default as [v|].
        -- destruct (IH [] kwargs N1' N2) as [I1 I2]. split.
           ++ intros V. apply VC in V. destruct V as [_ V]. destruct (I1 V) as (l & E & L & B). rewrite E. exists (v :: l). split; [reflexivity|]. split; [cbn; auto|].
              intros [|i] q H; [|cbn [nth_error] in *; rewrite (B i q H); reflexivity]. cbn in H. injection H as <-. unfold bound_value. cbn [nth_error length Nat.ltb Nat.leb fst snd]. rewrite EP. reflexivity.
           ++ intros NV. rewrite I2; [reflexivity|]. intros V. apply NV. apply VC. split; auto. right. discriminate.
        -- split; [|reflexivity]. intros V. apply VC in V. destruct V as [[H|H] _]; congruence.
    + (* positional *)
      assert (IN : forall v, List.In (p, v) kwargs -> dget String.eqb kwargs p <> None).
      { clear. intros v. induction kwargs as [|[k' v'] kw IH]; [intros []|]. cbn [dget]. destruct (String.eqb_spec k' p); [discriminate|]. intros [E|I]; [congruence|auto]. }
      assert (GI : forall k v, dget String.eqb kwargs k = Some v -> List.In (k, v) kwargs).
      { clear. intros k v. induction kwargs as [|[k' v'] kw IH]; [discriminate|]. cbn [dget]. destruct (String.eqb_spec k' k); [intros E; injection E as ->; subst; left; auto|right; auto]. }
      assert (BV : forall i q, bound_value (a :: args) kwargs (S i) q = bound_value args kwargs i q).
      { intros i q. unfold bound_value. cbn [length]. replace (S i <? S (length args)) with (i <? length args) by reflexivity. destruct (i <? length args); reflexivity. }
      destruct (dget String.eqb kwargs p) as [w|] eqn:EP.
      * split; [|reflexivity]. intros (_ & V2 & _). exfalso. destruct (V2 p w (GI _ _ EP)) as (i & q & L & H & E). destruct i as [|i]; [cbn in L; lia|]. cbn in H. apply NI. rewrite <- E. apply in_map. eapply nth_error_In; eauto.
      * assert (VC : valid_call ((p, default) :: params) (a :: args) kwargs <-> valid_call params args kwargs).
        { split.
          - intros (V1 & V2 & V3). split; [cbn in V1; lia|]. split.
            + intros k v I. destruct (V2 k v I) as ([|i] & q & L & H & E); [cbn in L; lia|]. exists i, q. split; [cbn in L; lia|]. auto.
            + intros i q H. rewrite <- BV. apply (V3 (S i) q H).
          - intros (V1 & V2 & V3). split; [cbn; lia|]. split.
            + intros k v I. destruct (V2 k v I) as (i & q & L & H & E). exists (S i), q. split; [cbn; lia|]. auto.
            + intros [|i] q H; [unfold bound_value; cbn; discriminate|]. rewrite BV. apply (V3 i q H). }
        destruct (IH args kwargs N1' N2) as [I1 I2]. split.
        -- intros V. apply VC in V. destruct (I1 V) as (l & -> & L & B). exists (a :: l). split; [reflexivity|]. split; [cbn; auto|]. intros [|i] q H; [reflexivity|]. rewrite BV. cbn [nth_error] in *. auto.
        -- intros NV. rewrite I2; [reflexivity|]. intros V. apply NV, VC. auto.
Qed.

(** ** Images and labels *)
Lemma crop_ok (t : nda R) H W rest h w : dims t = H :: W :: rest -> 0 < h <= H -> 0 < w <= W ->
  exists t' dy dx, central_crop h w (VTensor t) = Ok (VTensor t') /\ dims t' = h :: w :: rest /\
    (2 * dy + h = H \/ 2 * dy + h + 1 = H) /\ (2 * dx + w = W \/ 2 * dx + w + 1 = W) /\
    forall i j idx, at_ t' (i :: j :: idx) = at_ t (dy + i :: dx + j :: idx).
Proof.
  intros D Hh Hw. unfold central_crop. rewrite D. unfold crop_to_bounding_box. rewrite D.
  set (dy := ((Z.of_nat H - Z.of_nat h) / 2)%Z). set (dx := ((Z.of_nat W - Z.of_nat w) / 2)%Z).
  assert (Dy := Z.div_mod (Z.of_nat H - Z.of_nat h) 2 ltac:(lia)). assert (My := Z.mod_pos_bound (Z.of_nat H - Z.of_nat h) 2 ltac:(lia)). fold dy in Dy.
  assert (Dx := Z.div_mod (Z.of_nat W - Z.of_nat w) 2 ltac:(lia)). assert (Mx := Z.mod_pos_bound (Z.of_nat W - Z.of_nat w) 2 ltac:(lia)). fold dx in Dx.
  clearbody dy dx.
  destruct (Z.ltb_spec dy 0); [lia|]. destruct (Z.ltb_spec dx 0); [lia|]. destruct (Nat.eqb_spec h 0); [lia|]. destruct (Nat.eqb_spec w 0); [lia|].
  destruct (Z.ltb_spec (Z.of_nat H) (dy + Z.of_nat h)); [lia|]. destruct (Z.ltb_spec (Z.of_nat W) (dx + Z.of_nat w)); [lia|]. cbn [orb bind].
  eexists _, (Z.to_nat dy), (Z.to_nat dx). split; [reflexivity|]. cbn [dims at_]. split; [reflexivity|]. split; [lia|]. split; [lia|]. reflexivity.
Qed.
Lemma crop_error (t : nda R) H W rest h w : dims t = H :: W :: rest -> h = 0 \/ w = 0 \/ H < h \/ W < w -> central_crop h w (VTensor t) = Raise ValueError.
Proof.
  intros D C. unfold central_crop. rewrite D. unfold crop_to_bounding_box. rewrite D.
  set (dy := ((Z.of_nat H - Z.of_nat h) / 2)%Z). set (dx := ((Z.of_nat W - Z.of_nat w) / 2)%Z).
  assert (Dy := Z.div_mod (Z.of_nat H - Z.of_nat h) 2 ltac:(lia)). assert (My := Z.mod_pos_bound (Z.of_nat H - Z.of_nat h) 2 ltac:(lia)). fold dy in Dy.
  assert (Dx := Z.div_mod (Z.of_nat W - Z.of_nat w) 2 ltac:(lia)). assert (Mx := Z.mod_pos_bound (Z.of_nat W - Z.of_nat w) 2 ltac:(lia)). fold dx in Dx.
  clearbody dy dx.
  destruct (Z.ltb_spec dy 0); [reflexivity|]. destruct (Z.ltb_spec dx 0); [reflexivity|]. destruct (Nat.eqb_spec h 0); [reflexivity|]. destruct (Nat.eqb_spec w 0); [reflexivity|].
  destruct (Z.ltb_spec (Z.of_nat H) (dy + Z.of_nat h)); [reflexivity|]. destruct (Z.ltb_spec (Z.of_nat W) (dx + Z.of_nat w)); [reflexivity|]. lia.
Qed.

Lemma round_int q z : (q == inject_Z z)%Q -> round_even q = z.
Proof.
  intros E. unfold round_even. rewrite (Qfloor_comp _ _ E), Qfloor_Z.
  assert (D : (q - inject_Z z == 0)%Q) by (rewrite E; ring). destruct (Qle_bool _ _) eqn:Q1.
  - destruct (Qeq_bool _ _) eqn:Q2; [|reflexivity]. apply Qeq_bool_iff in Q2. rewrite D in Q2. discriminate.
  - assert (Q2 : Qle_bool (q - inject_Z z) (1 # 2) = true). { apply Qle_bool_iff. rewrite D. discriminate. } congruence.
Qed.
Lemma round_near q : (inject_Z (round_even q) - q <= 1 # 2 /\ q - inject_Z (round_even q) <= 1 # 2)%Q.
Proof.
  unfold round_even. assert (F1 := Qfloor_le q). assert (F2 := Qlt_floor q). set (f := Qfloor q) in *. clearbody f.
  rewrite inject_Z_plus in F2. change (inject_Z 1) with 1%Q in F2.
  destruct (Qle_bool _ _) eqn:Q1.
  - apply Qle_bool_iff in Q1. destruct (Qeq_bool _ _) eqn:Q2.
    + apply Qeq_bool_iff in Q2. destruct (Z.even f); rewrite ?inject_Z_plus; change (inject_Z 1) with 1%Q; split; Lqa.lra.
    + split; Lqa.lra.
  - assert (Q2 : ((1 # 2) < q - inject_Z f)%Q). { apply Qnot_le_lt. intros L. apply Qle_bool_iff in L. congruence. }
    rewrite inject_Z_plus. change (inject_Z 1) with 1%Q. split; Lqa.lra.
Qed.
(** The length of a side *)
Lemma side_same s a : 0 < a -> round_even (inject_Z (Z.of_nat a) * (inject_Z (Z.of_nat s) / inject_Z (Z.of_nat a))) = Z.of_nat s.
Proof.
  intros P. apply round_int. field. intros E. unfold Qeq in E. cbn in E. lia.
Qed.
Lemma side_other s a b : 0 < a <= b -> let r := round_even (inject_Z (Z.of_nat b) * (inject_Z (Z.of_nat s) / inject_Z (Z.of_nat a))) in
  (Z.of_nat s <= r /\ 2 * Z.of_nat a * r <= 2 * Z.of_nat b * Z.of_nat s + Z.of_nat a /\ 2 * Z.of_nat b * Z.of_nat s <= 2 * Z.of_nat a * r + Z.of_nat a)%Z.
Proof.
  intros P r. set (q := (inject_Z (Z.of_nat b) * (inject_Z (Z.of_nat s) / inject_Z (Z.of_nat a)))%Q) in *.
  assert (A0 : ~ (inject_Z (Z.of_nat a) == 0)%Q). { intros E. unfold Qeq in E. cbn in E. lia. }
  assert (EQ : (inject_Z (Z.of_nat a) * q == inject_Z (Z.of_nat b * Z.of_nat s))%Q). { unfold q. rewrite inject_Z_mult. field. auto. }
  destruct (round_near q) as [N1 N2]. fold r in N1, N2. clearbody q r.
  assert (AP : (0 < inject_Z (Z.of_nat a))%Q). { unfold Qlt. cbn. lia. }
  assert (B1 : (2 * Z.of_nat a * r <= 2 * Z.of_nat b * Z.of_nat s + Z.of_nat a)%Z).
  { rewrite Zle_Qle. rewrite inject_Z_plus, !inject_Z_mult. rewrite inject_Z_mult in EQ. change (inject_Z 2) with 2%Q. setoid_replace (2 * inject_Z (Z.of_nat b) * inject_Z (Z.of_nat s))%Q with (2 * (inject_Z (Z.of_nat a) * q))%Q by (rewrite EQ; ring). Lqa.nra. }
  assert (B2 : (2 * Z.of_nat b * Z.of_nat s <= 2 * Z.of_nat a * r + Z.of_nat a)%Z).
  { rewrite Zle_Qle. rewrite inject_Z_plus, !inject_Z_mult. rewrite inject_Z_mult in EQ. change (inject_Z 2) with 2%Q. setoid_replace (2 * inject_Z (Z.of_nat b) * inject_Z (Z.of_nat s))%Q with (2 * (inject_Z (Z.of_nat a) * q))%Q by (rewrite EQ; ring). Lqa.nra. }
  split; [|split; auto]. clear - P B2. nia.
Qed.
Lemma resize_ok area (t : nda R) h w rest s : dims t = h :: w :: rest -> 0 < h -> 0 < w ->
  exists t' h' w', resize_small area s (VTensor t) = Ok (VTensor t') /\ dims t' = h' :: w' :: rest /\ Nat.min h' w' = s /\
    (h <= w -> h' = s) /\ (w <= h -> w' = s) /\
    (2 * (h' * w) <= 2 * (w' * h) + Nat.min h w /\ 2 * (w' * h) <= 2 * (h' * w) + Nat.min h w).
Proof.
  intros D Ph Pw. unfold resize_small. rewrite D. destruct (Nat.eqb_spec (Nat.min h w) 0); [lia|].
  eexists _, _, _. split; [reflexivity|]. cbn [dims]. split; [reflexivity|].
  destruct (Nat.le_ge_cases h w) as [L|L].
  - rewrite (Nat.min_l h w L). rewrite side_same by lia. rewrite Nat2Z.id. assert (O := side_other s h w (conj Ph L)). cbv zeta in O.
    set (r := round_even _) in *. clearbody r. rewrite Nat.min_l by lia. split; [reflexivity|]. split; [auto|]. split; [|nia]. intros L'. assert (w = h) by lia. subst w. nia.
  - rewrite (Nat.min_r h w L). rewrite side_same by lia. rewrite Nat2Z.id. assert (O := side_other s w h (conj Pw L)). cbv zeta in O.
    set (r := round_even _) in *. clearbody r. rewrite Nat.min_r by lia. split; [reflexivity|]. split; [|split; [auto|nia]]. intros L'. assert (w = h) by lia. subst w. nia.
Qed.
Lemma resize_crop area (t : nda R) h w rest s c : dims t = h :: w :: rest -> 0 < h -> 0 < w -> 0 < c <= s ->
  exists t', bind (resize_small area s (VTensor t)) (central_crop c c) = Ok (VTensor t') /\ dims t' = c :: c :: rest.
Proof.
  intros D Ph Pw C. destruct (resize_ok area t h w rest s D Ph Pw) as (t1 & h1 & w1 & E & D1 & M & _). rewrite E. cbn [bind].
  destruct (crop_ok t1 h1 w1 rest c c D1) as (t' & dy & dx & E' & D' & _); [lia|lia|]. exists t'. auto.
Qed.

Lemma sum_hits (g : nat -> Z) c l : let x := fold_right Rplus 0%R (map (fun i => if (g i =? c)%Z then 1%R else 0%R) l) in
  ((exists i, List.In i l /\ g i = c) -> (1 <= x)%R) /\ ((forall i, List.In i l -> g i <> c) -> x = 0%R) /\ (0 <= x)%R.
Proof.
  induction l as [|a l (I1 & I2 & I3)]; cbn [map fold_right].
  - split; [intros (i & [] & _)|]. split; [reflexivity|lra].
  - destruct (Z.eqb_spec (g a) c) as [E|E].
    + split; [intros; lra|]. split; [|lra]. intros H. exfalso. apply (H a (or_introl eq_refl)). auto.
    + split; [intros (i & [->|I] & Ei); [congruence|]|]. { assert (1 <= fold_right Rplus 0 (map (fun i => if (g i =? c)%Z then 1 else 0) l))%R by (apply I1; eauto). lra. }
      split; [|lra]. intros H. rewrite I2; [lra|]. intros i I. apply H. right. auto.
Qed.
Lemma onehot_multi depth on off (t : nda Z) n : dims t = [n] -> (forall i, i < n -> (0 <= at_ t [i] < Z.of_nat depth)%Z) ->
  exists t', onehot depth true on off (VInts t) = Ok (VTensor t') /\ dims t' = [depth] /\
    forall c, c < depth -> ((exists i, i < n /\ at_ t [i] = Z.of_nat c) -> at_ t' [c] = on) /\ ((forall i, i < n -> at_ t [i] <> Z.of_nat c) -> at_ t' [c] = off).
Proof.
  intros D V. unfold onehot. rewrite D.
  destruct (existsb (fun i => ((at_ t [i] <? 0)%Z || (Z.of_nat depth <=? at_ t [i])%Z)%bool) (seq 0 n)) eqn:Q.
  { exfalso. apply existsb_exists in Q. destruct Q as (i & I & Q). apply in_seq in I. assert (I2 : i < n) by lia. specialize (V i I2). apply orb_true_iff in Q. destruct Q as [Q|Q]; [apply Z.ltb_lt in Q|apply Z.leb_le in Q]; lia. }
  eexists. split; [reflexivity|]. cbn [dims at_ hd]. split; [reflexivity|]. intros c Hc. destruct (sum_hits (fun i => at_ t [i]) (Z.of_nat c) (seq 0 n)) as (S1 & S2 & S3). cbv zeta in S1, S2, S3.
  split.
  - intros (i & Hi & Ei). assert (X := S1). cbv beta in X. specialize (X (ex_intro _ i (conj (proj2 (in_seq n 0 i) (conj (Nat.le_0_l i) Hi)) Ei))). rewrite (Rmin_right _ 1) by exact X. rewrite Rmax_right by lra. lra.
  - intros H. rewrite S2 by (intros i I; apply in_seq in I; apply H; lia). rewrite Rmin_left by lra. rewrite Rmax_left by lra. lra.
Qed.
Lemma onehot_error depth on off (t : nda Z) n i : dims t = [n] -> i < n -> (at_ t [i] < 0 \/ Z.of_nat depth <= at_ t [i])%Z -> onehot depth true on off (VInts t) = Raise ValueError.
Proof.
  intros D I V. unfold onehot. rewrite D. replace (existsb _ _) with true; [reflexivity|]. symmetry. apply existsb_exists. exists i. split; [apply in_seq; lia|]. apply orb_true_iff. rewrite Z.ltb_lt, Z.leb_le. auto.
Qed.
Lemma onehot_single depth multi on off (t : nda Z) : dims t = [] ->
  exists t', onehot depth multi on off (VInts t) = Ok (VTensor t') /\ dims t' = [depth] /\
    forall c, c < depth -> (at_ t [] = Z.of_nat c -> at_ t' [c] = on) /\ (at_ t [] <> Z.of_nat c -> at_ t' [c] = off).
Proof.
  intros D. unfold onehot. rewrite D. eexists. split; [reflexivity|]. cbn [dims at_ hd]. split; [reflexivity|]. intros c _. destruct (Z.eqb_spec (at_ t []) (Z.of_nat c)); tauto.
Qed.
Lemma onehot_each depth on off (t : nda Z) n : dims t = [n] ->
  exists t', onehot depth false on off (VInts t) = Ok (VTensor t') /\ dims t' = [n; depth] /\
    forall i c, i < n -> c < depth -> (at_ t [i] = Z.of_nat c -> at_ t' [i; c] = on) /\ (at_ t [i] <> Z.of_nat c -> at_ t' [i; c] = off).
Proof.
  intros D. unfold onehot. rewrite D. eexists. split; [reflexivity|]. cbn [dims at_ hd tl]. split; [reflexivity|]. intros i c _ _. destruct (Z.eqb_spec (at_ t [i]) (Z.of_nat c)); tauto.
Qed.

Lemma range_affine vmin vmax lo hi (t : nda R) : exists t', value_range vmin vmax (Scalar lo) (Scalar hi) false (VTensor t) = Ok (VTensor t') /\ dims t' = dims t /\
  (lo <> hi -> forall i, (at_ t i = lo -> at_ t' i = vmin) /\ (at_ t i = hi -> at_ t' i = vmax) /\
     forall j k w, at_ t k = (w * at_ t i + (1 - w) * at_ t j)%R -> at_ t' k = (w * at_ t' i + (1 - w) * at_ t' j)%R).
Proof.
  eexists. split; [reflexivity|]. cbn [dims at_ bound_at]. split; [reflexivity|]. intros N i. split; [|split].
  - intros ->. field. lra.
  - intros ->. field. lra.
  - intros j k w ->. field. lra.
Qed.
Lemma range_clip vmin vmax in_min in_max v t0 : (vmin <= vmax)%R -> value_range vmin vmax in_min in_max false v = Ok (VTensor t0) ->
  exists t1, value_range vmin vmax in_min in_max true v = Ok (VTensor t1) /\ dims t1 = dims t0 /\
    forall i, (vmin <= at_ t1 i <= vmax)%R /\ ((vmin <= at_ t0 i <= vmax)%R -> at_ t1 i = at_ t0 i) /\ ((at_ t0 i < vmin)%R -> at_ t1 i = vmin) /\ ((vmax < at_ t0 i)%R -> at_ t1 i = vmax).
Proof.
  intros V E. unfold value_range in *. destruct (cast_float v) as [t|]; [|discriminate]. cbn [bind] in *. destruct (negb _); [discriminate|]. apply Ok_inj in E. injection E as <-.
  eexists. split; [reflexivity|]. cbn [dims at_]. split; [reflexivity|]. intros i. set (x := (vmin + _ * _)%R). clearbody x. unfold clip_by_value, Rmin, Rmax.
  destruct (Rle_dec x vmax); destruct (Rle_dec _ vmin); repeat split; intros; lra.
Qed.
Lemma range_inverse vmin vmax lo hi (t : nda R) : lo <> hi -> vmin <> vmax ->
  exists t', bind (value_range vmin vmax (Scalar lo) (Scalar hi) false (VTensor t)) (value_range lo hi (Scalar vmin) (Scalar vmax) false) = Ok (VTensor t') /\ dims t' = dims t /\ forall i, at_ t' i = at_ t i.
Proof.
  intros N1 N2. eexists. split; [reflexivity|]. cbn [dims at_ bound_at]. split; [reflexivity|]. intros i. field. lra.
Qed.
Lemma range_order vmin vmax lo hi clip (t t' : nda R) i j : (lo < hi)%R -> (vmin <= vmax)%R -> value_range vmin vmax (Scalar lo) (Scalar hi) clip (VTensor t) = Ok (VTensor t') ->
  (at_ t i <= at_ t j)%R -> (at_ t' i <= at_ t' j)%R.
Proof.
  intros L V E O. unfold value_range in E. cbn [cast_float bind fits andb negb bound_at] in E. apply Ok_inj in E. injection E as <-. cbn [at_].
  assert (X : (vmin + (at_ t i - lo) / (hi - lo) * (vmax - vmin) <= vmin + (at_ t j - lo) / (hi - lo) * (vmax - vmin))%R).
  { apply Rplus_le_compat_l. apply Rmult_le_compat_r; [lra|]. unfold Rdiv. apply Rmult_le_compat_r; [|lra]. left. apply Rinv_0_lt_compat. lra. }
  destruct clip; [|exact X]. unfold clip_by_value. apply Rle_max_compat_r. apply Rle_min_compat_r. exact X.
Qed.
Lemma range_channels vmin vmax in_min in_max clip (t : nda R) d n : dims t = d ++ [n] -> length in_min = n -> length in_max = n ->
  exists t', value_range vmin vmax (PerChannel in_min) (PerChannel in_max) clip (VTensor t) = Ok (VTensor t') /\ dims t' = dims t /\
    forall c, c < n -> exists tc, value_range vmin vmax (Scalar (nth c in_min 0%R)) (Scalar (nth c in_max 0%R)) clip (VTensor t) = Ok (VTensor tc) /\ forall i, at_ t' (i ++ [c]) = at_ tc (i ++ [c]).
Proof.
  intros D L1 L2. unfold value_range. cbn [cast_float bind].
  assert (F : forall l : list R, length l = n -> fits (PerChannel l) (dims t) = true).
  { intros l L. unfold fits. rewrite D. rewrite last_last. destruct (d ++ [n]) eqn:Q; [destruct d; discriminate|]. apply Nat.eqb_eq. auto. }
  rewrite !F by auto. cbn [andb negb]. eexists. split; [reflexivity|]. cbn [dims at_ fits andb negb]. split; [reflexivity|]. intros c _. eexists. split; [reflexivity|]. intros i. cbn [at_ bound_at]. rewrite last_last. reflexivity.
Qed.
Lemma range_mismatch vmin vmax l b clip (t : nda R) : dims t = [] \/ last (dims t) 0 <> length l -> value_range vmin vmax (PerChannel l) b clip (VTensor t) = Raise ValueError /\ value_range vmin vmax b (PerChannel l) clip (VTensor t) = Raise ValueError.
Proof.
  intros H. unfold value_range. cbn [cast_float bind]. assert (F : fits (PerChannel l) (dims t) = false).
  { unfold fits. destruct (dims t) eqn:D; [reflexivity|]. destruct H as [H|H]; [discriminate|]. apply Nat.eqb_neq. auto. }
  rewrite F. rewrite andb_false_r. split; reflexivity.
Qed.
Lemma range_inverted vmin vmax lo hi v t0 : (vmax < vmin)%R -> value_range vmin vmax lo hi true v = Ok (VTensor t0) -> forall i, at_ t0 i = vmin.
Proof.
  intros V E i. unfold value_range in *. destruct (cast_float v) as [t|]; [|discriminate]. cbn [bind] in *. destruct (negb _); [discriminate|]. apply Ok_inj in E. injection E as <-.
  cbn [at_]. set (x := (vmin + _ * _)%R). clearbody x. unfold clip_by_value, Rmin, Rmax. destruct (Rle_dec x vmax); destruct (Rle_dec _ vmin); lra.
Qed.

(** ** Keys of decorated operations *)
Lemma with_keys_ok indef outdef g args kwargs f key inkey outkey :
  g args (filter (fun kv => negb (existsb (String.eqb (fst kv)) ["key"; "inkey"; "outkey"]%string)) kwargs) = Ok f ->
  (dget String.eqb kwargs "key"%string = match key with Some k => Some (LStr k) | None => None end \/ dget String.eqb kwargs "key"%string = Some LNone /\ key = None) ->
  (dget String.eqb kwargs "inkey"%string = Some (LStr inkey) \/ dget String.eqb kwargs "inkey"%string = None /\ inkey = indef) ->
  (dget String.eqb kwargs "outkey"%string = Some (LStr outkey) \/ dget String.eqb kwargs "outkey"%string = None /\ outkey = outdef) ->
  with_keys indef outdef g args kwargs = Ok (ikok key inkey outkey f).
Proof.
  intros G HK HI HO. unfold with_keys, remove_key.
  replace (filter _ (filter _ (filter _ kwargs))) with (filter (fun kv => negb (existsb (String.eqb (fst kv)) ["key"; "inkey"; "outkey"]%string)) kwargs).
  - rewrite G. cbn [bind].
    replace (as_key _) with (Ok key : res (option string)). 2: { destruct HK as [-> |[-> ->]]; [destruct key; reflexivity|reflexivity]. }
    cbn [bind]. replace (as_str _) with (Ok inkey : res string). 2: { destruct HI as [-> |[-> ->]]; reflexivity. }
    cbn [bind]. replace (as_str _) with (Ok outkey : res string). 2: { destruct HO as [-> |[-> ->]]; reflexivity. }
    reflexivity.
  - clear. induction kwargs as [|[k v] kw IH]; [reflexivity|]. cbn [filter fst existsb]. destruct (String.eqb k "key"), (String.eqb k "inkey") eqn:E1, (String.eqb k "outkey") eqn:E2; cbn [orb negb filter fst]; rewrite ?E1, ?E2; cbn [negb filter fst]; rewrite ?E1, ?E2; cbn [negb]; first [exact IH | f_equal; exact IH].
Qed.
Lemma inverted_refuted : exists vmin vmax lo hi (t : nda R) t0,
  value_range vmin vmax lo hi false (VTensor t) = Ok (VTensor t0) /\ (vmax <= at_ t0 [0%nat] <= vmin)%R /\ at_ t0 [0] <> vmin /\
  forall t1, value_range vmin vmax lo hi true (VTensor t) = Ok (VTensor t1) -> forall i, at_ t1 i = vmin.
Proof.
  exists 1%R, (-1)%R, (Scalar 0%R), (Scalar 1%R), {| dims := [1]; at_ := fun _ => (1/2)%R |}. eexists. split; [reflexivity|]. cbn [at_ bound_at].
  split; [lra|]. split; [lra|]. intros t1 E. apply (range_inverted 1 (-1) (Scalar 0) (Scalar 1) (VTensor {| dims := [1]; at_ := fun _ => (1/2)%R |})); [lra|exact E].
Qed.
