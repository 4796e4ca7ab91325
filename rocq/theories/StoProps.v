(** C79 and C80: stored examples, and the reports of an attack. *)
From Coq Require Import String List Arith ZArith Bool Reals Lra Lia.
From Verif Require Import EvalModel AttModel AttSpec StoModel StoSpec StoProofs StoProofs2 StoProofs3 Py.
Import ListNotations.
Local Open Scope list_scope.
Local Open Scope nat_scope.

(** Whatever the steps and the interval of the transfers, each write gives everything stored before it,
    by key, in the order of the calls; nothing is lost or doubled by transfers and earlier writes. *)
Theorem C79_writes : forall (row : Type) (every : Z) (shape : string -> list nat) (l : list (event row)),
  every <> 0%Z -> compatible row shape (stored row l) ->
  play row (new_storage row every) l = Ok (map (expected row) (histories row [] l)).
Proof. exact storage_writes. Qed.
Print Assumptions C79_writes.

Definition one_row (n : nat) : arr nat := Arr (Some []) [n].
Definition calls : list (event nat) :=
  [Write; Store 1 [("a", one_row 1); ("b", one_row 2)]; Store 2 [("b", one_row 3)]; Write; Store 3 [("c", one_row 4); ("a", one_row 5)]; Write; Write]%string.
Example C79_writes_ex : compatible nat (fun _ => []) (stored nat calls) /\
  play nat (new_storage nat 2) calls =
  Ok [None; Some [("a", Arr (Some []) [1]); ("b", Arr (Some []) [2; 3])];
      Some [("a", Arr (Some []) [1; 5]); ("b", Arr (Some []) [2; 3]); ("c", Arr (Some []) [4])];
      Some [("a", Arr (Some []) [1; 5]); ("b", Arr (Some []) [2; 3]); ("c", Arr (Some []) [4])]]%string /\
  map (expected nat) (histories nat [] calls) =
     [None; Some [("a", Arr (Some []) [1]); ("b", Arr (Some []) [2; 3])];
      Some [("a", Arr (Some []) [1; 5]); ("b", Arr (Some []) [2; 3]); ("c", Arr (Some []) [4])];
      Some [("a", Arr (Some []) [1; 5]); ("b", Arr (Some []) [2; 3]); ("c", Arr (Some []) [4])]]%string.
Proof. split; [repeat constructor; discriminate|]. split; reflexivity. Qed.

(** With an interval of 0 the first call of store fails. *)
Theorem C79_zero : forall (row : Type) (n : Z) (a : list (string * arr row)) (l : list (event row)),
  play row (new_storage row 0) (Store n a :: l) = Raise ZeroDivisionError.
Proof. exact storage_zero. Qed.
Print Assumptions C79_zero.
Example C79_zero_ex : play nat (new_storage nat 0) [Write; Write] = Ok [None; None].
Proof. reflexivity. Qed.

(** The attack of the loop is the one of C42. *)
Theorem C80_attack : forall (X Y rngs_t : Type) attack_fn compute_fn (s : attack_state rngs_t) (x : list X) (y : list Y) (v : list bool),
  stateful_attack X Y rngs_t attack_fn compute_fn s x y (Some v) =
  bind (attack X Y rngs_t attack_fn compute_fn s x y v) (fun r => Ok (fst (fst (fst r)), snd (fst (fst r)))).
Proof. exact attack_same. Qed.
Print Assumptions C80_attack.

(** Storing the examples does not change the reports or the errors. *)
Theorem C80_storing : forall (X Y rngs_t : Type) attack_fn compute_fn name (keys : list nat) (rngs : rngs_t) (n : nat) (every : Z) (bs : list (list X * list Y * list bool)),
  every <> 0%Z ->
  match run X Y rngs_t attack_fn compute_fn name keys rngs n None bs with
  | Ok rep => examples _ _ _ rep = None /\
      exists f, run X Y rngs_t attack_fn compute_fn name keys rngs n (Some every) bs =
                Ok (Report _ _ _ (before _ _ _ rep) (after_step _ _ _ rep) (after _ _ _ rep) (final _ _ _ rep) f)
  | Raise e => run X Y rngs_t attack_fn compute_fn name keys rngs n (Some every) bs = Raise e
  end.
Proof. exact run_stored. Qed.
Print Assumptions C80_storing.

(** The stored examples are those of the batches in their order, and the reports can be recomputed from
    the stored examples alone: the mean losses, the error rates, the rate of changed predictions and the
    routing changes, over the images marked valid. *)
Theorem C80_reports : forall (X Y rngs_t : Type) attack_fn compute_fn name (value : Y -> nat -> R) (tokens experts : nat -> nat)
    (keys : list nat) (rngs : rngs_t) (n : nat) (every : Z) (bs : list (list X * list Y * list bool)) rep,
  sound_outputs X Y compute_fn value tokens experts -> NoDup keys -> (forall a b, In a keys -> In b keys -> name a = name b -> a = b) ->
  Forall (fun b => length (snd (fst b)) = length (snd b)) bs -> bs <> [] ->
  run X Y rngs_t attack_fn compute_fn name keys rngs n (Some every) bs = Ok rep ->
  exists f, examples _ _ _ rep = Some f /\
    cells X Y "x_0" f = map (CX X Y) (flat_map (fun b => fst (fst b)) bs) /\
    cells X Y "y" f = map (CY X Y) (flat_map (fun b => snd (fst b)) bs) /\
    cells X Y "valid" f = map (CB X Y) (flat_map snd bs) /\
    before _ _ _ rep = [("error", error_rate X Y value "y_0" f); ("loss", mean_loss X Y "l_0" f)]%string /\
    after_step _ _ _ rep = n /\
    after _ _ _ rep = [("error", error_rate X Y value "y_m" f); ("loss", mean_loss X Y "l_m" f); ("prediction_changes", changed_rate X Y f)]%string ++
      map (fun k => (("routing_changes/" ++ name k)%string, routing_change X Y (experts k) ("cw_0/" ++ name k) ("cw_m/" ++ name k) f)) keys.
Proof. exact run_reports. Qed.
Print Assumptions C80_reports.

(** An attack that changes images to true and a model whose prediction and routing depend on the image:
    three images, of which one is padding. *)
Definition ex_attack (x : list bool) (y : list nat) (r : unit) : res (list bool * unit) := Ok (map (fun _ => true) x, r).
Definition ex_value (y p : nat) : R := if y =? p then 1%R else 0%R.
Definition ex_compute (x : list bool) (y : list nat) (r : unit) : res outputs :=
  let pred := map (fun b : bool => if b then 1 else 0) x in
  Ok (Outputs (map (fun b : bool => Some (if b then 2%R else 1%R)) x) pred (map (fun yp => Some (ex_value (fst yp) (snd yp))) (combine y pred))
              [(0, map (fun b : bool => [if b then [1; 0]%R else [0; 1]%R]) x)]).
Definition ex_batches : list (list bool * list nat * list bool) := [([false], [0], [true]); ([true; false], [1; 0], [true; false])].
Example C80_reports_ex :
  sound_outputs bool nat ex_compute ex_value (fun _ => 1) (fun _ => 2) /\
  Forall (fun b : list bool * list nat * list bool => length (snd (fst b)) = length (snd b)) ex_batches /\
  exists rep, run bool nat unit ex_attack ex_compute (fun _ => "r"%string) [0] tt 5 (Some 1%Z) ex_batches = Ok rep /\
    num_images _ (final _ _ _ rep) = 2 /\ num_changes _ (final _ _ _ rep) = 1.
Proof.
  split; [|split].
  - intros x y r o E. apply (f_equal (fun z => match z with Ok v => v | Raise _ => o end)) in E. cbn in E. subst o. cbn [o_correct o_pred o_cw]. split; [reflexivity|].
    constructor; [|constructor]. cbn [fst snd]. split; [lia|]. apply Forall_forall. intros im H. apply in_map_iff in H. destruct H as [b [<- _]].
    split; [reflexivity|]. constructor; [destruct b; reflexivity|constructor].
  - repeat constructor.
  - eexists. split; [reflexivity|split; reflexivity].
Qed.
