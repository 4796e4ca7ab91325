(** C39: batches for evaluation; C40: prefetching.  Nothing but the theorems. *)
From Coq Require Import List Arith ZArith Bool Lia Permutation.
From Verif Require Import Py DataModel DataSpec DataProofs.
Import ListNotations.

(** ** C39 *)
(** Every process gets the same number of batches, all full.  Together they hold every example
    exactly once, with its own validity mark, and besides only fake examples; no smaller number
    of batches has room for the examples of each process.  For any order in which each process
    gets its examples. *)
Theorem C39_batches {X Y} (process : X -> Y * option bool) zeros shuffled device_count batch_size (parts : list (list X)) :
  (forall i l, Permutation (shuffled i l) l) -> parts <> [] -> 0 < batch_size -> batch_size mod length parts = 0 -> batch_size mod device_count = 0 ->
  exists bss k n,
    rmap (get_dataset X Y process zeros shuffled device_count batch_size None parts) (seq 0 (length parts)) = Ok bss /\
    length bss = length parts /\
    Forall (fun bs => length bs = k /\ Forall (fun b => length b = batch_size / length parts) bs) bss /\
    Permutation (concat (concat bss)) (map (processed process) (concat parts) ++ repeat (zeros, false) n) /\
    length parts * (k * (batch_size / length parts)) = length (concat parts) + n /\
    forall k', Forall (fun p => length p <= k' * (batch_size / length parts)) parts -> k <= k'.
Proof. intros SH. exact (all_ok X Y process zeros shuffled SH device_count batch_size parts). Qed.
Print Assumptions C39_batches.
Example C39_batches_ex : rmap (get_dataset nat nat (fun x => (x, None)) 0 (fun _ l => rev l) 4 4 None [[1; 2; 3]; [4; 5]]) [0; 1] =
  Ok [[[(3, true); (2, true)]; [(1, true); (0, false)]]; [[(5, true); (4, true)]; [(0, false); (0, false)]]].
Proof. vm_compute. reflexivity. Qed.

(** What one process gets: its own examples *)
Theorem C39_one_process {X Y} (process : X -> Y * option bool) zeros shuffled device_count batch_size (parts : list (list X)) i :
  (forall i l, Permutation (shuffled i l) l) -> i < length parts -> 0 < batch_size -> batch_size mod length parts = 0 -> batch_size mod device_count = 0 ->
  exists bs n, get_dataset X Y process zeros shuffled device_count batch_size None parts i = Ok bs /\
    Permutation (concat bs) (map (processed process) (nth i parts []) ++ repeat (zeros, false) n).
Proof. intros SH. exact (get_own X Y process zeros shuffled SH device_count batch_size parts i). Qed.
Print Assumptions C39_one_process.

(** A batch size that the processes or the devices do not divide is an error. *)
Theorem C39_errors {X Y} (process : X -> Y * option bool) zeros shuffled device_count batch_size f (parts : list (list X)) i :
  batch_size mod length parts <> 0 \/ batch_size mod device_count <> 0 ->
  get_dataset X Y process zeros shuffled device_count batch_size f parts i = Raise ValueError.
Proof. exact (get_error X Y process zeros shuffled device_count batch_size f parts i). Qed.
Print Assumptions C39_errors.
Example C39_errors_ex : get_dataset nat nat (fun x => (x, None)) 0 (fun _ l => l) 2 3 None [[1]; [2]] 0 = Raise ValueError.
Proof. apply C39_errors. left. discriminate. Qed.

(** The count of fake examples knows nothing of a filter: with one, the processes get different
    numbers of batches and an example that passes the filter is lost. *)
Theorem C39_filter_refuted :
  exists (parts : list (list nat)) (f : nat -> bool) b0 b1,
    rmap (get_dataset nat nat (fun x => (x, None)) 0 (fun _ l => l) 2 4 (Some f) parts) [0; 1] = Ok [b0; b1] /\
    length b0 <> length b1 /\ In 3 (concat parts) /\ f 3 = true /\ ~ In (3, true) (concat (b0 ++ b1)).
Proof.
  exists [[1; 2]; [3; 4]], (fun x => negb (x =? 4)), [[(1, true); (2, true)]], [].
  split; [vm_compute; reflexivity|]. split; [simpl; lia|]. split; [simpl; tauto|]. split; [reflexivity|].
  simpl. intros [H|[H|[]]]; discriminate.
Qed.
Print Assumptions C39_filter_refuted.

(** ** C40 *)
(** Any number of calls of next() gives what the source without prefetching gives, for every
    prefetch size, for a source that does not fail and stops for good. *)
Theorem C40_same_items {T U} (to_global : T -> U) source size n :
  never_fails source -> stops_for_good source -> snd (prefetch_run T U to_global source size n) = map (direct to_global source) (seq 0 n).
Proof. exact (proj2 (proj2 (proj2 (run_ok T U to_global source size n)))). Qed.
Print Assumptions C40_same_items.
Example C40_same_items_ex : let source n := if n <? 3 then Item (10 * n) else Stop in
  never_fails source /\ stops_for_good source /\
  snd (prefetch_run nat nat S source (Some 2%Z) 5) = [Item 1; Item 11; Item 21; Stop; Stop].
Proof.
  split; [intros n; destruct (n <? 3); discriminate|]. split; [|vm_compute; reflexivity].
  intros n. destruct (Nat.ltb_spec n 3); [discriminate|]. intros _. destruct (Nat.ltb_spec (S n) 3); [lia|auto].
Qed.

(** For any source, an item that comes out is the item of the source with the same number. *)
Theorem C40_never_wrong {T U} (to_global : T -> U) source size n k y :
  nth_error (snd (prefetch_run T U to_global source size n)) k = Some (Item y) -> direct to_global source k = Item y.
Proof. exact (proj1 (proj2 (proj2 (run_ok T U to_global source size n))) k y). Qed.
Print Assumptions C40_never_wrong.

(** After n calls at most n + size - 1 items have been taken from the source (n, without
    prefetching). *)
Theorem C40_read_ahead {T U} (to_global : T -> U) source size n :
  taken (fst (prefetch_run T U to_global source size n)) <= n + match size with Some z => if (0 <? z)%Z then Z.to_nat z else 1 | None => 1 end - 1.
Proof. exact (run_taken T U to_global source size n). Qed.
Print Assumptions C40_read_ahead.
Example C40_read_ahead_ex : taken (fst (prefetch_run nat nat S (fun n => Item n) (Some 3%Z) 2)) = 4.
Proof. vm_compute. reflexivity. Qed.

(** When the source fails, the items in the queue are lost: with prefetching, the first items
    never come out. *)
Theorem C40_failing_source_refuted :
  exists source : nat -> next_t nat, stops_for_good source /\
    snd (prefetch_run nat nat (fun x => x) source None 3) = [Item 0; Item 1; Fails] /\
    snd (prefetch_run nat nat (fun x => x) source (Some 3%Z) 3) = [Fails; Stop; Stop].
Proof.
  exists (fun n => if n =? 2 then Fails else if n <? 2 then Item n else Stop). split; [|split; vm_compute; reflexivity].
  intros n. destruct (Nat.eqb_spec n 2); [discriminate|]. destruct (Nat.ltb_spec n 2); [discriminate|]. intros _.
  destruct (Nat.eqb_spec (S n) 2); [lia|]. destruct (Nat.ltb_spec (S n) 2); [lia|auto].
Qed.
Print Assumptions C40_failing_source_refuted.

(** The global array made from the batches of [p] processes with [d] devices each has every row
    of them exactly once, and the place of a row does not depend on what it holds: rows of
    images and rows of labels stay together. *)
Theorem C40_global_rows {A} mesh p d r (xs : list (list A)) :
  0 < d -> same_devices mesh p d -> length xs = p -> Forall (fun x => length x = r) xs -> r mod d = 0 ->
  exists g, to_global_array mesh xs = Ok g /\ Permutation g (concat xs) /\
    forall B (f : A -> B), to_global_array mesh (map (map f) xs) = Ok (map f g).
Proof. exact (global_all mesh p d r xs). Qed.
Print Assumptions C40_global_rows.
Example C40_global_rows_ex : same_devices [1; 0; 1; 0] 2 2 /\
  to_global_array [1; 0; 1; 0] [[1; 2; 3; 4]; [5; 6; 7; 8]] = Ok [5; 6; 1; 2; 7; 8; 3; 4].
Proof.
  split; [|vm_compute; reflexivity]. split; [reflexivity|]. split.
  - intros q H. simpl in H. do 4 (destruct q as [|q]; [simpl; lia|]). lia.
  - intros i H. do 2 (destruct i as [|i]; [reflexivity|]). lia.
Qed.

(** A batch that the devices of a process do not divide is an error. *)
Theorem C40_global_errors {A} mesh p d (xs : list (list A)) i :
  0 < d -> same_devices mesh p d -> length xs = p -> i < p -> length (nth i xs []) mod d <> 0 -> to_global_array mesh xs = Raise ValueError.
Proof. exact (global_error mesh p d xs i). Qed.
Print Assumptions C40_global_errors.
