(** The mean similarities reported by the router of Soft MoE
    (vmoe/projects/soft_moe/router.py:138-140, 153-155 and 165-166; C91), over the real numbers. *)
From Coq Require Import List Arith Bool Reals.
From Verif Require Import Py SoftModel ElmModel GrdModel.
Local Open Scope nat_scope.

(** (sim.sum() - g * n) / (g * n * (n - 1)) for G groups of n elements; the division may be by
    zero. *)
Definition sim_sum (G n : nat) (sim : nat -> nat -> nat -> R) : R := sumf G (fun g => sumf n (fun i => sumf n (fun j => sim g i j))).
Definition sim_mean (G n : nat) (sim : nat -> nat -> nat -> R) : ext :=
  ediv (Fin (sim_sum G n sim - INR (G * n))) (Fin (INR G * INR n * (INR n - 1))).
(** 112-115 and 157-159: [get_metrics] gets the normalized mu, times scale if it was scaled (79-82). *)
Definition metrics_mu (G M D N P : nat) (mu : nat -> nat -> nat -> R) (scale : R) (d n p : nat) : R :=
  let mu := fun d n p => normalize D (fun i => mu i n p) d in
  if G * M * D <? D * N * P then mu d n p else (mu d n p * scale)%R.
Definition metrics_mu_mean (G M D N P : nat) (mu : nat -> nat -> nat -> R) (scale : R) : ext :=
  sim_mean 1 (N * P) (mu_sim D P (metrics_mu G M D N P mu scale)).
