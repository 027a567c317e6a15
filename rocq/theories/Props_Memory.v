(** C66: consumers need memory that does not depend on the number of samples. *)
From Coq Require Import QArith Qcanon.
From Verif Require Import Prelude ConsumerModel StatsModel StatsSpec StatsInst HistModel MemSpec MemProofs.
Import ListNotations.
Local Open Scope list_scope.
Local Notation length := List.length.
Local Open Scope nat_scope.
Definition q (n : Z) (d : positive) : Qc := Q2Qc (n # d).

(** MeanValue keeps one vector. *)
Theorem C66_mean_value : forall {K} (F : kops K) dflt d xs s, xs <> [] -> all_size d xs -> run_consumer (mean_consume F) (mean_init dflt) xs = Ok s -> mean_memory s <= d.
Proof. exact @mean_bound. Qed.
Print Assumptions C66_mean_value.
Example C66_example_mean : exists s, run_consumer (mean_consume Qc_ops) (mean_init None) [[q 1 1; q 2 1]; [q 4 1; q 0 1]; [q 7 1; q 7 1]] = Ok s /\ mean_memory s = 2.
Proof. eexists. split; vm_compute; reflexivity. Qed.

(** CovarianceMatrix keeps one vector and one matrix. *)
Theorem C66_covariance : forall {K} (F : kops K) garbage d xs s, all_size d xs -> run_consumer (cov_consume F) (cov_init garbage) xs = Ok s -> cov_memory s <= d + d * d.
Proof. exact @cov_bound. Qed.
Print Assumptions C66_covariance.
Example C66_example_covariance : match run_consumer (cov_consume Qc_ops) (cov_init (fun _ _ => q 7 1)) [[q 1 1; q 2 1]; [q 4 1; q 0 1]; [q 7 1; q 7 1]] with Ok s => cov_memory s = 6 | _ => False end.
Proof. vm_compute. reflexivity. Qed.

(** AutoCovarianceTrace: for the first 2^64 samples, and for any number of samples: it forgets to forget one sample each time n_samples overflows. *)
Theorem C66_auto_covariance_trace : forall {K} (F : kops K) max_lag d xs s, all_size d xs -> run_consumer (act_consume F max_lag) act_init xs = Ok s ->
  act_memory s <= d + (max_lag + 1) * (1 + d) + (max_lag + wraps (length xs)) * d /\
  ((N.of_nat (length xs) <= two64)%N -> act_memory s <= d + (max_lag + 1) * (1 + d) + (max_lag + 1) * d).
Proof. exact @act_bounds. Qed.
Print Assumptions C66_auto_covariance_trace.
Theorem C66_auto_covariance_matrix : forall {K} (F : kops K) garbage max_lag d xs s, all_size d xs -> run_consumer (acm_consume F garbage max_lag) acm_init xs = Ok s ->
  acm_memory d s <= d + (max_lag + 1) * (d * d + 2 * d) + (max_lag + wraps (length xs)) * d /\
  ((N.of_nat (length xs) <= two64)%N -> acm_memory d s <= d + (max_lag + 1) * (d * d + 2 * d) + (max_lag + 1) * d).
Proof. exact @acm_bounds. Qed.
Print Assumptions C66_auto_covariance_matrix.
(** These remember the max_lag + 1 samples they got last, and no other: with any arithmetic. *)
Theorem C66_window : forall {K} (F : kops K) garbage max_lag xs, (N.of_nat (length xs) < two64)%N ->
  (forall s, run_consumer (act_consume F max_lag) act_init xs = Ok s -> lg_prev s = firstn (max_lag + 1) (rev xs)) /\
  (forall s, run_consumer (acm_consume F garbage max_lag) acm_init xs = Ok s -> lg_prev s = firstn (max_lag + 1) (rev xs)).
Proof. exact @windows. Qed.
Print Assumptions C66_window.
Example C66_example_window : exists s, run_consumer (act_consume Qc_ops 1) act_init [[q 1 1]; [q 2 1]; [q 6 1]; [q 9 1]] = Ok s /\ lg_prev s = [[q 9 1]; [q 6 1]] /\
  act_memory s = 1 + 2 * (1 + 1) + 2 * 1.
Proof. eexists. split; [|split]; vm_compute; reflexivity. Qed.
Example C66_example_matrix : match run_consumer (acm_consume Qc_ops (fun _ _ _ => q 5 1) 1) acm_init [[q 1 1]; [q 2 1]; [q 6 1]; [q 9 1]] with
  Ok s => lg_prev s = [[q 9 1]; [q 6 1]] /\ acm_memory 1 s = 1 + 2 * 3 + 2 | _ => False end.
Proof. split; vm_compute; reflexivity. Qed.

(** A Histogram keeps its bins and their ends, whatever it gets. *)
Theorem C66_histogram : forall b xs s0 s, run_consumer (hist_consume b) s0 xs = Ok s -> h_pts s = h_pts s0 /\ length (h_bins s) = length (h_bins s0).
Proof. exact hist_bound. Qed.
Print Assumptions C66_histogram.
