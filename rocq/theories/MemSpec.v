(** How much consumers remember: the number of scalars in their member variables. *)
From Verif Require Import Prelude ConsumerModel StatsModel StatsSpec HistModel.
Import ListNotations.
Local Open Scope list_scope.
Local Notation length := List.length.

Definition scalars {K} (vs : list (list K)) : nat := list_sum (map (@length K) vs).
Definition of_option {A} (o : option A) : list A := match o with Some a => [a] | None => [] end.
(** MeanValue (mean_value.impl.h:130-139): current_mean. *)
Definition mean_memory {K} (s : @mean_state K) : nat := scalars (of_option (mv_mean s)).
(** CovarianceMatrix (covariance_matrix.impl.h:110-125): current_mean and the matrix. *)
Definition cov_memory {K} (s : @cov_state K) : nat := scalars (of_option (cv_mean s)) + cv_dim s * cv_dim s.
(** AutoCovarianceTrace (auto_covariance_trace.impl.h:340-383): current_mean, alpha (a scalar for each lag), beta (a vector for each lag), previous_samples. *)
Definition act_memory {K} (s : @lagged K (K * list K)) : nat :=
  scalars (of_option (lg_mean s)) + length (lg_lags s) + scalars (map snd (lg_lags s)) + scalars (lg_prev s).
(** AutoCovarianceMatrix (auto_covariance_matrix.impl.h:300-343): current_mean, alpha (a d x d matrix for each lag), beta, eta, previous_samples. *)
Definition acm_memory {K} (d : nat) (s : @lagged K (matrix K * list K * list K)) : nat :=
  scalars (of_option (lg_mean s)) + length (lg_lags s) * (d * d) + scalars (map (fun a => snd (fst a)) (lg_lags s)) + scalars (map snd (lg_lags s)) + scalars (lg_prev s).
(** How often a counter of 64 bits has been zero when one of n samples arrived. *)
Definition wraps (n : nat) : nat := N.to_nat ((N.of_nat n + (two64 - 1)) / two64).
