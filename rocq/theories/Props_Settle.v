(** Property C70: what consumers report while a Markov chain sampler runs settles at the truth. *)
From Coq Require Import Reals Lra.
From Coquelicot Require Import Coquelicot.
From Verif Require Import Prelude ConsumerModel ConsumerSpec HistModel HistSpec StatsModel StatsSpec StatsInst StatsCosModel StatsCosSpec MHSpec MHRunSpec DRRunSpec MHRun PipeSpec PipeProofs VarSpec VarExample SettleSpec SettleTop.
Import ListNotations.
Local Open Scope R_scope.
Local Open Scope list_scope.
Local Notation length := List.length.

(** C70: let MetropolisHastings, or DelayedRejectionMetropolisHastings with at most one delay, run with random proposals by which every state can be reached from every state, and let a user watch what get() returns during the run. The
    probability that it is ever again eps or more away from the truth after n samples tends to zero as n grows (at least as fast as C/sqrt(n) for some C), however long the run is continued (finite form of the strong law of large numbers).
    MeanValue: *)
Theorem C70_mean_value :
  forall (X : Type) (eqX : forall x y : X, {x = y} + {x <> y}) (states : list X) (ll : X -> R) (K q : X -> X -> R) (E : X -> nat -> (list X -> R) -> R -> Prop),
  NoDup states -> sampler eqX states ll K q E -> connected states q ->
  forall (phi : X -> list R) (d : nat), (forall x, In x states -> length (phi x) = d) ->
  forall i, (i < d)%nat -> settles states 1 two64 E (fun l => mean_value i (map phi l)) (fun l => the_mean R_ops (map phi l) i) (true_mean states ll phi i).
Proof. exact @mean_settles. Qed.
Print Assumptions C70_mean_value.
(** C70: CovarianceMatrix, whatever the uninitialised matrix contained. *)
Theorem C70_covariance :
  forall (X : Type) (eqX : forall x y : X, {x = y} + {x <> y}) (states : list X) (ll : X -> R) (K q : X -> X -> R) (E : X -> nat -> (list X -> R) -> R -> Prop),
  NoDup states -> sampler eqX states ll K q E -> connected states q ->
  forall (phi : X -> list R) (d : nat), (forall x, In x states -> length (phi x) = d) ->
  forall garbage i j, (i < d)%nat -> (j < d)%nat ->
  settles states 2 two64 E (fun l => covariance garbage i j (map phi l)) (fun l => the_covariance R_ops (map phi l) i j)
    (mean_in states (target states ll) (fun x => (nth i (phi x) 0 - true_mean states ll phi i) * (nth j (phi x) 0 - true_mean states ll phi j))).
Proof. exact @covariance_settles. Qed.
Print Assumptions C70_covariance.
(** C70: AutoCovarianceTrace, at every lag. *)
Theorem C70_auto_covariance :
  forall (X : Type) (eqX : forall x y : X, {x = y} + {x <> y}) (states : list X) (ll : X -> R) (K q : X -> X -> R) (E : X -> nat -> (list X -> R) -> R -> Prop),
  NoDup states -> sampler eqX states ll K q E -> connected states q ->
  forall (phi : X -> list R) (d : nat), (forall x, In x states -> length (phi x) = d) ->
  forall max_lag k, (k <= max_lag)%nat ->
  settles states (k + 2) two64 E (fun l => autocovariance_trace max_lag k (map phi l)) (fun l => the_autocovariance_trace R_ops d (map phi l) k) (steady_autocovariance states ll K phi d k).
Proof. exact @trace_settles. Qed.
Print Assumptions C70_auto_covariance.
(** C70: AverageCosineBetweenSuccessiveSamples, at every lag. *)
Theorem C70_average_cosine :
  forall (X : Type) (eqX : forall x y : X, {x = y} + {x <> y}) (states : list X) (ll : X -> R) (K q : X -> X -> R) (E : X -> nat -> (list X -> R) -> R -> Prop),
  NoDup states -> sampler eqX states ll K q E -> connected states q ->
  forall (phi : X -> list R) (d : nat), (forall x, In x states -> length (phi x) = d) ->
  forall garbage1 garbage2 history_length k, (forall x, In x states -> StatsCosSpec.nonzero (phi x)) -> (0 < history_length < 2 ^ 32)%N -> (k < N.to_nat history_length)%nat ->
  settles states (k + 2) (2 ^ 32) E (fun l => average_cosine garbage1 garbage2 history_length k (map phi l)) (fun l => StatsCosSpec.average (cosines (map phi l) (k + 1)))
    (mean_in states (target states ll) (fun x => after states K (k + 1) (fun y => cos_angle (phi y) (phi x)) x)).
Proof. exact @cosine_settles. Qed.
Print Assumptions C70_average_cosine.
(** C70: AcceptanceRatio, at the probability of leaving a state. *)
Theorem C70_acceptance_ratio :
  forall (X : Type) (eqX : forall x y : X, {x = y} + {x <> y}) (states : list X) (ll : X -> R) (K q : X -> X -> R) (E : X -> nat -> (list X -> R) -> R -> Prop),
  NoDup states -> sampler eqX states ll K q E -> connected states q ->
  settles states 1 two64 E (acceptance_ratio eqX) (fun l => INR (1 + changes (fun x y => if eqX x y then true else false) l) / INR (length l)) (mean_in states (target states ll) (fun x => 1 - K x x)).
Proof. exact @acceptance_settles. Qed.
Print Assumptions C70_acceptance_ratio.
(** C70: each bin of a Histogram, at the probability of the bin. *)
Theorem C70_histogram :
  forall (X : Type) (eqX : forall x y : X, {x = y} + {x <> y}) (states : list X) (ll : X -> R) (K q : X -> X -> R) (E : X -> nat -> (list X -> R) -> R -> Prop),
  NoDup states -> sampler eqX states ll K q E -> connected states q ->
  forall (b : build) (phi : X -> dbl) pts n k, subdivision pts -> length pts = (n + 1)%nat -> (k < n)%nat -> (forall x, In x states -> phi x <> DNaN) ->
  settles states 1 two64 E (fun l => bin_frequency b pts n k (map phi l)) (sample_average (fun x => indicator (belongs pts k (phi x)))) (mean_in states (target states ll) (fun x => indicator (belongs pts k (phi x)))).
Proof. exact @histogram_settles. Qed.
Print Assumptions C70_histogram.
(** C70, refuted if not every state can be reached: two equally likely states and proposals that never leave them. *)
Theorem C70_disconnected_refuted :
  sampler Bool.bool_dec both (fun _ => 0) (mh_kernel both Bool.bool_dec (fun _ => 0) stay) stay (expectation (fun _ => 0) stay both) /\
  ~ settles both 1 two64 (expectation (fun _ => 0) stay both) (fun l => mean_value 0 (map zero_one_vector l)) (fun l => the_mean R_ops (map zero_one_vector l) 0)
      (mean_in both (target both (fun _ => 0)) (fun x => nth 0 (zero_one_vector x) 0)).
Proof. exact (conj stay_sampler stay_not). Qed.
Print Assumptions C70_disconnected_refuted.
(** The assumptions are met by two equally likely states and proposals that stay with probability 3/4; the numbers of samples between 2 and 3 of the run true, true, false for which the mean is 1/4 away from 1/2 are not none, and the last is
    not one of them. *)
Example C70_example : NoDup both /\ sampler Bool.bool_dec both (fun _ => 0) (mh_kernel both Bool.bool_dec (fun _ => 0) sticky) sticky (expectation (fun _ => 0) sticky both) /\ connected both sticky /\
  (forall x, In x both -> length (zero_one_vector x) = 1%nat) /\
  ever_far (1/4) (1/2) (fun l => the_mean R_ops (map zero_one_vector l) 0) 2 3 [true; true; false] = true /\ ever_far (1/4) (1/2) (fun l => the_mean R_ops (map zero_one_vector l) 0) 3 3 [true; true; false] = false.
Proof.
  split; [exact both_nodup|]. split; [exact sticky_sampler|]. split; [intros x y Hx Hy; exists 1%nat; exists y; split; [exact Hy|]; split; [destruct x, y; cbn; lra|reflexivity]|]. split; [reflexivity|].
  unfold ever_far, far, the_mean. cbn.
  change (Pos.to_nat 2) with 2%nat. change (Pos.to_nat 3) with 3%nat. replace (INR 2) with 2 by (simpl; lra). replace (INR 3) with 3 by (simpl; lra). split.
  - destruct (Rle_dec _ _) as [|H]; [reflexivity|]. exfalso. apply H. rewrite Rabs_pos_eq; lra.
  - destruct (Rle_dec _ _) as [H|]; [|reflexivity]. exfalso. rewrite Rabs_pos_eq in H; lra.
Qed.
