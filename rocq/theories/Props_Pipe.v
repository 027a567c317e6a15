(** Property C60: what the consumers and filters behind a Markov chain sampler report. *)
From Coq Require Import Reals Lra QArith Qreals.
From Coquelicot Require Import Coquelicot.
From Verif Require Import Prelude ConsumerModel ConsumerSpec FilterModel HistModel HistSpec ProducerModel ProducerSpec XReal MHSpec StatsModel StatsSpec StatsInst StatsCosModel StatsCosSpec MHRunSpec DRRunSpec MHRun
  PipeSpec PipeProofs.
Import ListNotations.
Local Open Scope R_scope.
Local Open Scope list_scope.
Local Notation length := List.length.

(** C60: let MetropolisHastings, or DelayedRejectionMetropolisHastings with at most one delay, run with random proposals such that every state can be reached from every state. Samples are sent to MeanValue as vectors phi(x) of size d: the mean
    over n samples converges to the mean of the target. *)
Theorem C60_mean_value :
  forall (X : Type) (eqX : forall x y : X, {x = y} + {x <> y}) (states : list X) (ll : X -> R) (K q : X -> X -> R) (E : X -> nat -> (list X -> R) -> R -> Prop),
  NoDup states -> sampler eqX states ll K q E -> connected states q ->
  forall (phi : X -> list R) (d : nat), (forall x, In x states -> length (phi x) = d) ->
  forall i, (i < d)%nat ->
  converges states 1 two64 E (fun l => mean_value i (map phi l)) (fun l => the_mean R_ops (map phi l) i) (mean_in states (target states ll) (fun x => nth i (phi x) 0)).
Proof. exact @mean_converges. Qed.
Print Assumptions C60_mean_value.
(** C60: CovarianceMatrix converges to the covariance matrix of the target (from two samples on; the matrix it returns for one sample is uninitialised memory). *)
Theorem C60_covariance :
  forall (X : Type) (eqX : forall x y : X, {x = y} + {x <> y}) (states : list X) (ll : X -> R) (K q : X -> X -> R) (E : X -> nat -> (list X -> R) -> R -> Prop),
  NoDup states -> sampler eqX states ll K q E -> connected states q ->
  forall (phi : X -> list R) (d : nat), (forall x, In x states -> length (phi x) = d) ->
  forall garbage i j, (i < d)%nat -> (j < d)%nat ->
  let mu i := mean_in states (target states ll) (fun x => nth i (phi x) 0) in
  converges states 2 two64 E (fun l => covariance garbage i j (map phi l)) (fun l => the_covariance R_ops (map phi l) i j)
    (mean_in states (target states ll) (fun x => (nth i (phi x) 0 - mu i) * (nth j (phi x) 0 - mu j))).
Proof. exact @covariance_converges. Qed.
Print Assumptions C60_covariance.
(** C60: AutoCovarianceTrace converges, for each lag k, to the trace of the autocovariance of the chain in its steady state: the covariance of a sample distributed like the target and the sample k steps later ... *)
Theorem C60_autocovariance_trace :
  forall (X : Type) (eqX : forall x y : X, {x = y} + {x <> y}) (states : list X) (ll : X -> R) (K q : X -> X -> R) (E : X -> nat -> (list X -> R) -> R -> Prop),
  NoDup states -> sampler eqX states ll K q E -> connected states q ->
  forall (phi : X -> list R) (d : nat), (forall x, In x states -> length (phi x) = d) ->
  forall max_lag k, (k <= max_lag)%nat ->
  let mu i := mean_in states (target states ll) (fun x => nth i (phi x) 0) in
  converges states (k + 2) two64 E (fun l => autocovariance_trace max_lag k (map phi l)) (fun l => the_autocovariance_trace R_ops d (map phi l) k)
    (sumR (fun i => mean_in states (target states ll) (fun x => (nth i (phi x) 0 - mu i) * after states K k (fun y => nth i (phi y) 0 - mu i) x)) (seq 0 d)).
Proof. exact @trace_converges. Qed.
Print Assumptions C60_autocovariance_trace.
(** ... and AutoCovarianceMatrix to this autocovariance: the entries of its matrices also contain what was in the memory before, divided by n - k - 1. *)
Theorem C60_autocovariance_matrix :
  forall (X : Type) (eqX : forall x y : X, {x = y} + {x <> y}) (states : list X) (ll : X -> R) (K q : X -> X -> R) (E : X -> nat -> (list X -> R) -> R -> Prop),
  NoDup states -> sampler eqX states ll K q E -> connected states q ->
  forall (phi : X -> list R) (d : nat), (forall x, In x states -> length (phi x) = d) ->
  forall garbage max_lag k i j, (k <= max_lag)%nat -> (i < d)%nat -> (j < d)%nat ->
  let mu i := mean_in states (target states ll) (fun x => nth i (phi x) 0) in
  converges states (k + 2) two64 E (fun l => autocovariance garbage max_lag k i j (map phi l))
    (fun l => the_autocovariance R_ops (map phi l) k i j + garbage k i j / INR (length l - (k + 1)))
    (mean_in states (target states ll) (fun x => (nth j (phi x) 0 - mu j) * after states K k (fun y => nth i (phi y) 0 - mu i) x)).
Proof. exact @matrix_converges. Qed.
Print Assumptions C60_autocovariance_matrix.
(** C60: AverageCosineBetweenSuccessiveSamples converges to the mean cosine of the angle between a sample distributed like the target and the one k + 1 steps later (vectors that are not zero; the counter has 32 bits). *)
Theorem C60_average_cosine :
  forall (X : Type) (eqX : forall x y : X, {x = y} + {x <> y}) (states : list X) (ll : X -> R) (K q : X -> X -> R) (E : X -> nat -> (list X -> R) -> R -> Prop),
  NoDup states -> sampler eqX states ll K q E -> connected states q ->
  forall (phi : X -> list R) (d : nat), (forall x, In x states -> length (phi x) = d) ->
  forall garbage1 garbage2 history_length k, (forall x, In x states -> StatsCosSpec.nonzero (phi x)) -> (0 < history_length < 2 ^ 32)%N -> (k < N.to_nat history_length)%nat ->
  converges states (k + 2) (2 ^ 32) E (fun l => average_cosine garbage1 garbage2 history_length k (map phi l)) (fun l => StatsCosSpec.average (cosines (map phi l) (k + 1)))
    (mean_in states (target states ll) (fun x => after states K (k + 1) (fun y => cos_angle (phi y) (phi x)) x)).
Proof. exact @cosine_converges. Qed.
Print Assumptions C60_average_cosine.
(** C60: AcceptanceRatio converges to the probability that the chain moves when it starts with the target distribution: where a sample can be proposed from itself, this is less than the probability that a proposal is accepted. *)
Theorem C60_acceptance_ratio :
  forall (X : Type) (eqX : forall x y : X, {x = y} + {x <> y}) (states : list X) (ll : X -> R) (K q : X -> X -> R) (E : X -> nat -> (list X -> R) -> R -> Prop),
  NoDup states -> sampler eqX states ll K q E -> connected states q ->
  converges states 1 two64 E (acceptance_ratio eqX) (fun l => INR (1 + changes (fun x y => if eqX x y then true else false) l) / INR (length l))
    (mean_in states (target states ll) (fun x => 1 - K x x)).
Proof. exact @acceptance_converges. Qed.
Print Assumptions C60_acceptance_ratio.
(** C60: the fraction of the samples in each bin of a Histogram converges to the target's probability of that bin. *)
Theorem C60_histogram :
  forall (X : Type) (eqX : forall x y : X, {x = y} + {x <> y}) (states : list X) (ll : X -> R) (K q : X -> X -> R) (E : X -> nat -> (list X -> R) -> R -> Prop),
  NoDup states -> sampler eqX states ll K q E -> connected states q ->
  forall (b : build) (phi : X -> dbl) pts n k, subdivision pts -> length pts = (n + 1)%nat -> (k < n)%nat -> (forall x, In x states -> phi x <> DNaN) ->
  converges states 1 two64 E (fun l => bin_frequency b pts n k (map phi l)) (sample_average (fun x => indicator (belongs pts k (phi x))))
    (mean_in states (target states ll) (fun x => indicator (belongs pts k (phi x)))).
Proof. exact @histogram_converges. Qed.
Print Assumptions C60_histogram.
(** C60: the probability that MaximumProbabilitySample has not found a sample of maximal likelihood decays exponentially with the number of samples (the samples carry log likelihoods lq, rational and not the lowest double). *)
Theorem C60_maximum_probability_sample :
  forall (X : Type) (eqX : forall x y : X, {x = y} + {x <> y}) (states : list X) (ll : X -> R) (K q : X -> X -> R) (E : X -> nat -> (list X -> R) -> R -> Prop),
  NoDup states -> sampler eqX states ll K q E -> connected states q ->
  forall (lq : X -> Q), (forall x, In x states -> deq (DFin (lq x)) lowest = false) ->
  exists m e, (0 < m)%nat /\ 0 < e <= 1 /\
  forall x0 n, In x0 states -> exists v, E x0 n (fun l => indicator (negb (finds_maximum states lq l))) v /\ 0 <= v <= (1 - e) ^ (n / m).
Proof. exact @maximum_found. Qed.
Print Assumptions C60_maximum_probability_sample.
(** C60: whatever converges in this sense converges in probability: a deviation of eps or more has a probability of at most C / (n eps^2). *)
Theorem C60_in_probability :
  forall (X : Type) (eqX : forall x y : X, {x = y} + {x <> y}) (states : list X) (ll : X -> R) (K q : X -> X -> R) (E : X -> nat -> (list X -> R) -> R -> Prop),
  NoDup states -> sampler eqX states ll K q E ->
  forall least limit code statistic c, converges states least limit E code statistic c ->
  exists C, forall eps x0 n, 0 < eps -> In x0 states -> (0 < n)%nat ->
  (exists v, 0 <= v <= C / (INR n * eps ^ 2) /\ E x0 n (fun l => indicator (far eps (statistic l) c)) v) /\
  ((least <= n)%nat -> (N.of_nat n < limit)%N -> exists v, 0 <= v <= C / (INR n * eps ^ 2) /\ E x0 n (fun l => indicator (far eps (code l) c)) v).
Proof. exact @chebyshev. Qed.
Print Assumptions C60_in_probability.
(** C60: burn-in does not change limits: whatever converges also converges behind a DiscardFirstN filter. *)
Theorem C60_burn_in :
  forall (X : Type) (eqX : forall x y : X, {x = y} + {x <> y}) (states : list X) (ll : X -> R) (K q : X -> X -> R) (E : X -> nat -> (list X -> R) -> R -> Prop),
  NoDup states -> sampler eqX states ll K q E ->
  forall k least limit code statistic c, (0 < least)%nat -> (limit <= two64)%N -> converges states least limit E code statistic c ->
  converges states (k + least) limit E (fun l => code (discard k l)) (fun l => statistic (skipn k l)) c.
Proof. exact @burn_in. Qed.
Print Assumptions C60_burn_in.
(** C60: the mean of every k-th sample, as computed by TakeEveryNth and MeanValue, converges to the mean of the target if every state can be reached from every state by the same number of proposals ... *)
Theorem C60_thinning :
  forall (X : Type) (eqX : forall x y : X, {x = y} + {x <> y}) (states : list X) (ll : X -> R) (K q : X -> X -> R) (E : X -> nat -> (list X -> R) -> R -> Prop),
  NoDup states -> sampler eqX states ll K q E -> mixing states q ->
  forall k f, (0 < k)%nat -> (N.of_nat k < two64)%N ->
  converges states 1 two64 E (fun l => estimate f (take_every k l)) (fun l => sample_average f (pick (fun i => (i mod k =? 0)%nat) l)) (mean_in states (target states ll) f).
Proof. exact @thinning. Qed.
Print Assumptions C60_thinning.
(** ... but, refuted, not if every state can be reached from every state: with two equally likely states, each of which always proposes the other, MeanValue behind TakeEveryNth(2) only sees the state in which the chain did not start. *)
Theorem C60_thinning_refuted :
  sampler Bool.bool_dec both (fun _ => 0) (mh_kernel both Bool.bool_dec (fun _ => 0) flip) flip (expectation (fun _ => 0) flip both) /\ connected both flip /\
  (forall n, (0 < n)%nat -> (N.of_nat n < two64)%N -> expectation (fun _ => 0) flip both true n (fun l => (estimate one_if (take_every 2 l) - 1/2) ^ 2) (1/4)) /\
  mean_in both (target both (fun _ => 0)) one_if = 1/2 /\
  ~ converges both 1 two64 (expectation (fun _ => 0) flip both) (fun l => estimate one_if (take_every 2 l)) (fun l => sample_average one_if (pick (fun i => (i mod 2 =? 0)%nat) l))
      (mean_in both (target both (fun _ => 0)) one_if).
Proof. exact (conj flip_sampler (conj flip_connected (conj flip_code (conj flip_mean flip_not)))). Qed.
Print Assumptions C60_thinning_refuted.

(** Samplers as assumed: Metropolis-Hastings throwing a coin, and with one delay; and what the code computes from [true; true; false]. *)
Example C60_example : let q := fun _ _ : bool => 1/2 in let ll := fun x : bool => if x then 0 else -1 in
  sampler Bool.bool_dec both ll (mh_kernel both Bool.bool_dec ll q) q (expectation ll q both) /\
  (exists K E, sampler Bool.bool_dec both ll K q E) /\
  connected both q /\ mixing both q /\
  estimate one_if (discard 1 [true; true; false]) = 1/2 /\ take_every 2 [true; true; false] = [true; false] /\
  acceptance_ratio Bool.bool_dec [true; true; false] = 2/3 /\ finds_maximum both (fun x => if x then 0%Q else (-1 # 1)%Q) [false; true] = true.
Proof.
  cbv zeta. assert (Hp : proposal_distribution both (fun _ _ : bool => 1/2)) by (constructor; intros; cbn; lra).
  assert (Hnz : forall x : bool, MHSpec.nonzero (if x then 0 else -1)).
  { intros x. unfold MHSpec.nonzero. assert (1 < dbl_max) by (unfold dbl_max; lra). destruct x; lra. }
  split; [now apply metropolis_hastings|].
  split.
  { eexists. eexists. apply (delayed_rejection Bool.bool_dec both (fun x : bool => if x then 0 else -1) (fun (_ : bool) (_ : list bool) (_ : bool) => 1/2) (fun _ _ _ => 1) 1).
    - constructor; intros; cbn; lra.
    - split; intros; reflexivity.
    - auto. }
  split; [intros x y Hx Hy; exists 1%nat; exists y; split; [exact Hy|split; [lra|reflexivity]]|].
  split; [exists 1%nat; split; [auto|]; intros x y Hx Hy; exists y; split; [exact Hy|split; [lra|reflexivity]]|].
  split.
  - rewrite discard_skipn by reflexivity. rewrite estimate_mean by (first [discriminate|reflexivity]). cbn. lra.
  - split; [reflexivity|]. split; [|reflexivity]. unfold acceptance_ratio, report. cbn. unfold Q2R. cbn. lra.
Qed.
