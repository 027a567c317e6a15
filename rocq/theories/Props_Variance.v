(** Property C68: the statistical error of means is given by the autocovariances that AutoCovarianceTrace reports. *)
From Coq Require Import Reals Lra.
From Coquelicot Require Import Coquelicot.
From Verif Require Import Prelude MHSpec StatsModel StatsSpec StatsInst MHRunSpec DRRunSpec MHRun PipeSpec PipeProofs VarSpec VarProofs VarExample.
Import ListNotations.
Local Open Scope R_scope.
Local Open Scope list_scope.
Local Notation length := List.length.

(** C68: let MetropolisHastings, or DelayedRejectionMetropolisHastings with at most one delay, run with random proposals such that every state can be reached from every state by the same number of proposals, and let MeanValue
    get the samples as vectors phi(x) of size d. The sums gamma(0) + 2 gamma(1) + ... + 2 gamma(L) of the autocovariances of the chain in its steady state converge to some sigma2 >= 0, exponentially fast. The mean square error
    of the mean over n samples is sigma2/n, up to an error of order 1/n^2, from any starting point. (For all n; this is also the error of what the code computes, while its counter does not overflow.) *)
Theorem C68_error_of_the_mean :
  forall (X : Type) (eqX : forall x y : X, {x = y} + {x <> y}) (states : list X) (ll : X -> R) (K q : X -> X -> R) (E : X -> nat -> (list X -> R) -> R -> Prop),
  NoDup states -> sampler eqX states ll K q E ->
  forall (phi : X -> list R) (d : nat), (forall x, In x states -> length (phi x) = d) ->
  mixing states q -> states <> [] ->
  exists sigma2 C, 0 <= sigma2 /\
  is_lim_seq (fun L => lags_up_to L (steady_autocovariance states ll K phi d)) sigma2 /\
  decays (fun L => lags_up_to L (steady_autocovariance states ll K phi d) - sigma2) /\
  forall x0 n, In x0 states -> (0 < n)%nat ->
  exists v, Rabs (INR n * v - sigma2) <= C / INR n /\
    E x0 n (fun l => squared_distance d (the_mean R_ops (map phi l)) (true_mean states ll phi)) v /\
    ((N.of_nat n < two64)%N -> E x0 n (fun l => squared_distance d (fun i => mean_value i (map phi l)) (true_mean states ll phi)) v).
Proof. exact @the_error. Qed.
Print Assumptions C68_error_of_the_mean.
(** C68: what AutoCovarianceTrace reports for the lags up to L, summed up in the same way, converges to that sum. *)
Theorem C68_estimated_from_the_autocovariances :
  forall (X : Type) (eqX : forall x y : X, {x = y} + {x <> y}) (states : list X) (ll : X -> R) (K q : X -> X -> R) (E : X -> nat -> (list X -> R) -> R -> Prop),
  NoDup states -> sampler eqX states ll K q E ->
  forall (phi : X -> list R) (d : nat), (forall x, In x states -> length (phi x) = d) ->
  connected states q ->
  forall max_lag L, (L <= max_lag)%nat ->
  converges states (L + 2) two64 E (fun l => lags_up_to L (fun k => autocovariance_trace max_lag k (map phi l))) (fun l => lags_up_to L (fun k => the_autocovariance_trace R_ops d (map phi l) k))
    (lags_up_to L (steady_autocovariance states ll K phi d)).
Proof. exact @estimated. Qed.
Print Assumptions C68_estimated_from_the_autocovariances.
(** C68: the autocovariances at even lags and the sums of those at lags 2l and 2l + 1 are not negative: sums truncated after an odd lag never overestimate the error of the mean. *)
Theorem C68_truncated_after_an_odd_lag :
  forall (X : Type) (eqX : forall x y : X, {x = y} + {x <> y}) (states : list X) (ll : X -> R) (K q : X -> X -> R) (E : X -> nat -> (list X -> R) -> R -> Prop),
  NoDup states -> sampler eqX states ll K q E ->
  forall (phi : X -> list R) (d : nat), (forall x, In x states -> length (phi x) = d) ->
  forall sigma2 : R, is_lim_seq (fun L => lags_up_to L (steady_autocovariance states ll K phi d)) sigma2 ->
  forall l, 0 <= steady_autocovariance states ll K phi d (2 * l) /\ 0 <= steady_autocovariance states ll K phi d (2 * l) + steady_autocovariance states ll K phi d (2 * l + 1) /\
  lags_up_to (2 * l + 1) (steady_autocovariance states ll K phi d) <= sigma2.
Proof. exact @too_small. Qed.
Print Assumptions C68_truncated_after_an_odd_lag.
(** C68, refuted if every state can be reached from every state, but not by the same number of proposals: with two equally likely states, each of which always proposes the other, the sums alternate between 1/4 and -1/4. *)
Theorem C68_periodic_chain_refuted :
  let K := mh_kernel both Bool.bool_dec (fun _ => 0) flip in
  sampler Bool.bool_dec both (fun _ => 0) K flip (expectation (fun _ => 0) flip both) /\ connected both flip /\
  (forall l, lags_up_to (2 * l) (steady_autocovariance both (fun _ => 0) K zero_one 1) = 1/4 /\ lags_up_to (2 * l + 1) (steady_autocovariance both (fun _ => 0) K zero_one 1) = - (1/4)) /\
  forall sigma2 : R, ~ is_lim_seq (fun L => lags_up_to L (steady_autocovariance both (fun _ => 0) K zero_one 1)) sigma2.
Proof. exact (conj flip_sampler (conj flip_connected (conj flip_lags flip_no_limit))). Qed.
Print Assumptions C68_periodic_chain_refuted.

(** The assumptions are met by two equally likely states and proposals that stay with probability 3/4: the variance of a sample is 1/4, gamma(k) = 2^-k / 4, and sigma2 = 3/4: the mean over n samples is as good as the mean
    over n/3 independent samples. *)
Example C68_example : let K := mh_kernel both Bool.bool_dec (fun _ => 0) sticky in
  sampler Bool.bool_dec both (fun _ => 0) K sticky (expectation (fun _ => 0) sticky both) /\ mixing both sticky /\ connected both sticky /\
  (forall x, In x both -> length (zero_one x) = 1%nat) /\
  (forall k, steady_autocovariance both (fun _ => 0) K zero_one 1 k = 1/4 * (1/2) ^ k) /\
  is_lim_seq (fun L => lags_up_to L (steady_autocovariance both (fun _ => 0) K zero_one 1)) (3/4) /\
  lags_up_to 1 (steady_autocovariance both (fun _ => 0) K zero_one 1) = 1/2.
Proof.
  split; [exact sticky_sampler|]. split; [exact sticky_mixing|]. split; [intros x y Hx Hy; exists 1%nat; destruct sticky_mixing as (k & _ & _); exists y; split; [exact Hy|]; split; [destruct x, y; cbn; lra|reflexivity]|].
  split; [reflexivity|]. split; [exact sticky_gamma|]. split; [exact sticky_limit|]. rewrite sticky_lags. cbn [pow]. lra.
Qed.
