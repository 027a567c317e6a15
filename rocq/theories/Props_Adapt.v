(** C65: proposals that look at the samples so far (Adaptive Metropolis). *)
From Coq Require Import Reals Lra.
From Verif Require Import Prelude ProducerModel XReal MHSpec StatsModel MHRunSpec MHRun AdaptSpec AdaptRun AdaptMH AdaptCov AdaptExample.
Import ListNotations.
Local Open Scope R_scope.
Local Open Scope list_scope.
Local Notation length := List.length.

(** Runs of MetropolisHastings are runs of the textbook chain, whatever the proposals depend on. *)
Theorem C65_runs_are_adaptive_chains : forall {X} (eqX : forall x y : X, {x = y} + {x <> y}) (ll : X -> R) (q : list X -> X -> X -> R) (states : list X),
  NoDup states -> (forall x, nonzero (ll x)) -> adaptive_proposals states q ->
  forall x0, In x0 states -> forall n g, aexpectation ll q states x0 n g (adaptive_chain states (adaptive_kernel states eqX ll q) n [] x0 g).
Proof. exact @arun_law_all. Qed.
Print Assumptions C65_runs_are_adaptive_chains.

(** The distribution of the samples, after n0 + n samples. *)
Theorem C65_distribution : forall {X} (eqX : forall x y : X, {x = y} + {x <> y}) (ll : X -> R) (q : list X -> X -> X -> R) (states : list X),
  NoDup states -> (forall x, nonzero (ll x)) -> adaptive_proposals states q ->
  forall b m G c, never_stuck states q b m G -> diminishing states q c ->
  exists d C, 0 < d /\ forall x0 y n0 n, In x0 states -> In y states ->
  exists v, aexpectation ll q states x0 (n0 + n) (ends_at eqX x0 y) v /\ Rabs (v - target states ll y) <= (1 - d) ^ (n / m) + C * INR n / INR (S n0).
Proof. exact @adaptive_distribution. Qed.
Print Assumptions C65_distribution.
Theorem C65_limit : forall {X} (eqX : forall x y : X, {x = y} + {x <> y}) (ll : X -> R) (q : list X -> X -> X -> R) (states : list X),
  NoDup states -> (forall x, nonzero (ll x)) -> adaptive_proposals states q ->
  forall b m G c, never_stuck states q b m G -> diminishing states q c ->
  forall eps, 0 < eps -> exists N, forall x0 y n, In x0 states -> In y states -> (N <= n)%nat ->
  exists v, aexpectation ll q states x0 n (ends_at eqX x0 y) v /\ Rabs (v - target states ll y) < eps.
Proof. exact @adaptive_limit. Qed.
Print Assumptions C65_limit.
(** The averages of the samples. *)
Theorem C65_averages : forall {X} (eqX : forall x y : X, {x = y} + {x <> y}) (ll : X -> R) (q : list X -> X -> X -> R) (states : list X),
  NoDup states -> (forall x, nonzero (ll x)) -> adaptive_proposals states q ->
  forall b m G c, never_stuck states q b m G -> diminishing states q c ->
  forall f, exists C, forall x0 n, In x0 states -> (0 < n)%nat ->
  exists v, v <= C / INR n /\ aexpectation ll q states x0 n (fun l => (sample_average f l - mean_in states (target states ll) f) ^ 2) v /\
    ((N.of_nat n < two64)%N -> aexpectation ll q states x0 n (fun l => (estimate f l - mean_in states (target states ll) f) ^ 2) v).
Proof. exact @adaptive_average. Qed.
Print Assumptions C65_averages.

(** The strategy of the documentation: the callback asks the counter and the covariance matrix, which are connected to the sampler. *)
Theorem C65_documented_proposals : forall {X} (states : list X) vect dim garbage n0 simple adapted b m G L, (2 <= n0)%N ->
  adaptable states vect dim simple adapted b m G L ->
  forall h x y, incl h states -> (N.of_nat (length h) < two64)%N -> documented vect garbage n0 simple adapted h x y = adaptive_metropolis vect n0 simple adapted h x y.
Proof. exact @documented_textbook. Qed.
Print Assumptions C65_documented_proposals.
Theorem C65_documented_limit : forall {X} (eqX : forall x y : X, {x = y} + {x <> y}) (ll : X -> R) (states : list X), NoDup states -> (forall x, nonzero (ll x)) ->
  forall vect dim garbage n0 simple adapted b m G L, (2 <= n0)%N -> adaptable states vect dim simple adapted b m G L ->
  forall eps, 0 < eps -> exists N, forall x0 y n, In x0 states -> In y states -> (N <= n)%nat ->
  exists v, Rabs (v - target states ll y) < eps /\ aexpectation ll (adaptive_metropolis vect n0 simple adapted) states x0 n (ends_at eqX x0 y) v /\
    ((N.of_nat n <= two64)%N -> aexpectation ll (documented vect garbage n0 simple adapted) states x0 n (ends_at eqX x0 y) v).
Proof. exact @documented_limit. Qed.
Print Assumptions C65_documented_limit.
Theorem C65_documented_averages : forall {X} (eqX : forall x y : X, {x = y} + {x <> y}) (ll : X -> R) (states : list X), NoDup states -> (forall x, nonzero (ll x)) ->
  forall vect dim garbage n0 simple adapted b m G L, (2 <= n0)%N -> adaptable states vect dim simple adapted b m G L ->
  forall f, exists C, forall x0 n, In x0 states -> (0 < n)%nat ->
  exists v, v <= C / INR n /\ aexpectation ll (adaptive_metropolis vect n0 simple adapted) states x0 n (fun l => (sample_average f l - mean_in states (target states ll) f) ^ 2) v /\
    ((N.of_nat n < two64)%N -> aexpectation ll (documented vect garbage n0 simple adapted) states x0 n (fun l => (estimate f l - mean_in states (target states ll) f) ^ 2) v).
Proof. exact @documented_average. Qed.
Print Assumptions C65_documented_averages.
(* two states, seen as vectors of size 1; a bool is flipped with probability 1/2 for the first 1000 samples, then with a probability between 1/4 and 1/2 that depends on the variance *)
Example C65_example : adaptable both as_vector 1 (flips (/ 2)) (fun C => flips (rate C)) (/ 4) 1 (fun _ _ => True) (/ 4) /\ NoDup both /\ (forall x : bool, nonzero ((fun _ => 0) x)) /\ (2 <= 1000)%N.
Proof. split; [exact example_adaptable|]. split; [exact both_nodup|]. split; [intros _; exact zero_nonzero|]. discriminate. Qed.
(* what these proposals are before and after the first 1000 samples; here for 2 samples *)
Example C65_example_proposals :
  documented as_vector (fun _ _ => 7) 2 (flips (/ 2)) (fun C => flips (rate C)) [true] true false = / 2 /\
  documented as_vector (fun _ _ => 7) 2 (flips (/ 2)) (fun C => flips (rate C)) [true; false] true false = 3 / 8.
Proof.
  split; [reflexivity|]. rewrite (documented_textbook both as_vector 1 (fun _ _ => 7) 2 (flips (/ 2)) (fun C => flips (rate C)) (/ 4) 1 (fun _ _ => True) (/ 4) ltac:(discriminate) example_adaptable);
  [|intros x _; apply both_all|reflexivity].
  unfold adaptive_metropolis. change (N.of_nat (length [true; false]) <? 2)%N with false. cbv iota. unfold flips, rate. cbn [Bool.eqb].
  rewrite cov_S2 by discriminate. unfold S1, S2. cbn. unfold Rmin, Rmax. destruct (Rle_dec 0 _), (Rle_dec 1 _); lra.
Qed.

(** If the proposals never settle, the samples may have another distribution, even if every proposal distribution is symmetric: here the probability
    of true tends to 1/3, but the target distribution is uniform. *)
Theorem C65_adapting_forever_refuted : exists (q : list bool -> bool -> bool -> R),
  adaptive_proposals both q /\ (forall h x y, q h x y = q h y x) /\ never_stuck both q (/ 4) 1 (fun _ _ => True) /\
  target both (fun _ => 0) true = / 2 /\
  forall n, aexpectation (fun _ => 0) q both true n (ends_at Bool.bool_dec true true) (/ 3 + 2 / 3 * (/ 4) ^ n).
Proof.
  exact (ex_intro _ restless (conj restless_distribution (conj restless_symmetric (conj restless_lively (conj restless_target restless_misses))))).
Qed.
Print Assumptions C65_adapting_forever_refuted.
