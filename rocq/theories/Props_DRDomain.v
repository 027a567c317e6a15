(** Property theorems about DelayedRejectionMetropolisHastings with densities that are zero in places (C78). DrdSpec: runs of the code with any log likelihood, densities, the published acceptance probabilities in terms of densities. *)
From Coq Require Import Reals Lra.
From Coquelicot Require Import Coquelicot.
From Verif Require Import Prelude ProducerModel ProducerSpec XReal MHSpec MHRunSpec DRRunSpec DrdSpec DrdLaw DrdStat DrdKer DrdTop.
Import ListNotations.
Local Open Scope R_scope.

(** C78: as long as no random number is exactly zero, a run which starts at a sample whose log likelihood is not -infinity never issues one whose log likelihood is, whatever is proposed, whatever throws, for any number of delays. *)
Theorem C78_never_outside :
  forall (X : Type) (E : env X xr) (lx : X -> xr), (forall t x l, e_ll E t x = Some l -> l = lx x) -> (forall t, exists u, e_unif E t = XFin u /\ 0 < u) ->
  forall strict x0 max_delays n, lx x0 <> XNInf -> Forall (fun z => lx (fst z) <> XNInf) (issued (fst (dr_sample xops E strict x0 max_delays n []))).
Proof. exact @drd_never_outside. Qed.
Print Assumptions C78_never_outside.
(** C78, refuted without this condition (MetropolisHastings does not need it, C77_never_outside): std::uniform_real_distribution<>(0,1) may return zero, and 0 >= 0. *)
Theorem C78_never_outside_refuted : gap 0%nat = XFin 0 /\ gap 1%nat = XNInf /\ l_dr_samples gap (fun _ _ _ => 1) 0%nat 0 1 [(1%nat, 0)] = [1%nat].
Proof. exact (conj eq_refl (conj eq_refl zero_accepted)). Qed.
Print Assumptions C78_never_outside_refuted.

(** C78: the law of a run, for any log likelihood (whose values may be infinite or not a number) and any number of delays. *)
Theorem C78_law_of_a_run :
  forall (X : Type) (eqX : forall x y : X, {x = y} + {x <> y}) (lx : X -> xr) (prop ratio : X -> list X -> X -> R) (states : list X),
  NoDup states -> dr_distribution states prop ->
  forall max_delays x0 n, In x0 states -> forall g : list X -> R,
  l_dr_expectation lx prop ratio states x0 max_delays n g
    (markov states (fun x y => dr_kernel states eqX prop (l_code_accepts lx) (max_delays + 1) x [] y) n x0 g).
Proof. exact @drd_law. Qed.
Print Assumptions C78_law_of_a_run.
(** C78: with probability one all samples have positive density if the starting point has. *)
Theorem C78_stays_inside :
  forall (X : Type) (eqX : forall x y : X, {x = y} + {x <> y}) (lx : X -> xr) (prop ratio : X -> list X -> X -> R) (states : list X),
  NoDup states -> dr_distribution states prop -> (forall x, lx x <> XNaN /\ lx x <> XPInf) ->
  forall max_delays x0 n, In x0 (lsupp lx states) -> l_dr_expectation lx prop ratio states x0 max_delays n (all_positive lx) 1.
Proof. exact @drd_stays. Qed.
Print Assumptions C78_stays_inside.
(** C78: up to one delay, trials are accepted with the published probabilities for these densities: from a state of positive density the first trial, and the second if the first can be rejected. *)
Theorem C78_first_trial :
  forall (X : Type) (lx : X -> xr), (forall x, lx x <> XNaN /\ lx x <> XPInf) ->
  forall x y, positive lx x -> l_code_accepts lx x [y] = alpha1 (ldensity lx x) (ldensity lx y).
Proof. exact @first_d. Qed.
Print Assumptions C78_first_trial.
Theorem C78_second_trial :
  forall (X : Type) (lx : X -> xr), (forall x, lx x <> XNaN /\ lx x <> XPInf) ->
  forall x y1 y2, positive lx x -> ldensity lx y1 < ldensity lx x -> l_code_accepts lx x [y1; y2] = alpha2 (ldensity lx x) (ldensity lx y1) (ldensity lx y2).
Proof. exact @second_d. Qed.
Print Assumptions C78_second_trial.
(** C78: after the second trial of an iteration had density zero, no further trial is ever accepted in this iteration, whatever its density: the acceptance ratio is not a number. With the published acceptance probability a third trial
    of a higher density than the first would be accepted with positive probability. *)
Theorem C78_third_trial_refuted :
  (forall (X : Type) (lx : X -> xr) x y1 y2 ys l, lx x = XFin l -> lx y2 = XNInf -> ys <> [] -> l_code_accepts lx x (y1 :: y2 :: ys) = 0) /\
  forall px p1 p3, 0 < px -> 0 <= p1 < px -> p1 < p3 -> 0 < alpha3 px p1 0 p3.
Proof. exact (conj (@nothing_after_two) alpha3_positive). Qed.
Print Assumptions C78_third_trial_refuted.
(** C78: if the proposals are symmetric along paths, and every state of positive density can be reached from every other by k first proposals that stay among these states, then with at most one delay the distribution of the n-th sample
    converges to the target, states of density zero included. *)
Theorem C78_converges_to_the_target :
  forall (X : Type) (eqX : forall x y : X, {x = y} + {x <> y}) (lx : X -> xr) (prop ratio : X -> list X -> X -> R) (states : list X),
  NoDup states -> dr_distribution states prop -> (forall x, lx x <> XNaN /\ lx x <> XPInf) ->
  forall max_delays, path_symmetric prop -> (max_delays <= 1)%nat ->
  forall k, (0 < k)%nat -> (forall x y, In x (lsupp lx states) -> In y (lsupp lx states) -> reaches (lsupp lx states) (fun x y => prop x [] y) k x y) ->
  exists d, 0 < d <= 1 /\ forall x0 y n, In x0 (lsupp lx states) -> In y states ->
  exists v, l_dr_expectation lx prop ratio states x0 max_delays n (ends_at eqX x0 y) v /\ Rabs (v - ltarget lx states y) <= (1 - d) ^ (n / k).
Proof. exact @drd_converges. Qed.
Print Assumptions C78_converges_to_the_target.
(** C78: averages over the samples (and what MeanValue computes) have a mean square error of at most C/n ... *)
Theorem C78_averages :
  forall (X : Type) (eqX : forall x y : X, {x = y} + {x <> y}) (lx : X -> xr) (prop ratio : X -> list X -> X -> R) (states : list X),
  NoDup states -> dr_distribution states prop -> (forall x, lx x <> XNaN /\ lx x <> XPInf) ->
  forall max_delays, path_symmetric prop -> (max_delays <= 1)%nat ->
  (forall x y, In x (lsupp lx states) -> In y (lsupp lx states) -> exists k, reaches (lsupp lx states) (fun x y => prop x [] y) k x y) ->
  forall f, exists C, forall x0 n, In x0 (lsupp lx states) -> (0 < n)%nat ->
  exists v, v <= C / INR n /\ l_dr_expectation lx prop ratio states x0 max_delays n (fun l => (sample_average f l - mean_in states (ltarget lx states) f) ^ 2) v /\
    ((N.of_nat n < two64)%N -> l_dr_expectation lx prop ratio states x0 max_delays n (fun l => (estimate f l - mean_in states (ltarget lx states) f) ^ 2) v).
Proof. exact @drd_mean_square. Qed.
Print Assumptions C78_averages.
(** ... and are off by eps or more with a probability that goes to zero. *)
Theorem C78_averages_in_probability :
  forall (X : Type) (eqX : forall x y : X, {x = y} + {x <> y}) (lx : X -> xr) (prop ratio : X -> list X -> X -> R) (states : list X),
  NoDup states -> dr_distribution states prop -> (forall x, lx x <> XNaN /\ lx x <> XPInf) ->
  forall max_delays, path_symmetric prop -> (max_delays <= 1)%nat ->
  (forall x y, In x (lsupp lx states) -> In y (lsupp lx states) -> exists k, reaches (lsupp lx states) (fun x y => prop x [] y) k x y) ->
  forall f, exists C, forall eps x0 n, 0 < eps -> In x0 (lsupp lx states) -> (0 < n)%nat ->
  exists v, 0 <= v <= C / (INR n * eps ^ 2) /\ l_dr_expectation lx prop ratio states x0 max_delays n (fun l => indicator (far eps (sample_average f l) (mean_in states (ltarget lx states) f))) v /\
    ((N.of_nat n < two64)%N -> l_dr_expectation lx prop ratio states x0 max_delays n (fun l => indicator (far eps (estimate f l) (mean_in states (ltarget lx states) f))) v).
Proof. exact @drd_far. Qed.
Print Assumptions C78_averages_in_probability.

(** Example: three states, any of which may be proposed; state 1 has density zero. The hypotheses hold, and a run with one delay: from 0, 1 is proposed and rejected, then 2 is accepted. *)
Example C78_example :
  NoDup row3 /\ (forall x, gap x <> XNaN /\ gap x <> XPInf) /\ dr_distribution row3 any_of_three /\ path_symmetric any_of_three /\ lsupp gap row3 = [0; 2]%nat /\
  (forall x y, In x (lsupp gap row3) -> In y (lsupp gap row3) -> reaches (lsupp gap row3) (fun x y => any_of_three x [] y) 1 x y) /\
  l_dr_samples gap (fun _ _ _ => 1) 0%nat 1 1 [(1%nat, 1/2); (2%nat, 1/2)] = [2%nat].
Proof. exact (conj row3_nodup (conj gap_fine (conj any_distribution (conj any_symmetric (conj gap_lsupp (conj gap_reaches gap_run)))))). Qed.
