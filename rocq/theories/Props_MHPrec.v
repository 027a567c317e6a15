(** Property C61: MetropolisHastings with the arithmetic and the random numbers a computer has. *)
From Coq Require Import Reals Lra Lia.
From Flocq Require Import Core BinarySingleNaN.
From Verif Require Import Prelude StatsModel ProducerModel ProducerSpec XReal MHSpec MHRunSpec MHPrecSpec MHPrec HistFloat FloatSpec FloatBase MHPrec64Spec MHPrec64 MHRun MHPrecTail.
Import ListNotations.
Local Open Scope R_scope.
Local Open Scope list_scope.
Local Notation length := List.length.

(** C61: whatever the numbers and the operations on them are (any rounding, NaN, infinities), and whatever equally likely values the random number generator returns: started at a state of nonzero probability, all runs end normally, and the
    samples are a Markov chain on the states of nonzero probability, whose acceptance probabilities are the fractions of the random numbers with which one iteration of the code accepts. *)
Theorem C61_law_of_a_run :
  forall (X D : Type) (eqX : forall x y : X, {x = y} + {x <> y}) (O : dops D) (ll : X -> D) (rho : X -> X -> D) (q : X -> X -> R) (us : list D) (states : list X),
  us <> [] -> NoDup states -> (forall x, In x states -> sumR (q x) states = 1) ->
  forall x0, In x0 (filter (possible O ll) states) ->
  (forall script, snd (drun O ll rho x0 script) = RVal tt) /\
  forall n g, dexpectation O ll rho q us states x0 n g =
    markov (filter (possible O ll) states) (kernel eqX (filter (possible O ll) states) q (acceptance O ll rho us eqX)) n x0 g.
Proof. exact @prec_law. Qed.
Print Assumptions C61_law_of_a_run.

(** C61: if these acceptance probabilities are those of the textbook up to eps, then after n samples the chain is at y with the target's probability up to (1-d)^(n/m) + C eps, where d and C depend on the target and the proposals only
    (provided that every state of nonzero probability can be reached from every other by m proposals). *)
Theorem C61_distribution :
  forall (X : Type) (eqX : forall x y : X, {x = y} + {x <> y}) (L : X -> R) (q : X -> X -> R) (states : list X) (can : X -> bool),
  NoDup states -> proposal_distribution states q ->
  forall m, (0 < m)%nat -> (forall x y, In x (filter can states) -> In y (filter can states) -> reaches (filter can states) q m x y) ->
  exists d C, 0 < d <= 1 /\ forall (D : Type) (O : dops D) ll rho us eps, us <> [] -> 0 <= eps ->
  (forall x, In x states -> possible O ll x = can x) -> accepts_up_to eqX O ll rho us L q (filter can states) eps ->
  forall x0 y n, In x0 (filter can states) -> In y (filter can states) ->
  Rabs (dexpectation O ll rho q us states x0 n (ends_at eqX x0 y) - target (filter can states) L y) <= (1 - d) ^ (n / m) + C * eps.
Proof. exact @prec_distribution. Qed.
Print Assumptions C61_distribution.
(** C61: and averages over n samples have a mean square error of at most C (1/n + eps^2), if every state can be reached from every other at all. *)
Theorem C61_averages :
  forall (X : Type) (eqX : forall x y : X, {x = y} + {x <> y}) (L : X -> R) (q : X -> X -> R) (states : list X) (can : X -> bool),
  NoDup states -> proposal_distribution states q ->
  (forall x y, In x (filter can states) -> In y (filter can states) -> exists k, reaches (filter can states) q k x y) ->
  forall f, exists C, forall (D : Type) (O : dops D) ll rho us eps, us <> [] -> 0 <= eps ->
  (forall x, In x states -> possible O ll x = can x) -> accepts_up_to eqX O ll rho us L q (filter can states) eps ->
  forall x0 n, In x0 (filter can states) -> (0 < n)%nat ->
  dexpectation O ll rho q us states x0 n (fun l => (sample_average f l - mean_in (filter can states) (target (filter can states) L) f) ^ 2) <= C * (/ INR n + eps ^ 2).
Proof. exact @prec_averages. Qed.
Print Assumptions C61_averages.

(** C61: how large eps is for doubles: let exp and log be accurate up to delta and tau, the log likelihoods up to lambda and at most bound, the proposal ratios up to a factor exp(kappa) and between exp(-ratio) and exp(ratio), and the random
    numbers uniform up to gamma. Then the code accepts with the textbook's probability up to the following. *)
Theorem C61_acceptance_in_double :
  forall (X : Type) (eqX : forall x y : X, {x = y} + {x <> y}) fe fl delta tau, library fe fl delta tau ->
  unit_roundoff <= delta <= bpow radix2 (-50) -> half_denorm_min <= tau <= bpow radix2 (-1070) ->
  forall (ll : X -> f64) (rho : X -> X -> f64) (L : X -> R) (q : X -> X -> R) (S0 : list X) bound ratio lambda kappa,
  close_callbacks val finite ll rho L q S0 bound ratio lambda kappa -> (forall x y, 0 < q x y -> 0 < q y x) ->
  (forall x, In x S0 -> possible (b64_dops fe fl) ll x = true) -> bound <= 1000000000000 -> 0 <= ratio <= 600 ->
  forall us gamma, (forall u, In u us -> finite u) -> uniform_up_to gamma (map val us) ->
  accepts_up_to eqX (b64_dops fe fl) ll rho us L q S0
    (gamma + 2 * lambda + kappa + delta * (2 * bound + 3 * ratio + 5) + tau * (2 * exp ratio + 4)).
Proof. exact double_acceptance. Qed.
Print Assumptions C61_acceptance_in_double.
(** C61: exp and log which return the nearest double are such functions, and generators that divide one of N integers by N (and round) are uniform up to 1/N + 2^-52 + 2^-1075. *)
Theorem C61_library_and_generator :
  library nearest_exp nearest_log unit_roundoff half_denorm_min /\
  forall N, (0 < N)%nat -> (forall u, In u (canonical N) -> finite u) /\ uniform_up_to (/ INR N + 2 * unit_roundoff + half_denorm_min) (map val (canonical N)).
Proof. exact (conj nearest_library canonical_uniform). Qed.
Print Assumptions C61_library_and_generator.
(** C61: all together: the average over n samples of a run in double arithmetic, and what MeanValue computes from it. *)
Theorem C61_averages_in_double :
  forall (X : Type) (eqX : forall x y : X, {x = y} + {x <> y}) (L : X -> R) (q : X -> X -> R) (states : list X) (can : X -> bool),
  NoDup states -> proposal_distribution states q ->
  (forall x y, In x (filter can states) -> In y (filter can states) -> exists k, reaches (filter can states) q k x y) ->
  forall f, exists C, forall N (ll : X -> f64) (rho : X -> X -> f64) bound ratio lambda kappa, (0 < N)%nat ->
  close_callbacks val finite ll rho L q (filter can states) bound ratio lambda kappa -> bound <= 1000000000000 -> 0 <= ratio <= 600 ->
  (forall x, In x states -> possible (b64_dops nearest_exp nearest_log) ll x = can x) ->
  forall x0 n, In x0 (filter can states) -> (0 < n)%nat ->
  let run := dexpectation (b64_dops nearest_exp nearest_log) ll rho q (canonical N) states x0 n in
  let mu := mean_in (filter can states) (target (filter can states) L) f in
  let eps := / INR N + 2 * lambda + kappa + unit_roundoff * (2 * bound + 3 * ratio + 7) + half_denorm_min * (2 * exp ratio + 5) in
  run (fun l => (sample_average f l - mu) ^ 2) <= C * (/ INR n + eps ^ 2) /\
  ((N.of_nat n < two64)%N -> run (fun l => (estimate f l - mu) ^ 2) = run (fun l => (sample_average f l - mu) ^ 2)).
Proof. exact double_averages. Qed.
Print Assumptions C61_averages_in_double.

(** C61, refuted for states whose probability is below the resolution 1/N of the random numbers: of two states, let the second have the log likelihood -L with N exp(-L) < 1, and let a coin propose one of them. Even in exact arithmetic, the
    chain is at the second state after n samples with a probability which tends to 1/(N+1), however large L is: the random number 0 is accepted with every ratio. *)
Theorem C61_unlikely_states_refuted :
  forall (L : R) (N : nat), (0 < N)%nat -> 0 < L -> L <> dbl_max -> INR N * exp (- L) < 1 ->
  forall n, dexpectation xops (rare_ll L) coin_rho coin (map XFin (grid N)) both true n (ends_at Bool.bool_dec true false) =
    / (INR N + 1) * (1 - ((INR N - 1) / (2 * INR N)) ^ n).
Proof. exact rare_visited. Qed.
Print Assumptions C61_unlikely_states_refuted.

(** Three states 0, 1, 2 with log likelihoods 0, -1 and minus infinity, each of which is proposed with probability 1/3 from each: the assumptions of the theorems. *)
Definition ex_states : list nat := [0; 1; 2]%nat.
Definition ex_ll (x : nat) : f64 := match x with O => B754_zero false | S O => Bopp Bone | _ => B754_infinity true end.
Definition ex_L (x : nat) : R := match x with O => 0 | _ => -1 end.
Definition ex_can (x : nat) : bool := (x <? 2)%nat.
Example C61_example :
  proposal_distribution ex_states (fun _ _ => 1/3) /\ NoDup ex_states /\
  (forall x, In x ex_states -> possible (b64_dops nearest_exp nearest_log) ex_ll x = ex_can x) /\
  (forall x y, In x (filter ex_can ex_states) -> In y (filter ex_can ex_states) -> reaches (filter ex_can ex_states) (fun _ _ => 1/3) 1 x y) /\
  close_callbacks val finite ex_ll (fun _ _ => Bone) ex_L (fun _ _ => 1/3) (filter ex_can ex_states) 1 0 0 0.
Proof.
  assert (H1 : val Bone = 1) by (exact (Bone_correct 53 1024 Hprec Hmax)).
  assert (F1 : finite Bone) by reflexivity.
  split; [constructor; intros; cbn; lra|]. split; [repeat constructor; cbn; intros H; lia|]. split; [|split; [|constructor]].
  - intros x [<-|[<-|[<-|[]]]]; reflexivity.
  - intros x y Hx Hy. exists y. split; [exact Hy|]. split; [lra|reflexivity].
  - intros x [<-|[<-|[]]]; cbn [ex_ll ex_L]; (split; [reflexivity|]).
    + unfold val. cbn [B2R]. rewrite Rminus_0_r, Rabs_R0. lra.
    + unfold val. rewrite B2R_Bopp. fold (val Bone). rewrite H1. split; [rewrite Rabs_Ropp, Rabs_R1; lra|]. replace (- (1) - -1) with 0 by lra. rewrite Rabs_R0. lra.
  - intros x y _ _ _. split; [exact F1|]. rewrite H1. split; [lra|]. rewrite ln_1. replace (1/3 / (1/3)) with 1 by lra. rewrite ln_1, Rminus_0_r, Rabs_R0. lra.
Qed.
