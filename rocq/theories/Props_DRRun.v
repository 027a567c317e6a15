(** Property C59: whole runs of DelayedRejectionMetropolisHastings as random processes. *)
From Coq Require Import Reals Lra.
From Coquelicot Require Import Coquelicot.
From Verif Require Import Prelude ProducerModel ProducerSpec XReal MHSpec DRReal DRRun MHRunSpec DRRunSpec DRLaw DRTop.
Import ListNotations.
Local Open Scope R_scope.

(** C59: let propose_sample draw from the distribution prop(x, rejected samples, .) of its arguments, independently in each call, and let the random numbers be independent and uniform. Then the samples that a run of the code issues
    are a Markov chain: each new sample is that of the delayed rejection procedure with up to max_delays + 1 trials, in which the last of the trials ys is accepted with the probability that the random number is at most
    the acceptance ratio which the code computes from x and ys. This is so whatever ratio propose_sample returns: the code does not use it. (Finite state spaces, any log likelihood.) *)
Theorem C59_law_of_a_run :
  forall (X : Type) (eqX : forall x y : X, {x = y} + {x <> y}) (ll : X -> R) (prop ratio : X -> list X -> X -> R) (states : list X),
  NoDup states -> dr_distribution states prop ->
  forall x0 max_delays n, In x0 states -> forall g : list X -> R,
  dr_expectation ll prop ratio states x0 max_delays n g
    (markov states (fun x y => dr_kernel states eqX prop (code_accepts ll) (max_delays + 1) x [] y) n x0 g).
Proof. exact @t_law. Qed.
Print Assumptions C59_law_of_a_run.

(** C59: for max_delays <= 1 this is the published procedure for symmetric proposals. *)
Theorem C59_law_one_delay :
  forall (X : Type) (eqX : forall x y : X, {x = y} + {x <> y}) (ll : X -> R) (prop ratio : X -> list X -> X -> R) (states : list X),
  NoDup states -> dr_distribution states prop ->
  forall x0 max_delays n, (max_delays <= 1)%nat -> In x0 states -> forall g : list X -> R,
  dr_expectation ll prop ratio states x0 max_delays n g
    (markov states (fun x y => dr_kernel states eqX prop (published ll) (max_delays + 1) x [] y) n x0 g).
Proof. exact @t_law_one. Qed.
Print Assumptions C59_law_one_delay.

(** C59: and it preserves the target if the proposals are symmetric along paths: if the starting point is drawn from the target, then the n-th sample is distributed like the target, for all n. *)
Theorem C59_target_preserved :
  forall (X : Type) (eqX : forall x y : X, {x = y} + {x <> y}) (ll : X -> R) (prop ratio : X -> list X -> X -> R) (states : list X),
  NoDup states -> dr_distribution states prop -> path_symmetric prop ->
  forall max_delays, (max_delays <= 1)%nat ->
  forall n y (probability : X -> R), In y states ->
  (forall x0, In x0 states -> dr_expectation ll prop ratio states x0 max_delays n (ends_at eqX x0 y) (probability x0)) ->
  mean_in states (target states ll) probability = target states ll y.
Proof. exact @t_preserved. Qed.
Print Assumptions C59_target_preserved.

(** C59: from any starting point, the distribution of the n-th sample converges to the target ... *)
Theorem C59_converges_to_the_target :
  forall (X : Type) (eqX : forall x y : X, {x = y} + {x <> y}) (ll : X -> R) (prop ratio : X -> list X -> X -> R) (states : list X),
  NoDup states -> dr_distribution states prop -> path_symmetric prop ->
  forall max_delays, (max_delays <= 1)%nat ->
  forall b, 0 < b -> (forall x y, In x states -> In y states -> b <= prop x [] y) ->
  forall x0 y n, In x0 states -> In y states ->
  exists v, dr_expectation ll prop ratio states x0 max_delays n (ends_at eqX x0 y) v /\ Rabs (v - target states ll y) <= (1 - b) ^ n.
Proof. exact @t_converges_beta. Qed.
Print Assumptions C59_converges_to_the_target.
Theorem C59_converges_if_reachable :
  forall (X : Type) (eqX : forall x y : X, {x = y} + {x <> y}) (ll : X -> R) (prop ratio : X -> list X -> X -> R) (states : list X),
  NoDup states -> dr_distribution states prop -> path_symmetric prop ->
  forall max_delays, (max_delays <= 1)%nat ->
  forall k, (0 < k)%nat -> (forall x y, In x states -> In y states -> reaches states (fun x y => prop x [] y) k x y) ->
  exists d, 0 < d <= 1 /\ forall x0 y n, In x0 states -> In y states ->
  exists v, dr_expectation ll prop ratio states x0 max_delays n (ends_at eqX x0 y) v /\ Rabs (v - target states ll y) <= (1 - d) ^ (n / k).
Proof. exact @t_converges. Qed.
Print Assumptions C59_converges_if_reachable.
(** ... and averages over the samples, which MeanValue computes as long as its counter does not overflow, converge to the mean of the target. *)
Theorem C59_averages :
  forall (X : Type) (eqX : forall x y : X, {x = y} + {x <> y}) (ll : X -> R) (prop ratio : X -> list X -> X -> R) (states : list X),
  NoDup states -> dr_distribution states prop -> path_symmetric prop ->
  forall max_delays, (max_delays <= 1)%nat ->
  (forall x y, In x states -> In y states -> exists k, reaches states (fun x y => prop x [] y) k x y) ->
  forall f, exists C, forall x0 n, In x0 states -> (0 < n)%nat ->
  exists v, v <= C / INR n /\ dr_expectation ll prop ratio states x0 max_delays n (fun l => (sample_average f l - mean_in states (target states ll) f) ^ 2) v /\
    ((N.of_nat n < two64)%N -> dr_expectation ll prop ratio states x0 max_delays n (fun l => (estimate f l - mean_in states (target states ll) f) ^ 2) v).
Proof. exact @t_averages. Qed.
Print Assumptions C59_averages.
Theorem C59_averages_in_probability :
  forall (X : Type) (eqX : forall x y : X, {x = y} + {x <> y}) (ll : X -> R) (prop ratio : X -> list X -> X -> R) (states : list X),
  NoDup states -> dr_distribution states prop -> path_symmetric prop ->
  forall max_delays, (max_delays <= 1)%nat ->
  (forall x y, In x states -> In y states -> exists k, reaches states (fun x y => prop x [] y) k x y) ->
  forall f, exists C, forall eps x0 n, 0 < eps -> In x0 states -> (0 < n)%nat ->
  exists v, 0 <= v <= C / (INR n * eps ^ 2) /\ dr_expectation ll prop ratio states x0 max_delays n (fun l => indicator (far eps (sample_average f l) (mean_in states (target states ll) f))) v /\
    ((N.of_nat n < two64)%N -> dr_expectation ll prop ratio states x0 max_delays n (fun l => indicator (far eps (estimate f l) (mean_in states (target states ll) f))) v).
Proof. exact @t_far. Qed.
Print Assumptions C59_averages_in_probability.
(** C59: proposals are symmetric along paths if each is made from the previously rejected sample by a symmetric step. *)
Theorem C59_proposals_from_the_rejected_sample :
  forall (X : Type) (states : list X) (q : X -> X -> R), (forall x y, 0 <= q x y) -> (forall x, In x states -> sumR (q x) states = 1) ->
  (forall x y, q x y = q y x) ->
  dr_distribution states (from_rejected q) /\ path_symmetric (from_rejected q).
Proof. exact from_rejected_ok. Qed.
Print Assumptions C59_proposals_from_the_rejected_sample.

(** C59, refuted for proposals which are made from the current sample with a probability that only depends on the distance, whatever was rejected (the documentation's example): for a random walk on a circle of four states,
    with densities 1, 2, 2, 2, any max_delays >= 1, and any starting point, the distribution of the n-th sample does not converge to the target. *)
Theorem C59_symmetric_random_walk_refuted :
  dr_distribution circle walk /\ pairwise_symmetric walk /\
  forall ratio max_delays x0, (1 <= max_delays)%nat -> In x0 circle ->
  ~ (forall y, In y circle -> exists v, (forall n, dr_expectation walk_ll walk ratio circle x0 max_delays n (ends_at Nat.eq_dec x0 y) (v n)) /\
       is_lim_seq v (target circle walk_ll y)).
Proof. exact (conj walk_distribution (conj walk_symmetric walk_not_converging)). Qed.
Print Assumptions C59_symmetric_random_walk_refuted.
(** C59, refuted for two or more delays, even for proposals that are uniform and do not depend on anything: with three states of densities 3, 2, 1. *)
Theorem C59_two_delays_refuted :
  dr_distribution three uniform3 /\ path_symmetric uniform3 /\ pairwise_symmetric uniform3 /\
  forall ratio max_delays x0, (2 <= max_delays)%nat -> In x0 three ->
  ~ (forall y, In y three -> exists v, (forall n, dr_expectation ll3 uniform3 ratio three x0 max_delays n (ends_at Nat.eq_dec x0 y) (v n)) /\
       is_lim_seq v (target three ll3 y)).
Proof. exact (conj uniform3_distribution (conj (proj1 uniform3_symmetric) (conj (proj2 uniform3_symmetric) uniform3_not_converging))). Qed.
Print Assumptions C59_two_delays_refuted.

(** A run of the code with two delays: from state 0, the proposals 2 and 1 are rejected, then 2 is accepted (its ratio is +infinity since the code divides by zero), and 0 is accepted from there. The hypotheses of the
    positive theorems are met by uniform proposals (above) and by steps of a symmetric random walk from the rejected sample. *)
Example C59_example :
  dr_samples ll3 (fun _ _ _ => 1) 0%nat 2 2 [(2%nat, 1/2); (1%nat, 3/4); (2%nat, 9/10); (0%nat, 1/2)] = [2; 0]%nat /\
  next_call ll3 (fun _ _ _ => 1) 0%nat 2 2 [(2%nat, 1/2); (1%nat, 3/4)] = Some (0, [2; 1])%nat /\
  (forall x y, In x three -> In y three -> 1/3 <= uniform3 x [] y) /\
  path_symmetric (from_rejected (fun x y => walk x [] y)).
Proof.
  assert (F : forall s yu, feed ll3 2 s yu = let (y, u) := yu in match s_todo s, s_left s with
    | O, _ => s | S td, O => s
    | S td, S k => if dr_decides (cratio ll3 (s_x s) (s_rej s ++ [y])) u then {| s_left := 2 + 1; s_x := y; s_rej := []; s_todo := td; s_out := s_out s ++ [y] |}
      else match k with O => {| s_left := 2 + 1; s_x := s_x s; s_rej := []; s_todo := td; s_out := s_out s ++ [s_x s] |}
           | S _ => {| s_left := k; s_x := s_x s; s_rej := s_rej s ++ [y]; s_todo := S td; s_out := s_out s |} end end) by reflexivity.
  assert (D1 : dr_decides (cratio ll3 0%nat [2%nat]) (1/2) = false).
  { unfold cratio, with_ll. cbn [map]. rewrite a3_first. cbn [dens3]. rewrite dr_decides_fin by lra. destruct (Rle_dec _ _); [lra|reflexivity]. }
  assert (D2 : dr_decides (cratio ll3 0%nat [2%nat; 1%nat]) (3/4) = false).
  { unfold cratio, with_ll. cbn [map]. rewrite a3_021. rewrite dr_decides_fin by lra. destruct (Rle_dec _ _); [lra|reflexivity]. }
  assert (D3 : forall u, dr_decides (cratio ll3 0%nat [2%nat; 1%nat; 2%nat]) u = true).
  { intros u. unfold cratio, with_ll. cbn [map]. rewrite a3_0212. reflexivity. }
  assert (D4 : dr_decides (cratio ll3 2%nat [0%nat]) (1/2) = true).
  { unfold cratio, with_ll. cbn [map]. rewrite a3_first. cbn [dens3]. rewrite dr_decides_fin by lra. destruct (Rle_dec _ _); [reflexivity|lra]. }
  split; [|split; [|split]].
  - rewrite (proj1 (run_feed _ _ _ _ _ _)). cbn [fold_left]. rewrite !F. unfold minit. cbn [s_todo s_left s_x s_rej s_out app Nat.add].
    rewrite D1. cbn [s_todo s_left s_x s_rej s_out app]. rewrite D2. cbn [s_todo s_left s_x s_rej s_out app]. rewrite D3. cbn [s_todo s_left s_x s_rej s_out app]. rewrite D4. reflexivity.
  - rewrite (proj2 (run_feed _ _ _ _ _ _)). cbn [fold_left]. rewrite !F. unfold minit. cbn [s_todo s_left s_x s_rej s_out app Nat.add].
    rewrite D1. cbn [s_todo s_left s_x s_rej s_out app]. rewrite D2. reflexivity.
  - intros x y _ _. unfold uniform3. lra.
  - apply (from_rejected_ok nat circle).
    + intros x y. apply (dd_nonneg _ _ walk_distribution).
    + intros x Hx. apply (dd_sum _ _ walk_distribution x []); [exact Hx|intros z []].
    + intros x y. apply walk_symmetric.
Qed.
