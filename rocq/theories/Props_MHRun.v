(** Property C58: whole runs of MetropolisHastings as random processes. *)
From Coq Require Import Reals Lra.
From Coquelicot Require Import Coquelicot.
From Verif Require Import Prelude ProducerModel ProducerSpec XReal MHSpec MHRunSpec MHRun.
Import ListNotations.
Local Open Scope R_scope.

(** C58: let propose_sample draw from q(x, .) and return the ratio q(x,y)/q(y,x), independently in each iteration, and let the random numbers be independent and uniform. Then the sequence of all samples which a run of the code
    issues is the Metropolis-Hastings Markov chain: any function g of the samples has the expectation it has for this chain. (Finite state spaces; log likelihoods other than those that stand for probability zero.) *)
Theorem C58_law_of_a_run :
  forall (X : Type) (eqX : forall x y : X, {x = y} + {x <> y}) (ll : X -> R) (q : X -> X -> R) (states : list X),
  NoDup states -> (forall x, nonzero (ll x)) -> proposal_distribution states q ->
  forall x0, In x0 states -> forall n (g : list X -> R),
  expectation ll q states x0 n g (markov states (mh_kernel states eqX ll q) n x0 g).
Proof. exact @run_law. Qed.
Print Assumptions C58_law_of_a_run.

(** C58: if every state is proposed with probability at least b > 0 from everywhere, then after n samples, from whatever starting point, the chain is at y with the target's probability of y, up to (1-b)^n. *)
Theorem C58_converges_to_the_target :
  forall (X : Type) (eqX : forall x y : X, {x = y} + {x <> y}) (ll : X -> R) (q : X -> X -> R) (states : list X),
  NoDup states -> (forall x, nonzero (ll x)) -> proposal_distribution states q ->
  forall b, 0 < b -> (forall x y, In x states -> In y states -> b <= q x y) ->
  forall x0 y n, In x0 states -> In y states ->
  exists v, expectation ll q states x0 n (ends_at eqX x0 y) v /\ Rabs (v - target states ll y) <= (1 - b) ^ n.
Proof. exact @converges_beta. Qed.
Print Assumptions C58_converges_to_the_target.

(** C58: it is enough that every state can be reached from every state by m proposals; the rate then depends on ll and q. *)
Theorem C58_converges_if_reachable :
  forall (X : Type) (eqX : forall x y : X, {x = y} + {x <> y}) (ll : X -> R) (q : X -> X -> R) (states : list X),
  NoDup states -> (forall x, nonzero (ll x)) -> proposal_distribution states q ->
  forall m, (0 < m)%nat -> (forall x y, In x states -> In y states -> reaches states q m x y) ->
  exists d, 0 < d <= 1 /\ forall x0 y n, In x0 states -> In y states ->
  exists v, expectation ll q states x0 n (ends_at eqX x0 y) v /\ Rabs (v - target states ll y) <= (1 - d) ^ (n / m).
Proof. exact @converges. Qed.
Print Assumptions C58_converges_if_reachable.

(** C58, refuted if every state is only reachable from every state by some number of proposals: with two equally likely states, each of which always proposes the other, the chain is at the starting point after an even number of samples and
    at the other state after an odd number. *)
Theorem C58_converges_if_connected_refuted :
  (forall x y, In x both -> In y both -> exists k, reaches both flip k x y) /\ proposal_distribution both flip /\
  forall n, expectation (fun _ => 0) flip both true n (ends_at Bool.bool_dec true true) (if Nat.even n then 1 else 0).
Proof. exact (conj flip_connected (conj flip_distribution alternating)). Qed.
Print Assumptions C58_converges_if_connected_refuted.

(** C58: the averages do converge then: if every state can be reached from every state, the average of f over the samples has a mean square error v of at most C/n for every number n of samples, wherever the chain starts, and so has
    what MeanValue computes from f(samples) as long as its counter does not overflow ... *)
Theorem C58_averages :
  forall (X : Type) (eqX : forall x y : X, {x = y} + {x <> y}) (ll : X -> R) (q : X -> X -> R) (states : list X),
  NoDup states -> (forall x, nonzero (ll x)) -> proposal_distribution states q ->
  (forall x y, In x states -> In y states -> exists k, reaches states q k x y) ->
  forall f, exists C, forall x0 n, In x0 states -> (0 < n)%nat ->
  exists v, v <= C / INR n /\ expectation ll q states x0 n (fun l => (sample_average f l - mean_in states (target states ll) f) ^ 2) v /\
    ((N.of_nat n < two64)%N -> expectation ll q states x0 n (fun l => (estimate f l - mean_in states (target states ll) f) ^ 2) v).
Proof. exact @mean_square. Qed.
Print Assumptions C58_averages.
(** ... with C = B^2 (1 + 4/b) if every state is proposed with probability at least b from everywhere, B being the largest deviation of f from its mean ... *)
Theorem C58_averages_rate :
  forall (X : Type) (eqX : forall x y : X, {x = y} + {x <> y}) (ll : X -> R) (q : X -> X -> R) (states : list X),
  NoDup states -> (forall x, nonzero (ll x)) -> proposal_distribution states q ->
  forall b, 0 < b -> (forall x y, In x states -> In y states -> b <= q x y) ->
  forall f B x0 n, (forall x, In x states -> Rabs (f x - mean_in states (target states ll) f) <= B) -> In x0 states -> (0 < n)%nat -> (N.of_nat n < two64)%N ->
  exists v, expectation ll q states x0 n (fun l => (estimate f l - mean_in states (target states ll) f) ^ 2) v /\ v <= B ^ 2 * (1 + 4 / b) / INR n.
Proof. exact @mean_square_beta. Qed.
Print Assumptions C58_averages_rate.
(** ... so the probability that the estimate is off by eps or more goes to zero like 1/n. *)
Theorem C58_averages_in_probability :
  forall (X : Type) (eqX : forall x y : X, {x = y} + {x <> y}) (ll : X -> R) (q : X -> X -> R) (states : list X),
  NoDup states -> (forall x, nonzero (ll x)) -> proposal_distribution states q ->
  (forall x y, In x states -> In y states -> exists k, reaches states q k x y) ->
  forall f, exists C, forall eps x0 n, 0 < eps -> In x0 states -> (0 < n)%nat ->
  exists v, 0 <= v <= C / (INR n * eps ^ 2) /\ expectation ll q states x0 n (fun l => indicator (far eps (sample_average f l) (mean_in states (target states ll) f))) v /\
    ((N.of_nat n < two64)%N -> expectation ll q states x0 n (fun l => indicator (far eps (estimate f l) (mean_in states (target states ll) f))) v).
Proof. exact @far_probability. Qed.
Print Assumptions C58_averages_in_probability.

(** A proposal distribution as assumed: propose one of two states by throwing a coin; and a run of the code with it, from [true] (log likelihood 0) to [false] (log likelihood -1, accepted by u <= exp(-1)) and on. *)
Example C58_example : let q := fun _ _ : bool => 1/2 in let ll := fun x : bool => if x then 0 else -1 in
  proposal_distribution both q /\ (forall x y, In x both -> In y both -> 1/2 <= q x y) /\
  samples ll q true [(false, 1/4); (false, 1/2); (true, 1/3); (false, 1/2)] = [false; false; true; true].
Proof.
  cbv zeta. assert (Hp : proposal_distribution both (fun _ _ : bool => 1/2)) by (constructor; intros; cbn; lra).
  assert (Hnz : forall x : bool, nonzero (if x then 0 else -1)).
  { intros x. unfold nonzero. assert (1 < dbl_max) by (unfold dbl_max; lra). destruct x; lra. }
  split; [exact Hp|]. split; [intros; lra|].
  assert (He : exp (-1) = / exp 1) by (rewrite <- exp_Ropp; f_equal; lra).
  assert (H1 : exp (-1) < 1/2).
  { assert (2 < exp 1) by (pose proof (exp_ineq1 1); lra). rewrite He. rewrite <- (Rinv_inv (1/2)). apply Rinv_lt_contravar; [|lra].
    apply Rmult_lt_0_compat; [lra|apply exp_pos]. }
  assert (H2 : 1/4 <= exp (-1)).
  { rewrite He. assert (exp 1 <= 3) by apply exp_le_3. pose proof (exp_pos 1). apply Rle_trans with (/ 3); [lra|]. apply Rinv_le_contravar; lra. }
  assert (H3 : 1 < exp 1) by (pose proof (exp_ineq1 1); lra).
  assert (R1 : mh_ratio (fun x : bool => if x then 0 else -1) true false (1/2 / (1/2)) = exp (-1)) by (unfold mh_ratio; rewrite exp_0; field).
  assert (R2 : mh_ratio (fun x : bool => if x then 0 else -1) false true (1/2 / (1/2)) = exp 1).
  { unfold mh_ratio. rewrite exp_0, He. field. pose proof (exp_pos 1). lra. }
  assert (R3 : mh_ratio (fun x : bool => if x then 0 else -1) false false (1/2 / (1/2)) = 1).
  { unfold mh_ratio. field. pose proof (exp_pos (-1)). lra. }
  assert (N1 : next (fun x : bool => if x then 0 else -1) (fun _ _ => 1/2) true false (1/4) = false) by (unfold next; rewrite R1; destruct (Rle_dec _ _); [reflexivity|lra]).
  assert (N2 : next (fun x : bool => if x then 0 else -1) (fun _ _ => 1/2) false false (1/2) = false) by (unfold next; destruct (Rle_dec _ _); reflexivity).
  assert (N3 : next (fun x : bool => if x then 0 else -1) (fun _ _ => 1/2) false true (1/3) = true) by (unfold next; rewrite R2; destruct (Rle_dec _ _); [reflexivity|lra]).
  assert (N4 : next (fun x : bool => if x then 0 else -1) (fun _ _ => 1/2) true false (1/2) = true) by (unfold next; rewrite R1; destruct (Rle_dec _ _); [lra|reflexivity]).
  assert (Hok : ok (fun x : bool => if x then 0 else -1) (fun _ _ : bool => 1/2) both true [(false, 1/4); (false, 1/2); (true, 1/3); (false, 1/2)]).
  { cbn [ok]. repeat split; try lra; cbn; auto. }
  rewrite (proj2 (run_chain _ _ both Hnz Hp true _ Hok)). cbn [chain]. rewrite N1, N2, N3, N4. reflexivity.
Qed.
