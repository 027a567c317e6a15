(** Property theorems about MetropolisHastings with densities that are zero in places (C77). DomSpec: [density] of a log likelihood, the target distribution and the textbook chain in terms of densities, expectations of what the code issues. *)
From Coq Require Import Reals Lra.
From Coquelicot Require Import Coquelicot.
From Verif Require Import Prelude ProducerModel ProducerSpec XReal MHSpec MHProofs MHRunSpec MHRun DomSpec DomProofs DomTop.
Import ListNotations.
Local Open Scope R_scope.

(** C77: a run which starts at a sample of positive probability never issues one of probability zero, whatever is proposed, whatever the random numbers are and whatever throws. *)
Theorem C77_never_outside :
  forall (X : Type) (E : env X xr) (lx : X -> xr), (forall t x l, e_ll E t x = Some l -> l = lx x) ->
  forall x0 n, ~ zero_probability (lx x0) -> Forall (fun z => ~ zero_probability (lx (fst z))) (issued (fst (mh_sample xops E x0 n []))).
Proof. exact @never_outside. Qed.
Print Assumptions C77_never_outside.
(** C77: the samples issued are the Metropolis-Hastings Markov chain, with acceptance probability min(1, pi(y) q(y,x) / (pi(x) q(x,y))), where pi may be zero at y. *)
Theorem C77_law_of_a_run :
  forall (X : Type) (eqX : forall x y : X, {x = y} + {x <> y}) (lx : X -> xr) (q : X -> X -> R) (states : list X),
  NoDup states -> (forall x, lx x <> XNaN /\ lx x <> XPInf) -> proposal_distribution states q ->
  forall x0, In x0 states -> supported lx x0 -> forall n (g : list X -> R),
  dexpectation lx q states x0 n g (markov states (density_kernel lx eqX states q) n x0 g).
Proof. exact @drun_law. Qed.
Print Assumptions C77_law_of_a_run.
(** C77: if every state of positive probability can be reached from every other by m proposals that stay among these states, then the distribution of the n-th sample converges to the target; states of probability zero included. *)
Theorem C77_converges_to_the_target :
  forall (X : Type) (eqX : forall x y : X, {x = y} + {x <> y}) (lx : X -> xr) (q : X -> X -> R) (states : list X),
  NoDup states -> (forall x, lx x <> XNaN /\ lx x <> XPInf) -> proposal_distribution states q ->
  forall m, (0 < m)%nat -> (forall x y, In x (supp lx states) -> In y (supp lx states) -> reaches (supp lx states) q m x y) ->
  exists d, 0 < d <= 1 /\ forall x0 y n, In x0 (supp lx states) -> In y states ->
  exists v, dexpectation lx q states x0 n (ends_at eqX x0 y) v /\ Rabs (v - density_target lx states y) <= (1 - d) ^ (n / m).
Proof. exact @dconverges. Qed.
Print Assumptions C77_converges_to_the_target.
(** C77: averages of f over the samples (and what MeanValue computes) have a mean square error of at most C/n ... *)
Theorem C77_averages :
  forall (X : Type) (eqX : forall x y : X, {x = y} + {x <> y}) (lx : X -> xr) (q : X -> X -> R) (states : list X),
  NoDup states -> (forall x, lx x <> XNaN /\ lx x <> XPInf) -> proposal_distribution states q ->
  (forall x y, In x (supp lx states) -> In y (supp lx states) -> exists k, reaches (supp lx states) q k x y) ->
  forall f, exists C, forall x0 n, In x0 (supp lx states) -> (0 < n)%nat ->
  exists v, v <= C / INR n /\ dexpectation lx q states x0 n (fun l => (sample_average f l - mean_in states (density_target lx states) f) ^ 2) v /\
    ((N.of_nat n < two64)%N -> dexpectation lx q states x0 n (fun l => (estimate f l - mean_in states (density_target lx states) f) ^ 2) v).
Proof. exact @dmean_square. Qed.
Print Assumptions C77_averages.
(** ... and are off by eps or more with a probability that goes to zero. *)
Theorem C77_averages_in_probability :
  forall (X : Type) (eqX : forall x y : X, {x = y} + {x <> y}) (lx : X -> xr) (q : X -> X -> R) (states : list X),
  NoDup states -> (forall x, lx x <> XNaN /\ lx x <> XPInf) -> proposal_distribution states q ->
  (forall x y, In x (supp lx states) -> In y (supp lx states) -> exists k, reaches (supp lx states) q k x y) ->
  forall f, exists C, forall eps x0 n, 0 < eps -> In x0 (supp lx states) -> (0 < n)%nat ->
  exists v, 0 <= v <= C / (INR n * eps ^ 2) /\ dexpectation lx q states x0 n (fun l => indicator (far eps (sample_average f l) (mean_in states (density_target lx states) f))) v /\
    ((N.of_nat n < two64)%N -> dexpectation lx q states x0 n (fun l => indicator (far eps (estimate f l) (mean_in states (density_target lx states) f))) v).
Proof. exact @dfar. Qed.
Print Assumptions C77_averages_in_probability.
(** C77, refuted if the states are only reachable through states of probability zero: of three states in a row, the one in the middle has probability zero; a run that starts at one end never arrives at the other, which has probability 1/2. *)
Theorem C77_reachable_through_the_outside_refuted :
  proposal_distribution row to_neighbour /\ (forall x y, In x row -> In y row -> exists k, reaches row to_neighbour k x y) /\ density_target gap_ll row 2%nat = 1 / 2 /\
  forall n, dexpectation gap_ll to_neighbour row 0%nat n (ends_at Nat.eq_dec 0%nat 2%nat) 0.
Proof. exact (conj neighbour_distribution (conj row_reachable (conj gap_target never_across))). Qed.
Print Assumptions C77_reachable_through_the_outside_refuted.

(** Example: three states, any of which may be proposed; state 1 has probability zero. The hypotheses hold (with m = 1), and a run: from 0, 1 is proposed and rejected even if the random number is 0, then 2 is accepted. *)
Example C77_example : let q := fun _ _ : nat => 1 / 3 in
  proposal_distribution row q /\ supp gap_ll row = [0; 2]%nat /\ (forall x y, In x (supp gap_ll row) -> In y (supp gap_ll row) -> reaches (supp gap_ll row) q 1 x y) /\
  dsamples gap_ll q 0%nat [(1%nat, 0); (2%nat, 1/2)] = [0; 2]%nat.
Proof.
  cbv zeta. assert (Hp : proposal_distribution row (fun _ _ => 1 / 3)).
  { constructor; intros; try lra. cbn. lra. }
  assert (Hs : supp gap_ll row = [0; 2]%nat).
  { unfold supp, row. cbn [filter]. rewrite !gap_density. destruct (Rlt_dec 0 1); [|lra]. destruct (Rlt_dec 0 0); [lra|]. reflexivity. }
  split; [exact Hp|]. split; [exact Hs|]. split.
  - intros x y _ Hy. exists y. repeat split; [exact Hy|lra].
  - assert (Hs0 : supported gap_ll 0%nat) by (unfold supported; rewrite gap_density; lra).
    assert (N1 : dnext gap_ll (fun _ _ => 1 / 3) 0%nat 1%nat 0 = 0%nat) by (unfold dnext; rewrite !gap_density; destruct (Rlt_dec 0 0); [lra|reflexivity]).
    assert (N2 : dnext gap_ll (fun _ _ => 1 / 3) 0%nat 2%nat (1/2) = 2%nat).
    { unfold dnext. rewrite !gap_density. destruct (Rlt_dec 0 1); [|lra]. destruct (Rle_dec _ _) as [|N]; [reflexivity|]. exfalso. apply N. lra. }
    assert (Hok : dok gap_ll (fun _ _ => 1 / 3) row 0%nat [(1%nat, 0); (2%nat, 1/2)]) by (cbn; repeat split; auto; lra).
    rewrite (proj2 (run_dchain gap_ll _ row gap_ok Hp 0%nat [(1%nat, 0); (2%nat, 1/2)] Hs0 Hok)).
    cbn [dchain]. rewrite N1, N2. reflexivity.
Qed.
