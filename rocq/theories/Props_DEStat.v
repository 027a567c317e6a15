(** Property C55: the distribution of the chains of DifferentialEvaluationMetropolisHastings. *)
From Coq Require Import Reals Lra.
From Coquelicot Require Import Coquelicot.
From Verif Require Import Prelude ProducerModel ProducerSpec XReal MHSpec MHProofs DETop DEStatSpec DEStat.
Local Open Scope R_scope.
Local Notation length := List.length.

(** C55: let a chain in state x get the trial y with probability q(y|x), together with the ratio q(y|x)/q(x|y), and let [A x y] be the probability with which the code's test accepts. Then detailed balance holds
    with respect to pi = exp(ll). *)
Theorem C55_one_chain_balance :
  forall (X : Type) (ll : X -> R) (q : X -> X -> R), (forall x y, 0 <= q x y) -> (forall x y, q x y = 0 -> q y x = 0) ->
  forall A, accepts_with ll q A -> forall x y, exp (ll x) * (q x y * A x y) = exp (ll y) * (q y x * A y x).
Proof. exact @balance. Qed.
Print Assumptions C55_one_chain_balance.
(** C55: so a generation without crossover, in which the chains are moved independently of each other, keeps the distribution of all chains together: independent and distributed like pi. (Finite state spaces.) *)
Theorem C55_without_crossover :
  forall (X : Type) (eqX : forall x y : X, {x = y} + {x <> y}) (ll : X -> R) (q : X -> X -> R), (forall x y, 0 <= q x y) -> (forall x y, q x y = 0 -> q y x = 0) ->
  forall A, accepts_with ll q A -> forall states ys, NoDup states -> Forall (fun y => In y states) ys ->
  sumR (fun xs => prod1 (fun x => exp (ll x)) xs * prod2 (kernel eqX states q A) xs ys) (tuples states (length ys)) = prod1 (fun x => exp (ll x)) ys.
Proof. exact (fun X eqX ll q H1 H2 A HA states ys Hn => product (fun x => exp (ll x)) (kernel eqX states q A) states (fun y Hy => keeps eqX ll q H1 H2 A HA states y Hn Hy) ys). Qed.
Print Assumptions C55_without_crossover.
(** C55: a crossover that can be undone by exchanging the two partners (like x + gamma (a - b)) keeps the distribution of the last chain, whatever the states of the others are, if propose_sample returns its argument with
    ratio 1. *)
Theorem C55_last_chain_with_crossover :
  forall (X : Type) (eqX : forall x y : X, {x = y} + {x <> y}) (cross : X -> X -> X -> X), (forall x y a b, cross x a b = y <-> cross y b a = x) ->
  forall current, (3 <= N.of_nat (length current) < two64)%N -> forall ll A,
  (forall x y, is_RInt (fun u => if fst (fst (de_decide xops y (XFin 1) (XFin u) (XFin (ll y)) x (XFin (ll x)))) then 1 else 0) 0 1 (A x y)) ->
  forall states y, NoDup states -> In y states ->
  sumR (fun x => exp (ll x) * kernel eqX states (crossed eqX cross current (N.of_nat (length current) - 1)) A x y) states = exp (ll y).
Proof. exact @last_chain. Qed.
Print Assumptions C55_last_chain_with_crossover.
(** C55, refuted for the other chains: with the partners picked as the code does (C31), chains that start independently and distributed like pi are not distributed like pi after a generation with crossover. In the example of [bits_env]
    (three chains, states 0 and 1, pi(1) = p, crossover x + a - b modulo 2) the middle chain has state 1 with probability p (1/2 + p) instead of p. *)
Theorem C55_middle_chain_refuted :
  forall b p v0 v1 v2, 0 < p < 1/2 ->
  probability b p [v0; v1; v2] (bit 1) = p * (1/2 + p) /\ probability b p [v0; v1; v2] (bit 1) < p.
Proof. exact (fun b p v0 v1 v2 H => conj (chain1 b p v0 v1 v2 H) (eq_ind_r (fun z => z < p) (chain1_less p H) (chain1 b p v0 v1 v2 H))). Qed.
Print Assumptions C55_middle_chain_refuted.
(** C55, refuted for the joint distribution: as all chains are moved at the same time, using the old states of the others, they do not stay independent, not even those whose partners are right. In the same example the first and the last chain
    have state 1 with probability p each, but both at a time with probability 3/2 p^2 instead of p^2. *)
Theorem C55_independence_refuted :
  forall b p v0 v1 v2, 0 < p < 1/2 ->
  probability b p [v0; v1; v2] (bit 0) = p /\ probability b p [v0; v1; v2] (bit 2) = p /\ probability b p [v0; v1; v2] (fun s => bit 0 s && bit 2 s)%bool = 3/2 * (p * p).
Proof. exact (fun b p v0 v1 v2 H => conj (chain0 b p v0 v1 v2 H) (conj (chain2 b p v0 v1 v2 H) (chains02 b p v0 v1 v2 H))). Qed.
Print Assumptions C55_independence_refuted.

(** Acceptance probabilities as assumed exist for all ll and q, reversible crossovers exist, and the example issues six samples: three that repeat the starting points and three of the generation with crossover. *)
Example C55_acceptance_exists : forall (X : Type) (ll : X -> R) (q : X -> X -> R), (forall x y, 0 <= q x y) -> (forall x y, q x y = 0 -> q y x = 0) -> exists A, accepts_with ll q A.
Proof.
  intros X ll q H1 H2. exists (fun x y => Rmin 1 (exp (ll y) / (exp (ll x) * (q x y / q y x)))). intros x y H. apply de_acceptance_probability. apply Rdiv_lt_0_compat; [assumption|].
  destruct (Rle_lt_or_eq_dec _ _ (H1 y x)) as [H'|H']; [exact H'|]. symmetry in H'. apply H2 in H'. lra.
Qed.
Example C55_reversible : (forall x y a b : Z, x + (a - b) = y <-> y + (b - a) = x)%Z /\ (forall x y a b : bool, xorb x (xorb a b) = y <-> xorb y (xorb b a) = x).
Proof. split; [lia|]. intros [] [] [] []; cbn; split; congruence. Qed.
Example C55_example : forall b p u0 u2, 0 < p < 1/2 ->
  map fst (issued (fst (de_sample xops (bits_env p [0; 0; 0]%N [0; 0; 0; u0; p/(2*(1-p)); u2]) b 10 [true; false; false] 1 6 []))) = [true; false; false; true; true; moves p false true u2] /\
  generation1 b p [true; false; false] [0; 0; 0]%N [0; 0; 0] [u0; p/(2*(1-p)); u2] = [true; true; moves p false true u2].
Proof.
  intros b p u0 u2 H. assert (G : generation1 b p [true; false; false] [0; 0; 0]%N [0; 0; 0] [u0; p/(2*(1-p)); u2] = [true; true; moves p false true u2]).
  { rewrite generation1_eq by (lra || (cbn; auto)). unfold cross0, cross1, cross2, moves. cbn. f_equal; [destruct (Rle_dec _ _); reflexivity|]. f_equal.
    destruct (Rle_dec _ _) as [|N]; [reflexivity|]. exfalso. apply N. apply (Rmult_le_reg_r (2 * (1 - p))); [lra|]. field_simplify; lra. }
  split; [|exact G]. rewrite <- (firstn_skipn 3 (map fst _)). unfold generation1 in G. cbn [app] in G. rewrite G.
  unfold bits_env. cbn [map]. rewrite bits_run by (cbn; auto). reflexivity.
Qed.
