(** Specification of pipelines behind the Markov chain samplers: what consumers and filters make of the samples of a run, and what it is compared to. *)
From Coq Require Import Reals QArith Qreals.
From Coquelicot Require Import Coquelicot.
From Verif Require Import Prelude ConsumerModel FilterModel HistModel HistSpec ProducerModel ProducerSpec XReal MHSpec StatsModel StatsInst StatsCosModel StatsCosSpec MHRunSpec DRRunSpec.
Import ListNotations.
Local Open Scope R_scope.
Local Open Scope list_scope.
Local Notation length := List.length.

(** ** Samplers *)
Section Samplers.
Context {X : Type}.
Variables (eqX : forall x y : X, {x = y} + {x <> y}) (states : list X) (ll : X -> R).

(** [sampler K q E]: E x0 n g v says that v is the expectation of g(samples issued by a run from x0 with n samples), for MetropolisHastings and for DelayedRejectionMetropolisHastings with at most one delay (C58, C59); K are
    the transition probabilities of the chain, q those of the (first) proposals. *)
Inductive sampler : (X -> X -> R) -> (X -> X -> R) -> (X -> nat -> (list X -> R) -> R -> Prop) -> Prop :=
| metropolis_hastings : forall q, (forall x, MHSpec.nonzero (ll x)) -> proposal_distribution states q ->
    sampler (mh_kernel states eqX ll q) q (expectation ll q states)
| delayed_rejection : forall prop ratio max_delays, dr_distribution states prop -> path_symmetric prop -> (max_delays <= 1)%nat ->
    sampler (fun x y => dr_kernel states eqX prop (published ll) (max_delays + 1) x [] y) (fun x y => prop x [] y)
      (fun x0 n => dr_expectation ll prop ratio states x0 max_delays n).

(** Every state can be reached from every state by proposals of positive probability. *)
Definition connected (q : X -> X -> R) : Prop := forall x y, In x states -> In y states -> exists k, reaches states q k x y.
(** ... by the same number of proposals. *)
Definition mixing (q : X -> X -> R) : Prop := exists k, (0 < k)%nat /\ forall x y, In x states -> In y states -> reaches states q k x y.

(** The mean square difference between a statistic of the samples and c is at most C/n for runs of n samples, for all n and from any starting point; and this is also the mean square difference for what the code
    computes, if it has got at least a minimal number of samples and its counter does not overflow. *)
Definition converges (least : nat) (limit : N) (E : X -> nat -> (list X -> R) -> R -> Prop) (code statistic : list X -> R) (c : R) : Prop :=
  exists C, forall x0 n, In x0 states -> (0 < n)%nat ->
  exists v, v <= C / INR n /\ E x0 n (fun l => (statistic l - c) ^ 2) v /\
    ((least <= n)%nat -> (N.of_nat n < limit)%N -> E x0 n (fun l => (code l - c) ^ 2) v).
(** The expectation of f of the sample k steps after x. *)
Definition after (K : X -> X -> R) (k : nat) (f : X -> R) (x : X) : R := markov states K k x (fun l => f (last l x)).
End Samplers.

(** ** Consumers and filters applied to the samples of a run, in exact arithmetic *)
(** What get() makes of the state after these samples were consumed (0 if something fails). *)
Definition report {St T} (consume : St -> T -> outcome St) (init : St) (get : St -> outcome R) (xs : list T) : R :=
  match run_consumer consume init xs with Ok s => match get s with Ok r => r | _ => 0 end | _ => 0 end.
(** Component i of the mean, entry i,j of the covariance matrix, the trace of the autocovariance at lag k, entry i,j of the autocovariance matrix, the average cosine at lag k + 1. The arbitrary parameters are the contents of
    uninitialised memory. *)
Definition mean_value (i : nat) : list (list R) -> R := report (mean_consume R_ops) (mean_init None) (fun s => do m <- mean_get s; Ok (nth i m 0)).
Definition covariance (garbage : matrix R) (i j : nat) : list (list R) -> R :=
  report (cov_consume R_ops) (cov_init garbage) (fun s => Ok (snd (cov_get s) i j)).
Definition autocovariance_trace (max_lag k : nat) : list (list R) -> R := report (act_consume R_ops max_lag) act_init (fun s => act_get R_ops s k).
Definition autocovariance (garbage : nat -> matrix R) (max_lag k i j : nat) : list (list R) -> R :=
  report (acm_consume R_ops garbage max_lag) acm_init (fun s => acm_get R_ops s k i j).
Definition average_cosine (garbage1 garbage2 : nat -> list R) (history_length : N) (k : nat) : list (list R) -> R :=
  report (cos_consume history_length) (cos_init garbage1 garbage2) (fun s => Ok (nth k (cos_get s) 0)).
(** AcceptanceRatio *)
Definition acceptance_ratio {X} (eqX : forall x y : X, {x = y} + {x <> y}) : list X -> R :=
  report (acc_consume (fun x y => if eqX x y then true else false)) acc_init (fun s => Ok (Q2R (acc_get s))).
(** The number of samples in bin k of a histogram with n_bins bins, divided by the number of samples. *)
Definition bin_frequency (b : build) (pts : list dbl) (n_bins k : nat) (xs : list dbl) : R :=
  report (hist_consume b) {| h_pts := pts; h_bins := repeat 0%N n_bins |}
    (fun s => do rows <- hist_get s; Ok (INR (N.to_nat (snd (nth k rows (DNaN, DNaN, 0%N)))))) xs / INR (length xs).
(** MaximumProbabilitySample with samples that carry their log likelihood: is what get() returns a sample of maximal likelihood? *)
Definition finds_maximum {X} (states : list X) (lq : X -> Q) (l : list X) : bool :=
  match run_consumer max_consume max_init (map (fun x => (x, [(ConsumerModel.ll_key, AnyDouble (DFin (lq x)))])) l) with
  | Ok s => match fst (max_get s) with Some x => forallb (fun y => Qle_bool (lq y) (lq x)) states | None => false end
  | _ => false
  end.
(** The samples that DiscardFirstN(k) and TakeEveryNth(k) pass on. *)
Definition discard {X} (k : nat) (l : list X) : list X :=
  match run_filter (dfn_filter (N.of_nat k)) dfn_init (map (fun x => (x, tt)) l) with Ok (_, ys) => map fst ys | _ => [] end.
Definition take_every {X} (k : nat) (l : list X) : list X :=
  match run_filter (ten_filter (N.of_nat k)) ten_init (map (fun x => (x, tt)) l) with Ok (_, ys) => map fst ys | _ => [] end.
