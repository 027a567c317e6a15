(** Specification of the statistical error of means: autocovariances of the chain in its steady state and their sums. *)
From Coq Require Import Reals.
From Coquelicot Require Import Coquelicot.
From Verif Require Import Prelude MHSpec MHRunSpec PipeSpec.
Import ListNotations.
Local Open Scope R_scope.
Local Open Scope list_scope.

Section Spec.
Context {X : Type}.
(** The samples are vectors phi(x) of dimension d. *)
Variables (states : list X) (ll : X -> R) (K : X -> X -> R) (phi : X -> list R) (d : nat).
(** Component i of the mean of the target. *)
Definition true_mean (i : nat) : R := mean_in states (target states ll) (fun x => nth i (phi x) 0).
(** The trace of the covariance of a sample distributed like the target and the sample k steps later: what AutoCovarianceTrace estimates (C60). *)
Definition steady_autocovariance (k : nat) : R :=
  sumR (fun i => mean_in states (target states ll) (fun x => (nth i (phi x) 0 - true_mean i) * after states K k (fun y => nth i (phi y) 0 - true_mean i) x)) (seq 0 d).
End Spec.
(** The squared distance of two vectors of dimension d. *)
Definition squared_distance (d : nat) (u v : nat -> R) : R := sumR (fun i => (u i - v i) ^ 2) (seq 0 d).
(** gamma 0 + 2 (gamma 1 + ... + gamma L) *)
Definition lags_up_to (L : nat) (gamma : nat -> R) : R := gamma 0%nat + 2 * sumR gamma (seq 1 L).
(** A sequence that decays exponentially. *)
Definition decays (u : nat -> R) : Prop := exists C m e, (0 < m)%nat /\ 0 < e <= 1 /\ forall n, Rabs (u n) <= C * (1 - e) ^ (n / m).
