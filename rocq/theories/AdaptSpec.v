(** Adaptive Metropolis (metropolis_hastings.impl.h:344-465): propose_sample() looks at consumers that are connected to the sampler, so proposals depend on the samples issued so far.
    Specification: the textbook chain, and the expectation of what the code issues. *)
From Coq Require Import Reals Lra.
From Coquelicot Require Import Coquelicot.
From Verif Require Import Prelude ConsumerModel ProducerModel ProducerSpec XReal MHSpec StatsModel StatsSpec StatsInst MHRunSpec.
Import ListNotations.
Local Open Scope R_scope.
Local Open Scope list_scope.
Local Notation length := List.length.

(** ** Textbook *)
Section Textbook.
Context {X : Type}.
Variable states : list X.

(** The expectation of g(X_1, ..., X_n) if the history is h, the chain is at x, and K h x y is the probability to go from x to y after history h. *)
Fixpoint adaptive_chain (K : list X -> X -> X -> R) (n : nat) (h : list X) (x : X) (g : list X -> R) : R :=
  match n with
  | O => g []
  | S n' => sumR (fun y => K h x y * adaptive_chain K n' (h ++ [y]) y (fun l => g (y :: l))) states
  end.
(** Metropolis-Hastings with proposals that depend on the history. *)
Definition adaptive_kernel (eqX : forall x y : X, {x = y} + {x <> y}) (ll : X -> R) (q : list X -> X -> X -> R) : list X -> X -> X -> R :=
  fun h => mh_kernel states eqX ll (q h).

(** Whatever the samples so far, proposals have a proposal distribution. *)
Definition adaptive_proposals (q : list X -> X -> X -> R) : Prop := forall h, incl h states -> proposal_distribution states (q h).
(** y can be reached from x by exactly m steps along G. *)
Fixpoint path (G : X -> X -> Prop) (m : nat) (x y : X) : Prop :=
  match m with
  | O => x = y
  | S m' => exists z, In z states /\ G x z /\ path G m' z y
  end.
(** Whatever the samples so far, the moves G, and back, are proposed with a probability of at least b; and m of these moves lead from everywhere to everywhere. *)
Definition never_stuck (q : list X -> X -> X -> R) (b : R) (m : nat) (G : X -> X -> Prop) : Prop :=
  0 < b /\ (0 < m)%nat /\ (forall h x y, incl h states -> In x states -> In y states -> G x y -> b <= q h x y /\ b <= q h y x) /\
  forall x y, In x states -> In y states -> path G m x y.
(** The n-th sample changes the probabilities of proposals by at most c/n (n = 1 for the first one). *)
Definition diminishing (q : list X -> X -> X -> R) (c : R) : Prop :=
  forall h z x y, incl h states -> In z states -> In x states -> In y states -> Rabs (q (h ++ [z]) x y - q h x y) <= c / INR (S (length h)).
End Textbook.

(** ** Runs of the code *)
Section Run.
Context {X : Type}.
Variables (ll : X -> R) (q : list X -> X -> X -> R) (x0 : X).

(** The script of a run as in MHRunSpec: proposals and random numbers. *)
Definition ascripted (script : list (X * R)) : env X xr := {|
  e_ll := fun _ x => Some (XFin (ll x));
  e_prop := fun t x _ => match nth_error script (n_proposed t) with
                         | Some (y, _) => let h := map fst (issued t) in Some (y, XFin (q h x y / q h y x))
                         | None => None
                         end;
  e_cross := fun _ _ _ _ => None;
  e_unif := fun t => match nth_error script (n_proposed t - 1) with Some (_, u) => XFin u | None => XNaN end;
  e_uint := fun _ _ => 0%N;
  e_issue := fun _ _ _ => false;
  e_flush := fun _ => false |}.
Definition arun (script : list (X * R)) : trace X xr * res unit := mh_sample xops (ascripted script) x0 (length script) [].
Definition asamples (script : list (X * R)) : list X := map fst (issued (fst (arun script))).
(** [aexpects n script g v]: v is the expectation of g(script ++ n random entries), where the proposal of each entry has the distribution q h x, if the samples issued so far are h, the last of them x, and where the random number is
    uniform in [0,1). *)
Fixpoint aexpects (states : list X) (n : nat) (script : list (X * R)) (g : list (X * R) -> R) (v : R) : Prop :=
  match n with
  | O => v = g script
  | S n' => let h := asamples script in let x := last h x0 in
    exists (f : X -> R -> R) (I : X -> R),
    (forall y u, In y states -> 0 < q h x y -> 0 <= u < 1 -> aexpects states n' (script ++ [(y, u)]) g (f y u)) /\
    (forall y, In y states -> 0 < q h x y -> is_RInt (f y) 0 1 (I y)) /\
    v = sumR (fun y => q h x y * I y) states
  end.
End Run.
(** v is the expectation of g(samples issued by a run of n samples): it exists and is unique. *)
Definition aexpectation {X} (ll : X -> R) (q : list X -> X -> X -> R) (states : list X) (x0 : X) (n : nat) (g : list X -> R) (v : R) : Prop :=
  let e := aexpects ll q x0 states n [] (fun script => g (asamples ll q x0 script)) in
  e v /\ forall v', e v' -> v' = v.

(** ** The strategy of the documentation *)
Section Covariance.
Context {X : Type}.
Variables (vect : X -> list R) (garbage : nat -> nat -> R) (n0 : N) (simple : X -> X -> R) (adapted : (nat -> nat -> R) -> X -> X -> R).
(** metropolis_hastings.impl.h:455-465: counter and covariance_matrix have consumed the samples h when propose_sample is called. Samples are vectors by [vect]. *)
Definition documented (h : list X) : X -> X -> R :=
  match run_consumer count_consume count_init h, run_consumer (cov_consume R_ops) (cov_init garbage) (map vect h) with
  | Ok counter, Ok covariance_matrix => if (count_get counter <? n0)%N then simple else adapted (snd (cov_get covariance_matrix))
  | _, _ => simple
  end.
(** The textbook: the first n0 proposals are simple ones, the others depend on the covariance of the samples so far. *)
Definition adaptive_metropolis (h : list X) : X -> X -> R := if (N.of_nat (length h) <? n0)%N then simple else adapted (the_covariance R_ops (map vect h)).
End Covariance.

(** What proposals have to be like. Samples are vectors with dim components; [adapted C] is the proposal distribution for the covariance matrix C. *)
Section Adaptable.
Context {X : Type}.
Variables (states : list X) (vect : X -> list R) (dim : nat).
(** C is the covariance matrix of at least two samples. *)
Definition observable (C : nat -> nat -> R) : Prop :=
  exists h, incl h states /\ (2 <= length h)%nat /\ forall i j, (i < dim)%nat -> (j < dim)%nat -> C i j = the_covariance R_ops (map vect h) i j.
(** A proposal distribution that proposes the moves G, and back, with a probability of at least b. *)
Definition lively (b : R) (G : X -> X -> Prop) (q : X -> X -> R) : Prop :=
  proposal_distribution states q /\ forall x y, In x states -> In y states -> G x y -> b <= q x y /\ b <= q y x.
Record adaptable (simple : X -> X -> R) (adapted : (nat -> nat -> R) -> X -> X -> R) (b : R) (m : nat) (G : X -> X -> Prop) (L : R) : Prop := {
  ad_dim : forall x, In x states -> length (vect x) = dim;
  ad_positive : 0 < b /\ (0 < m)%nat;
  ad_paths : forall x y, In x states -> In y states -> path states G m x y;
  ad_simple : lively b G simple;
  ad_adapted : forall C, observable C -> lively b G (adapted C);
  (* the proposals depend continuously on the matrix *)
  ad_lipschitz : forall C C' e x y, observable C -> observable C' -> (forall i j, (i < dim)%nat -> (j < dim)%nat -> Rabs (C i j - C' i j) <= e) ->
    Rabs (adapted C x y - adapted C' x y) <= L * e }.
End Adaptable.
