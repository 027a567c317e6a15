(** Specification of whole runs of MetropolisHastings: the textbook Markov chain, and the expectation of what the code
    issues when the proposals and the random numbers are drawn independently. *)
From Coq Require Import Reals Lra.
From Coquelicot Require Import Coquelicot.
From Verif Require Import Prelude ConsumerModel ProducerModel ProducerSpec XReal MHSpec StatsModel StatsInst.
Import ListNotations.
Local Open Scope R_scope.
Local Open Scope list_scope.
Local Notation length := List.length.

(** ** Textbook *)
Section Textbook.
Context {X : Type}.
Variable states : list X.

(** The target distribution: proportional to exp(ll). *)
Definition target (ll : X -> R) (x : X) : R := exp (ll x) / sumR (fun y => exp (ll y)) states.
(** The mean of f in a distribution. *)
Definition mean_in (p f : X -> R) : R := sumR (fun x => p x * f x) states.

(** The expectation of g(X_1, ..., X_n) for a Markov chain with transition probabilities K which starts at x. *)
Fixpoint markov (K : X -> X -> R) (n : nat) (x : X) (g : list X -> R) : R :=
  match n with
  | O => g []
  | S n' => sumR (fun y => K x y * markov K n' y (fun l => g (y :: l))) states
  end.

(** The transition probabilities of Metropolis-Hastings. *)
Definition mh_kernel (eqX : forall x y : X, {x = y} + {x <> y}) (ll : X -> R) (q : X -> X -> R) : X -> X -> R :=
  kernel eqX states q (fun x y => Rmin 1 (mh_ratio ll x y (q x y / q y x))).

(** y can be reached from x by exactly k proposals of positive probability. *)
Fixpoint reaches (q : X -> X -> R) (k : nat) (x y : X) : Prop :=
  match k with
  | O => x = y
  | S k' => exists z, In z states /\ 0 < q x z /\ reaches q k' z y
  end.

(** A proposal distribution on the states: q x y is the probability of proposing y from x. *)
Record proposal_distribution (q : X -> X -> R) : Prop := {
  pd_nonneg : forall x y, 0 <= q x y;
  pd_sum : forall x, In x states -> sumR (q x) states = 1;
  pd_back : forall x y, q x y = 0 -> q y x = 0 }.
End Textbook.

(** ** Runs of the code *)
Section Run.
Context {X : Type}.
Variables (ll : X -> R) (q : X -> X -> R) (x0 : X).

Definition n_proposed (t : trace X xr) : nat :=
  length (filter (fun e => match e with EPropose _ _ => true | _ => false end) t).

(** The script of a run: what propose_sample proposes, and what the random number generator would return in each
    iteration (the code asks at most once per iteration, if the log likelihoods are not those of probability zero). The
    callbacks return ll and the ratio q(x,y)/q(y,x); the network does not throw. *)
Definition scripted (script : list (X * R)) : env X xr := {|
  e_ll := fun _ x => Some (XFin (ll x));
  e_prop := fun t x _ => match nth_error script (n_proposed t) with
                         | Some (y, _) => Some (y, XFin (q x y / q y x))
                         | None => None
                         end;
  e_cross := fun _ _ _ _ => None;
  e_unif := fun t => match nth_error script (n_proposed t - 1) with Some (_, u) => XFin u | None => XNaN end;
  e_uint := fun _ _ => 0%N;
  e_issue := fun _ _ _ => false;
  e_flush := fun _ => false |}.

(** What the code does with this script: as many samples as the script has entries. *)
Definition run (script : list (X * R)) : trace X xr * res unit :=
  mh_sample xops (scripted script) x0 (length script) [].
Definition samples (script : list (X * R)) : list X := map fst (issued (fst (run script))).
(** the sample the chain is at: the last one issued *)
Definition current (script : list (X * R)) : X := last (samples script) x0.

(** [expects n script g v]: v is the expectation of g(script ++ n random entries), where the proposal of each entry has
    the distribution q(x, .), x being the sample at which the code is, and where the random number is uniform in [0,1).
    It is a relation since expectations may not exist. *)
Fixpoint expects (states : list X) (n : nat) (script : list (X * R)) (g : list (X * R) -> R) (v : R) : Prop :=
  match n with
  | O => v = g script
  | S n' => exists (h : X -> R -> R) (I : X -> R),
    (forall y u, In y states -> 0 < q (current script) y -> 0 <= u < 1 -> expects states n' (script ++ [(y, u)]) g (h y u)) /\
    (forall y, In y states -> 0 < q (current script) y -> is_RInt (h y) 0 1 (I y)) /\
    v = sumR (fun y => q (current script) y * I y) states
  end.
End Run.

(** v is the expectation of g(samples issued by a run of n samples): it exists and is unique. *)
Definition expectation {X} (ll : X -> R) (q : X -> X -> R) (states : list X) (x0 : X) (n : nat) (g : list X -> R) (v : R) : Prop :=
  let e := expects ll q x0 states n [] (fun script => g (samples ll q x0 script)) in
  e v /\ forall v', e v' -> v' = v.

(** 1 if the chain ends at y *)
Definition ends_at {X} (eqX : forall x y : X, {x = y} + {x <> y}) (x0 y : X) (l : list X) : R := if eqX (last l x0) y then 1 else 0.

(** The average of f of these samples. *)
Definition sample_average {X} (f : X -> R) (l : list X) : R := sumR f l / INR (length l).
(** What the code of MeanValue computes when f of these samples is sent to it, in real arithmetic (0 if it fails). *)
Definition estimate {X} (f : X -> R) (l : list X) : R :=
  match run_consumer (mean_consume R_ops) (mean_init None) (map (fun x => [f x]) l) with
  | Ok s => match mean_get s with Ok [m] => m | _ => 0 end
  | _ => 0
  end.
Definition indicator (b : bool) : R := if b then 1 else 0.
Definition far (eps a b : R) : bool := if Rle_dec eps (Rabs (a - b)) then true else false.
