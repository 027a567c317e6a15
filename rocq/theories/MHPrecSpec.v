(** Specification of whole runs of MetropolisHastings with the arithmetic and the random numbers a computer has: any type of numbers, any operations on
    it, and a random number generator which returns one of finitely many equally likely values. *)
From Coq Require Import Reals Lra.
From Verif Require Import Prelude ConsumerModel ProducerModel ProducerSpec MHSpec MHRunSpec XReal.
Import ListNotations.
Local Open Scope R_scope.
Local Open Scope list_scope.
Local Notation length := List.length.

Section Run.
Context {X D : Type}.
Variables (O : dops D) (ll : X -> D) (rho : X -> X -> D).

Definition n_props (t : trace X D) : nat :=
  length (filter (fun e => match e with EPropose _ _ => true | _ => false end) t).

(** The script of a run: what propose_sample proposes in each iteration, and the random number of that iteration (the code asks at most once per
    iteration as long as the chain is at a state of nonzero probability). The callbacks return ll and rho; the network does not throw. *)
Definition dscripted (script : list (X * D)) : env X D := {|
  e_ll := fun _ x => Some (ll x);
  e_prop := fun t x _ => match nth_error script (n_props t) with
                         | Some (y, _) => Some (y, rho x y)
                         | None => None
                         end;
  e_cross := fun _ _ _ _ => None;
  e_unif := fun t => match nth_error script (n_props t - 1) with Some (_, u) => u | None => d_one O end;
  e_uint := fun _ _ => 0%N;
  e_issue := fun _ _ _ => false;
  e_flush := fun _ => false |}.

(** What the code does with this script, started at x: as many samples as the script has entries. *)
Definition drun (x : X) (script : list (X * D)) : trace X D * res unit := mh_sample O (dscripted script) x (length script) [].
Definition dsamples (x : X) (script : list (X * D)) : list X := map fst (issued (fst (drun x script))).
Definition dcurrent (x : X) (script : list (X * D)) : X := last (dsamples x script) x.

(** states whose log likelihood is not one of the two values that stand for probability zero *)
Definition possible (x : X) : bool := negb (d_eq O (ll x) (d_nmax O) || d_eq O (ll x) (d_ninf O)).

Variables (q : X -> X -> R) (us : list D) (states : list X).
(** the expectation of g(script ++ n random entries): the proposal of each entry has the distribution q(x, .), x being the sample at which the code is,
    and the random number is each of the values us with the same probability *)
Fixpoint dmean (x0 : X) (n : nat) (script : list (X * D)) (g : list (X * D) -> R) : R :=
  match n with
  | Datatypes.O => g script
  | S n' => sumR (fun y => q (dcurrent x0 script) y * (sumR (fun u => dmean x0 n' (script ++ [(y, u)]) g) us / INR (length us))) states
  end.
(** the expectation of g(samples issued by a run of n samples) *)
Definition dexpectation (x0 : X) (n : nat) (g : list X -> R) : R := dmean x0 n [] (fun script => g (dsamples x0 script)).

(** the fraction of the random numbers with which the code, being at x, accepts the proposal y: one iteration of the code decides *)
Definition acceptance (eqX : forall x y : X, {x = y} + {x <> y}) (x y : X) : R :=
  sumR (fun u => if eqX (dcurrent x [(y, u)]) y then 1 else 0) us / INR (length us).
End Run.

(** The code accepts with the textbook's probability min(1, pi(y) q(y,x) / (pi(x) q(x,y))), up to eps, where pi = exp(L). *)
Definition accepts_up_to {X D} (eqX : forall x y : X, {x = y} + {x <> y}) (O : dops D) (ll : X -> D) (rho : X -> X -> D) (us : list D)
    (L : X -> R) (q : X -> X -> R) (S0 : list X) (eps : R) : Prop :=
  forall x y, In x S0 -> In y S0 -> 0 < q x y ->
  Rabs (acceptance O ll rho us eqX x y - Rmin 1 (mh_ratio L x y (q x y / q y x))) <= eps.

(** ** Floating point arithmetic *)
(** The operations which the acceptance test uses, on finite numbers: correct up to a relative error delta and an absolute error tau, unless the result
    is larger than big; comparisons are exact. *)
Record accurate {D} (val : D -> R) (finite : D -> Prop) (O : dops D) (delta tau big : R) : Prop := {
  a_sub : forall a b, finite a -> finite b -> Rabs (val a - val b) <= big ->
    finite (d_sub O a b) /\ Rabs (val (d_sub O a b) - (val a - val b)) <= delta * Rabs (val a - val b) + tau;
  a_div : forall a b, finite a -> finite b -> 0 < val b -> Rabs (val a / val b) <= big ->
    finite (d_div O a b) /\ Rabs (val (d_div O a b) - val a / val b) <= delta * Rabs (val a / val b) + tau;
  a_exp : forall a, finite a -> exp (val a) <= big ->
    finite (d_exp O a) /\ 0 <= val (d_exp O a) /\ Rabs (val (d_exp O a) - exp (val a)) <= delta * exp (val a) + tau;
  a_log : forall a, finite a -> 0 < val a ->
    finite (d_log O a) /\ Rabs (val (d_log O a) - ln (val a)) <= delta * Rabs (ln (val a)) + tau;
  a_gt : forall a b, finite a -> finite b -> d_gt O a b = if Rlt_dec (val b) (val a) then true else false;
  a_ge : forall a b, finite a -> finite b -> d_ge O a b = if Rle_dec (val b) (val a) then true else false }.

(** A list of random numbers in [0,1) which is uniform up to gamma: the fraction of those at most v is v, up to gamma. *)
Definition uniform_up_to (gamma : R) (us : list R) : Prop :=
  us <> [] /\ (forall u, In u us -> 0 <= u < 1) /\
  forall v, 0 <= v <= 1 -> Rabs (sumR (fun u => if Rle_dec u v then 1 else 0) us / INR (length us) - v) <= gamma.
(** The callbacks return finite numbers: the log likelihood up to lambda, and the ratio of the proposal probabilities up to a factor between exp(-kappa) and
    exp(kappa); bound and ratio bound their sizes. *)
Record close_callbacks {X D} (val : D -> R) (finite : D -> Prop) (ll : X -> D) (rho : X -> X -> D) (L : X -> R) (q : X -> X -> R) (S0 : list X)
    (bound ratio lambda kappa : R) : Prop := {
  cc_ll : forall x, In x S0 -> finite (ll x) /\ Rabs (val (ll x)) <= bound /\ Rabs (val (ll x) - L x) <= lambda;
  cc_rho : forall x y, In x S0 -> In y S0 -> 0 < q x y -> finite (rho x y) /\ 0 < val (rho x y) /\ Rabs (ln (val (rho x y))) <= ratio /\
    Rabs (ln (val (rho x y)) - ln (q x y / q y x)) <= kappa }.
(** 0, 1/N, 2/N, ... *)
Definition grid (N : nat) : list R := map (fun k => INR k / INR N) (seq 0 N).
