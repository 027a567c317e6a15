(** The acceptance test of MetropolisHastings in IEEE binary64 arithmetic (Flocq), and random number generators which return doubles. *)
From Coq Require Import Reals ZArith.
From Flocq Require Import Core BinarySingleNaN.
From Verif Require Import Prelude ProducerModel HistFloat FloatSpec MHPrecSpec.
Import ListNotations.
Local Open Scope R_scope.
Local Open Scope list_scope.

(** The operations of [double] as the acceptance test uses them, metropolis_hastings.impl.h:663-670: subtraction and division are rounded to the nearest
    double; std::exp and std::log are any functions fe and fl. *)
Definition b64_dops (fe fl : f64 -> f64) : dops f64 := {|
  d_one := Bone; d_nmax := Bopp (Bmax_float : f64); d_ninf := B754_infinity true;
  d_sub := Bminus mode_NE; d_mul := Bmult mode_NE; d_div := Bdiv mode_NE; d_exp := fe; d_log := fl;
  d_gt := fun a b => Bltb b a; d_ge := fun a b => Bleb b a; d_eq := Beqb |}.

(** What the C library guarantees of std::exp and std::log: a relative error of delta and an absolute error of tau. *)
Record library (fe fl : f64 -> f64) (delta tau : R) : Prop := {
  lib_exp : forall a, finite a -> exp (val a) <= DBL_MAX -> finite (fe a) /\ 0 <= val (fe a) /\ Rabs (val (fe a) - exp (val a)) <= delta * exp (val a) + tau;
  lib_log : forall a, finite a -> 0 < val a -> finite (fl a) /\ Rabs (val (fl a) - ln (val a)) <= delta * Rabs (ln (val a)) + tau }.

(** The double nearest to x. *)
Definition of_real (x : R) : f64 := binary_normalize 53 1024 Hprec Hmax mode_NE (ZnearestE (scaled_mantissa radix2 fexp x)) (cexp radix2 fexp x) false.
(** exp and log which return the double nearest to the true value *)
Definition nearest_exp (a : f64) : f64 := of_real (exp (val a)).
Definition nearest_log (a : f64) : f64 := of_real (ln (val a)).

(** The values of std::uniform_real_distribution<double>(0,1), random_number_generator by random_number_generator: one of N equally likely integers k is
    divided by N and rounded; results that were rounded up to 1 are replaced by the largest double below 1 (libstdc++'s generate_canonical with
    std::mt19937 does this with N = 2^64). *)
Definition canonical (N : nat) : list f64 := map (fun k => of_real (Rmin (INR k / INR N) (1 - bpow radix2 (-53)))) (seq 0 N).
