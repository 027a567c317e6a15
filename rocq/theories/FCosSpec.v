(** Specification for AverageCosineBetweenSuccessiveSamples in double arithmetic. *)
From Coq Require Import Reals ZArith.
From Flocq Require Import Core BinarySingleNaN.
From Verif Require Import Prelude FloatSpec StatsCosSpec.
Local Open Scope R_scope.

(** std::sqrt of a double: correctly rounded (IEEE 754). *)
Definition bsqrt (x : f64) : f64 := Bsqrt mode_NE x.
(** A sample with d finite components whose length is between 2^-250 (about 5.5e-76) and 2^250 (about 1.8e75). *)
Definition moderate (d : nat) (x : list f64) : Prop := length x = d /\ Forall finite x /\ bpow radix2 (-250) <= norm (map val x) <= bpow radix2 250.
(** A zero vector of doubles. *)
Definition zero_vector (x : list f64) : Prop := Forall (fun a => exists sign, a = B754_zero sign) x.
