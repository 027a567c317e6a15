(** Specification for C79: Histogram in IEEE double arithmetic. *)
From Coq Require Import Reals QArith Qreals ZArith Lra.
From Flocq Require Import Core BinarySingleNaN.
From Verif Require Import Prelude ConsumerModel HistModel HistSpec StatsModel FloatSpec.
Local Open Scope R_scope.

(** A double as a value of [dbl] (ConsumerModel), on which the model of Histogram works. *)
Definition exact_value (negative : bool) (m : positive) (e : Z) : Q :=
  let z := if negative then Zneg m else Zpos m in
  match e with
  | Zneg p => Qmake z (2 ^ p)
  | _ => inject_Z (z * 2 ^ e)
  end.
Definition to_dbl (x : f64) : dbl :=
  match x with
  | B754_zero _ => DFin 0
  | B754_infinity negative => if negative then DNInf else DPInf
  | B754_nan => DNaN
  | B754_finite negative m e _ => DFin (exact_value negative m e)
  end.
(** The break points as the constructor computes them, histogram.impl.h:255-258: [delta = (max_value - min_value) / (n_bins)] and [min_value + bin*delta], where bin and n_bins (unsigned int) are converted to double. *)
Definition cpp_point (mn mx : f64) (n bin : nat) : f64 :=
  kadd b64_ops mn (kmul b64_ops (kofN b64_ops (N.of_nat bin)) (kdiv b64_ops (ksub b64_ops mx mn) (kofN b64_ops (N.of_nat n)))).
(** [Histogram (mn, mx, n)], histogram.impl.h:243-262, in double arithmetic. *)
Definition hist_double (b : build) (mn mx : f64) (n : nat) : outcome hist :=
  hist_new b (to_dbl mn) (to_dbl mx) n (fun bin => to_dbl (cpp_point mn mx n bin)).

(** The ideal break points: min + k (max - min)/n. *)
Definition edge (mn mx : f64) (n k : nat) : R := val mn + INR k * ((val mx - val mn) / INR n).
(** How far the code's may be off. *)
Definition slack (mn mx : f64) : R := unit_roundoff * (4 * (val mx - val mn) + Rmax (Rabs (val mn)) (Rabs (val mx))).
(** a <= x <= b, a < x <= b and a <= x < b for a finite double x *)
Definition in_closed (a b : R) (x : f64) : bool := if Rle_dec a (val x) then if Rle_dec (val x) b then is_finite x else false else false.
Definition in_left_open (a b : R) (x : f64) : bool := if Rlt_dec a (val x) then if Rle_dec (val x) b then is_finite x else false else false.
Definition in_right_open (a b : R) (x : f64) : bool := if Rle_dec a (val x) then if Rlt_dec (val x) b then is_finite x else false else false.
