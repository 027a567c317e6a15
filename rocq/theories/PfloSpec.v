(** Specification for C80: PairHistogram in IEEE double arithmetic. *)
From Coq Require Import Reals.
From Flocq Require Import Core BinarySingleNaN.
From Verif Require Import Prelude ConsumerModel HistModel HistSpec StatsModel FloatSpec HfloSpec.

(** [PairHistogram (min_x, max_x, n_x, min_y, max_y, n_y)], pair_histogram.impl.h:266-304, in double arithmetic: along each axis the break points are computed as
    in Histogram (284-290, 297-301). [memory]: what the memory of the matrix of counts contains, which Eigen does not initialise. *)
Definition phist_double (b : build) (memory : nat -> nat -> N) (mnx mxx : f64) (nx : nat) (mny mxy : f64) (ny : nat) : outcome phist :=
  phist_new b memory (to_dbl mnx) (to_dbl mxx) nx (fun bin => to_dbl (cpp_point mnx mxx nx bin)) (to_dbl mny) (to_dbl mxy) ny (fun bin => to_dbl (cpp_point mny mxy ny bin)).
(** A range and number of bins for which the break points are accurate. *)
Definition good_axis (mn mx : f64) (n : nat) : Prop :=
  finite mn /\ finite mx /\ (0 < N.of_nat n <= 2 ^ 32)%N /\ (bpow radix2 (-980) <= val mx - val mn)%R /\ (val mx - val mn <= DBL_MAX)%R.
(** The sample is well inside, or in or near, the ideal bin (i,j). *)
Local Open Scope R_scope.
Local Open Scope bool_scope.
Definition inside_bin (mnx mxx : f64) (nx : nat) (mny mxy : f64) (ny i j : nat) (v : list f64) : bool :=
  in_left_open (edge mnx mxx nx i + slack mnx mxx) (edge mnx mxx nx (i + 1) - slack mnx mxx) (at_ 0 v) &&
  in_left_open (edge mny mxy ny j + slack mny mxy) (edge mny mxy ny (j + 1) - slack mny mxy) (at_ 1 v).
Definition near_bin (mnx mxx : f64) (nx : nat) (mny mxy : f64) (ny i j : nat) (v : list f64) : bool :=
  in_closed (edge mnx mxx nx i - slack mnx mxx) (edge mnx mxx nx (i + 1) + slack mnx mxx) (at_ 0 v) &&
  in_closed (edge mny mxy ny j - slack mny mxy) (edge mny mxy ny (j + 1) + slack mny mxy) (at_ 1 v).
