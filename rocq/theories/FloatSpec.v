(** The statistical consumers in IEEE binary64 arithmetic, round to nearest even, with overflow, infinities and NaN (Flocq). *)
From Coq Require Import Reals ZArith.
From Flocq Require Import Core BinarySingleNaN.
From Verif Require Import Prelude StatsModel.
Local Open Scope R_scope.

(** C++'s [double]. *)
Definition f64 : Type := binary_float 53 1024.
#[global] Instance Hprec : Prec_gt_0 53. Proof. reflexivity. Defined.
#[global] Instance Hmax : Prec_lt_emax 53 1024. Proof. reflexivity. Defined.

(** The arithmetic of [double]; [kofN] is the conversion of [types::sample_index] (types.h) to [double]: the nearest double.
    [Utilities::conj] of a double is the identity (element_access.impl.h). *)
Definition b64_ops : kops f64 := {| k0 := B754_zero false; k1 := Bone;
  kadd := Bplus mode_NE; ksub := Bminus mode_NE; kmul := Bmult mode_NE; kdiv := Bdiv mode_NE; kopp := Bopp; kconj := fun x => x;
  kofN := fun n => binary_normalize 53 1024 Hprec Hmax mode_NE (Z.of_N n) 0 false |}.

(** The real number a finite double stands for. *)
Definition val (x : f64) : R := B2R x.
Definition finite (x : f64) : Prop := is_finite x = true.
(** Component i of a sample. *)
Definition at_ (i : nat) (x : list f64) : f64 := nth i x (B754_zero false).

(** The largest finite double. *)
Definition DBL_MAX : R := bpow radix2 1024 - bpow radix2 971.
(** Half a unit in the last place of 1, and half the smallest positive double. *)
Definition unit_roundoff : R := bpow radix2 (-53).
Definition half_denorm_min : R := bpow radix2 (-1075).

(** The true mean of component i. *)
Definition real_mean (xs : list (list f64)) (i : nat) : R :=
  fold_right Rplus 0 (map (fun x => val (at_ i x)) xs) / INR (length xs).
(** The true (unbiased) covariance of components i and j. *)
Definition real_covariance (xs : list (list f64)) (i j : nat) : R :=
  fold_right Rplus 0 (map (fun x => (val (at_ i x) - real_mean xs i) * (val (at_ j x) - real_mean xs j)) xs) / (INR (length xs) - 1).
