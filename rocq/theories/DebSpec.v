(** Specification for C81: DifferentialEvaluationMetropolisHastings with a log likelihood that is -infinity in places. *)
From Coq Require Import Reals.
From Coquelicot Require Import Coquelicot.
From Verif Require Import Prelude ProducerModel ProducerSpec XReal MHSpec DrdSpec.
Local Open Scope R_scope.

(** What a chain in state [prev] does with the trial [y] proposed with ratio [q] when the random number is [u]: Metropolis-Hastings with the
    densities, and from a state of density zero it moves to every trial of positive density. *)
Definition density_move {X} (lx : X -> xr) (prev y : X) (q u : R) : X :=
  if Rlt_dec 0 (ldensity lx prev) then (if Rle_dec u (ldensity lx y / (ldensity lx prev * q)) then y else prev)
  else if Rlt_dec 0 (ldensity lx y) then y else prev.
(** [A x y] is the measure of the set of random numbers for which the code's test replaces x by the trial y, which is proposed with ratio q(y|x)/q(x|y). *)
Definition accepts_with_density {X} (lx : X -> xr) (q : X -> X -> R) (A : X -> X -> R) : Prop :=
  forall x y, 0 < q x y ->
  is_RInt (fun u => if fst (fst (de_decide xops y (XFin (q x y / q y x)) (XFin u) (lx y) x (lx x))) then 1 else 0) 0 1 (A x y).
