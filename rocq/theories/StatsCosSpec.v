(** Specification of AverageCosineBetweenSuccessiveSamples: the average of the cosines of the angles between pairs of samples. *)
From Coq Require Import Reals.
From Verif Require Import Prelude.
Local Open Scope R_scope.

Fixpoint inner (a b : list R) : R := match a, b with x :: a', y :: b' => x * y + inner a' b' | _, _ => 0 end.
Definition norm (a : list R) : R := sqrt (inner a a).
Definition cos_angle (a b : list R) : R := inner a b / (norm a * norm b).
Definition nonzero (a : list R) : Prop := Exists (fun x => x <> 0) a.
Fixpoint rsum (l : list R) : R := match l with [] => 0 | x :: l' => x + rsum l' end.
Definition average (l : list R) : R := rsum l / INR (length l).
(** The cosines between each sample and the one [k] samples before it. *)
Definition cosines (xs : list (list R)) (k : nat) : list R :=
  map (fun t => cos_angle (nth (t + k) xs []) (nth t xs [])) (seq 0 (length xs - k)).
