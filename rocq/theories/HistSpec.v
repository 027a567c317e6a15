(** Specification of the histograms. *)
From Coq Require Import QArith.
From Verif Require Import Prelude ConsumerModel HistModel.
Local Open Scope bool_scope.
Local Open Scope nat_scope.

(** A subdivision: at least one point, no NaN, in non-decreasing order. *)
Definition subdivision (pts : list dbl) : Prop :=
  pts <> [] /\ (forall p, In p pts -> p <> DNaN) /\
  forall i j, i < j < length pts -> dle (nth i pts DNaN) (nth j pts DNaN) = true.

(** [v] belongs to interval [b] of the subdivision: it is in (p_b, p_{b+1}], or the left end point of the first interval; the
    right end point of the last interval does not count. *)
Definition belongs (pts : list dbl) (b : nat) (v : dbl) : bool :=
  (dlt (nth b pts DNaN) v && dle v (nth (b + 1) pts DNaN) || (b =? 0) && deq v (nth 0 pts DNaN)) && dlt v (nth (length pts - 1) pts DNaN).
(** [v] is in [p_0, p_n). *)
Definition in_range (pts : list dbl) (v : dbl) : bool := dle (nth 0 pts DNaN) v && dlt v (nth (length pts - 1) pts DNaN).
Definition count {A} (P : A -> bool) (l : list A) : N := N.of_nat (length (filter P l)).
Fixpoint total (l : list N) : N := match l with [] => 0%N | c :: l' => (c + total l')%N end.
(** The four corners of a box with the given x, y, z values, as a set. *)
Definition is_face (patch corners : list point3) : Prop := forall p, In p patch <-> In p corners.
