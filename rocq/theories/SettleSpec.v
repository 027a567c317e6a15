(** Specification of results that settle: what a consumer reports while a chain runs stays near the truth from some sample on. *)
From Coq Require Import Reals.
From Verif Require Import Prelude MHSpec MHRunSpec.
Import ListNotations.
Local Open Scope R_scope.
Local Open Scope list_scope.

(** Is a statistic of the first k samples ever eps or more away from c, for n <= k <= m? *)
Definition ever_far {X} (eps c : R) (statistic : list X -> R) (n m : nat) (l : list X) : bool := existsb (fun k => far eps (statistic (firstn k l)) c) (seq n (m - n + 1)).
(** The probability, over runs of m samples, that a statistic is ever again eps or more away from c once n samples have been issued is at most C/sqrt(n), with the same C for all n, all m (however long the run) and all starting points; and this is also
    the probability for what the code reports, if it has got at least a minimal number of samples and its counter does not overflow. *)
Definition settles {X} (states : list X) (least : nat) (limit : N) (E : X -> nat -> (list X -> R) -> R -> Prop) (code statistic : list X -> R) (c : R) : Prop :=
  forall eps, 0 < eps -> exists C, forall x0 n m, In x0 states -> (0 < n <= m)%nat ->
  exists v, 0 <= v <= C / sqrt (INR n) /\ E x0 m (fun l => indicator (ever_far eps c statistic n m l)) v /\
    ((least <= n)%nat -> (N.of_nat m < limit)%N -> E x0 m (fun l => indicator (ever_far eps c code n m l)) v).
