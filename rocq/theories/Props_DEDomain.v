(** C81: DifferentialEvaluationMetropolisHastings on a bounded domain (log likelihood -infinity in places). *)
From Coq Require Import Reals Lra.
From Coquelicot Require Import Coquelicot.
From Verif Require Import Prelude ProducerModel ProducerSpec XReal MHSpec MHProofs DEStatSpec DrdSpec DebSpec DebProofs.
Local Open Scope R_scope.
Local Open Scope list_scope.
Local Notation length := List.length.

(** C81: what every run issues: sample number k comes from the previous state of the same chain (a starting point, or sample number k - n_chains), the k-th proposal and the
    k-th random number by a Metropolis-Hastings move for the densities. A chain that starts where the density is zero stays there
    until it is offered a trial of positive density, which it accepts whatever the random number is. *)
Theorem C81_run :
  forall X (E : env X xr) (lx : X -> xr), (forall x, lx x <> XNaN /\ lx x <> XPInf) -> (forall t x l, e_ll E t x = Some l -> l = lx x) ->
  (forall t x rj y q, e_prop E t x rj = Some (y, q) -> exists r, q = XFin r /\ 0 < r) ->
  (forall t, exists u, e_unif E t = XFin u) ->
  forall (bd : build) fuel (xs : list X) gap N0 t r,
  (forall b hi, (e_uint E b hi <= hi)%N) ->
  (3 <= length xs)%nat -> (N.of_nat (N0 + length xs) < two64)%N -> (N0 < fuel)%nat ->
  de_sample xops E bd fuel xs (N.of_nat gap) (N.of_nat N0) [] = (t, r) ->
  forall k z, nth_error (map fst (issued t)) k = Some z ->
  exists prev y q u,
    nth_error (xs ++ map fst (issued t)) k = Some prev /\
    nth_error (map snd (proposals E t)) k = Some (y, XFin q) /\ 0 < q /\
    nth_error (draws E t) k = Some (XFin u) /\
    z = density_move lx prev y q u.
Proof. exact deb_run. Qed.
Print Assumptions C81_run.
(** C81: so if all starting points have positive density and no random number is exactly zero, no sample of density zero is issued. *)
Theorem C81_never_outside :
  forall X (E : env X xr) (lx : X -> xr), (forall x, lx x <> XNaN /\ lx x <> XPInf) -> (forall t x l, e_ll E t x = Some l -> l = lx x) ->
  (forall t x rj y q, e_prop E t x rj = Some (y, q) -> exists r, q = XFin r /\ 0 < r) ->
  (forall t, exists u, e_unif E t = XFin u /\ 0 < u) ->
  forall (bd : build) fuel (xs : list X) gap N0,
  (forall b hi, (e_uint E b hi <= hi)%N) ->
  (3 <= length xs)%nat -> (N.of_nat (N0 + length xs) < two64)%N -> (N0 < fuel)%nat ->
  Forall (fun x => 0 < ldensity lx x) xs ->
  Forall (fun z => 0 < ldensity lx (fst z)) (issued (fst (de_sample xops E bd fuel xs (N.of_nat gap) (N.of_nat N0) []))).
Proof. exact deb_never_outside. Qed.
Print Assumptions C81_never_outside.
(** The conditions are met by a user who proposes a state of density zero all the time. *)
Definition half_env : env bool xr := {| e_ll := fun _ x => Some (gap_ll x); e_prop := fun _ _ _ => Some (true, XFin 1); e_cross := fun _ x _ _ => Some x;
  e_unif := fun _ => XFin (1/2); e_uint := fun _ _ => 0%N; e_issue := fun _ _ _ => false; e_flush := fun _ => false |}.
Example C81_example : (forall x, gap_ll x <> XNaN /\ gap_ll x <> XPInf) /\ (forall t x l, e_ll half_env t x = Some l -> l = gap_ll x) /\
  (forall t x rj y q, e_prop half_env t x rj = Some (y, q) -> exists r, q = XFin r /\ 0 < r) /\ (forall t, exists u, e_unif half_env t = XFin u /\ 0 < u) /\
  (forall b hi, (e_uint half_env b hi <= hi)%N) /\ Forall (fun x => 0 < ldensity gap_ll x) [false; false; false] /\ ldensity gap_ll true = 0.
Proof.
  split; [intros []; split; discriminate|]. split; [cbn; congruence|]. split; [intros ? ? ? ? ? H; inversion H; exists 1; split; [reflexivity|lra]|].
  split; [intros; exists (1/2); split; [reflexivity|lra]|]. split; [cbn; lia|]. split; [|reflexivity].
  repeat constructor; apply exp_pos.
Qed.
(** C81, refuted without the condition on the random numbers (std::uniform_real_distribution<>(0,1) may return zero): all three chains start at a state of positive density, and the first sample issued is one of density zero. *)
Theorem C81_never_outside_refuted :
  let E := zero_env in ldensity gap_ll false = 1 /\ ldensity gap_ll true = 0 /\ (forall t x, e_ll E t x = Some (gap_ll x)) /\ (forall t, e_unif E t = XFin 0) /\
  forall bd, nth_error (map fst (issued (fst (de_sample xops E bd 10 [false; false; false] 0 3 [])))) 0 = Some true.
Proof. cbv zeta. split; [exact exp_0|]. split; [reflexivity|]. split; [reflexivity|]. split; [reflexivity|]. exact zero_number. Qed.
Print Assumptions C81_never_outside_refuted.

(** C81: detailed balance with respect to the density, for one chain without crossover. *)
Theorem C81_one_chain_balance :
  forall (X : Type) (lx : X -> xr) (q : X -> X -> R), (forall x, lx x <> XNaN /\ lx x <> XPInf) -> (forall x y, 0 <= q x y) -> (forall x y, q x y = 0 -> q y x = 0) ->
  forall A, accepts_with_density lx q A -> forall x y, ldensity lx x * (q x y * A x y) = ldensity lx y * (q y x * A y x).
Proof. exact @deb_balance. Qed.
Print Assumptions C81_one_chain_balance.
(** C81: a generation without crossover keeps the distribution of all chains together: independent, each with this density. *)
Theorem C81_without_crossover :
  forall (X : Type) (eqX : forall x y : X, {x = y} + {x <> y}) (lx : X -> xr) (q : X -> X -> R), (forall x, lx x <> XNaN /\ lx x <> XPInf) ->
  (forall x y, 0 <= q x y) -> (forall x y, q x y = 0 -> q y x = 0) ->
  forall A, accepts_with_density lx q A -> forall states ys, NoDup states -> Forall (fun y => In y states) ys ->
  sumR (fun xs => prod1 (ldensity lx) xs * prod2 (kernel eqX states q A) xs ys) (tuples states (length ys)) = prod1 (ldensity lx) ys.
Proof. exact deb_product. Qed.
Print Assumptions C81_without_crossover.
(** C81: and so does a reversible crossover for the last chain (not for the others: C55_middle_chain_refuted). *)
Theorem C81_last_chain_with_crossover :
  forall (X : Type) (eqX : forall x y : X, {x = y} + {x <> y}) (cross : X -> X -> X -> X), (forall x y a b, cross x a b = y <-> cross y b a = x) ->
  forall current, (3 <= N.of_nat (length current) < two64)%N -> forall (lx : X -> xr) A, (forall x, lx x <> XNaN /\ lx x <> XPInf) ->
  (forall x y, is_RInt (fun u => if fst (fst (de_decide xops y (XFin 1) (XFin u) (lx y) x (lx x))) then 1 else 0) 0 1 (A x y)) ->
  forall states y, NoDup states -> In y states ->
  sumR (fun x => ldensity lx x * kernel eqX states (crossed eqX cross current (N.of_nat (length current) - 1)) A x y) states = ldensity lx y.
Proof. exact deb_last_chain. Qed.
Print Assumptions C81_last_chain_with_crossover.
(** Acceptance probabilities as assumed exist for all densities and proposals. *)
Example C81_acceptance_exists : forall (X : Type) (lx : X -> xr) (q : X -> X -> R), (forall x, lx x <> XNaN /\ lx x <> XPInf) -> (forall x y, 0 <= q x y) -> (forall x y, q x y = 0 -> q y x = 0) ->
  exists A, accepts_with_density lx q A.
Proof.
  intros X lx q Hlx H1 H2.
  exists (fun x y => if Rlt_dec 0 (ldensity lx x) then Rmin 1 (ldensity lx y / (ldensity lx x * (q x y / q y x))) else if Rlt_dec 0 (ldensity lx y) then 1 else 0).
  intros x y H. assert (Hp1 : 0 < q y x). { pose proof (H1 y x). destruct (Req_EM_T (q y x) 0) as [E|]; [apply H2 in E; lra|lra]. }
  assert (Hr : 0 < q x y / q y x) by now apply Rdiv_lt_0_compat.
  destruct (Rlt_dec 0 (ldensity lx x)) as [P|P].
  - apply is_RInt_ext with (f := fun u => if Rle_dec u (ldensity lx y / (ldensity lx x * (q x y / q y x))) then 1 else 0).
    + intros u _. rewrite (decide_density lx Hlx) by exact Hr. destruct (Rlt_dec 0 (ldensity lx x)) as [_|C]; [|contradiction]. destruct (Rle_dec u _); reflexivity.
    + apply RInt_indicator. apply Rmult_le_pos; [apply (dn_nonneg lx Hlx)|]. apply Rlt_le, Rinv_0_lt_compat, Rmult_lt_0_compat; assumption.
  - set (c := if Rlt_dec 0 (ldensity lx y) then 1 else 0). apply is_RInt_ext with (f := fun _ : R => c).
    + intros u _. rewrite (decide_density lx Hlx) by exact Hr. destruct (Rlt_dec 0 (ldensity lx x)) as [C|_]; [contradiction|]. unfold c. destruct (Rlt_dec 0 (ldensity lx y)); reflexivity.
    + pose proof (@is_RInt_const R_NormedModule 0 1 c) as HC. change (scal (1 - 0) c) with (Rmult (1 - 0) c) in HC.
      replace (Rmult (1 - 0) c) with c in HC by ring. exact HC.
Qed.
