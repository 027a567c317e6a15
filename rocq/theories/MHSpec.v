(** Specification of the Metropolis-Hastings algorithm, from the textbook: over real log likelihoods. *)
From Coq Require Import Reals Lra.
From Verif Require Import Prelude ProducerModel XReal.
Import ListNotations.
Local Open Scope R_scope.

(** pi(y) / (pi(x) * ratio), where ratio = q(y|x)/q(x|y). *)
Definition mh_ratio {X} (ll : X -> R) (x y : X) (ratio : R) : R := exp (ll y) / (exp (ll x) * ratio).

(** The chain: from the proposals (sample, proposal ratio), and the uniform random numbers, which are only consumed
    when the acceptance ratio does not exceed one. *)
Fixpoint textbook_mh {X} (ll : X -> R) (x : X) (proposals : list (X * R)) (draws : list R) : list X :=
  match proposals with
  | [] => []
  | (y, r) :: proposals' =>
    if Rlt_dec 1 (mh_ratio ll x y r) then y :: textbook_mh ll y proposals' draws
    else match draws with
         | [] => []
         | u :: draws' =>
           let z := if Rle_dec u (mh_ratio ll x y r) then y else x in
           z :: textbook_mh ll z proposals' draws'
         end
  end.

(** Finite sums. *)
Fixpoint sumR {X} (f : X -> R) (l : list X) : R := match l with [] => 0 | x :: l' => f x + sumR f l' end.

(** The probability of moving from x to y in one step when proposals come from q(y|x) and are accepted with
    probability [A x y]; rejected proposals leave the chain at x. [states] lists all states. *)
Definition kernel {X} (eqX : forall x y : X, {x = y} + {x <> y}) (states : list X) (q A : X -> X -> R) (x y : X) : R :=
  q x y * A x y + (if eqX x y then 1 - sumR (fun z => q x z * A x z) states else 0).

(** Delayed rejection with symmetric proposals (Tierney and Mira 1999; Trias, Vecchio and Veitch 2009), in terms of the
    values of the density: the probability of accepting y1 from x, of accepting y2 after y1 was rejected, and of
    accepting y3 after y1 and y2 were rejected. *)
Definition alpha1 (px p1 : R) : R := Rmin 1 (p1 / px).
Definition alpha2 (px p1 p2 : R) : R :=
  Rmin 1 ((p2 * (1 - alpha1 p2 p1)) / (px * (1 - alpha1 px p1))).
Definition alpha3 (px p1 p2 p3 : R) : R :=
  Rmin 1 ((p3 * (1 - alpha1 p3 p2) * (1 - alpha2 p3 p2 p1)) / (px * (1 - alpha1 px p1) * (1 - alpha2 px p1 p2))).

(** The unclipped ratios of the first two stages, and the chain with up to [m] delays: proposals are tried one after the
    other, each with knowledge of the rejected ones; random numbers are only consumed when the ratio does not exceed one. *)
Definition dr_ratio {X} (ll : X -> R) (x : X) (ys : list X) : R :=
  match ys with
  | [y1] => exp (ll y1) / exp (ll x)
  | [y1; y2] => (exp (ll y2) * (1 - alpha1 (exp (ll y2)) (exp (ll y1)))) / (exp (ll x) * (1 - alpha1 (exp (ll x)) (exp (ll y1))))
  | _ => 0
  end.
Fixpoint dr_try {X} (ratio : X -> list X -> R) (stages : nat) (x : X) (rejected : list X) (proposals : list X) (draws : list R) :
    option (X * list X * list R) :=
  match stages with
  | O => Some (x, proposals, draws)
  | S stages' =>
    match proposals with
    | [] => None
    | y :: proposals' =>
      if Rlt_dec 1 (ratio x (rejected ++ [y])) then Some (y, proposals', draws)
      else match draws with
           | [] => None
           | u :: draws' =>
             if Rle_dec u (ratio x (rejected ++ [y])) then Some (y, proposals', draws')
             else dr_try ratio stages' x (rejected ++ [y]) proposals' draws'
           end
    end
  end.
Fixpoint textbook_dr {X} (ratio : X -> list X -> R) (m n : nat) (x : X) (proposals : list X) (draws : list R) : list X :=
  match n with
  | O => []
  | S n' =>
    match dr_try ratio (m + 1) x [] proposals draws with
    | Some (z, proposals', draws') => z :: textbook_dr ratio m n' z proposals' draws'
    | None => []
    end
  end.

(** ** Assumptions on the environment *)
(** a log likelihood which does not encode probability zero (-inf is not a real number) *)
Definition nonzero (l : R) := l <> - dbl_max.
(** environments in which all numbers are finite: the log likelihood is a function [ll], proposal ratios are positive,
    and random numbers are in [0,1) *)
Record nice {X} (E : env X xr) (ll : X -> R) : Prop := {
  n_ll : forall t x, e_ll E t x = Some (XFin (ll x)) /\ nonzero (ll x);
  n_prop : forall t x rj y q, e_prop E t x rj = Some (y, q) -> exists r, q = XFin r /\ 0 < r;
  n_unif : forall t, exists u, e_unif E t = XFin u /\ 0 <= u < 1 }.
(** the environment E, except that the uniform random number generator returns u *)
Definition with_draw {X} (E : env X xr) (u : R) : env X xr := {|
  e_ll := e_ll E; e_prop := e_prop E; e_cross := e_cross E; e_unif := fun _ => XFin u;
  e_uint := e_uint E; e_issue := e_issue E; e_flush := e_flush E |}.
