(** Specification of whole runs of DelayedRejectionMetropolisHastings: the Markov chain of delayed rejection, and the
    expectation of what the code issues when proposals and random numbers are drawn independently. *)
From Coq Require Import Reals Lra.
From Coquelicot Require Import Coquelicot.
From Verif Require Import Prelude ProducerModel ProducerSpec XReal MHSpec MHRunSpec.
Import ListNotations.
Local Open Scope R_scope.
Local Open Scope list_scope.
Local Notation length := List.length.

(** ** Textbook *)
Section Textbook.
Context {X : Type}.
Variables (states : list X) (eqX : forall x y : X, {x = y} + {x <> y}).

(** [prop x rejected y]: the probability of proposing y from x when these samples were rejected before. *)
Record dr_distribution (prop : X -> list X -> X -> R) : Prop := {
  dd_nonneg : forall x rejected y, 0 <= prop x rejected y;
  dd_sum : forall x rejected, In x states -> incl rejected states -> sumR (prop x rejected) states = 1 }.

(** The probability of being at z at the end of an iteration which has [stages] trials left, is at x, and has rejected
    these samples, when the last of ys is accepted with probability A x ys. *)
Fixpoint dr_kernel (prop : X -> list X -> X -> R) (A : X -> list X -> R) (stages : nat) (x : X) (rejected : list X) (z : X) : R :=
  match stages with
  | O => if eqX x z then 1 else 0
  | S stages' => sumR (fun y => prop x rejected y * (A x (rejected ++ [y]) * (if eqX y z then 1 else 0) +
      (1 - A x (rejected ++ [y])) * dr_kernel prop A stages' x (rejected ++ [y]) z)) states
  end.

(** The published acceptance probabilities for symmetric proposals, for at most one delay. *)
Definition published (ll : X -> R) (x : X) (ys : list X) : R :=
  match ys with
  | [y1] => alpha1 (exp (ll x)) (exp (ll y1))
  | [y1; y2] => alpha2 (exp (ll x)) (exp (ll y1)) (exp (ll y2))
  | _ => 0
  end.

(** What the published algorithm assumes: going from x over the rejected y1 to y2 is proposed with the same probability
    as going from y2 over y1 to x. *)
Definition path_symmetric (prop : X -> list X -> X -> R) : Prop :=
  (forall x y, prop x [] y = prop y [] x) /\
  (forall x y1 y2, prop x [] y1 * prop x [y1] y2 = prop y2 [] y1 * prop y2 [y1] x).
(** What the documentation of the class mentions: the probability of a proposal is symmetric, whatever was rejected before. *)
Definition pairwise_symmetric (prop : X -> list X -> X -> R) : Prop := forall x rejected y, prop x rejected y = prop y rejected x.
End Textbook.

(** The probability with which the code accepts the last of ys: that of the random number being at most the acceptance
    ratio it computes (1 if this is larger than one, 0 if it is negative or not a number). *)
Definition accept_probability (a : xr) : R :=
  match a with XFin r => Rmax 0 (Rmin 1 r) | XPInf => 1 | _ => 0 end.
Definition code_accepts {X} (ll : X -> R) (x : X) (ys : list X) : R :=
  match alpha_fn xops false (length ys) (x, XFin (ll x)) (map (fun y => (y, XFin (ll y))) ys) with
  | Some a => accept_probability a
  | None => 0
  end.

(** ** Runs of the code *)
Section Run.
Context {X : Type}.
Variables (ll : X -> R) (prop ratio : X -> list X -> X -> R) (states : list X) (x0 : X) (max_delays n : nat).

(** The script of a run: what the calls of propose_sample propose, one after the other, and the random number that the
    generator would return when it is asked after each of them. The callbacks return ll and [ratio]; the network does
    not throw. If the script is over, propose_sample throws. *)
Definition dr_scripted (script : list (X * R)) : env X xr := {|
  e_ll := fun _ x => Some (XFin (ll x));
  e_prop := fun t x rejected => match nth_error script (n_proposed t) with
                         | Some (y, _) => Some (y, XFin (ratio x rejected y))
                         | None => None
                         end;
  e_cross := fun _ _ _ _ => None;
  e_unif := fun t => match nth_error script (n_proposed t - 1) with Some (_, u) => XFin u | None => XNaN end;
  e_uint := fun _ _ => 0%N;
  e_issue := fun _ _ _ => false;
  e_flush := fun _ => false |}.
Definition dr_run_of (script : list (X * R)) : trace X xr * res unit :=
  dr_sample xops (dr_scripted script) false x0 max_delays n [].
Definition dr_samples (script : list (X * R)) : list X := map fst (issued (fst (dr_run_of script))).
(** the arguments of the calls of propose_sample *)
Definition prop_calls (t : trace X xr) : list (X * list X) :=
  flat_map (fun e => match e with EPropose x rejected => [(x, rejected)] | _ => [] end) t.
(** the arguments of the call of propose_sample for which the script has no entry, if the code gets there *)
Definition next_call (script : list (X * R)) : option (X * list X) :=
  nth_error (prop_calls (fst (dr_run_of script))) (length script).

(** [dr_expects g script v]: v is the expectation of g(script ++ random entries up to the end of the run), where each
    proposal has the distribution [prop x rejected], x and [rejected] being the arguments with which the code calls
    propose_sample, and where the random numbers are uniform in [0,1). *)
Inductive dr_expects (g : list (X * R) -> R) : list (X * R) -> R -> Prop :=
| run_is_over : forall script, next_call script = None -> dr_expects g script (g script)
| random_entry : forall script x rejected (h : X -> R -> R) (I : X -> R),
    next_call script = Some (x, rejected) ->
    (forall y u, In y states -> 0 < prop x rejected y -> 0 <= u < 1 -> dr_expects g (script ++ [(y, u)]) (h y u)) ->
    (forall y, In y states -> 0 < prop x rejected y -> is_RInt (h y) 0 1 (I y)) ->
    dr_expects g script (sumR (fun y => prop x rejected y * I y) states).

(** v is the expectation of g(samples issued by the run): it exists and is unique. *)
Definition dr_expectation (g : list X -> R) (v : R) : Prop :=
  let e := dr_expects (fun script => g (dr_samples script)) [] in e v /\ forall v', e v' -> v' = v.
End Run.
