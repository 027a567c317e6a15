(** Specification for C78: DelayedRejectionMetropolisHastings with any log likelihood, in particular one that is -infinity in places. As DRRunSpec (C59), with the log likelihood a function to double values. *)
From Coq Require Import Reals Lra.
From Coquelicot Require Import Coquelicot.
From Verif Require Import Prelude ProducerModel ProducerSpec XReal MHSpec MHRunSpec DRRunSpec.
Import ListNotations.
Local Open Scope R_scope.
Local Open Scope list_scope.
Local Notation length := List.length.

Definition l_code_accepts {X} (lx : X -> xr) (x : X) (ys : list X) : R :=
  match alpha_fn xops false (length ys) (x, lx x) (map (fun y => (y, lx y)) ys) with
  | Some a => accept_probability a
  | None => 0
  end.

(** ** Runs of the code *)
Section Run.
Context {X : Type}.
Variables (lx : X -> xr) (prop ratio : X -> list X -> X -> R) (states : list X) (x0 : X) (max_delays n : nat).

(** The script of a run: what the calls of propose_sample propose, one after the other, and the random number that the
    generator would return when it is asked after each of them. The callbacks return lx and [ratio]; the network does
    not throw. If the script is over, propose_sample throws. *)
Definition l_dr_scripted (script : list (X * R)) : env X xr := {|
  e_ll := fun _ x => Some (lx x);
  e_prop := fun t x rejected => match nth_error script (n_proposed t) with
                         | Some (y, _) => Some (y, XFin (ratio x rejected y))
                         | None => None
                         end;
  e_cross := fun _ _ _ _ => None;
  e_unif := fun t => match nth_error script (n_proposed t - 1) with Some (_, u) => XFin u | None => XNaN end;
  e_uint := fun _ _ => 0%N;
  e_issue := fun _ _ _ => false;
  e_flush := fun _ => false |}.
Definition l_dr_run_of (script : list (X * R)) : trace X xr * res unit :=
  dr_sample xops (l_dr_scripted script) false x0 max_delays n [].
Definition l_dr_samples (script : list (X * R)) : list X := map fst (issued (fst (l_dr_run_of script))).
(** the arguments of the call of propose_sample for which the script has no entry, if the code gets there *)
Definition l_next_call (script : list (X * R)) : option (X * list X) :=
  nth_error (prop_calls (fst (l_dr_run_of script))) (length script).

(** [l_dr_expects g script v]: v is the expectation of g(script ++ random entries up to the end of the run), where each
    proposal has the distribution [prop x rejected], x and [rejected] being the arguments with which the code calls
    propose_sample, and where the random numbers are uniform in [0,1). *)
Inductive l_dr_expects (g : list (X * R) -> R) : list (X * R) -> R -> Prop :=
| l_run_is_over : forall script, l_next_call script = None -> l_dr_expects g script (g script)
| l_random_entry : forall script x rejected (h : X -> R -> R) (I : X -> R),
    l_next_call script = Some (x, rejected) ->
    (forall y u, In y states -> 0 < prop x rejected y -> 0 <= u < 1 -> l_dr_expects g (script ++ [(y, u)]) (h y u)) ->
    (forall y, In y states -> 0 < prop x rejected y -> is_RInt (h y) 0 1 (I y)) ->
    l_dr_expects g script (sumR (fun y => prop x rejected y * I y) states).

(** v is the expectation of g(samples issued by the run): it exists and is unique. *)
Definition l_dr_expectation (g : list X -> R) (v : R) : Prop :=
  let e := l_dr_expects (fun script => g (l_dr_samples script)) [] in e v /\ forall v', e v' -> v' = v.
End Run.

(** ** Densities *)
Section Density.
Context {X : Type}.
Variable lx : X -> xr.
(** The density a log likelihood stands for: -infinity is density zero. *)
Definition ldensity (x : X) : R := match lx x with XFin l => exp l | _ => 0 end.
Definition ltarget (states : list X) (x : X) : R := ldensity x / sumR ldensity states.
Definition positive (x : X) : Prop := 0 < ldensity x.
Definition lsupp (states : list X) : list X := filter (fun x => if Rlt_dec 0 (ldensity x) then true else false) states.
(** The published acceptance probabilities in terms of densities. *)
Definition published_density (x : X) (ys : list X) : R :=
  match ys with
  | [y1] => alpha1 (ldensity x) (ldensity y1)
  | [y1; y2] => alpha2 (ldensity x) (ldensity y1) (ldensity y2)
  | _ => 0
  end.
(** 1 if all samples have positive density *)
Fixpoint all_positive (l : list X) : R := match l with [] => 1 | x :: l => if Rlt_dec 0 (ldensity x) then all_positive l else 0 end.
End Density.
