(** Specification for C77: MetropolisHastings with target densities that are zero in places (log likelihood -infinity, or the lowest double). *)
From Coq Require Import Reals Lra.
From Coquelicot Require Import Coquelicot.
From Verif Require Import Prelude ConsumerModel ProducerModel ProducerSpec XReal MHSpec StatsModel StatsInst MHRunSpec.
Import ListNotations.
Local Open Scope R_scope.
Local Open Scope list_scope.
Local Notation length := List.length.

(** The two ways to say "probability zero", metropolis_hastings.impl.h:83-110 *)
Definition zero_probability (l : xr) : Prop := l = XNInf \/ l = XFin (- dbl_max).

Section Spec.
Context {X : Type}.
Variables (lx : X -> xr).
(** The density a log likelihood stands for. *)
Definition density (x : X) : R := match lx x with XFin l => if Req_EM_T l (- dbl_max) then 0 else exp l | _ => 0 end.
(** The target distribution. *)
Definition density_target (states : list X) (x : X) : R := density x / sumR density states.
(** The states of positive probability *)
Definition supported (x : X) : Prop := 0 < density x.
Definition supp (states : list X) : list X := filter (fun x => if Rlt_dec 0 (density x) then true else false) states.
(** The transition probabilities of Metropolis-Hastings in terms of densities: y is accepted from x with probability min(1, pi(y) q(y,x) / (pi(x) q(x,y))). *)
Definition density_kernel (eqX : forall x y : X, {x = y} + {x <> y}) (states : list X) (q : X -> X -> R) : X -> X -> R :=
  kernel eqX states q (fun x y => Rmin 1 (density y * q y x / (density x * q x y))).

Variables (q : X -> X -> R) (x0 : X).
(** As in MHRunSpec: what is proposed in each iteration, and the random number which the generator would return. *)
Definition dscripted (script : list (X * R)) : env X xr := {|
  e_ll := fun _ x => Some (lx x);
  e_prop := fun t x _ => match nth_error script (n_proposed t) with Some (y, _) => Some (y, XFin (q x y / q y x)) | None => None end;
  e_cross := fun _ _ _ _ => None;
  e_unif := fun t => match nth_error script (n_proposed t - 1) with Some (_, u) => XFin u | None => XNaN end;
  e_uint := fun _ _ => 0%N;
  e_issue := fun _ _ _ => false;
  e_flush := fun _ => false |}.
Definition drun (script : list (X * R)) : trace X xr * res unit := mh_sample xops (dscripted script) x0 (length script) [].
Definition dsamples (script : list (X * R)) : list X := map fst (issued (fst (drun script))).
Definition dcurrent (script : list (X * R)) : X := last (dsamples script) x0.
Fixpoint dexpects (states : list X) (n : nat) (script : list (X * R)) (g : list (X * R) -> R) (v : R) : Prop :=
  match n with
  | O => v = g script
  | S n' => exists (h : X -> R -> R) (I : X -> R),
    (forall y u, In y states -> 0 < q (dcurrent script) y -> 0 <= u < 1 -> dexpects states n' (script ++ [(y, u)]) g (h y u)) /\
    (forall y, In y states -> 0 < q (dcurrent script) y -> is_RInt (h y) 0 1 (I y)) /\
    v = sumR (fun y => q (dcurrent script) y * I y) states
  end.
End Spec.
(** v is the expectation of g(samples issued by a run of n samples): it exists and is unique. *)
Definition dexpectation {X} (lx : X -> xr) (q : X -> X -> R) (states : list X) (x0 : X) (n : nat) (g : list X -> R) (v : R) : Prop :=
  let e := dexpects lx q x0 states n [] (fun script => g (dsamples lx q x0 script)) in
  e v /\ forall v', e v' -> v' = v.
