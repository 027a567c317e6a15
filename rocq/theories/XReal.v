(** The arithmetic of [double] as far as the acceptance tests of the samplers see it, without rounding: NaN, the two
    infinities, and finite values, which are real numbers here (so results never overflow, and there is no
    negative zero). *)
From Coq Require Import Reals Lra.
From Verif Require Import Prelude ProducerModel.
Local Open Scope R_scope.

Inductive xr := XNaN | XNInf | XFin (r : R) | XPInf.

(** std::numeric_limits<double>::max() *)
Definition dbl_max : R := (2 ^ 53 - 1) * 2 ^ 971.

Definition xneg a := match a with XNaN => XNaN | XNInf => XPInf | XFin r => XFin (- r) | XPInf => XNInf end.
Definition xadd a b :=
  match a, b with
  | XNaN, _ | _, XNaN => XNaN
  | XFin x, XFin y => XFin (x + y)
  | XPInf, XNInf | XNInf, XPInf => XNaN
  | XPInf, _ | _, XPInf => XPInf
  | XNInf, _ | _, XNInf => XNInf
  end.
Definition xsub a b := xadd a (xneg b).
(** sign of an infinite or finite non-NaN value: true = negative *)
Definition xinf (negative : bool) := if negative then XNInf else XPInf.
Definition isneg (r : R) : bool := if Rlt_dec r 0 then true else false.
Definition xmul a b :=
  match a, b with
  | XNaN, _ | _, XNaN => XNaN
  | XFin x, XFin y => XFin (x * y)
  | XFin x, XPInf | XPInf, XFin x => if Req_EM_T x 0 then XNaN else xinf (isneg x)
  | XFin x, XNInf | XNInf, XFin x => if Req_EM_T x 0 then XNaN else xinf (negb (isneg x))
  | XPInf, XPInf | XNInf, XNInf => XPInf
  | XPInf, XNInf | XNInf, XPInf => XNInf
  end.
(** division; zero divisors count as positive zero *)
Definition xdiv a b :=
  match a, b with
  | XNaN, _ | _, XNaN => XNaN
  | XFin x, XFin y => if Req_EM_T y 0 then (if Req_EM_T x 0 then XNaN else xinf (isneg x)) else XFin (x / y)
  | XFin _, _ => XFin 0
  | XPInf, XFin y => xinf (isneg y)
  | XNInf, XFin y => xinf (negb (isneg y))
  | _, _ => XNaN
  end.
Definition xexp a := match a with XNaN => XNaN | XNInf => XFin 0 | XFin r => XFin (exp r) | XPInf => XPInf end.
Definition xlog a :=
  match a with
  | XNaN | XNInf => XNaN
  | XPInf => XPInf
  | XFin r => if Rlt_dec r 0 then XNaN else if Req_EM_T r 0 then XNInf else XFin (ln r)
  end.
Definition xgt a b : bool :=
  match a, b with
  | XNaN, _ | _, XNaN => false
  | XFin x, XFin y => if Rlt_dec y x then true else false
  | XPInf, XPInf => false | XPInf, _ => true
  | _, XPInf => false
  | XNInf, _ => false
  | XFin _, XNInf => true
  end.
Definition xeq a b : bool :=
  match a, b with
  | XFin x, XFin y => if Req_EM_T x y then true else false
  | XPInf, XPInf | XNInf, XNInf => true
  | _, _ => false
  end.
Definition xge a b : bool := (xgt a b || xeq a b)%bool.

Definition xops : dops xr := {|
  d_one := XFin 1; d_nmax := XFin (- dbl_max); d_ninf := XNInf;
  d_sub := xsub; d_mul := xmul; d_div := xdiv; d_exp := xexp; d_log := xlog;
  d_gt := xgt; d_ge := xge; d_eq := xeq |}.

(** The real number stored in a finite value. *)
Definition fin_val (a : xr) : R := match a with XFin r => r | _ => 0 end.
