(** Common vocabulary of the model: outcomes of C++ calls, build modes,
    unsigned machine arithmetic.  Nothing in this file models a particular
    SampleFlow function. *)
From Coq Require Export List Arith NArith ZArith Bool Lia.
Export ListNotations.

(** The result of running a piece of C++ code.  [UB] is undefined behaviour
    (out-of-range access, division by zero, ...), [AssertFail] an [assert]
    that fires in a debug build, [Throw] an exception that leaves the call. *)
Inductive outcome (A : Type) : Type :=
| Ok (a : A)
| UB
| AssertFail
| Throw.
Arguments Ok {A} a.
Arguments UB {A}.
Arguments AssertFail {A}.
Arguments Throw {A}.

Definition bind {A B} (x : outcome A) (k : A -> outcome B) : outcome B :=
  match x with
  | Ok a => k a
  | UB => UB
  | AssertFail => AssertFail
  | Throw => Throw
  end.
Notation "'do' x <- e ; k" := (bind e (fun x => k))
  (at level 200, x pattern, e at level 100, k at level 200, right associativity).

(** Debug builds execute [assert]; release builds ([-DNDEBUG]) do not. *)
Inductive build := Debug | Release.

(** [assert(c); k] *)
Definition assert_then {A} (b : build) (c : bool) (k : outcome A) : outcome A :=
  if c then k else match b with Debug => AssertFail | Release => k end.

(** Unsigned 64 bit arithmetic: [std::size_t] = [types::sample_index]
    (types.impl.h:38) on the 64 bit platforms the library targets. *)
Definition two64 : N := (2 ^ 64)%N.
Definition wrap64 (x : N) : N := (x mod two64)%N.
(** Unsigned 32 bit arithmetic: [unsigned int]. *)
Definition two32 : N := (2 ^ 32)%N.
Definition wrap32 (x : N) : N := (x mod two32)%N.

(** [pick P l]: the sublist of [l] of those elements whose zero-based position
    satisfies [P], in their original order (specification vocabulary). *)
Definition pick {A} (P : nat -> bool) (l : list A) : list A :=
  map snd (filter (fun ix => P (fst ix)) (combine (seq 0 (length l)) l)).
