(** Model of the simple consumers: CountSamples, LastSample, AcceptanceRatio,
    MaximumProbabilitySample, StreamOutput, Action, and of the helper functions
    they use.  [consume] is one call, which runs under the mutex of the object
    (see ConcModel for concurrent callers); [run_consumer] feeds a stream. *)
From Coq Require Import String Ascii QArith.
From Verif Require Import Prelude.
Local Open Scope bool_scope.

(** Calling [consume] for each sample of a stream, one after the other. *)
Fixpoint run_consumer {St X} (consume : St -> X -> outcome St) (s : St) (xs : list X) : outcome St :=
  match xs with
  | [] => Ok s
  | x :: xs' => do s' <- consume s x; run_consumer consume s' xs'
  end.

(** ** CountSamples *)

(** Constructor, count_samples.impl.h:98-106. *)
Definition count_init : N := 0%N.
(** [CountSamples::consume], count_samples.impl.h:119-127: [++n_samples] on std::size_t. *)
Definition count_consume {X} (n_samples : N) (_ : X) : outcome N := Ok (wrap64 (n_samples + 1)).
(** [CountSamples::get], count_samples.impl.h:131-139. *)
Definition count_get (n_samples : N) : N := n_samples.

(** ** LastSample *)

(** The member [InputType last_sample] (last_sample.impl.h:85) is default-initialised (the class has no
    user-provided constructor): [Some d] for class types, [None] (indeterminate) for arithmetic
    types.  Reading an indeterminate value is undefined behaviour. *)
Definition last_init {X} (dflt : option X) : option X := dflt.
(** [LastSample::consume], last_sample.impl.h:99-107. *)
Definition last_consume {X} (_ : option X) (x : X) : outcome (option X) := Ok (Some x).
(** [LastSample::get], last_sample.impl.h:111-119. *)
Definition last_get {X} (last_sample : option X) : outcome X :=
  match last_sample with Some x => Ok x | None => UB end.

(** ** AcceptanceRatio *)

Record acc_state (X : Type) := { a_n : N; a_acc : N; a_prev : option X }.
Arguments a_n {X}. Arguments a_acc {X}. Arguments a_prev {X}.
(** Constructor, acceptance_ratio.impl.h:124-131. *)
Definition acc_init {X} : acc_state X := {| a_n := 0; a_acc := 0; a_prev := None |}.
(** [AcceptanceRatio::consume], acceptance_ratio.impl.h:190-224; [eqb] is internal::AcceptanceRatio::is_equal
    (156-184), called as is_equal(sample, previous_sample). *)
Definition acc_consume {X} (eqb : X -> X -> bool) (s : acc_state X) (x : X) : outcome (acc_state X) :=
  if (a_n s =? 0)%N
  then Ok {| a_n := 1; a_acc := 1; a_prev := Some x |}
  else match a_prev s with
       | None => UB            (* previous_sample never assigned; not reachable *)
       | Some p =>
         if eqb x p
         then Ok {| a_n := wrap64 (a_n s + 1); a_acc := a_acc s; a_prev := a_prev s |}
         else Ok {| a_n := wrap64 (a_n s + 1); a_acc := wrap64 (a_acc s + 1); a_prev := Some x |}
       end.
(** [AcceptanceRatio::get], acceptance_ratio.impl.h:228-241.  The division of the two counters
    (converted to double) is exact here. *)
Definition acc_get {X} (s : acc_state X) : Q :=
  if (0 <? a_n s)%N then (Z.of_N (a_acc s) # 1) / (Z.of_N (a_n s) # 1) else 0.

(** [is_equal] for std::valarray, acceptance_ratio.impl.h:172-184: compare sizes, then component by
    component with [!=] (on the component type: [ne]). *)
Fixpoint valarray_loop {T} (ne : T -> T -> bool) (t1 t2 : list T) : bool :=
  match t1, t2 with
  | x :: t1', y :: t2' => if ne x y then false else valarray_loop ne t1' t2'
  | _, _ => true
  end.
Definition valarray_is_equal {T} (ne : T -> T -> bool) (t1 t2 : list T) : bool :=
  if negb (length t1 =? length t2) then false else valarray_loop ne t1 t2.

(** ** Doubles as far as comparisons see them

    The value of a [double]: NaN, the infinities, or a finite number (every finite double is a rational;
    the theorems hold for all rationals, a superset). Negative zero compares equal to zero. *)
Inductive dbl := DNaN | DNInf | DFin (q : Q) | DPInf.

(** IEEE [a < b], [a == b]: false whenever a NaN is involved. *)
Definition dlt (a b : dbl) : bool :=
  match a, b with
  | DNaN, _ | _, DNaN => false
  | DNInf, DNInf => false
  | DNInf, _ => true
  | DFin x, DFin y => negb (Qle_bool y x)
  | DFin _, DPInf => true
  | DFin _, DNInf => false
  | DPInf, _ => false
  end.
Definition deq (a b : dbl) : bool :=
  match a, b with
  | DNInf, DNInf | DPInf, DPInf => true
  | DFin x, DFin y => Qeq_bool x y
  | _, _ => false
  end.
Definition dgt a b := dlt b a.
(** std::numeric_limits<double>::max() = (2^53 - 1) 2^971 and ::lowest() *)
Definition dmax : dbl := DFin (((2 ^ 53 - 1) * 2 ^ 971)%Z # 1).
Definition lowest : dbl := DFin ((- ((2 ^ 53 - 1) * 2 ^ 971))%Z # 1).

(** ** AuxiliaryData: std::map<std::string, std::any>, auxiliary_data.impl.h:53, as an association list with
    distinct keys. *)
Inductive any := AnyDouble (d : dbl) | AnyBool (b : bool) | AnyUInt (n : N) | AnyOther.
Definition aux := list (string * any).
Fixpoint aux_find (k : string) (a : aux) : option any :=
  match a with
  | [] => None
  | (k', v) :: a' => if String.eqb k k' then Some v else aux_find k a'
  end.

(** ** MaximumProbabilitySample *)

Definition ll_key : string := "relative log likelihood".
Record max_state (X : Type) := { m_sample : option X; m_aux : aux; m_ll : dbl }.
Arguments m_sample {X}. Arguments m_aux {X}. Arguments m_ll {X}.
(** Constructor, maximum_probability_sample.impl.h:128-138; the sample member is value-initialised:
    [None] stands for the default-constructed sample. *)
Definition max_init {X} : max_state X := {| m_sample := None; m_aux := []; m_ll := lowest |}.
(** [MaximumProbabilitySample::consume], maximum_probability_sample.impl.h:151-182. std::any_cast<double>
    throws std::bad_any_cast if something else is stored. *)
Definition max_consume {X} (s : max_state X) (x : X * aux) : outcome (max_state X) :=
  match aux_find ll_key (snd x) with
  | None => Ok s
  | Some (AnyDouble ll) =>
    if deq (m_ll s) lowest
    then Ok {| m_sample := Some (fst x); m_aux := snd x; m_ll := ll |}
    else if dgt ll (m_ll s)
         then Ok {| m_sample := Some (fst x); m_aux := snd x; m_ll := ll |}
         else Ok s
  | Some _ => Throw
  end.
(** [get], maximum_probability_sample.impl.h:186-194. *)
Definition max_get {X} (s : max_state X) : option X * aux := (m_sample s, m_aux s).

(** ** StreamOutput *)

(** Samples as the overloads of internal::StreamOutput::write see them: a type without size()/operator[]
    that can be streamed (the text [operator<<] produces), or a container of elements. (The constraint on
    line 162-166 admits only containers whose elements can be streamed; a std::string is such a container.) *)
Inductive sample := Scalar (text : string) | Vec (l : list sample).
(** [write], stream_output.impl.h:135-175. The stream is the string written so far. *)
Fixpoint write (s : sample) (out : string) : string :=
  match s with
  | Scalar t => out ++ t
  | Vec l => fold_left (fun o e => write e o ++ " ") l out
  end%string.
Definition nl : string := String (ascii_of_nat 10) EmptyString.
(** [StreamOutput::consume], stream_output.impl.h:180-189. *)
Definition out_consume (out : string) (s : sample) : outcome string := Ok (write s out ++ nl)%string.

(** ** Element access, element_access.impl.h *)

(** Which overloads apply is decided by the type of the sample (concepts.impl.h:116-139): *)
Inductive tysample (T : Type) :=
| KScalar (x : T)                (* neither size() nor operator[]: double, std::complex, ...            *)
| KContainer (l : list T)        (* size() and operator[]: std::vector, valarray, array, Eigen vectors  *)
| KArray (l : list T)            (* C array: operator[] and std::extent                                *)
| KSized (x : T) (n : nat)       (* size() but no operator[]: std::list, std::set                      *)
| KSubscript (l : list T).       (* operator[] but no size(): pointers                                 *)
Arguments KScalar {T}. Arguments KContainer {T}. Arguments KArray {T}. Arguments KSized {T}. Arguments KSubscript {T}.

(** [Utilities::size], element_access.impl.h:32-69. *)
Definition usize {T} (s : tysample T) : nat :=
  match s with
  | KScalar _ => 1
  | KContainer l => length l
  | KArray l => length l
  | KSized _ n => n
  | KSubscript _ => 1
  end.
(** [sample[index]]: out of range is undefined behaviour. *)
Definition subscript {T} (l : list T) (index : nat) : outcome T :=
  match nth_error l index with Some x => Ok x | None => UB end.
(** [Utilities::get_nth_element], element_access.impl.h:83-148: with operator[], assert that the index is in range
    and use it; without, assert that it is zero and return the sample itself. *)
Definition get_nth_element {T} (b : build) (s : tysample T) (index : nat) : outcome T :=
  match s with
  | KContainer l | KArray l | KSubscript l => assert_then b (index <? usize s) (subscript l index)
  | KScalar x | KSized x _ => assert_then b (index =? 0) (Ok x)
  end.

(** [Utilities::conj], types.impl.h:65-83: identity on arithmetic types, std::conj on std::complex (pairs). *)
Definition conj_real {T} (x : T) : T := x.
Definition conj_complex {T} (opp : T -> T) (z : T * T) : T * T := (fst z, opp (snd z)).

(** ** Parallel modes *)

(** ParallelMode, parallel_mode.impl.h:23-99. *)
Definition synchronous : N := 1.
Definition asynchronous : N := 2.
(** The classes of the library and the modes they pass to the Consumer constructor. *)
Inductive cls := CAcceptanceRatio | CAction (supported : N) | CAutoCovarianceMatrix | CAutoCovarianceTrace
  | CAverageCosine | CCountSamples | CCovarianceMatrix | CHistogram | CLastSample | CMaximumProbabilitySample
  | CMeanValue | CPairHistogram | CStreamOutput | CFilter.
(** acceptance_ratio.impl.h:128, action.impl.h:153-162, auto_covariance_matrix.impl.h:352, auto_covariance_trace.impl.h:392,
    average_cosinus.impl.h:138, count_samples.impl.h:102, covariance_matrix.impl.h:137, histogram.impl.h:247,273,305,
    last_sample.impl.h (no constructor: default argument of Consumer, consumer.impl.h:84),
    maximum_probability_sample.impl.h:132, mean_value.impl.h:155, pair_histogram.impl.h:273,321,376,
    stream_output.impl.h:108; the filters use the default argument of Filter (filter.impl.h:87). *)
Definition supported (c : cls) : N :=
  match c with
  | CAction m => m
  | CCountSamples | CCovarianceMatrix | CHistogram | CMaximumProbabilitySample | CMeanValue | CPairHistogram => 3
  | _ => 1
  end%N.
(** [Consumer::set_parallel_mode], consumer.impl.h:505-519: the new mode, or a failing assertion; in a release
    build everything is accepted. [connections]: number of current connections. *)
Definition set_parallel_mode (b : build) (supp : N) (connections : nat) (mode : N) : outcome N :=
  assert_then b (connections =? 0) (assert_then b (negb (N.land mode supp =? 0)%N) (Ok mode)).
(** The switch in [Consumer::connect_to_producer], consumer.impl.h:349-460: what the lambda connected to the
    signal does; [NoSlot] is the empty std::function left in a release build. *)
Inductive slot_kind := SyncSlot | AsyncSlot | NoSlot.
Definition choose_slot (b : build) (mode : N) : outcome slot_kind :=
  if (mode =? synchronous)%N then Ok SyncSlot
  else if (mode =? asynchronous)%N then Ok AsyncSlot
  else assert_then b false (Ok NoSlot).
