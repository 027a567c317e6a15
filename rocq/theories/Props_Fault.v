(** Property theorems about exceptions inside consume() (C69). *)
From Coq Require Import Lia QArith Qcanon.
From Verif Require Import Prelude ConsumerModel StatsModel StatsSpec StatsInst FaultModel FaultSpec FaultProofs FaultProofs2.
Local Open Scope nat_scope.
Local Notation len xs := (N.of_nat (length xs)).
Definition q (n : Z) (d : positive) : Qc := Q2Qc (n # d).

(** C69: the statements of this model, if nothing throws, are the functions of the models of the other properties. *)
Theorem C69_without_exceptions :
  (forall X s (x : X), call last_stmts s x None = as_ending s (last_consume s x)) /\
  (forall X s (x : X), call count_stmts s x None = as_ending s (count_consume s x)) /\
  (forall X s (x : X * aux), call max_stmts s x None = as_ending s (max_consume s x)) /\
  (forall X eqb s (x : X), call (acc_stmts eqb) s x None = as_ending s (acc_consume eqb s x)) /\
  (forall K (F : kops K) s x, call (mean_stmts F) s x None = as_ending s (mean_consume F s x)) /\
  (forall K (F : kops K) s x, call (cov_stmts F) s x None = as_ending s (cov_consume F s x)) /\
  (forall K (F : kops K) max_lag s x, call (act_stmts F max_lag) s x None = as_ending s (act_consume F max_lag s x)).
Proof. exact without_exceptions. Qed.
Print Assumptions C69_without_exceptions.

(** C69: in LastSample, CountSamples and MaximumProbabilitySample, a call of consume() that throws, wherever it does, is as if it had not been made: what get() returns afterwards, and after every later call, is a function of the samples
    for which the call returned. *)
Theorem C69_strong_guarantee :
  forall X : Type, strong_guarantee (@last_stmts X) last_consume /\ strong_guarantee (@count_stmts X) count_consume /\ strong_guarantee (@max_stmts X) max_consume.
Proof. exact all_strong. Qed.
Print Assumptions C69_strong_guarantee.
(** Three samples, the second of which cannot be copied. *)
Example C69_strong_example : calls last_stmts (None : option nat) [(1, true); (2, false)] (Some 1) /\ consumed [(1, true); (2, false)] = [1].
Proof. split; [|reflexivity]. eapply (call_returns _ _ _ None); [reflexivity|eapply (call_throws _ _ _ (Some 0)); [reflexivity|apply no_calls]]. Qed.

(** C69: MeanValue, after a first call that returned: each call that threw counts as a sample equal to the mean of everything before it. (So the estimate stays within the range of the samples, but with wrong weights.) *)
Theorem C69_mean_value :
  forall (K : Type) (F : kops K), exact_arithmetic F ->
  forall (dflt : option (list K)) (d : nat) (x : list K) (h : list (list K * bool)) s,
  length x = d -> Forall (fun y => length (fst y) = d) h -> (len h + 1 < 2 ^ 64)%N -> calls (mean_stmts F) (mean_init dflt) ((x, true) :: h) s ->
  exists m, mean_get s = Ok m /\ length m = d /\ forall i, i < d -> comp F m i = the_mean F (stand_ins F d [x] h) i.
Proof. exact @mean_stand_ins. Qed.
Print Assumptions C69_mean_value.
(** The samples 1 and 3 with a failure between them: the mean is 5/3, not 2. *)
Theorem C69_mean_value_refuted : ~ (forall h s, calls (mean_stmts Qc_ops) (mean_init None) h s -> run_consumer (mean_consume Qc_ops) (mean_init None) (consumed h) = Ok s).
Proof. exact mean_not_strong. Qed.
Print Assumptions C69_mean_value_refuted.
Example C69_mean_value_example : exists s m, calls (mean_stmts Qc_ops) (mean_init None) [([q 1 1], true); ([q 7 1], false); ([q 3 1], true)] s /\ mean_get s = Ok [m] /\ Qeq (this m) (5 # 3).
Proof. exact mean_fault_example. Qed.
(** C69: and if storing the very first sample fails, the next call reads a mean that was never written (here for arithmetic types, whose member is indeterminate; an empty std::valarray has the wrong size instead). *)
Theorem C69_mean_value_first_call_refuted :
  forall (K : Type) (F : kops K) (x y : list K), exists s, calls (mean_stmts F) (mean_init None) [(x, false)] s /\ mean_get s = UB /\ call (mean_stmts F) s y None = Bad.
Proof. exact @mean_first_call. Qed.
Print Assumptions C69_mean_value_first_call_refuted.

(** C69: AcceptanceRatio, after a first call that returned: the denominator is right, the numerator may count every call that threw, but nothing else. *)
Theorem C69_acceptance_ratio :
  forall (X : Type) (eqb : X -> X -> bool) (x : X) (h : list (X * bool)) s, (len h + 1 < 2 ^ 64)%N -> calls (acc_stmts eqb) acc_init ((x, true) :: h) s ->
  exists k, 1 <= k <= length h + 1 /\ (acc_get s == (Z.of_nat k # 1) / (Z.of_nat (length (consumed h) + 1) # 1))%Q.
Proof. exact @acc_bound_get. Qed.
Print Assumptions C69_acceptance_ratio.
(** C69: so the "ratio" is not at most 1: one sample and n samples whose copies fail give n+1. *)
Theorem C69_acceptance_ratio_refuted :
  forall (X : Type) (eqb : X -> X -> bool) (x y : X), eqb y x = false -> forall n, (N.of_nat n + 1 < 2 ^ 64)%N ->
  exists s, calls (acc_stmts eqb) acc_init ((x, true) :: repeat (y, false) n) s /\ acc_get s = (Z.of_nat (n + 1) # 1)%Q.
Proof. exact @acc_unbounded. Qed.
Print Assumptions C69_acceptance_ratio_refuted.
Example C69_acceptance_ratio_example : Nat.eqb 2 1 = false /\ (N.of_nat 3 + 1 < 2 ^ 64)%N.
Proof. split; reflexivity. Qed.

(** C69: CovarianceMatrix is neither as if the call had not been made nor as if it had: with the samples 0, 2 and 1 and a failure before the last it reports 4/3 (the covariance is 1), and if the very first call fails the next is undefined. *)
Theorem C69_covariance_refuted :
  (exists s, calls (cov_stmts Qc_ops) (cov_init (fun _ _ => q 0 1)) [([q 0 1], true); ([q 2 1], true); ([q 5 1], false); ([q 1 1], true)] s /\ Qeq (this (snd (cov_get s) 0 0)) (4 # 3)) /\
  Qeq (this (the_covariance Qc_ops [[q 0 1]; [q 2 1]; [q 1 1]] 0 0)) 1 /\
  (forall (K : Type) (F : kops K) garbage (x y : list K), exists s, calls (cov_stmts F) (cov_init garbage) [(x, false)] s /\ fst (cov_get s) = 0 /\ call (cov_stmts F) s y None = Bad).
Proof. exact cov_fault. Qed.
Print Assumptions C69_covariance_refuted.

(** C69: AutoCovarianceTrace, unlike the two classes above, counts its first sample last: calls that throw before the first sample has been consumed leave no trace. *)
Theorem C69_auto_covariance_first_call :
  forall (K : Type) (F : kops K) (max_lag : nat) (h : list (list K)) s, calls (act_stmts F max_lag) act_init (map (fun x => (x, false)) h) s ->
  forall x xs, run_consumer (act_consume F max_lag) s (x :: xs) = run_consumer (act_consume F max_lag) act_init (x :: xs).
Proof. exact @act_first. Qed.
Print Assumptions C69_auto_covariance_first_call.
Example C69_auto_covariance_first_call_example : exists s, calls (act_stmts Qc_ops 2) act_init (map (fun x => (x, false)) [[q 1 1]; [q 2 1]]) s.
Proof. eexists. eapply (call_throws _ _ _ (Some 3)); [reflexivity|eapply (call_throws _ _ _ (Some 5)); [reflexivity|apply no_calls]]. Qed.
(** C69: after that a call that throws may leave its sample among the samples kept for the lags; they are never trimmed below what they have grown to, so the memory is not bounded by the largest lag (cf. C16), and the result is wrong: the
    samples 1 and 2 with a failure between them give 25/2 (the trace is 1/2). *)
Theorem C69_auto_covariance_refuted :
  (exists s v, calls (act_stmts Qc_ops 0) act_init [([q 1 1], true); ([q 5 1], false); ([q 2 1], true)] s /\ act_get Qc_ops s 0 = Ok v /\ Qeq (this v) (25 # 2)) /\
  Qeq (this (the_autocovariance_trace Qc_ops 1 [[q 1 1]; [q 2 1]] 0)) (1 # 2) /\
  (forall (K : Type) (F : kops K) (max_lag : nat) (x : list K) n, exists s, calls (act_stmts F max_lag) act_init ((x, true) :: repeat (x, false) n) s /\ length (lg_prev s) = n + 1) /\
  (forall (K : Type) (F : kops K) (max_lag : nat) s h s', calls (act_stmts F max_lag) s h s' -> lg_n s <> 0%N -> (lg_n s + len h < 2 ^ 64)%N -> length (lg_prev s) <= length (lg_prev s')).
Proof. exact act_fault. Qed.
Print Assumptions C69_auto_covariance_refuted.
