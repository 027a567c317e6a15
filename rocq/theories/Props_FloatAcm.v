(** C75: AutoCovarianceMatrix<double> (or of vectors of doubles) in IEEE binary64 arithmetic, rounding to nearest even, with overflow and
    underflow. Vocabulary: FloatSpec, and the estimator itself (StatsSpec.the_autocovariance, as in C16) in real numbers. *)
From Coq Require Import Reals ZArith Lra Lia.
From Flocq Require Import Core BinarySingleNaN.
From Verif Require Import Prelude ConsumerModel StatsModel StatsSpec StatsInst FloatSpec FloatBase FAcmTop.
Local Open Scope R_scope.
Local Notation length := List.length.

(** Integers as doubles, for the examples. *)
Local Notation i n := (kofN b64_ops n).

(** C75: samples with d components of absolute value at most 2^e. [garbage l i j] is what the uninitialised memory of entry (i,j) for lag l
    contained. If it was finite and at most 4^e, the entry is never infinite or NaN, it is still what the memory contained if there are not
    enough samples yet, and otherwise it differs after n samples by at most (21 n + 260) 2^-53 4^e from the exact auto-covariance plus the
    contribution garbage/(n-l-1) of the memory (C16). *)
Theorem C75_accuracy :
  forall (garbage : nat -> matrix f64) (max_lag d : nat) (e : Z) (xs : list (list f64)), (-400 <= e <= 400)%Z -> xs <> [] -> (N.of_nat (length xs) <= 2 ^ 50)%N ->
  (forall x, In x xs -> length x = d /\ forall i, (i < d)%nat -> finite (at_ i x) /\ Rabs (val (at_ i x)) <= bpow radix2 e) ->
  exists s, run_consumer (acm_consume b64_ops garbage max_lag) acm_init xs = Ok s /\
  forall l i j, (l <= max_lag)%nat -> (i < d)%nat -> (j < d)%nat -> finite (garbage l i j) /\ Rabs (val (garbage l i j)) <= bpow radix2 e * bpow radix2 e ->
  exists v, acm_get b64_ops s l i j = Ok v /\ finite v /\
    ((length xs <= l + 1)%nat -> val v = val (garbage l i j)) /\
    ((l + 1 < length xs)%nat -> Rabs (val v - (the_autocovariance R_ops (map (map val) xs) l i j + val (garbage l i j) / INR (length xs - l - 1)))
        <= (21 * INR (length xs) + 260) * unit_roundoff * (bpow radix2 e * bpow radix2 e)).
Proof. exact acm_double. Qed.
Print Assumptions C75_accuracy.

(** C75: if the memory contained zeros, the matrix for lag zero is the one CovarianceMatrix computes, and symmetric, up to rounding errors of
    that size. *)
Theorem C75_lag_zero_and_covariance :
  forall (max_lag d : nat) (e : Z) (xs : list (list f64)) (garbage : nat -> matrix f64) (garbage' : matrix f64), (-400 <= e <= 400)%Z -> (2 <= length xs)%nat -> (N.of_nat (length xs) <= 2 ^ 50)%N ->
  (forall x, In x xs -> length x = d /\ forall i, (i < d)%nat -> finite (at_ i x) /\ Rabs (val (at_ i x)) <= bpow radix2 e) ->
  (forall i j, (i < d)%nat -> (j < d)%nat -> garbage 0%nat i j = B754_zero false /\ garbage' i j = B754_zero false) ->
  exists s s', run_consumer (acm_consume b64_ops garbage max_lag) acm_init xs = Ok s /\ run_consumer (cov_consume b64_ops) (cov_init garbage') xs = Ok s' /\
  forall i j, (i < d)%nat -> (j < d)%nat -> exists v v', acm_get b64_ops s 0 i j = Ok v /\ acm_get b64_ops s 0 j i = Ok v' /\
    Rabs (val v - val (snd (cov_get s') i j)) <= (67 * INR (length xs) + 260) * unit_roundoff * (bpow radix2 e * bpow radix2 e) /\
    Rabs (val v - val v') <= (42 * INR (length xs) + 520) * unit_roundoff * (bpow radix2 e * bpow radix2 e).
Proof. exact acm_cov_double. Qed.
Print Assumptions C75_lag_zero_and_covariance.

(** The hypotheses hold for the samples (1,2), (2,4), (4,0), e = 2, and memory that contains zeros (or 16). *)
Example C75_example : let xs := [[i 1; i 2]; [i 2; i 4]; [i 4; i 0]] in
  (forall x, In x xs -> length x = 2%nat /\ forall k, (k < 2)%nat -> finite (at_ k x) /\ Rabs (val (at_ k x)) <= bpow radix2 2) /\
  (forall n, (n <= 16)%N -> finite (i n) /\ Rabs (val (i n)) <= bpow radix2 2 * bpow radix2 2) /\ i 0 = B754_zero false.
Proof.
  cbv zeta. assert (V : forall n, (n <= 4)%N -> finite (i n) /\ Rabs (val (i n)) <= bpow radix2 2).
  { intros n Hn. split; [apply ofN_ok; lia|]. rewrite ofN_exact by lia. change (bpow radix2 2) with 4. apply Rabs_le. split; [apply (IZR_le (-4))|apply (IZR_le _ 4)]; lia. }
  split; [|split].
  - intros x Hx. destruct Hx as [<-|[<-|[<-|[]]]]; (split; [reflexivity|]); intros [|[|k]] Hk; try lia; apply V; lia.
  - intros n Hn. split; [apply ofN_ok; lia|]. rewrite ofN_exact by lia. change (bpow radix2 2) with 4. apply Rabs_le. replace (4 * 4) with 16 by ring. split; [apply (IZR_le (-16))|apply (IZR_le _ 16)]; lia.
  - reflexivity.
Qed.

(** C75: the matrix for lag zero is documented to be "that would have been returned by the CovarianceMatrix class"; but with doubles it is not
    even symmetric: for the samples (1,1), (1,2), (2,2), entries (0,1) and (1,0) differ (and none of them is the covariance 1/6 rounded to a double),
    although C57_symmetric says that CovarianceMatrix is symmetric bit by bit. *)
Theorem C75_not_symmetric_refuted :
  let xs := [[i 1; i 1]; [i 1; i 2]; [i 2; i 2]] in
  exists s s' v v', run_consumer (acm_consume b64_ops (fun _ _ _ => i 0) 0) acm_init xs = Ok s /\ run_consumer (cov_consume b64_ops) (cov_init (fun _ _ => i 0)) xs = Ok s' /\
    acm_get b64_ops s 0 0 1 = Ok v /\ acm_get b64_ops s 0 1 0 = Ok v' /\
    B2SF v = SpecFloat.S754_finite false 6004799503160672 (-55) /\ B2SF v' = SpecFloat.S754_finite false 6004799503160656 (-55) /\
    B2SF (snd (cov_get s') 0%nat 1%nat) = B2SF (snd (cov_get s') 1%nat 0%nat).
Proof. cbv zeta. do 4 eexists. do 4 (split; [reflexivity|]). split; [|split]; vm_compute; reflexivity. Qed.
Print Assumptions C75_not_symmetric_refuted.
(** C75: variances can be negative: for 2^27+1, 2^27+2, 2^27+3 the entry is -4, where CovarianceMatrix returns the variance, 1; *)
Theorem C75_negative_variance_refuted :
  let xs := [[i (2 ^ 27 + 1)]; [i (2 ^ 27 + 2)]; [i (2 ^ 27 + 3)]] in
  exists s s' v, run_consumer (acm_consume b64_ops (fun _ _ _ => i 0) 0) acm_init xs = Ok s /\ run_consumer (cov_consume b64_ops) (cov_init (fun _ _ => i 0)) xs = Ok s' /\ acm_get b64_ops s 0 0 0 = Ok v /\
    B2SF (snd (cov_get s') 0%nat 0%nat) = B2SF (i 1) /\ B2SF v = B2SF (Bopp (i 4)).
Proof. cbv zeta. do 3 eexists. do 3 (split; [reflexivity|]). split; vm_compute; reflexivity. Qed.
Print Assumptions C75_negative_variance_refuted.
