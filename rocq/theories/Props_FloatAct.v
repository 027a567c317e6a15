(** C74: AutoCovarianceTrace<double> (or of vectors of doubles) in IEEE binary64 arithmetic, rounding to nearest even, with overflow and
    underflow. Vocabulary: FloatSpec, and the estimator itself (StatsSpec.the_autocovariance_trace, as in C15) in real numbers. *)
From Coq Require Import Reals ZArith Lra Lia.
From Flocq Require Import Core BinarySingleNaN.
From Verif Require Import Prelude ConsumerModel StatsModel StatsSpec StatsInst FloatSpec FloatBase FActTop.
Local Open Scope R_scope.
Local Notation length := List.length.

(** Integers as doubles, for the examples. *)
Local Notation i n := (kofN b64_ops n).

(** C74: samples with d components of absolute value at most 2^e. No auto-covariance overflows or becomes NaN, those for which there are not
    enough samples yet are zero, and the error of the others after n samples is at most (18 n + 52 d + 198) 2^-53 (d+1) 4^e. *)
Theorem C74_accuracy :
  forall (max_lag d : nat) (e : Z) (xs : list (list f64)), (-400 <= e <= 400)%Z -> INR d <= 1048576 -> xs <> [] -> (N.of_nat (length xs) <= 2 ^ 50)%N ->
  (forall x, In x xs -> length x = d /\ forall i, (i < d)%nat -> finite (at_ i x) /\ Rabs (val (at_ i x)) <= bpow radix2 e) ->
  exists s, run_consumer (act_consume b64_ops max_lag) act_init xs = Ok s /\
  forall l, (l <= max_lag)%nat -> exists v, act_get b64_ops s l = Ok v /\ finite v /\
    ((length xs <= l + 1)%nat -> val v = 0) /\
    ((l + 1 < length xs)%nat -> Rabs (val v - the_autocovariance_trace R_ops d (map (map val) xs) l)
        <= (18 * INR (length xs) + 52 * INR d + 198) * unit_roundoff * ((INR d + 1) * (bpow radix2 e * bpow radix2 e))).
Proof. exact act_double. Qed.
Print Assumptions C74_accuracy.

(** C74: lag zero and the trace of the matrix that CovarianceMatrix computes from the same samples agree up to rounding errors of that size. *)
Theorem C74_lag_zero_and_covariance :
  forall (garbage : matrix f64) (max_lag d : nat) (e : Z) (xs : list (list f64)), (-400 <= e <= 400)%Z -> INR d <= 1048576 -> (2 <= length xs)%nat -> (N.of_nat (length xs) <= 2 ^ 50)%N ->
  (forall x, In x xs -> length x = d /\ forall i, (i < d)%nat -> finite (at_ i x) /\ Rabs (val (at_ i x)) <= bpow radix2 e) ->
  (forall i, (i < d)%nat -> finite (garbage i i) /\ Rabs (val (garbage i i)) <= bpow radix2 (2 * e + 4)) ->
  exists s s' v, run_consumer (act_consume b64_ops max_lag) act_init xs = Ok s /\ run_consumer (cov_consume b64_ops) (cov_init garbage) xs = Ok s' /\ act_get b64_ops s 0 = Ok v /\
    Rabs (val v - fold_right Rplus 0 (map (fun i => val (snd (cov_get s') i i)) (seq 0 d)))
    <= (64 * INR (length xs) + 52 * INR d + 198) * unit_roundoff * ((INR d + 1) * (bpow radix2 e * bpow radix2 e)).
Proof. exact act_cov_double. Qed.
Print Assumptions C74_lag_zero_and_covariance.

(** The hypotheses hold for the samples (1,2), (2,4), (4,0), and memory that contains zeros; *)
Example C74_example : let xs := [[i 1; i 2]; [i 2; i 4]; [i 4; i 0]] in
  INR 2 <= 1048576 /\
  (forall x, In x xs -> length x = 2%nat /\ forall k, (k < 2)%nat -> finite (at_ k x) /\ Rabs (val (at_ k x)) <= bpow radix2 2) /\
  finite (i 0) /\ Rabs (val (i 0)) <= bpow radix2 (2 * 2 + 4).
Proof.
  cbv zeta. assert (V : forall n, (n <= 4)%N -> finite (i n) /\ Rabs (val (i n)) <= bpow radix2 2).
  { intros n Hn. split; [apply ofN_ok; lia|]. rewrite ofN_exact by lia. change (bpow radix2 2) with 4. apply Rabs_le. split; [apply (IZR_le (-4))|apply (IZR_le _ 4)]; lia. }
  split; [cbn; lra|]. split.
  - intros x Hx. destruct Hx as [<-|[<-|[<-|[]]]]; (split; [reflexivity|]); intros [|[|k]] Hk; try lia; apply V; lia.
  - destruct (V 0%N ltac:(lia)) as [H1 H2]. split; [exact H1|]. eapply Rle_trans; [exact H2|]. apply bpow_le. lia.
Qed.
(** their auto-covariances are 19/3 and -37/9, up to the last bits, and 0 as there is only one pair of samples at distance two. *)
Example C74_example_value : exists s v0 v1 v2, run_consumer (act_consume b64_ops 2) act_init [[i 1; i 2]; [i 2; i 4]; [i 4; i 0]] = Ok s /\
  act_get b64_ops s 0 = Ok v0 /\ act_get b64_ops s 1 = Ok v1 /\ act_get b64_ops s 2 = Ok v2 /\
  map B2SF [v0; v1; v2] = [SpecFloat.S754_finite false 7130699410003284 (-50); SpecFloat.S754_finite true 4628699617019674 (-50); SpecFloat.S754_zero false].
Proof. do 4 eexists. do 4 (split; [reflexivity|]). vm_compute. reflexivity. Qed.

(** C74: the first entry "is the trace of the covariance matrix that would have been returned by the CovarianceMatrix class"? Not with doubles:
    for the samples 2^27+1, 2^27+2, 2^27+3, CovarianceMatrix returns the variance, 1, and AutoCovarianceTrace returns -4. *)
Theorem C74_lag_zero_refuted :
  let xs := [[i (2 ^ 27 + 1)]; [i (2 ^ 27 + 2)]; [i (2 ^ 27 + 3)]] in
  exists s s' v, run_consumer (act_consume b64_ops 0) act_init xs = Ok s /\ run_consumer (cov_consume b64_ops) (cov_init (fun _ _ => i 0)) xs = Ok s' /\ act_get b64_ops s 0 = Ok v /\
    B2SF (snd (cov_get s') 0%nat 0%nat) = B2SF (i 1) /\ B2SF v = B2SF (Bopp (i 4)).
Proof. cbv zeta. do 3 eexists. do 3 (split; [reflexivity|]). split; vm_compute; reflexivity. Qed.
Print Assumptions C74_lag_zero_refuted.
(** C74: the variance of a constant stream is not even zero, but negative: for 10, 10, 10, 10 it is -2^-45. *)
Theorem C74_constant_stream_refuted :
  exists s v, run_consumer (act_consume b64_ops 0) act_init [[i 10]; [i 10]; [i 10]; [i 10]] = Ok s /\ act_get b64_ops s 0 = Ok v /\
    B2SF v = SpecFloat.S754_finite true 4503599627370496 (-97).
Proof. do 2 eexists. do 2 (split; [reflexivity|]). vm_compute. reflexivity. Qed.
Print Assumptions C74_constant_stream_refuted.
(** C74: the bound on the samples is needed: the variance of 2^600, 2^600 is NaN, where CovarianceMatrix returns 0. *)
Theorem C74_overflow_refuted :
  let big : f64 := Bldexp mode_NE Bone 600 in
  exists s s' v, run_consumer (act_consume b64_ops 0) act_init [[big]; [big]] = Ok s /\ run_consumer (cov_consume b64_ops) (cov_init (fun _ _ => i 0)) [[big]; [big]] = Ok s' /\ act_get b64_ops s 0 = Ok v /\
    B2SF (snd (cov_get s') 0%nat 0%nat) = SpecFloat.S754_zero false /\ B2SF v = SpecFloat.S754_nan.
Proof. cbv zeta. do 3 eexists. do 3 (split; [reflexivity|]). split; vm_compute; reflexivity. Qed.
Print Assumptions C74_overflow_refuted.
