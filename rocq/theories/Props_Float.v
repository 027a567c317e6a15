(** C56, C57: MeanValue<double> and CovarianceMatrix<double> (or of vectors of doubles) in IEEE binary64 arithmetic, rounding to nearest
    even, with overflow and underflow. Vocabulary: FloatSpec. *)
From Coq Require Import Reals ZArith Lra Lia Permutation.
From Flocq Require Import Core BinarySingleNaN.
From Verif Require Import Prelude ConsumerModel StatsModel FloatSpec FloatBase FloatMean FloatCov FloatTop.
Local Open Scope R_scope.

(** Integers as doubles, for the examples. *)
Local Notation i n := (kofN b64_ops n).

(** C56: in double arithmetic the mean never leaves the range of the samples, component by component, and is never infinite or NaN, as long as
    the difference of two samples cannot overflow. *)
Theorem C56_within_range :
  forall (dflt : option (list f64)) (d : nat) (lo hi : nat -> R) (xs : list (list f64)), xs <> [] -> (N.of_nat (length xs) < 2 ^ 64)%N ->
  (forall x, In x xs -> length x = d /\ forall i, (i < d)%nat -> finite (at_ i x) /\ lo i <= val (at_ i x) <= hi i) ->
  (forall i, (i < d)%nat -> hi i - lo i <= DBL_MAX) ->
  exists s m, run_consumer (mean_consume b64_ops) (mean_init dflt) xs = Ok s /\ mean_get s = Ok m /\ length m = d /\
    forall i, (i < d)%nat -> finite (at_ i m) /\ lo i <= val (at_ i m) <= hi i.
Proof. exact top_range. Qed.
Print Assumptions C56_within_range.

(** C56: the rounding error after n samples of absolute value at most M is at most (n/2 + 6) (2^-53 M + 2^-1075). *)
Theorem C56_error_bound :
  forall (dflt : option (list f64)) (d : nat) (M : nat -> R) (xs : list (list f64)), xs <> [] -> (N.of_nat (length xs) <= 2 ^ 53)%N ->
  (forall x, In x xs -> length x = d /\ forall i, (i < d)%nat -> finite (at_ i x) /\ Rabs (val (at_ i x)) <= M i) ->
  (forall i, (i < d)%nat -> 2 * M i <= DBL_MAX) ->
  exists s m, run_consumer (mean_consume b64_ops) (mean_init dflt) xs = Ok s /\ mean_get s = Ok m /\ length m = d /\
    forall i, (i < d)%nat -> finite (at_ i m) /\
      Rabs (val (at_ i m) - real_mean xs i) <= (INR (length xs) / 2 + 6) * (unit_roundoff * M i + half_denorm_min).
Proof. exact top_error. Qed.
Print Assumptions C56_error_bound.

(** C56: the order in which samples arrive (which is not determined in asynchronous mode) changes the result by rounding errors only. *)
Theorem C56_order :
  forall (dflt dflt' : option (list f64)) (d : nat) (M : nat -> R) (xs ys : list (list f64)), xs <> [] -> (N.of_nat (length xs) <= 2 ^ 53)%N ->
  (forall x, In x xs -> length x = d /\ forall i, (i < d)%nat -> finite (at_ i x) /\ Rabs (val (at_ i x)) <= M i) ->
  (forall i, (i < d)%nat -> 2 * M i <= DBL_MAX) -> Permutation xs ys ->
  exists s m s' m', run_consumer (mean_consume b64_ops) (mean_init dflt) xs = Ok s /\ mean_get s = Ok m /\
    run_consumer (mean_consume b64_ops) (mean_init dflt') ys = Ok s' /\ mean_get s' = Ok m' /\
    forall i, (i < d)%nat -> Rabs (val (at_ i m) - val (at_ i m')) <= (INR (length xs) + 12) * (unit_roundoff * M i + half_denorm_min).
Proof. exact top_order. Qed.
Print Assumptions C56_order.

(** The hypotheses hold for the samples (1,2), (2,4), (4,0). *)
Example C56_example : let xs := [[i 1; i 2]; [i 2; i 4]; [i 4; i 0]] in
  (forall x, In x xs -> length x = 2%nat /\ forall k, (k < 2)%nat -> finite (at_ k x) /\ 0 <= val (at_ k x) <= 4) /\ 4 - 0 <= DBL_MAX.
Proof.
  cbv zeta. pose proof max_ge as HM. assert (bpow radix2 3 <= bpow radix2 1023) by (apply bpow_le; lia). change (bpow radix2 3) with 8 in H. split; [|lra].
  assert (V : forall n, (n <= 4)%N -> finite (i n) /\ 0 <= val (i n) <= 4).
  { intros n Hn. split; [apply ofN_ok; lia|]. rewrite ofN_exact by lia. split; [apply (IZR_le 0)|apply (IZR_le _ 4)]; lia. }
  intros x Hx. destruct Hx as [<-|[<-|[<-|[]]]]; (split; [reflexivity|]); intros [|[|k]] Hk; try lia; apply V; lia.
Qed.
(** and [get] returns (7/3, 2), correctly rounded, in this order; see below for orders that matter. *)
Example C56_example_value : exists s m, run_consumer (mean_consume b64_ops) (mean_init None) [[i 1; i 2]; [i 2; i 4]; [i 4; i 0]] = Ok s /\ mean_get s = Ok m /\
  map B2SF m = [SpecFloat.S754_finite false 5254199565265579 (-51); SpecFloat.S754_finite false 4503599627370496 (-51)].
Proof. eexists. eexists. split; [reflexivity|]. split; [reflexivity|]. vm_compute. reflexivity. Qed.

(** C56: the mean of a constant stream is exact, however long. *)
Theorem C56_constant_stream_exact :
  forall (dflt : option (list f64)) (d : nat) (c : list f64) (xs : list (list f64)), xs <> [] -> (N.of_nat (length xs) < 2 ^ 64)%N ->
  length c = d -> (forall i, (i < d)%nat -> finite (at_ i c)) -> (forall x, In x xs -> x = c) ->
  exists s m, run_consumer (mean_consume b64_ops) (mean_init dflt) xs = Ok s /\ mean_get s = Ok m /\ length m = d /\
    forall i, (i < d)%nat -> finite (at_ i m) /\ val (at_ i m) = val (at_ i c).
Proof. exact top_constant. Qed.
Print Assumptions C56_constant_stream_exact.
Example C56_constant_example : (forall k, (k < 1)%nat -> finite (at_ k [i 3])) /\ forall x, In x [[i 3]; [i 3]; [i 3]] -> x = [i 3].
Proof. split; [intros [|k] H; [reflexivity|lia]|]. intros x [<-|[<-|[<-|[]]]]; reflexivity. Qed.

(** C56: without the bound on the spread the mean of finite samples can be infinite, although the true mean is a double (here 0), and the
    next samples turn it into NaN for good. *)
Theorem C56_overflow_refuted :
  let big : f64 := Bmax_float in let xs := [[big]; [Bopp big]] in
  real_mean xs 0 = 0 /\
  (exists s m, run_consumer (mean_consume b64_ops) (mean_init None) xs = Ok s /\ mean_get s = Ok m /\ map B2SF m = [SpecFloat.S754_infinity true]) /\
  (exists s m, run_consumer (mean_consume b64_ops) (mean_init None) (xs ++ [[i 0]; [i 0]]) = Ok s /\ mean_get s = Ok m /\ map B2SF m = [SpecFloat.S754_nan]).
Proof.
  cbv zeta. split.
  - unfold real_mean. cbn [map fold_right length at_ nth]. unfold val. rewrite B2R_Bopp. field_simplify_eq; [ring|]. cbn. lra.
  - split; eexists; eexists; (split; [reflexivity|]); (split; [reflexivity|]); vm_compute; reflexivity.
Qed.
Print Assumptions C56_overflow_refuted.
(** C56: the order does matter: 2^54, -2^54, 1 gives 1/3, but 2^54, 1, -2^54 gives 0. *)
Theorem C56_order_matters_refuted :
  let x := i (2 ^ 54) in let y : f64 := Bopp (i (2 ^ 54)) in
  Permutation [[x]; [y]; [i 1]] [[x]; [i 1]; [y]] /\
  exists s m s' m', run_consumer (mean_consume b64_ops) (mean_init None) [[x]; [y]; [i 1]] = Ok s /\ mean_get s = Ok m /\
    run_consumer (mean_consume b64_ops) (mean_init None) [[x]; [i 1]; [y]] = Ok s' /\ mean_get s' = Ok m' /\
    map B2SF m = [SpecFloat.S754_finite false 6004799503160661 (-54)] /\ map B2SF m' = [SpecFloat.S754_zero false].
Proof.
  cbv zeta. split; [apply perm_skip, perm_swap|].
  eexists. eexists. eexists. eexists. split; [reflexivity|]. split; [reflexivity|]. split; [reflexivity|]. split; [reflexivity|].
  split; vm_compute; reflexivity.
Qed.
Print Assumptions C56_order_matters_refuted.

(** C57: samples of absolute value at most 2^e. No entry of the covariance matrix overflows, whatever the number of samples; no variance is
    negative; and the error after n >= 2 samples is at most 46 n 2^-53 4^e. [garbage] is what the uninitialised memory of the matrix contained:
    it must not be too large either. *)
Theorem C57_covariance_double :
  forall (garbage : matrix f64) (d : nat) (e : Z) (xs : list (list f64)), (-500 <= e <= 500)%Z -> xs <> [] ->
  (forall x, In x xs -> length x = d /\ forall i, (i < d)%nat -> finite (at_ i x) /\ Rabs (val (at_ i x)) <= bpow radix2 e) ->
  (N.of_nat (length xs) < 2 ^ 64)%N ->
  exists s, run_consumer (cov_consume b64_ops) (cov_init garbage) xs = Ok s /\ fst (cov_get s) = d /\
  forall i j, (i < d)%nat -> (j < d)%nat -> finite (garbage i j) /\ Rabs (val (garbage i j)) <= bpow radix2 (2 * e + 4) ->
    let c := snd (cov_get s) i j in
    finite c /\ Rabs (val c) <= bpow radix2 (2 * e + 4) /\
    ((2 <= length xs)%nat -> i = j -> 0 <= val c) /\
    ((2 <= length xs)%nat -> (N.of_nat (length xs) <= 2 ^ 53)%N ->
       Rabs (val c - real_covariance xs i j) <= 46 * INR (length xs) * (unit_roundoff * (bpow radix2 e * bpow radix2 e))).
Proof. exact cov_float. Qed.
Print Assumptions C57_covariance_double.
(** The hypotheses hold for the samples (1,2), (2,4), (4,0), e = 2 and memory that contains zeros. *)
Example C57_example : let xs := [[i 1; i 2]; [i 2; i 4]; [i 4; i 0]] in
  (forall x, In x xs -> length x = 2%nat /\ forall k, (k < 2)%nat -> finite (at_ k x) /\ Rabs (val (at_ k x)) <= bpow radix2 2) /\
  finite (i 0) /\ Rabs (val (i 0)) <= bpow radix2 (2 * 2 + 4).
Proof.
  cbv zeta. assert (V : forall n, (n <= 4)%N -> finite (i n) /\ Rabs (val (i n)) <= bpow radix2 2).
  { intros n Hn. split; [apply ofN_ok; lia|]. rewrite ofN_exact by lia. change (bpow radix2 2) with 4. apply Rabs_le. split; [apply (IZR_le (-4))|apply (IZR_le _ 4)]; lia. }
  split.
  - intros x Hx. destruct Hx as [<-|[<-|[<-|[]]]]; (split; [reflexivity|]); intros [|[|k]] Hk; try lia; apply V; lia.
  - destruct (V 0%N ltac:(lia)) as [H1 H2]. split; [exact H1|]. eapply Rle_trans; [exact H2|]. apply bpow_le. lia.
Qed.
(** C57: the matrix is symmetric, bit by bit, for all samples whatsoever (infinities and NaN included), if the uninitialised memory was. *)
Theorem C57_symmetric :
  forall (garbage : matrix f64) (xs : list (list f64)) s, (forall i j, garbage i j = garbage j i) ->
  run_consumer (cov_consume b64_ops) (cov_init garbage) xs = Ok s -> forall i j, snd (cov_get s) i j = snd (cov_get s) j i.
Proof. exact top_symmetric. Qed.
Print Assumptions C57_symmetric.
Example C57_symmetric_example : exists s, run_consumer (cov_consume b64_ops) (cov_init (fun _ _ => i 0)) [[i 1; i 2]; [B754_nan; i 7]; [i 4; B754_infinity true]] = Ok s.
Proof. eexists. reflexivity. Qed.
(** C57: the bound on the uninitialised memory is needed: if entry (0,1) was 2^60, it becomes 0 with the samples (0,0), (1,1), while entry
    (1,0), which was 0, becomes the true covariance 1/2. *)
Theorem C57_uninitialised_refuted :
  let garbage : matrix f64 := fun a b => if ((a =? 0) && (b =? 1))%nat then i (2 ^ 60) else i 0 in
  let xs := [[i 0; i 0]; [i 1; i 1]] in
  real_covariance xs 0 1 = 1 / 2 /\
  exists s, run_consumer (cov_consume b64_ops) (cov_init garbage) xs = Ok s /\
    B2SF (snd (cov_get s) 0%nat 1%nat) = SpecFloat.S754_zero false /\
    B2SF (snd (cov_get s) 1%nat 0%nat) = SpecFloat.S754_finite false 4503599627370496 (-53).
Proof.
  cbv zeta. split.
  - unfold real_covariance, real_mean. cbn [map fold_right length at_ nth]. rewrite !ofN_exact by lia. cbn. field.
  - eexists. split; [reflexivity|]. split; vm_compute; reflexivity.
Qed.
Print Assumptions C57_uninitialised_refuted.
