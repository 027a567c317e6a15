(** C72: AverageCosineBetweenSuccessiveSamples in IEEE binary64 arithmetic, rounding to nearest even, with overflow and underflow. Vocabulary: FloatSpec, FCosSpec, StatsCosSpec. *)
From Coq Require Import Reals ZArith Lra Lia.
From Flocq Require Import Core BinarySingleNaN.
From Verif Require Import Prelude ConsumerModel ConsumerSpec StatsModel StatsInst StatsCosModel StatsCosSpec FloatSpec FloatBase FCosModel FCosSpec FCosRun FCosProofs FAcc.
Local Open Scope R_scope.
Local Notation length := List.length.
Local Notation i n := (kofN b64_ops n).

(** With real numbers the model is that of C17. *)
Theorem C72_same_model :
  forall (history_length : N) (garbage1 garbage2 : nat -> list R) (xs : list (list R)),
  (do s <- run_consumer (gcos_consume R_ops sqrt history_length) (gcos_init garbage1 garbage2) xs; Ok (gcos_get s)) =
  (do s <- run_consumer (cos_consume history_length) (cos_init garbage1 garbage2) xs; Ok (cos_get s)).
Proof. intros H g1 g2 xs. rewrite (real_model H g1 g2 xs _ eq_refl). destruct (run_consumer (cos_consume H) (cos_init g1 g2) xs); reflexivity. Qed.
Print Assumptions C72_same_model.

(** C72: samples of up to 2^20 components whose lengths are between 2^-250 and 2^250. Every entry of get() is finite, within (n + 2 d + 24) 2^-53 of the true average of the cosines, where n is the number of samples and d that of their
    components, and larger than 1 in absolute value by at most (2 d + 11) 2^-53, however long the run. *)
Theorem C72_accuracy :
  forall (history_length : N) (garbage1 garbage2 : nat -> list f64) (xs : list (list f64)) (d : nat),
  xs <> [] -> (N.of_nat d <= 2 ^ 20)%N -> (forall x, In x xs -> moderate d x) -> (0 < history_length < 2 ^ 32)%N -> (N.of_nat (length xs) < 2 ^ 32)%N ->
  exists s, run_consumer (gcos_consume b64_ops bsqrt history_length) (gcos_init garbage1 garbage2) xs = Ok s /\ length (gcos_get s) = N.to_nat history_length /\
    forall i, (i < N.to_nat history_length)%nat -> finite (at_ i (gcos_get s)) /\
      Rabs (val (at_ i (gcos_get s)) - (if (length xs <=? i + 1)%nat then 0 else average (cosines (map (map val) xs) (i + 1)))) <= (INR (length xs) + 2 * INR d + 24) * unit_roundoff /\
      Rabs (val (at_ i (gcos_get s))) <= 1 + (2 * INR d + 11) * unit_roundoff.
Proof. exact double_cosine. Qed.
Print Assumptions C72_accuracy.

(** C72: a sample that is a zero vector makes every average that it takes part in NaN, and it stays NaN whatever comes later. *)
Theorem C72_zero_sample :
  forall (history_length : N) (garbage1 garbage2 : nat -> list f64) (xs : list (list f64)) (d t i : nat),
  (forall x, In x xs -> length x = d) -> (0 < history_length < 2 ^ 32)%N -> (N.of_nat (length xs) < 2 ^ 32)%N -> (t < length xs)%nat -> zero_vector (nth t xs []) -> (i < N.to_nat history_length)%nat ->
  (i + 1 <= t \/ t + (i + 1) < length xs)%nat ->
  exists s, run_consumer (gcos_consume b64_ops bsqrt history_length) (gcos_init garbage1 garbage2) xs = Ok s /\ at_ i (gcos_get s) = B754_nan.
Proof. exact zero_sample_poisons. Qed.
Print Assumptions C72_zero_sample.

(** 2^e as a double. *)
Definition two_to (e : Z) : f64 := binary_normalize 53 1024 Hprec Hmax mode_NE 1 e false.
Lemma two_to_pos e : (-1000 <= e <= 1000)%Z -> 0 < val (two_to e).
Proof.
  intros He. unfold val, two_to. pose proof (binary_normalize_correct 53 1024 Hprec Hmax mode_NE 1 e false) as HC. cbv zeta in HC. change (round_mode mode_NE) with ZnearestE in HC. change (SpecFloat.fexp 53 1024) with HistFloat.fexp in HC.
  replace (F2R {| Fnum := 1; Fexp := e |}) with (bpow radix2 e) in HC by (unfold F2R; cbn; ring).
  rewrite (round_generic radix2 HistFloat.fexp ZnearestE (bpow radix2 e)) in HC by (apply bpow_double; lia). pose proof (bpow_gt_0 radix2 e) as P. rewrite Rlt_bool_true in HC.
  - destruct HC as (-> & _). exact P.
  - rewrite Rabs_right by lra. apply bpow_lt. lia.
Qed.
Definition run1 (xs : list (list f64)) : outcome (list SpecFloat.spec_float) :=
  do s <- run_consumer (gcos_consume b64_ops bsqrt 1) (gcos_init (fun _ => []) (fun _ => [])) xs; Ok (map B2SF (gcos_get s)).

(** C72, without the bounds on the lengths: false. A sample of length 2^-300 that is repeated (cosine 1) has the average cosine infinity, and NaN when it is repeated again; *)
Theorem C72_short_samples_refuted :
  cos_angle [val (two_to (-300))] [val (two_to (-300))] = 1 /\
  run1 [[two_to (-300)]; [two_to (-300)]] = Ok [SpecFloat.S754_infinity false] /\ run1 [[two_to (-300)]; [two_to (-300)]; [two_to (-300)]] = Ok [SpecFloat.S754_nan].
Proof.
  split; [|split; vm_compute; reflexivity]. pose proof (two_to_pos (-300) ltac:(lia)) as P.
  unfold cos_angle, norm. cbn [inner]. set (v := val (two_to (-300))) in *. rewrite Rplus_0_r, sqrt_square by lra. field. lra.
Qed.
Print Assumptions C72_short_samples_refuted.
(** and a repeated sample of length 2^300 has the average cosine 0, like orthogonal vectors. *)
Theorem C72_long_samples_refuted :
  cos_angle [val (two_to 300)] [val (two_to 300)] = 1 /\ run1 [[two_to 300]; [two_to 300]] = Ok [SpecFloat.S754_zero false].
Proof.
  split; [|vm_compute; reflexivity]. pose proof (two_to_pos 300 ltac:(lia)) as P.
  unfold cos_angle, norm. cbn [inner]. set (v := val (two_to 300)) in *. rewrite Rplus_0_r, sqrt_square by lra. field. lra.
Qed.
Print Assumptions C72_long_samples_refuted.
(** C72: the average can exceed 1 (as it cannot in exact arithmetic, C17): here it is 1 + 2^-52. *)
Theorem C72_above_one_refuted : run1 [[i 134217737]; [i 3]] = Ok [SpecFloat.S754_finite false 4503599627370497 (-52)].
Proof. vm_compute. reflexivity. Qed.
Print Assumptions C72_above_one_refuted.

(** The hypotheses are met by the samples (1,2), (2,4), (4,0). *)
Example C72_example : forall x, In x [[i 1; i 2]; [i 2; i 4]; [i 4; i 0]] -> moderate 2 x.
Proof.
  assert (V : forall n, (n <= 4)%N -> finite (i n) /\ val (i n) = IZR (Z.of_N n)) by (intros n Hn; split; [apply ofN_ok; lia|apply ofN_exact; lia]).
  assert (B : forall z, 1 <= z <= 64 -> bpow radix2 (-250) <= sqrt z <= bpow radix2 250).
  { intros z Hz. assert (B1 : bpow radix2 (-250) <= 1) by (change 1 with (bpow radix2 0); apply bpow_le; lia). assert (B2 : 64 <= bpow radix2 250) by (change 64 with (bpow radix2 6); apply bpow_le; lia).
    assert (1 <= sqrt z <= 8); [|lra]. rewrite <- sqrt_1 at 1. split; [apply sqrt_le_1_alt; lra|]. rewrite <- (sqrt_square 8) by lra. apply sqrt_le_1_alt. lra. }
  destruct (V 0%N ltac:(lia)) as [F0 V0]. destruct (V 1%N ltac:(lia)) as [F1 V1]. destruct (V 2%N ltac:(lia)) as [F2 V2]. destruct (V 4%N ltac:(lia)) as [F4 V4]. cbn [Z.of_N] in V0, V1, V2, V4.
  intros x [<-|[<-|[<-|[]]]]; (split; [reflexivity|]); (split; [do 2 (apply Forall_cons; [assumption|]); apply Forall_nil|]); unfold norm; cbn [map inner]; rewrite ?V0, ?V1, ?V2, ?V4; apply B; lra.
Qed.
Example C72_example_value : run1 [[i 1; i 2]; [i 2; i 4]; [i 4; i 0]] = Ok [SpecFloat.S754_finite false 6517670609419126 (-53)].
Proof. vm_compute. reflexivity. Qed.
Example C72_zero_example : zero_vector (nth 1 [[i 1; i 2]; [B754_zero false; B754_zero true]; [i 4; i 0]] []) /\ run1 [[i 1; i 2]; [B754_zero false; B754_zero true]; [i 4; i 0]; [i 4; i 0]] = Ok [SpecFloat.S754_nan].
Proof. split; [repeat constructor; eexists; reflexivity|vm_compute; reflexivity]. Qed.

(** C73: AcceptanceRatio in double arithmetic, after n samples of which k differ from their predecessor (the first one counts): for every n < 2^64 the result is finite, positive, at most 1 and within 4 * 2^-53 (relative) of k/n; up to 2^53
    samples it is the correctly rounded quotient (within 2^-53), and it is 1 only if every sample differs from its predecessor. *)
Theorem C73_acceptance_ratio_double :
  forall (X : Type) (same : X -> X -> bool), (forall x y, same x y = true -> same y x = true) -> (forall x y z, same x y = true -> same y z = true -> same x z = true) ->
  forall (x : X) (xs : list X), (N.of_nat (length (x :: xs)) < 2 ^ 64)%N ->
  let k := INR (1 + changes same (x :: xs)) in let n := INR (length (x :: xs)) in
  exists s, run_consumer (acc_consume same) acc_init (x :: xs) = Ok s /\ let r := gacc_get b64_ops s in
    finite r /\ 0 < val r <= 1 /\ Rabs (val r - k / n) <= 4 * unit_roundoff * (k / n) /\
    ((N.of_nat (length (x :: xs)) <= 2 ^ 53)%N -> Rabs (val r - k / n) <= unit_roundoff * (k / n) /\ (val r = 1 <-> k = n)).
Proof. exact acceptance_double. Qed.
Print Assumptions C73_acceptance_ratio_double.
(** C73: more than 2^53 samples are needed for that: with 2^53 + 1 samples of which 2^53 were accepted the result is 1. *)
Theorem C73_one_refuted : B2SF (gacc_get b64_ops {| a_n := 2 ^ 53 + 1; a_acc := 2 ^ 53; a_prev := Some tt |}) = SpecFloat.S754_finite false 4503599627370496 (-52).
Proof. vm_compute. reflexivity. Qed.
Print Assumptions C73_one_refuted.
Example C73_example : match run_consumer (acc_consume Nat.eqb) acc_init [4; 4; 7; 7; 7; 4]%nat with Ok s => B2SF (gacc_get b64_ops s) = SpecFloat.S754_finite false 4503599627370496 (-53) | _ => False end.
Proof. vm_compute. reflexivity. Qed.
