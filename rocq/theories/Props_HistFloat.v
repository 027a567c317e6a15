(** C79: Histogram in IEEE double arithmetic. *)
From Coq Require Import Reals QArith ZArith Lra Lia.
From Flocq Require Import Core BinarySingleNaN.
From Verif Require Import Prelude ConsumerModel HistModel HistSpec StatsModel FloatSpec FloatBase HfloSpec HfloProofs HfloTop HfloOvf.
Local Open Scope R_scope.
Local Open Scope list_scope.
Local Notation length := List.length.

(** C79: a Histogram (min, max, n) in double arithmetic. The construction succeeds; every sample that is not NaN (infinities included) is consumed without
    failure, in either build; the returned break points are finite, in order and within [slack] of min + k (max - min)/n; the count of bin k
    is at least the number of samples well inside the ideal bin and at most the number of samples in or near it; and the counts add up
    exactly to the number of samples with min <= x < max. *)
Theorem C79_counts : forall (mn mx : f64) (n : nat),
  finite mn -> finite mx -> (0 < N.of_nat n <= 2 ^ 32)%N -> bpow radix2 (-980) <= val mx - val mn -> val mx - val mn <= DBL_MAX ->
  forall (b : build) (xs : list f64), Forall (fun x => is_nan x = false) xs -> (N.of_nat (length xs) < 2 ^ 64)%N ->
  exists h s rows, hist_double b mn mx n = Ok h /\ run_consumer (hist_consume b) h (map to_dbl xs) = Ok s /\ hist_get s = Ok rows /\ length rows = n /\
    (forall k, (k < n)%nat -> exists p p' c, nth_error rows k = Some (to_dbl p, to_dbl p', c) /\ finite p /\ finite p' /\ val p <= val p' /\
       Rabs (val p - edge mn mx n k) <= slack mn mx /\ Rabs (val p' - edge mn mx n (k + 1)) <= slack mn mx /\
       (count (in_left_open (edge mn mx n k + slack mn mx) (edge mn mx n (k + 1) - slack mn mx)) xs <= c)%N /\
       (c <= count (in_closed (edge mn mx n k - slack mn mx) (edge mn mx n (k + 1) + slack mn mx)) xs)%N) /\
    total (map snd rows) = count (in_right_open (val mn) (val mx)) xs.
Proof. exact counts. Qed.
Print Assumptions C79_counts.
Local Notation i n := (kofN b64_ops n).
(** The double just above 3/10, which is 0.1 * 3 in C++. *)
Definition x03 : f64 := @B754_finite 53 1024 false 5404319552844596 (-54) eq_refl.
Example C79_example : finite (i 0) /\ finite (i 1) /\ bpow radix2 (-980) <= val (i 1) - val (i 0) <= DBL_MAX /\
  Forall (fun x => is_nan x = false) [x03; i 1; B754_infinity true; i 7].
Proof.
  split; [apply ofN_ok; lia|]. split; [apply ofN_ok; lia|]. split.
  - rewrite !ofN_exact by lia. cbn [Z.of_N]. pose proof max_ge as HM. assert (bpow radix2 0 <= bpow radix2 1023) by (apply bpow_le; lia). change (bpow radix2 0) with 1 in H.
    assert (bpow radix2 (-980) <= bpow radix2 0) by (apply bpow_le; lia). change (bpow radix2 0) with 1 in H0. lra.
  - repeat constructor.
Qed.
(** The slack is needed: with 10 bins on [0,1] the sample x03, which is in (3/10, 4/10), is counted in bin 2, the bin of (2/10, 3/10]. *)
Theorem C79_exact_bins_refuted :
  edge (i 0) (i 1) 10 3 < val x03 < edge (i 0) (i 1) 10 4 /\
  exists h s rows, hist_double Debug (i 0) (i 1) 10 = Ok h /\ run_consumer (hist_consume Debug) h (map to_dbl [x03]) = Ok s /\ hist_get s = Ok rows /\
    map snd rows = [0; 0; 1; 0; 0; 0; 0; 0; 0; 0]%N.
Proof.
  split.
  - unfold edge. rewrite !ofN_exact by lia. cbn [Z.of_N]. rewrite !INR_IZR_INZ. cbn [Z.of_nat Pos.of_succ_nat Pos.succ].
    unfold val, x03, B2R, F2R. cbn [Fnum Fexp cond_Zopp]. change (bpow radix2 (-54)) with (/ 18014398509481984). lra.
  - eexists. eexists. eexists. split; [vm_compute; reflexivity|]. split; [vm_compute; reflexivity|]. split; vm_compute; reflexivity.
Qed.
Print Assumptions C79_exact_bins_refuted.

(** C79: without the bound on max - min the construction still succeeds, but the first break point is NaN: with assertions enabled every sample below
    max then fails one, and without, all the samples below max, wherever they are (also below min), are counted in the first bin. *)
Theorem C79_overflow_refuted : forall (mn mx : f64) (n : nat),
  finite mn -> finite mx -> (0 < N.of_nat n <= 2 ^ 32)%N -> bpow radix2 1024 <= val mx - val mn ->
  (forall b, exists h, hist_double b mn mx n = Ok h) /\
  (forall h x, hist_double Debug mn mx n = Ok h -> finite x -> val x < val mx -> hist_consume Debug h (to_dbl x) = AssertFail) /\
  (forall xs, Forall (fun x => finite x /\ val x < val mx) xs -> (N.of_nat (length xs) < 2 ^ 64)%N ->
    exists h s rows, hist_double Release mn mx n = Ok h /\ run_consumer (hist_consume Release) h (map to_dbl xs) = Ok s /\ hist_get s = Ok rows /\
      map snd rows = N.of_nat (length xs) :: repeat 0%N (n - 1) /\ (forall r, nth_error rows 0 = Some r -> fst (fst r) = DNaN)).
Proof. exact ovf. Qed.
Print Assumptions C79_overflow_refuted.
(** Met by the range (-DBL_MAX, DBL_MAX). *)
Example C79_overflow_example : let big : f64 := Bmax_float in finite (Bopp big) /\ finite big /\ bpow radix2 1024 <= val big - val (Bopp big).
Proof.
  cbv zeta. split; [reflexivity|]. split; [reflexivity|]. unfold val. rewrite B2R_Bopp.
  enough (bpow radix2 1023 <= B2R (Bmax_float : f64)) by (pose proof (bpow_plus radix2 1023 1) as E; change (1023 + 1)%Z with 1024%Z in E; change (bpow radix2 1) with 2 in E; lra).
  change (B2R (Bmax_float : f64)) with (F2R (Float radix2 9007199254740991 971)). unfold F2R. cbn [Fnum Fexp].
  change 1023%Z with (52 + 971)%Z. rewrite bpow_plus. apply Rmult_le_compat_r; [apply bpow_ge_0|]. change (bpow radix2 52) with 4503599627370496. lra.
Qed.
