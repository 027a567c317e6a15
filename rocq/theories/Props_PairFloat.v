(** C80: PairHistogram in IEEE double arithmetic. *)
From Coq Require Import Reals QArith ZArith Lra Lia.
From Flocq Require Import Core BinarySingleNaN.
From Verif Require Import Prelude ConsumerModel HistModel HistSpec StatsModel FloatSpec FloatBase HfloSpec PfloSpec PfloTop.
Local Open Scope R_scope.
Local Open Scope list_scope.
Local Notation length := List.length.

(** C80: the construction succeeds, samples without NaN are consumed without failure in either build, the corners of the returned boxes are finite, in order and
    within [slack] of the ideal ones, and what is added to each entry of the (uninitialised) matrix is at least the number of samples well
    inside the ideal bin and at most the number of samples in or near it. *)
Theorem C80_counts : forall (mnx mxx : f64) (nx : nat) (mny mxy : f64) (ny : nat),
  good_axis mnx mxx nx -> good_axis mny mxy ny -> (N.of_nat nx * N.of_nat ny <= 2 ^ 32)%N ->
  forall (b : build) (memory : nat -> nat -> N) (xs : list (list f64)),
  Forall (fun v => length v = 2%nat /\ is_nan (at_ 0 v) = false /\ is_nan (at_ 1 v) = false) xs ->
  exists h s rows, phist_double b memory mnx mxx nx mny mxy ny = Ok h /\ run_consumer (phist_consume b) h (map (map to_dbl) xs) = Ok s /\
    phist_get s = Ok rows /\ length rows = (nx * ny)%nat /\
    forall i j, (i < nx)%nat -> (j < ny)%nat -> (memory i j < 2 ^ 64)%N -> exists p q p' q' c,
      nth_error rows (i * ny + j) = Some ((to_dbl p, to_dbl q), (to_dbl p', to_dbl q'), ((memory i j + c) mod 2 ^ 64)%N) /\
      finite p /\ finite p' /\ finite q /\ finite q' /\ val p <= val p' /\ val q <= val q' /\
      Rabs (val p - edge mnx mxx nx i) <= slack mnx mxx /\ Rabs (val p' - edge mnx mxx nx (i + 1)) <= slack mnx mxx /\
      Rabs (val q - edge mny mxy ny j) <= slack mny mxy /\ Rabs (val q' - edge mny mxy ny (j + 1)) <= slack mny mxy /\
      (count (inside_bin mnx mxx nx mny mxy ny i j) xs <= c <= count (near_bin mnx mxx nx mny mxy ny i j) xs)%N.
Proof. exact pair_counts. Qed.
Print Assumptions C80_counts.
Local Notation i n := (kofN b64_ops n).
Example C80_example : good_axis (i 0) (i 1) 10 /\ good_axis (i 1) (i 3) 7.
Proof.
  pose proof max_ge as HM. assert (H : bpow radix2 1 <= bpow radix2 1023) by (apply bpow_le; lia). change (bpow radix2 1) with 2 in H.
  assert (H0 : bpow radix2 (-980) <= bpow radix2 0) by (apply bpow_le; lia). change (bpow radix2 0) with 1 in H0.
  split; (split; [apply ofN_ok; lia|]; split; [apply ofN_ok; lia|]; split; [lia|]; rewrite !ofN_exact by lia; cbn [Z.of_N]; lra).
Qed.
(** A run: two samples in the box, one of them on a boundary that rounding moved, and one with an infinite component. *)
Example C80_example_value :
  let x03 : f64 := @B754_finite 53 1024 false 5404319552844596 (-54) eq_refl in
  exists h s rows, phist_double Debug (fun _ _ => 0%N) (i 0) (i 1) 10 (i 1) (i 3) 2 = Ok h /\
    run_consumer (phist_consume Debug) h (map (map to_dbl) [[x03; i 2]; [i 0; i 1]; [B754_infinity false; i 2]]) = Ok s /\ phist_get s = Ok rows /\
    map snd rows = [1; 0; 0; 0; 1; 0; 0; 0; 0; 0; 0; 0; 0; 0; 0; 0; 0; 0; 0; 0]%N.
Proof. cbv zeta. eexists. eexists. eexists. split; [reflexivity|]. split; [reflexivity|]. split; vm_compute; reflexivity. Qed.

(** C80: if max - min of the x axis exceeds the range of double, the construction succeeds but every sample in the box fails an assertion. *)
Theorem C80_overflow_refuted : forall mnx mxx nx mny mxy ny (memory : nat -> nat -> N) x y,
  finite mnx -> finite mxx -> (0 < N.of_nat nx <= 2 ^ 32)%N -> bpow radix2 1024 <= val mxx - val mnx ->
  good_axis mny mxy ny -> finite x -> val x < val mxx -> finite y -> val mny <= val y < val mxy ->
  exists h, phist_double Debug memory mnx mxx nx mny mxy ny = Ok h /\ phist_consume Debug h [to_dbl x; to_dbl y] = AssertFail.
Proof. exact pair_ovf. Qed.
Print Assumptions C80_overflow_refuted.
(** The hypotheses about the x axis are met by (-DBL_MAX, DBL_MAX) and x = 0 (see C79_overflow_example), those about the y axis by C80_example and y = 1. *)
Example C80_overflow_example : finite (i 0) /\ val (i 0) < val (Bmax_float : f64) /\ finite (i 1) /\ val (i 1) <= val (i 1) < val (i 3).
Proof.
  split; [apply ofN_ok; lia|]. rewrite !ofN_exact by lia. cbn [Z.of_N]. split; [|split; [apply ofN_ok; lia|lra]].
  unfold val. change (B2R (Bmax_float : f64)) with (F2R (Float radix2 9007199254740991 971)). apply F2R_gt_0. reflexivity.
Qed.
