(** The operations of [double], in terms of rounding, when nothing overflows. *)
From Coq Require Import Reals ZArith Lra Lia Psatz.
From Flocq Require Import Core BinarySingleNaN Relative Plus_error.
From Verif Require Import Prelude StatsModel HistFloat FloatSpec.
Local Open Scope R_scope.

#[global] Instance fexp_valid : Valid_exp fexp. Proof. apply FLT_exp_valid. reflexivity. Qed.
Lemma val_double : forall x, is_double (val x).
Proof. intros x. exact (generic_format_B2R 53 1024 x). Qed.
Lemma rnd_double : forall x, is_double (rnd x).
Proof. intros. apply generic_format_round; auto with typeclass_instances. Qed.
Lemma rnd_opp : forall x, rnd (- x) = - rnd x.
Proof. intros. apply round_NE_opp. Qed.
Lemma opp_double : forall x, is_double x -> is_double (- x).
Proof. intros. now apply generic_format_opp. Qed.
Lemma bpow_double : forall e, (-1074 <= e)%Z -> is_double (bpow radix2 e).
Proof. intros. apply generic_format_bpow. unfold fexp, FLT_exp. lia. Qed.
Lemma max_double : is_double DBL_MAX.
Proof.
  replace DBL_MAX with (F2R (Float radix2 (2 ^ 53 - 1) 971)).
  - apply generic_format_F2R. intros _. unfold cexp, fexp, FLT_exp.
    rewrite (mag_unique radix2 _ 1024). lia.
    split.
    + rewrite Rabs_pos_eq by (apply F2R_ge_0; cbn; lia). unfold F2R. cbn [Fnum Fexp].
      replace (bpow radix2 (1024 - 1)) with (IZR (2 ^ 52) * bpow radix2 971).
      * apply Rmult_le_compat_r; [apply bpow_ge_0|]. apply IZR_le. lia.
      * change (IZR (2 ^ 52)) with (bpow radix2 52). rewrite <- bpow_plus. reflexivity.
    + rewrite Rabs_pos_eq by (apply F2R_ge_0; cbn; lia). unfold F2R. cbn [Fnum Fexp].
      replace (bpow radix2 1024) with (IZR (2 ^ 53) * bpow radix2 971).
      * apply Rmult_lt_compat_r; [apply bpow_gt_0|]. apply IZR_lt. lia.
      * change (IZR (2 ^ 53)) with (bpow radix2 53). rewrite <- bpow_plus. reflexivity.
  - unfold F2R, DBL_MAX. cbn [Fnum Fexp]. rewrite minus_IZR, Rmult_minus_distr_r, Rmult_1_l.
    change (IZR (2 ^ 53)) with (bpow radix2 53). rewrite <- bpow_plus. reflexivity.
Qed.
Lemma max_lt : DBL_MAX < bpow radix2 1024.
Proof. unfold DBL_MAX. pose proof (bpow_gt_0 radix2 971). lra. Qed.
Lemma max_ge : bpow radix2 1023 <= DBL_MAX.
Proof.
  unfold DBL_MAX. replace (bpow radix2 1024) with (2 * bpow radix2 1023) by (change 2 with (bpow radix2 1); rewrite <- bpow_plus; reflexivity).
  assert (bpow radix2 971 <= bpow radix2 1023) by (apply bpow_le; lia). lra.
Qed.
Lemma rnd_le : forall x y, is_double y -> x <= y -> rnd x <= y.
Proof. intros x y Hy H. rewrite <- (rnd_id y Hy). now apply rnd_mono. Qed.
Lemma rnd_ge : forall x y, is_double y -> y <= x -> y <= rnd x.
Proof. intros x y Hy H. rewrite <- (rnd_id y Hy). now apply rnd_mono. Qed.
Lemma rnd_abs : forall x y, is_double y -> Rabs x <= y -> Rabs (rnd x) <= y.
Proof.
  intros x y Hy H. apply Rabs_le_inv in H. apply Rabs_le. split.
  - apply rnd_ge; [now apply opp_double|lra].
  - apply rnd_le; [easy|lra].
Qed.
Lemma rnd_max : forall x, Rabs x <= DBL_MAX -> Rabs (rnd x) < bpow radix2 1024.
Proof. intros x H. eapply Rle_lt_trans; [apply rnd_abs; [apply max_double|exact H]|apply max_lt]. Qed.
Lemma val_max : forall x, Rabs (val x) <= DBL_MAX.
Proof.
  intros x. unfold DBL_MAX. pose proof (abs_B2R_le_emax_minus_prec 53 1024 Hprec x) as H. exact H.
Qed.

Section Ops.
Variables a b : f64.
Hypothesis Ha : finite a.
Hypothesis Hb : finite b.
Lemma add_ok : Rabs (val a + val b) <= DBL_MAX -> finite (kadd b64_ops a b) /\ val (kadd b64_ops a b) = rnd (val a + val b).
Proof.
  intros H. pose proof (Bplus_correct 53 1024 _ _ mode_NE a b Ha Hb) as HC. change (round_mode mode_NE) with ZnearestE in HC.
  change (SpecFloat.fexp 53 1024) with fexp in HC. change (round radix2 fexp ZnearestE (B2R a + B2R b)) with (rnd (val a + val b)) in HC.
  rewrite Rlt_bool_true in HC by now apply rnd_max. split; apply HC.
Qed.
Lemma sub_ok : Rabs (val a - val b) <= DBL_MAX -> finite (ksub b64_ops a b) /\ val (ksub b64_ops a b) = rnd (val a - val b).
Proof.
  intros H. pose proof (Bminus_correct 53 1024 _ _ mode_NE a b Ha Hb) as HC. change (round_mode mode_NE) with ZnearestE in HC.
  change (SpecFloat.fexp 53 1024) with fexp in HC. change (round radix2 fexp ZnearestE (B2R a - B2R b)) with (rnd (val a - val b)) in HC.
  rewrite Rlt_bool_true in HC by now apply rnd_max. split; apply HC.
Qed.
Lemma mul_ok : Rabs (val a * val b) <= DBL_MAX -> finite (kmul b64_ops a b) /\ val (kmul b64_ops a b) = rnd (val a * val b).
Proof.
  intros H. pose proof (Bmult_correct 53 1024 _ _ mode_NE a b) as HC. change (round_mode mode_NE) with ZnearestE in HC.
  change (SpecFloat.fexp 53 1024) with fexp in HC. change (round radix2 fexp ZnearestE (B2R a * B2R b)) with (rnd (val a * val b)) in HC.
  rewrite Rlt_bool_true in HC by now apply rnd_max. destruct HC as (H1 & H2 & _). split; [|exact H1].
  unfold finite in *. cbn [kmul b64_ops]. rewrite H2, Ha, Hb. reflexivity.
Qed.
Lemma div_ok : val b <> 0 -> Rabs (val a / val b) <= DBL_MAX -> finite (kdiv b64_ops a b) /\ val (kdiv b64_ops a b) = rnd (val a / val b).
Proof.
  intros Hn H. pose proof (Bdiv_correct 53 1024 _ _ mode_NE a b Hn) as HC. change (round_mode mode_NE) with ZnearestE in HC.
  change (SpecFloat.fexp 53 1024) with fexp in HC. change (round radix2 fexp ZnearestE (B2R a / B2R b)) with (rnd (val a / val b)) in HC.
  rewrite Rlt_bool_true in HC by now apply rnd_max. destruct HC as (H1 & H2 & _). split; [|exact H1].
  unfold finite in *. cbn [kdiv b64_ops]. rewrite H2. exact Ha.
Qed.
End Ops.

Lemma ofN_ok : forall n, (n < 2 ^ 64)%N -> finite (kofN b64_ops n) /\ val (kofN b64_ops n) = rnd (IZR (Z.of_N n)).
Proof.
  intros n Hn. pose proof (binary_normalize_correct 53 1024 _ _ mode_NE (Z.of_N n) 0 false) as HC. cbv zeta in HC.
  change (round_mode mode_NE) with ZnearestE in HC. change (SpecFloat.fexp 53 1024) with fexp in HC.
  replace (F2R {| Fnum := Z.of_N n; Fexp := 0 |}) with (IZR (Z.of_N n)) in HC by (unfold F2R; cbn; ring).
  change (round radix2 fexp ZnearestE (IZR (Z.of_N n))) with (rnd (IZR (Z.of_N n))) in HC.
  rewrite Rlt_bool_true in HC.
  - split; apply HC.
  - apply rnd_max. rewrite Rabs_pos_eq by (apply IZR_le; lia). apply Rle_trans with (bpow radix2 64).
    + change (bpow radix2 64) with (IZR (2 ^ 64)). apply IZR_le. lia.
    + eapply Rle_trans; [|apply max_ge]. apply bpow_le. lia.
Qed.
Lemma int_double : forall n, (n <= 2 ^ 53)%N -> is_double (IZR (Z.of_N n)).
Proof.
  intros n Hn. replace (IZR (Z.of_N n)) with (F2R (Float radix2 (Z.of_N n) 0)) by (unfold F2R; cbn; ring).
  destruct (N.eq_dec n 0) as [->|H0].
  { unfold F2R. cbn. rewrite Rmult_0_l. apply generic_format_0. }
  destruct (N.eq_dec n (2 ^ 53)) as [->|H1].
  { change (F2R {| Fnum := Z.of_N (2 ^ 53); Fexp := 0 |}) with (IZR (2 ^ 53) * 1). rewrite Rmult_1_r. change (IZR (2 ^ 53)) with (bpow radix2 53). apply bpow_double. lia. }
  apply generic_format_FLT. exists (Float radix2 (Z.of_N n) 0); cbn [Fnum Fexp]; [reflexivity| |lia].
  rewrite Z.abs_eq by lia. change (radix2 ^ 53)%Z with (2 ^ 53)%Z. lia.
Qed.
Lemma ofN_ge2 : forall n, (2 <= n < 2 ^ 64)%N -> 2 <= val (kofN b64_ops n).
Proof.
  intros n Hn. rewrite (proj2 (ofN_ok n ltac:(lia))). apply rnd_ge.
  - change 2 with (bpow radix2 1). apply bpow_double. lia.
  - apply (IZR_le 2). lia.
Qed.
Lemma ofN_exact : forall n, (n <= 2 ^ 53)%N -> val (kofN b64_ops n) = IZR (Z.of_N n).
Proof. intros n Hn. rewrite (proj2 (ofN_ok n ltac:(lia))). apply rnd_id. now apply int_double. Qed.

Lemma u_ro_le : forall e, Rabs e <= u_ro radix2 53 / (1 + u_ro radix2 53) -> Rabs e <= unit_roundoff.
Proof.
  intros e H. eapply Rle_trans; [exact H|]. eapply Rle_trans; [apply u_rod1pu_ro_le_u_ro|].
  unfold u_ro, unit_roundoff. change (bpow radix2 (-(53) + 1)) with (/ 4503599627370496). change (bpow radix2 (-53)) with (/ 9007199254740992). lra.
Qed.
Lemma ur_val : unit_roundoff = / 9007199254740992. Proof. reflexivity. Qed.
Lemma hd_pos : 0 < half_denorm_min. Proof. apply bpow_gt_0. Qed.
Lemma hd_val : / 2 * bpow radix2 (-1074) = half_denorm_min.
Proof. unfold half_denorm_min. change (/ 2) with (bpow radix2 (-1)). rewrite <- bpow_plus. reflexivity. Qed.

(** Addition has no underflow error. *)
Lemma rnd_plus : forall x y, is_double x -> is_double y -> exists e, Rabs e <= unit_roundoff /\ rnd (x + y) = (x + y) * (1 + e).
Proof.
  intros x y Hx Hy. destruct (FLT_plus_error_N_ex radix2 (-1074) 53 (fun z => negb (Z.even z)) x y Hx Hy) as (e & He & H).
  exists e. split; [now apply u_ro_le|exact H].
Qed.
Lemma rnd_minus : forall x y, is_double x -> is_double y -> exists e, Rabs e <= unit_roundoff /\ rnd (x - y) = (x - y) * (1 + e).
Proof. intros x y Hx Hy. apply rnd_plus; [easy|now apply opp_double]. Qed.
Lemma rnd_any : forall x, exists e h, Rabs e <= unit_roundoff /\ Rabs h <= half_denorm_min /\ rnd x = x * (1 + e) + h.
Proof.
  intros x. destruct (relative_error_N_FLT'_ex radix2 (-1074) 53 ltac:(reflexivity) (fun z => negb (Z.even z)) x) as (e & h & He & Hh & _ & H).
  exists e, h. split; [now apply u_ro_le|]. split; [now rewrite <- hd_val|exact H].
Qed.
Lemma small_exact : forall x y, is_double x -> is_double y -> Rabs (x - y) <= bpow radix2 (-1021) -> rnd (x - y) = x - y.
Proof. intros x y Hx Hy H. apply rnd_id. apply (@FLT_format_plus_small radix2 (-1074) 53 Hprec); [exact Hx|exact (opp_double y Hy)|exact H]. Qed.
