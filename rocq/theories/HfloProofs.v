(** Proofs for C79. *)
From Coq Require Import Reals QArith Qreals ZArith Lra Lia.
From Flocq Require Import Core BinarySingleNaN Relative.
From Verif Require Import Prelude ConsumerModel HistModel HistSpec HistProofs HistFloat HistTop StatsModel FloatSpec FloatBase HfloSpec.
Local Open Scope R_scope.
Local Open Scope list_scope.
Local Notation length := List.length.

(** ** Doubles as dbl *)
Lemma exact_value_R : forall s m e (H : SpecFloat.bounded 53%Z 1024%Z m e = true), Q2R (exact_value s m e) = val (B754_finite s m e H).
Proof.
  intros s m e H. unfold val, B2R, F2R, exact_value. cbn [Fnum Fexp].
  assert (Hs : cond_Zopp s (Zpos m) = if s then Zneg m else Zpos m) by (destruct s; reflexivity). rewrite Hs. set (z := if s then Zneg m else Zpos m).
  destruct e as [|p|p].
  - unfold Q2R, inject_Z. cbn. rewrite mult_IZR. cbn. field.
  - unfold Q2R, inject_Z. cbn [Qnum Qden]. rewrite mult_IZR. change (bpow radix2 (Zpos p)) with (IZR (Zpower_pos 2 p)). change (2 ^ Zpos p)%Z with (Zpower_pos 2 p). field.
  - unfold Q2R. cbn [Qnum Qden]. change (bpow radix2 (Zneg p)) with (/ IZR (Zpower_pos 2 p)). rewrite Pos2Z.inj_pow. reflexivity.
Qed.
Lemma to_fin : forall x, finite x -> exists q, to_dbl x = DFin q /\ Q2R q = val x.
Proof.
  intros [s|s| |s m e H] Hf; try discriminate.
  - exists 0%Q. split; [reflexivity|]. unfold Q2R. cbn. field.
  - eexists. split; [reflexivity|]. apply exact_value_R.
Qed.
Lemma dlt_R : forall a b, dlt (DFin a) (DFin b) = true <-> Q2R a < Q2R b.
Proof.
  intros a b. cbn. rewrite Bool.negb_true_iff. split; intros H.
  - apply Rnot_le_lt. intros L. apply Rle_Qle in L. apply Qle_bool_iff in L. congruence.
  - destruct (Qle_bool b a) eqn:E; [|reflexivity]. apply Qle_bool_iff in E. apply Qle_Rle in E. lra.
Qed.
Lemma deq_R : forall a b, deq (DFin a) (DFin b) = true <-> Q2R a = Q2R b.
Proof.
  intros a b. cbn. rewrite Qeq_bool_iff. split; intros H; [now apply Qeq_eqR|now apply eqR_Qeq].
Qed.
Lemma dle_R : forall a b, dle (DFin a) (DFin b) = true <-> Q2R a <= Q2R b.
Proof.
  intros a b. unfold dle. rewrite Bool.orb_true_iff, dlt_R, deq_R. split; lra.
Qed.
Lemma to_lt : forall x y, finite x -> finite y -> (dlt (to_dbl x) (to_dbl y) = true <-> val x < val y).
Proof. intros x y Hx Hy. destruct (to_fin x Hx) as (a & -> & <-). destruct (to_fin y Hy) as (c & -> & <-). apply dlt_R. Qed.
Lemma to_le : forall x y, finite x -> finite y -> (dle (to_dbl x) (to_dbl y) = true <-> val x <= val y).
Proof. intros x y Hx Hy. destruct (to_fin x Hx) as (a & -> & <-). destruct (to_fin y Hy) as (c & -> & <-). apply dle_R. Qed.
Lemma to_eq : forall x y, finite x -> finite y -> (deq (to_dbl x) (to_dbl y) = true <-> val x = val y).
Proof. intros x y Hx Hy. destruct (to_fin x Hx) as (a & -> & <-). destruct (to_fin y Hy) as (c & -> & <-). apply deq_R. Qed.

(** ** The break points *)
Lemma rnd_rel2 : forall x, bpow radix2 (-1022) <= x -> Rabs (rnd x - x) <= unit_roundoff * x.
Proof.
  intros x Hx. assert (0 < x) by (eapply Rlt_le_trans; [apply bpow_gt_0|exact Hx]).
  pose proof (relative_error_N_FLT radix2 (-1074) 53 ltac:(lia) (fun z => negb (Z.even z)) x) as H1.
  rewrite (Rabs_pos_eq x) in H1 by lra. specialize (H1 Hx). rewrite ur_val, <- u_val. unfold rnd, HistFloat.fexp, HistFloat.u in *. exact H1.
Qed.
Section Points.
Variables (mn mx : f64) (n : nat).
Hypothesis (Fmn : finite mn) (Fmx : finite mx) (Hn : (0 < N.of_nat n <= 2 ^ 32)%N).
Hypothesis Hlo : bpow radix2 (-980) <= val mx - val mn.
Hypothesis Hhi : val mx - val mn <= DBL_MAX.
Local Notation w := (val mx - val mn).
Local Notation d := (fl_delta (val mn) (val mx) n).
Local Notation uu := unit_roundoff.
Lemma nINR : 1 <= INR n <= 4294967296.
Proof. split; [apply (le_INR 1); lia|]. apply INR_bound. lia. Qed.
Lemma w_positive : 0 < w.
Proof. eapply Rlt_le_trans; [apply bpow_gt_0|exact Hlo]. Qed.
Lemma rw : Rabs (rnd w - w) <= uu * w /\ bpow radix2 (-980) <= rnd w.
Proof.
  split.
  - apply rnd_rel2. eapply Rle_trans; [|exact Hlo]. apply bpow_le. lia.
  - rewrite <- (rnd_id (bpow radix2 (-980))); [apply rnd_mono; exact Hlo|]. apply generic_format_bpow. unfold HistFloat.fexp, FLT_exp. lia.
Qed.
Lemma rwn : bpow radix2 (-1022) <= rnd w / INR n.
Proof.
  pose proof rw as [_ H]. pose proof nINR as Hp. apply (Rmult_le_reg_r (INR n)); [lra|]. unfold Rdiv. rewrite Rmult_assoc, Rinv_l, Rmult_1_r by lra.
  apply Rle_trans with (bpow radix2 (-980)); [|exact H]. apply Rle_trans with (bpow radix2 (-1022) * bpow radix2 42).
  - apply Rmult_le_compat_l; [apply bpow_ge_0|]. change (bpow radix2 42) with 4398046511104. lra.
  - rewrite <- bpow_plus. apply bpow_le. lia.
Qed.
Lemma d_acc : Rabs (d - w / INR n) <= uu * (w / INR n) * (2 + uu) /\ bpow radix2 (-1022) <= d.
Proof.
  pose proof rw as [H1 _]. pose proof rwn as H2. pose proof nINR as Hp. pose proof w_positive as Hw. unfold fl_delta.
  split.
  - pose proof (rnd_rel2 _ H2) as H3. apply Rabs_le_inv in H1. apply Rabs_le_inv in H3.
    set (a := w / INR n) in *. assert (Ea : w = a * INR n) by (unfold a; field; lra). assert (Ha : 0 < a) by (unfold a; apply Rdiv_lt_0_compat; lra).
    set (c := rnd w / INR n) in *. assert (Ec : rnd w = c * INR n) by (unfold c; field; lra). rewrite Ec, Ea in H1.
    assert (Hc : - (uu * a) <= c - a <= uu * a).
    { split; apply Rmult_le_reg_r with (INR n); lra. }
    assert (0 < uu) by (rewrite ur_val; lra). assert (uu * c <= uu * (a + uu * a)) by (apply Rmult_le_compat_l; lra).
    apply Rabs_le. lra.
  - rewrite <- (rnd_id (bpow radix2 (-1022))); [apply rnd_mono; exact H2|]. apply generic_format_bpow. unfold HistFloat.fexp, FLT_exp. lia.
Qed.
Variable k : nat.
Hypothesis Hk : (k < n)%nat.
Lemma kn : 0 <= INR k <= INR n - 1.
Proof. split; [apply pos_INR|]. assert (H : INR (k + 1) <= INR n) by (apply le_INR; lia). rewrite plus_INR in H. cbn in H. lra. Qed.
Lemma kd_le : INR k * d * (1 + uu) <= w.
Proof.
  pose proof d_acc as [H _]. apply Rabs_le_inv in H. pose proof kn as Hkn. pose proof nINR as Hp. pose proof w_positive as Hw.
  set (a := w / INR n) in *. assert (Ea : w = a * INR n) by (unfold a; field; lra). assert (Ha : 0 < a) by (unfold a; apply Rdiv_lt_0_compat; lra).
  rewrite Ea. rewrite ur_val in *. set (U := / 9007199254740992) in *. assert (HU : 0 < U <= / 9000000000000000) by (unfold U; lra).
  assert (Hd : d <= a * (1 + 3 * U)).
  { assert (U * a * (2 + U) <= U * a * 3); [|lra]. apply Rmult_le_compat_l; [apply Rlt_le, Rmult_lt_0_compat; lra|lra]. }
  apply Rle_trans with ((INR n - 1) * (a * (1 + 3 * U)) * (1 + U)).
  - apply Rmult_le_compat_r; [lra|]. apply Rmult_le_compat; [lra| |lra|exact Hd]. pose proof d_acc as [_ H']. eapply Rle_trans; [apply bpow_ge_0|exact H'].
  - replace ((INR n - 1) * (a * (1 + 3 * U)) * (1 + U)) with (a * ((INR n - 1) * ((1 + 3 * U) * (1 + U)))) by ring. apply Rmult_le_compat_l; [lra|].
    assert (H5 : (1 + 3 * U) * (1 + U) <= 1 + 5 * U) by nra. apply Rle_trans with ((INR n - 1) * (1 + 5 * U)); [apply Rmult_le_compat_l; lra|].
    assert (INR n * U <= 4294967296 * / 9000000000000000) by (apply Rmult_le_compat; lra). lra.
Qed.
Lemma d_nonneg : 0 <= d.
Proof. pose proof d_acc as [_ H']. eapply Rle_trans; [apply bpow_ge_0|exact H']. Qed.
Lemma t_acc : Rabs (rnd (INR k * d) - INR k * (w / INR n)) <= uu * (4 * w) /\ 0 <= rnd (INR k * d) <= w.
Proof.
  pose proof w_positive as Hw. pose proof d_nonneg as Hd0. pose proof kd_le as Hkd. pose proof kn as Hkn. pose proof nINR as Hp.
  assert (HU0 : 0 < uu) by (rewrite ur_val; lra).
  destruct (Nat.eq_dec k 0) as [Ek|Ek].
  { rewrite Ek. cbn [INR]. rewrite !Rmult_0_l, rnd_0, Rminus_0_r, Rabs_R0. split; [|lra]. apply Rmult_le_pos; lra. }
  assert (Hk1 : 1 <= INR k) by (apply (le_INR 1); lia).
  pose proof d_acc as [Hd Hd1].
  assert (Hbig : bpow radix2 (-1022) <= INR k * d).
  { apply Rle_trans with (1 * d); [lra|]. apply Rmult_le_compat_r; assumption. }
  pose proof (rnd_rel2 _ Hbig) as Ht. apply Rabs_le_inv in Ht. apply Rabs_le_inv in Hd. set (t := rnd (INR k * d)) in *. set (y := INR k * d) in *. assert (Hy0 : 0 <= y) by (eapply Rle_trans; [apply (bpow_ge_0 radix2 (-1022))|exact Hbig]).
  split; [|split].
  - set (a := w / INR n) in *. assert (Ha : 0 < a) by (unfold a; apply Rdiv_lt_0_compat; lra). assert (Ea : w = a * INR n) by (unfold a; field; lra).
    assert (Hka : 0 <= INR k * a <= w) by (split; [apply Rmult_le_pos; lra|rewrite Ea; rewrite (Rmult_comm a); apply Rmult_le_compat_r; lra]).
    assert (Hy : - (uu * (INR k * a) * (2 + uu)) <= y - INR k * a <= uu * (INR k * a) * (2 + uu)).
    { replace (y - INR k * a) with (INR k * (d - a)) by (unfold y; ring). split.
      - replace (- (uu * (INR k * a) * (2 + uu))) with (INR k * - (uu * a * (2 + uu))) by ring. apply Rmult_le_compat_l; lra.
      - replace (uu * (INR k * a) * (2 + uu)) with (INR k * (uu * a * (2 + uu))) by ring. apply Rmult_le_compat_l; lra. }
    assert (Hy1 : uu * y <= uu * w).
    { apply Rmult_le_compat_l; [lra|]. assert (0 <= y * uu) by (apply Rmult_le_pos; lra). lra. }
    assert (Hz : uu * (INR k * a) * (2 + uu) <= uu * w * 3).
    { apply Rmult_le_compat; [apply Rmult_le_pos; lra|lra| |rewrite ur_val; lra]. apply Rmult_le_compat_l; lra. }
    apply Rabs_le. lra.
  - assert (uu * y <= 1 * y) by (apply Rmult_le_compat_r; [lra|rewrite ur_val; lra]). lra.
  - lra.
Qed.
Lemma sum_range : Rabs (val mn + rnd (INR k * d)) <= Rmax (Rabs (val mn)) (Rabs (val mx)).
Proof.
  pose proof t_acc as [_ H]. set (t := rnd (INR k * d)) in *. pose proof (Rmax_l (Rabs (val mn)) (Rabs (val mx))). pose proof (Rmax_r (Rabs (val mn)) (Rabs (val mx))).
  apply Rabs_le. pose proof (Rle_abs (val mx)). pose proof (Rle_abs (- val mn)) as Q. rewrite Rabs_Ropp in Q. lra.
Qed.
Lemma point_acc : Rabs (fl_point (val mn) (val mx) n k - edge mn mx n k) <= slack mn mx.
Proof.
  unfold fl_point. destruct (Nat.ltb_spec k n) as [_|C]; [|lia]. pose proof t_acc as [H _]. pose proof sum_range as Hs.
  destruct (rnd_plus (val mn) (rnd (INR k * d)) (val_double mn) (rnd_double _)) as (e & He & ->).
  unfold edge, slack. set (t := rnd (INR k * d)) in *. set (M := Rmax _ _) in *. set (iw := INR k * (w / INR n)) in *.
  assert (Hp : Rabs ((val mn + t) * e) <= uu * M) by (rewrite Rabs_mult, Rmult_comm; apply Rmult_le_compat; auto using Rabs_pos).
  replace ((val mn + t) * (1 + e) - (val mn + iw)) with ((t - iw) + (val mn + t) * e) by ring.
  eapply Rle_trans; [apply Rabs_triang|]. lra.
Qed.
Lemma cpp_point_ok : finite (cpp_point mn mx n k) /\ val (cpp_point mn mx n k) = fl_point (val mn) (val mx) n k.
Proof.
  pose proof w_positive as Hw. pose proof nINR as Hp. pose proof kn as Hkn. pose proof d_nonneg as Hd0. pose proof kd_le as Hkd.
  assert (HU0 : 0 < uu) by (rewrite ur_val; lra). assert (Hmax0 : 0 < DBL_MAX) by lra.
  destruct (sub_ok mx mn) as [F1 V1]; [assumption..|rewrite Rabs_pos_eq; lra|].
  assert (Nn : forall j, (j <= n)%nat -> finite (kofN b64_ops (N.of_nat j)) /\ val (kofN b64_ops (N.of_nat j)) = INR j).
  { intros j Hj. destruct (ofN_ok (N.of_nat j)) as [Fj _]; [lia|]. split; [exact Fj|]. rewrite ofN_exact by lia. rewrite nat_N_Z, <- INR_IZR_INZ. reflexivity. }
  destruct (Nn n (le_n n)) as [Fn Vn]. destruct (Nn k ltac:(lia)) as [Fk Vk].
  assert (Hq : 0 <= rnd w / INR n <= DBL_MAX).
  { assert (0 <= rnd w <= DBL_MAX).
    { split; [rewrite <- rnd_0; apply rnd_mono; lra|]. apply rnd_le; [apply max_double|exact Hhi]. }
    split; [apply Rmult_le_pos; [lra|apply Rlt_le, Rinv_0_lt_compat; lra]|].
    apply Rmult_le_reg_r with (INR n); [lra|]. unfold Rdiv. rewrite Rmult_assoc, Rinv_l, Rmult_1_r by lra. apply Rle_trans with (DBL_MAX * 1); [lra|apply Rmult_le_compat_l; lra]. }
  destruct (div_ok (ksub b64_ops mx mn) (kofN b64_ops (N.of_nat n))) as [F2 V2]; [assumption..|rewrite Vn; lra|rewrite V1, Vn, Rabs_pos_eq; lra|].
  rewrite V1, Vn in V2. fold d in V2. change (rnd (rnd w / INR n)) with d in V2.
  destruct (mul_ok (kofN b64_ops (N.of_nat k)) (kdiv b64_ops (ksub b64_ops mx mn) (kofN b64_ops (N.of_nat n)))) as [F3 V3]; [assumption..| |].
  { rewrite Vk, V2. assert (0 <= INR k * d) by (apply Rmult_le_pos; lra). rewrite Rabs_pos_eq by lra. assert (0 <= INR k * d * uu) by (apply Rmult_le_pos; lra). lra. }
  rewrite Vk, V2 in V3.
  destruct (add_ok mn (kmul b64_ops (kofN b64_ops (N.of_nat k)) (kdiv b64_ops (ksub b64_ops mx mn) (kofN b64_ops (N.of_nat n))))) as [F4 V4]; [assumption..| |].
  { rewrite V3. eapply Rle_trans; [apply sum_range|]. apply Rmax_lub; apply val_max. }
  split; [exact F4|]. unfold cpp_point. rewrite V4, V3. unfold fl_point. destruct (Nat.ltb_spec k n) as [_|C]; [reflexivity|lia].
Qed.
End Points.
