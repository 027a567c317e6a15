(** The break points of a histogram computed in IEEE double arithmetic (Flocq: round to nearest even, precision 53, gradual underflow,
    no overflow). *)
From Coq Require Import Reals Lra Psatz ZArith SpecFloat.
From Flocq Require Import Core.
From Flocq Require Import Relative.
From Verif Require Import Prelude.
Local Open Scope R_scope.

(** The double nearest to a real number. *)
Definition fexp := FLT_exp (-1074) 53.
Definition rnd (x : R) : R := round radix2 fexp ZnearestE x.
Definition is_double (x : R) : Prop := generic_format radix2 fexp x.

(** [delta = (max_value - min_value) / (n_bins)], histogram.impl.h:256. *)
Definition fl_delta (mn mx : R) (n : nat) : R := rnd (rnd (mx - mn) / INR n).
(** [interval_points[bin] = min_value + bin*delta], histogram.impl.h:258; the last one is max_value (line 261). *)
Definition fl_point (mn mx : R) (n : nat) (bin : nat) : R :=
  if (bin <? n)%nat then rnd (mn + rnd (INR bin * fl_delta mn mx n)) else mx.

#[local] Instance fexp_valid : Valid_exp fexp. Proof. apply FLT_exp_valid. unfold Prec_gt_0. lia. Qed.
Lemma rnd_mono : forall x y, x <= y -> rnd x <= rnd y.
Proof. intros. apply round_le; auto with typeclass_instances. Qed.
Lemma rnd_id : forall x, is_double x -> rnd x = x.
Proof. intros. apply round_generic; auto with typeclass_instances. Qed.
Lemma rnd_0 : rnd 0 = 0. Proof. apply round_0. auto with typeclass_instances. Qed.

Definition u : R := / 2 * bpow radix2 (- 53 + 1).
Lemma u_val : u = / 9007199254740992.
Proof. unfold u. change (bpow radix2 (-53 + 1)) with (/ 4503599627370496). lra. Qed.
Lemma rnd_rel : forall x, bpow radix2 (-1022) <= x -> rnd x <= x * (1 + u).
Proof.
  intros x Hx. assert (0 < x) by (eapply Rlt_le_trans; [apply bpow_gt_0|exact Hx]).
  pose proof (relative_error_N_FLT radix2 (-1074) 53 ltac:(lia) (fun z => negb (Z.even z)) x) as H1.
  rewrite (Rabs_pos_eq x) in H1 by lra. specialize (H1 Hx). apply Rabs_le_inv in H1. unfold rnd, fexp, u in *.
  change (- (53) + 1)%Z with (-52)%Z in H1. change (-53 + 1)%Z with (-52)%Z. nra.
Qed.

Lemma INR_bound : forall n, (N.of_nat n <= 2 ^ 32)%N -> INR n <= 4294967296.
Proof. intros n H. rewrite INR_IZR_INZ. apply IZR_le. lia. Qed.

Section S.
Variables (mn mx : R) (n : nat).
Hypothesis Hmn : is_double mn.
Hypothesis Hmx : is_double mx.
Hypothesis Hn : (0 < N.of_nat n <= 2 ^ 32)%N.
(** The interval is not so short that its length divided by the number of bins is subnormal. *)
Hypothesis Hlen : bpow radix2 (-980) <= mx - mn.
Let w := mx - mn.
Let d := fl_delta mn mx n.

Lemma n_pos : 1 <= INR n <= 4294967296.
Proof. split; [apply (le_INR 1); lia|]. apply INR_bound. lia. Qed.
Lemma w_pos : 0 < w.
Proof. unfold w. eapply Rlt_le_trans; [apply bpow_gt_0|exact Hlen]. Qed.
Lemma w1_bounds : bpow radix2 (-980) <= rnd w <= w * (1 + u).
Proof.
  split.
  - rewrite <- (rnd_id (bpow radix2 (-980))); [apply rnd_mono; exact Hlen|].
    apply generic_format_bpow. unfold fexp, FLT_exp. lia.
  - apply rnd_rel. eapply Rle_trans; [|exact Hlen]. apply bpow_le. lia.
Qed.
Lemma d_bounds : 0 <= d /\ bpow radix2 (-1022) <= d /\ d <= w * (1 + u) * (1 + u) / INR n.
Proof.
  pose proof n_pos as Hp. pose proof w1_bounds as [H1 H2].
  assert (Hq : bpow radix2 (-1022) <= rnd w / INR n).
  { apply (Rmult_le_reg_r (INR n)); [lra|]. unfold Rdiv. rewrite Rmult_assoc, Rinv_l, Rmult_1_r by lra.
    eapply Rle_trans; [|exact H1]. eapply Rle_trans; [apply Rmult_le_compat_l; [apply bpow_ge_0|apply Hp]|].
    change 4294967296 with (bpow radix2 32). rewrite <- bpow_plus. apply bpow_le. lia. }
  assert (Hd : bpow radix2 (-1022) <= d).
  { unfold d, fl_delta. fold w. rewrite <- (rnd_id (bpow radix2 (-1022))); [apply rnd_mono; exact Hq|].
    apply generic_format_bpow. unfold fexp, FLT_exp. lia. }
  split; [eapply Rle_trans; [apply bpow_ge_0|exact Hd]|]. split; [exact Hd|].
  unfold d, fl_delta. fold w. eapply Rle_trans; [apply rnd_rel; exact Hq|].
  replace (w * (1 + u) * (1 + u) / INR n) with (w * (1 + u) / INR n * (1 + u)) by (field; lra).
  apply Rmult_le_compat_r; [rewrite u_val; lra|]. apply Rmult_le_compat_r; [|exact H2]. apply Rlt_le, Rinv_0_lt_compat. lra.
Qed.
Lemma point_mono : forall k, (k + 1 < n)%nat -> fl_point mn mx n k <= fl_point mn mx n (k + 1).
Proof.
  intros k Hk. unfold fl_point. destruct (Nat.ltb_spec k n) as [_|C]; [|lia]. destruct (Nat.ltb_spec (k + 1) n) as [_|C]; [|lia].
  apply rnd_mono. apply Rplus_le_compat_l. apply rnd_mono. apply Rmult_le_compat_r; [apply d_bounds|]. apply le_INR. lia.
Qed.
Lemma point_le_max : forall k, (k < n)%nat -> fl_point mn mx n k <= mx.
Proof.
  intros k Hk. unfold fl_point. destruct (Nat.ltb_spec k n) as [_|C]; [|lia].
  rewrite <- (rnd_id mx Hmx) at 2. apply rnd_mono. fold d.
  enough (rnd (INR k * d) <= w) by (unfold w in *; lra).
  destruct k as [|k]; [cbn [INR]; rewrite Rmult_0_l, rnd_0; apply Rlt_le, w_pos|].
  pose proof d_bounds as (D0 & D1 & D2). pose proof n_pos as Hp. pose proof w_pos as Hw.
  assert (K1 : 1 <= INR (S k)) by (apply (le_INR 1); lia).
  assert (KN : INR (S k) <= INR n - 1). { replace (INR n - 1) with (INR (n - 1)) by (rewrite minus_INR by lia; cbn; lra). apply le_INR. lia. }
  eapply Rle_trans; [apply rnd_rel|].
  - eapply Rle_trans; [exact D1|]. rewrite <- (Rmult_1_l d) at 1. apply Rmult_le_compat_r; assumption.
  - assert (U : 0 < u) by (rewrite u_val; lra).
    apply Rle_trans with ((INR n - 1) * (w * (1 + u) * (1 + u) / INR n) * (1 + u)).
    + apply Rmult_le_compat_r; [lra|]. apply Rmult_le_compat; lra.
    + replace ((INR n - 1) * (w * (1 + u) * (1 + u) / INR n) * (1 + u)) with (w * ((1 - / INR n) * ((1 + u) * (1 + u) * (1 + u)))) by (field; lra).
      rewrite <- (Rmult_1_r w) at 2. apply Rmult_le_compat_l; [lra|].
      assert (I1 : / 4294967296 <= / INR n) by (apply Rinv_le_contravar; lra).
      apply Rle_trans with ((1 - / 4294967296) * ((1 + u) * (1 + u) * (1 + u))).
      * apply Rmult_le_compat_r; [|lra]. repeat apply Rmult_le_pos; lra.
      * rewrite u_val. lra.
Qed.
Lemma point_first : fl_point mn mx n 0 = mn.
Proof.
  unfold fl_point. destruct (Nat.ltb_spec 0 n) as [_|C]; [|lia]. cbn [INR]. rewrite Rmult_0_l, rnd_0, Rplus_0_r. now apply rnd_id.
Qed.
End S.

Lemma fl_points_sorted : forall mn mx n, is_double mn -> is_double mx -> (0 < N.of_nat n <= 2 ^ 32)%N -> bpow radix2 (-980) <= mx - mn ->
  fl_point mn mx n 0 = mn /\ fl_point mn mx n n = mx /\ forall k, (k < n)%nat -> fl_point mn mx n k <= fl_point mn mx n (k + 1).
Proof.
  intros mn mx n H1 H2 H3 H4. split; [now apply point_first|]. split; [unfold fl_point; now rewrite Nat.ltb_irrefl|].
  intros k Hk. destruct (Nat.eq_dec (k + 1) n) as [E|E].
  - replace (fl_point mn mx n (k + 1)) with mx; [now apply point_le_max|]. unfold fl_point. destruct (Nat.ltb_spec (k + 1) n) as [C|_]; [lia|reflexivity].
  - apply point_mono; auto. lia.
Qed.

(** Below that, Coq's own floating point specification shows a counter-example: ten bins between 0 and 15 * 2^-1074. *)
Definition sf_point (mn mx : spec_float) (n k : Z) : spec_float :=
  let fl := fun z => binary_normalize 53 1024 z 0 false in
  SFadd 53 1024 mn (SFmul 53 1024 (fl k) (SFdiv 53 1024 (SFsub 53 1024 mx mn) (fl n))).
