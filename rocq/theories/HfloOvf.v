(** When max - min exceeds the range of double (C79, refuted part). *)
From Coq Require Import Reals QArith Qreals ZArith Lra Lia.
From Flocq Require Import Core BinarySingleNaN.
From Verif Require Import Prelude ConsumerModel HistModel HistSpec HistProofs HistFloat HistTop StatsModel FloatSpec FloatBase HfloSpec HfloProofs HfloTop.
Local Open Scope R_scope.
Local Open Scope list_scope.
Local Notation length := List.length.

Lemma sign_pos : forall x : f64, 0 < val x -> Bsign x = false.
Proof.
  intros [s|s| |s m e H] P; unfold val in P; cbn in P; try lra. destruct s; [|reflexivity]. exfalso.
  assert (F2R (Float radix2 (Zneg m) e) < 0) by (apply F2R_lt_0; reflexivity). unfold cond_Zopp in P. cbn in P, H0. lra.
Qed.
Lemma sign_neg : forall x : f64, val x < 0 -> Bsign x = true.
Proof.
  intros [s|s| |s m e H] P; unfold val in P; cbn in P; try lra. destruct s; [reflexivity|]. exfalso.
  assert (0 < F2R (Float radix2 (Zpos m) e)) by (apply F2R_gt_0; reflexivity). unfold cond_Zopp in P. cbn in P, H0. lra.
Qed.
Lemma sub_inf : forall x y : f64, finite x -> finite y -> bpow radix2 1024 <= val x - val y -> ksub b64_ops x y = B754_infinity false.
Proof.
  intros x y Hx Hy H. pose proof (Bminus_correct 53 1024 _ _ mode_NE x y Hx Hy) as HC. change (round_mode mode_NE) with ZnearestE in HC.
  change (SpecFloat.fexp 53 1024) with HistFloat.fexp in HC. change (round radix2 HistFloat.fexp ZnearestE (B2R x - B2R y)) with (rnd (val x - val y)) in HC.
  assert (HB : bpow radix2 1024 <= rnd (val x - val y)).
  { rewrite <- (rnd_id (bpow radix2 1024)); [apply rnd_mono; exact H|]. apply generic_format_bpow. unfold HistFloat.fexp, FLT_exp. lia. }
  rewrite Rlt_bool_false in HC by (eapply Rle_trans; [exact HB|apply Rle_abs]).
  destruct HC as [HC HS].
  assert (S : Bsign x = false).
  { pose proof (val_max x) as M. pose proof (val_max y) as M'. apply Rabs_le_inv in M. apply Rabs_le_inv in M'.
    assert (DBL_MAX < bpow radix2 1024) by (unfold DBL_MAX; pose proof (bpow_gt_0 radix2 971); lra).
    apply sign_pos. lra. }
  rewrite S in HC. apply B2SF_inj. exact HC.
Qed.
Lemma pos_div : forall x : f64, finite x -> 0 < val x -> kdiv b64_ops (B754_infinity false) x = B754_infinity false.
Proof.
  intros x F P. pose proof (sign_pos x P) as S. destruct x as [s|s| |s m e H]; try discriminate; cbn in S; subst s; reflexivity.
Qed.
Lemma first_nan : forall mn mx n, finite mn -> finite mx -> (0 < N.of_nat n <= 2 ^ 32)%N -> bpow radix2 1024 <= val mx - val mn -> cpp_point mn mx n 0 = B754_nan.
Proof.
  intros mn mx n F1 F2 Hn H. unfold cpp_point. rewrite sub_inf by assumption.
  rewrite pos_div.
  - change (kofN b64_ops (N.of_nat 0)) with (@B754_zero 53 1024 false). destruct mn as [s|s| |s m e Hb]; reflexivity.
  - apply ofN_ok. lia.
  - rewrite ofN_exact by lia. apply (IZR_lt 0). lia.
Qed.
Section Ovf.
Variables (mn mx : f64) (n : nat).
Hypothesis (Fmn : finite mn) (Fmx : finite mx) (Hn : (0 < N.of_nat n <= 2 ^ 32)%N).
Hypothesis H : bpow radix2 1024 <= val mx - val mn.
Lemma ovf_pts : exists rest, pts mn mx n = DNaN :: rest /\ back (DNaN :: rest) = to_dbl mx /\ length rest = n.
Proof.
  pose proof (pts_length mn mx n) as L. destruct (pts mn mx n) as [|p rest] eqn:E; [cbn in L; lia|]. exists rest.
  assert (Ep : p = DNaN).
  { change p with (nth 0 (p :: rest) DNaN). rewrite <- E. unfold pts. rewrite (axis_nth n (fun bin => to_dbl (cpp_point mn mx n bin)) (to_dbl mx) 0) by lia.
    rewrite first_nan by assumption. reflexivity. }
  split; [now rewrite Ep|]. split; [|cbn in L; lia]. rewrite <- Ep, <- E. unfold back, pts, axis_points. apply last_last.
Qed.
Lemma ovf_new : forall b, hist_double b mn mx n = Ok {| h_pts := pts mn mx n; h_bins := repeat 0%N n |}.
Proof.
  intros b. unfold hist_double, hist_new. rewrite (proj2 (to_lt mn mx Fmn Fmx)); [reflexivity|]. pose proof (bpow_gt_0 radix2 1024). lra.
Qed.
Lemma ovf_step : forall b c bins x, finite x -> val x < val mx ->
  hist_consume b {| h_pts := pts mn mx n; h_bins := c :: bins |} (to_dbl x) =
  match b with Debug => AssertFail | Release => Ok {| h_pts := pts mn mx n; h_bins := wrap64 (c + 1) :: bins |} end.
Proof.
  intros b c bins x Fx Hx. destruct ovf_pts as (rest & E & B & _). rewrite E. unfold hist_consume. cbn [h_pts h_bins]. unfold outside, bin_number. rewrite B. cbn [front hd].
  assert (D1 : dlt (to_dbl x) DNaN = false) by (destruct (to_dbl x); reflexivity). assert (D2 : dle DNaN (to_dbl x) = false) by reflexivity. rewrite D1, D2.
  assert (D3 : dle (to_dbl mx) (to_dbl x) = false).
  { destruct (dle (to_dbl mx) (to_dbl x)) eqn:D; [|reflexivity]. apply (to_le mx x Fmx Fx) in D. lra. }
  rewrite D3. cbn [orb andb]. destruct b; reflexivity.
Qed.
Lemma ovf_run : forall xs c bins, Forall (fun x => finite x /\ val x < val mx) xs -> (c + N.of_nat (length xs) < 2 ^ 64)%N ->
  run_consumer (hist_consume Release) {| h_pts := pts mn mx n; h_bins := c :: bins |} (map to_dbl xs) =
  Ok {| h_pts := pts mn mx n; h_bins := (c + N.of_nat (length xs))%N :: bins |}.
Proof.
  induction xs as [|x xs IH]; intros c bins HF Hl.
  - cbn [map run_consumer length]. rewrite N.add_0_r. reflexivity.
  - inversion_clear HF as [|? ? [Fx Hx] HF']. cbn [map run_consumer]. rewrite ovf_step by assumption. cbn [bind].
    cbn [length] in *. assert (W : wrap64 (c + 1) = (c + 1)%N) by (apply N.mod_small; change two64 with (2 ^ 64)%N; lia). rewrite W. rewrite IH; [|assumption|lia].
    do 2 f_equal. f_equal. lia.
Qed.
Lemma ovf : 
  (forall b, exists h, hist_double b mn mx n = Ok h) /\
  (forall h x, hist_double Debug mn mx n = Ok h -> finite x -> val x < val mx -> hist_consume Debug h (to_dbl x) = AssertFail) /\
  (forall xs, Forall (fun x => finite x /\ val x < val mx) xs -> (N.of_nat (length xs) < 2 ^ 64)%N ->
    exists h s rows, hist_double Release mn mx n = Ok h /\ run_consumer (hist_consume Release) h (map to_dbl xs) = Ok s /\ hist_get s = Ok rows /\
      map snd rows = N.of_nat (length xs) :: repeat 0%N (n - 1) /\ (forall r, nth_error rows 0 = Some r -> fst (fst r) = DNaN)).
Proof.
  assert (En : repeat 0%N n = 0%N :: repeat 0%N (n - 1)) by (destruct n as [|m]; [lia|]; cbn; rewrite Nat.sub_0_r; reflexivity).
  split; [|split].
  - intros b. eexists. apply ovf_new.
  - intros h x E Fx Hx. rewrite ovf_new in E. injection E as <-. rewrite En. now rewrite ovf_step.
  - intros xs HF Hl. pose proof (ovf_run xs 0%N (repeat 0%N (n - 1)) HF ltac:(lia)) as R.
    destruct (hist_rows_ok (N.of_nat (length xs) :: repeat 0%N (n - 1)) (pts mn mx n)) as (rows & Hg & L & Hk).
    { rewrite pts_length. cbn [length]. rewrite repeat_length. lia. }
    eexists. exists {| h_pts := pts mn mx n; h_bins := N.of_nat (length xs) :: repeat 0%N (n - 1) |}, rows. split; [apply ovf_new|]. split; [rewrite En; exact R|]. split; [exact Hg|]. split.
    + apply (nth_ext _ _ 0%N 0%N).
      * rewrite map_length. exact L.
      * intros k Hk'. rewrite map_length, L in Hk'. change 0%N with (snd (DNaN, DNaN, 0%N)) at 1. rewrite map_nth. rewrite (nth_error_nth _ _ _ (Hk k Hk')). reflexivity.
    + intros r Hr. rewrite (Hk 0%nat) in Hr by (cbn [length]; lia). injection Hr as <-. cbn [fst]. destruct ovf_pts as (rest & E & _). now rewrite E.
Qed.
End Ovf.
