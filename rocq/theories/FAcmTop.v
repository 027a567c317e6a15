(** AutoCovarianceMatrix in double arithmetic: the theorems. *)
From Coq Require Import Reals ZArith Lra Lia Psatz.
From Flocq Require Import Core BinarySingleNaN Relative.
From Verif Require Import Prelude ConsumerModel StatsModel StatsSpec StatsProofs StatsTop StatsInst HistFloat FloatSpec FloatBase FloatMean FloatCov FCosModel FCosSpec FCosRun FCosProofs FApprox FActProofs FActTop FAcmProofs.
Local Open Scope R_scope.
Local Notation length := List.length.
Local Notation u := unit_roundoff.
Local Notation eta := half_denorm_min.


Lemma means_ok d e (xs : list (list f64)) (mf : list f64) (m' : list R) : (-400 <= e <= 400)%Z -> xs <> [] -> (N.of_nat (length xs) <= 2 ^ 50)%N ->
  (forall x, In x xs -> length x = d /\ forall i, (i < d)%nat -> finite (at_ i x) /\ Rabs (val (at_ i x)) <= bpow radix2 e) ->
  (forall i, (i < d)%nat -> at_ i mf = fmean (map (at_ i) xs)) -> (forall i, (i < d)%nat -> comp R_ops m' i = the_mean R_ops (map (map val) xs) i) ->
  forall j, (j < d)%nat -> ap (at_ j mf) (comp R_ops m' j) (Em e (IZR (Z.of_N (N.of_nat (length xs))))) /\ Rabs (val (at_ j mf)) <= B e /\ Rabs (comp R_ops m' j) <= B e.
Proof.
  intros He Hne Hn HX Hmf Hm'. pose proof u_pos as Hu. assert (Hlen : (1 <= length xs)%nat) by (destruct xs; [easy|cbn; lia]).
  intros j Hj. rewrite (Hm' j Hj), the_mean_real, (Hmf j Hj).
    assert (HFj : Forall (fun a => finite a /\ Rabs (val a) <= bpow radix2 e) (map (at_ j) xs)) by (apply Forall_map, Forall_forall; intros x Hx; now apply (HX x Hx)).
    assert (HFr : Forall (fun a => finite a /\ - bpow radix2 e <= val a <= bpow radix2 e) (map (at_ j) xs)) by (eapply Forall_impl; [|exact HFj]; intros a [P1 P2]; split; [exact P1|now apply Rabs_le_inv]).
    assert (Hnj : map (at_ j) xs <> []) by (destruct xs; [easy|discriminate]). pose proof (B_big e He) as HB. pose proof big_max as HBM. pose proof (B_pos e) as HBp. unfold B in HB, HBp.
    assert (H2B : 2 * bpow radix2 e <= DBL_MAX) by (pose proof big_1; lra).
    destruct (fmean_range (- bpow radix2 e) (bpow radix2 e) (map (at_ j) xs) Hnj ltac:(rewrite map_length; lia) HFr ltac:(lra)) as [Fm Rm].
    pose proof (fmean_error' (bpow radix2 e) (map (at_ j) xs) Hnj ltac:(rewrite map_length; lia) HFj H2B) as Em'. rewrite map_length in Em'.
    assert (ER : rsum (map (at_ j) xs) / INR (length xs) = real_mean xs j) by (unfold rsum, real_mean; now rewrite map_map).
    rewrite ER in Em'. split; [|split].
    - split; [exact Fm|]. eapply Rle_trans; [exact Em'|]. pose proof (eta_B e He) as Ht. unfold B in Ht. unfold Em, B.
      replace (IZR (Z.of_N (N.of_nat (length xs)))) with (INR (length xs)) by (rewrite INR_IZR_INZ; f_equal; lia).
      assert (u * u * bpow radix2 e <= 1 * u * bpow radix2 e) by (apply Rmult_le_compat_r; [lra|]; apply Rmult_le_compat_r; [lra|rewrite u_val; lra]).
      pose proof (pos_INR (length xs)). set (q := u * bpow radix2 e) in *. assert (Hq : u * bpow radix2 e + eta <= 2 * q) by (unfold q; lra). apply Rle_trans with ((INR (length xs) / 2 + 6) * (2 * q)); [apply Rmult_le_compat_l; lra|]. lra.
    - apply Rabs_le. exact Rm.
    - rewrite <- ER. apply Rabs_le. assert (HI : 1 <= INR (length xs)) by (change 1 with (INR 1); now apply le_INR).
      assert (Hsum : Rabs (rsum (map (at_ j) xs)) <= INR (length (map (at_ j) xs)) * bpow radix2 e).
      { clear - HFj. induction HFj as [|a l [_ Ha] _ IH]; [cbn; rewrite Rabs_R0; lra|]. cbn [length]. rewrite S_INR. unfold rsum in *. cbn [map fold_right]. eapply Rle_trans; [apply Rabs_triang|]. lra. }
      rewrite map_length in Hsum. apply Rabs_le_inv in Hsum. split.
      + apply Rmult_le_reg_r with (INR (length xs)); [lra|]. unfold Rdiv. rewrite Rmult_assoc, Rinv_l by lra. unfold B. lra.
      + apply Rmult_le_reg_r with (INR (length xs)); [lra|]. unfold Rdiv. rewrite Rmult_assoc, Rinv_l by lra. unfold B. lra.
Qed.

Lemma acm_double : forall (garbage : nat -> matrix f64) (max_lag d : nat) (e : Z) (xs : list (list f64)), (-400 <= e <= 400)%Z -> xs <> [] -> (N.of_nat (length xs) <= 2 ^ 50)%N ->
  (forall x, In x xs -> length x = d /\ forall i, (i < d)%nat -> finite (at_ i x) /\ Rabs (val (at_ i x)) <= bpow radix2 e) ->
  exists s, run_consumer (acm_consume b64_ops garbage max_lag) acm_init xs = Ok s /\
  forall l i j, (l <= max_lag)%nat -> (i < d)%nat -> (j < d)%nat -> finite (garbage l i j) /\ Rabs (val (garbage l i j)) <= bpow radix2 e * bpow radix2 e ->
  exists v, acm_get b64_ops s l i j = Ok v /\ finite v /\
    ((length xs <= l + 1)%nat -> val v = val (garbage l i j)) /\
    ((l + 1 < length xs)%nat -> Rabs (val v - (the_autocovariance R_ops (map (map val) xs) l i j + val (garbage l i j) / INR (length xs - l - 1)))
        <= (21 * INR (length xs) + 260) * unit_roundoff * (bpow radix2 e * bpow radix2 e)).
Proof.
  intros G M d e xs He Hne Hn HX. pose proof u_pos as Hu.
  assert (HF : Forall (vok d e) xs) by (apply Forall_forall; intros x Hx; exact (HX x Hx)).
  destruct (acm_two d e He G M xs Hne HF Hn) as (mf & lf & mr & lr & Ef & Er & Lf & Lr & Hmf & L1 & L2 & HR).
  assert (Hs : all_size d (map (map val) xs)). { apply Forall_map, Forall_forall. intros x Hx. rewrite map_length. now apply HX. }
  assert (Hl : (N.of_nat (length (map (map val) xs)) < two64)%N) by (rewrite map_length; unfold two64; lia).
  assert (Hne' : map (map val) xs <> []) by (destruct xs; [easy|discriminate]).
  destruct (top_acm R_ops R_exact (fun l i j => val (G l i j)) M (map (map val) xs) d Hne' Hs Hl) as (sr & Er' & Hget). rewrite Er in Er'. injection Er' as <-.
  destruct (R_exact) as [[inv FT] X1 X2 X3 X4 X5 X6] eqn:EX. clear EX.
  destruct (acm_run R_ops inv FT X1 X2 X3 (fun l i j => val (G l i j)) M (map (map val) xs) d Hne' Hs Hl) as (m' & lags' & Er2 & _ & Hm' & _). rewrite Er in Er2. injection Er2 as <- <-.
  match type of Ef with _ = Ok ?a => exists a end. split; [exact Ef|]. intros l i j HlM Hi Hj Hg.
  destruct (nth_error lf l) as [f|] eqn:E1; [|apply nth_error_None in E1; lia]. destruct (nth_error lr l) as [r|] eqn:E2; [|apply nth_error_None in E2; lia].
  assert (Hlen : (1 <= length xs)%nat) by (destruct xs; [easy|cbn; lia]).
  match type of Ef with _ = Ok ?a => set (sf := a) in * end. match type of Er with _ = Ok ?a => set (sr := a) in * end.
  destruct (acm_get_sim d e He G sf sr mf mr l f r (N.of_nat (length xs)) i j eq_refl eq_refl E1 E2 eq_refl eq_refl ltac:(lia) Lf Lr (HR l f r E1 E2) Hi Hj Hg (means_ok d e xs mf mr He Hne Hn HX Hmf Hm')) as (gf & gr & G1 & G2 & G3).
  exists gf. split; [exact G1|].
  rewrite (Hget l i j HlM Hi Hj), map_length in G2. injection G2 as <-. destruct G3 as [Gf Ge]. split; [exact Gf|].
  destruct (Nat.leb_spec (length xs) (l + 1)) as [C|C]; destruct (N.leb_spec (N.of_nat (length xs)) (N.of_nat l + 1)) as [C'|C']; try lia.
  - split; [|lia]. intros _. set (z := val (G l i j)) in *. pose proof (Rabs_pos (val gf - z)). destruct (Req_dec (val gf - z) 0) as [Z|Z]; [lra|]. apply Rabs_pos_lt in Z. lra.
  - split; [lia|]. intros _. cbn [kadd kdiv kofN R_ops] in Ge. replace (N.to_nat (N.of_nat (length xs) - N.of_nat l - 1)) with (length xs - l - 1)%nat in Ge by lia.
    eapply Rle_trans; [exact Ge|]. unfold Fget, B2, B. replace (IZR (Z.of_N (N.of_nat (length xs)))) with (INR (length xs)) by (rewrite INR_IZR_INZ; f_equal; lia). lra.
Qed.
Lemma acov0_real xs i j : xs <> [] -> the_autocovariance R_ops (map (map val) xs) 0 i j = real_covariance xs i j.
Proof.
  intros Hne. rewrite <- the_covariance_real by exact Hne. unfold the_autocovariance, the_covariance. rewrite Nat.sub_0_r. f_equal.
  - rewrite (suml_seq_nth _ []). unfold sumn. apply suml_ext_R. intros t. unfold X. rewrite Nat.add_0_r. reflexivity.
  - f_equal. cbn. lia.
Qed.
(** Lag zero, CovarianceMatrix, and symmetry, if the memory contained zeros. *)
Lemma acm_cov_double : forall (max_lag d : nat) (e : Z) (xs : list (list f64)) (garbage : nat -> matrix f64) (garbage' : matrix f64), (-400 <= e <= 400)%Z -> (2 <= length xs)%nat -> (N.of_nat (length xs) <= 2 ^ 50)%N ->
  (forall x, In x xs -> length x = d /\ forall i, (i < d)%nat -> finite (at_ i x) /\ Rabs (val (at_ i x)) <= bpow radix2 e) ->
  (forall i j, (i < d)%nat -> (j < d)%nat -> garbage 0%nat i j = B754_zero false /\ garbage' i j = B754_zero false) ->
  exists s s', run_consumer (acm_consume b64_ops garbage max_lag) acm_init xs = Ok s /\ run_consumer (cov_consume b64_ops) (cov_init garbage') xs = Ok s' /\
  forall i j, (i < d)%nat -> (j < d)%nat -> exists v v', acm_get b64_ops s 0 i j = Ok v /\ acm_get b64_ops s 0 j i = Ok v' /\
    Rabs (val v - val (snd (cov_get s') i j)) <= (67 * INR (length xs) + 260) * unit_roundoff * (bpow radix2 e * bpow radix2 e) /\
    Rabs (val v - val v') <= (42 * INR (length xs) + 520) * unit_roundoff * (bpow radix2 e * bpow radix2 e).
Proof.
  intros M d e xs G G' He Hn Hl HX HG. assert (Hne : xs <> []) by (intros ->; cbn in Hn; lia). pose proof u_pos as Hu. pose proof (B2_pos e) as HB2. unfold B2, B in HB2.
  assert (V0 : val (B754_zero false : f64) = 0) by reflexivity.
  destruct (acm_double G M d e xs He Hne Hl HX) as (s & Es & Hs). destruct (cov_float G' d e xs ltac:(lia) Hne HX ltac:(lia)) as (s' & Es' & _ & Hc).
  exists s, s'. split; [exact Es|]. split; [exact Es'|]. intros i j Hi Hj.
  assert (K : forall a b, (a < d)%nat -> (b < d)%nat -> exists v, acm_get b64_ops s 0 a b = Ok v /\ Rabs (val v - real_covariance xs a b) <= (21 * INR (length xs) + 260) * u * (bpow radix2 e * bpow radix2 e)).
  { intros a b Ha Hb. destruct (HG a b Ha Hb) as [EG _]. destruct (Hs 0%nat a b ltac:(lia) Ha Hb) as (v & Ev & _ & _ & Hv).
    - rewrite EG, V0, Rabs_R0. split; [reflexivity|lra].
    - exists v. split; [exact Ev|]. specialize (Hv ltac:(lia)). rewrite EG, V0, acov0_real in Hv by exact Hne. unfold Rdiv in Hv. rewrite Rmult_0_l, Rplus_0_r in Hv. exact Hv. }
  destruct (K i j Hi Hj) as (v & Ev & Hv). destruct (K j i Hj Hi) as (v' & Ev' & Hv'). exists v, v'. split; [exact Ev|]. split; [exact Ev'|].
  assert (HS : real_covariance xs j i = real_covariance xs i j). { unfold real_covariance. f_equal. f_equal. apply map_ext. intros x. ring. }
  rewrite HS in Hv'. split.
  - destruct (HG i j Hi Hj) as [_ EG]. assert (HGG : finite (G' i j) /\ Rabs (val (G' i j)) <= bpow radix2 (2 * e + 4)) by (rewrite EG, V0, Rabs_R0; split; [reflexivity|apply bpow_ge_0]). specialize (Hc i j Hi Hj HGG). cbv zeta in Hc. destruct Hc as (_ & _ & _ & Hc). specialize (Hc Hn ltac:(lia)).
    assert (Hc' : Rabs (val (snd (cov_get s') i j) - real_covariance xs i j) <= 46 * INR (length xs) * (u * (bpow radix2 e * bpow radix2 e))) by exact Hc. clear Hc.
    set (c := val (snd (cov_get s') i j)) in *. set (r := real_covariance xs i j) in *. replace (val v - c) with ((val v - r) + - (c - r)) by ring. eapply Rle_trans; [apply Rabs_triang|]. rewrite Rabs_Ropp. lra.
  - set (r := real_covariance xs i j) in *. replace (val v - val v') with ((val v - r) + - (val v' - r)) by ring. eapply Rle_trans; [apply Rabs_triang|]. rewrite Rabs_Ropp. lra.
Qed.
