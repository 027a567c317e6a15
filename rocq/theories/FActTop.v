(** AutoCovarianceTrace in double arithmetic: the theorems. *)
From Coq Require Import Reals ZArith Lra Lia Psatz.
From Flocq Require Import Core BinarySingleNaN Relative.
From Verif Require Import Prelude ConsumerModel StatsModel StatsSpec StatsProofs StatsTop StatsInst HistFloat FloatSpec FloatBase FloatMean FloatCov FCosModel FCosSpec FCosRun FCosProofs FApprox FActProofs.
Local Open Scope R_scope.
Local Notation length := List.length.
Local Notation u := unit_roundoff.
Local Notation eta := half_denorm_min.

Lemma suml_val (f : list f64 -> R) (g : list R -> R) (H : forall x, g (map val x) = f x) : forall xs, suml R_ops g (map (map val) xs) = fold_right Rplus 0 (map f xs).
Proof. induction xs as [|x xs IH]; cbn; [reflexivity|]. now rewrite IH, H. Qed.
Lemma the_mean_real xs i : the_mean R_ops (map (map val) xs) i = real_mean xs i.
Proof.
  unfold the_mean, real_mean. cbn [kdiv kofN R_ops]. rewrite map_length, Nat2N.id. f_equal. apply suml_val. intros x. apply comp_val.
Qed.
Lemma the_covariance_real xs i j : xs <> [] -> the_covariance R_ops (map (map val) xs) i j = real_covariance xs i j.
Proof.
  intros Hne. unfold the_covariance, real_covariance. cbn [kdiv kofN kmul ksub kconj R_ops]. rewrite map_length. rewrite !the_mean_real. f_equal.
  - apply suml_val. intros x. now rewrite !comp_val.
  - assert (1 <= length xs)%nat by (destruct xs; [easy|cbn; lia]). rewrite N2Nat.inj_sub, Nat2N.id. rewrite minus_INR by (change (N.to_nat 1) with 1%nat; lia). reflexivity.
Qed.

Lemma act_double : forall (max_lag d : nat) (e : Z) (xs : list (list f64)), (-400 <= e <= 400)%Z -> INR d <= 1048576 -> xs <> [] -> (N.of_nat (length xs) <= 2 ^ 50)%N ->
  (forall x, In x xs -> length x = d /\ forall i, (i < d)%nat -> finite (at_ i x) /\ Rabs (val (at_ i x)) <= bpow radix2 e) ->
  exists s, run_consumer (act_consume b64_ops max_lag) act_init xs = Ok s /\
  forall l, (l <= max_lag)%nat -> exists v, act_get b64_ops s l = Ok v /\ finite v /\
    ((length xs <= l + 1)%nat -> val v = 0) /\
    ((l + 1 < length xs)%nat -> Rabs (val v - the_autocovariance_trace R_ops d (map (map val) xs) l)
        <= (18 * INR (length xs) + 52 * INR d + 198) * unit_roundoff * ((INR d + 1) * (bpow radix2 e * bpow radix2 e))).
Proof.
  intros M d e xs He Hd Hne Hn HX. pose proof u_pos as Hu.
  assert (HF : Forall (vok d e) xs) by (apply Forall_forall; intros x Hx; exact (HX x Hx)).
  destruct (act_two d e He Hd M xs Hne HF Hn) as (mf & lf & mr & lr & Ef & Er & Lf & Lr & Hmf & L1 & L2 & HR).
  assert (Hs : all_size d (map (map val) xs)). { apply Forall_map, Forall_forall. intros x Hx. rewrite map_length. now apply HX. }
  assert (Hl : (N.of_nat (length (map (map val) xs)) < two64)%N) by (rewrite map_length; unfold two64; lia).
  assert (Hne' : map (map val) xs <> []) by (destruct xs; [easy|discriminate]).
  destruct (top_act R_ops R_exact M (map (map val) xs) d Hne' Hs Hl) as (sr & Er' & Hget). rewrite Er in Er'. injection Er' as <-.
  destruct (R_exact) as [[inv FT] X1 X2 X3 X4 X5 X6] eqn:EX. clear EX.
  destruct (act_run R_ops inv FT X1 X2 X3 M (map (map val) xs) d Hne' Hs Hl) as (m' & lags' & Er2 & _ & Hm' & _). rewrite Er in Er2. injection Er2 as <- <-.
  match type of Ef with _ = Ok ?a => exists a end. split; [exact Ef|]. intros l HlM.
  destruct (nth_error lf l) as [f|] eqn:E1; [|apply nth_error_None in E1; lia]. destruct (nth_error lr l) as [r|] eqn:E2; [|apply nth_error_None in E2; lia].
  assert (Hlen : (1 <= length xs)%nat) by (destruct xs; [easy|cbn; lia]).
  match type of Ef with _ = Ok ?a => set (sf := a) in * end. match type of Er with _ = Ok ?a => set (sr := a) in * end.
  edestruct (get_sim d e He Hd) with (sf := sf) (sr := sr) (n := N.of_nat (length xs)) (l := l) (mf := mf) (mr := mr) (f := f) (r := r) as (gf & gr & G1 & G2 & G3); [..|exists gf; split; [exact G1|]].
  1,2: reflexivity. 1: exact E1. 1: exact E2. 1,2: reflexivity. 1: lia. 1: exact Lf. 1: exact Lr. 1: exact (HR l f r E1 E2).
  { intros j Hj. rewrite (Hm' j Hj), the_mean_real, (Hmf j Hj).
    assert (HFj : Forall (fun a => finite a /\ Rabs (val a) <= bpow radix2 e) (map (at_ j) xs)) by (apply Forall_map, Forall_forall; intros x Hx; now apply (HX x Hx)).
    assert (HFr : Forall (fun a => finite a /\ - bpow radix2 e <= val a <= bpow radix2 e) (map (at_ j) xs)) by (eapply Forall_impl; [|exact HFj]; intros a [P1 P2]; split; [exact P1|now apply Rabs_le_inv]).
    assert (Hnj : map (at_ j) xs <> []) by (destruct xs; [easy|discriminate]). pose proof (B_big e He) as HB. pose proof big_max as HBM. pose proof (B_pos e) as HBp. unfold B in HB, HBp.
    assert (H2B : 2 * bpow radix2 e <= DBL_MAX) by (pose proof big_1; lra).
    destruct (fmean_range (- bpow radix2 e) (bpow radix2 e) (map (at_ j) xs) Hnj ltac:(rewrite map_length; lia) HFr ltac:(lra)) as [Fm Rm].
    pose proof (fmean_error' (bpow radix2 e) (map (at_ j) xs) Hnj ltac:(rewrite map_length; lia) HFj H2B) as Em'. rewrite map_length in Em'.
    assert (ER : rsum (map (at_ j) xs) / INR (length xs) = real_mean xs j) by (unfold rsum, real_mean; now rewrite map_map).
    rewrite ER in Em'. split; [|split].
    - split; [exact Fm|]. eapply Rle_trans; [exact Em'|]. pose proof (eta_B e He) as Ht. unfold B in Ht. unfold Em, B.
      replace (IZR (Z.of_N (N.of_nat (length xs)))) with (INR (length xs)) by (rewrite INR_IZR_INZ; f_equal; lia).
      assert (u * u * bpow radix2 e <= 1 * u * bpow radix2 e) by (apply Rmult_le_compat_r; [lra|]; apply Rmult_le_compat_r; [lra|rewrite u_val; lra]).
      pose proof (pos_INR (length xs)). set (q := u * bpow radix2 e) in *. assert (Hq : u * bpow radix2 e + eta <= 2 * q) by (unfold q; lra). apply Rle_trans with ((INR (length xs) / 2 + 6) * (2 * q)); [apply Rmult_le_compat_l; lra|]. lra.
    - apply Rabs_le. exact Rm.
    - rewrite <- ER. apply Rabs_le. assert (HI : 1 <= INR (length xs)) by (change 1 with (INR 1); now apply le_INR).
      assert (Hsum : Rabs (rsum (map (at_ j) xs)) <= INR (length (map (at_ j) xs)) * bpow radix2 e).
      { clear - HFj. induction HFj as [|a l [_ Ha] _ IH]; [cbn; rewrite Rabs_R0; lra|]. cbn [length]. rewrite S_INR. unfold rsum in *. cbn [map fold_right]. eapply Rle_trans; [apply Rabs_triang|]. lra. }
      rewrite map_length in Hsum. apply Rabs_le_inv in Hsum. split.
      + apply Rmult_le_reg_r with (INR (length xs)); [lra|]. unfold Rdiv. rewrite Rmult_assoc, Rinv_l by lra. unfold B. lra.
      + apply Rmult_le_reg_r with (INR (length xs)); [lra|]. unfold Rdiv. rewrite Rmult_assoc, Rinv_l by lra. unfold B. lra. }
  rewrite (Hget l HlM), map_length in G2. injection G2 as <-. destruct G3 as [Gf Ge]. split; [exact Gf|].
  destruct (Nat.leb_spec (length xs) (l + 1)) as [C|C]; destruct (N.leb_spec (N.of_nat (length xs)) (N.of_nat l + 1)) as [C'|C']; try lia.
  - split; [|lia]. intros _. cbn [k0 R_ops] in Ge. rewrite Rminus_0_r in Ge. pose proof (Rabs_pos (val gf)). destruct (Req_dec (val gf) 0) as [Z|Z]; [exact Z|]. apply Rabs_pos_lt in Z. lra.
  - split; [lia|]. intros _. eapply Rle_trans; [exact Ge|]. unfold Eget, W, B2, B. replace (IZR (Z.of_N (N.of_nat (length xs)))) with (INR (length xs)) by (rewrite INR_IZR_INZ; f_equal; lia). lra.
Qed.

(** Lag zero and CovarianceMatrix. *)
Lemma suml_seq_nth {A} (f : A -> R) (dft : A) : forall xs, suml R_ops f xs = suml R_ops (fun t => f (nth t xs dft)) (seq 0 (length xs)).
Proof.
  induction xs as [|x xs IH]; [reflexivity|]. cbn [length seq suml]. f_equal. rewrite IH, <- seq_shift. generalize (seq 0 (length xs)). intros l. induction l as [|t l IHl]; cbn; [reflexivity|]. now rewrite IHl.
Qed.
Lemma suml_ext_R {A} (f g : A -> R) : (forall a, f a = g a) -> forall xs, suml R_ops f xs = suml R_ops g xs.
Proof. intros H xs. induction xs as [|x xs IH]; cbn; [reflexivity|]. now rewrite H, IH. Qed.
Lemma lag0_real d xs : xs <> [] -> the_autocovariance_trace R_ops d (map (map val) xs) 0 = fold_right Rplus 0 (map (fun i => real_covariance xs i i) (seq 0 d)).
Proof.
  intros Hne. assert (E : forall i, the_autocovariance R_ops (map (map val) xs) 0 i i = real_covariance xs i i).
  { intros i. rewrite <- the_covariance_real by exact Hne. unfold the_autocovariance, the_covariance. rewrite Nat.sub_0_r. f_equal.
    - rewrite (suml_seq_nth _ []). unfold sumn. apply suml_ext_R. intros t. unfold X. rewrite Nat.add_0_r. reflexivity.
    - f_equal. cbn. lia. }
  unfold the_autocovariance_trace, sumn. generalize (seq 0 d). intros l. induction l as [|i l IH]; [reflexivity|]. cbn [suml map fold_right kadd R_ops]. now rewrite E, IH.
Qed.
Lemma sum_err (f g : nat -> R) E : 0 <= E -> forall d, (forall i, (i < d)%nat -> Rabs (f i - g i) <= E) ->
  Rabs (fold_right Rplus 0 (map f (seq 0 d)) - fold_right Rplus 0 (map g (seq 0 d))) <= INR d * E.
Proof.
  intros HE. assert (G : forall d a, (forall i, (a <= i < a + d)%nat -> Rabs (f i - g i) <= E) -> Rabs (fold_right Rplus 0 (map f (seq a d)) - fold_right Rplus 0 (map g (seq a d))) <= INR d * E).
  { induction d as [|d IH]; intros a H; [cbn; rewrite Rminus_0_r, Rabs_R0; lra|]. cbn [seq map fold_right]. rewrite S_INR.
    replace (f a + fold_right Rplus 0 (map f (seq (S a) d)) - (g a + fold_right Rplus 0 (map g (seq (S a) d)))) with ((f a - g a) + (fold_right Rplus 0 (map f (seq (S a) d)) - fold_right Rplus 0 (map g (seq (S a) d)))) by ring.
    eapply Rle_trans; [apply Rabs_triang|]. pose proof (H a ltac:(lia)). pose proof (IH (S a) ltac:(intros i Hi; apply H; lia)). lra. }
  intros d H. apply G. intros i Hi. apply H. lia.
Qed.
Lemma act_cov_double : forall (garbage : matrix f64) (max_lag d : nat) (e : Z) (xs : list (list f64)), (-400 <= e <= 400)%Z -> INR d <= 1048576 -> (2 <= length xs)%nat -> (N.of_nat (length xs) <= 2 ^ 50)%N ->
  (forall x, In x xs -> length x = d /\ forall i, (i < d)%nat -> finite (at_ i x) /\ Rabs (val (at_ i x)) <= bpow radix2 e) ->
  (forall i, (i < d)%nat -> finite (garbage i i) /\ Rabs (val (garbage i i)) <= bpow radix2 (2 * e + 4)) ->
  exists s s' v, run_consumer (act_consume b64_ops max_lag) act_init xs = Ok s /\ run_consumer (cov_consume b64_ops) (cov_init garbage) xs = Ok s' /\ act_get b64_ops s 0 = Ok v /\
    Rabs (val v - fold_right Rplus 0 (map (fun i => val (snd (cov_get s') i i)) (seq 0 d)))
    <= (64 * INR (length xs) + 52 * INR d + 198) * unit_roundoff * ((INR d + 1) * (bpow radix2 e * bpow radix2 e)).
Proof.
  intros G M d e xs He Hd Hn Hl HX HG. assert (Hne : xs <> []) by (intros ->; cbn in Hn; lia). pose proof u_pos as Hu. pose proof (B2_pos e) as HB2. unfold B2, B in HB2.
  destruct (act_double M d e xs He Hd Hne Hl HX) as (s & Es & Hs). destruct (Hs 0%nat ltac:(lia)) as (v & Ev & _ & _ & Hv). specialize (Hv ltac:(lia)).
  destruct (cov_float G d e xs ltac:(lia) Hne HX ltac:(lia)) as (s' & Es' & _ & Hc). exists s, s', v. do 3 (split; [assumption|]).
  assert (HN : 0 <= INR (length xs)) by apply pos_INR. pose proof (d_pos d) as Hd0.
  assert (HE : 0 <= 46 * INR (length xs) * (u * (bpow radix2 e * bpow radix2 e))) by (apply Rmult_le_pos; [lra|]; apply Rmult_le_pos; lra).
  pose proof (sum_err (fun i => val (snd (cov_get s') i i)) (fun i => real_covariance xs i i) _ HE d) as HS.
  specialize (HS ltac:(intros i Hi; specialize (Hc i i Hi Hi (HG i Hi)); cbv zeta in Hc; apply Hc; [exact Hn|lia])).
  rewrite (lag0_real d xs Hne) in Hv. set (T := fold_right Rplus 0 (map (fun i => real_covariance xs i i) (seq 0 d))) in *. set (C := fold_right Rplus 0 (map (fun i => val (snd (cov_get s') i i)) (seq 0 d))) in *.
  replace (val v - C) with ((val v - T) + - (C - T)) by ring. eapply Rle_trans; [apply Rabs_triang|]. rewrite Rabs_Ropp.
  set (b := bpow radix2 e * bpow radix2 e) in *.
  assert (INR d * (46 * INR (length xs) * (u * b)) <= 46 * INR (length xs) * u * ((INR d + 1) * b)).
  { replace (INR d * (46 * INR (length xs) * (u * b))) with (46 * INR (length xs) * u * (INR d * b)) by ring. apply Rmult_le_compat_l; [|nra]. apply Rmult_le_pos; lra. }
  lra.
Qed.
