(** CovarianceMatrix in IEEE double arithmetic. *)
From Coq Require Import Reals ZArith Lra Lia Psatz Permutation.
From Flocq Require Import Core BinarySingleNaN.
From Verif Require Import Prelude ConsumerModel StatsModel StatsProofs HistFloat FloatSpec FloatBase FloatMean.
Local Open Scope R_scope.

(** One step on real numbers. *)
Definition rc (N N1 c P : R) : R := rnd (c + rnd (rnd (P / N) - rnd (c / N1))).
Lemma rc_opp : forall N N1 c P, rc N N1 (- c) (- P) = - rc N N1 c P.
Proof.
  intros. unfold rc, Rdiv. rewrite <- !Ropp_mult_distr_l, !rnd_opp.
  replace (- rnd (P * / N) - - rnd (c * / N1)) with (- (rnd (P * / N) - rnd (c * / N1))) by ring.
  rewrite rnd_opp, <- Ropp_plus_distr, rnd_opp. reflexivity.
Qed.

Section Step.
Variables (N N1 T : R) (e : Z).
Hypothesis HN : 2 <= N.
Hypothesis HN1 : 1 <= N1 <= N.
Hypothesis He : (-1074 <= e)%Z.
Hypothesis HT : T = bpow radix2 e.
Lemma T_pos : 0 < T. Proof. rewrite HT. apply bpow_gt_0. Qed.
Lemma T_double : is_double T. Proof. rewrite HT. now apply bpow_double. Qed.
Lemma T2_double : is_double (2 * T).
Proof. rewrite HT. change 2 with (bpow radix2 1). rewrite <- bpow_plus. apply bpow_double. lia. Qed.
Lemma T4_double : is_double (4 * T).
Proof. rewrite HT. change 4 with (bpow radix2 2). rewrite <- bpow_plus. apply bpow_double. lia. Qed.
Lemma invN : 0 < / N <= 1 / 2. Proof. split; [apply Rinv_0_lt_compat; lra|]. replace (1 / 2) with (/ 2) by lra. apply Rinv_le_contravar; lra. Qed.
Lemma invN1 : 0 < / N1 <= 1. Proof. split; [apply Rinv_0_lt_compat; lra|]. rewrite <- Rinv_1. apply Rinv_le_contravar; lra. Qed.

Lemma rc_upper : forall c P, is_double c -> Rabs c <= 4 * T -> Rabs P <= T -> rc N N1 c P <= 4 * T.
Proof.
  intros c P Hc Bc BP. pose proof T_pos as Tp. pose proof invN. pose proof invN1. apply Rabs_le_inv in Bc. apply Rabs_le_inv in BP.
  unfold rc. assert (HA : rnd (P / N) <= rnd (T / N)) by (apply rnd_mono; apply Rmult_le_compat_r; lra).
  assert (HA' : rnd (T / N) <= T) by (apply rnd_le; [apply T_double|unfold Rdiv; nra]).
  destruct (Rle_lt_dec (2 * T) c) as [H1|H1].
  - assert (HB : rnd (T / N) <= rnd (c / N1)).
    { apply rnd_mono. apply Rle_trans with (c / N).
      - apply Rmult_le_compat_r; lra.
      - apply Rmult_le_compat_l; [lra|]. apply Rinv_le_contravar; lra. }
    assert (HI : rnd (rnd (P / N) - rnd (c / N1)) <= 0) by (apply rnd_le; [apply generic_format_0|lra]).
    apply rnd_le; [apply T4_double|lra].
  - destruct (Rle_lt_dec 0 c) as [H2|H2].
    + assert (HB : 0 <= rnd (c / N1)) by (apply rnd_ge; [apply generic_format_0|apply Rmult_le_pos; lra]).
      assert (HI : rnd (rnd (P / N) - rnd (c / N1)) <= T) by (apply rnd_le; [apply T_double|lra]).
      apply rnd_le; [apply T4_double|lra].
    + assert (HB : c <= rnd (c / N1)) by (apply rnd_ge; [easy|unfold Rdiv; nra]).
      assert (HI : rnd (rnd (P / N) - rnd (c / N1)) <= rnd (T - c)) by (apply rnd_mono; lra).
      destruct (rnd_minus T c T_double Hc) as (eps & He1 & E1). apply Rabs_le_inv in He1. rewrite ur_val in He1.
      apply rnd_le; [apply T4_double|]. rewrite E1 in HI. nra.
Qed.
Lemma rc_bound : forall c P, is_double c -> Rabs c <= 4 * T -> Rabs P <= T -> Rabs (rc N N1 c P) <= 4 * T.
Proof.
  intros c P Hc Bc BP. apply Rabs_le. split; [|now apply rc_upper].
  pose proof (rc_upper (- c) (- P) (opp_double _ Hc) ltac:(now rewrite Rabs_Ropp) ltac:(now rewrite Rabs_Ropp)) as H.
  rewrite rc_opp in H. lra.
Qed.
Lemma rc_nonneg : forall c P, is_double c -> 0 <= P -> 0 <= c \/ N1 = 1 -> 0 <= rc N N1 c P.
Proof.
  intros c P Hc HP H. pose proof invN. pose proof invN1. unfold rc.
  assert (HA : 0 <= rnd (P / N)) by (apply rnd_ge; [apply generic_format_0|apply Rmult_le_pos; lra]).
  assert (HB : rnd (c / N1) <= c).
  { destruct H as [H|H]; [apply rnd_le; [easy|unfold Rdiv; nra]|]. rewrite H. replace (c / 1) with c by field. right. now apply rnd_id. }
  assert (HI : - c <= rnd (rnd (P / N) - rnd (c / N1))) by (apply rnd_ge; [now apply opp_double|lra]).
  apply rnd_ge; [apply generic_format_0|lra].
Qed.
End Step.

(** One step on doubles: what covariance_matrix.impl.h:184-190 computes for one entry. *)
Definition fc (c di dj : f64) (n : N) : f64 :=
  kadd b64_ops c (ksub b64_ops (kdiv b64_ops (kmul b64_ops di dj) (kmul b64_ops (k1 b64_ops) (kofN b64_ops n)))
                               (kdiv b64_ops c (ksub b64_ops (kmul b64_ops (k1 b64_ops) (kofN b64_ops n)) (k1 b64_ops)))).
Lemma one_ok : finite (k1 b64_ops) /\ val (k1 b64_ops) = 1.
Proof. split; [reflexivity|]. apply Bone_correct. Qed.
Lemma n_ok : forall n, (2 <= n < 2 ^ 64)%N ->
  let nn := kmul b64_ops (k1 b64_ops) (kofN b64_ops n) in let n1 := ksub b64_ops nn (k1 b64_ops) in
  finite nn /\ val nn = val (kofN b64_ops n) /\ 2 <= val nn /\ finite n1 /\ val n1 = rnd (val nn - 1) /\ 1 <= val n1 <= val nn.
Proof.
  intros n Hn nn n1. destruct one_ok as [F1 V1]. destruct (ofN_ok n ltac:(lia)) as [FN VN]. pose proof (ofN_ge2 n Hn) as H2.
  destruct (mul_ok (k1 b64_ops) (kofN b64_ops n) F1 FN) as [F3 V3]. { rewrite V1, Rmult_1_l. apply val_max. }
  fold nn in F3, V3. rewrite V1, Rmult_1_l, rnd_id in V3 by apply val_double.
  split; [exact F3|]. split; [exact V3|]. split; [lra|].
  pose proof (val_max (kofN b64_ops n)) as HM. apply Rabs_le_inv in HM.
  destruct (sub_ok nn (k1 b64_ops) F3 F1) as [F4 V4]. { rewrite V1, V3. apply Rabs_le. lra. }
  fold n1 in F4, V4. rewrite V1 in V4. split; [exact F4|]. split; [exact V4|]. rewrite V4. split.
  - apply rnd_ge; [change 1 with (bpow radix2 0); apply bpow_double; lia|lra].
  - apply rnd_le; [apply val_double|lra].
Qed.
Lemma fc_ok : forall c di dj n e, finite c -> finite di -> finite dj -> (2 <= n < 2 ^ 64)%N -> (-1074 <= e <= 1019)%Z ->
  let T := bpow radix2 e in let nn := val (kofN b64_ops n) in let n1 := rnd (nn - 1) in
  Rabs (val c) <= 4 * T -> Rabs (val di * val dj) <= T ->
  finite (fc c di dj n) /\ val (fc c di dj n) = rc nn n1 (val c) (rnd (val di * val dj)) /\ Rabs (val (fc c di dj n)) <= 4 * T /\
  2 <= nn /\ 1 <= n1 <= nn.
Proof.
  intros c di dj n e Fc Fi Fj Hn He T nn n1 Hc Hd.
  assert (Tp : 0 < T) by apply bpow_gt_0.
  assert (HM : 5 * T <= DBL_MAX).
  { eapply Rle_trans; [|apply max_ge]. apply Rle_trans with (bpow radix2 3 * T); [change (bpow radix2 3) with 8; lra|].
    unfold T. rewrite <- bpow_plus. apply bpow_le. lia. }
  destruct (n_ok n Hn) as (FN & VN & HN & FN1 & VN1 & HN1).
  set (fn := kmul b64_ops (k1 b64_ops) (kofN b64_ops n)) in *. set (fn1 := ksub b64_ops fn (k1 b64_ops)) in *.
  assert (E1 : val fn = nn) by exact VN. assert (E2 : val fn1 = n1) by (rewrite VN1, E1; reflexivity). rewrite E1, E2 in *.
  pose proof (invN nn HN) as HiN. pose proof (invN1 nn n1 HN1) as HiN1.
  destruct (mul_ok di dj Fi Fj ltac:(lra)) as [F1 V1].
  assert (B1 : Rabs (val (kmul b64_ops di dj)) <= T) by (rewrite V1; apply rnd_abs; [apply bpow_double; lia|exact Hd]).
  destruct (div_ok _ fn F1) as [F2 V2]. { lra. }
  { rewrite E1. unfold Rdiv. rewrite Rabs_mult, (Rabs_pos_eq (/ nn)) by lra. pose proof (Rabs_pos (val (kmul b64_ops di dj))). nra. }
  rewrite E1 in V2.
  assert (B2 : Rabs (val (kdiv b64_ops (kmul b64_ops di dj) fn)) <= T).
  { rewrite V2. apply rnd_abs; [apply bpow_double; lia|]. unfold Rdiv. rewrite Rabs_mult, (Rabs_pos_eq (/ nn)) by lra. pose proof (Rabs_pos (val (kmul b64_ops di dj))). nra. }
  assert (B3' : Rabs (val c / n1) <= 4 * T).
  { unfold Rdiv. rewrite Rabs_mult, (Rabs_pos_eq (/ n1)) by lra. pose proof (Rabs_pos (val c)). nra. }
  destruct (div_ok c fn1 Fc) as [F3 V3]. { lra. } { rewrite E2. lra. } rewrite E2 in V3.
  assert (B3 : Rabs (val (kdiv b64_ops c fn1)) <= 4 * T) by (rewrite V3; apply rnd_abs; [eapply T4_double with (e := e); [lia|reflexivity]|exact B3']).
  destruct (sub_ok _ _ F2 F3) as [F4 V4].
  { eapply Rle_trans; [apply Rabs_triang|]. rewrite Rabs_Ropp. lra. }
  assert (HR : Rabs (rc nn n1 (val c) (val (kmul b64_ops di dj))) <= 4 * T) by (apply rc_bound with (e := e); auto; try lia; apply val_double).
  destruct (add_ok c _ Fc F4) as [F5 V5].
  { assert (HB : Rabs (rnd (rnd (val (kmul b64_ops di dj) / nn) - rnd (val c / n1))) <= 8 * T).
    { apply rnd_abs. - unfold T. change 8 with (bpow radix2 3). rewrite <- bpow_plus. apply bpow_double. lia.
      - eapply Rle_trans; [apply Rabs_triang|]. rewrite Rabs_Ropp, <- V2, <- V3. lra. }
    rewrite V4, V2, V3. eapply Rle_trans; [apply Rabs_triang|]. eapply Rle_trans; [apply Rplus_le_compat; [exact Hc|exact HB]|].
    eapply Rle_trans; [|apply max_ge]. apply Rle_trans with (bpow radix2 4 * T); [change (bpow radix2 4) with 16; lra|].
    unfold T. rewrite <- bpow_plus. apply bpow_le. lia. }
  assert (E : val (fc c di dj n) = rc nn n1 (val c) (rnd (val di * val dj))).
  { unfold fc. fold fn. fold fn1. rewrite V5, V4, V3, V2, V1. reflexivity. }
  split; [exact F5|]. split; [exact E|]. split; [rewrite E, <- V1; exact HR|]. split; [exact HN|exact HN1].
Qed.

(** The rounding error of one step. *)
Lemma prod_diff : forall a b a' b' D d, Rabs a <= D -> Rabs b' <= D -> Rabs (a - a') <= d -> Rabs (b - b') <= d -> Rabs (a * b - a' * b') <= 2 * (D * d).
Proof.
  intros a b a' b' D d Ha Hb H1 H2. replace (a * b - a' * b') with (a * (b - b') + (a - a') * b') by ring.
  eapply Rle_trans; [apply Rabs_triang|]. rewrite !Rabs_mult.
  assert (Rabs a * Rabs (b - b') <= D * d) by (apply Rmult_le_compat; auto; apply Rabs_pos).
  assert (Rabs (a - a') * Rabs b' <= d * D) by (apply Rmult_le_compat; auto; apply Rabs_pos). lra.
Qed.
Lemma rnd_error : forall x B, Rabs x <= B -> Rabs (rnd x - x) <= unit_roundoff * B + half_denorm_min.
Proof.
  intros x B H. destruct (rnd_any x) as (e & h & He & Hh & E). rewrite E.
  replace (x * (1 + e) + h - x) with (x * e + h) by ring. eapply Rle_trans; [apply Rabs_triang|]. rewrite Rabs_mult.
  assert (Rabs x * Rabs e <= B * unit_roundoff) by (apply Rmult_le_compat; auto; apply Rabs_pos). lra.
Qed.
Lemma rnd_minus_error : forall x y B, is_double x -> is_double y -> Rabs (x - y) <= B -> Rabs (rnd (x - y) - (x - y)) <= unit_roundoff * B.
Proof.
  intros x y B Hx Hy H. destruct (rnd_minus x y Hx Hy) as (e & He & E). rewrite E.
  replace ((x - y) * (1 + e) - (x - y)) with ((x - y) * e) by ring. rewrite Rabs_mult.
  rewrite Rmult_comm. apply Rmult_le_compat; auto; apply Rabs_pos.
Qed.

Section Error.
Variables (n M : R) (e : Z).
Hypothesis Hn : 2 <= n.
Hypothesis HM : M = bpow radix2 e.
Hypothesis He : (-500 <= e <= 500)%Z.
Let u := unit_roundoff.
Let eta := half_denorm_min.
Let T := 4 * (M * M).
Lemma M_pos : 0 < M. Proof. rewrite HM. apply bpow_gt_0. Qed.
Lemma T_bpow : T = bpow radix2 (2 * e + 2).
Proof. unfold T. rewrite HM. change 4 with (bpow radix2 2). rewrite <- !bpow_plus. f_equal. lia. Qed.
Lemma eta_small : eta <= u * (M * M).
Proof. unfold eta, u, half_denorm_min, unit_roundoff. rewrite HM, <- !bpow_plus. apply bpow_le. lia. Qed.
Lemma eta_small1 : eta <= u * M.
Proof. unfold eta, u, half_denorm_min, unit_roundoff. rewrite HM, <- !bpow_plus. apply bpow_le. lia. Qed.
Lemma M2_double : is_double (2 * M).
Proof. rewrite HM. change 2 with (bpow radix2 1). rewrite <- bpow_plus. apply bpow_double. lia. Qed.

Lemma delta_error : forall m x mu, is_double m -> is_double x -> Rabs m <= M -> Rabs x <= M -> Rabs (m - mu) <= (n + 11) * (u * M) ->
  Rabs (rnd (x - m)) <= 2 * M /\ Rabs (rnd (x - m) - (x - mu)) <= (n + 13) * (u * M).
Proof.
  intros m x mu Hm Hx Bm Bx H. apply Rabs_le_inv in Bm. apply Rabs_le_inv in Bx.
  assert (B : Rabs (x - m) <= 2 * M) by (apply Rabs_le; lra).
  split; [apply rnd_abs; [apply M2_double|exact B]|].
  pose proof (rnd_minus_error x m _ Hx Hm B) as H1. replace (rnd (x - m) - (x - mu)) with ((rnd (x - m) - (x - m)) - (m - mu)) by ring.
  eapply Rle_trans; [apply Rabs_triang|]. rewrite Rabs_Ropp. fold u in H1. lra.
Qed.

Lemma rc_error : forall c di dj di' dj', is_double c -> Rabs c <= 4 * T -> Rabs di <= 2 * M -> Rabs dj <= 2 * M -> Rabs di' <= 2 * M -> Rabs dj' <= 2 * M ->
  Rabs (di - di') <= (n + 13) * (u * M) -> Rabs (dj - dj') <= (n + 13) * (u * M) ->
  Rabs (rc n (n - 1) c (rnd (di * dj)) - (c * (n - 2) / (n - 1) + di' * dj' / n)) <= 23 * (u * T).
Proof.
  intros c di dj di' dj' Hc Bc B1 B2 B1' B2' D1 D2. pose proof M_pos as Mp. pose proof eta_small as HE.
  assert (u0 : 0 < u) by (unfold u; rewrite ur_val; lra). assert (u1 : u <= 1 / 1000) by (unfold u; rewrite ur_val; lra).
  assert (Tp : 0 < T) by (unfold T; nra). assert (HE' : eta <= u * T / 4) by (unfold T; lra).
  assert (uT : 0 < u * T) by nra.
  pose proof (prod_diff di dj di' dj' _ _ B1 B2' D1 D2) as E1.
  replace (2 * (2 * M * ((n + 13) * (u * M)))) with ((n + 13) * (u * T)) in E1 by (unfold T; ring).
  assert (BP : Rabs (di * dj) <= T).
  { rewrite Rabs_mult. replace T with (2 * M * (2 * M)) by (unfold T; ring). apply Rmult_le_compat; auto; apply Rabs_pos. }
  pose proof (rnd_error _ _ BP) as E2. fold u eta in E2.
  assert (TD : is_double T) by (rewrite T_bpow; apply bpow_double; lia).
  assert (BP' : Rabs (rnd (di * dj)) <= T) by (apply rnd_abs; auto).
  set (P := rnd (di * dj)) in *.
  assert (Hi : 0 < / n <= 1 / 2) by (apply invN; exact Hn). assert (Hi1 : 0 < / (n - 1) <= 1) by (apply (invN1 n); lra).
  assert (BA : Rabs (P / n) <= T / 2).
  { unfold Rdiv. rewrite Rabs_mult, (Rabs_pos_eq (/ n)) by lra. pose proof (Rabs_pos P). nra. }
  pose proof (rnd_error _ _ BA) as E3. fold u eta in E3.
  assert (BA' : Rabs (rnd (P / n)) <= T) by (apply rnd_abs; [exact TD|lra]).
  assert (BB : Rabs (c / (n - 1)) <= 4 * T).
  { unfold Rdiv. rewrite Rabs_mult, (Rabs_pos_eq (/ (n - 1))) by lra. pose proof (Rabs_pos c). nra. }
  pose proof (rnd_error _ _ BB) as E4. fold u eta in E4.
  assert (T4 : is_double (4 * T)) by (apply (T4_double T (2 * e + 2)); [lia|apply T_bpow]).
  assert (BB' : Rabs (rnd (c / (n - 1))) <= 4 * T) by (apply rnd_abs; [exact T4|lra]).
  assert (BI : Rabs (rnd (P / n) - rnd (c / (n - 1))) <= 5 * T) by (eapply Rle_trans; [apply Rabs_triang|]; rewrite Rabs_Ropp; lra).
  pose proof (rnd_minus_error _ _ _ (rnd_double _) (rnd_double _) BI) as E5. fold u in E5.
  pose proof (rc_bound n (n - 1) T (2 * e + 2) Hn ltac:(lra) ltac:(lia) T_bpow c P Hc Bc BP') as HR. unfold rc in *.
  set (A := rnd (P / n)) in *. set (B := rnd (c / (n - 1))) in *. set (I := rnd (A - B)) in *.
  destruct (rnd_plus c I Hc (rnd_double _)) as (e6 & He6 & E6). fold u in He6.
  assert (E6' : Rabs (rnd (c + I) - (c + I)) <= 41 / 10 * (u * T)).
  { assert (HcI : Rabs (c + I) <= 41 / 10 * T).
    { rewrite E6, Rabs_mult in HR. apply Rabs_le_inv in He6. rewrite (Rabs_pos_eq (1 + e6)) in HR by lra. pose proof (Rabs_pos (c + I)). nra. }
    rewrite E6. replace ((c + I) * (1 + e6) - (c + I)) with ((c + I) * e6) by ring. rewrite Rabs_mult.
    replace (41 / 10 * (u * T)) with (41 / 10 * T * u) by ring. apply Rmult_le_compat; auto; apply Rabs_pos. }
  assert (EP : Rabs (P / n - di' * dj' / n) <= 825 / 100 * (u * T)).
  { replace (P / n - di' * dj' / n) with ((P - di' * dj') * / n) by (field; lra). rewrite Rabs_mult, (Rabs_pos_eq (/ n)) by lra.
    assert (H : Rabs (P - di' * dj') <= (n + 29 / 2) * (u * T)).
    { replace (P - di' * dj') with ((P - di * dj) + (di * dj - di' * dj')) by ring. eapply Rle_trans; [apply Rabs_triang|]. lra. }
    apply Rle_trans with ((n + 29 / 2) * (u * T) * / n); [apply Rmult_le_compat_r; lra|].
    replace ((n + 29 / 2) * (u * T) * / n) with (u * T + 29 / 2 * (u * T) * / n) by (field; lra). nra. }
  assert (Eall : rnd (c + I) - (c * (n - 2) / (n - 1) + di' * dj' / n)
     = (rnd (c + I) - (c + I)) + (I - (A - B)) + (A - P / n) - (B - c / (n - 1)) + (P / n - di' * dj' / n)) by (field; lra).
  rewrite Eall. clear Eall. apply Rabs_le_inv in E6', E5, E4, E3, EP. apply Rabs_le. lra.
Qed.
End Error.

(** The true covariance, recursively. *)
Definition psum (f : list f64 -> R) (xs : list (list f64)) : R := fold_right Rplus 0 (map f xs).
Lemma psum_snoc : forall f xs x, psum f (xs ++ [x]) = psum f xs + f x.
Proof. intros f. induction xs as [|y xs IH]; intros x; unfold psum in *; cbn [map fold_right app] in *; [ring|rewrite IH; ring]. Qed.
Lemma psum_cov : forall i j a b xs,
  psum (fun x => (val (at_ i x) - a) * (val (at_ j x) - b)) xs
  = psum (fun x => val (at_ i x) * val (at_ j x)) xs - b * psum (fun x => val (at_ i x)) xs - a * psum (fun x => val (at_ j x)) xs + INR (length xs) * (a * b).
Proof.
  intros i j a b. induction xs as [|x xs IH]; [unfold psum; cbn; ring|].
  change (psum (fun x0 => (val (at_ i x0) - a) * (val (at_ j x0) - b)) (x :: xs)) with ((val (at_ i x) - a) * (val (at_ j x) - b) + psum (fun x => (val (at_ i x) - a) * (val (at_ j x) - b)) xs).
  rewrite IH. cbn [length]. rewrite S_INR. unfold psum. cbn [map fold_right]. ring.
Qed.
Lemma real_mean_psum : forall xs i, real_mean xs i = psum (fun x => val (at_ i x)) xs / INR (length xs).
Proof. reflexivity. Qed.
Lemma real_cov_snoc : forall xs x i j, (1 <= length xs)%nat ->
  let n := INR (length (xs ++ [x])) in
  n = INR (length xs) + 1 /\
  real_covariance (xs ++ [x]) i j
  = (INR (length xs) - 1) * real_covariance xs i j / (n - 1) + (val (at_ i x) - real_mean xs i) * (val (at_ j x) - real_mean xs j) / n.
Proof.
  intros xs x i j H n. assert (Hn : n = INR (length xs) + 1) by (unfold n; rewrite app_length, plus_INR; reflexivity).
  split; [exact Hn|]. assert (Hk : 1 <= INR (length xs)) by (apply (le_INR 1); exact H).
  unfold real_covariance. fold n.
  change (fold_right Rplus 0 (map (fun x0 => (val (at_ i x0) - real_mean (xs ++ [x]) i) * (val (at_ j x0) - real_mean (xs ++ [x]) j)) (xs ++ [x])))
    with (psum (fun x0 => (val (at_ i x0) - real_mean (xs ++ [x]) i) * (val (at_ j x0) - real_mean (xs ++ [x]) j)) (xs ++ [x])).
  change (fold_right Rplus 0 (map (fun x0 => (val (at_ i x0) - real_mean xs i) * (val (at_ j x0) - real_mean xs j)) xs))
    with (psum (fun x0 => (val (at_ i x0) - real_mean xs i) * (val (at_ j x0) - real_mean xs j)) xs).
  rewrite !psum_cov, !real_mean_psum. fold n. rewrite !psum_snoc.
  destruct (Nat.eq_dec (length xs) 1) as [E1|E1].
  - rewrite Hn. rewrite E1. change (INR 1) with 1. 
    assert (HX : exists y, xs = [y]) by (destruct xs as [|y [|]]; try discriminate; eauto). destruct HX as [y ->]. unfold psum. cbn [map fold_right].
    unfold Rdiv. generalize (/ (1 - 1)). intros z. field.
  - assert (Hk2 : 2 <= INR (length xs)) by (apply (le_INR 2); lia). rewrite Hn. field. lra.
Qed.

(** Runs of the consumer. *)
Lemma cov_run : forall G d (xs : list (list f64)) , xs <> [] -> Forall (fun x => length x = d) xs -> (N.of_nat (length xs) < 2 ^ 64)%N ->
  exists m C, run_consumer (cov_consume b64_ops) (cov_init G) xs = Ok {| cv_mean := Some m; cv_cov := C; cv_dim := d; cv_n := N.of_nat (length xs) |} /\ length m = d /\
    (forall i, (i < d)%nat -> at_ i m = fmean (map (at_ i) xs)) /\ (length xs = 1%nat -> C = G).
Proof.
  intros G d xs. induction xs as [|x xs IH] using rev_ind; intros Hne HS Hlen; [easy|]. clear Hne.
  apply Forall_snoc in HS. destruct HS as [HS Hd].
  rewrite app_length in Hlen. cbn [length] in Hlen.
  rewrite run_snoc. destruct xs as [|y ys] eqn:Ex.
  - exists x, G. split; [cbn; now rewrite Hd|]. split; [exact Hd|]. split; [intros i Hi; reflexivity|reflexivity].
  - rewrite <- Ex in *. assert (Hne : xs <> []) by (subst; discriminate).
    assert (Hp : (1 <= length xs)%nat) by (subst xs; cbn; lia). clear Ex y ys.
    destruct (IH Hne HS ltac:(lia)) as (m & C & E & Hm & Hi & _). rewrite E. cbn [bind].
    unfold cov_consume. cbn [cv_n cv_mean cv_cov cv_dim]. destruct (N.eqb_spec (N.of_nat (length xs)) 0) as [C0|_]; [lia|].
    rewrite wrap_small by (unfold two64; lia). rewrite same_size_true by congruence.
    assert (En : (N.of_nat (length xs) + 1)%N = N.of_nat (length (xs ++ [x]))) by (rewrite app_length; cbn; lia). rewrite En.
    eexists. eexists. split; [reflexivity|].
    assert (L1 : length (vop (ksub b64_ops) x m) = d) by (rewrite vop_length; congruence).
    split; [|split].
    + unfold mean_update. rewrite vop_length; [exact Hm|]. rewrite map_length. congruence.
    + intros i Hid. rewrite map_app. cbn [map]. rewrite fmean_snoc by (destruct xs; [easy|discriminate]). rewrite map_length, En, <- (Hi i Hid).
      unfold mean_update, fstep. pose proof (comp_vop b64_ops) as CV. pose proof (comp_map b64_ops) as CM. unfold comp in CV, CM. cbn [k0 b64_ops] in CV, CM.
      unfold at_. rewrite CV; [|rewrite map_length; congruence|lia]. f_equal. rewrite CM by lia. f_equal. apply CV; [congruence|lia].
    + rewrite app_length. cbn [length]. lia.
Qed.
Lemma cov_run_snoc : forall G d (xs : list (list f64)) x, xs <> [] -> Forall (fun x => length x = d) (xs ++ [x]) -> (N.of_nat (length (xs ++ [x])) < 2 ^ 64)%N ->
  exists s s', run_consumer (cov_consume b64_ops) (cov_init G) xs = Ok s /\ run_consumer (cov_consume b64_ops) (cov_init G) (xs ++ [x]) = Ok s' /\
  forall i j, (i < d)%nat -> (j < d)%nat ->
    cv_cov s' i j = fc (cv_cov s i j) (ksub b64_ops (at_ i x) (fmean (map (at_ i) xs))) (ksub b64_ops (at_ j x) (fmean (map (at_ j) xs))) (N.of_nat (length (xs ++ [x]))).
Proof.
  intros G d xs x Hne HS Hlen. apply Forall_snoc in HS. destruct HS as [HS Hd]. rewrite app_length in Hlen. cbn [length] in Hlen.
  destruct (cov_run G d xs Hne HS ltac:(lia)) as (m & C & E & Hm & Hi & _).
  eexists. rewrite run_snoc, E. cbn [bind]. unfold cov_consume. cbn [cv_n cv_mean cv_cov cv_dim].
  assert (Hp : (1 <= length xs)%nat) by (destruct xs; [easy|cbn; lia]).
  destruct (N.eqb_spec (N.of_nat (length xs)) 0) as [C0|_]; [lia|].
  rewrite wrap_small by (unfold two64; lia). rewrite same_size_true by congruence.
  assert (En : (N.of_nat (length xs) + 1)%N = N.of_nat (length (xs ++ [x]))) by (rewrite app_length; cbn; lia). rewrite En.
  eexists. split; [reflexivity|]. split; [reflexivity|]. intros i j Hid Hjd. cbn [cv_cov]. rewrite <- (Hi i Hid), <- (Hi j Hjd).
  unfold cov_entry, fc. pose proof (comp_vop b64_ops (ksub b64_ops) x m) as CV. unfold comp in *. cbn [k0 b64_ops] in CV. cbn [kconj b64_ops].
  change (k0 b64_ops) with (B754_zero false : f64).
  unfold at_. rewrite <- !CV by (congruence || lia). reflexivity.
Qed.

Definition bounded_by (d : nat) (e : Z) (xs : list (list f64)) : Prop :=
  forall x, In x xs -> length x = d /\ forall i, (i < d)%nat -> finite (at_ i x) /\ Rabs (val (at_ i x)) <= bpow radix2 e.
Lemma bb_snoc : forall d e xs x, bounded_by d e (xs ++ [x]) -> bounded_by d e xs /\ bounded_by d e [x].
Proof. intros d e xs x H. split; intros y Hy; apply H; apply in_or_app; [now left|right; exact Hy]. Qed.
Lemma bb_size : forall d e xs, bounded_by d e xs -> Forall (fun x => length x = d) xs.
Proof. intros d e xs H. apply Forall_forall. intros x Hx. now apply H. Qed.
Lemma bb_comp : forall d e xs i, (i < d)%nat -> bounded_by d e xs -> Forall (fun a => finite a /\ Rabs (val a) <= bpow radix2 e) (map (at_ i) xs).
Proof. intros d e xs i Hi H. apply Forall_map, Forall_forall. intros x Hx. now apply H. Qed.
Lemma rsum_map : forall i xs, rsum (map (at_ i) xs) = psum (fun x => val (at_ i x)) xs.
Proof. intros. unfold rsum, psum. now rewrite map_map. Qed.
Lemma bb_real_mean : forall d e xs i, (i < d)%nat -> xs <> [] -> bounded_by d e xs -> Rabs (real_mean xs i) <= bpow radix2 e.
Proof.
  intros d e xs i Hi Hne H.
  assert (HS : Rabs (psum (fun x => val (at_ i x)) xs) <= INR (length xs) * bpow radix2 e).
  { clear Hne. induction xs as [|x xs IH]; [unfold psum; cbn; rewrite Rabs_R0; lra|].
    unfold psum in *. cbn [map fold_right length]. rewrite S_INR. eapply Rle_trans; [apply Rabs_triang|].
    assert (H1 : Rabs (val (at_ i x)) <= bpow radix2 e) by (apply (H x (or_introl eq_refl)); exact Hi).
    specialize (IH (fun y Hy => H y (or_intror Hy))). lra. }
  assert (Hk : 1 <= INR (length xs)) by (apply (le_INR 1); destruct xs; [easy|cbn; lia]).
  rewrite real_mean_psum. unfold Rdiv. rewrite Rabs_mult, (Rabs_pos_eq (/ _)) by (apply Rlt_le, Rinv_0_lt_compat; lra).
  apply (Rmult_le_reg_r (INR (length xs))); [lra|]. rewrite Rmult_assoc, Rinv_l by lra. lra.
Qed.
Lemma two_pow_max : forall e, (e <= 500)%Z -> 2 * bpow radix2 e <= DBL_MAX.
Proof.
  intros e He. change 2 with (bpow radix2 1). rewrite <- bpow_plus. eapply Rle_trans; [|apply max_ge]. apply bpow_le. lia.
Qed.

Lemma delta_ok : forall d e xs x i, (e <= 500)%Z -> (-500 <= e)%Z -> (i < d)%nat -> xs <> [] -> bounded_by d e (xs ++ [x]) -> (N.of_nat (length (xs ++ [x])) < 2 ^ 64)%N ->
  let m := fmean (map (at_ i) xs) in let a := at_ i x in let M := bpow radix2 e in
  finite m /\ Rabs (val m) <= M /\ finite a /\ Rabs (val a) <= M /\ finite (ksub b64_ops a m) /\ val (ksub b64_ops a m) = rnd (val a - val m) /\ Rabs (val (ksub b64_ops a m)) <= 2 * M.
Proof.
  intros d e xs x i He He' Hi Hne HB Hlen m a M. apply bb_snoc in HB. destruct HB as [HB Hx].
  destruct (Hx x (or_introl eq_refl)) as [_ Hx']. destruct (Hx' i Hi) as [Fa Ba]. fold a in Fa, Ba.
  pose proof (bb_comp d e xs i Hi HB) as HC. rewrite app_length in Hlen. cbn in Hlen.
  pose proof (two_pow_max e He) as H2. 
  destruct (fmean_range (- M) M (map (at_ i) xs)) as [Fm Bm].
  - destruct xs; [easy|discriminate].
  - rewrite map_length. lia.
  - eapply Forall_impl; [|exact HC]. intros b [H1 H3]. split; [exact H1|]. apply Rabs_le_inv in H3. exact H3.
  - unfold M. lra.
  - fold m in Fm, Bm. pose proof (Rabs_le_inv _ _ Ba) as Ba'. fold M in Ba', H2.
    assert (HD : Rabs (val a - val m) <= 2 * M) by (apply Rabs_le; lra).
    destruct (sub_ok a m Fa Fm) as [F V]; [lra|].
    split; [exact Fm|]. split; [apply Rabs_le; lra|]. split; [exact Fa|]. split; [exact Ba|]. split; [exact F|]. split; [exact V|].
    rewrite V. apply rnd_abs; [|exact HD]. unfold M. change 2 with (bpow radix2 1). rewrite <- bpow_plus. apply bpow_double. lia.
Qed.

Definition garbage_ok (e : Z) (g : f64) : Prop := finite g /\ Rabs (val g) <= bpow radix2 (2 * e + 4).

Lemma cov_float : forall G d e (xs : list (list f64)), (-500 <= e <= 500)%Z -> xs <> [] -> bounded_by d e xs -> (N.of_nat (length xs) < 2 ^ 64)%N ->
  exists s, run_consumer (cov_consume b64_ops) (cov_init G) xs = Ok s /\ cv_dim s = d /\
  forall i j, (i < d)%nat -> (j < d)%nat -> garbage_ok e (G i j) ->
    finite (cv_cov s i j) /\ Rabs (val (cv_cov s i j)) <= bpow radix2 (2 * e + 4) /\
    ((2 <= length xs)%nat -> i = j -> 0 <= val (cv_cov s i j)) /\
    ((2 <= length xs)%nat -> (N.of_nat (length xs) <= 2 ^ 53)%N ->
       Rabs (val (cv_cov s i j) - real_covariance xs i j) <= 46 * INR (length xs) * (unit_roundoff * (bpow radix2 e * bpow radix2 e))).
Proof.
  intros G d e xs He. induction xs as [|x xs IH] using rev_ind; intros Hne HB Hlen; [easy|]. clear Hne.
  assert (HD : xs = [] \/ xs <> []) by (destruct xs; [left; reflexivity|right; discriminate]).
  pose proof (bb_snoc _ _ _ _ HB) as [HB1 HB2]. destruct HD as [->|Hne].
  { exists {| cv_mean := Some x; cv_cov := G; cv_dim := length x; cv_n := 1 |}. split; [reflexivity|]. split; [cbn; apply (HB2 x (or_introl eq_refl))|].
    intros i j Hi Hj [G1 G2]. cbn [cv_cov]. split; [exact G1|]. split; [exact G2|]. split; intros HH; cbn in HH; lia. }
  assert (Hl : (N.of_nat (length xs) < 2 ^ 64)%N) by (rewrite app_length in Hlen; cbn in Hlen; lia).
  assert (Hp : (1 <= length xs)%nat) by (destruct xs; [easy|cbn; lia]).
  destruct (IH Hne HB1 Hl) as (s0 & E0 & Hd0 & H0). clear IH.
  destruct (cov_run_snoc G d xs x Hne (bb_size _ _ _ HB) Hlen) as (s & s' & E & E' & HS).
  rewrite E0 in E. injection E as <-.
  destruct (cov_run G d (xs ++ [x]) ltac:(destruct xs; discriminate) (bb_size _ _ _ HB) Hlen) as (m' & C' & E'' & _).
  assert (Hd' : cv_dim s' = d). { rewrite E'' in E'. injection E' as <-. reflexivity. }
  exists s'. split; [exact E'|]. split; [exact Hd'|]. intros i j Hi Hj HG. rewrite (HS i j Hi Hj). clear HS.
  destruct (H0 i j Hi Hj HG) as (F0 & B0 & P0 & A0). clear H0.
  set (n := N.of_nat (length (xs ++ [x]))) in *.
  assert (Hn : (2 <= n < 2 ^ 64)%N) by (unfold n in *; rewrite app_length in *; cbn in *; lia).
  destruct (delta_ok d e xs x i ltac:(lia) ltac:(lia) Hi Hne HB Hlen) as (Fmi & Bmi & Fai & Bai & Fdi & Vdi & Bdi).
  destruct (delta_ok d e xs x j ltac:(lia) ltac:(lia) Hj Hne HB Hlen) as (Fmj & Bmj & Faj & Baj & Fdj & Vdj & Bdj).
  set (di := ksub b64_ops (at_ i x) (fmean (map (at_ i) xs))) in *. set (dj := ksub b64_ops (at_ j x) (fmean (map (at_ j) xs))) in *.
  set (c := cv_cov s0 i j) in *. set (M := bpow radix2 e) in *.
  assert (Mp : 0 < M) by apply bpow_gt_0.
  assert (ET : bpow radix2 (2 * e + 2) = 4 * (M * M)) by (unfold M; change 4 with (bpow radix2 2); rewrite <- !bpow_plus; f_equal; lia).
  assert (ET4 : bpow radix2 (2 * e + 4) = 4 * bpow radix2 (2 * e + 2)) by (change 4 with (bpow radix2 2); rewrite <- !bpow_plus; f_equal; lia).
  rewrite ET4 in B0.
  assert (BP : Rabs (val di * val dj) <= bpow radix2 (2 * e + 2)).
  { rewrite ET, Rabs_mult. replace (4 * (M * M)) with (2 * M * (2 * M)) by ring. apply Rmult_le_compat; auto; apply Rabs_pos. }
  destruct (fc_ok c di dj n (2 * e + 2) F0 Fdi Fdj Hn ltac:(lia) B0 BP) as (F & V & B & N2 & N1).
  split; [exact F|]. split; [rewrite ET4; exact B|]. split.
  - intros _ ->. rewrite V. apply rc_nonneg; auto.
    + apply val_double.
    + apply rnd_ge; [apply generic_format_0|]. assert (Edd : di = dj) by reflexivity. rewrite Edd. nra.
    + destruct (Nat.eq_dec (length xs) 1) as [E1|E1].
      * right. replace n with 2%N by (unfold n; rewrite app_length; cbn; lia). rewrite ofN_exact by lia.
        change (IZR (Z.of_N 2)) with 2. replace (2 - 1) with 1 by ring. apply rnd_id. change 1 with (bpow radix2 0). apply bpow_double. lia.
      * left. apply P0; [lia|reflexivity].
  - intros _ H53. rewrite V. destruct (real_cov_snoc xs x i j Hp) as [En Ec]. set (k := INR (length xs)) in *.
    assert (Hk : 1 <= k) by (apply (le_INR 1); exact Hp).
    assert (Enn : val (kofN b64_ops n) = k + 1).
    { rewrite ofN_exact by exact H53. rewrite <- En. rewrite INR_IZR_INZ. f_equal. unfold n. lia. }
    rewrite Enn in *. 
    assert (En1 : rnd (k + 1 - 1) = k).
    { replace (k + 1 - 1) with k by ring. apply rnd_id. unfold k. rewrite INR_IZR_INZ. rewrite <- nat_N_Z. apply int_double. unfold n in H53. rewrite app_length in H53. cbn [length] in H53. lia. }
    rewrite En1 in *.
    assert (HME : forall l, (l < d)%nat -> Rabs (val (fmean (map (at_ l) xs)) - real_mean xs l) <= (k + 1 + 11) * (unit_roundoff * M)).
    { intros l Hld. pose proof (fmean_error' M (map (at_ l) xs) ltac:(destruct xs; [easy|discriminate])) as HF.
      rewrite map_length in HF. specialize (HF ltac:(unfold n in H53; rewrite app_length in H53; cbn [length] in H53; lia) (bb_comp d e xs l Hld HB1) (two_pow_max e ltac:(lia))).
      rewrite rsum_map in HF. change (psum (fun x => val (at_ l x)) xs / INR (length xs)) with (real_mean xs l) in HF. fold k in HF.
      eapply Rle_trans; [exact HF|]. pose proof (eta_small1 M e eq_refl He) as HE.
      assert (u0 : 0 < unit_roundoff * M) by (apply Rmult_lt_0_compat; [rewrite ur_val; lra|exact Mp]).
      apply Rle_trans with ((k / 2 + 6) * (2 * (unit_roundoff * M))); [apply Rmult_le_compat_l; lra|]. lra. }
    destruct (delta_error (k + 1) M e eq_refl He _ _ _ (val_double (fmean (map (at_ i) xs))) (val_double (at_ i x)) Bmi Bai (HME i Hi)) as [_ Di].
    destruct (delta_error (k + 1) M e eq_refl He _ _ _ (val_double (fmean (map (at_ j) xs))) (val_double (at_ j x)) Bmj Baj (HME j Hj)) as [_ Dj].
    rewrite <- Vdi in Di. rewrite <- Vdj in Dj.
    assert (BD : forall l, (l < d)%nat -> Rabs (val (at_ l x)) <= M -> Rabs (val (at_ l x) - real_mean xs l) <= 2 * M).
    { intros l Hld HA. pose proof (bb_real_mean d e xs l Hld Hne HB1) as HR. fold M in HR. apply Rabs_le_inv in HA. apply Rabs_le_inv in HR. apply Rabs_le. lra. }
    pose proof (rc_error (k + 1) M e ltac:(lra) eq_refl He (val c) (val di) (val dj) _ _ (val_double c) ltac:(rewrite <- ET; exact B0) Bdi Bdj (BD i Hi Bai) (BD j Hj Baj) Di Dj) as HE.
    replace (k + 1 - 1) with k in HE by ring. replace (k + 1 - 2) with (k - 1) in HE by ring.
    rewrite Ec, En. replace (k + 1 - 1) with k by ring.
    set (w := rc (k + 1) k (val c) (rnd (val di * val dj))) in *. set (p := (val (at_ i x) - real_mean xs i) * (val (at_ j x) - real_mean xs j) / (k + 1)) in *.
    set (U := unit_roundoff * (M * M)) in *.
    assert (U0 : 0 < U) by (apply Rmult_lt_0_compat; [rewrite ur_val; lra|nra]).
    replace (23 * (unit_roundoff * (4 * (M * M)))) with (92 * U) in HE by (unfold U; ring).
    assert (HA : (k - 1) * Rabs (val c - real_covariance xs i j) <= (k - 1) * (46 * k * U)).
    { destruct (Nat.eq_dec (length xs) 1) as [E1|E1].
      - unfold k. rewrite E1. change (INR 1) with 1. lra.
      - apply Rmult_le_compat_l; [lra|]. apply A0; [lia|]. unfold n in H53. rewrite app_length in H53. cbn [length] in H53. lia. }
    replace (w - ((k - 1) * real_covariance xs i j / k + p)) with ((w - (val c * (k - 1) / k + p)) + (k - 1) * (val c - real_covariance xs i j) * / k) by (field; lra).
    assert (Hik : 0 < / k) by (apply Rinv_0_lt_compat; lra).
    eapply Rle_trans; [apply Rabs_triang|]. rewrite !Rabs_mult, (Rabs_pos_eq (/ k)), (Rabs_pos_eq (k - 1)) by lra.
    assert (HB' : (k - 1) * Rabs (val c - real_covariance xs i j) * / k <= (k - 1) * (46 * k * U) * / k) by (apply Rmult_le_compat_r; lra).
    replace ((k - 1) * (46 * k * U) * / k) with ((k - 1) * (46 * U)) in HB' by (field; lra). lra.
Qed.
