(** AverageCosineBetweenSuccessiveSamples in double arithmetic: error analysis. *)
From Coq Require Import Reals ZArith Lra Lia Psatz.
From Flocq Require Import Core BinarySingleNaN Relative.
From Verif Require Import Prelude ConsumerModel StatsModel HistFloat FloatSpec FloatBase FloatMean StatsCosSpec StatsCosProofs FCosModel FCosSpec FCosRun.
Local Open Scope R_scope.
Local Notation length := List.length.
Local Notation u := unit_roundoff.
Local Notation eta := half_denorm_min.

Lemma u_val : u = / 9007199254740992. Proof. reflexivity. Qed.
Lemma u_pos : 0 < u. Proof. rewrite u_val. lra. Qed.
Lemma eta_pos : 0 < eta. Proof. apply bpow_gt_0. Qed.
Lemma eta_u : eta <= u * / 1000. 
Proof. unfold eta. rewrite u_val. apply Rle_trans with (bpow radix2 (-64)); [apply bpow_le; lia|]. change (bpow radix2 (-64)) with (/ 18446744073709551616). lra. Qed.
Definition D20 : nat := N.to_nat (2 ^ 20).
Lemma D20_val : INR D20 = 1048576.
Proof. unfold D20. rewrite INR_IZR_INZ, N_nat_Z. reflexivity. Qed.

(** Powers of 1+u. *)
Lemma g_bound2 k : INR k <= 2097152 -> (1 + u) ^ k <= 1 + INR k * u + INR k * INR k * (u * u).
Proof.
  pose proof u_pos as Hu. induction k as [|k IH]; intros Hk; [cbn; lra|]. rewrite S_INR in *. specialize (IH ltac:(lra)). cbn [pow]. pose proof (pos_INR k) as P. set (x := INR k) in *.
  assert (H1 : x * u <= 1) by (rewrite u_val; lra). apply Rle_trans with ((1 + u) * (1 + x * u + x * x * (u * u))); [apply Rmult_le_compat_l; lra|].
  assert (H2 : x * x * u * (u * u) <= x * (u * u)).
  { replace (x * x * u * (u * u)) with ((x * (x * u)) * (u * u)) by ring. apply Rmult_le_compat_r; [nra|]. apply Rle_trans with (x * 1); [apply Rmult_le_compat_l; lra|lra]. }
  assert (0 <= u * u) by nra. nra.
Qed.
Lemma g_bound k : INR k <= 2097152 -> (1 + u) ^ k <= 1 + (INR k + 1) * u.
Proof.
  intros Hk. pose proof (g_bound2 k Hk) as H. pose proof u_pos as Hu. pose proof (pos_INR k) as P. set (x := INR k) in *.
  assert (H1 : x * x * u <= 1). { apply Rle_trans with (2097152 * 2097152 * u); [apply Rmult_le_compat_r; [lra|nra]|rewrite u_val; lra]. }
  assert (x * x * (u * u) <= 1 * u) by (rewrite <- Rmult_assoc; apply Rmult_le_compat_r; lra). lra.
Qed.
Lemma g_ge1 k : 1 <= (1 + u) ^ k.
Proof. apply pow_R1_Rle. pose proof u_pos. lra. Qed.

(** The loop that sums up products. *)
Definition fdot (l : list (f64 * f64)) : f64 := fold_left (fun s p => kadd b64_ops s (kmul b64_ops (fst p) (snd p))) l (B754_zero false).
Fixpoint sdot (l : list (f64 * f64)) : R := match l with [] => 0 | p :: r => val (fst p) * val (snd p) + sdot r end.
Fixpoint adot (l : list (f64 * f64)) : R := match l with [] => 0 | p :: r => Rabs (val (fst p) * val (snd p)) + adot r end.
Lemma sdot_snoc l p : sdot (l ++ [p]) = sdot l + val (fst p) * val (snd p).
Proof. induction l as [|q l IH]; cbn; [ring|]. rewrite IH. ring. Qed.
Lemma adot_snoc l p : adot (l ++ [p]) = adot l + Rabs (val (fst p) * val (snd p)).
Proof. induction l as [|q l IH]; cbn; [ring|]. rewrite IH. ring. Qed.
Lemma adot_nonneg l : 0 <= adot l.
Proof. induction l as [|q l IH]; cbn; [lra|]. pose proof (Rabs_pos (val (fst q) * val (snd q))). lra. Qed.
Lemma sdot_adot l : Rabs (sdot l) <= adot l.
Proof. induction l as [|q l IH]; cbn; [rewrite Rabs_R0; lra|]. eapply Rle_trans; [apply Rabs_triang|]. lra. Qed.
Definition big : R := bpow radix2 1000.
Lemma big_max : 100 * big <= DBL_MAX.
Proof.
  apply Rle_trans with (bpow radix2 1023); [|apply max_ge]. unfold big. replace (bpow radix2 1023) with (bpow radix2 23 * bpow radix2 1000) by (rewrite <- bpow_plus; reflexivity).
  apply Rmult_le_compat_r; [apply bpow_ge_0|]. change (bpow radix2 23) with 8388608. lra.
Qed.
Lemma big_1 : 1 <= big. Proof. unfold big. change 1 with (bpow radix2 0). apply bpow_le. lia. Qed.

Lemma step_sum k A p s sh th : 0 <= k -> 0 <= A -> forall G, 1 <= G -> Rabs s <= A -> Rabs (sh - s) <= (G * (1 + u) - 1) * A + k * G * eta -> Rabs (th - p) <= u * Rabs p + eta ->
  forall e, Rabs e <= u -> Rabs ((sh + th) * (1 + e) - (s + p)) <= (G * (1 + u) * (1 + u) - 1) * (A + Rabs p) + (k + 1) * (G * (1 + u)) * eta.
Proof.
  intros Hk HA G HG Hs Hsh Hth e He. pose proof u_pos as Hu. pose proof eta_pos as Ht.
  replace ((sh + th) * (1 + e) - (s + p)) with (((sh - s) + (th - p)) * (1 + e) + (s + p) * e) by ring.
  eapply Rle_trans; [apply Rabs_triang|]. rewrite !Rabs_mult.
  assert (H1 : Rabs (1 + e) <= 1 + u) by (eapply Rle_trans; [apply Rabs_triang|]; rewrite Rabs_R1; lra).
  assert (H2 : Rabs (sh - s + (th - p)) <= (G * (1 + u) - 1) * A + k * G * eta + (u * Rabs p + eta)) by (eapply Rle_trans; [apply Rabs_triang|]; lra).
  assert (H3 : Rabs (s + p) <= A + Rabs p) by (eapply Rle_trans; [apply Rabs_triang|]; lra).
  pose proof (Rabs_pos p) as Pp. set (q := Rabs p) in *.
  assert (P2 : 0 <= (G * (1 + u) - 1) * A + k * G * eta + (u * q + eta)) by (eapply Rle_trans; [apply Rabs_pos|exact H2]).
  apply Rle_trans with (((G * (1 + u) - 1) * A + k * G * eta + (u * q + eta)) * (1 + u) + (A + q) * u).
  { apply Rplus_le_compat; apply Rmult_le_compat; try apply Rabs_pos; assumption. }
  assert (K1 : (1 + u) * u * q + u * q <= (G * (1 + u) * (1 + u) - 1) * q).
  { rewrite <- Rmult_plus_distr_r. apply Rmult_le_compat_r; [exact Pp|]. assert (1 * (1 + u) * (1 + u) <= G * (1 + u) * (1 + u)) by (apply Rmult_le_compat_r; [lra|]; apply Rmult_le_compat_r; lra). lra. }
  assert (K2 : eta * (1 + u) <= G * (1 + u) * eta) by (rewrite (Rmult_comm eta); apply Rmult_le_compat_r; [lra|]; rewrite <- (Rmult_1_l (1 + u)) at 1; apply Rmult_le_compat_r; lra).
  lra.
Qed.

Lemma fdot_err l : Forall (fun p => finite (fst p) /\ finite (snd p)) l -> adot l <= big -> INR (length l) <= 1048576 ->
  finite (fdot l) /\ Rabs (val (fdot l) - sdot l) <= ((1 + u) ^ (length l) * (1 + u) - 1) * adot l + INR (length l) * (1 + u) ^ (length l) * eta.
Proof.
  pose proof u_pos as Hu. pose proof eta_pos as Ht. pose proof eta_u as Hue. pose proof big_max as HB. pose proof big_1 as HB1.
  induction l as [|p l IH] using rev_ind; intros HF HA Hl.
  - cbn. split; [reflexivity|]. unfold val. cbn. rewrite !Rmult_0_l, Rmult_0_r, Rminus_0_r, Rabs_R0. lra.
  - apply Forall_snoc in HF. destruct HF as [HF [F1 F2]]. rewrite adot_snoc in HA. rewrite app_length in *. cbn [length] in *. rewrite plus_INR in *. cbn [INR] in *.
    pose proof (Rabs_pos (val (fst p) * val (snd p))) as Pp. pose proof (adot_nonneg l) as PA. destruct (IH HF ltac:(lra) ltac:(lra)) as [FS ES]. clear IH.
    unfold fdot. rewrite fold_left_app. cbn [fold_left]. fold (fdot l).
    destruct (mul_ok (fst p) (snd p) F1 F2) as [FT VT]; [lra|]. destruct (rnd_any (val (fst p) * val (snd p))) as (e1 & h1 & He1 & Hh1 & E1). rewrite E1 in VT.
    set (pp := val (fst p) * val (snd p)) in *. set (t := kmul b64_ops (fst p) (snd p)) in *. set (k := length l) in *. pose proof (pos_INR k) as Pk. pose proof (g_ge1 k) as G1. pose proof (g_bound k ltac:(lra)) as G2.
    assert (ET : Rabs (val t - pp) <= u * Rabs pp + eta).
    { rewrite VT. replace (pp * (1 + e1) + h1 - pp) with (e1 * pp + h1) by ring. eapply Rle_trans; [apply Rabs_triang|]. rewrite Rabs_mult. apply Rplus_le_compat; [apply Rmult_le_compat_r; lra|exact Hh1]. }
    pose proof (sdot_adot l) as HS.
    assert (G3 : (1 + u) ^ k <= 2) by (assert ((INR k + 1) * u <= 1) by (rewrite u_val; lra); lra).
    assert (Bs : Rabs (val (fdot l)) <= 10 * big).
    { replace (val (fdot l)) with ((val (fdot l) - sdot l) + sdot l) by ring. eapply Rle_trans; [apply Rabs_triang|].
      assert (((1 + u) ^ k * (1 + u) - 1) * adot l <= 3 * big).
      { apply Rmult_le_compat; try lra; [|]. - assert (1 * 1 <= (1 + u) ^ k * (1 + u)) by (apply Rmult_le_compat; lra). lra. - assert ((1 + u) ^ k * (1 + u) <= 2 * 2) by (apply Rmult_le_compat; [lra|lra|lra|rewrite u_val; lra]). lra. }
      assert (INR k * (1 + u) ^ k * eta <= 1).
      { apply Rle_trans with (1048576 * 2 * eta); [apply Rmult_le_compat_r; [lra|]; apply Rmult_le_compat; lra|]. apply Rle_trans with (1048576 * 2 * (u * / 1000)); [apply Rmult_le_compat_l; lra|rewrite u_val; lra]. }
      lra. }
    assert (Bt : Rabs (val t) <= 10 * big).
    { replace (val t) with ((val t - pp) + pp) by ring. eapply Rle_trans; [apply Rabs_triang|].
      assert (u * Rabs pp <= 1 * big) by (apply Rmult_le_compat; [lra|lra|rewrite u_val; lra|lra]). assert (eta <= 1) by (rewrite u_val in Hue; lra). lra. }
    destruct (add_ok (fdot l) t FS FT) as [FR VR]; [eapply Rle_trans; [apply Rabs_triang|]; lra|]. split; [exact FR|].
    rewrite VR. destruct (rnd_plus _ _ (val_double (fdot l)) (val_double t)) as (e & He & ->). rewrite sdot_snoc, adot_snoc. fold pp.
    rewrite Nat.add_1_r. cbn [pow]. rewrite (Rmult_comm (1 + u) ((1 + u) ^ k)).
    apply (step_sum (INR k) (adot l) pp (sdot l) (val (fdot l)) (val t)); assumption.
Qed.

(** The same with simple constants. *)
Lemma fdot_err2 l (P : R) : Forall (fun p => finite (fst p) /\ finite (snd p)) l -> adot l <= P -> P <= big -> bpow radix2 (-1000) <= P -> INR (length l) <= 1048576 ->
  finite (fdot l) /\ Rabs (val (fdot l) - sdot l) <= (INR (length l) + 3) * u * P.
Proof.
  intros HF HA HP Hlo Hl. pose proof u_pos as Hu. pose proof eta_pos as Ht. destruct (fdot_err l HF ltac:(lra) Hl) as [F E]. split; [exact F|]. eapply Rle_trans; [exact E|].
  set (k := length l) in *. pose proof (pos_INR k) as Pk. pose proof (g_bound (S k)) as G1. rewrite S_INR in G1. specialize (G1 ltac:(lra)). cbn [pow] in G1. rewrite Rmult_comm in G1. pose proof (g_bound k ltac:(lra)) as G2.
  pose proof (adot_nonneg l) as PA. pose proof (g_ge1 k) as G0.
  assert (H1 : ((1 + u) ^ k * (1 + u) - 1) * adot l <= (INR k + 2) * u * P).
  { apply Rmult_le_compat; try lra. assert (1 * 1 <= (1 + u) ^ k * (1 + u)) by (apply Rmult_le_compat; lra). lra. }
  assert (H2 : INR k * (1 + u) ^ k * eta <= u * P).
  { apply Rle_trans with (1048576 * 2 * eta).
    - apply Rmult_le_compat_r; [lra|]. apply Rmult_le_compat; try lra. assert ((INR k + 1) * u <= 1) by (rewrite u_val; lra). lra.
    - apply Rle_trans with (u * bpow radix2 (-1000)); [|apply Rmult_le_compat_l; lra]. replace (1048576 * 2) with (bpow radix2 21) by (cbn; lra). unfold eta, u. rewrite <- !bpow_plus. apply bpow_le. lia. }
  lra.
Qed.

(** Pure arithmetic: the effect of the relative errors. *)
Lemma sqrt_near g z : 0 <= g <= / 1000 -> forall t1 t2 e1 e2, Rabs t1 <= g -> Rabs t2 <= g -> Rabs e1 <= u -> Rabs e2 <= u -> z = (1 + t1) * (1 + t2) * (1 + e1) -> Rabs (sqrt z * (1 + e2) - 1) <= g + 3 * u.
Proof.
  intros Hg t1 t2 e1 e2 H1 H2 H3 H4 ->. pose proof u_pos as Hu. assert (Hu' : u <= / 1000) by (rewrite u_val; lra).
  apply Rabs_le_inv in H1. apply Rabs_le_inv in H2. apply Rabs_le_inv in H3. apply Rabs_le_inv in H4.
  set (z := (1 + t1) * (1 + t2) * (1 + e1)).
  assert (Up : sqrt z <= (1 + g) * (1 + u)).
  { rewrite <- (sqrt_square ((1 + g) * (1 + u))) by nra. apply sqrt_le_1_alt. unfold z. apply Rle_trans with ((1 + g) * (1 + g) * (1 + u)).
    - apply Rmult_le_compat; [nra|lra| |lra]. apply Rmult_le_compat; lra.
    - replace ((1 + g) * (1 + u) * ((1 + g) * (1 + u))) with ((1 + g) * (1 + g) * (1 + u) * (1 + u)) by ring. assert (0 <= (1 + g) * (1 + g) * (1 + u)) by nra. nra. }
  assert (Lo : (1 - g) * (1 - u) <= sqrt z).
  { rewrite <- (sqrt_square ((1 - g) * (1 - u))) by nra. apply sqrt_le_1_alt. unfold z. apply Rle_trans with ((1 - g) * (1 - g) * (1 - u)).
    - replace ((1 - g) * (1 - u) * ((1 - g) * (1 - u))) with ((1 - g) * (1 - g) * (1 - u) * (1 - u)) by ring. assert (0 <= (1 - g) * (1 - g) * (1 - u)) by (apply Rmult_le_pos; nra). nra.
    - apply Rmult_le_compat; [nra|lra| |lra]. apply Rmult_le_compat; lra. }
  set (s := sqrt z) in *.
  assert (U1 : s * (1 + e2) <= (1 + g) * (1 + u) * (1 + u)) by (apply Rmult_le_compat; [|lra|exact Up|lra]; apply Rle_trans with ((1 - g) * (1 - u)); [nra|exact Lo]).
  assert (L1 : (1 - g) * (1 - u) * (1 - u) <= s * (1 + e2)) by (apply Rmult_le_compat; [nra|lra|exact Lo|lra]).
  apply Rabs_le. split.
  - assert (1 - g - 2 * u <= (1 - g) * (1 - u) * (1 - u)); [|lra]. assert (0 <= g * u) by nra. assert (0 <= u * u * (1 - g)) by (apply Rmult_le_pos; nra). lra.
  - assert ((1 + g) * (1 + u) * (1 + u) <= 1 + g + 3 * u); [|lra]. assert (u * u <= u * / 1000) by (apply Rmult_le_compat_l; lra). assert (g * u <= / 1000 * u) by (apply Rmult_le_compat_r; lra). assert (g * (u * u) <= / 1000 * (u * / 1000)) by (apply Rmult_le_compat; nra). lra.
Qed.

Lemma quotient_near g c e rho e3 h : 3 * u <= g -> g <= 1048579 * u -> Rabs c <= 1 -> Rabs e <= g -> Rabs (rho - 1) <= g + 3 * u -> Rabs e3 <= u -> Rabs h <= eta -> Rabs ((c + e) / rho * (1 + e3) + h - c) <= 2 * g + 5 * u.
Proof.
  intros Hg1 Hg2 Hc He Hr H3 Hh. pose proof u_pos as Hu. pose proof eta_u as Ht.
  assert (Hg : g <= / 1000000000) by (eapply Rle_trans; [exact Hg2|]; rewrite u_val; lra).
  assert (Hr' : 1 - g - 3 * u <= rho) by (apply Rabs_le_inv in Hr; lra). assert (Hrp : 0 < rho) by (assert (u <= / 1000) by (rewrite u_val; lra); lra).
  replace ((c + e) / rho * (1 + e3) + h - c) with ((c * (1 - rho) + c * e3 + e * (1 + e3)) / rho + h) by (field; lra).
  eapply Rle_trans; [apply Rabs_triang|]. unfold Rdiv. rewrite Rabs_mult, (Rabs_right (/ rho)) by (apply Rle_ge, Rlt_le, Rinv_0_lt_compat, Hrp).
  assert (N : Rabs (c * (1 - rho) + c * e3 + e * (1 + e3)) <= (g + 3 * u) + u + g * (1 + u)).
  { eapply Rle_trans; [apply Rabs_triang|]. apply Rplus_le_compat; [eapply Rle_trans; [apply Rabs_triang|]; apply Rplus_le_compat|].
    - rewrite Rabs_mult, (Rabs_minus_sym 1 rho). rewrite <- (Rmult_1_l (g + 3 * u)). apply Rmult_le_compat; try apply Rabs_pos; assumption.
    - rewrite Rabs_mult. rewrite <- (Rmult_1_l u). apply Rmult_le_compat; try apply Rabs_pos; assumption.
    - rewrite Rabs_mult. apply Rmult_le_compat; try apply Rabs_pos; [exact He|]. eapply Rle_trans; [apply Rabs_triang|]. rewrite Rabs_R1. lra. }
  assert (Q : Rabs (c * (1 - rho) + c * e3 + e * (1 + e3)) * / rho <= 2 * g + 49 / 10 * u).
  { apply (Rmult_le_reg_r rho); [exact Hrp|]. rewrite Rmult_assoc, Rinv_l, Rmult_1_r by lra. eapply Rle_trans; [exact N|].
    apply Rle_trans with ((2 * g + 49 / 10 * u) * (1 - g - 3 * u)); [|apply Rmult_le_compat_l; lra].
    assert (gg : g * g <= / 1000000000 * (1048579 * u)) by (apply Rmult_le_compat; lra). assert (gu : g * u <= / 1000000000 * u) by (apply Rmult_le_compat_r; lra). assert (uu : u * u <= / 1000000000 * u) by (apply Rmult_le_compat_r; [lra|rewrite u_val; lra]).
    replace ((2 * g + 49 / 10 * u) * (1 - g - 3 * u)) with (2 * g + 49 / 10 * u - (2 * (g * g) + 6 * (g * u) + 49 / 10 * (g * u) + 147 / 10 * (u * u))) by field. lra. }
  lra.
Qed.

(** Rounding numbers that are not too small. *)
Lemma rnd_normal x : bpow radix2 (-1022) <= Rabs x -> exists e, Rabs e <= u /\ rnd x = x * (1 + e).
Proof.
  intros H. destruct (relative_error_N_FLT_ex radix2 (-1074) 53 ltac:(reflexivity) (fun z => negb (Z.even z)) x H) as (e & He & E). exists e. split; [|exact E].
  eapply Rle_trans; [exact He|]. rewrite u_val. change (bpow radix2 (-(53) + 1)) with (/ 4503599627370496). lra.
Qed.
Lemma sqrt_ok x : finite x -> 0 < val x -> finite (bsqrt x) /\ val (bsqrt x) = rnd (sqrt (val x)).
Proof.
  intros F H. unfold bsqrt. destruct (Bsqrt_correct 53 1024 _ _ mode_NE x) as (E & F2 & _). split; [|exact E]. unfold finite. rewrite F2. unfold val in H. destruct x as [s|s| |s m e He]; try discriminate; [reflexivity|].
  destruct s; [|reflexivity]. exfalso. cbn in H. assert (A : F2R (Float radix2 (Z.neg m) e) < 0) by now apply F2R_lt_0. lra.
Qed.

Lemma sdot_inner x y : sdot (combine x y) = inner (map val x) (map val y).
Proof. revert y. induction x as [|a x IH]; intros [|b y]; cbn; try reflexivity. now rewrite IH. Qed.
Lemma adot_inner x y : adot (combine x y) = inner (map Rabs (map val x)) (map Rabs (map val y)).
Proof. revert y. induction x as [|a x IH]; intros [|b y]; cbn; try reflexivity. now rewrite IH, Rabs_mult. Qed.
Lemma inner_abs a : inner (map Rabs a) (map Rabs a) = inner a a.
Proof. induction a as [|x a IH]; cbn; [reflexivity|]. rewrite IH. f_equal. rewrite <- Rabs_mult. apply Rabs_right. nra. Qed.
Lemma norm_nonzero a : 0 < norm a -> nonzero a.
Proof.
  unfold norm, nonzero. intros H. induction a as [|x a IH]; [cbn in H; rewrite sqrt_0 in H; lra|]. destruct (Req_dec x 0) as [->|N]; [|now left]. right. apply IH. cbn in H. now rewrite Rmult_0_l, Rplus_0_l in H.
Qed.
Lemma norm_sq a : norm a * norm a = inner a a.
Proof. apply sqrt_sqrt, inner_nonneg. Qed.
Lemma adot_norm x y : length x = length y -> 0 < norm (map val y) -> adot (combine x y) <= norm (map val x) * norm (map val y).
Proof.
  intros Hl Hy. rewrite adot_inner. unfold norm. rewrite <- sqrt_mult by apply inner_nonneg. rewrite <- (sqrt_Rsqr (inner (map Rabs (map val x)) (map Rabs (map val y)))).
  - apply sqrt_le_1_alt. rewrite <- (inner_abs (map val x)), <- (inner_abs (map val y)). apply cauchy; [now rewrite !map_length|]. apply norm_nonzero in Hy. clear - Hy. unfold nonzero in *. induction Hy as [a l H|a l H IH]; cbn; [left; now apply Rabs_no_R0|now right].
  - rewrite <- adot_inner. apply adot_nonneg.
Qed.
Lemma adot_self x : adot (combine x x) = inner (map val x) (map val x).
Proof. rewrite adot_inner. apply inner_abs. Qed.
Lemma combine_finite x y : Forall finite x -> Forall finite y -> Forall (fun p : f64 * f64 => finite (fst p) /\ finite (snd p)) (combine x y).
Proof. intros Hx. revert y. induction Hx as [|a x Ha Hx IH]; intros y Hy; [constructor|]. destruct Hy as [|b y Hb Hy]; constructor; [now split|now apply IH]. Qed.


Lemma gdot_fdot x y : gdot b64_ops x y = fdot (combine x y).
Proof. reflexivity. Qed.
Lemma sq_bounds a : bpow radix2 (-250) <= a <= bpow radix2 250 -> forall b, bpow radix2 (-250) <= b <= bpow radix2 250 -> bpow radix2 (-500) <= a * b <= bpow radix2 500.
Proof.
  intros Ha b Hb. pose proof (bpow_gt_0 radix2 (-250)). split.
  - replace (bpow radix2 (-500)) with (bpow radix2 (-250) * bpow radix2 (-250)) by (rewrite <- bpow_plus; reflexivity). apply Rmult_le_compat; lra.
  - replace (bpow radix2 500) with (bpow radix2 250 * bpow radix2 250) by (rewrite <- bpow_plus; reflexivity). apply Rmult_le_compat; lra.
Qed.
Lemma rel_of_abs v s g : 0 < s -> Rabs (v - s) <= g * s -> exists t, Rabs t <= g /\ v = s * (1 + t).
Proof.
  intros Hs H. exists ((v - s) / s). split; [|field; lra]. unfold Rdiv. rewrite Rabs_mult, (Rabs_right (/ s)) by (apply Rle_ge, Rlt_le, Rinv_0_lt_compat, Hs).
  apply (Rmult_le_reg_r s); [exact Hs|]. rewrite Rmult_assoc, Rinv_l by lra. lra.
Qed.

Lemma cosine_err d x y : INR d <= 1048576 -> moderate d x -> moderate d y ->
  finite (gcosine b64_ops bsqrt x y) /\ Rabs (val (gcosine b64_ops bsqrt x y) - cos_angle (map val x) (map val y)) <= (2 * INR d + 11) * u.
Proof.
  intros Hd (Lx & Fx & Nx) (Ly & Fy & Ny). pose proof u_pos as Hu. pose proof (bpow_gt_0 radix2 (-250)) as B0. pose proof (pos_INR d) as Pd.
  set (nx := norm (map val x)) in *. set (ny := norm (map val y)) in *. set (P := nx * ny).
  pose proof (sq_bounds nx Nx ny Ny) as BP. fold P in BP. pose proof (sq_bounds nx Nx nx Nx) as BX. pose proof (sq_bounds ny Ny ny Ny) as BY.
  assert (B1 : bpow radix2 500 <= big) by (unfold big; apply bpow_le; lia). assert (B2 : bpow radix2 (-1000) <= bpow radix2 (-500)) by (apply bpow_le; lia). pose proof (bpow_gt_0 radix2 (-500)) as B3.
  set (g := (INR d + 3) * u).
  assert (Lc : forall a b : list f64, length a = d -> length b = d -> length (combine a b) = d) by (intros a b Ha Hb; rewrite combine_length, Ha, Hb; lia).
  assert (Hg1 : 3 * u <= g) by (unfold g; nra). assert (Hg2 : g <= 1048579 * u) by (unfold g; apply Rmult_le_compat_r; lra).
  (* the three sums *)
  destruct (fdot_err2 (combine x y) P (combine_finite x y Fx Fy)) as [FS ES]; [apply adot_norm; [congruence|fold ny; lra]|lra|lra|now rewrite Lc|]. rewrite (Lc x y Lx Ly), sdot_inner in ES.
  destruct (fdot_err2 (combine x x) (nx * nx) (combine_finite x x Fx Fx)) as [FX EX]; [rewrite adot_self; unfold nx; rewrite norm_sq; lra|lra|lra|now rewrite Lc|]. rewrite (Lc x x Lx Lx), sdot_inner, <- norm_sq in EX. fold nx in EX.
  destruct (fdot_err2 (combine y y) (ny * ny) (combine_finite y y Fy Fy)) as [FY EY]; [rewrite adot_self; unfold ny; rewrite norm_sq; lra|lra|lra|now rewrite Lc|]. rewrite (Lc y y Ly Ly), sdot_inner, <- norm_sq in EY. fold ny in EY.
  fold g in ES, EX, EY. apply rel_of_abs in EX; [|lra]. apply rel_of_abs in EY; [|lra]. destruct EX as (t1 & T1 & EX). destruct EY as (t2 & T2 & EY).
  unfold gcosine. rewrite !gdot_fdot.
  set (S0 := fdot (combine x y)) in *. set (X2 := fdot (combine x x)) in *. set (Y2 := fdot (combine y y)) in *.
  assert (Hg : g <= / 1000) by (eapply Rle_trans; [exact Hg2|]; rewrite u_val; lra).
  assert (R1 : / 2 <= 1 + t1 <= 2) by (apply Rabs_le_inv in T1; lra). assert (R2 : / 2 <= 1 + t2 <= 2) by (apply Rabs_le_inv in T2; lra).
  (* the product of the norms *)
  assert (EP : val X2 * val Y2 = P * P * ((1 + t1) * (1 + t2))) by (rewrite EX, EY; unfold P; ring).
  assert (BPP : bpow radix2 (-1000) <= P * P <= big).
  { split; [replace (bpow radix2 (-1000)) with (bpow radix2 (-500) * bpow radix2 (-500)) by (rewrite <- bpow_plus; reflexivity)|unfold big; replace (bpow radix2 1000) with (bpow radix2 500 * bpow radix2 500) by (rewrite <- bpow_plus; reflexivity)]; apply Rmult_le_compat; lra. }
  pose proof (bpow_gt_0 radix2 (-1000)) as B4. assert (B5 : bpow radix2 (-1022) * 4 <= bpow radix2 (-1000)).
  { change 4 with (bpow radix2 2). rewrite <- bpow_plus. apply bpow_le. lia. }
  assert (R12 : / 4 <= (1 + t1) * (1 + t2) <= 4) by (split; [replace (/ 4) with (/ 2 * / 2) by lra|replace 4 with (2 * 2) by lra]; apply Rmult_le_compat; lra).
  assert (BV : bpow radix2 (-1022) <= val X2 * val Y2 <= 4 * big).
  { rewrite EP. split; [apply Rle_trans with (bpow radix2 (-1000) * / 4); [lra|apply Rmult_le_compat; lra]|rewrite (Rmult_comm 4); apply Rmult_le_compat; lra]. }
  pose proof (bpow_gt_0 radix2 (-1022)) as B6. pose proof big_max as HB. pose proof big_1 as HB1.
  destruct (mul_ok X2 Y2 FX FY) as [FM VM]; [rewrite Rabs_right; lra|]. destruct (rnd_normal (val X2 * val Y2)) as (e1 & He1 & E1); [rewrite Rabs_right; lra|]. rewrite E1 in VM.
  set (M := kmul b64_ops X2 Y2) in *. set (z := (1 + t1) * (1 + t2) * (1 + e1)).
  assert (VM' : val M = P * P * z) by (rewrite VM, EP; unfold z; ring).
  assert (Hz : / 8 <= z <= 8). { unfold z. assert (/ 2 <= 1 + e1 <= 2) by (apply Rabs_le_inv in He1; rewrite u_val in He1; lra). split; [replace (/ 8) with (/ 4 * / 2) by lra|replace 8 with (4 * 2) by lra]; apply Rmult_le_compat; lra. }
  (* its square root *)
  assert (PM : 0 < val M) by (rewrite VM'; apply Rmult_lt_0_compat; lra). destruct (sqrt_ok M FM PM) as [FQ VQ].
  assert (SQ : sqrt (val M) = P * sqrt z). { rewrite VM', sqrt_mult by lra. f_equal. apply sqrt_square. lra. }
  assert (Sz : / 4 <= sqrt z <= 4).
  { split; [rewrite <- (sqrt_square (/ 4)) by lra|rewrite <- (sqrt_square 4) at 1 by lra]; [|rewrite (sqrt_square 4) by lra; rewrite <- (sqrt_square 4) by lra]; apply sqrt_le_1_alt; lra. }
  assert (BQ : bpow radix2 (-1022) <= P * sqrt z).
  { apply Rle_trans with (bpow radix2 (-500) * / 4); [|apply Rmult_le_compat; lra]. lra. }
  destruct (rnd_normal (sqrt (val M))) as (e2 & He2 & E2); [rewrite SQ, Rabs_right; lra|]. rewrite E2, SQ in VQ.
  set (rho := sqrt z * (1 + e2)). assert (VQ' : val (bsqrt M) = P * rho) by (rewrite VQ; unfold rho; ring).
  assert (HR : Rabs (rho - 1) <= g + 3 * u) by (apply (sqrt_near g z ltac:(lra) t1 t2 e1 e2 T1 T2 He1 He2 eq_refl)).
  assert (Hrho : / 2 <= rho <= 2) by (apply Rabs_le_inv in HR; rewrite u_val in HR; lra).
  (* the quotient *)
  set (c := cos_angle (map val x) (map val y)). assert (Hc : inner (map val x) (map val y) = P * c) by (unfold c, cos_angle; fold nx ny; change (nx * ny) with P; field; lra).
  rewrite Hc in ES. assert (HP0 : 0 < P) by lra.
  assert (EC : exists e, Rabs e <= g /\ val S0 = P * (c + e)).
  { exists ((val S0 - P * c) / P). split; [|field; lra]. unfold Rdiv. rewrite Rabs_mult, (Rabs_right (/ P)) by (apply Rle_ge, Rlt_le, Rinv_0_lt_compat, HP0). apply (Rmult_le_reg_r P); [exact HP0|]. rewrite Rmult_assoc, Rinv_l by lra. lra. }
  destruct EC as (e & He & VS).
  assert (C1 : Rabs c <= 1). { apply Rabs_le. apply cos_bound; [now rewrite !map_length, Lx, Ly|apply norm_nonzero; fold nx; lra|apply norm_nonzero; fold ny; lra]. }
  assert (EQ : val S0 / val (bsqrt M) = (c + e) / rho) by (rewrite VS, VQ'; field; lra).
  assert (BQ2 : Rabs ((c + e) / rho) <= 4).
  { unfold Rdiv. rewrite Rabs_mult. replace 4 with (2 * 2) by lra. apply Rmult_le_compat; try apply Rabs_pos.
    - eapply Rle_trans; [apply Rabs_triang|]. lra.
    - rewrite Rabs_right by (apply Rle_ge, Rlt_le, Rinv_0_lt_compat; lra). replace 2 with (/ / 2) by lra. apply Rinv_le_contravar; lra. }
  destruct (div_ok S0 (bsqrt M) FS) as [FD VD]; [rewrite VQ'; apply Rgt_not_eq; apply Rmult_lt_0_compat; lra|rewrite EQ; lra|]. rewrite EQ in VD.
  split; [exact FD|]. rewrite VD. destruct (rnd_any ((c + e) / rho)) as (e3 & h & He3 & Hh & ->).
  eapply Rle_trans; [apply (quotient_near g c e rho e3 h); assumption|]. unfold g. lra.
Qed.

(** The averages. *)
Lemma grun_frun xs : forall n m, grun b64_ops n m xs = frun n m xs.
Proof. induction xs as [|x xs IH]; intros n m; [reflexivity|]. cbn [grun frun]. rewrite IH. reflexivity. Qed.
Lemma first_step c : finite c -> finite (fstep (B754_zero false) c 1) /\ val (fstep (B754_zero false) c 1) = val c.
Proof.
  intros F. unfold fstep. assert (F0 : finite (B754_zero false : f64)) by reflexivity. assert (V0 : val (B754_zero false) = 0) by reflexivity. pose proof (val_max c) as HM.
  assert (RG : rnd (val c) = val c) by (apply round_generic; [apply valid_rnd_N|apply val_double]).
  destruct (ofN_ok 1 eq_refl) as [F1 _]. pose proof (ofN_exact 1 ltac:(lia)) as V1. change (IZR (Z.of_N 1)) with 1 in V1.
  destruct (sub_ok c (B754_zero false) F F0) as [FA VA]; [rewrite V0, Rminus_0_r; exact HM|]. rewrite V0, Rminus_0_r, RG in VA.
  destruct (div_ok (ksub b64_ops c (B754_zero false)) (kofN b64_ops 1) FA) as [FB VB]; [rewrite V1; lra|rewrite V1, VA; unfold Rdiv; rewrite Rinv_1, Rmult_1_r; exact HM|].
  rewrite V1, VA in VB. unfold Rdiv in VB. rewrite Rinv_1, Rmult_1_r, RG in VB.
  destruct (add_ok (B754_zero false) _ F0 FB) as [FC VC]; [rewrite V0, VB, Rplus_0_l; exact HM|]. split; [exact FC|]. now rewrite VC, V0, VB, Rplus_0_l.
Qed.

Lemma rsum_err (cs : list f64) (ts : list R) E : Forall2 (fun c t => finite c /\ Rabs (val c - t) <= E) cs ts -> Rabs (FloatMean.rsum cs - StatsCosSpec.rsum ts) <= INR (length cs) * E.
Proof.
  intros H. induction H as [|c t cs ts [_ H] HF IH]; [cbn; rewrite Rminus_0_r, Rabs_R0; lra|]. cbn [length StatsCosSpec.rsum]. change (FloatMean.rsum (c :: cs)) with (val c + FloatMean.rsum cs). rewrite S_INR.
  replace (val c + FloatMean.rsum cs - (t + StatsCosSpec.rsum ts)) with ((val c - t) + (FloatMean.rsum cs - StatsCosSpec.rsum ts)) by ring. eapply Rle_trans; [apply Rabs_triang|]. lra.
Qed.
Lemma average_err (cs : list f64) (ts : list R) E : Forall2 (fun c t => finite c /\ Rabs (val c - t) <= E) cs ts -> Forall (fun t => -1 <= t <= 1) ts -> cs <> [] -> (N.of_nat (length cs) <= 2 ^ 53)%N -> 0 <= E <= 1 ->
  finite (frun 0 (B754_zero false) cs) /\ Rabs (val (frun 0 (B754_zero false) cs) - average ts) <= (INR (length cs) + 13) * u + E /\ Rabs (val (frun 0 (B754_zero false) cs)) <= 1 + E.
Proof.
  intros H Ht Hne Hl HE. pose proof (rsum_err cs ts E H) as HS. destruct cs as [|c cs]; [congruence|]. clear Hne. cbn [frun]. change (0 + 1)%N with 1%N.
  assert (HB : Forall (fun x => finite x /\ - (1 + E) <= val x <= 1 + E) (c :: cs)).
  { clear - H Ht HE. induction H as [|a t l1 l2 [F H] HF IH]; [constructor|]. inversion Ht; subst. constructor; [|now apply IH]. split; [exact F|]. apply Rabs_le_inv in H. lra. }
  inversion HB as [|? ? [Fc Bc] HB2]; subst. destruct (first_step c Fc) as [F1 V1]. set (c1 := fstep (B754_zero false) c 1) in *. change (frun 1 c1 cs) with (fmean (c1 :: cs)).
  assert (HB1 : Forall (fun x => finite x /\ - (1 + E) <= val x <= 1 + E) (c1 :: cs)) by (constructor; [split; [exact F1|now rewrite V1]|exact HB2]).
  pose proof big_max as HM. pose proof big_1 as HM1.
  assert (L : (N.of_nat (length (c1 :: cs)) < 2 ^ 64)%N) by (cbn [length] in *; apply N.le_lt_trans with (2 ^ 53)%N; [exact Hl|reflexivity]).
  destruct (fmean_range (- (1 + E)) (1 + E) (c1 :: cs) ltac:(congruence) L HB1 ltac:(lra)) as [FF BF].
  split; [exact FF|]. split; [|apply Rabs_le; lra].
  pose proof (fmean_error' 2 (c1 :: cs) ltac:(congruence) Hl) as HE1. assert (A : Forall (fun x => finite x /\ Rabs (val x) <= 2) (c1 :: cs)).
  { eapply Forall_impl; [|exact HB1]. intros a [Fa Ba]. split; [exact Fa|]. apply Rabs_le. lra. }
  specialize (HE1 A ltac:(lra)). assert (Rs : FloatMean.rsum (c1 :: cs) = FloatMean.rsum (c :: cs)) by (unfold FloatMean.rsum; rewrite !map_cons, V1; reflexivity). rewrite Rs in HE1.
  assert (Lt : length (c :: cs) = length ts) by (clear - H; induction H; cbn; congruence). change (length (c1 :: cs)) with (length (c :: cs)) in HE1.
  set (k := length (c :: cs)) in *. assert (Pk : 1 <= INR k) by (apply (le_INR 1); unfold k; cbn; lia).
  unfold average. rewrite <- Lt. set (S1 := FloatMean.rsum (c :: cs)) in *. set (S2 := StatsCosSpec.rsum ts) in *. set (v := val (fmean (c1 :: cs))) in *.
  replace (v - S2 / INR k) with ((v - S1 / INR k) + (S1 - S2) / INR k) by (field; lra). eapply Rle_trans; [apply Rabs_triang|].
  assert (A2 : Rabs ((S1 - S2) / INR k) <= E).
  { unfold Rdiv. rewrite Rabs_mult, (Rabs_right (/ INR k)) by (apply Rle_ge, Rlt_le, Rinv_0_lt_compat; lra). apply (Rmult_le_reg_r (INR k)); [lra|]. rewrite Rmult_assoc, Rinv_l by lra. lra. }
  assert (A3 : (INR k / 2 + 6) * (u * 2 + eta) <= (INR k + 13) * u).
  { pose proof eta_u as He. pose proof u_pos as Hu. clear - He Hu Pk Hl.
    assert (Hk : INR k <= 9007199254740992) by (apply N2Z.inj_le in Hl; rewrite nat_N_Z in Hl; rewrite INR_IZR_INZ; apply (IZR_le _ 9007199254740992) in Hl; exact Hl).
    assert (E0 : INR k * eta <= u).
    { apply Rle_trans with (9007199254740992 * eta); [apply Rmult_le_compat_r; [apply Rlt_le, eta_pos|exact Hk]|]. unfold eta, u. change 9007199254740992 with (bpow radix2 53). rewrite <- bpow_plus. apply bpow_le. lia. }
    lra. }
  lra.
Qed.

Theorem double_cosine (history_length : N) garbage1 garbage2 (xs : list (list f64)) (d : nat) :
  xs <> [] -> (N.of_nat d <= 2 ^ 20)%N -> (forall x, In x xs -> moderate d x) -> (0 < history_length < 2 ^ 32)%N -> (N.of_nat (length xs) < 2 ^ 32)%N ->
  exists s, run_consumer (gcos_consume b64_ops bsqrt history_length) (gcos_init garbage1 garbage2) xs = Ok s /\ length (gcos_get s) = N.to_nat history_length /\
    forall i, (i < N.to_nat history_length)%nat -> finite (at_ i (gcos_get s)) /\
      Rabs (val (at_ i (gcos_get s)) - (if (length xs <=? i + 1)%nat then 0 else average (cosines (map (map val) xs) (i + 1)))) <= (INR (length xs) + 2 * INR d + 24) * u /\
      Rabs (val (at_ i (gcos_get s))) <= 1 + (2 * INR d + 11) * u.
Proof.
  intros Hne Hd HM HH Hn. assert (Hs : Forall (fun x => length x = d) xs) by (apply Forall_forall; intros x Hx; apply (HM x Hx)).
  destruct (gcos_run b64_ops bsqrt history_length garbage1 garbage2 xs d Hne Hs HH Hn) as (s & Hr & _ & _ & Hl & _ & Ha). exists s. split; [exact Hr|]. split; [exact Hl|]. intros i Hi.
  assert (Hd' : INR d <= 1048576). { rewrite INR_IZR_INZ, <- nat_N_Z. apply (IZR_le _ 1048576). apply (N2Z.inj_le _ _) in Hd. exact Hd. }
  pose proof u_pos as Hu. pose proof (pos_INR d) as Pd. pose proof (pos_INR (length xs)) as Px.
  change (at_ i (gcos_get s)) with (nth i (gc_avg s) (k0 b64_ops)). rewrite (Ha i Hi), grun_frun. destruct (Nat.leb_spec (length xs) (i + 1)) as [Q|Q].
  - rewrite gcosines_empty by exact Q. cbn [frun]. split; [reflexivity|]. change (val (k0 b64_ops)) with 0. rewrite Rminus_0_r, Rabs_R0. split; [apply Rmult_le_pos; lra|nra].
  - set (E := (2 * INR d + 11) * u). assert (HE : 0 <= E <= 1) by (unfold E; split; [apply Rmult_le_pos; lra|rewrite u_val; lra]).
    destruct (average_err (gcosines b64_ops bsqrt xs (i + 1)) (cosines (map (map val) xs) (i + 1)) E) as (F & B1 & B2).
    + unfold gcosines, cosines. rewrite map_length.
      assert (K : forall l, (forall t, In t l -> (t < length xs - (i + 1))%nat) -> Forall2 (fun c t => finite c /\ Rabs (val c - t) <= E) (map (fun t => gcosine b64_ops bsqrt (nth (t + (i + 1)) xs []) (nth t xs [])) l) (map (fun t => cos_angle (nth (t + (i + 1)) (map (map val) xs) []) (nth t (map (map val) xs) [])) l)).
      { induction l as [|t l IH]; intros Ht; cbn [map]; [constructor|]. constructor; [|apply IH; intros; apply Ht; now right]. specialize (Ht t (or_introl eq_refl)).
        change (@nil R) with (map val []). rewrite !map_nth. apply cosine_err; [exact Hd'| |]; apply HM, nth_In; lia. }
      apply K. intros t Ht. apply in_seq in Ht. lia.
    + unfold cosines. apply Forall_forall. intros c Hc. apply in_map_iff in Hc. destruct Hc as (t & <- & Ht). apply in_seq in Ht. rewrite map_length in Ht. change (@nil R) with (map val []). rewrite !map_nth.
      destruct (HM (nth (t + (i + 1)) xs [])) as (L1 & _ & N1); [apply nth_In; lia|]. destruct (HM (nth t xs [])) as (L2 & _ & N2); [apply nth_In; lia|]. pose proof (bpow_gt_0 radix2 (-250)).
      apply cos_bound; [now rewrite !map_length, L1, L2|apply norm_nonzero; lra|apply norm_nonzero; lra].
    + intros E0. apply (f_equal (@length f64)) in E0. rewrite gcosines_length in E0. cbn in E0. lia.
    + rewrite gcosines_length. apply N.le_trans with (2 ^ 32)%N; [|discriminate]. lia.
    + exact HE.
    + split; [exact F|]. split; [|exact B2]. eapply Rle_trans; [exact B1|]. rewrite gcosines_length. assert (INR (length xs - (i + 1)) <= INR (length xs)) by (apply le_INR; lia). unfold E.
      assert (INR (length xs - (i + 1)) * u <= INR (length xs) * u) by (apply Rmult_le_compat_r; lra). lra.
Qed.

(** A zero vector. *)
Definition zn (v : f64) : Prop := v = B754_nan \/ exists sign, v = B754_zero sign.
Lemma zn_add a b : zn a -> zn b -> zn (kadd b64_ops a b).
Proof. intros [->|[s ->]] [->|[t ->]]; try (now left). right. cbn. destruct (Bool.eqb s t); eexists; reflexivity. Qed.
Lemma zn_mul a b : zn a -> zn (kmul b64_ops a b).
Proof. intros [->|[s ->]]; destruct b; try (now left); right; eexists; reflexivity. Qed.
Lemma zn_mul_r a b : zn b -> zn (kmul b64_ops a b).
Proof. intros [->|[s ->]]; destruct a; try (now left); right; eexists; reflexivity. Qed.
Lemma zn_dot l : forall s, zn s -> Forall (fun p => zn (fst p) \/ zn (snd p)) l -> zn (fold_left (fun s p => kadd b64_ops s (kmul b64_ops (fst p) (snd p))) l s).
Proof. induction l as [|p l IH]; intros s Hs HF; [exact Hs|]. inversion HF as [|? ? Hp HF2]; subst. cbn [fold_left]. apply IH; [|exact HF2]. apply zn_add; [exact Hs|]. destruct Hp; [now apply zn_mul|now apply zn_mul_r]. Qed.
Lemma zn_zero : zn (k0 b64_ops). Proof. right. now exists false. Qed.
Lemma combine_left x : zero_vector x -> forall y, Forall (fun p : f64 * f64 => zn (fst p) \/ zn (snd p)) (combine x y).
Proof. induction 1 as [|a x Ha Hx IH]; intros [|b y]; try constructor; [left; now right|apply IH]. Qed.
Lemma combine_right y : zero_vector y -> forall x, Forall (fun p : f64 * f64 => zn (fst p) \/ zn (snd p)) (combine x y).
Proof. induction 1 as [|b y Hb Hy IH]; intros [|a x]; try constructor; [right; now right|apply IH]. Qed.
Lemma zn_sqrt a : zn a -> zn (bsqrt a).
Proof. intros [->|[s ->]]; [now left|right; eexists; reflexivity]. Qed.
Lemma zn_div a b : zn a -> zn b -> kdiv b64_ops a b = B754_nan.
Proof. intros [->|[s ->]] [->|[t ->]]; reflexivity. Qed.
Lemma cosine_zero x y : zero_vector x \/ zero_vector y -> gcosine b64_ops bsqrt x y = B754_nan.
Proof.
  intros H. unfold gcosine. apply zn_div.
  - apply zn_dot; [apply zn_zero|]. destruct H; [now apply combine_left|now apply combine_right].
  - apply zn_sqrt. destruct H; [apply zn_mul|apply zn_mul_r]; (apply zn_dot; [apply zn_zero|]; now apply combine_left).
Qed.
Lemma nan_stays xs : forall n, frun n B754_nan xs = B754_nan.
Proof. induction xs as [|x xs IH]; intros n; [reflexivity|]. cbn [frun]. replace (fstep B754_nan x (n + 1)) with (B754_nan : f64); [apply IH|]. unfold fstep. reflexivity. Qed.
Lemma nan_comes xs : In B754_nan xs -> forall n m, frun n m xs = B754_nan.
Proof.
  induction xs as [|x xs IH]; intros H n m; [contradiction|]. cbn [frun]. destruct H as [->|H]; [|now apply IH].
  replace (fstep m B754_nan (n + 1)) with (B754_nan : f64); [apply nan_stays|]. unfold fstep. cbn [b64_ops kadd kdiv ksub kofN]. replace (Bminus mode_NE B754_nan m) with (B754_nan : f64) by (destruct m; reflexivity).
  replace (Bdiv mode_NE B754_nan (binary_normalize 53 1024 Hprec Hmax mode_NE (Z.of_N (n + 1)) 0 false)) with (B754_nan : f64) by reflexivity. destruct m; reflexivity.
Qed.
Theorem zero_sample_poisons (history_length : N) garbage1 garbage2 (xs : list (list f64)) (d t i : nat) :
  (forall x, In x xs -> length x = d) -> (0 < history_length < 2 ^ 32)%N -> (N.of_nat (length xs) < 2 ^ 32)%N -> (t < length xs)%nat -> zero_vector (nth t xs []) -> (i < N.to_nat history_length)%nat ->
  (i + 1 <= t \/ t + (i + 1) < length xs)%nat ->
  exists s, run_consumer (gcos_consume b64_ops bsqrt history_length) (gcos_init garbage1 garbage2) xs = Ok s /\ at_ i (gcos_get s) = B754_nan.
Proof.
  intros Hs HH Hn Ht Hz Hi Hp. assert (Hne : xs <> []) by (intros ->; cbn in Ht; lia). apply Forall_forall in Hs.
  destruct (gcos_run b64_ops bsqrt history_length garbage1 garbage2 xs d Hne Hs HH Hn) as (s & Hr & _ & _ & _ & _ & Ha). exists s. split; [exact Hr|].
  change (at_ i (gcos_get s)) with (nth i (gc_avg s) (k0 b64_ops)). rewrite (Ha i Hi), grun_frun. apply nan_comes. unfold gcosines. apply in_map_iff. destruct Hp as [Hp|Hp].
  - exists (t - (i + 1))%nat. split; [|apply in_seq; lia]. replace (t - (i + 1) + (i + 1))%nat with t by lia. apply cosine_zero. now left.
  - exists t. split; [|apply in_seq; lia]. apply cosine_zero. now right.
Qed.
