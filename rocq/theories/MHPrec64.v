(** Proofs: the acceptance test in IEEE binary64 arithmetic. *)
From Coq Require Import Reals ZArith Lra Lia.
From Flocq Require Import Core BinarySingleNaN.
From Verif Require Import Prelude StatsModel ProducerModel MHSpec DEStat MarkovFinite HistFloat FloatSpec FloatBase MHRunSpec MHPrecSpec MHPrec MHPrec64Spec.
Import ListNotations.
Local Open Scope R_scope.
Local Open Scope list_scope.
Local Notation length := List.length.

Lemma rnd_err : forall x, Rabs (rnd x - x) <= unit_roundoff * Rabs x + half_denorm_min.
Proof.
  intros x. destruct (rnd_any x) as (e & h & He & Hh & ->). replace (x * (1 + e) + h - x) with (x * e + h) by ring.
  eapply Rle_trans; [apply Rabs_triang|]. apply Rplus_le_compat; [|exact Hh]. rewrite Rabs_mult, Rmult_comm. apply Rmult_le_compat_r; [apply Rabs_pos|exact He].
Qed.
Lemma of_real_ok : forall x, Rabs x <= DBL_MAX -> finite (of_real x) /\ val (of_real x) = rnd x.
Proof.
  intros x H. unfold of_real.
  pose proof (binary_normalize_correct 53 1024 Hprec Hmax mode_NE (ZnearestE (scaled_mantissa radix2 fexp x)) (cexp radix2 fexp x) false) as HC. cbv zeta in HC.
  change (F2R {| Fnum := ZnearestE (scaled_mantissa radix2 fexp x); Fexp := cexp radix2 fexp x |}) with (rnd x) in HC.
  change (round_mode mode_NE) with ZnearestE in HC. change (SpecFloat.fexp 53 1024) with fexp in HC.
  change (round radix2 fexp ZnearestE (rnd x)) with (rnd (rnd x)) in HC. rewrite (rnd_id (rnd x) (rnd_double x)) in HC.
  rewrite Rlt_bool_true in HC by now apply rnd_max. split; apply HC.
Qed.
Lemma accurate_b64 : forall fe fl delta tau, library fe fl delta tau -> unit_roundoff <= delta -> half_denorm_min <= tau ->
  accurate val finite (b64_dops fe fl) delta tau DBL_MAX.
Proof.
  intros fe fl delta tau HL Hd Ht.
  assert (Hmono : forall x, unit_roundoff * Rabs x + half_denorm_min <= delta * Rabs x + tau).
  { intros x. apply Rplus_le_compat; [|exact Ht]. apply Rmult_le_compat_r; [apply Rabs_pos|exact Hd]. }
  constructor.
  - intros a b Fa Fb H. destruct (sub_ok a b Fa Fb H) as (Ff & Hv). split; [exact Ff|]. cbn [d_sub b64_dops]. cbn [ksub b64_ops] in Hv. rewrite Hv.
    eapply Rle_trans; [apply rnd_err|apply Hmono].
  - intros a b Fa Fb Hp H. destruct (div_ok a b Fa ltac:(lra) H) as (Ff & Hv). split; [exact Ff|]. cbn [d_div b64_dops]. cbn [kdiv b64_ops] in Hv. rewrite Hv.
    eapply Rle_trans; [apply rnd_err|apply Hmono].
  - intros a Fa H. exact (lib_exp _ _ _ _ HL a Fa H).
  - intros a Fa H. exact (lib_log _ _ _ _ HL a Fa H).
  - intros a b Fa Fb. cbn [d_gt b64_dops]. rewrite Bltb_correct by assumption. fold (val a) (val b). destruct (Rlt_dec (val b) (val a)); [now apply Rlt_bool_true|apply Rlt_bool_false; lra].
  - intros a b Fa Fb. cbn [d_ge b64_dops]. rewrite Bleb_correct by assumption. fold (val a) (val b). destruct (Rle_dec (val b) (val a)); [now apply Rle_bool_true|apply Rle_bool_false; lra].
Qed.
Lemma DBL_big : 1000000 <= DBL_MAX.
Proof.
  eapply Rle_trans; [|apply max_ge]. apply Rle_trans with (bpow radix2 20); [|apply bpow_le; lia]. change (bpow radix2 20) with 1048576. lra.
Qed.
Lemma ln_le : forall x y, 0 < x -> x <= y -> ln x <= ln y.
Proof. intros x y Hx [H|H]; [apply Rlt_le; now apply ln_increasing|rewrite H; lra]. Qed.
Lemma ln_bound : forall x, bpow radix2 (-1074) <= x <= DBL_MAX -> Rabs (ln x) <= DBL_MAX.
Proof.
  intros x Hx. pose proof (bpow_gt_0 radix2 (-1074)) as Hp. pose proof DBL_big.
  assert (Hl : ln 2 <= 1) by (rewrite <- (ln_exp 1); apply ln_le; [lra|]; pose proof (exp_ineq1_le 1); lra). assert (Hl0 : 0 < ln 2) by (rewrite <- ln_1; apply ln_increasing; lra).
  assert (H1 : forall e, ln (bpow radix2 e) = IZR e * ln 2).
  { intros e. rewrite bpow_exp, ln_exp. reflexivity. }
  assert (H2 : -1074 <= ln x).
  { apply Rle_trans with (ln (bpow radix2 (-1074))); [rewrite H1; lra|]. apply ln_le; lra. }
  assert (H3 : ln x <= 1024).
  { apply Rle_trans with (ln (bpow radix2 1024)); [|rewrite H1; lra]. apply ln_le; [lra|]. pose proof max_lt. lra. }
  apply Rabs_le. lra.
Qed.

Theorem nearest_library : library nearest_exp nearest_log unit_roundoff half_denorm_min.
Proof.
  constructor.
  - intros a Fa H. pose proof (exp_pos (val a)) as Hp. unfold nearest_exp. destruct (of_real_ok (exp (val a))) as (Ff & Hv); [rewrite Rabs_pos_eq; lra|].
    split; [exact Ff|]. rewrite Hv. split; [apply rnd_ge; [apply generic_format_0|lra]|].
    eapply Rle_trans; [apply rnd_err|]. rewrite Rabs_pos_eq; lra.
  - intros a Fa H. unfold nearest_log. destruct (of_real_ok (ln (val a))) as (Ff & Hv).
    + apply ln_bound. split; [|eapply Rle_trans; [apply Rle_abs|apply val_max]].
      rewrite <- (Rabs_pos_eq (val a)) by lra. apply (abs_B2R_ge_emin 53 1024 a). destruct a; try discriminate Fa; [cbn in H; lra|reflexivity].
    + split; [exact Ff|]. rewrite Hv. apply rnd_err.
Qed.

(** ** Random numbers *)
Lemma count_bounds : forall N a, let c := sumR (fun k => if Rle_dec (INR k) a then 1 else 0) (seq 0 N) in Rmin (INR N) a <= c /\ c <= Rmax 0 (a + 1) /\ c <= INR N.
Proof.
  induction N as [|N IH]; intros a; cbv zeta.
  - cbn [seq sumR INR]. split; [apply Rmin_l|]. split; [apply Rmax_l|lra].
  - rewrite seq_S. cbn [Nat.add].
    assert (Happ : forall (f : nat -> R) l m, sumR f (l ++ m) = sumR f l + sumR f m) by (intros f l m; induction l as [|x l IHl]; cbn; [ring|rewrite IHl; ring]).
    rewrite Happ. cbn [sumR]. destruct (IH a) as (H1 & H2 & H3). set (c := sumR _ (seq 0 N)) in *. rewrite S_INR.
    destruct (Rle_dec (INR N) a) as [Hc|Hc].
    + rewrite Rmin_left in H1 by exact Hc. split; [eapply Rle_trans; [apply Rmin_l|lra]|]. split; [eapply Rle_trans; [|apply Rmax_r]; lra|lra].
    + rewrite Rmin_right in H1 by lra. split; [rewrite Rmin_right by lra; lra|]. split; lra.
Qed.
Theorem near_grid_uniform : forall N (h : nat -> R) theta, (0 < N)%nat -> 0 <= theta ->
  (forall k, (k < N)%nat -> 0 <= h k < 1 /\ Rabs (h k - INR k / INR N) <= theta) -> uniform_up_to (/ INR N + theta) (map h (seq 0 N)).
Proof.
  intros N h theta HN Ht Hh. assert (HI : 0 < INR N) by now apply lt_0_INR.
  split; [destruct N; [lia|discriminate]|]. split.
  - intros u Hu. apply in_map_iff in Hu. destruct Hu as (k & <- & Hk). apply in_seq in Hk. apply Hh. lia.
  - intros v Hv. rewrite sumR_map, map_length, seq_length.
    assert (Hlo : sumR (fun k => if Rle_dec (INR k) (INR N * (v - theta)) then 1 else 0) (seq 0 N) <= sumR (fun k => if Rle_dec (h k) v then 1 else 0) (seq 0 N)).
    { apply sumR_le_in. intros k Hk. apply in_seq in Hk. destruct (Hh k ltac:(lia)) as (_ & He). apply MHPrec.Rabs_le_inv in He.
      destruct (Rle_dec (INR k) _) as [H1|H1], (Rle_dec (h k) v) as [H2|H2]; try lra. exfalso. apply H2.
      assert (INR k / INR N <= v - theta); [|lra]. apply Rmult_le_reg_l with (INR N); [exact HI|]. replace (INR N * (INR k / INR N)) with (INR k) by (field; lra). exact H1. }
    assert (Hhi : sumR (fun k => if Rle_dec (h k) v then 1 else 0) (seq 0 N) <= sumR (fun k => if Rle_dec (INR k) (INR N * (v + theta)) then 1 else 0) (seq 0 N)).
    { apply sumR_le_in. intros k Hk. apply in_seq in Hk. destruct (Hh k ltac:(lia)) as (_ & He). apply MHPrec.Rabs_le_inv in He.
      destruct (Rle_dec (h k) v) as [H2|H2], (Rle_dec (INR k) _) as [H1|H1]; try lra. exfalso. apply H1.
      assert (INR k / INR N <= v + theta) by lra. replace (INR k) with (INR N * (INR k / INR N)) by (field; lra). apply Rmult_le_compat_l; lra. }
    destruct (count_bounds N (INR N * (v - theta))) as (H1 & _). destruct (count_bounds N (INR N * (v + theta))) as (_ & H2 & _). cbv zeta in *.
    set (c := sumR (fun k => if Rle_dec (h k) v then 1 else 0) (seq 0 N)) in *.
    rewrite Rmin_right in H1. 2:{ rewrite <- (Rmult_1_r (INR N)) at 2. apply Rmult_le_compat_l; lra. }
    rewrite Rmax_right in H2. 2:{ assert (0 <= INR N * (v + theta)) by (apply Rmult_le_pos; lra). lra. }
    assert (Hc : c = INR N * (c / INR N)) by (field; lra). set (fr := c / INR N) in *.
    assert (Hf1 : v - theta <= fr) by (apply Rmult_le_reg_l with (INR N); [exact HI|lra]).
    assert (Hf2 : fr <= v + theta + / INR N).
    { apply Rmult_le_reg_l with (INR N); [exact HI|]. replace (INR N * (v + theta + / INR N)) with (INR N * (v + theta) + 1) by (field; lra). lra. }
    apply Rabs_le. pose proof (Rinv_0_lt_compat _ HI). lra.
Qed.
Theorem grid_uniform : forall N, (0 < N)%nat -> uniform_up_to (/ INR N) (grid N).
Proof.
  intros N HN. assert (HI : 0 < INR N) by now apply lt_0_INR. rewrite <- (Rplus_0_r (/ INR N)). apply near_grid_uniform; [exact HN|lra|].
  intros k Hk. split; [split|].
  - apply Rmult_le_pos; [apply pos_INR|apply Rlt_le, Rinv_0_lt_compat, HI].
  - apply Rmult_lt_reg_r with (INR N); [exact HI|]. unfold Rdiv. rewrite Rmult_assoc, Rinv_l, Rmult_1_r, Rmult_1_l by lra. now apply lt_INR.
  - unfold Rminus. rewrite Rplus_opp_r, Rabs_R0. lra.
Qed.
Lemma below_one : is_double (1 - bpow radix2 (-53)).
Proof.
  replace (1 - bpow radix2 (-53)) with (F2R (Float radix2 (2 ^ 53 - 1) (-53))).
  - apply generic_format_F2R. intros _. unfold cexp, fexp, FLT_exp. rewrite (mag_unique radix2 _ 0); [lia|].
    rewrite Rabs_pos_eq by (apply F2R_ge_0; cbn; lia). unfold F2R. cbn [Fnum Fexp]. change (bpow radix2 (-53)) with (/ 9007199254740992). change (bpow radix2 (0 - 1)) with (/ 2). change (bpow radix2 0) with 1. change (IZR (2 ^ 53 - 1)) with 9007199254740991. lra.
  - unfold F2R. cbn [Fnum Fexp]. change (bpow radix2 (-53)) with (/ 9007199254740992). change (IZR (2 ^ 53 - 1)) with 9007199254740991. lra.
Qed.
Theorem canonical_uniform : forall N, (0 < N)%nat -> (forall u, In u (canonical N) -> finite u) /\
  uniform_up_to (/ INR N + 2 * unit_roundoff + half_denorm_min) (map val (canonical N)).
Proof.
  intros N HN. assert (HI : 0 < INR N) by now apply lt_0_INR.
  assert (Hx : forall k, (k < N)%nat -> 0 <= INR k / INR N < 1).
  { intros k Hk. split; [apply Rmult_le_pos; [apply pos_INR|apply Rlt_le, Rinv_0_lt_compat, HI]|].
    apply Rmult_lt_reg_r with (INR N); [exact HI|]. unfold Rdiv. rewrite Rmult_assoc, Rinv_l, Rmult_1_r, Rmult_1_l by lra. now apply lt_INR. }
  pose proof DBL_big as HB. assert (Hu : bpow radix2 (-53) = / 9007199254740992) by reflexivity.
  assert (Hok : forall k, (k < N)%nat -> let x := Rmin (INR k / INR N) (1 - bpow radix2 (-53)) in 0 <= x <= 1 - bpow radix2 (-53) /\ finite (of_real x) /\ val (of_real x) = rnd x).
  { intros k Hk x. assert (0 <= x <= 1 - bpow radix2 (-53)).
    { split; [apply Rmin_glb; [now apply Hx|lra]|apply Rmin_r]. }
    split; [assumption|]. apply of_real_ok. rewrite Rabs_pos_eq; lra. }
  split.
  - intros u Hin. apply in_map_iff in Hin. destruct Hin as (k & <- & Hk). apply in_seq in Hk. apply (Hok k). lia.
  - unfold canonical. rewrite map_map. replace (/ INR N + 2 * unit_roundoff + half_denorm_min) with (/ INR N + (2 * unit_roundoff + half_denorm_min)) by ring.
    apply near_grid_uniform; [exact HN|rewrite ur_val; pose proof hd_pos; lra|].
    intros k Hk. destruct (Hok k Hk) as (Hr & _ & ->). set (x := Rmin _ _) in *. split; [split|].
    + apply rnd_ge; [apply generic_format_0|lra].
    + apply Rle_lt_trans with (1 - bpow radix2 (-53)); [apply rnd_le; [exact below_one|lra]|lra].
    + replace (rnd x - INR k / INR N) with ((rnd x - x) + (x - INR k / INR N)) by ring. eapply Rle_trans; [apply Rabs_triang|].
      pose proof (rnd_err x) as He. rewrite (Rabs_pos_eq x) in He by lra.
      assert (unit_roundoff * x <= unit_roundoff * 1) by (apply Rmult_le_compat_l; [rewrite ur_val|]; lra).
      assert (Rabs (x - INR k / INR N) <= unit_roundoff).
      { destruct (Hx k Hk). unfold x, Rmin. rewrite ur_val, Hu. destruct (Rle_dec _ _); apply Rabs_le; lra. }
      lra.
Qed.

(** ** Doubles *)
Lemma exp_600 : exp (600 + 1) <= bpow radix2 962.
Proof.
  assert (H3 : forall n, exp (INR n) <= 3 ^ n).
  { induction n as [|n IH]; [cbn [INR pow]; rewrite exp_0; lra|]. rewrite S_INR, exp_plus. cbn [pow]. rewrite Rmult_comm.
    apply Rmult_le_compat; [apply Rlt_le, exp_pos|apply Rlt_le, exp_pos|exact exp_le_3|exact IH]. }
  replace (600 + 1) with (INR (5 * 120 + 1)) by (rewrite plus_INR, mult_INR, !INR_IZR_INZ; cbn [Z.of_nat Pos.of_succ_nat Pos.succ]; lra).
  eapply Rle_trans; [apply H3|]. rewrite pow_add, pow_mult.
  apply Rle_trans with ((2 ^ 8) ^ 120 * 4).
  - apply Rmult_le_compat; [apply pow_le; lra|lra| |lra]. apply pow_incr. lra.
  - right. rewrite <- pow_mult. replace 4 with (2 ^ 2) by lra. rewrite <- pow_add. change 2 with (IZR radix2).
    rewrite pow_powerRZ, <- bpow_powerRZ. reflexivity.
Qed.
Theorem double_acceptance :
  forall (X : Type) (eqX : forall x y : X, {x = y} + {x <> y}) fe fl delta tau, library fe fl delta tau ->
  unit_roundoff <= delta <= bpow radix2 (-50) -> half_denorm_min <= tau <= bpow radix2 (-1070) ->
  forall (ll : X -> f64) (rho : X -> X -> f64) (L : X -> R) (q : X -> X -> R) (S0 : list X) bound ratio lambda kappa,
  close_callbacks val finite ll rho L q S0 bound ratio lambda kappa -> (forall x y, 0 < q x y -> 0 < q y x) ->
  (forall x, In x S0 -> possible (b64_dops fe fl) ll x = true) -> bound <= 1000000000000 -> 0 <= ratio <= 600 ->
  forall us gamma, (forall u, In u us -> finite u) -> uniform_up_to gamma (map val us) ->
  accepts_up_to eqX (b64_dops fe fl) ll rho us L q S0
    (gamma + 2 * lambda + kappa + delta * (2 * bound + 3 * ratio + 5) + tau * (2 * exp ratio + 4)).
Proof.
  intros X eqX fe fl delta tau HL Hd Ht ll rho L q S0 bound ratio lambda kappa Hcc Hqb Hposs Hb Hr us gamma Hus Hun.
  destruct S0 as [|x0 S1] eqn:ES. { intros x y []. }
  rewrite <- ES in *.
  assert (Hb0 : 0 <= bound).
  { destruct (cc_ll _ _ _ _ _ _ _ _ _ _ _ Hcc x0) as (_ & H & _); [rewrite ES; now left|]. eapply Rle_trans; [apply Rabs_pos|exact H]. }
  pose proof exp_600 as HE. pose proof max_ge as HM. pose proof hd_pos as Hh.
  assert (Hexp : exp (ratio + 1) <= bpow radix2 962).
  { eapply Rle_trans; [|exact HE]. destruct (Req_dec ratio 600) as [->|Hne]; [lra|]. apply Rlt_le, exp_increasing. lra. }
  assert (Hexp1 : exp ratio <= bpow radix2 962).
  { eapply Rle_trans; [|exact Hexp]. apply Rlt_le, exp_increasing. lra. }
  assert (Hb50 : bpow radix2 (-50) = / 1125899906842624) by reflexivity.
  assert (Hbig : bpow radix2 962 <= DBL_MAX) by (eapply Rle_trans; [|exact HM]; apply bpow_le; lia).
  assert (Hbig2 : 18014398509481984 <= DBL_MAX). { eapply Rle_trans; [|exact HM]. apply Rle_trans with (bpow radix2 54); [right; reflexivity|apply bpow_le; lia]. }
  assert (Htau : tau <= 1/8). { apply Rle_trans with (bpow radix2 (-1070)); [lra|]. apply Rle_trans with (bpow radix2 (-3)); [apply bpow_le; lia|]. change (bpow radix2 (-3)) with (/ 8). lra. }
  assert (Htr : tau * exp ratio <= 1).
  { apply Rle_trans with (bpow radix2 (-1070) * bpow radix2 962); [apply Rmult_le_compat; [lra|apply Rlt_le, exp_pos|lra|exact Hexp1]|].
    rewrite <- bpow_plus. apply Rle_trans with (bpow radix2 0); [apply bpow_le; lia|right; reflexivity]. }
  assert (Hds : delta * (3 * bound + 3 * ratio + 5) <= 1/2).
  { apply Rle_trans with (/ 1125899906842624 * (3 * 1000000000000 + 3 * 600 + 5)); [|lra]. apply Rmult_le_compat; [rewrite ur_val in Hd; lra|lra|lra|lra]. }
  rewrite ur_val in Hd.
  assert (Hacc := accurate_b64 fe fl delta tau HL ltac:(rewrite ur_val; lra) ltac:(lra)).
  exact (accurate_acceptance eqX val finite (b64_dops fe fl) delta tau DBL_MAX Hacc ll rho L q S0 bound ratio lambda kappa gamma Hcc Hqb Hposs us Hus Hun
    ltac:(lra) ltac:(lra) ltac:(lra) Htr Hds ltac:(lra) ltac:(lra) ltac:(lra) ltac:(lra)).
Qed.

Theorem double_averages :
  forall (X : Type) (eqX : forall x y : X, {x = y} + {x <> y}) (L : X -> R) (q : X -> X -> R) (states : list X) (can : X -> bool),
  NoDup states -> proposal_distribution states q ->
  (forall x y, In x (filter can states) -> In y (filter can states) -> exists k, reaches (filter can states) q k x y) ->
  forall f, exists C, forall N (ll : X -> f64) (rho : X -> X -> f64) bound ratio lambda kappa, (0 < N)%nat ->
  close_callbacks val finite ll rho L q (filter can states) bound ratio lambda kappa -> bound <= 1000000000000 -> 0 <= ratio <= 600 ->
  (forall x, In x states -> possible (b64_dops nearest_exp nearest_log) ll x = can x) ->
  forall x0 n, In x0 (filter can states) -> (0 < n)%nat ->
  let run := dexpectation (b64_dops nearest_exp nearest_log) ll rho q (canonical N) states x0 n in
  let mu := mean_in (filter can states) (target (filter can states) L) f in
  let eps := / INR N + 2 * lambda + kappa + unit_roundoff * (2 * bound + 3 * ratio + 7) + half_denorm_min * (2 * exp ratio + 5) in
  run (fun l => (sample_average f l - mu) ^ 2) <= C * (/ INR n + eps ^ 2) /\
  ((N.of_nat n < two64)%N -> run (fun l => (estimate f l - mu) ^ 2) = run (fun l => (sample_average f l - mu) ^ 2)).
Proof.
  intros X eqX L q states can Hnd Hq Hr f. destruct (prec_averages eqX L q states can Hnd Hq Hr f) as (C & HC). exists C.
  intros N ll rho bound ratio lambda kappa HN Hcc Hb Hrat Hposs x0 n Hx0 Hn. cbv zeta.
  destruct (canonical_uniform N HN) as (Hfin & Hun).
  assert (Hus : canonical N <> []) by (unfold canonical; destruct N; [lia|discriminate]).
  assert (Hqb : forall x y, 0 < q x y -> 0 < q y x) by (intros x y; exact (MHRun.q_back q states Hq x y)).
  pose proof hd_pos as Hh. assert (Hu50 : unit_roundoff <= bpow radix2 (-50)) by (apply bpow_le; lia). assert (Hh70 : half_denorm_min <= bpow radix2 (-1070)) by (apply bpow_le; lia).
  assert (Hacc := double_acceptance X eqX _ _ _ _ nearest_library (conj (Rle_refl _) Hu50) (conj (Rle_refl _) Hh70)
    ll rho L q (filter can states) bound ratio lambda kappa Hcc Hqb ltac:(intros x Hx; apply filter_In in Hx; rewrite Hposs; apply Hx) Hb Hrat (canonical N) _ Hfin Hun).
  assert (Hb0 : 0 <= bound). { destruct (cc_ll _ _ _ _ _ _ _ _ _ _ _ Hcc x0 Hx0) as (_ & H & _). eapply Rle_trans; [apply Rabs_pos|exact H]. }
  assert (Hl0 : 0 <= lambda). { destruct (cc_ll _ _ _ _ _ _ _ _ _ _ _ Hcc x0 Hx0) as (_ & _ & H). eapply Rle_trans; [apply Rabs_pos|exact H]. }
  match type of Hacc with accepts_up_to _ _ _ _ _ _ _ _ ?e => replace e with (/ INR N + 2 * lambda + kappa + unit_roundoff * (2 * bound + 3 * ratio + 7) + half_denorm_min * (2 * exp ratio + 5)) in Hacc by ring end.
  split.
  - set (eps := _ + _ * (2 * exp ratio + 5)) in *.
    destruct (Rle_dec 0 eps) as [He|He].
    + apply (HC f64 _ ll rho (canonical N) eps Hus He Hposs Hacc x0 n Hx0 Hn).
    + (* no pair of states is proposed: any eps does *)
      assert (He0 : 0 <= - eps) by lra. replace (eps ^ 2) with ((- eps) ^ 2) by ring.
      apply (HC f64 _ ll rho (canonical N) (- eps) Hus He0 Hposs); [|exact Hx0|exact Hn].
      intros x y Hx Hy Hxy. specialize (Hacc x y Hx Hy Hxy). pose proof (Rabs_pos (acceptance (b64_dops nearest_exp nearest_log) ll rho (canonical N) eqX x y - Rmin 1 (mh_ratio L x y (q x y / q y x)))). lra.
  - intros Hn64. exact (prec_estimate eqX q states can Hnd Hq f64 _ ll rho (canonical N) Hus Hposs (fun a => (a - mean_in (filter can states) (target (filter can states) L) f) ^ 2) f x0 n Hx0 Hn Hn64).
Qed.
