(** MeanValue in IEEE double arithmetic. *)
From Coq Require Import Reals ZArith Lra Lia Psatz Permutation.
From Flocq Require Import Core BinarySingleNaN.
From Verif Require Import Prelude ConsumerModel StatsModel StatsProofs HistFloat FloatSpec FloatBase.
Local Open Scope R_scope.

(** One step on real numbers. *)
Section Step.
Variables (m x N : R).
Hypothesis Hm : is_double m.
Hypothesis Hx : is_double x.
Hypothesis HN : 2 <= N.

Lemma quot_pos : m <= x -> 0 <= rnd (rnd (x - m) / N) <= x - m.
Proof.
  intros H. assert (Hd : 0 <= rnd (x - m)) by (apply rnd_ge; [apply generic_format_0|lra]).
  assert (Hq : 0 <= rnd (x - m) / N <= rnd (x - m) / 2).
  { split; [apply Rmult_le_pos; [exact Hd|apply Rlt_le, Rinv_0_lt_compat; lra]|].
    apply Rmult_le_compat_l; [exact Hd|]. apply Rinv_le_contravar; lra. }
  split; [apply rnd_ge; [apply generic_format_0|apply Hq]|].
  destruct (Rle_lt_dec (x - m) (bpow radix2 (-1021))) as [HS|HL].
  - assert (E : rnd (x - m) = x - m) by (apply small_exact; [easy..|rewrite Rabs_pos_eq by lra; exact HS]).
    apply rnd_le; [rewrite <- E; apply rnd_double|]. rewrite E in *. lra.
  - eapply Rle_trans; [apply rnd_mono, Hq|].
    assert (HB : bpow radix2 (-1021) <= rnd (x - m)) by (apply rnd_ge; [apply bpow_double; lia|lra]).
    assert (HH : bpow radix2 (-1021) = 2 * bpow radix2 (-1022)) by (change 2 with (bpow radix2 1); rewrite <- bpow_plus; reflexivity).
    assert (Hr : rnd (x - m) <= (x - m) * (1 + u)).
    { apply rnd_rel. pose proof (bpow_gt_0 radix2 (-1022)). lra. }
    eapply Rle_trans; [apply rnd_rel; lra|]. rewrite u_val in *. lra.
Qed.
End Step.

Lemma quot_between : forall m x N, is_double m -> is_double x -> 2 <= N ->
  let q := rnd (rnd (x - m) / N) in (m <= x -> 0 <= q <= x - m) /\ (x <= m -> x - m <= q <= 0).
Proof.
  intros m x N Hm Hx HN q. split; [now apply quot_pos|]. intros H.
  pose proof (quot_pos (-m) (-x) N (opp_double _ Hm) (opp_double _ Hx) HN ltac:(lra)) as HQ.
  assert (E : rnd (rnd (- x - - m) / N) = - q).
  { unfold q. replace (- x - - m) with (- (x - m)) by ring. rewrite rnd_opp. unfold Rdiv. rewrite <- Ropp_mult_distr_l, rnd_opp. reflexivity. }
  rewrite E in HQ. lra.
Qed.

(** The new mean lies between the old one and the sample. *)
Lemma step_between : forall m x N lo hi, is_double m -> is_double x -> 2 <= N ->
  lo <= m <= hi -> lo <= x <= hi -> lo <= rnd (m + rnd (rnd (x - m) / N)) <= hi.
Proof.
  intros m x N lo hi Hm Hx HN H1 H2. destruct (quot_between m x N Hm Hx HN) as [HA HB].
  destruct (Rle_lt_dec m x) as [H|H].
  - specialize (HA H). split; [apply Rle_trans with m; [lra|]; apply rnd_ge; [easy|lra]|apply Rle_trans with x; [|lra]; apply rnd_le; [easy|lra]].
  - specialize (HB ltac:(lra)). split; [apply Rle_trans with x; [lra|]; apply rnd_ge; [easy|lra]|apply Rle_trans with m; [|lra]; apply rnd_le; [easy|lra]].
Qed.

(** One step on doubles. *)
Definition fstep (m x : f64) (n : N) : f64 := kadd b64_ops m (kdiv b64_ops (ksub b64_ops x m) (kofN b64_ops n)).
Lemma fstep_ok : forall m x n lo hi, finite m -> finite x -> (2 <= n < 2 ^ 64)%N ->
  lo <= val m <= hi -> lo <= val x <= hi -> hi - lo <= DBL_MAX ->
  finite (fstep m x n) /\ val (fstep m x n) = rnd (val m + rnd (rnd (val x - val m) / val (kofN b64_ops n))).
Proof.
  intros m x n lo hi Fm Fx Hn H1 H2 HS. unfold fstep.
  destruct (sub_ok x m Fx Fm) as [F1 V1]; [apply Rabs_le; lra|].
  pose proof (ofN_ge2 n Hn) as HN. destruct (ofN_ok n ltac:(lia)) as [FN VN].
  pose proof (quot_between (val m) (val x) (val (kofN b64_ops n)) (val_double m) (val_double x) HN) as [HA HB].
  destruct (div_ok (ksub b64_ops x m) (kofN b64_ops n) F1) as [F2 V2]; [lra| |].
  { rewrite V1. unfold Rdiv. rewrite Rabs_mult. apply Rle_trans with (DBL_MAX * 1).
    - apply Rmult_le_compat; [apply Rabs_pos..| |].
      + apply rnd_abs; [apply max_double|apply Rabs_le; lra].
      + rewrite Rabs_pos_eq by (apply Rlt_le, Rinv_0_lt_compat; lra). rewrite <- Rinv_1. apply Rinv_le_contravar; lra.
    - lra. }
  rewrite V1 in V2. pose proof (Rabs_le_inv _ _ (val_max m)). pose proof (Rabs_le_inv _ _ (val_max x)).
  destruct (add_ok m _ Fm F2) as [F3 V3].
  { rewrite V2. apply Rabs_le. destruct (Rle_lt_dec (val m) (val x)) as [H3|H3]; [specialize (HA H3)|specialize (HB ltac:(lra))]; lra. }
  rewrite V2 in V3. auto.
Qed.

Lemma Forall_snoc : forall A (P : A -> Prop) l x, Forall P (l ++ [x]) -> Forall P l /\ P x.
Proof. intros A P l x H. rewrite Forall_app in H. destruct H as [H1 H2]. now inversion H2. Qed.

(** The component i of the mean after each sample. *)
Fixpoint frun (n : N) (m : f64) (xs : list f64) : f64 :=
  match xs with [] => m | x :: r => frun (n + 1) (fstep m x (n + 1)) r end.
Definition fmean (xs : list f64) : f64 := match xs with [] => B754_zero false | x :: r => frun 1 x r end.
Lemma frun_snoc : forall xs n m x, frun n m (xs ++ [x]) = fstep (frun n m xs) x (n + N.of_nat (length xs) + 1).
Proof.
  induction xs as [|y xs IH]; intros n m x.
  - cbn [app frun length]. f_equal. lia.
  - cbn [app frun length]. rewrite IH. f_equal. lia.
Qed.
Lemma fmean_snoc : forall xs x, xs <> [] -> fmean (xs ++ [x]) = fstep (fmean xs) x (N.of_nat (length xs) + 1).
Proof. intros [|y xs] x H; [easy|]. cbn [app fmean length]. rewrite frun_snoc. f_equal. lia. Qed.

Lemma mean_run : forall dflt d (xs : list (list f64)), xs <> [] -> Forall (fun x => length x = d) xs -> (N.of_nat (length xs) < 2 ^ 64)%N ->
  exists m, run_consumer (mean_consume b64_ops) (mean_init dflt) xs = Ok {| mv_mean := Some m; mv_n := N.of_nat (length xs) |} /\ length m = d /\
    forall i, (i < d)%nat -> at_ i m = fmean (map (at_ i) xs).
Proof.
  intros dflt d xs. induction xs as [|x xs IH] using rev_ind; intros Hne HS Hlen; [easy|]. clear Hne.
  apply Forall_snoc in HS. destruct HS as [HS Hd].
  rewrite app_length in Hlen. cbn [length] in Hlen.
  rewrite run_snoc. destruct xs as [|y ys] eqn:Ex.
  - exists x. split; [reflexivity|]. split; [exact Hd|]. intros i Hi. reflexivity.
  - rewrite <- Ex in *. assert (Hne : xs <> []) by (subst; discriminate).
    assert (Hp : (1 <= length xs)%nat) by (subst xs; cbn; lia). clear Ex y ys.
    destruct (IH Hne HS ltac:(lia)) as (m & E & Hm & Hi). rewrite E. cbn [bind].
    unfold mean_consume. cbn [mv_n mv_mean]. destruct (N.eqb_spec (N.of_nat (length xs)) 0) as [C|_]; [lia|].
    rewrite wrap_small by (unfold two64; lia). rewrite same_size_true by congruence.
    assert (En : (N.of_nat (length xs) + 1)%N = N.of_nat (length (xs ++ [x]))) by (rewrite app_length; cbn; lia). rewrite En.
    eexists. split; [reflexivity|].
    assert (L1 : length (vop (ksub b64_ops) x m) = d) by (rewrite vop_length; congruence).
    split.
    + unfold mean_update. rewrite vop_length; [exact Hm|]. rewrite map_length. congruence.
    + intros i Hid. rewrite map_app. cbn [map]. rewrite fmean_snoc by (destruct xs; [easy|discriminate]). rewrite map_length, En, <- (Hi i Hid).
      unfold mean_update, fstep. pose proof (comp_vop b64_ops) as CV. pose proof (comp_map b64_ops) as CM. unfold comp in CV, CM. cbn [k0 b64_ops] in CV, CM.
      unfold at_. rewrite CV; [|rewrite map_length; congruence|lia]. f_equal. rewrite CM by lia. f_equal. apply CV; [congruence|lia].
Qed.

Lemma fmean_range : forall lo hi (xs : list f64), xs <> [] -> (N.of_nat (length xs) < 2 ^ 64)%N ->
  Forall (fun x => finite x /\ lo <= val x <= hi) xs -> hi - lo <= DBL_MAX ->
  finite (fmean xs) /\ lo <= val (fmean xs) <= hi.
Proof.
  intros lo hi xs. induction xs as [|x xs IH] using rev_ind; intros Hne Hlen HF HS; [easy|]. clear Hne.
  apply Forall_snoc in HF. destruct HF as [HF [Fx Bx]]. rewrite app_length in Hlen. cbn [length] in Hlen.
  assert (HD : xs = [] \/ xs <> []) by (destruct xs; [left; reflexivity|right; discriminate]). destruct HD as [->|Hne]; [cbn [app fmean frun]; split; [exact Fx|exact Bx]|].
  assert (Hp : (1 <= length xs)%nat) by (destruct xs; [easy|cbn; lia]).
  destruct (IH Hne ltac:(lia) HF HS) as [Fm Bm]. rewrite fmean_snoc by easy.
  assert (Hn : (2 <= N.of_nat (length xs) + 1 < 2 ^ 64)%N) by lia.
  destruct (fstep_ok (fmean xs) x _ _ _ Fm Fx Hn Bm Bx HS) as [F V]. split; [exact F|]. rewrite V.
  apply step_between; auto using val_double. now apply ofN_ge2.
Qed.

(** The rounding error of one step. *)
Lemma step_error : forall m x n M, is_double m -> is_double x -> (2 <= n)%R -> Rabs m <= M -> Rabs x <= M ->
  Rabs (rnd (m + rnd (rnd (x - m) / n)) - (m + (x - m) / n)) <= 5 * unit_roundoff * M / n + half_denorm_min + unit_roundoff * M.
Proof.
  intros m x n M Hm Hx Hn H1 H2. pose proof (quot_between m x n Hm Hx Hn) as HQ. cbv zeta in HQ.
  pose proof (rnd_double (rnd (x - m) / n)) as Hq.
  destruct (rnd_minus x m Hx Hm) as (e1 & He1 & E1). destruct (rnd_any (rnd (x - m) / n)) as (e2 & h & He2 & Hh & E2).
  set (q := rnd (rnd (x - m) / n)) in *.
  destruct (rnd_plus m q Hm Hq) as (e3 & He3 & E3). rewrite E3.
  assert (HB : Rabs (m + q) <= M).
  { apply Rabs_le_inv in H1. apply Rabs_le_inv in H2. apply Rabs_le. destruct HQ as [HA HB].
    destruct (Rle_lt_dec m x) as [H|H]; [specialize (HA H)|specialize (HB ltac:(lra))]; lra. }
  assert (Eq : q - (x - m) / n = (x - m) / n * (e1 + e2 + e1 * e2) + h) by (rewrite E2, E1; field; lra).
  assert (Hu : unit_roundoff <= 1 / 1000) by (rewrite ur_val; lra).
  assert (H0 : 0 < unit_roundoff) by (rewrite ur_val; lra).
  assert (Hee : Rabs (e1 + e2 + e1 * e2) <= 5 / 2 * unit_roundoff).
  { eapply Rle_trans; [apply Rabs_triang|]. rewrite Rabs_mult.
    assert (Rabs e1 * Rabs e2 <= unit_roundoff * (1 / 1000)) by (apply Rmult_le_compat; try apply Rabs_pos; lra).
    pose proof (Rabs_triang e1 e2). lra. }
  assert (Hxm : Rabs ((x - m) / n) <= 2 * M / n).
  { unfold Rdiv. rewrite Rabs_mult, (Rabs_pos_eq (/ n)) by (apply Rlt_le, Rinv_0_lt_compat; lra).
    apply Rmult_le_compat_r; [apply Rlt_le, Rinv_0_lt_compat; lra|]. apply Rabs_le_inv in H1. apply Rabs_le_inv in H2. apply Rabs_le. lra. }
  replace ((m + q) * (1 + e3) - (m + (x - m) / n)) with ((x - m) / n * (e1 + e2 + e1 * e2) + h + (m + q) * e3) by (rewrite <- Eq; ring).
  eapply Rle_trans; [apply Rabs_triang|]. eapply Rle_trans; [apply Rplus_le_compat_r, Rabs_triang|]. rewrite !Rabs_mult.
  assert (Ha : Rabs ((x - m) / n) * Rabs (e1 + e2 + e1 * e2) <= 2 * M / n * (5 / 2 * unit_roundoff)) by (apply Rmult_le_compat; try apply Rabs_pos; lra).
  assert (Hb : Rabs (m + q) * Rabs e3 <= M * unit_roundoff) by (apply Rmult_le_compat; try apply Rabs_pos; lra).
  replace (5 * unit_roundoff * M / n) with (2 * M / n * (5 / 2 * unit_roundoff)) by (field; lra). lra.
Qed.

Definition rsum (xs : list f64) : R := fold_right Rplus 0 (map val xs).
Lemma rsum_snoc : forall xs x, rsum (xs ++ [x]) = rsum xs + val x.
Proof. induction xs as [|y xs IH]; intros x; unfold rsum in *; cbn in *; [ring|rewrite IH; ring]. Qed.
Lemma rsum_perm : forall xs ys, Permutation xs ys -> rsum xs = rsum ys.
Proof. intros xs ys H. unfold rsum. induction H; cbn in *; lra. Qed.

Lemma fmean_error : forall M (xs : list f64), xs <> [] -> (N.of_nat (length xs) <= 2 ^ 53)%N ->
  Forall (fun x => finite x /\ Rabs (val x) <= M) xs -> 2 * M <= DBL_MAX ->
  INR (length xs) * Rabs (val (fmean xs) - rsum xs / INR (length xs))
  <= (5 * (INR (length xs) - 1) + INR (length xs) * (INR (length xs) + 1) / 2 - 1) * (unit_roundoff * M + half_denorm_min).
Proof.
  intros M xs. induction xs as [|x xs IH] using rev_ind; intros Hne Hlen HF HS; [easy|]. clear Hne.
  pose proof HF as HF0. apply Forall_snoc in HF. destruct HF as [HF [Fx Bx]]. rewrite app_length in *. cbn [length] in *.
  assert (H0 : 0 < unit_roundoff) by (rewrite ur_val; lra). pose proof hd_pos as Hh.
  assert (HM : 0 <= M) by (eapply Rle_trans; [apply Rabs_pos|exact Bx]).
  assert (HD : xs = [] \/ xs <> []) by (destruct xs; [left; reflexivity|right; discriminate]). destruct HD as [->|Hne].
  { unfold rsum. cbn [app fmean frun length map fold_right plus INR].
    replace (val x - (val x + 0) / 1) with 0 by field. rewrite Rabs_R0.
    assert (0 <= unit_roundoff * M) by (apply Rmult_le_pos; lra). lra. }
  assert (Hp : (1 <= length xs)%nat) by (destruct xs; [easy|cbn; lia]).
  specialize (IH Hne ltac:(lia) HF HS).
  destruct (fmean_range (-M) M xs Hne ltac:(lia)) as [Fm Bm].
  { eapply Forall_impl; [|exact HF]. intros a [H1 H2]. apply Rabs_le_inv in H2. split; [easy|lra]. } { lra. }
  rewrite fmean_snoc by easy. rewrite rsum_snoc. rewrite plus_INR. change (INR 1) with 1.
  set (k := INR (length xs)) in *. assert (Hk : 1 <= k) by (apply (le_INR 1); lia).
  assert (Hn : (2 <= N.of_nat (length xs) + 1 < 2 ^ 64)%N) by lia. apply Rabs_le_inv in Bx.
  destruct (fstep_ok (fmean xs) x _ (-M) M Fm Fx Hn Bm ltac:(lra) ltac:(lra)) as [F V]. rewrite V.
  assert (EN : val (kofN b64_ops (N.of_nat (length xs) + 1)) = k + 1).
  { rewrite ofN_exact by lia. unfold k. rewrite INR_IZR_INZ, <- plus_IZR. f_equal. lia. }
  rewrite EN. set (m := val (fmean xs)) in *. set (s := rsum xs) in *.
  pose proof (step_error m (val x) (k + 1) M (val_double _) (val_double _) ltac:(lra) ltac:(apply Rabs_le; lra) ltac:(apply Rabs_le; lra)) as HE.
  set (m' := rnd (m + rnd (rnd (val x - m) / (k + 1)))) in *.
  set (E := unit_roundoff * M + half_denorm_min) in *.
  assert (HEk : (k + 1) * Rabs (m' - (m + (val x - m) / (k + 1))) <= 5 * E + (k + 1) * E).
  { apply Rle_trans with ((k + 1) * (5 * unit_roundoff * M / (k + 1) + half_denorm_min + unit_roundoff * M)).
    - apply Rmult_le_compat_l; lra.
    - replace ((k + 1) * (5 * unit_roundoff * M / (k + 1) + half_denorm_min + unit_roundoff * M)) with (5 * (unit_roundoff * M) + (k + 1) * E) by (unfold E; field; lra).
      unfold E at 2. lra. }
  replace (m' - (s + val x) / (k + 1)) with (m' - (m + (val x - m) / (k + 1)) + k / (k + 1) * (m - s / k)) by (field; lra).
  assert (Ht : (k + 1) * Rabs (k / (k + 1) * (m - s / k)) = k * Rabs (m - s / k)).
  { rewrite Rabs_mult, Rabs_pos_eq by (apply Rmult_le_pos; [lra|apply Rlt_le, Rinv_0_lt_compat; lra]). field. lra. }
  pose proof (Rabs_triang (m' - (m + (val x - m) / (k + 1))) (k / (k + 1) * (m - s / k))) as HT.
  apply Rle_trans with ((k + 1) * Rabs (m' - (m + (val x - m) / (k + 1))) + (k + 1) * Rabs (k / (k + 1) * (m - s / k))).
  { rewrite <- Rmult_plus_distr_l. apply Rmult_le_compat_l; lra. }
  rewrite Ht. nra.
Qed.
Lemma fmean_error' : forall M (xs : list f64), xs <> [] -> (N.of_nat (length xs) <= 2 ^ 53)%N ->
  Forall (fun x => finite x /\ Rabs (val x) <= M) xs -> 2 * M <= DBL_MAX ->
  Rabs (val (fmean xs) - rsum xs / INR (length xs)) <= (INR (length xs) / 2 + 6) * (unit_roundoff * M + half_denorm_min).
Proof.
  intros M xs Hne Hl HF HM. pose proof (fmean_error M xs Hne Hl HF HM) as H.
  assert (Hk : 1 <= INR (length xs)) by (apply (le_INR 1); destruct xs; [easy|cbn; lia]). set (k := INR (length xs)) in *.
  assert (HE : 0 <= unit_roundoff * M + half_denorm_min).
  { pose proof hd_pos. assert (0 <= M). { destruct xs as [|x r]; [easy|]. inversion HF as [|? ? [_ Hx] _]; subst. eapply Rle_trans; [apply Rabs_pos|exact Hx]. }
    assert (0 <= unit_roundoff * M) by (apply Rmult_le_pos; [rewrite ur_val; lra|easy]). lra. }
  apply (Rmult_le_reg_l k); [lra|]. eapply Rle_trans; [exact H|]. rewrite <- Rmult_assoc. apply Rmult_le_compat_r; [exact HE|]. nra.
Qed.
