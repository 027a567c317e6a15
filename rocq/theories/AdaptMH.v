(** Adaptive Metropolis converges: the conditions of AdaptFinite hold for Metropolis-Hastings. *)
From Coq Require Import Reals Lra Lia.
From Coquelicot Require Import Coquelicot.
From Verif Require Import Prelude ConsumerModel ProducerModel ProducerSpec XReal MHSpec MHProofs MHRunSpec DEStat MarkovFinite MHRun MarkovStats AdaptSpec AdaptRun AdaptFinite.
Import ListNotations.
Local Open Scope R_scope.
Local Open Scope list_scope.
Local Notation length := List.length.

Lemma Rmin_close : forall a b a' b' e f, Rabs (a' - a) <= e -> Rabs (b' - b) <= f -> Rabs (Rmin a' b' - Rmin a b) <= e + f.
Proof.
  intros a b a' b' e f H1 H2. apply Rcomplements.Rabs_le_between in H1, H2. apply Rabs_le. unfold Rmin. destruct (Rle_dec a' b'), (Rle_dec a b); lra.
Qed.
Lemma sumR_const_le : forall {Y} (f : Y -> R) l v, (forall y, In y l -> f y <= v) -> sumR f l <= INR (length l) * v.
Proof. intros Y f l v H. induction l as [|y l IH]; [cbn; lra|]. cbn [sumR length]. rewrite S_INR. pose proof (H y (or_introl eq_refl)). assert (sumR f l <= INR (length l) * v) by (apply IH; intros; apply H; now right). lra. Qed.

Section MH.
Context {X : Type}.
Variable eqX : forall x y : X, {x = y} + {x <> y}.
Variables (ll : X -> R) (q : list X -> X -> X -> R) (states : list X).
Hypothesis states_nodup : NoDup states.
Hypothesis ll_nonzero : forall x, nonzero (ll x).
Hypothesis Hq : adaptive_proposals states q.
Local Notation p := (target states ll).
Local Notation K := (adaptive_kernel states eqX ll q).
Variables (b : R) (m : nat) (G : X -> X -> Prop) (c : R).
Hypothesis Hstuck : never_stuck states q b m G.
Hypothesis Hdim : diminishing states q c.

Lemma ap_le_1 : forall x, In x states -> p x <= 1.
Proof. apply (MHRun.p_le_1 ll (q [])); auto using incl_nil_l. Qed.
Lemma ap_sum : states <> [] -> sumR p states = 1.
Proof. apply (MHRun.p_sum ll (q [])); auto using incl_nil_l. Qed.
Lemma ad_sum : forall (T : X -> X -> R) d x, In x states -> sumR (T x) states = 1 -> (forall y, In y states -> d * p y <= T x y) -> d <= 1.
Proof. apply (MHRun.d_le_1 ll (q [])); auto using incl_nil_l. Qed.
Lemma aind : forall y, In y states -> within states 1 (fun x => delta eqX y x - mean_in states p (delta eqX y)).
Proof. apply (MHRun.indicator_within eqX ll (q [])); auto using incl_nil_l. Qed.
Lemma abeta : forall h b x y, incl h states -> In x states -> In y states -> 0 < b -> b <= q h x y -> b <= q h y x -> b * p y <= K h x y.
Proof. intros h b0 x y Hh. apply (MHRun.K_beta eqX ll (q h)); auto. Qed.
Lemma aK_nonneg : forall h x y, incl h states -> In x states -> In y states -> 0 <= K h x y.
Proof. intros h x y Hh Hx Hy. apply (MHRun.K_nonneg eqX ll (q h) states (Hq h Hh)); auto. Qed.
Lemma aK_sum : forall h x, incl h states -> In x states -> sumR (K h x) states = 1.
Proof. intros h x Hh Hx. now apply (MHRun.K_sum eqX ll (q h) states states_nodup). Qed.
Lemma ap_stationary : forall h y, incl h states -> In y states -> sumR (fun x => p x * K h x y) states = p y.
Proof. intros h y Hh Hy. now apply (MHRun.p_stationary eqX ll (q h) states states_nodup (Hq h Hh)). Qed.
Lemma adoeblin : exists d, 0 < d /\ forall h x y, incl h states -> In x states -> In y states -> d * p y <= step eqX states (K h) m x y.
Proof.
  destruct Hstuck as (Hb & Hm & HG & Hpath).
  destruct (lower_bound p states) as (e & He & Hle); [intros; now apply MHRun.p_pos|].
  assert (Hbe : 0 < b * e) by now apply Rmult_lt_0_compat.
  exists ((b * e) ^ m). split; [now apply pow_lt|]. intros h x y Hh Hx Hy.
  apply Rle_trans with ((b * e) ^ m).
  { rewrite <- (Rmult_1_r ((b * e) ^ m)) at 2. apply Rmult_le_compat_l; [apply Rlt_le, pow_lt, Hbe|now apply ap_le_1]. }
  specialize (Hpath x y Hx Hy). clear Hm. revert x Hx Hpath. generalize m. intros k. induction k as [|k IH]; intros x Hx Hp; cbn [path] in Hp.
  - subst y. cbn. unfold delta. destruct (eqX x x); [lra|congruence].
  - destruct Hp as (z & Hz & Hg & Hp). unfold step. cbn [it pow]. unfold P.
    eapply Rle_trans; [|apply (sumR_member (fun w => K h x w * it states (K h) k (delta eqX y) w) states z)].
    + apply Rmult_le_compat; [lra|apply Rlt_le, pow_lt, Hbe| |now apply IH].
      destruct (HG h x z Hh Hx Hz Hg) as [B1 B2].
      eapply Rle_trans; [|exact (abeta h b x z Hh Hx Hz Hb B1 B2)].
      apply Rmult_le_compat_l; [lra|now apply Hle].
    + intros w Hw. apply Rmult_le_pos; [now apply aK_nonneg|]. apply step_nonneg; auto. intros; now apply aK_nonneg.
    + exact Hz.
Qed.
Let flow h x y := q h x y * Rmin 1 (mh_ratio ll x y (q h x y / q h y x)).
Lemma flow_min : forall h x y, incl h states -> flow h x y = Rmin (q h x y) (exp (ll y - ll x) * q h y x).
Proof.
  intros h x y Hh. unfold flow. pose proof (pd_nonneg _ _ (Hq h Hh) x y) as Hp. destruct Hp as [Hp|Hp].
  - assert (Hr : q h x y * mh_ratio ll x y (q h x y / q h y x) = exp (ll y - ll x) * q h y x).
    { assert (Hb : q h y x <> 0) by (intros E; apply (pd_back _ _ (Hq h Hh)) in E; lra). unfold mh_ratio, Rminus. rewrite exp_plus, exp_Ropp. pose proof (exp_pos (ll x)). field. repeat split; lra. }
    rewrite <- Hr. unfold Rmin. destruct (Rle_dec 1 (mh_ratio ll x y (q h x y / q h y x))) as [L|L];
    destruct (Rle_dec (q h x y) (q h x y * mh_ratio ll x y (q h x y / q h y x))) as [L'|L']; try lra.
    + exfalso. apply L'. rewrite <- (Rmult_1_r (q h x y)) at 1. apply Rmult_le_compat_l; lra.
    + exfalso. apply L. apply Rmult_le_reg_l with (q h x y); lra.
  - rewrite <- Hp. rewrite (pd_back _ _ (Hq h Hh) x y) by lra. rewrite Rmult_0_r, Rmult_0_l, Rmin_left; lra.
Qed.
Lemma aclose : exists c', 0 <= c' /\ forall h z x, incl h states -> In z states -> In x states ->
  sumR (fun y => Rabs (K (h ++ [z]) x y - K h x y)) states <= c' / INR (S (length h)).
Proof.
  destruct (lower_bound (fun xy => exp (- (ll (snd xy) - ll (fst xy)))) (list_prod states states)) as (w & Hw & Hle); [intros; apply exp_pos|].
  assert (HW : forall x y, In x states -> In y states -> exp (ll y - ll x) <= / w).
  { intros x y Hx Hy. pose proof (Hle (x, y) ltac:(now apply in_prod)) as H. cbn [fst snd] in H. rewrite exp_Ropp in H. pose proof (exp_pos (ll y - ll x)).
    rewrite <- (Rinv_inv (exp (ll y - ll x))). apply Rinv_le_contravar; assumption. }
  assert (Hw' : 0 < / w) by now apply Rinv_0_lt_compat.
  set (c0 := Rmax c 0). set (L := INR (length states)).
  assert (Hc0 : 0 <= c0) by apply Rmax_r. assert (HL : 0 <= L) by apply pos_INR.
  exists (2 * (L * (c0 * (1 + / w)))). split.
  { apply Rmult_le_pos; [lra|]. apply Rmult_le_pos; [exact HL|]. apply Rmult_le_pos; lra. }
  intros h z x Hh Hz Hx. set (e := c0 * (1 + / w) / INR (S (length h))).
  assert (Hh' : incl (h ++ [z]) states) by now apply incl_app1.
  assert (HN : 0 < / INR (S (length h))) by (apply Rinv_0_lt_compat, lt_0_INR; lia).
  assert (He : 0 <= e) by (apply Rmult_le_pos; [apply Rmult_le_pos; lra|lra]).
  assert (HF : forall y, In y states -> Rabs (flow (h ++ [z]) x y - flow h x y) <= e).
  { intros y Hy. rewrite !flow_min by assumption.
    assert (H1 : forall u v, In u states -> In v states -> Rabs (q (h ++ [z]) u v - q h u v) <= c0 / INR (S (length h))).
    { intros u v Hu Hv. eapply Rle_trans; [now apply Hdim|]. apply Rmult_le_compat_r; [lra|apply Rmax_l]. }
    replace e with (c0 / INR (S (length h)) + / w * (c0 / INR (S (length h)))) by (unfold e, Rdiv; ring).
    apply Rmin_close; [now apply H1|]. rewrite <- Rmult_minus_distr_l, Rabs_mult, (Rabs_pos_eq (exp _)) by apply Rlt_le, exp_pos.
    apply Rmult_le_compat; [apply Rlt_le, exp_pos|apply Rabs_pos|now apply HW|now apply H1]. }
  assert (HS : Rabs (sumR (flow (h ++ [z]) x) states - sumR (flow h x) states) <= L * e).
  { rewrite <- sumR_minus. eapply Rle_trans; [apply sumR_abs|]. now apply sumR_const_le. }
  replace (2 * (L * (c0 * (1 + / w))) / INR (S (length h))) with (L * e + L * e) by (unfold e, Rdiv; ring).
  set (D := Rabs (sumR (flow (h ++ [z]) x) states - sumR (flow h x) states)) in *.
  apply Rle_trans with (sumR (fun y => Rabs (flow (h ++ [z]) x y - flow h x y) + (if eqX y x then D else 0)) states).
  - apply sumR_le_in. intros y Hy. unfold adaptive_kernel, mh_kernel, kernel.
    change (q (h ++ [z]) x y * Rmin 1 (mh_ratio ll x y (q (h ++ [z]) x y / q (h ++ [z]) y x))) with (flow (h ++ [z]) x y).
    change (q h x y * Rmin 1 (mh_ratio ll x y (q h x y / q h y x))) with (flow h x y).
    change (sumR (fun z0 => q (h ++ [z]) x z0 * Rmin 1 (mh_ratio ll x z0 (q (h ++ [z]) x z0 / q (h ++ [z]) z0 x))) states) with (sumR (flow (h ++ [z]) x) states).
    change (sumR (fun z0 => q h x z0 * Rmin 1 (mh_ratio ll x z0 (q h x z0 / q h z0 x))) states) with (sumR (flow h x) states).
    destruct (eqX x y) as [E|E], (eqX y x) as [E'|E']; try congruence.
    + replace (flow (h ++ [z]) x y + (1 - sumR (flow (h ++ [z]) x) states) - (flow h x y + (1 - sumR (flow h x) states)))
        with ((flow (h ++ [z]) x y - flow h x y) + - (sumR (flow (h ++ [z]) x) states - sumR (flow h x) states)) by ring.
      eapply Rle_trans; [apply Rabs_triang|]. rewrite Rabs_Ropp. fold D. lra.
    + rewrite !Rplus_0_r. lra.
  - rewrite sumR_plus. apply Rplus_le_compat; [now apply sumR_const_le|].
    rewrite (sumR_delta eqX (fun _ => D) x states states_nodup Hx). exact HS.
Qed.
Lemma states_ne : forall x, In x states -> states <> [].
Proof. intros x Hx E. rewrite E in Hx. contradiction. Qed.
Lemma ad_le_1 : forall d x, In x states -> (forall h x y, incl h states -> In x states -> In y states -> d * p y <= step eqX states (K h) m x y) -> d <= 1.
Proof.
  intros d x Hx H. apply (ad_sum (step eqX states (K []) m) d x Hx).
  - apply step_sum; auto. intros z Hz. apply aK_sum; [intros ? []|exact Hz].
  - intros y Hy. apply H; auto. intros ? [].
Qed.
Theorem adaptive_distribution : exists d C, 0 < d /\ forall x0 y n0 n, In x0 states -> In y states ->
  exists v, aexpectation ll q states x0 (n0 + n) (ends_at eqX x0 y) v /\ Rabs (v - p y) <= (1 - d) ^ (n / m) + C * INR n / INR (S n0).
Proof.
  destruct adoeblin as (d & Hd & HD). destruct aclose as (c' & Hc' & HC). exists d, (c' * (INR m / d)). split; [exact Hd|].
  intros x0 y n0 n Hx0 Hy. eexists. split; [now apply (arun_law_all eqX)|].
  assert (Hmn : mean_in states p (delta eqX y) = p y).
  { unfold mean_in. rewrite (sumR_ext_in _ (fun x => if eqX x y then p x else 0)) by (intros z _; unfold delta; destruct (eqX z y); ring).
    now apply (sumR_delta eqX p). }
  rewrite <- Hmn. destruct Hstuck as (Hb & Hm & _).
  pose proof (A_distribution eqX states states_nodup K p c' aK_nonneg aK_sum (ap_sum (states_ne x0 Hx0)) ap_stationary m d Hm
    (conj Hd (ad_le_1 d x0 Hx0 HD)) HD Hc' HC n0 n [] x0 (delta eqX y) 1 ltac:(intros ? []) Hx0 (aind y Hy)) as HA.
  cbn [length Nat.add] in HA.
  replace (c' * (INR m / d) * INR n / INR (S n0)) with (INR n * (c' / INR (S n0) * 1 * (INR m / d))) by (unfold Rdiv; ring).
  rewrite Rmult_1_r in HA. exact HA.
Qed.
Theorem adaptive_limit : forall eps, 0 < eps -> exists N, forall x0 y n, In x0 states -> In y states -> (N <= n)%nat ->
  exists v, aexpectation ll q states x0 n (ends_at eqX x0 y) v /\ Rabs (v - p y) < eps.
Proof.
  intros eps He. destruct adaptive_distribution as (d & C & Hd & HA). destruct Hstuck as (_ & Hm & _).
  destruct states as [|s0 l0] eqn:Es; [exists O; intros x0 y n []|]. rewrite <- Es in *.
  assert (Hs : In s0 states) by (rewrite Es; now left). clear Es.
  assert (Hd1 : d <= 1).
  { destruct (Rle_dec d 1) as [L|L]; [exact L|exfalso].
    destruct adoeblin as (d' & Hd' & HD'). clear HD' Hd'.
    (* n0 large, n = m: the bound is at most C m/(n0+1) - (d-1) < 0 *)
    destruct (nfloor_ex (Rabs C * INR m / (d - 1))) as (N0 & _ & HN0).
    { apply Rmult_le_pos; [apply Rmult_le_pos; [apply Rabs_pos|apply pos_INR]|apply Rlt_le, Rinv_0_lt_compat; lra]. }
    destruct (HA s0 s0 N0 m Hs Hs) as (v & _ & Hv). rewrite Nat.div_same, pow_1 in Hv by lia.
    assert (HI : 0 < INR (S N0)) by (apply lt_0_INR; lia).
    assert (C * INR m / INR (S N0) < d - 1).
    { apply Rmult_lt_reg_r with (INR (S N0)); [exact HI|]. unfold Rdiv. rewrite Rmult_assoc, Rinv_l, Rmult_1_r by lra.
      apply Rle_lt_trans with (Rabs C * INR m); [apply Rmult_le_compat_r; [apply pos_INR|apply Rle_abs]|].
      rewrite <- S_INR in HN0. apply Rmult_lt_compat_l with (r := d - 1) in HN0; [|lra].
      replace ((d - 1) * (Rabs C * INR m / (d - 1))) with (Rabs C * INR m) in HN0 by (field; lra). exact HN0. }
    pose proof (Rabs_pos (v - p s0)). lra. }
  destruct (pow_lt_1_zero (1 - d)) with (y := eps / 2) as (k & Hk); [rewrite Rabs_pos_eq; lra|lra|].
  set (n1 := (k * m)%nat).
  destruct (nfloor_ex (Rabs C * INR n1 / (eps / 2))) as (N0 & _ & HN0).
  { apply Rmult_le_pos; [apply Rmult_le_pos; [apply Rabs_pos|apply pos_INR]|apply Rlt_le, Rinv_0_lt_compat; lra]. }
  exists (N0 + n1)%nat. intros x0 y n Hx0 Hy Hn. destruct (HA x0 y (n - n1)%nat n1 Hx0 Hy) as (v & Hv & Hle).
  replace (n - n1 + n1)%nat with n in Hv by lia. exists v. split; [exact Hv|]. eapply Rle_lt_trans; [exact Hle|].
  unfold n1 at 1. rewrite Nat.div_mul by lia. specialize (Hk k (Nat.le_refl _)). rewrite Rabs_pos_eq in Hk by (apply pow_le; lra).
  assert (HI : 0 < INR (S (n - n1))) by (apply lt_0_INR; lia).
  assert (C * INR n1 / INR (S (n - n1)) < eps / 2); [|lra].
  apply Rmult_lt_reg_r with (INR (S (n - n1))); [exact HI|]. unfold Rdiv at 1. rewrite Rmult_assoc, Rinv_l, Rmult_1_r by lra.
  apply Rle_lt_trans with (Rabs C * INR n1); [apply Rmult_le_compat_r; [apply pos_INR|apply Rle_abs]|].
  apply Rlt_le_trans with (eps / 2 * INR (S N0)).
  - apply Rmult_lt_compat_l with (r := eps / 2) in HN0; [|lra].
    replace (eps / 2 * (Rabs C * INR n1 / (eps / 2))) with (Rabs C * INR n1) in HN0 by (field; lra). rewrite S_INR. exact HN0.
  - apply Rmult_le_compat_l; [lra|]. apply le_INR. lia.
Qed.
Theorem adaptive_average : forall f, exists C, forall x0 n, In x0 states -> (0 < n)%nat ->
  exists v, v <= C / INR n /\ aexpectation ll q states x0 n (fun l => (sample_average f l - mean_in states p f) ^ 2) v /\
    ((N.of_nat n < two64)%N -> aexpectation ll q states x0 n (fun l => (estimate f l - mean_in states p f) ^ 2) v).
Proof.
  intros f. destruct adoeblin as (d & Hd & HD). destruct aclose as (c' & Hc' & HC). destruct Hstuck as (Hb & Hm & _).
  destruct states as [|s0 l0] eqn:Es; [exists 0; intros x0 n []|]. rewrite <- Es in *.
  assert (Hs : In s0 states) by (rewrite Es; now left). clear Es.
  destruct (A_average eqX states states_nodup K p c' aK_nonneg aK_sum (ap_sum (states_ne s0 Hs)) ap_stationary m d Hm
    (conj Hd (ad_le_1 d s0 Hs HD)) HD HC f) as (C & HA).
  exists C. intros x0 n Hx0 Hn. eexists. split; [now apply (HA x0 n)|]. split; [now apply (arun_law_all eqX)|].
  intros Hn64. rewrite (achain_ext states K n [] x0 _ (fun l => (estimate f l - mean_in states p f) ^ 2)); [now apply (arun_law_all eqX)|].
  intros l Hl. rewrite estimate_mean; [reflexivity| |now rewrite Hl]. intros ->. clear - Hl Hn. cbn in Hl. lia.
Qed.
End MH.
