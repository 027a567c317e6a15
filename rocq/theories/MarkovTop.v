(** Convergence and averages of any finite Markov chain which preserves the target distribution. *)
From Coq Require Import Reals Lra Lia Field.
From Coquelicot Require Import Coquelicot.
From Verif Require Import Prelude ConsumerModel ProducerModel XReal MHSpec MHProofs StatsModel StatsInst MHRunSpec DEStat MarkovFinite MHRun.
Import ListNotations.
Local Open Scope R_scope.
Local Open Scope list_scope.
Local Notation length := List.length.

Section Target.
Context {X : Type}.
Variables (ll : X -> R) (states : list X).
Local Notation p := (target states ll).
Lemma t_sum : states <> [] -> sumR p states = 1.
Proof.
  intros Hne. destruct states as [|x l] eqn:Es; [contradiction|]. rewrite <- Es. unfold target.
  rewrite sumR_ext_in with (g := fun y => exp (ll y) * / sumR (fun y => exp (ll y)) states) by reflexivity. rewrite sumR_mult_r.
  apply Rinv_r. assert (0 < sumR (fun y => exp (ll y)) states) by (apply sum_exp_pos with x; rewrite Es; now left). lra.
Qed.
Lemma t_le_1 : forall x, In x states -> p x <= 1.
Proof.
  intros x Hx. rewrite <- t_sum by (intros H; rewrite H in Hx; contradiction). apply sumR_member; [|exact Hx]. intros; now apply Rlt_le, p_pos.
Qed.
End Target.

Section Chain.
Context {X : Type}.
Variable eqX : forall x y : X, {x = y} + {x <> y}.
Variables (ll : X -> R) (states : list X) (K : X -> X -> R).
Hypothesis states_nodup : NoDup states.
Hypothesis K_nonneg : forall x y, In x states -> In y states -> 0 <= K x y.
Hypothesis K_sum : forall x, In x states -> sumR (K x) states = 1.
Local Notation p := (target states ll).
Hypothesis p_stationary : forall y, In y states -> sumR (fun x => p x * K x y) states = p y.
Local Notation step := (step eqX states K).

Lemma mean_delta : forall y, In y states -> mean_in states p (delta eqX y) = p y.
Proof.
  intros y Hy. unfold mean_in. rewrite (sumR_ext_in _ (fun x => if eqX x y then p x else 0)) by (intros z _; unfold delta; destruct (eqX z y); ring).
  now apply (sumR_delta eqX p).
Qed.
Lemma c_step_1 : forall x y, In x states -> In y states -> step 1 x y = K x y.
Proof.
  intros x y Hx Hy. unfold MarkovFinite.step. cbn [it]. unfold P, delta.
  rewrite (sumR_ext_in _ (fun z => if eqX z y then K x z else 0)) by (intros z _; destruct (eqX z y); ring).
  now apply (sumR_delta eqX (K x)).
Qed.
Lemma ends_step : forall n x y, markov states K n x (ends_at eqX x y) = step n x y.
Proof. intros n x y. exact (markov_last states K n x (delta eqX y)). Qed.
Lemma c_converges_at : forall m d, (0 < m)%nat -> (forall x y, In x states -> In y states -> d * p y <= step m x y) ->
  forall x0 y n, In x0 states -> In y states -> Rabs (markov states K n x0 (ends_at eqX x0 y) - p y) <= (1 - d) ^ (n / m).
Proof.
  intros m d Hm Hd x0 y n Hx0 Hy. rewrite ends_step. unfold MarkovFinite.step.
  assert (Hne : states <> []) by (intros H; rewrite H in Hx0; contradiction).
  pose proof (it_converges eqX states states_nodup K p K_nonneg K_sum (t_sum ll states Hne) p_stationary m d Hm) as HC.
  rewrite <- (mean_delta y Hy), <- (Rmult_1_r ((1 - d) ^ (n / m))). apply HC; auto.
  intros x Hx. rewrite (mean_delta y Hy). pose proof (p_pos ll states y Hy). pose proof (t_le_1 ll states y Hy). unfold delta. apply Rabs_le. destruct (eqX x y); lra.
Qed.
Lemma c_mean_square : forall m d, 0 < d -> (forall x y, In x states -> In y states -> d * p y <= Qstep eqX states K m x y) ->
  forall f B x0 n, (forall x, In x states -> Rabs (f x - mean_in states p f) <= B) -> In x0 states -> (0 < n)%nat ->
  markov states K n x0 (fun l => (sample_average f l - mean_in states p f) ^ 2) <= B ^ 2 * (1 + 2 * INR m / d) / INR n.
Proof.
  intros m d Hd Hmin f B x0 n HB Hx0 Hn.
  assert (Hne : states <> []) by (intros H; rewrite H in Hx0; contradiction).
  set (mu := mean_in states p f) in *. set (fc := fun y => f y - mu).
  assert (HI : 0 < INR n) by (apply lt_0_INR; exact Hn).
  rewrite (markov_ext states K n x0 _ (fun l => / INR n ^ 2 * (total fc l) ^ 2 + (fun _ => 0) l)).
  2:{ intros l Hl. unfold sample_average, total, fc. rewrite sumR_center, Hl. field. lra. }
  rewrite markov_lin, (markov_const states K K_sum) by assumption. rewrite Rplus_0_r.
  assert (Hwf : within states B fc) by exact HB.
  assert (Hmean : mean_in states p (P states K fc) = 0).
  { rewrite (P_mean states K p p_stationary). unfold fc, mu. unfold mean_in at 1. rewrite (sumR_ext_in _ (fun x => p x * f x - p x * mean_in states p f)) by (intros; ring).
    rewrite sumR_minus, sumR_mult_r, t_sum by exact Hne. unfold mean_in. ring. }
  assert (HM : forall k x, In x states -> Rabs (M states K k (P states K fc) x) <= INR m * B / d).
  { intros k x Hx. apply (M_bounded eqX states states_nodup K p K_nonneg K_sum (t_sum ll states Hne) p_stationary m d Hd Hmin k (P states K fc) B); auto.
    apply P_within; auto. }
  pose proof (second_moment states K K_nonneg K_sum fc B (INR m * B / d) Hwf HM n x0 Hx0) as HS.
  apply Rle_trans with (/ INR n ^ 2 * (INR n * (B ^ 2 + 2 * B * (INR m * B / d)))).
  - apply Rmult_le_compat_l; [|exact HS]. apply Rlt_le, Rinv_0_lt_compat, pow_lt, HI.
  - right. field. lra.
Qed.

Section Reach.
Variable q : X -> X -> R.
Hypothesis K_pos : forall x y, In x states -> In y states -> 0 < q x y -> 0 < K x y.
Lemma c_reaches_pos : forall k x y, In x states -> In y states -> reaches states q k x y -> 0 < step k x y.
Proof.
  induction k as [|k IH]; intros x y Hx Hy H; cbn [reaches] in H.
  - subst y. cbn. unfold delta. destruct (eqX x x); [lra|congruence].
  - destruct H as (z & Hz & Hp & H). unfold MarkovFinite.step. cbn [it]. unfold P.
    eapply Rlt_le_trans; [|apply (sumR_member (fun w => K x w * it states K k (delta eqX y) w) states z)].
    + apply Rmult_lt_0_compat; [now apply K_pos|now apply IH].
    + intros w Hw. apply Rmult_le_pos; [now apply K_nonneg|]. apply step_nonneg; auto.
    + exact Hz.
Qed.
Lemma c_minorization : (forall x y, In x states -> In y states -> exists k, reaches states q k x y) ->
  exists m d, 0 < d /\ forall x y, In x states -> In y states -> d * p y <= Qstep eqX states K m x y.
Proof.
  intros Hr.
  destruct (upper_bound (fun xy k => reaches states q k (fst xy) (snd xy)) (list_prod states states)) as (m & Hm).
  { intros [x y] Hxy. apply in_prod_iff in Hxy. now apply Hr. }
  assert (HQ : forall xy, In xy (list_prod states states) -> 0 < Qstep eqX states K m (fst xy) (snd xy)).
  { intros [x y] Hxy. destruct (Hm _ Hxy) as (k & Hk & Hkr). apply in_prod_iff in Hxy. destruct Hxy as [Hx Hy]. cbn [fst snd] in *.
    unfold Qstep. apply Rmult_lt_0_compat; [apply Rinv_0_lt_compat, lt_0_INR; lia|].
    eapply Rlt_le_trans; [apply (c_reaches_pos k x y Hx Hy Hkr)|]. apply (sumn_member (fun j => step j x y)); [|lia].
    intros j. apply step_nonneg; auto. }
  destruct (lower_bound _ _ HQ) as (e & He & Hl). exists m, e. split; [exact He|].
  intros x y Hx Hy. eapply Rle_trans; [|apply (Hl (x, y)); apply in_prod; assumption].
  rewrite <- (Rmult_1_r e) at 2. apply Rmult_le_compat_l; [lra|now apply t_le_1].
Qed.
Theorem c_converges : forall m, (0 < m)%nat -> (forall x y, In x states -> In y states -> reaches states q m x y) ->
  exists d, 0 < d <= 1 /\ forall x0 y n, In x0 states -> In y states -> Rabs (markov states K n x0 (ends_at eqX x0 y) - p y) <= (1 - d) ^ (n / m).
Proof.
  intros m Hm Hr.
  destruct (lower_bound (fun xy => step m (fst xy) (snd xy)) (list_prod states states)) as (e & He & Hl).
  { intros [x y] Hxy. apply in_prod_iff in Hxy. destruct Hxy. cbn. now apply c_reaches_pos; auto. }
  assert (Hmin : forall x y, In x states -> In y states -> e * p y <= step m x y).
  { intros x y Hx Hy. eapply Rle_trans; [|apply (Hl (x, y)); apply in_prod; assumption].
    rewrite <- (Rmult_1_r e) at 2. apply Rmult_le_compat_l; [lra|now apply t_le_1]. }
  destruct states as [|s0 l0] eqn:Es.
  { exists 1. split; [lra|]. intros x0 y n []. }
  rewrite <- Es in *. exists e. split.
  - split; [exact He|]. assert (Hs : In s0 states) by (rewrite Es; now left). assert (Hne : states <> []) by (rewrite Es; discriminate).
    assert (HT : sumR (step m s0) states = 1) by (apply step_sum; auto).
    rewrite <- HT. rewrite <- (Rmult_1_r e), <- (t_sum ll states Hne), <- sumR_scal. apply sumR_le_in. intros y Hy. now apply Hmin.
  - now apply c_converges_at.
Qed.
Theorem c_averages : (forall x y, In x states -> In y states -> exists k, reaches states q k x y) ->
  forall f, exists C, forall x0 n, In x0 states -> (0 < n)%nat ->
  markov states K n x0 (fun l => (sample_average f l - mean_in states p f) ^ 2) <= C / INR n.
Proof.
  intros Hr f. destruct (c_minorization Hr) as (m & d & Hd & Hmin).
  set (B := norm states (fun x => f x - mean_in states p f)).
  exists (B ^ 2 * (1 + 2 * INR m / d)). intros x0 n Hx0 Hn. apply (c_mean_square m d Hd Hmin f B x0 n); auto.
  apply (norm_within states (fun x => f x - mean_in states p f)).
Qed.
Theorem c_far : (forall x y, In x states -> In y states -> exists k, reaches states q k x y) ->
  forall f, exists C, forall eps x0 n, 0 < eps -> In x0 states -> (0 < n)%nat ->
  0 <= markov states K n x0 (fun l => indicator (far eps (sample_average f l) (mean_in states p f))) <= C / (INR n * eps ^ 2).
Proof.
  intros Hr f. destruct (c_averages Hr f) as (C & HC). exists C. intros eps x0 n He Hx0 Hn.
  pose proof (HC x0 n Hx0 Hn) as Hle.
  assert (HI : 0 < INR n) by (apply lt_0_INR; exact Hn).
  assert (He2 : 0 < eps ^ 2) by (apply pow_lt; exact He).
  split.
  - rewrite <- (markov_const states K K_sum n x0 0 Hx0). apply markov_le; auto.
    intros l. unfold indicator. destruct (far _ _ _); lra.
  - apply Rmult_le_reg_l with (eps ^ 2); [exact He2|].
    apply Rle_trans with (C / INR n).
    2:{ right. field. lra. }
    eapply Rle_trans; [|exact Hle]. clear Hle HC.
    rewrite <- (Rplus_0_r (eps ^ 2 * _)).
    rewrite <- (markov_const states K K_sum n x0 0 Hx0) at 1.
    rewrite <- (markov_lin states K n x0 (eps ^ 2) (fun l => indicator (far eps (sample_average f l) (mean_in states p f))) (fun _ => 0)).
    apply markov_le; auto. intros l. unfold indicator, far.
    destruct (Rle_dec eps (Rabs (sample_average f l - mean_in states p f))) as [H|H].
    + rewrite <- (pow2_abs (sample_average f l - _)). rewrite Rmult_1_r, Rplus_0_r. apply pow_incr. lra.
    + pose proof (pow2_ge_0 (sample_average f l - mean_in states p f)). lra.
Qed.
End Reach.
End Chain.

(** A limit distribution is preserved. *)
Section Limit.
Context {X : Type}.
Variable eqX : forall x y : X, {x = y} + {x <> y}.
Variables (states : list X) (K : X -> X -> R).
Hypothesis states_nodup : NoDup states.
Lemma lim_sumR : forall {Y} (l : list Y) (F : nat -> Y -> R) (G : Y -> R), (forall y, In y l -> is_lim_seq (fun n => F n y) (G y)) ->
  is_lim_seq (fun n => sumR (F n) l) (sumR G l).
Proof.
  induction l as [|y l IH]; intros F G H; cbn; [apply is_lim_seq_const|].
  apply is_lim_seq_plus'; [apply H; now left|apply IH; intros; apply H; now right].
Qed.
Lemma limit_preserved : forall (p : X -> R) x, In x states -> (forall y, In y states -> is_lim_seq (fun n => step eqX states K n x y) (p y)) ->
  forall y, In y states -> sumR (fun z => p z * K z y) states = p y.
Proof.
  intros p x Hx H y Hy.
  assert (H1 : is_lim_seq (fun n => step eqX states K (S n) x y) (sumR (fun z => p z * K z y) states)).
  { apply (is_lim_seq_ext (fun n => sumR (fun z => step eqX states K n x z * K z y) states)).
    - intros n. unfold step at 2. rewrite it_S, (it_step eqX states states_nodup K n _ x Hx). apply sumR_ext_in. intros z Hz. f_equal.
      symmetry. exact (c_step_1 eqX states K states_nodup z y Hz Hy).
    - apply lim_sumR. intros z Hz. apply is_lim_seq_mult'; [now apply H|apply is_lim_seq_const]. }
  pose proof (is_lim_seq_incr_1 (fun n => step eqX states K n x y) (p y)) as [H2 _]. specialize (H2 (H y Hy)).
  apply is_lim_seq_unique in H1. apply is_lim_seq_unique in H2. rewrite H1 in H2. now injection H2.
Qed.
End Limit.
