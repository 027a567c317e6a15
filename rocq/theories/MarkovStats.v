(** Statistics of a finite Markov chain, generic: mean square convergence of averages of pairs of samples at a distance, of products, sums, thinned and
    shortened sequences. *)
From Coq Require Import Reals Lra Lia.
From Coquelicot Require Import Coquelicot.
From Verif Require Import Prelude ConsumerModel ProducerModel ProducerSpec XReal MHSpec DEStat MHRunSpec MarkovFinite MHRun MarkovTop.
Import ListNotations.
Local Open Scope R_scope.
Local Open Scope list_scope.
Local Notation length := List.length.

Section Chain.
Context {X : Type}.
Variable eqX : forall x y : X, {x = y} + {x <> y}.
Variables (ll : X -> R) (states : list X) (K : X -> X -> R).
Hypothesis states_nodup : NoDup states.
Hypothesis K_nonneg : forall x y, In x states -> In y states -> 0 <= K x y.
Hypothesis K_sum : forall x, In x states -> sumR (K x) states = 1.
Local Notation p := (target states ll).
Hypothesis p_stationary : forall y, In y states -> sumR (fun x => p x * K x y) states = p y.
Local Notation markov := (markov states K).
Local Notation P := (P states K).
Local Notation it := (it states K).

Lemma markov_le_in : forall n x f g, (forall l, length l = n -> incl l states -> f l <= g l) -> In x states -> markov n x f <= markov n x g.
Proof.
  induction n as [|n IH]; intros x f g H Hx; cbn [MHRunSpec.markov].
  - apply H; [reflexivity|intros z []].
  - apply sumR_le_in. intros y Hy. apply Rmult_le_compat_l; [now apply K_nonneg|]. apply IH; [|exact Hy].
    intros l Hl Hi. apply H; [cbn; now rewrite Hl|]. intros z [<-|Hz]; auto.
Qed.
Lemma markov_eq_in : forall n x f g, (forall l, length l = n -> incl l states -> f l = g l) -> In x states -> markov n x f = markov n x g.
Proof. intros n x f g H Hx. apply Rle_antisym; apply markov_le_in; auto; intros l Hl Hi; rewrite (H l Hl Hi); lra. Qed.

Definition good (l : list X) : Prop := l <> [] /\ incl l states.
Definition consistent (Z : list X -> R) (c : R) : Prop :=
  exists C, forall x n, In x states -> (0 < n)%nat -> markov n x (fun l => (Z l - c) ^ 2) <= C / INR n.

Lemma good_INR : forall l, good l -> 1 <= INR (length l).
Proof. intros l [H _]. destruct l as [|a l]; [congruence|]. cbn [length]. rewrite S_INR. pose proof (pos_INR (length l)). lra. Qed.
Lemma dominated : forall Z c W1 c1 W2 c2 A B, consistent W1 c1 -> consistent W2 c2 -> 0 <= A ->
  (forall l, good l -> (Z l - c) ^ 2 <= A * ((W1 l - c1) ^ 2 + (W2 l - c2) ^ 2) + B / INR (length l)) -> consistent Z c.
Proof.
  intros Z c W1 c1 W2 c2 A B (C1 & H1) (C2 & H2) HA H. exists (A * (C1 + C2) + B). intros x n Hx Hn.
  assert (HI : 0 < INR n) by (apply lt_0_INR; exact Hn).
  apply Rle_trans with (markov n x (fun l => A * (1 * (W1 l - c1) ^ 2 + (W2 l - c2) ^ 2) + B / INR n)).
  - apply markov_le_in; [|exact Hx]. intros l Hl Hi. rewrite Rmult_1_l. rewrite <- Hl. apply H. split; [|exact Hi].
    intros ->. cbn in Hl. lia.
  - rewrite (markov_lin states K n x A (fun l => 1 * (W1 l - c1) ^ 2 + (W2 l - c2) ^ 2) (fun _ => B / INR n)).
    rewrite (markov_lin states K n x 1). rewrite (markov_const states K K_sum) by exact Hx.
    pose proof (H1 x n Hx Hn). pose proof (H2 x n Hx Hn).
    apply Rle_trans with (A * (1 * (C1 / INR n) + C2 / INR n) + B / INR n); [|right; field; lra].
    apply Rplus_le_compat_r. apply Rmult_le_compat_l; [exact HA|]. lra.
Qed.
Lemma cons_zero : consistent (fun _ => 0) 0.
Proof.
  exists 0. intros x n Hx Hn. rewrite (markov_ext states K n x _ (fun _ => 0)) by (intros; ring).
  rewrite (markov_const states K K_sum) by exact Hx. unfold Rdiv. lra.
Qed.
Lemma cons_near : forall Z W c B, consistent W c -> (forall l, good l -> Rabs (Z l - W l) <= B / INR (length l)) -> consistent Z c.
Proof.
  intros Z W c B HW H. apply (dominated Z c W c (fun _ => 0) 0 2 (2 * B ^ 2) HW cons_zero); [lra|].
  intros l Hl. pose proof (good_INR l Hl) as HI. pose proof (H l Hl) as Hb. set (N := INR (length l)) in *.
  assert (Hsq : (Z l - W l) ^ 2 <= B ^ 2 / N).
  { rewrite <- pow2_abs. apply Rle_trans with ((B / N) ^ 2).
    - apply pow_incr. split; [apply Rabs_pos|exact Hb].
    - replace ((B / N) ^ 2) with (B ^ 2 / N * / N) by (field; lra). rewrite <- (Rmult_1_r (B ^ 2 / N)) at 2.
      apply Rmult_le_compat_l.
      + apply Rmult_le_pos; [apply pow2_ge_0|]. apply Rlt_le, Rinv_0_lt_compat. lra.
      + rewrite <- Rinv_1. apply Rinv_le_contravar; lra. }
  replace (2 * B ^ 2 / N) with (2 * (B ^ 2 / N)) by (field; lra).
  pose proof (pow2_ge_0 ((W l - c) - (Z l - W l))). nra.
Qed.
Lemma cons_ext : forall Z W c, consistent W c -> (forall l, good l -> Z l = W l) -> consistent Z c.
Proof.
  intros Z W c HW H. apply (cons_near Z W c 0 HW). intros l Hl. rewrite (H l Hl), Rminus_eq_0, Rabs_R0. unfold Rdiv. lra.
Qed.
Lemma cons_lin : forall a Z W c d, consistent Z c -> consistent W d -> consistent (fun l => a * Z l + W l) (a * c + d).
Proof.
  intros a Z W c d HZ HW. apply (dominated _ _ Z c W d (2 * a ^ 2 + 2) 0 HZ HW); [pose proof (pow2_ge_0 a); lra|].
  intros l Hl. unfold Rdiv. rewrite Rmult_0_l, Rplus_0_r. set (u := Z l - c). set (v := W l - d).
  replace (a * Z l + W l - (a * c + d)) with (a * u + v) by (unfold u, v; ring).
  pose proof (pow2_ge_0 (a * u - v)). pose proof (pow2_ge_0 (a * v)). pose proof (pow2_ge_0 u). pose proof (pow2_ge_0 v). nra.
Qed.
Lemma cons_const : forall c, consistent (fun _ => c) c.
Proof.
  intros c. exists 0. intros x n Hx Hn. rewrite (markov_ext states K n x _ (fun _ => 0)) by (intros; ring).
  rewrite (markov_const states K K_sum) by exact Hx. unfold Rdiv. lra.
Qed.
Lemma cons_mul : forall Z W c d B, consistent Z c -> consistent W d -> (forall l, good l -> Rabs (W l) <= B) -> consistent (fun l => Z l * W l) (c * d).
Proof.
  intros Z W c d B HZ HW HB. apply (dominated _ _ Z c W d (2 * B ^ 2 + 2 * c ^ 2) 0 HZ HW); [pose proof (pow2_ge_0 B); pose proof (pow2_ge_0 c); lra|].
  intros l Hl. unfold Rdiv. rewrite Rmult_0_l, Rplus_0_r. set (u := Z l - c). set (v := W l - d).
  replace (Z l * W l - c * d) with (u * W l + c * v) by (unfold u, v; ring).
  assert (HW2 : (W l) ^ 2 <= B ^ 2) by (rewrite <- (pow2_abs (W l)); apply pow_incr; split; [apply Rabs_pos|now apply HB]).
  pose proof (pow2_ge_0 (u * W l - c * v)). pose proof (pow2_ge_0 u). pose proof (pow2_ge_0 v). pose proof (pow2_ge_0 B). pose proof (pow2_ge_0 c).
  assert (u ^ 2 * (W l) ^ 2 <= u ^ 2 * B ^ 2) by (apply Rmult_le_compat_l; assumption).
  assert (0 <= B ^ 2 * v ^ 2) by (apply Rmult_le_pos; assumption).
  assert (0 <= c ^ 2 * u ^ 2) by (apply Rmult_le_pos; assumption).
  nra.
Qed.
Lemma cons_sum : forall {I} (L : list I) (Z : I -> list X -> R) (c : I -> R), (forall i, In i L -> consistent (Z i) (c i)) ->
  consistent (fun l => sumR (fun i => Z i l) L) (sumR c L).
Proof.
  intros I L Z c. induction L as [|i L IH]; intros H.
  - exact cons_zero.
  - apply (cons_ext _ (fun l => 1 * Z i l + sumR (fun i => Z i l) L)).
    + cbn [sumR]. replace (c i + sumR c L) with (1 * c i + sumR c L) by ring. apply cons_lin; [apply H; now left|apply IH; intros; apply H; now right].
    + intros l _. cbn [sumR]. ring.
Qed.

(** ** Averages of functions of single samples *)
Variables (m : nat) (d : R).
Hypothesis d_pos : 0 < d.
Hypothesis doeblin : forall x y, In x states -> In y states -> d * p y <= Qstep eqX states K m x y.
Lemma cons_average : forall f, consistent (fun l => sumR f l / INR (length l)) (mean_in states p f).
Proof.
  intros f. set (B := norm states (fun x => f x - mean_in states p f)).
  exists (B ^ 2 * (1 + 2 * INR m / d)). intros x0 n Hx0 Hn.
  apply (c_mean_square eqX ll states K states_nodup K_nonneg K_sum p_stationary m d d_pos doeblin f B x0 n); auto.
  apply (norm_within states (fun x => f x - mean_in states p f)).
Qed.

(** ** Martingales *)
Fixpoint mtotal (D : list X -> X -> R) (h l : list X) : R := match l with [] => 0 | y :: l' => D h y + mtotal D (h ++ [y]) l' end.
Section Martingale.
Variables (D : list X -> X -> R) (x0 : X) (B : R).
Hypothesis D_mart : forall h, incl h states -> sumR (fun y => K (last h x0) y * D h y) states = 0.
Hypothesis D_bound : forall h y, incl h states -> In y states -> (D h y) ^ 2 <= B.
Lemma last_snoc : forall (h : list X) y z, last (h ++ [y]) z = y.
Proof. intros h y z. now rewrite last_last. Qed.
Lemma incl_snoc : forall h y, incl h states -> In y states -> incl (h ++ [y]) states.
Proof. intros h y Hh Hy z Hz. apply in_app_or in Hz. destruct Hz as [Hz|[<-|[]]]; auto. Qed.
Lemma mart_zero : forall n h, incl h states -> In (last h x0) states -> markov n (last h x0) (mtotal D h) = 0.
Proof.
  induction n as [|n IH]; intros h Hh Hx; [reflexivity|]. cbn [MHRunSpec.markov].
  rewrite <- (D_mart h Hh). apply sumR_ext_in. intros y Hy. f_equal.
  rewrite (markov_ext states K n y _ (fun l => 1 * mtotal D (h ++ [y]) l + (fun _ => D h y) l)) by (intros l _; cbn [mtotal]; ring).
  rewrite markov_lin, (markov_const states K K_sum) by exact Hy.
  pose proof (IH (h ++ [y]) (incl_snoc h y Hh Hy)) as H. rewrite last_snoc in H. rewrite H by exact Hy. ring.
Qed.
Lemma mart_square : forall n h, incl h states -> In (last h x0) states -> markov n (last h x0) (fun l => (mtotal D h l) ^ 2) <= INR n * B.
Proof.
  induction n as [|n IH]; intros h Hh Hx; [cbn; lra|]. cbn [MHRunSpec.markov].
  apply Rle_trans with (sumR (fun y => K (last h x0) y * ((INR n + 1) * B)) states).
  - apply sumR_le_in. intros y Hy. apply Rmult_le_compat_l; [now apply K_nonneg|].
    rewrite (markov_ext states K n y _ (fun l => (2 * D h y) * mtotal D (h ++ [y]) l + (fun l => 1 * (mtotal D (h ++ [y]) l) ^ 2 + (D h y) ^ 2) l))
      by (intros l _; cbn [mtotal]; ring).
    rewrite markov_lin, markov_lin, (markov_const states K K_sum) by exact Hy.
    pose proof (mart_zero n (h ++ [y]) (incl_snoc h y Hh Hy)) as H0. rewrite last_snoc in H0. rewrite (H0 Hy).
    pose proof (IH (h ++ [y]) (incl_snoc h y Hh Hy)) as H. rewrite last_snoc in H. pose proof (H Hy). pose proof (D_bound h y Hh Hy). lra.
  - rewrite sumR_mult_r, K_sum by exact Hx. rewrite S_INR. lra.
Qed.
End Martingale.
Lemma mtotal_sum : forall D z l h, mtotal D h l = sumR (fun t => D (h ++ firstn t l) (nth t l z)) (seq 0 (length l)).
Proof.
  intros D z l. induction l as [|y l IH]; intros h; [reflexivity|]. cbn [mtotal length seq sumR firstn nth]. rewrite app_nil_r, IH. f_equal.
  rewrite <- seq_shift. generalize (seq 0 (length l)) as s. induction s as [|t s IHs]; [reflexivity|]. cbn [map sumR]. rewrite IHs. f_equal. cbn [firstn nth].
  f_equal. rewrite <- app_assoc. reflexivity.
Qed.

(** ** Pairs of samples at a distance *)
Definition lagsum (F : X -> X -> R) (j : nat) (z : X) (l : list X) : R := sumR (fun t => F (nth t l z) (nth (t + j) l z)) (seq 0 (length l - j)).

Lemma sumR_seq_shift : forall f a n, sumR f (seq (S a) n) = sumR (fun t => f (S t)) (seq a n).
Proof. intros f a n. revert a. induction n as [|n IH]; intros a; [reflexivity|]. cbn [seq sumR]. now rewrite IH. Qed.
Lemma sumR_seq_app : forall f a n k, sumR f (seq a (n + k)) = sumR f (seq a n) + sumR f (seq (a + n) k).
Proof.
  intros f a n k. revert a. induction n as [|n IH]; intros a; cbn [Nat.add seq sumR]; [rewrite Nat.add_0_r; ring|]. rewrite IH. replace (S a + n)%nat with (a + S n)%nat by lia. ring.
Qed.
Lemma sumR_seq_off : forall f a n, sumR f (seq a n) = sumR (fun t => f (t + a)%nat) (seq 0 n).
Proof.
  intros f a n. revert f. induction a as [|a IH]; intros f.
  - apply sumR_ext_in. intros t _. now rewrite Nat.add_0_r.
  - rewrite sumR_seq_shift, IH. apply sumR_ext_in. intros t _. f_equal. lia.
Qed.
Lemma sumR_0 : forall {Y} (f : Y -> R) l, (forall y, In y l -> f y = 0) -> sumR f l = 0.
Proof. intros Y f l H. rewrite (sumR_ext_in f (fun _ => 0) l H). apply sumR_zero. Qed.

Lemma bounded2 : forall F : X -> X -> R, exists B, 0 <= B /\ forall x y, In x states -> In y states -> Rabs (F x y) <= B.
Proof.
  intros F. exists (lnorm (list_prod states states) (fun xy => F (fst xy) (snd xy))). split.
  - induction (list_prod states states) as [|a l IH]; cbn; [lra|]. eapply Rle_trans; [exact IH|apply Rmax_r].
  - intros x y Hx Hy. assert (Hin : In (x, y) (list_prod states states)) by now apply in_prod.
    revert Hin. generalize (list_prod states states) as L. intros L. induction L as [|a L IH]; intros [].
    + subst a. cbn. apply Rmax_l.
    + cbn. eapply Rle_trans; [now apply IH|apply Rmax_r].
Qed.

Lemma lag_step : forall F j c z, (In z states) ->
  consistent (fun l => lagsum (fun x => P (F x)) j z l / INR (length l)) c -> consistent (fun l => lagsum F (S j) z l / INR (length l)) c.
Proof.
  intros F j c z Hz Hc. destruct (bounded2 F) as (B & HB0 & HB).
  assert (HPB : forall x y, In x states -> In y states -> Rabs (P (F x) y) <= B).
  { intros x y Hx Hy. apply (P_within states K K_nonneg K_sum B (F x)); [|exact Hy]. intros w Hw. now apply HB. }
  set (D := fun (h : list X) (y : X) => if (j <? length h)%nat then F (nth (length h - 1 - j) h z) y - P (F (nth (length h - 1 - j) h z)) (last h z) else 0).
  (* the martingale part *)
  assert (HM : consistent (fun l => mtotal D [] l / INR (length l)) 0).
  { exists ((2 * B) ^ 2). intros x n Hx Hn. assert (HI : 0 < INR n) by (apply lt_0_INR; exact Hn).
    rewrite (markov_ext states K n x _ (fun l => (/ INR n) ^ 2 * (mtotal D [] l) ^ 2 + 0)) by (intros l ->; field; lra).
    rewrite (markov_lin states K n x ((/ INR n) ^ 2) (fun l => mtotal D [] l ^ 2) (fun _ => 0)), (markov_const states K K_sum) by exact Hx. rewrite Rplus_0_r.
    apply Rle_trans with ((/ INR n) ^ 2 * (INR n * (2 * B) ^ 2)); [|right; field; lra].
    apply Rmult_le_compat_l; [apply pow2_ge_0|].
    apply (mart_square D x ((2 * B) ^ 2)) with (h := []); [| |intros w []|exact Hx].
    - intros h Hh. unfold D. destruct (j <? length h)%nat eqn:E.
      + apply Nat.ltb_lt in E. assert (Hne : h <> []) by (intros ->; cbn in E; lia).
        assert (Hlast : In (last h z) states).
        { apply Hh. destruct (exists_last Hne) as (h' & w & ->). rewrite last_last. apply in_or_app. right. now left. }
        assert (Hl : last h x = last h z) by (destruct (exists_last Hne) as (h' & w & ->); now rewrite !last_last).
        rewrite Hl. set (w := nth (length h - 1 - j) h z). set (u := last h z) in *.
        rewrite (sumR_ext_in _ (fun y => K u y * F w y - K u y * P (F w) u)) by (intros; ring).
        rewrite sumR_minus, sumR_mult_r, K_sum by exact Hlast. unfold MarkovFinite.P. ring.
      + rewrite (sumR_ext_in _ (fun _ => 0)) by (intros; ring). apply sumR_zero.
    - intros h y Hh Hy. unfold D. rewrite <- pow2_abs. apply pow_incr. split; [apply Rabs_pos|]. destruct (j <? length h)%nat eqn:E.
      + apply Nat.ltb_lt in E. assert (Hne : h <> []) by (intros ->; cbn in E; lia).
        assert (Hlast : In (last h z) states).
        { apply Hh. destruct (exists_last Hne) as (h' & w & ->). rewrite last_last. apply in_or_app. right. now left. }
        assert (Hw : In (nth (length h - 1 - j) h z) states) by (apply Hh, nth_In; lia).
        pose proof (HB _ _ Hw Hy). pose proof (HPB _ _ Hw Hlast).
        eapply Rle_trans; [apply Rabs_triang|]. rewrite Rabs_Ropp. lra.
      + rewrite Rabs_R0. lra. }
  apply (cons_near _ (fun l => 1 * (mtotal D [] l / INR (length l)) + lagsum (fun x => P (F x)) j z l / INR (length l)) c B).
  - replace c with (1 * 0 + c) by ring. apply (cons_lin 1 _ _ 0 c HM Hc).
  - intros l Hl. pose proof (good_INR l Hl) as HI. destruct Hl as (Hne & Hin). set (n := length l) in *.
    assert (E : lagsum F (S j) z l / INR n - (1 * (mtotal D [] l / INR n) + lagsum (fun x => P (F x)) j z l / INR n) =
                (lagsum F (S j) z l - (mtotal D [] l + lagsum (fun x => P (F x)) j z l)) / INR n) by (field; lra).
    rewrite E. clear E.
    rewrite Rabs_div, (Rabs_pos_eq (INR n)) by lra. apply Rmult_le_compat_r; [apply Rlt_le, Rinv_0_lt_compat; lra|].
    rewrite (mtotal_sum D z). cbn [app]. fold n. unfold lagsum. fold n.
    destruct (Nat.le_gt_cases n j) as [Hj|Hj].
    { replace (n - S j)%nat with O by lia. replace (n - j)%nat with O by lia. cbn [seq sumR].
      rewrite (sumR_0 _ (seq 0 n)). { rewrite Rplus_0_r, Rminus_eq_0, Rabs_R0. exact HB0. }
      intros t Ht. apply in_seq in Ht. unfold D. rewrite firstn_length. destruct (j <? Nat.min t (length l))%nat eqn:E; [|reflexivity].
      apply Nat.ltb_lt in E. fold n in E. lia. }
    assert (Hsplit : sumR (fun t => D (firstn t l) (nth t l z)) (seq 0 n) =
       sumR (fun t => F (nth t l z) (nth (t + S j) l z) - P (F (nth t l z)) (nth (t + j) l z)) (seq 0 (n - S j))).
    { replace n with (S j + (n - S j))%nat at 1 by lia. rewrite sumR_seq_app.
      rewrite (sumR_0 _ (seq 0 (S j))).
      2:{ intros t Ht. apply in_seq in Ht. unfold D. rewrite firstn_length. destruct (j <? Nat.min t (length l))%nat eqn:E; [|reflexivity].
          apply Nat.ltb_lt in E. lia. }
      rewrite Rplus_0_l. rewrite sumR_seq_off. apply sumR_ext_in. intros t Ht. apply in_seq in Ht. unfold D. rewrite firstn_length. fold n.
      replace (Nat.min (t + (0 + S j)) n) with (t + S j)%nat by lia. destruct (j <? t + S j)%nat eqn:E; [|apply Nat.ltb_ge in E; lia].
      assert (Hf : forall i, (i < t + S j)%nat -> nth i (firstn (t + S j) l) z = nth i l z).
      { intros i Hi. rewrite <- (firstn_skipn (t + S j) l) at 2. rewrite app_nth1; [reflexivity|]. rewrite firstn_length. fold n. lia. }
      replace (t + (0 + S j))%nat with (t + S j)%nat by lia. replace (t + S j - 1 - j)%nat with t by lia. rewrite Hf by lia. f_equal. f_equal.
      rewrite <- (Hf (t + j)%nat) by lia.
      assert (Hlen : length (firstn (t + S j) l) = (t + S j)%nat) by (rewrite firstn_length; fold n; lia).
      revert Hlen. generalize (firstn (t + S j) l) as h. intros h Hlen.
      assert (Hh : h <> []) by (intros ->; cbn in Hlen; lia). destruct (exists_last Hh) as (h' & w & ->). rewrite last_last.
      rewrite app_length in Hlen. cbn [length] in Hlen. rewrite app_nth2 by lia. replace (t + j - length h')%nat with O by lia. reflexivity. }
    rewrite Hsplit, sumR_minus. replace (n - j)%nat with ((n - S j) + 1)%nat by lia. rewrite sumR_seq_app. cbn [seq sumR].
    match goal with |- Rabs ?e <= _ => replace e with (- P (F (nth (0 + (n - S j)) l z)) (nth (0 + (n - S j) + j) l z)) by ring end.
    rewrite Rabs_Ropp. apply HPB; apply Hin, nth_In; fold n; lia.
Qed.
Theorem cons_lag : forall j F z, In z states -> consistent (fun l => lagsum F j z l / INR (length l)) (mean_in states p (fun x => it j (F x) x)).
Proof.
  induction j as [|j IH]; intros F z Hz.
  - apply (cons_ext _ (fun l => sumR (fun x => F x x) l / INR (length l))).
    + exact (cons_average (fun x => F x x)).
    + intros l _. f_equal. unfold lagsum. rewrite Nat.sub_0_r. clear. induction l as [|a l IH]; [reflexivity|]. cbn [length seq sumR nth Nat.add]. f_equal.
      rewrite sumR_seq_shift. exact IH.
  - apply lag_step; [exact Hz|].
    match goal with |- consistent _ ?c => replace c with (mean_in states p (fun x => it j (P (F x)) x)); [exact (IH (fun x => P (F x)) z Hz)|] end.
    unfold mean_in. apply sumR_ext_in. intros x _. rewrite it_S. reflexivity.
Qed.
End Chain.
