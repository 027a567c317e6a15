(** A Markov chain whose transition probabilities differ a little from those of a chain that preserves a distribution p: its distribution and its averages. *)
From Coq Require Import Reals Lra Lia.
From Verif Require Import Prelude MHSpec MHRunSpec MHProofs DEStat MarkovFinite MarkovStats.
Import ListNotations.
Local Open Scope R_scope.
Local Open Scope list_scope.
Local Notation length := List.length.

(** d times the sum of (1-d)^(k/m) over k < n *)
Lemma geometric_blocks : forall m d n, (0 < m)%nat -> 0 < d <= 1 -> d * sumn (fun k => (1 - d) ^ (k / m)) n <= INR m.
Proof.
  intros m d n Hm Hd.
  assert (H : d * sumn (fun k => (1 - d) ^ (k / m)) n = INR m * (1 - (1 - d) ^ (n / m)) + d * INR (n mod m) * (1 - d) ^ (n / m)).
  { induction n as [|n IH].
    - cbn [sumn]. rewrite Nat.div_0_l, Nat.mod_0_l by lia. cbn [pow INR]. ring.
    - cbn [sumn]. rewrite Rmult_plus_distr_l, IH.
      pose proof (Nat.mod_upper_bound n m ltac:(lia)) as Hb. pose proof (Nat.div_mod n m ltac:(lia)) as Hn.
      destruct (Nat.eq_dec (S (n mod m)) m) as [He|He].
      + assert (H1 : (S n / m = S (n / m))%nat) by (symmetry; apply Nat.div_unique with 0%nat; lia).
        assert (H2 : (S n mod m = 0)%nat) by (symmetry; apply Nat.mod_unique with (S (n / m)); lia).
        rewrite H1, H2. cbn [pow INR]. assert (HI : INR m = INR (n mod m) + 1) by (rewrite <- He at 1; apply S_INR). rewrite HI. ring.
      + assert (H1 : (S n / m = n / m)%nat) by (symmetry; apply Nat.div_unique with (S (n mod m)); lia).
        assert (H2 : (S n mod m = S (n mod m))%nat) by (symmetry; apply Nat.mod_unique with (n / m)%nat; lia).
        rewrite H1, H2, S_INR. ring. }
  rewrite H. set (r := (1 - d) ^ (n / m)).
  assert (Hr : 0 <= r) by (apply pow_le; lra).
  assert (Hb : INR (n mod m) <= INR m) by (apply le_INR; pose proof (Nat.mod_upper_bound n m ltac:(lia)); lia).
  pose proof (pos_INR (n mod m)).
  assert (d * INR (n mod m) <= 1 * INR m) by (apply Rmult_le_compat; lra).
  assert (d * INR (n mod m) * r <= 1 * INR m * r) by (apply Rmult_le_compat_r; assumption). lra.
Qed.

Section Perturb.
Context {X : Type}.
Variable eqX : forall x y : X, {x = y} + {x <> y}.
Variable states : list X.
Hypothesis states_nodup : NoDup states.
Variables (K K' : X -> X -> R) (p : X -> R) (e : R).
Hypothesis K_nonneg : forall x y, In x states -> In y states -> 0 <= K x y.
Hypothesis K_sum : forall x, In x states -> sumR (K x) states = 1.
Hypothesis K'_nonneg : forall x y, In x states -> In y states -> 0 <= K' x y.
Hypothesis K'_sum : forall x, In x states -> sumR (K' x) states = 1.
Hypothesis p_sum : sumR p states = 1.
Hypothesis p_stationary : forall y, In y states -> sumR (fun x => p x * K x y) states = p y.
Hypothesis close : forall x, In x states -> sumR (fun y => Rabs (K' x y - K x y)) states <= e.
Local Notation mean := (mean_in states p).
Local Notation P := (P states K).
Local Notation P' := (MarkovFinite.P states K').

Lemma P_close : forall g B x, In x states -> within states B g -> Rabs (P' g x - P g x) <= e * B.
Proof.
  intros g B x Hx HB. unfold MarkovFinite.P. rewrite <- sumR_minus.
  eapply Rle_trans; [apply sumR_abs|]. apply Rle_trans with (sumR (fun y => Rabs (K' x y - K x y) * B) states).
  - apply sumR_le_in. intros y Hy. replace (K' x y * g y - K x y * g y) with ((K' x y - K x y) * g y) by ring. rewrite Rabs_mult.
    apply Rmult_le_compat_l; [apply Rabs_pos|now apply HB].
  - rewrite sumR_mult_r. apply Rmult_le_compat_r; [|now apply close]. eapply Rle_trans; [apply Rabs_pos|exact (HB x Hx)].
Qed.

Section Distribution.
Variables (m : nat) (d : R).
Hypothesis m_pos : (0 < m)%nat.
Hypothesis d_range : 0 < d <= 1.
Hypothesis doeblin : forall x y, In x states -> In y states -> d * p y <= step eqX states K m x y.

Lemma it_close : forall n f B x, In x states -> within states B (fun y => f y - mean f) ->
  Rabs (it states K' n f x - it states K n f x) <= e * B * sumn (fun k => (1 - d) ^ (k / m)) n.
Proof.
  induction n as [|n IH]; intros f B x Hx HB.
  - cbn [it sumn]. unfold Rminus. rewrite Rplus_opp_r, Rabs_R0. lra.
  - cbn [it sumn].
    replace (P' (it states K' n f) x - P (it states K n f) x) with
      (P' (fun y => it states K' n f y - it states K n f y) x + (P' (it states K n f) x - P (it states K n f) x)).
    2:{ rewrite (P_ext states K' (fun y => it states K' n f y - it states K n f y) (fun y => (-1) * it states K n f y + it states K' n f y)) by (intros; ring).
        rewrite P_lin. ring. }
    eapply Rle_trans; [apply Rabs_triang|]. rewrite Rmult_plus_distr_l. apply Rplus_le_compat.
    + apply (P_within states K' K'_nonneg K'_sum (e * B * sumn (fun k => (1 - d) ^ (k / m)) n)); [|exact Hx]. intros y Hy. now apply IH.
    + replace (P' (it states K n f) x - P (it states K n f) x) with (P' (fun y => it states K n f y - mean f) x - P (fun y => it states K n f y - mean f) x).
      2:{ rewrite !(P_ext states _ (fun y => it states K n f y - mean f) (fun y => 1 * it states K n f y + (fun _ => - mean f) y)) by (intros; ring).
          rewrite !P_lin, (P_const states K K_sum), (P_const states K' K'_sum) by exact Hx. ring. }
      replace (e * B * (1 - d) ^ (n / m)) with (e * ((1 - d) ^ (n / m) * B)) by ring.
      apply P_close; [exact Hx|]. intros y Hy.
      now apply (it_converges eqX states states_nodup K p K_nonneg K_sum p_sum p_stationary m d m_pos doeblin).
Qed.
Theorem perturbed_distribution : forall n f B x, In x states -> within states B (fun y => f y - mean f) ->
  Rabs (it states K' n f x - mean f) <= (1 - d) ^ (n / m) * B + e * B * (INR m / d).
Proof.
  intros n f B x Hx HB. replace (it states K' n f x - mean f) with ((it states K n f x - mean f) + (it states K' n f x - it states K n f x)) by ring.
  eapply Rle_trans; [apply Rabs_triang|]. apply Rplus_le_compat.
  - now apply (it_converges eqX states states_nodup K p K_nonneg K_sum p_sum p_stationary m d m_pos doeblin).
  - eapply Rle_trans; [now apply it_close with (B := B)|]. apply Rmult_le_compat_l.
    + assert (HB0 : 0 <= B) by (eapply Rle_trans; [apply Rabs_pos|exact (HB x Hx)]).
      apply Rmult_le_pos; [|exact HB0]. eapply Rle_trans; [|exact (close x Hx)]. apply sumR_nonneg. intros; apply Rabs_pos.
    + apply Rmult_le_reg_l with d; [lra|]. replace (d * (INR m / d)) with (INR m) by (field; lra). now apply geometric_blocks.
Qed.
End Distribution.

Section Averages.
Variables (m : nat) (d : R).
Hypothesis d_pos : 0 < d.
Hypothesis doeblin : forall x y, In x states -> In y states -> d * p y <= Qstep eqX states K m x y.
Variables (fc : X -> R) (B : R).
Hypothesis fc_mean : mean fc = 0.
Hypothesis fc_within : within states B fc.
Local Notation M := (M states K).
Let H := INR m * B / d.
Lemma M_H : forall k, within states H (M k fc).
Proof. intros k. now apply (M_bounded eqX states states_nodup K p K_nonneg K_sum p_sum p_stationary m d d_pos doeblin). Qed.
Definition sol (n : nat) (x : X) : R := / INR n * sumn (fun k => M (S k) fc x) n.
Lemma sol_within : forall n, (0 < n)%nat -> within states H (sol n).
Proof.
  intros n Hn x Hx. assert (HI : 0 < INR n) by now apply lt_0_INR. unfold sol.
  rewrite Rabs_mult, (Rabs_pos_eq (/ _)) by (apply Rlt_le, Rinv_0_lt_compat, HI).
  apply Rmult_le_reg_l with (INR n); [exact HI|]. rewrite <- Rmult_assoc, Rinv_r, Rmult_1_l by lra.
  eapply Rle_trans; [apply sumn_abs|]. rewrite <- sumn_const. apply sumn_le. intros k _. now apply M_H.
Qed.
Lemma sol_poisson : forall n x, (0 < n)%nat -> In x states -> Rabs (fc x - (sol n x - P (sol n) x)) <= H / INR n.
Proof.
  intros n x Hn Hx. assert (HI : 0 < INR n) by now apply lt_0_INR.
  assert (HP : P (sol n) x = sol n x + / INR n * P (M n fc) x - fc x).
  { transitivity (/ INR n * it states K 1 (fun y => sumn (fun k => M (S k) fc y) n) x).
    - unfold sol. cbn [it]. unfold MarkovFinite.P. rewrite <- sumR_scal. apply sumR_ext_in. intros; ring.
    - rewrite it_sumn. rewrite (sumn_ext _ (fun k => M (S k) fc x + (it states K (S k) fc x - fc x))).
      2:{ intros k _. transitivity (it states K 1 (M (S k) fc) x); [reflexivity|]. rewrite (M_diff states K (S k) 1 fc x). unfold MarkovFinite.M at 2 3. cbn [sumn it]. ring. }
      rewrite sumn_plus, sumn_minus, sumn_const.
      assert (HM : P (M n fc) x = sumn (fun k => it states K (S k) fc x) n).
      { change (P (M n fc) x) with (it states K 1 (M n fc) x). unfold MarkovFinite.M. rewrite it_sumn. reflexivity. }
      rewrite HM. unfold sol. field. lra. }
  rewrite HP. replace (fc x - (sol n x - (sol n x + / INR n * P (M n fc) x - fc x))) with (/ INR n * P (M n fc) x) by ring.
  rewrite Rabs_mult, (Rabs_pos_eq (/ _)) by (apply Rlt_le, Rinv_0_lt_compat, HI). unfold Rdiv. rewrite (Rmult_comm H).
  apply Rmult_le_compat_l; [apply Rlt_le, Rinv_0_lt_compat, HI|].
  exact (P_within states K K_nonneg K_sum H (M n fc) (M_H n) x Hx).
Qed.
Lemma total_split : forall n x0, (0 < n)%nat -> forall l hist, incl l states -> In (last hist x0) states ->
  Rabs (sumR fc l - mtotal (fun hist y => sol n y - P' (sol n) (last hist x0)) hist l - (P (sol n) (last hist x0) - P (sol n) (last l (last hist x0)))) <=
  INR (length l) * (e * H + H / INR n).
Proof.
  intros n x0 Hn. induction l as [|y l IH]; intros hist Hl Hz.
  - cbn [sumR mtotal last length INR]. replace (0 - 0 - _) with 0 by ring. rewrite Rabs_R0. lra.
  - set (z := last hist x0) in *. assert (Hy : In y states) by (apply Hl; now left).
    specialize (IH (hist ++ [y])). rewrite last_last in IH. specialize (IH (fun w Hw => Hl w (or_intror Hw)) Hy).
    cbn [sumR mtotal]. fold z. rewrite last_cons. cbn [length]. rewrite S_INR.
    set (D := mtotal _ _ _) in *.
    replace (fc y + sumR fc l - (sol n y - P' (sol n) z + D) - (P (sol n) z - P (sol n) (last l y))) with
      ((sumR fc l - D - (P (sol n) y - P (sol n) (last l y))) + ((P' (sol n) z - P (sol n) z) + (fc y - (sol n y - P (sol n) y)))) by ring.
    eapply Rle_trans; [apply Rabs_triang|]. rewrite Rmult_plus_distr_r, Rmult_1_l. apply Rplus_le_compat; [exact IH|].
    eapply Rle_trans; [apply Rabs_triang|]. apply Rplus_le_compat; [apply P_close; [exact Hz|now apply sol_within]|now apply sol_poisson].
Qed.
Theorem perturbed_square : forall n x0, (0 < n)%nat -> In x0 states ->
  markov states K' n x0 (fun l => (sumR fc l) ^ 2) <= INR n ^ 2 * (44 * H ^ 2 / INR n + 4 * H ^ 2 * e ^ 2).
Proof.
  intros n x0 Hn Hx0. assert (HI : 0 < INR n) by now apply lt_0_INR. assert (HI1 : 1 <= INR n) by (change 1 with (INR 1); apply le_INR; lia).
  assert (HH : 0 <= H) by (eapply Rle_trans; [apply Rabs_pos|exact (M_H 0 x0 Hx0)]).
  assert (He : 0 <= e) by (eapply Rle_trans; [|exact (close x0 Hx0)]; apply sumR_nonneg; intros; apply Rabs_pos).
  set (D := fun (hist : list X) y => sol n y - P' (sol n) (last hist x0)).
  assert (Hsw := sol_within n Hn). assert (HP := P_within states K K_nonneg K_sum H _ Hsw). assert (HP' := P_within states K' K'_nonneg K'_sum H _ Hsw).
  assert (Hlast : forall (h : list X), incl h states -> In (last h x0) states).
  { intros h Hh. destruct (list_eq_dec eqX h []) as [->|Hne]; [exact Hx0|]. destruct (exists_last Hne) as (h' & w & ->). rewrite last_last. apply Hh, in_or_app. right. now left. }
  assert (Hm : markov states K' n x0 (fun l => (mtotal D [] l) ^ 2) <= INR n * (2 * H) ^ 2).
  { apply (mart_square states K' K'_nonneg K'_sum D x0 ((2 * H) ^ 2)) with (h := []); [| |intros w []|exact Hx0].
    - intros h Hh. pose proof (Hlast h Hh) as Hz. unfold D.
      rewrite (sumR_ext_in _ (fun y => K' (last h x0) y * sol n y - K' (last h x0) y * P' (sol n) (last h x0))) by (intros; ring).
      rewrite sumR_minus, sumR_mult_r, K'_sum by exact Hz. unfold MarkovFinite.P. ring.
    - intros h y Hh Hy. pose proof (Hlast h Hh) as Hz. rewrite <- (pow2_abs (D h y)). apply pow_incr. split; [apply Rabs_pos|]. unfold D, Rminus.
      eapply Rle_trans; [apply Rabs_triang|]. rewrite Rabs_Ropp. pose proof (Hsw y Hy). pose proof (HP' _ Hz). lra. }
  apply Rle_trans with (markov states K' n x0 (fun l => 2 * (mtotal D [] l) ^ 2 + (fun _ => 2 * (INR n * e * H + 3 * H) ^ 2) l)).
  - apply (markov_le_in states K' K'_nonneg); [|exact Hx0]. intros l Hl Hi.
    pose proof (total_split n x0 Hn l [] Hi Hx0) as HT. cbn [last] in HT. fold D in HT. rewrite Hl in HT.
    assert (HE : Rabs (sumR fc l - mtotal D [] l) <= INR n * e * H + 3 * H).
    { replace (sumR fc l - mtotal D [] l) with ((sumR fc l - mtotal D [] l - (P (sol n) x0 - P (sol n) (last l x0))) + (P (sol n) x0 - P (sol n) (last l x0))) by ring.
      eapply Rle_trans; [apply Rabs_triang|]. pose proof (HP x0 Hx0). pose proof (HP _ (Hlast l Hi)).
      assert (Rabs (P (sol n) x0 - P (sol n) (last l x0)) <= 2 * H) by (unfold Rminus; eapply Rle_trans; [apply Rabs_triang|]; rewrite Rabs_Ropp; lra).
      replace (INR n * (e * H + H / INR n)) with (INR n * e * H + H) in HT by (field; lra). lra. }
    set (a := sumR fc l) in *. set (b := mtotal D [] l) in *. assert (Hs : (a - b) ^ 2 <= (INR n * e * H + 3 * H) ^ 2).
    { rewrite <- (pow2_abs (a - b)). apply pow_incr. split; [apply Rabs_pos|exact HE]. }
    assert (0 <= (a - 2 * b) ^ 2) by apply pow2_ge_0. nra.
  - rewrite markov_lin, (markov_const states K' K'_sum) by exact Hx0.
    apply Rle_trans with (2 * (INR n * (2 * H) ^ 2) + 2 * (INR n * e * H + 3 * H) ^ 2); [lra|].
    replace (INR n ^ 2 * (44 * H ^ 2 / INR n + 4 * H ^ 2 * e ^ 2)) with (44 * H ^ 2 * INR n + 4 * H ^ 2 * e ^ 2 * INR n ^ 2) by (field; lra).
    assert (Hsq : (INR n * e * H + 3 * H) ^ 2 <= 2 * (INR n * e * H) ^ 2 + 2 * (3 * H) ^ 2) by (pose proof (pow2_ge_0 (INR n * e * H - 3 * H)); nra).
    assert (H ^ 2 * 1 <= H ^ 2 * INR n) by (apply Rmult_le_compat_l; [apply pow2_ge_0|exact HI1]).
    replace ((INR n * e * H) ^ 2) with (H ^ 2 * e ^ 2 * INR n ^ 2) in Hsq by ring. nra.
Qed.
End Averages.
End Perturb.
