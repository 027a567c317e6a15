(** Statistics of a finite Markov chain, continued: rescaled statistics, burn-in, thinning, hitting times. *)
From Coq Require Import Reals Lra Lia.
From Coquelicot Require Import Coquelicot.
From Verif Require Import Prelude ConsumerModel ProducerModel ProducerSpec XReal MHSpec DEStat MHProofs MHRunSpec MarkovFinite MHRun MarkovTop MarkovStats.
Import ListNotations.
Local Open Scope R_scope.
Local Open Scope list_scope.
Local Notation length := List.length.

(** every (k+1)-th element; the first c are left out *)
Fixpoint every {A} (k c : nat) (l : list A) : list A :=
  match l with [] => [] | y :: l' => match c with O => y :: every k k l' | S c' => every k c' l' end end.

Section Chain.
Context {X : Type}.
Variable eqX : forall x y : X, {x = y} + {x <> y}.
Variables (states : list X) (K : X -> X -> R).
Hypothesis states_nodup : NoDup states.
Hypothesis K_nonneg : forall x y, In x states -> In y states -> 0 <= K x y.
Hypothesis K_sum : forall x, In x states -> sumR (K x) states = 1.
Local Notation markov := (markov states K).
Local Notation P := (P states K).
Local Notation it := (it states K).
Local Notation step := (step eqX states K).
Local Notation consistent := (consistent states K).

Lemma cons_scale : forall Z W c a B, consistent W c -> (forall l, good states l -> Rabs (W l) <= B) ->
  (forall l, good states l -> (length l <= a)%nat -> Rabs (Z l) <= B) ->
  (forall l, good states l -> (a < length l)%nat -> Z l = INR (length l) / INR (length l - a) * W l) -> consistent Z c.
Proof.
  intros Z W c a B HW HB H1 H2. apply (cons_near states K K_nonneg K_sum Z W c ((2 * INR a + 2) * (INR a + 1) * B) HW).
  intros l Hl. pose proof (good_INR states l Hl) as HI. pose proof (HB l Hl) as Hb. pose proof (pos_INR a) as Ha.
  assert (HB0 : 0 <= B) by (eapply Rle_trans; [apply Rabs_pos|exact Hb]).
  destruct (Nat.le_gt_cases (length l) a) as [Hn|Hn].
  - pose proof (H1 l Hl Hn) as Hz. apply Rle_trans with (2 * B).
    + eapply Rle_trans; [apply Rabs_triang|]. rewrite Rabs_Ropp. lra.
    + apply le_INR in Hn. apply Rmult_le_reg_r with (INR (length l)); [lra|]. 
      replace ((2 * INR a + 2) * (INR a + 1) * B / INR (length l) * INR (length l)) with ((2 * INR a + 2) * (INR a + 1) * B) by (field; lra).
      apply Rle_trans with (2 * B * INR a); [apply Rmult_le_compat_l; lra|]. assert (0 <= INR a * INR a * B) by (repeat apply Rmult_le_pos; lra).
      assert (0 <= INR a * B) by (apply Rmult_le_pos; lra). lra.
  - rewrite (H2 l Hl Hn). rewrite minus_INR by lia. set (n := INR (length l)) in *. set (b := INR a) in *.
    assert (Hnb : b + 1 <= n) by (unfold b, n; rewrite <- S_INR; apply le_INR; lia).
    replace (n / (n - b) * W l - W l) with (b / (n - b) * W l) by (field; lra). rewrite Rabs_mult.
    rewrite Rabs_pos_eq by (apply Rmult_le_pos; [exact Ha|]; apply Rlt_le, Rinv_0_lt_compat; lra).
    assert (Hq : b / (n - b) <= b * (b + 1) / n).
    { apply Rmult_le_reg_r with ((n - b) * n); [apply Rmult_lt_0_compat; lra|].
      replace (b / (n - b) * ((n - b) * n)) with (b * n) by (field; lra). replace (b * (b + 1) / n * ((n - b) * n)) with (b * (b + 1) * (n - b)) by (field; lra).
      assert (0 <= b * (b * (n - b - 1))) by (repeat apply Rmult_le_pos; lra). nra. }
    apply Rle_trans with (b * (b + 1) / n * B).
    + apply Rmult_le_compat; [|apply Rabs_pos|exact Hq|exact Hb]. apply Rmult_le_pos; [exact Ha|]. apply Rlt_le, Rinv_0_lt_compat. lra.
    + replace ((2 * b + 2) * (b + 1) * B / n) with (b * (b + 1) / n * B + (b + 2) * (b + 1) / n * B) by (field; lra).
      assert (0 <= (b + 2) * (b + 1) / n * B); [|lra]. repeat apply Rmult_le_pos; try lra. apply Rlt_le, Rinv_0_lt_compat. lra.
Qed.

(** ** Burn-in *)
Lemma cons_tl : forall Z c, consistent Z c -> consistent (fun l => Z (tl l)) c.
Proof.
  intros Z c (C & HC). exists (2 * Rabs C + (Z [] - c) ^ 2). intros x n Hx Hn.
  destruct n as [|n]; [lia|]. cbn [MHRunSpec.markov tl]. pose proof (pow2_ge_0 (Z [] - c)) as H0. pose proof (Rabs_pos C) as HC0. pose proof (RRle_abs C) as HC1.
  destruct n as [|n].
  - cbn [MHRunSpec.markov]. rewrite sumR_mult_r, K_sum by exact Hx. cbn [INR]. lra.
  - apply Rle_trans with (sumR (fun y => K x y * (C / INR (S n))) states).
    + apply sumR_le_in. intros y Hy. apply Rmult_le_compat_l; [now apply K_nonneg|]. apply HC; [exact Hy|lia].
    + rewrite sumR_mult_r, K_sum by exact Hx. rewrite Rmult_1_l. rewrite (S_INR (S n)). set (m := INR (S n)).
      assert (Hm : 1 <= m) by (unfold m; rewrite S_INR; pose proof (pos_INR n); lra).
      apply Rmult_le_reg_r with (m * (m + 1)); [apply Rmult_lt_0_compat; lra|].
      replace (C / m * (m * (m + 1))) with (C * (m + 1)) by (field; lra).
      replace ((2 * Rabs C + (Z [] - c) ^ 2) / (m + 1) * (m * (m + 1))) with ((2 * Rabs C + (Z [] - c) ^ 2) * m) by (field; lra).
      assert (C * (m + 1) <= Rabs C * (m + 1)) by (apply Rmult_le_compat_r; lra).
      assert (0 <= Rabs C * (m - 1)) by (apply Rmult_le_pos; lra). assert (0 <= (Z [] - c) ^ 2 * m) by (apply Rmult_le_pos; lra). lra.
Qed.
Theorem cons_skip : forall k Z c, consistent Z c -> consistent (fun l => Z (skipn k l)) c.
Proof.
  induction k as [|k IH]; intros Z c H; [exact H|].
  apply (cons_ext states K K_nonneg K_sum _ (fun l => (fun l => Z (skipn k l)) (tl l))).
  - apply (cons_tl (fun l => Z (skipn k l)) c). now apply IH.
  - intros [|a l] _; cbn; [now destruct k|reflexivity].
Qed.

(** ** Thinning *)
Lemma markov_drop : forall k c n x G, markov (c + n) x (fun l => G (every k c l)) = it c (fun y => markov n y (fun l => G (every k 0 l))) x.
Proof.
  intros k. induction c as [|c IH]; intros n x G; [reflexivity|]. cbn [Nat.add MHRunSpec.markov MarkovFinite.it]. unfold MarkovFinite.P. apply sumR_ext_in. intros y _.
  f_equal. cbn [every]. apply IH.
Qed.
Lemma every_short : forall {A} k c (l : list A), (length l <= c)%nat -> every k c l = [].
Proof. intros A k c l. revert c. induction l as [|a l IH]; intros c H; [reflexivity|]. cbn in *. destruct c as [|c]; [lia|]. apply IH. lia. Qed.
Lemma thin_markov : forall k a r x G, (r <= k)%nat -> In x states ->
  markov (a * S k + r) x (fun l => G (every k k l)) = MHRunSpec.markov states (step (S k)) a x G.
Proof.
  intros k. induction a as [|a IH]; intros r x G Hr Hx.
  - cbn [Nat.mul Nat.add MHRunSpec.markov]. rewrite (markov_ext states K r x _ (fun _ => G [])).
    + now apply (markov_const states K K_sum).
    + intros l Hl. rewrite every_short by lia. reflexivity.
  - replace (S a * S k + r)%nat with (k + S (a * S k + r))%nat by lia. rewrite markov_drop. cbn [MHRunSpec.markov every].
    rewrite (it_ext states K k _ (P (fun y => MHRunSpec.markov states (step (S k)) a y (fun l => G (y :: l))))); [| |exact Hx].
    + rewrite <- it_S. apply (it_step eqX states states_nodup K). exact Hx.
    + intros y Hy. unfold MarkovFinite.P. apply sumR_ext_in. intros z Hz. f_equal. exact (IH r z (fun l => G (z :: l)) Hr Hz).
Qed.
Lemma it_thin : forall k j g x, In x states -> MarkovFinite.it states (step k) j g x = it (j * k) g x.
Proof.
  intros k. induction j as [|j IH]; intros g x Hx; [reflexivity|]. cbn [MarkovFinite.it Nat.mul]. rewrite it_plus. unfold MarkovFinite.P at 1.
  rewrite (it_step eqX states states_nodup K k _ x Hx). apply sumR_ext_in. intros y Hy. f_equal. now apply IH.
Qed.

(** ** Hitting *)
Section Hit.
Variable H : X -> bool.
Fixpoint avoid (n : nat) (x : X) : R := match n with O => 1 | S n' => sumR (fun y => K x y * (if H y then 0 else avoid n' y)) states end.
Lemma avoid_markov : forall n x, In x states -> markov n x (fun l => if existsb H l then 0 else 1) = avoid n x.
Proof.
  induction n as [|n IH]; intros x Hx; [reflexivity|]. cbn [MHRunSpec.markov avoid]. apply sumR_ext_in. intros y Hy. f_equal. cbn [existsb].
  destruct (H y); cbn [orb]; [now apply (markov_const states K K_sum)|now apply IH].
Qed.
Lemma avoid_range : forall n x, In x states -> 0 <= avoid n x <= 1.
Proof.
  induction n as [|n IH]; intros x Hx; cbn [avoid]; [lra|]. split.
  - apply sumR_nonneg. intros y Hy. apply Rmult_le_pos; [now apply K_nonneg|]. destruct (H y); [lra|now apply IH].
  - rewrite <- (K_sum x Hx). apply sumR_le_in. intros y Hy. rewrite <- (Rmult_1_r (K x y)) at 2. apply Rmult_le_compat_l; [now apply K_nonneg|].
    destruct (H y); [lra|now apply IH].
Qed.
Lemma avoid_plus : forall e b, (forall x, In x states -> avoid b x <= e) -> forall a x, In x states -> avoid (a + b) x <= e * avoid a x.
Proof.
  intros e b He. induction a as [|a IH]; intros x Hx; cbn [Nat.add avoid]; [rewrite Rmult_1_r; now apply He|].
  rewrite <- sumR_scal. apply sumR_le_in. intros y Hy. replace (e * (K x y * (if H y then 0 else avoid a y))) with (K x y * (e * (if H y then 0 else avoid a y))) by ring.
  apply Rmult_le_compat_l; [now apply K_nonneg|]. destruct (H y); [lra|now apply IH].
Qed.
Lemma avoid_pow : forall e m, 0 <= e -> (forall x, In x states -> avoid m x <= e) -> forall a r x, In x states -> avoid (r + a * m) x <= e ^ a.
Proof.
  intros e m H0 He a. induction a as [|a IH]; intros r x Hx.
  - cbn [Nat.mul pow]. rewrite Nat.add_0_r. now apply avoid_range.
  - replace (r + S a * m)%nat with (m + r + a * m)%nat by lia. apply Rle_trans with (e ^ a * avoid (m + r) x).
    + rewrite <- (Nat.add_0_l (a * m)) at 1. apply (avoid_plus (e ^ a) (0 + a * m)); [|exact Hx]. intros z Hz. now apply IH.
    + cbn [pow]. rewrite (Rmult_comm e). apply Rmult_le_compat_l; [now apply pow_le|].
      rewrite Nat.add_comm. apply Rle_trans with (e * avoid r x); [now apply avoid_plus|]. pose proof (avoid_range r x Hx). rewrite <- (Rmult_1_r e) at 2.
      apply Rmult_le_compat_l; lra.
Qed.
Definition inH (y : X) : R := if H y then 1 else 0.
Lemma avoid_it : forall k n x, (k < n)%nat -> In x states -> avoid n x <= 1 - it (S k) inH x.
Proof.
  induction k as [|k IH]; intros n x Hn Hx; (destruct n as [|n]; [lia|]); cbn [avoid MarkovFinite.it]; rewrite <- (K_sum x Hx); unfold MarkovFinite.P at 1; rewrite <- sumR_minus; apply sumR_le_in; intros y Hy.
  - unfold inH. pose proof (avoid_range n y Hy). pose proof (K_nonneg x y Hx Hy). destruct (H y); [lra|].
    assert (K x y * avoid n y <= K x y * 1) by (apply Rmult_le_compat_l; lra). lra.
  - pose proof (K_nonneg x y Hx Hy) as HK. assert (IHy : avoid n y <= 1 - it (S k) inH y) by (apply IH; [lia|exact Hy]). cbn [MarkovFinite.it] in IHy.
    assert (Hle : (if H y then 0 else avoid n y) <= avoid n y) by (destruct (H y); [now apply avoid_range|lra]).
    replace (K x y - K x y * P (it k inH) y) with (K x y * (1 - P (it k inH) y)) by ring. apply Rmult_le_compat_l; [exact HK|]. lra.
Qed.
End Hit.
End Chain.
