(** Proofs: the variance of averages over a Markov chain is the sum of its autocovariances. *)
From Coq Require Import Reals Lra Lia List.
From Coquelicot Require Import Coquelicot.
From Verif Require Import Prelude MHSpec MHRunSpec MHProofs DEStat MarkovFinite MarkovPerturb.
Import ListNotations.
Local Open Scope R_scope.
Local Open Scope list_scope.
Local Notation length := List.length.

Section Var.
Context {X : Type}.
Variable eqX : forall x y : X, {x = y} + {x <> y}.
Variable states : list X.
Variables (K : X -> X -> R) (p : X -> R).
Hypothesis K_nonneg : forall x y, In x states -> In y states -> 0 <= K x y.
Hypothesis K_sum : forall x, In x states -> sumR (K x) states = 1.
Hypothesis p_nonneg : forall x, In x states -> 0 <= p x.
Hypothesis p_sum : sumR p states = 1.
Hypothesis p_stationary : forall y, In y states -> sumR (fun x => p x * K x y) states = p y.
Notation P := (P states K).
Notation it := (it states K).
Notation M := (M states K).
Notation within := (within states).
Notation mean := (mean_in states p).
(** How fast the influence of the past decays. *)
Variables (a : nat -> R) (S : R).
Hypothesis a_nonneg : forall k, 0 <= a k.
Hypothesis a_decr : forall k, a (Datatypes.S k) <= a k.
Hypothesis a_sum : forall n, sumn a n <= S.
Hypothesis decay : forall k g B, mean g = 0 -> within B g -> within (a k * B) (it k g).
Variables (g : X -> R) (B : R).
Hypothesis g_mean : mean g = 0.
Hypothesis g_within : within B g.
Hypothesis B_nonneg : 0 <= B.

Definition gamma (k : nat) : R := mean (fun x => g x * it k g x).
Definition A (n : nat) : X -> R := M n (P g).
Definition h (n : nat) (x : X) : R := g x ^ 2 + 2 * g x * A n x.
Definition s (n : nat) : R := gamma 0 + 2 * sumn (fun k => gamma (Datatypes.S k)) n.
Lemma S_nonneg : 0 <= S.
Proof. exact (a_sum 0). Qed.
Lemma mean_ext : forall f f', (forall x, In x states -> f x = f' x) -> mean f = mean f'.
Proof. intros f f' H. apply sumR_ext_in. intros x Hx. now rewrite H. Qed.
Lemma mean_bound : forall f C, within C f -> Rabs (mean f) <= C.
Proof.
  intros f C H. eapply Rle_trans; [apply sumR_abs|]. eapply Rle_trans; [apply (sumR_le_in _ (fun x => p x * C))|].
  - intros x Hx. rewrite Rabs_mult, (Rabs_pos_eq (p x)) by now apply p_nonneg. apply Rmult_le_compat_l; [now apply p_nonneg|now apply H].
  - rewrite sumR_mult_r, p_sum. lra.
Qed.
Lemma it_shift : forall k x, it k (P g) x = it (Datatypes.S k) g x.
Proof. intros. symmetry. apply it_S. Qed.
Lemma sumn_within : forall (F : nat -> X -> R) (b : nat -> R) n, (forall k, (k < n)%nat -> within (b k) (F k)) -> within (sumn b n) (fun x => sumn (fun k => F k x) n).
Proof.
  intros F b n H x Hx. eapply Rle_trans; [apply sumn_abs|]. apply sumn_le. intros k Hk. now apply H.
Qed.
Lemma Pg_mean : mean (P g) = 0.
Proof. rewrite (P_mean states K p p_stationary). exact g_mean. Qed.
Lemma A_within : forall n, within (B * S) (A n).
Proof.
  intros n x Hx. unfold A, MarkovFinite.M. eapply Rle_trans; [apply (sumn_within (fun k => it k (P g)) (fun k => a k * B) n)|].
  - intros k _. apply decay; [exact Pg_mean|]. now apply (P_within states K K_nonneg K_sum).
  - exact Hx.
  - rewrite (sumn_ext _ (fun k => B * a k)) by (intros; ring). rewrite sumn_scal. apply Rmult_le_compat_l; [exact B_nonneg|apply a_sum].
Qed.
Lemma A_mean : forall n, mean (A n) = 0.
Proof. intros n. apply (M_mean states K p p_stationary). exact Pg_mean. Qed.
Lemma h_within : forall n, within (B ^ 2 + 2 * B * (B * S)) (h n).
Proof.
  intros n x Hx. unfold h. pose proof (g_within x Hx) as Hg. pose proof (A_within n x Hx) as HA. pose proof S_nonneg as HS.
  eapply Rle_trans; [apply Rabs_triang|]. apply Rplus_le_compat.
  - rewrite <- RPow_abs. apply pow_incr. split; [apply Rabs_pos|exact Hg].
  - rewrite !Rabs_mult, (Rabs_pos_eq 2) by lra. rewrite !Rmult_assoc. apply Rmult_le_compat_l; [lra|]. apply Rmult_le_compat; auto using Rabs_pos.
Qed.
Lemma mean_sumn : forall (F : nat -> X -> R) n, mean (fun x => sumn (fun k => F k x) n) = sumn (fun k => mean (F k)) n.
Proof.
  intros F n. induction n as [|n IH]; cbn [sumn]; [unfold mean_in; rewrite (sumR_ext_in _ (fun _ => 0)) by (intros; ring); apply sumR_zero|].
  rewrite <- IH. unfold mean_in. rewrite <- sumR_plus. apply sumR_ext_in. intros. ring.
Qed.
Lemma h_mean : forall n, mean (h n) = s n.
Proof.
  intros n. unfold s, gamma at 1. rewrite <- sumn_scal.
  rewrite (sumn_ext _ (fun k => mean (fun x => 2 * (g x * it (Datatypes.S k) g x)))).
  2:{ intros k _. unfold gamma, mean_in. rewrite <- sumR_scal. apply sumR_ext_in. intros. ring. }
  rewrite <- (mean_sumn (fun k x => 2 * (g x * it (Datatypes.S k) g x))). unfold mean_in. rewrite <- sumR_plus. apply sumR_ext_in. intros x Hx. unfold h, A, MarkovFinite.M. cbn [MarkovFinite.it].
  rewrite (sumn_ext (fun k => 2 * (g x * it (Datatypes.S k) g x)) (fun k => (2 * g x) * it k (P g) x)). 2:{ intros k _. rewrite it_shift. ring. }
  rewrite sumn_scal. ring.
Qed.
(** Second moments *)
Definition V (n : nat) (x : X) : R := markov states K n x (fun l => (total g l) ^ 2).
Lemma V_step : forall n x, In x states -> V (Datatypes.S n) x = P (fun y => h n y + V n y) x.
Proof.
  intros n x Hx. unfold V at 1. cbn [markov]. apply sumR_ext_in. intros y Hy. f_equal.
  rewrite (markov_ext states K n y _ (fun l => (2 * g y) * total g l + (1 * (fun _ => g y ^ 2) l + (total g l) ^ 2))) by (intros; unfold total; cbn; ring).
  rewrite !(markov_lin states K), (markov_const states K K_sum), (markov_total states K K_sum) by exact Hy. unfold h, V, A. ring.
Qed.
Lemma V_is : forall n x, In x states -> V n x = sumn s n + sumn (fun j => it (n - j) (fun y => h j y - s j) x) n.
Proof.
  induction n as [|n IH]; intros x Hx; [cbn; ring|]. rewrite V_step by exact Hx. rewrite (P_ext states K _ (fun y => 1 * (fun y => h n y - s n) y + (1 * (fun _ => sumn s (Datatypes.S n)) y + sumn (fun j => it (n - j) (fun z => h j z - s j) y) n))).
  2:{ intros y Hy. rewrite (IH y Hy). cbn [sumn]. ring. }
  rewrite !(P_lin states K), (P_const states K K_sum) by exact Hx. cbn [sumn]. replace (Datatypes.S n - n)%nat with 1%nat by lia.
  change (P (fun y => sumn (fun j => it (n - j) (fun z => h j z - s j) y) n) x) with (it 1 (fun y => sumn (fun j => it (n - j) (fun z => h j z - s j) y) n) x).
  rewrite (it_sumn states K n 1 (fun j => it (n - j) (fun z => h j z - s j))).
  rewrite (sumn_ext (fun j => it 1 (it (n - j) (fun z => h j z - s j)) x) (fun j => it (Datatypes.S n - j) (fun z => h j z - s j) x)).
  2:{ intros j Hj. replace (Datatypes.S n - j)%nat with (Datatypes.S (n - j)) by lia. reflexivity. }
  change (it 1 (fun y => h n y - s n) x) with (P (fun y => h n y - s n) x). ring.
Qed.
Definition H : R := 2 * (B ^ 2 + 2 * B * (B * S)).
Lemma H_nonneg : 0 <= H.
Proof. unfold H. pose proof S_nonneg. assert (0 <= B * (B * S)) by (repeat apply Rmult_le_pos; assumption). assert (0 <= B ^ 2) by apply pow2_ge_0. lra. Qed.
Lemma center_mean : forall f, mean (fun y => f y - mean f) = 0.
Proof.
  intros f. unfold mean_in at 1. rewrite (sumR_ext_in _ (fun x => p x * f x - p x * mean f)) by (intros; ring). rewrite sumR_minus, sumR_mult_r, p_sum. unfold mean_in. ring.
Qed.
Lemma h_decay : forall k j, within (a k * H) (it k (fun y => h j y - s j)).
Proof.
  intros k j. apply decay.
  - rewrite <- h_mean. apply center_mean.
  - intros x Hx. unfold H. pose proof (h_within j x Hx). pose proof (mean_bound (h j) _ (h_within j)) as Hm. rewrite h_mean in Hm.
    unfold Rminus. eapply Rle_trans; [apply Rabs_triang|]. rewrite Rabs_Ropp. lra.
Qed.
Lemma sumn_rev : forall f n, sumn (fun j => f (n - j)%nat) n = sumn (fun k => f (Datatypes.S k)) n.
Proof.
  intros f n. assert (G : forall n, sumn (fun j => f (n - j)%nat) n = sumn (fun k => f (Datatypes.S k)) n); [|apply G]. clear n. intros n.
  assert (Sh : forall (u : nat -> R) n, sumn u (Datatypes.S n) = u 0%nat + sumn (fun k => u (Datatypes.S k)) n).
  { clear. intros u n. induction n as [|n IH]; cbn [sumn] in *; [ring|]. rewrite IH. ring. }
  induction n as [|n IH]; [reflexivity|]. rewrite Sh. rewrite (sumn_ext (fun k => f (Datatypes.S n - Datatypes.S k)%nat) (fun j => f (n - j)%nat)) by (intros; f_equal; lia). rewrite IH. cbn [sumn]. rewrite Nat.sub_0_r. ring.
Qed.
Lemma V_near : forall n x, In x states -> Rabs (V n x - sumn s n) <= H * S.
Proof.
  intros n x Hx. rewrite V_is by exact Hx. replace (_ - _) with (sumn (fun j => it (n - j) (fun y => h j y - s j) x) n) by ring.
  eapply Rle_trans; [apply sumn_abs|]. eapply Rle_trans; [apply (sumn_le _ (fun j => (fun k => a k * H) (n - j)%nat)); intros j _; now apply h_decay|].
  rewrite (sumn_rev (fun k => a k * H)). eapply Rle_trans; [apply (sumn_le _ (fun k => H * a k)); intros k _|].
  - rewrite Rmult_comm. apply Rmult_le_compat_l; [exact H_nonneg|apply a_decr].
  - rewrite sumn_scal. apply Rmult_le_compat_l; [exact H_nonneg|apply a_sum].
Qed.
(** The sums of autocovariances converge *)
Lemma sumn_app : forall (u : nat -> R) n k, sumn u (n + k) = sumn u n + sumn (fun i => u (n + i)%nat) k.
Proof. intros u n k. induction k as [|k IH]; [rewrite Nat.add_0_r; cbn; ring|]. rewrite Nat.add_succ_r. cbn [sumn]. rewrite IH. ring. Qed.
Lemma s_diff : forall j k, Rabs (s (j + k) - s j) <= 2 * B * (B * S) * a j.
Proof.
  intros j k. unfold s. rewrite sumn_app. replace (_ - _) with (2 * sumn (fun i => gamma (Datatypes.S (j + i))) k) by ring.
  rewrite Rabs_mult, (Rabs_pos_eq 2) by lra. rewrite !Rmult_assoc. apply Rmult_le_compat_l; [lra|].
  rewrite (sumn_ext _ (fun i => mean (fun x => g x * it j (it i (P g)) x))).
  2:{ intros i _. unfold gamma. apply mean_ext. intros x Hx. rewrite <- (it_plus states K j i), it_shift. reflexivity. }
  rewrite <- (mean_sumn (fun i x => g x * it j (it i (P g)) x)).
  assert (E : mean (fun x => sumn (fun i => g x * it j (it i (P g)) x) k) = mean (fun x => g x * it j (A k) x)).
  { apply mean_ext. intros x Hx. rewrite sumn_scal. f_equal. unfold A, MarkovFinite.M. symmetry. apply (it_sumn states K k j (fun i => it i (P g))). }
  rewrite E. apply mean_bound. intros x Hx. rewrite Rabs_mult. apply Rmult_le_compat; [apply Rabs_pos|apply Rabs_pos|now apply g_within|].
  rewrite <- Rmult_assoc, Rmult_comm. apply decay; [apply A_mean|apply A_within|exact Hx].
Qed.
Lemma a_small : forall k, a k * INR (Datatypes.S k) <= S.
Proof.
  intros k. eapply Rle_trans; [|apply (a_sum (Datatypes.S k))]. rewrite Rmult_comm, <- (sumn_const (a k) (Datatypes.S k)). apply sumn_le. intros j Hj.
  assert (L : forall i, a (j + i) <= a j). { induction i as [|i IH]; [rewrite Nat.add_0_r; lra|]. rewrite Nat.add_succ_r. eapply Rle_trans; [apply a_decr|exact IH]. }
  replace k with (j + (k - j))%nat by lia. apply L.
Qed.
Lemma s_limit : exists sigma2 : R, is_lim_seq s sigma2 /\ forall j, Rabs (s j - sigma2) <= 2 * B * (B * S) * a j.
Proof.
  pose proof S_nonneg as HS. set (C := 2 * B * (B * S)). assert (HC : 0 <= C) by (unfold C; repeat apply Rmult_le_pos; try assumption; lra).
  assert (Hex : ex_finite_lim_seq s).
  { apply ex_lim_seq_cauchy_corr. intros eps. destruct (archimed_cor1 (eps / (C * S + 1))) as (N & HN & HN0).
    { apply Rdiv_lt_0_compat; [apply cond_pos|]. assert (0 <= C * S) by now apply Rmult_le_pos. lra. }
    exists N. assert (Small : forall j, (N <= j)%nat -> C * a j < eps).
    { intros j Hj. pose proof (a_small j) as Ha. assert (HI : INR N <= INR (Datatypes.S j)) by (apply le_INR; lia). assert (HN1 : 0 < INR N) by (apply lt_0_INR; lia).
      assert (Hq : a j * INR N <= S) by (eapply Rle_trans; [|exact Ha]; apply Rmult_le_compat_l; [apply a_nonneg|exact HI]).
      assert (H1 : C * a j * INR N <= C * S) by (rewrite Rmult_assoc; now apply Rmult_le_compat_l).
      assert (H2 : (C * S + 1) < eps * INR N).
      { assert (0 < C * S + 1) by (assert (0 <= C * S) by (now apply Rmult_le_pos); lra). apply Rmult_lt_reg_r with (/ INR N / (C * S + 1)); [apply Rdiv_lt_0_compat; [now apply Rinv_0_lt_compat|assumption]|].
        replace ((C * S + 1) * (/ INR N / (C * S + 1))) with (/ INR N) by (field; lra). replace (eps * INR N * (/ INR N / (C * S + 1))) with (eps / (C * S + 1)) by (field; lra). exact HN. }
      apply Rmult_lt_reg_r with (INR N); [exact HN1|]. lra. }
    intros n m Hn Hm. destruct (le_lt_dec n m) as [L|L].
    - replace m with (n + (m - n))%nat by lia. rewrite Rabs_minus_sym. eapply Rle_lt_trans; [apply s_diff|]. now apply Small.
    - replace n with (m + (n - m))%nat by lia. eapply Rle_lt_trans; [apply s_diff|]. now apply Small. }
  destruct Hex as (sigma2 & Hl). exists sigma2. split; [exact Hl|]. intros j.
  assert (L1 : is_lim_seq (fun k => Rabs (s (j + k) - s j)) (Rabs (sigma2 - s j))).
  { apply (is_lim_seq_abs _ (Finite (sigma2 - s j))). apply is_lim_seq_minus'; [|apply is_lim_seq_const]. apply (is_lim_seq_ext (fun k => s (k + j))); [intros k; f_equal; lia|]. now apply -> (is_lim_seq_incr_n s j). }
  rewrite Rabs_minus_sym. apply (is_lim_seq_le (fun k => Rabs (s (j + k) - s j)) (fun _ => C * a j) (Rabs (sigma2 - s j)) (C * a j)); [intros k; apply s_diff|exact L1|apply is_lim_seq_const].
Qed.
Theorem variance : exists sigma2 : R, 0 <= sigma2 /\ is_lim_seq s sigma2 /\ forall n x, In x states -> Rabs (V n x - INR n * sigma2) <= H * S + 2 * B * (B * S) * S.
Proof.
  destruct s_limit as (sigma2 & Hl & Hd). pose proof S_nonneg as HS. assert (HC : 0 <= 2 * B * (B * S)) by (repeat apply Rmult_le_pos; try assumption; lra).
  assert (Main : forall n x, In x states -> Rabs (V n x - INR n * sigma2) <= H * S + 2 * B * (B * S) * S).
  { intros n x Hx. replace (V n x - INR n * sigma2) with ((V n x - sumn s n) + (sumn s n - INR n * sigma2)) by ring. eapply Rle_trans; [apply Rabs_triang|]. apply Rplus_le_compat; [now apply V_near|].
    rewrite <- (sumn_const sigma2 n), <- sumn_minus. eapply Rle_trans; [apply sumn_abs|]. eapply Rle_trans; [apply (sumn_le _ (fun j => 2 * B * (B * S) * a j)); intros j _; apply Hd|].
    rewrite sumn_scal. apply Rmult_le_compat_l; [exact HC|apply a_sum]. }
  exists sigma2. split; [|split; [exact Hl|exact Main]]. clear Hl Hd. destruct states as [|x0 st] eqn:Es; [cbn in p_sum; lra|]. rewrite <- Es in *. assert (Hx0 : In x0 states) by (rewrite Es; now left). clear Es.
  destruct (Rle_dec 0 sigma2) as [|Hneg]; [assumption|exfalso]. apply Rnot_le_lt in Hneg. set (C := H * S + 2 * B * (B * S) * S) in *.
  assert (HC0 : 0 <= C) by (unfold C; pose proof H_nonneg; apply Rplus_le_le_0_compat; apply Rmult_le_pos; assumption).
  assert (Hun : exists n, (C + 1) / - sigma2 < INR n). { destruct (archimed ((C + 1) / - sigma2)) as [Hu _]. exists (Z.to_nat (up ((C + 1) / - sigma2))). rewrite INR_IZR_INZ. assert (0 < (C + 1) / - sigma2) by (apply Rdiv_lt_0_compat; lra). rewrite Z2Nat.id; [exact Hu|]. apply le_IZR. lra. }
  destruct Hun as (n & Hn).
  pose proof (Main n x0 Hx0) as HM. assert (HV : 0 <= V n x0). { unfold V. rewrite <- (markov_const states K K_sum n x0 0 Hx0). apply (markov_le states K K_nonneg); [|exact Hx0]. intros l. apply pow2_ge_0. }
  assert (Hlow : C + 1 < INR n * - sigma2). { apply Rmult_lt_reg_r with (/ - sigma2); [apply Rinv_0_lt_compat; lra|]. replace (INR n * - sigma2 * / - sigma2) with (INR n) by (field; lra). exact Hn. }
  apply Rcomplements.Rabs_le_between in HM. lra.
Qed.

(** ** Reversible chains: sums truncated after an odd lag are too small *)
Section Reversible.
Hypothesis rev : forall x y, In x states -> In y states -> p x * K x y = p y * K y x.
Lemma P_adjoint : forall u v, mean (fun x => u x * P v x) = mean (fun x => P u x * v x).
Proof.
  intros u v. unfold mean_in, MarkovFinite.P.
  rewrite (sumR_ext_in (fun x => p x * (u x * sumR (fun y => K x y * v y) states)) (fun x => sumR (fun y => (p x * K x y) * u x * v y) states)).
  2:{ intros x Hx. rewrite <- !sumR_scal. apply sumR_ext_in. intros. ring. }
  rewrite sumR_swap. apply sumR_ext_in. intros y Hy. rewrite (sumR_ext_in _ (fun x => (p y * v y) * (K y x * u x))). 2:{ intros x Hx. rewrite rev by assumption. ring. }
  rewrite sumR_scal. ring.
Qed.
Lemma it_adjoint : forall k u v, mean (fun x => u x * it k v x) = mean (fun x => it k u x * v x).
Proof.
  induction k as [|k IH]; intros u v; [reflexivity|]. cbn [MarkovFinite.it]. rewrite P_adjoint, IH. apply mean_ext. intros x Hx. f_equal. symmetry. apply it_S.
Qed.
Lemma pair_nonneg : forall u, 0 <= mean (fun x => u x * u x + u x * P u x).
Proof.
  intros u. assert (E : 2 * mean (fun x => u x * u x + u x * P u x) = sumR (fun x => sumR (fun y => (p x * K x y) * (u x + u y) ^ 2) states) states).
  { assert (E1 : mean (fun x => u x * u x) = sumR (fun x => sumR (fun y => p x * K x y * (u x * u x)) states) states).
    { apply sumR_ext_in. intros x Hx. rewrite (sumR_ext_in _ (fun y => (p x * (u x * u x)) * K x y)) by (intros; ring). rewrite sumR_scal, K_sum by exact Hx. ring. }
    assert (E2 : mean (fun x => u x * u x) = sumR (fun x => sumR (fun y => p x * K x y * (u y * u y)) states) states).
    { rewrite sumR_swap. apply sumR_ext_in. intros y Hy. rewrite sumR_mult_r. rewrite p_stationary by exact Hy. reflexivity. }
    assert (E3 : mean (fun x => u x * P u x) = sumR (fun x => sumR (fun y => p x * K x y * (u x * u y)) states) states).
    { apply sumR_ext_in. intros x Hx. unfold MarkovFinite.P. rewrite <- !sumR_scal. apply sumR_ext_in. intros. ring. }
    replace (mean (fun x => u x * u x + u x * P u x)) with (mean (fun x => u x * u x) + mean (fun x => u x * P u x)).
    2:{ unfold mean_in. rewrite <- sumR_plus. apply sumR_ext_in. intros. ring. }
    replace (2 * (mean (fun x => u x * u x) + mean (fun x => u x * P u x))) with ((mean (fun x => u x * u x) + mean (fun x => u x * u x)) + 2 * mean (fun x => u x * P u x)) by ring.
    rewrite E1 at 1. rewrite E2, E3. rewrite <- sumR_scal, <- !sumR_plus. apply sumR_ext_in. intros x Hx. rewrite <- sumR_scal, <- !sumR_plus. apply sumR_ext_in. intros. ring. }
  assert (0 <= sumR (fun x => sumR (fun y => (p x * K x y) * (u x + u y) ^ 2) states) states); [|lra].
  apply sumR_nonneg. intros x Hx. apply sumR_nonneg. intros y Hy. apply Rmult_le_pos; [|apply pow2_ge_0]. apply Rmult_le_pos; auto.
Qed.
Lemma gamma_pairs : forall l, 0 <= gamma (2 * l) + gamma (2 * l + 1).
Proof.
  intros l. assert (E : gamma (2 * l) + gamma (2 * l + 1) = mean (fun x => it l g x * it l g x + it l g x * P (it l g) x)); [|rewrite E; apply pair_nonneg].
  assert (E1 : gamma (2 * l) = mean (fun x => it l g x * it l g x)).
  { unfold gamma. rewrite <- (it_adjoint l g (it l g)). apply mean_ext. intros x Hx. rewrite <- it_plus. do 2 f_equal. lia. }
  assert (E2 : gamma (2 * l + 1) = mean (fun x => it l g x * P (it l g) x)).
  { unfold gamma. change (P (it l g)) with (it (Datatypes.S l) g). rewrite <- (it_adjoint l g (it (Datatypes.S l) g)). apply mean_ext. intros x Hx. rewrite <- it_plus. do 2 f_equal. lia. }
  rewrite E1, E2. unfold mean_in. rewrite <- sumR_plus. apply sumR_ext_in. intros. ring.
Qed.
Lemma gamma_even : forall l, 0 <= gamma (2 * l).
Proof.
  intros l. unfold gamma. replace (2 * l)%nat with (l + l)%nat by lia. rewrite (mean_ext _ (fun x => g x * it l (it l g) x)) by (intros; now rewrite it_plus). rewrite it_adjoint.
  apply sumR_nonneg. intros x Hx. apply Rmult_le_pos; [auto|]. exact (Rle_0_sqr _).
Qed.
Lemma truncated : forall sigma2 : R, is_lim_seq s sigma2 -> forall l, s (2 * l + 1) <= sigma2.
Proof.
  intros sigma2 Hl l. assert (Mono : forall k, s (2 * l + 1) <= s (2 * (l + k) + 1)).
  { induction k as [|k IH]; [rewrite Nat.add_0_r; lra|]. eapply Rle_trans; [exact IH|]. pose proof (gamma_pairs (l + k + 1)) as HP.
    replace (2 * (l + Datatypes.S k) + 1)%nat with (Datatypes.S (Datatypes.S (2 * (l + k) + 1))) by lia. unfold s. cbn [sumn].
    replace (Datatypes.S (2 * (l + k) + 1)) with (2 * (l + k + 1))%nat by lia. replace (Datatypes.S (2 * (l + k + 1))) with (2 * (l + k + 1) + 1)%nat by lia. lra. }
  apply (is_lim_seq_le (fun _ => s (2 * l + 1)) (fun k => s (2 * (l + k) + 1)) (s (2 * l + 1)) sigma2); [exact Mono|apply is_lim_seq_const|].
  apply (is_lim_seq_subseq s (Finite sigma2) (fun k => 2 * (l + k) + 1)%nat); [|exact Hl]. intros Q (N & HN). exists N. intros n Hn. apply HN. lia.
Qed.
End Reversible.
End Var.
