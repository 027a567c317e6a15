(** Chains with transition probabilities that depend on the history: distributions and averages, if all the transition probabilities preserve p, mix
    uniformly, and change by O(1/n). *)
From Coq Require Import Reals Lra Lia.
From Coquelicot Require Import Coquelicot.
From Verif Require Import Prelude MHSpec MHRunSpec MHProofs DEStat MarkovFinite MHRun MarkovStats MarkovPerturb AdaptSpec AdaptRun.
Import ListNotations.
Local Open Scope R_scope.
Local Open Scope list_scope.
Local Notation length := List.length.

Fixpoint harmonic (n : nat) : R := match n with O => 0 | S n' => harmonic n' + / INR (S n') end.
Lemma harmonic_le : forall n, 0 <= harmonic n <= INR n.
Proof.
  induction n as [|n IH]; [cbn; lra|]. cbn [harmonic]. assert (0 < / INR (S n)) by (apply Rinv_0_lt_compat, lt_0_INR; lia).
  assert (/ INR (S n) <= 1). { rewrite <- Rinv_1. apply Rinv_le_contravar; [lra|]. rewrite S_INR. pose proof (pos_INR n). lra. }
  rewrite S_INR in *. lra.
Qed.
Lemma harmonic_sq : forall n, harmonic n ^ 2 <= 4 * INR n.
Proof.
  induction n as [|n IH]; [cbn; lra|]. cbn [harmonic]. pose proof (harmonic_le n) as [H0 H1]. set (w := / INR (S n)).
  assert (Hw0 : 0 < w) by (apply Rinv_0_lt_compat, lt_0_INR; lia).
  assert (Hw1 : w * (INR n + 1) = 1) by (unfold w; rewrite S_INR; apply Rinv_l; pose proof (pos_INR n); lra).
  assert (Hw2 : w <= 1) by (pose proof (pos_INR n); nra).
  rewrite S_INR. assert (harmonic n * w <= INR n * w) by (apply Rmult_le_compat_r; lra). nra.
Qed.

Lemma sumn_shift : forall (F : nat -> R) n, sumn F (S n) = sumn (fun i => F (S i)) n + F O.
Proof. intros F n. induction n as [|n IH]; [cbn; ring|]. cbn [sumn] in *. rewrite IH. ring. Qed.

Section Adapt.
Context {X : Type}.
Variable eqX : forall x y : X, {x = y} + {x <> y}.
Variable states : list X.
Hypothesis states_nodup : NoDup states.
Variables (K : list X -> X -> X -> R) (p : X -> R) (c : R).
Hypothesis K_nonneg : forall h x y, incl h states -> In x states -> In y states -> 0 <= K h x y.
Hypothesis K_sum : forall h x, incl h states -> In x states -> sumR (K h x) states = 1.
Hypothesis p_sum : sumR p states = 1.
Hypothesis p_stationary : forall h y, incl h states -> In y states -> sumR (fun x => p x * K h x y) states = p y.
Variables (m : nat) (d : R).
Hypothesis m_pos : (0 < m)%nat.
Hypothesis d_range : 0 < d <= 1.
Hypothesis doeblin : forall h x y, incl h states -> In x states -> In y states -> d * p y <= step eqX states (K h) m x y.
Hypothesis c_pos : 0 <= c.
Hypothesis close : forall h z x, incl h states -> In z states -> In x states -> sumR (fun y => Rabs (K (h ++ [z]) x y - K h x y)) states <= c / INR (S (length h)).
Local Notation mean := (mean_in states p).
Local Notation A := (adaptive_chain states K).
Local Notation P h := (MarkovFinite.P states (K h)).
Local Notation it h := (MarkovFinite.it states (K h)).
Local Notation within := (within states).
Local Notation incl1 := (incl_app1 states).

Lemma A_ext : forall n h x f g, (forall l, length l = n -> f l = g l) -> A n h x f = A n h x g.
Proof. exact (achain_ext states K). Qed.
Lemma A_lin : forall n h x a f g, A n h x (fun l => a * f l + g l) = a * A n h x f + A n h x g.
Proof.
  induction n as [|n IH]; intros; cbn; [reflexivity|]. rewrite <- sumR_scal, <- sumR_plus. apply sumR_ext_in. intros y _. rewrite IH. ring.
Qed.
Lemma A_const : forall n h x v, incl h states -> In x states -> A n h x (fun _ => v) = v.
Proof.
  induction n as [|n IH]; intros h x v Hh Hx; cbn; [reflexivity|]. rewrite (sumR_ext_in _ (fun y => K h x y * v)) by (intros; rewrite IH; auto using incl1).
  rewrite sumR_mult_r, K_sum by assumption. lra.
Qed.
Lemma A_le : forall n h x f g, (forall l, length l = n -> incl l states -> f l <= g l) -> incl h states -> In x states -> A n h x f <= A n h x g.
Proof.
  induction n as [|n IH]; intros h x f g H Hh Hx; cbn [adaptive_chain]; [apply H; [reflexivity|intros z []]|].
  apply sumR_le_in. intros y Hy. apply Rmult_le_compat_l; [now apply K_nonneg|]. apply IH; auto using incl1.
  intros l Hl Hi. apply H; [cbn; lia|]. intros z [<-|Hz]; auto.
Qed.
(** First n steps, then n' steps. *)
Lemma A_plus : forall n n' h x g, A (n + n') h x g = A n h x (fun l => A n' (h ++ l) (last l x) (fun l' => g (l ++ l'))).
Proof.
  induction n as [|n IH]; intros n' h x g; cbn [Nat.add adaptive_chain].
  - rewrite app_nil_r. reflexivity.
  - apply sumR_ext_in. intros y _. f_equal. rewrite IH. apply A_ext. intros l _. rewrite last_cons, <- app_assoc. reflexivity.
Qed.
Lemma A_bounded : forall n h x f v e, (forall l, length l = n -> incl l states -> Rabs (f l - v) <= e) -> incl h states -> In x states -> Rabs (A n h x f - v) <= e.
Proof.
  intros n h x f v e H Hh Hx. apply Rabs_le. split.
  - assert (v - e <= A n h x f); [|lra]. rewrite <- (A_const n h x (v - e) Hh Hx). apply A_le; auto. intros l Hl Hi. specialize (H l Hl Hi). apply Rabs_def2b in H || apply Rcomplements.Rabs_le_between in H. lra.
  - assert (A n h x f <= v + e); [|lra]. rewrite <- (A_const n h x (v + e) Hh Hx). apply A_le; auto. intros l Hl Hi. specialize (H l Hl Hi). apply Rcomplements.Rabs_le_between in H. lra.
Qed.

(** ** Distributions *)
Lemma A_near : forall n h x f B, incl h states -> In x states -> within B (fun y => f y - mean f) ->
  Rabs (A n h x (fun l => f (last l x)) - it h n f x) <= INR n * (c / INR (S (length h)) * B * (INR m / d)).
Proof.
  intros n h x f B Hh Hx HB.
  assert (HB0 : 0 <= B) by (eapply Rle_trans; [apply Rabs_pos|exact (HB x Hx)]).
  assert (HBm : 0 <= B * (INR m / d)).
  { apply Rmult_le_pos; [exact HB0|]. apply Rmult_le_pos; [apply pos_INR|]. apply Rlt_le, Rinv_0_lt_compat. lra. }
  revert h x Hh Hx. induction n as [|n IH]; intros h x Hh Hx.
  - cbn. unfold Rminus. rewrite Rplus_opp_r, Rabs_R0. lra.
  - cbn [adaptive_chain MarkovFinite.it]. unfold MarkovFinite.P. rewrite <- sumR_minus. eapply Rle_trans; [apply sumR_abs|].
    set (e := c / INR (S (length h))).
    assert (He : 0 <= e) by (apply Rmult_le_pos; [exact c_pos|apply Rlt_le, Rinv_0_lt_compat, lt_0_INR; lia]).
    apply Rle_trans with (sumR (fun y => K h x y * (INR (S n) * (e * B * (INR m / d)))) states).
    2:{ rewrite sumR_mult_r, K_sum by assumption. lra. }
    apply sumR_le_in. intros y Hy. rewrite <- Rmult_minus_distr_l, Rabs_mult, (Rabs_pos_eq (K h x y)) by now apply K_nonneg.
    apply Rmult_le_compat_l; [now apply K_nonneg|].
    assert (Hy' : incl (h ++ [y]) states) by now apply incl1.
    replace (A n (h ++ [y]) y (fun l => f (last (y :: l) x))) with (A n (h ++ [y]) y (fun l => f (last l y))) by (apply A_ext; intros; now rewrite last_cons).
    replace (A n (h ++ [y]) y (fun l => f (last l y)) - it h n f y) with
      ((A n (h ++ [y]) y (fun l => f (last l y)) - it (h ++ [y]) n f y) + (it (h ++ [y]) n f y - it h n f y)) by ring.
    eapply Rle_trans; [apply Rabs_triang|]. rewrite S_INR, Rmult_plus_distr_r, Rmult_1_l. apply Rplus_le_compat.
    + eapply Rle_trans; [apply IH; assumption|]. apply Rmult_le_compat_l; [apply pos_INR|]. rewrite !Rmult_assoc. apply Rmult_le_compat_r; [exact HBm|].
      unfold e, Rdiv. apply Rmult_le_compat_l; [exact c_pos|]. apply Rinv_le_contravar; [apply lt_0_INR; lia|]. apply le_INR. rewrite app_length. cbn. lia.
    + eapply Rle_trans.
      * apply (it_close eqX states states_nodup (K h) (K (h ++ [y])) p e) with (m := m) (d := d) (B := B); auto.
        intros z Hz. now apply close.
      * apply Rmult_le_compat_l; [now apply Rmult_le_pos|].
        apply Rmult_le_reg_l with d; [lra|]. replace (d * (INR m / d)) with (INR m) by (field; lra). now apply geometric_blocks.
Qed.
Theorem A_distribution : forall n0 n h x f B, incl h states -> In x states -> within B (fun y => f y - mean f) ->
  Rabs (A (n0 + n) h x (fun l => f (last l x)) - mean f) <= (1 - d) ^ (n / m) * B + INR n * (c / INR (S (length h + n0)) * B * (INR m / d)).
Proof.
  intros n0 n h x f B Hh Hx HB. rewrite A_plus. apply A_bounded; auto. intros l Hl Hi.
  assert (Hx' : In (last l x) states). { destruct l as [|z l]; [exact Hx|]. apply Hi. destruct (exists_last (l := z :: l)) as (l' & w & E); [discriminate|]. rewrite E, last_last. apply in_app_iff. right. now left. }
  assert (Hhl : incl (h ++ l) states) by (intros z Hz; apply in_app_iff in Hz; destruct Hz; auto).
  replace (A n (h ++ l) (last l x) (fun l' => f (last (l ++ l') x))) with (A n (h ++ l) (last l x) (fun l' => f (last l' (last l x)))).
  2:{ apply A_ext. intros l' _. f_equal. destruct l' as [|z l']; [rewrite app_nil_r; reflexivity|].
      destruct (exists_last (l := z :: l')) as (l2 & w & E); [discriminate|]. now rewrite E, app_assoc, !last_last. }
  set (v := A n (h ++ l) (last l x) (fun l' => f (last l' (last l x)))).
  replace (v - mean f) with ((it (h ++ l) n f (last l x) - mean f) + (v - it (h ++ l) n f (last l x))) by ring.
  eapply Rle_trans; [apply Rabs_triang|]. apply Rplus_le_compat.
  - apply (it_converges eqX states states_nodup (K (h ++ l)) p) with (m := m); auto.
  - unfold v. rewrite <- Hl, <- app_length. now apply A_near.
Qed.

(** ** Averages *)
Fixpoint atotal (D : list X -> X -> X -> R) (h : list X) (x : X) (l : list X) : R := match l with [] => 0 | y :: l' => D h x y + atotal D (h ++ [y]) y l' end.
Section Martingale.
Variables (D : list X -> X -> X -> R) (B : R).
Hypothesis D_mart : forall h x, incl h states -> In x states -> sumR (fun y => K h x y * D h x y) states = 0.
Hypothesis D_bound : forall h x y, incl h states -> In x states -> In y states -> (D h x y) ^ 2 <= B.
Lemma amart_zero : forall n h x, incl h states -> In x states -> A n h x (atotal D h x) = 0.
Proof.
  induction n as [|n IH]; intros h x Hh Hx; [reflexivity|]. cbn [adaptive_chain]. rewrite <- (D_mart h x Hh Hx). apply sumR_ext_in. intros y Hy. f_equal.
  rewrite (A_ext n (h ++ [y]) y _ (fun l => 1 * atotal D (h ++ [y]) y l + (fun _ => D h x y) l)) by (intros l _; cbn [atotal]; ring).
  rewrite A_lin, A_const, IH by auto using incl1. ring.
Qed.
Lemma amart_square : forall n h x, incl h states -> In x states -> A n h x (fun l => (atotal D h x l) ^ 2) <= INR n * B.
Proof.
  induction n as [|n IH]; intros h x Hh Hx; [cbn; lra|]. cbn [adaptive_chain].
  apply Rle_trans with (sumR (fun y => K h x y * ((INR n + 1) * B)) states).
  - apply sumR_le_in. intros y Hy. apply Rmult_le_compat_l; [now apply K_nonneg|].
    rewrite (A_ext n (h ++ [y]) y _ (fun l => (2 * D h x y) * atotal D (h ++ [y]) y l + (fun l => 1 * (atotal D (h ++ [y]) y l) ^ 2 + (D h x y) ^ 2) l))
      by (intros l _; cbn [atotal]; ring).
    rewrite A_lin, A_lin, A_const by auto using incl1.
    rewrite amart_zero by auto using incl1. pose proof (IH (h ++ [y]) y (incl1 h y Hh Hy) Hy). pose proof (D_bound h x y Hh Hx Hy). lra.
  - rewrite sumR_mult_r, K_sum by assumption. rewrite S_INR. lra.
Qed.
End Martingale.

Section Averages.
Variables (fc : X -> R) (B : R).
Hypothesis fc_mean : mean fc = 0.
Hypothesis fc_within : within B fc.
Hypothesis B_pos : 0 <= B.
Variable T : nat.
Let rho := (1 - d) ^ (T / m).
Let H := INR m / d * B.
Definition U (h : list X) (x : X) : R := M states (K h) T fc x.

Lemma md_pos : 0 <= INR m / d.
Proof. apply Rmult_le_pos; [apply pos_INR|]. apply Rlt_le, Rinv_0_lt_compat. lra. Qed.
Lemma it_small : forall h k g G, incl h states -> mean g = 0 -> within G g -> within ((1 - d) ^ (k / m) * G) (it h k g).
Proof.
  intros h k g G Hh Hm HG x Hx. pose proof (it_converges eqX states states_nodup (K h) p (fun x y => K_nonneg h x y Hh) (fun x => K_sum h x Hh) p_sum (fun y => p_stationary h y Hh) m d m_pos
    (fun x y => doeblin h x y Hh) k g G x Hx) as HC.
  rewrite Hm in HC. rewrite Rminus_0_r in HC. apply HC. intros y Hy. rewrite Rminus_0_r. now apply HG.
Qed.
Lemma M_small : forall h n g G, incl h states -> mean g = 0 -> within G g -> within (INR m / d * G) (M states (K h) n g).
Proof.
  intros h n g G Hh Hm HG x Hx. unfold M. eapply Rle_trans; [apply sumn_abs|].
  assert (HG0 : 0 <= G) by (eapply Rle_trans; [apply Rabs_pos|exact (HG x Hx)]).
  apply Rle_trans with (sumn (fun k => G * (1 - d) ^ (k / m)) n).
  - apply sumn_le. intros k _. rewrite Rmult_comm. now apply it_small.
  - rewrite sumn_scal, Rmult_comm. apply Rmult_le_compat_r; [exact HG0|].
    apply Rmult_le_reg_l with d; [lra|]. replace (d * (INR m / d)) with (INR m) by (field; lra). now apply geometric_blocks.
Qed.
Lemma U_within : forall h, incl h states -> within H (U h).
Proof. intros h Hh. now apply M_small. Qed.
Lemma U_mean : forall h, incl h states -> mean (U h) = 0.
Proof. intros h Hh. unfold U. apply (M_mean states (K h) p (fun y => p_stationary h y Hh)). exact fc_mean. Qed.
Lemma U_poisson : forall h x, P h (U h) x = U h x + it h T fc x - fc x.
Proof.
  intros h x. pose proof (M_diff states (K h) T 1 fc x) as E. change (P h (U h) x = U h x + (M states (K h) 1 (it h T fc) x - M states (K h) 1 fc x)) in E.
  rewrite E. unfold M. cbn [sumn MarkovFinite.it]. ring.
Qed.
Lemma rho_pos : 0 <= rho.
Proof. apply pow_le. lra. Qed.
(** The solutions of the Poisson equation change little if the transition probabilities change little. *)
Lemma U_close : forall h z x, incl h states -> In z states -> In x states ->
  Rabs (U (h ++ [z]) x - U h x) <= INR m / d * (2 * rho * B + c / INR (S (length h)) * H) + 2 * rho * H.
Proof.
  intros h z x Hh Hz Hx. set (h' := h ++ [z]). assert (Hh' : incl h' states) by now apply incl1.
  set (e := c / INR (S (length h))). set (w := fun y => U h' y - U h y). set (g := fun y => w y - P h' w y).
  assert (Hw2 : within (2 * H) w).
  { intros y Hy. unfold w, Rminus. eapply Rle_trans; [apply Rabs_triang|]. rewrite Rabs_Ropp. pose proof (U_within h Hh y Hy). pose proof (U_within h' Hh' y Hy). lra. }
  assert (Hwm : mean w = 0).
  { unfold w, mean_in. rewrite (sumR_ext_in _ (fun x => p x * U h' x - p x * U h x)) by (intros; ring). rewrite sumR_minus.
    pose proof (U_mean h Hh) as E1. pose proof (U_mean h' Hh') as E2. unfold mean_in in E1, E2. rewrite E1, E2. ring. }
  assert (Hg : forall y, In y states -> g y = (it h T fc y - it h' T fc y) + (P h' (U h) y - P h (U h) y)).
  { intros y Hy. unfold g, w.
    rewrite (P_ext states (K h') (fun y => U h' y - U h y) (fun y => (-1) * U h y + U h' y)) by (intros; ring). rewrite P_lin.
    rewrite (U_poisson h' y). pose proof (U_poisson h y). lra. }
  assert (Hgw : within (2 * rho * B + e * H) g).
  { intros y Hy. rewrite Hg by exact Hy. eapply Rle_trans; [apply Rabs_triang|]. apply Rplus_le_compat.
    - unfold Rminus. eapply Rle_trans; [apply Rabs_triang|]. rewrite Rabs_Ropp.
      pose proof (it_small h T fc B Hh fc_mean fc_within y Hy) as E1. pose proof (it_small h' T fc B Hh' fc_mean fc_within y Hy) as E2. fold rho in E1, E2. lra.
    - apply (P_close states (K h) (K h') e); auto; [|now apply U_within]. intros v Hv. now apply close. }
  assert (Hgm : mean g = 0).
  { unfold g, mean_in. rewrite (sumR_ext_in _ (fun x => p x * w x - p x * P h' w x)) by (intros; ring). rewrite sumR_minus.
    pose proof (P_mean states (K h') p (fun y => p_stationary h' y Hh') w) as E. unfold mean_in in E, Hwm. rewrite E, Hwm. ring. }
  assert (Hsplit : forall n, w x = M states (K h') n g x + it h' n w x).
  { induction n as [|n IHn]; [cbn; ring|]. rewrite IHn at 1. unfold M. cbn [sumn]. rewrite (it_S states (K h') n w x).
    assert (E : it h' n g x = it h' n w x - it h' n (P h' w) x) by (unfold g; apply it_sub). rewrite E. ring. }
  change (Rabs (w x) <= INR m / d * (2 * rho * B + e * H) + 2 * rho * H). rewrite (Hsplit T). eapply Rle_trans; [apply Rabs_triang|]. apply Rplus_le_compat.
  - now apply M_small.
  - pose proof (it_small h' T w (2 * H) Hh' Hwm Hw2 x Hx) as E. fold rho in E. lra.
Qed.
Definition D (h : list X) (x y : X) : R := U h y - P h (U h) x.
Lemma D_mart : forall h x, incl h states -> In x states -> sumR (fun y => K h x y * D h x y) states = 0.
Proof.
  intros h x Hh Hx. unfold D. rewrite (sumR_ext_in _ (fun y => K h x y * U h y - K h x y * P h (U h) x)) by (intros; ring).
  rewrite sumR_minus, sumR_mult_r, K_sum by assumption. unfold MarkovFinite.P. ring.
Qed.
Lemma H_pos : 0 <= H.
Proof. apply Rmult_le_pos; [exact md_pos|exact B_pos]. Qed.
Lemma D_bound : forall h x y, incl h states -> In x states -> In y states -> (D h x y) ^ 2 <= 4 * H ^ 2.
Proof.
  intros h x y Hh Hx Hy. rewrite <- pow2_abs. replace (4 * H ^ 2) with ((2 * H) ^ 2) by ring. apply pow_incr. split; [apply Rabs_pos|]. unfold D, Rminus.
  eapply Rle_trans; [apply Rabs_triang|]. rewrite Rabs_Ropp. pose proof (U_within h Hh y Hy).
  pose proof (P_within states (K h) (fun x y => K_nonneg h x y Hh) (fun x => K_sum h x Hh) H (U h) (U_within h Hh) x Hx). lra.
Qed.
Let a := INR m / d * (c * H).
Let b := INR m / d * (2 * rho * B) + 2 * rho * H + rho * B.
Lemma a_pos : 0 <= a.
Proof. apply Rmult_le_pos; [exact md_pos|]. apply Rmult_le_pos; [exact c_pos|exact H_pos]. Qed.
Lemma decompose : forall l h x, incl h states -> In x states -> incl l states ->
  Rabs (sumR fc l + fc x - fc (last l x) - atotal D h x l - U h x + U (h ++ l) (last l x)) <= sumn (fun i => a / INR (S (length h + i)) + b) (length l).
Proof.
  induction l as [|y l IH]; intros h x Hh Hx Hl.
  - cbn [sumR last atotal length sumn]. rewrite app_nil_r. replace (_ + _) with 0 by ring. rewrite Rabs_R0. lra.
  - assert (Hy : In y states) by (apply Hl; now left). assert (Hl' : incl l states) by (intros z Hz; apply Hl; now right).
    specialize (IH (h ++ [y]) y (incl1 h y Hh Hy) Hy Hl'). rewrite <- app_assoc in IH. cbn [app] in IH.
    rewrite last_cons. cbn [sumR atotal length].
    set (r0 := sumR fc l + fc y - fc (last l y) - atotal D (h ++ [y]) y l - U (h ++ [y]) y + U (h ++ y :: l) (last l y)) in *.
    replace (fc y + sumR fc l + fc x - fc (last l y) - (D h x y + atotal D (h ++ [y]) y l) - U h x + U (h ++ y :: l) (last l y))
      with (r0 + ((U (h ++ [y]) y - U h y) + it h T fc x)) by (unfold r0, D; rewrite U_poisson; ring).
    eapply Rle_trans; [apply Rabs_triang|].
    assert (E : sumn (fun i => a / INR (S (length h + i)) + b) (S (length l)) = sumn (fun i => a / INR (S (length (h ++ [y]) + i)) + b) (length l) + (a / INR (S (length h)) + b)).
    { transitivity (sumn (fun i => a / INR (S (length h + S i)) + b) (length l) + (a / INR (S (length h + 0)) + b)).
      - apply (sumn_shift (fun i => a / INR (S (length h + i)) + b)).
      - rewrite Nat.add_0_r. f_equal. apply sumn_ext. intros k _. do 4 f_equal. rewrite app_length. cbn. lia. }
    rewrite E. apply Rplus_le_compat; [exact IH|].
    eapply Rle_trans; [apply Rabs_triang|]. pose proof (U_close h y y Hh Hy Hy) as H1. pose proof (it_small h T fc B Hh fc_mean fc_within x Hx) as H2. fold rho in H2.
    unfold a, b. replace (INR m / d * (c * H) / INR (S (length h))) with (INR m / d * (c / INR (S (length h)) * H)) by (unfold Rdiv; ring). lra.
Qed.
Lemma sumn_harmonic : forall n, sumn (fun i => a / INR (S i) + b) n = a * harmonic n + INR n * b.
Proof. induction n as [|n IH]; [cbn; ring|]. cbn [sumn harmonic]. rewrite IH, S_INR. unfold Rdiv. ring. Qed.
Lemma A_square : forall n x, In x states -> 
  A n [] x (fun l => (sumR fc l) ^ 2) <= 8 * (INR n * H ^ 2) + 4 * (2 * B + 2 * H + INR n * b) ^ 2 + 16 * a ^ 2 * INR n.
Proof.
  intros n x Hx. assert (Hnil : incl (@nil X) states) by (intros z []).
  apply Rle_trans with (A n [] x (fun l => 2 * (atotal D [] x l) ^ 2 + (fun _ => 4 * (2 * B + 2 * H + INR n * b) ^ 2 + 4 * a ^ 2 * (harmonic n) ^ 2) l)).
  - apply A_le; auto. intros l Hl Hi. pose proof (decompose l [] x Hnil Hx Hi) as HD. cbn [length Nat.add app] in HD. rewrite sumn_harmonic, Hl in HD.
    set (s := sumR fc l) in *. set (t := atotal D [] x l) in *.
    assert (Hlast : In (last l x) states). { destruct l as [|z l']; [exact Hx|]. apply Hi. destruct (exists_last (l := z :: l')) as (l2 & w & E); [discriminate|]. rewrite E, last_last. apply in_app_iff. right. now left. }
    assert (Hst : Rabs (s - t) <= (2 * B + 2 * H + INR n * b) + a * harmonic n).
    { replace (s - t) with ((s + fc x - fc (last l x) - t - U [] x + U l (last l x)) + ((fc (last l x) - fc x) + (U [] x - U l (last l x)))) by ring.
      eapply Rle_trans; [apply Rabs_triang|].
      assert (H1 : Rabs ((fc (last l x) - fc x) + (U [] x - U l (last l x))) <= 2 * B + 2 * H).
      { pose proof (fc_within _ Hx) as E1. pose proof (fc_within _ Hlast) as E2. pose proof (U_within [] Hnil x Hx) as E3. pose proof (U_within l Hi _ Hlast) as E4.
        apply Rcomplements.Rabs_le_between in E1, E2, E3, E4. apply Rabs_le. lra. }
      lra. }
    set (u := 2 * B + 2 * H + INR n * b) in *. set (v := a * harmonic n) in *.
    assert (Hsq : (s - t) ^ 2 <= (u + v) ^ 2) by (rewrite <- (pow2_abs (s - t)); apply pow_incr; split; [apply Rabs_pos|exact Hst]).
    replace (4 * a ^ 2 * harmonic n ^ 2) with (4 * v ^ 2) by (unfold v; ring).
    clearbody s t u v. clear - Hsq. pose proof (pow2_ge_0 (s - 2 * t)). pose proof (pow2_ge_0 (u - v)). nra.
  - rewrite A_lin, A_const by assumption. pose proof (amart_square D (4 * H ^ 2) D_mart D_bound n [] x Hnil Hx).
    pose proof (harmonic_sq n) as Hh. assert (4 * a ^ 2 * harmonic n ^ 2 <= 4 * a ^ 2 * (4 * INR n)) by (apply Rmult_le_compat_l; [pose proof (pow2_ge_0 a); lra|exact Hh]). lra.
Qed.
End Averages.

Theorem A_average : forall f, exists C, forall x n, In x states -> (0 < n)%nat -> A n [] x (fun l => (sample_average f l - mean f) ^ 2) <= C / INR n.
Proof.
  intros f. set (fc := fun y => f y - mean f). set (B := norm states fc). set (H := INR m / d * B). set (a := INR m / d * (c * H)).
  set (b1 := INR m / d * (2 * B) + 2 * H + B).
  exists (8 * H ^ 2 + 4 * (2 * B + 2 * H + b1) ^ 2 + 16 * a ^ 2). intros x n Hx Hn.
  assert (HI : 1 <= INR n) by (change 1 with (INR 1); apply le_INR; lia).
  assert (HB : within B fc) by apply norm_within.
  assert (HB0 : 0 <= B) by (eapply Rle_trans; [apply Rabs_pos|exact (HB x Hx)]).
  assert (Hm : mean fc = 0).
  { unfold fc, mean_in. rewrite (sumR_ext_in _ (fun x => p x * f x - p x * mean f)) by (intros; unfold mean_in; ring).
    rewrite sumR_minus, sumR_mult_r, p_sum. unfold mean_in. ring. }
  (* a T with (1-d)^(T/m) <= 1/n *)
  assert (HT : exists T, 0 <= (1 - d) ^ (T / m) <= / INR n).
  { destruct (pow_lt_1_zero (1 - d)) with (y := / INR n) as (N & HN).
    - rewrite Rabs_pos_eq; lra.
    - apply Rinv_0_lt_compat. lra.
    - exists (N * m)%nat. rewrite Nat.div_mul by lia. specialize (HN N (Nat.le_refl _)). rewrite Rabs_pos_eq in HN; [split; [|lra]|]; apply pow_le; lra. }
  destruct HT as (T & HT0 & HT1). set (rho := (1 - d) ^ (T / m)) in *.
  rewrite (A_ext n [] x _ (fun l => / INR n ^ 2 * (sumR fc l) ^ 2 + (fun _ => 0) l)).
  2:{ intros l Hl. unfold sample_average, fc. rewrite sumR_center, Hl. field. lra. }
  rewrite A_lin, A_const by (auto; intros z []). rewrite Rplus_0_r.
  pose proof (A_square fc B Hm HB T n x Hx) as HS. fold rho H a in HS.
  set (b := INR m / d * (2 * rho * B) + 2 * rho * H + rho * B) in HS.
  assert (Hb : 0 <= INR n * b <= b1).
  { assert (Hr : 0 <= INR n * rho <= 1).
    { split; [apply Rmult_le_pos; lra|]. apply Rmult_le_reg_l with (/ INR n); [apply Rinv_0_lt_compat; lra|]. rewrite <- Rmult_assoc, Rinv_l, Rmult_1_l, Rmult_1_r by lra. exact HT1. }
    assert (Hb1 : 0 <= b1).
    { unfold b1, H. pose proof md_pos. assert (0 <= INR m / d * B) by (apply Rmult_le_pos; assumption). lra. }
    replace (INR n * b) with ((INR n * rho) * b1) by (unfold b, b1; ring). split; [apply Rmult_le_pos; lra|]. rewrite <- (Rmult_1_l b1) at 2. apply Rmult_le_compat_r; lra. }
  assert (HH : 0 <= H) by (apply Rmult_le_pos; [exact md_pos|exact HB0]).
  assert (Hsq : (2 * B + 2 * H + INR n * b) ^ 2 <= (2 * B + 2 * H + b1) ^ 2) by (apply pow_incr; lra).
  set (w := 2 * B + 2 * H + b1) in *.
  apply Rle_trans with (/ INR n ^ 2 * (INR n * (8 * H ^ 2 + 4 * w ^ 2 + 16 * a ^ 2))); [|right; field; lra].
  apply Rmult_le_compat_l; [apply Rlt_le, Rinv_0_lt_compat, pow_lt; lra|].
  eapply Rle_trans; [exact HS|]. pose proof (pow2_ge_0 w). assert (1 * w ^ 2 <= INR n * w ^ 2) by (apply Rmult_le_compat_r; assumption). lra.
Qed.
End Adapt.
