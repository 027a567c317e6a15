(** Proofs: the chain of DelayedRejectionMetropolisHastings and the target distribution. *)
From Coq Require Import Reals Lra Lia Field.
From Coquelicot Require Import Coquelicot.
From Verif Require Import Prelude ProducerModel ProducerSpec XReal MHSpec MHProofs DRReal DRAlpha DRRun MHRunSpec DEStat MarkovFinite MHRun DRRunSpec DRLaw MarkovTop.
Import ListNotations.
Local Open Scope R_scope.
Local Open Scope list_scope.
Local Notation length := List.length.

Lemma accept_range : forall a, 0 <= accept_probability a <= 1.
Proof.
  intros [| |r|]; cbn; try lra. split; [apply Rmax_l|]. apply Rmax_lub; [lra|apply Rmin_l].
Qed.
Lemma code_range : forall {X} (ll : X -> R) x ys, 0 <= code_accepts ll x ys <= 1.
Proof. intros. unfold code_accepts. destruct (alpha_fn _ _ _ _ _); [apply accept_range|lra]. Qed.
Lemma clip_eq : forall a r, (forall u, 0 < u < 1 -> (u <= a <-> u <= r)) -> Rmax 0 (Rmin 1 a) = Rmax 0 (Rmin 1 r).
Proof.
  assert (G : forall a r, (forall u, 0 < u < 1 -> u <= a -> u <= r) -> Rmax 0 (Rmin 1 a) <= Rmax 0 (Rmin 1 r)).
  { intros a r H. apply Rnot_lt_le. intros Hlt. set (u := (Rmax 0 (Rmin 1 a) + Rmax 0 (Rmin 1 r)) / 2).
    assert (0 <= Rmax 0 (Rmin 1 r)) by apply Rmax_l. assert (Rmax 0 (Rmin 1 a) <= 1) by (apply Rmax_lub; [lra|apply Rmin_l]).
    assert (Hu : 0 < u < 1) by (unfold u; lra).
    assert (u <= a).
    { assert (u < Rmax 0 (Rmin 1 a)) by (unfold u; lra). destruct (Rle_dec 0 (Rmin 1 a)).
      - rewrite Rmax_right in H2 by assumption. pose proof (Rmin_r 1 a). lra.
      - rewrite Rmax_left in H2 by lra. lra. }
    pose proof (H u Hu H2). assert (u <= Rmin 1 r) by (apply Rmin_glb; lra). assert (Rmin 1 r <= Rmax 0 (Rmin 1 r)) by apply Rmax_r. unfold u in *. lra. }
  intros a r H. apply Rle_antisym; apply G; intros u Hu; apply H; exact Hu.
Qed.
Lemma alpha1_range : forall px p1, 0 < px -> 0 < p1 -> 0 <= alpha1 px p1 <= 1.
Proof.
  intros px p1 Hx H1. unfold alpha1. split; [|apply Rmin_l]. apply Rmin_glb; [lra|]. apply Rlt_le, Rdiv_lt_0_compat; assumption.
Qed.

(** The code's acceptance probabilities in the first two stages. *)
Lemma code_first : forall {X} (ll : X -> R) x y, code_accepts ll x [y] = published ll x [y].
Proof.
  intros X ll x y. unfold code_accepts. destruct (stage_rule ll x [] y (or_introl eq_refl)) as (a & Ha & _ & Hu & _).
  unfold with_ll in Ha. cbn [app] in Ha. rewrite Ha. cbn [accept_probability]. rewrite (clip_eq _ _ Hu). cbn [app dr_ratio published]. unfold alpha1.
  apply Rmax_right. pose proof (alpha1_range (exp (ll x)) (exp (ll y)) (exp_pos _) (exp_pos _)). unfold alpha1 in *. lra.
Qed.
Lemma code_second : forall {X} (ll : X -> R) x y1 y2, ll y1 < ll x -> code_accepts ll x [y1; y2] = published ll x [y1; y2].
Proof.
  intros X ll x y1 y2 H. unfold code_accepts.
  destruct (stage_rule ll x [y1] y2) as (a & Ha & _ & Hu & _); [right; exists y1; auto|].
  unfold with_ll in Ha. cbn [app] in Ha. rewrite Ha. cbn [accept_probability]. rewrite (clip_eq _ _ Hu). cbn [app dr_ratio published]. unfold alpha2.
  apply Rmax_right. apply Rmin_glb; [lra|].
  pose proof (alpha1_range (exp (ll y2)) (exp (ll y1)) (exp_pos _) (exp_pos _)). pose proof (alpha1_range (exp (ll x)) (exp (ll y1)) (exp_pos _) (exp_pos _)).
  pose proof (exp_pos (ll x)). pose proof (exp_pos (ll y2)).
  destruct (Req_dec (1 - alpha1 (exp (ll x)) (exp (ll y1))) 0) as [E|E].
  - rewrite E, Rmult_0_r. unfold Rdiv. rewrite Rinv_0. lra.
  - apply Rmult_le_pos; [apply Rmult_le_pos; lra|]. apply Rlt_le, Rinv_0_lt_compat. apply Rmult_lt_0_compat; lra.
Qed.
Lemma rejected_lower : forall {X} (ll : X -> R) x y, published ll x [y] <> 1 -> ll y < ll x.
Proof.
  intros X ll x y H. apply Rnot_le_lt. intros Hle. apply H. cbn. unfold alpha1. apply Rmin_left.
  assert (exp (ll x) <= exp (ll y)) by (destruct Hle as [Hl|Hl]; [left; now apply exp_increasing|right; now rewrite Hl]).
  pose proof (exp_pos (ll x)). apply Rmult_le_reg_r with (exp (ll x)); [assumption|]. unfold Rdiv. rewrite Rmult_assoc, Rinv_l, Rmult_1_r by lra. lra.
Qed.

Section Kernel.
Context {X : Type}.
Variable eqX : forall x y : X, {x = y} + {x <> y}.
Variables (ll : X -> R) (prop : X -> list X -> X -> R) (states : list X).
Hypothesis states_nodup : NoDup states.
Hypothesis Hd : dr_distribution states prop.
Local Notation A := (code_accepts ll).
Local Notation ker := (dr_kernel states eqX prop A).
Local Notation p := (target states ll).

Lemma ker_nonneg : forall k x rj z, 0 <= ker k x rj z.
Proof.
  induction k as [|k IH]; intros x rj z; cbn [dr_kernel]; [destruct (eqX x z); lra|].
  apply sumR_nonneg. intros y _. apply Rmult_le_pos; [apply (dd_nonneg _ _ Hd)|]. pose proof (code_range ll x (rj ++ [y])).
  apply Rplus_le_le_0_compat; apply Rmult_le_pos; try lra; [destruct (eqX y z); lra|apply IH].
Qed.
Lemma ker_sum : forall k x rj, In x states -> incl rj states -> sumR (ker k x rj) states = 1.
Proof.
  induction k as [|k IH]; intros x rj Hx Hrj.
  - pose proof (kernel_end ll prop states eqX states_nodup x rj (fun _ => 1) Hx) as H. rewrite <- H. apply sumR_ext_in. intros; ring.
  - pose proof (kernel_apply ll prop states eqX states_nodup k x rj (fun _ => 1)) as H. cbv beta in H.
    rewrite (sumR_ext_in (ker (S k) x rj) (fun z => ker (S k) x rj z * 1)) by (intros; ring). rewrite H.
    transitivity (sumR (prop x rj) states); [|exact (dd_sum _ _ Hd x rj Hx Hrj)]. apply sumR_ext_in. intros y Hy.
    rewrite (sumR_ext_in (fun z => ker k x (rj ++ [y]) z * 1) (ker k x (rj ++ [y]))) by (intros; ring). rewrite IH; [ring|exact Hx|].
    apply incl_app; [exact Hrj|]. intros z [->|[]]. exact Hy.
Qed.
Lemma ker_first : forall k x rj z, In z states -> prop x rj z * A x (rj ++ [z]) <= ker (S k) x rj z.
Proof.
  intros k x rj z Hz. cbn [dr_kernel].
  eapply Rle_trans; [|apply (sumR_member (fun y => prop x rj y * (A x (rj ++ [y]) * (if eqX y z then 1 else 0) + (1 - A x (rj ++ [y])) * ker k x (rj ++ [y]) z)) states z)].
  - destruct (eqX z z); [|congruence]. apply Rmult_le_compat_l; [apply (dd_nonneg _ _ Hd)|]. pose proof (code_range ll x (rj ++ [z])). pose proof (ker_nonneg k x (rj ++ [z]) z).
    assert (0 <= (1 - A x (rj ++ [z])) * ker k x (rj ++ [z]) z) by (apply Rmult_le_pos; lra). lra.
  - intros y _. apply Rmult_le_pos; [apply (dd_nonneg _ _ Hd)|]. pose proof (code_range ll x (rj ++ [y])).
    apply Rplus_le_le_0_compat; apply Rmult_le_pos; try lra; [destruct (eqX y z); lra|apply ker_nonneg].
  - exact Hz.
Qed.
(** all kernels of up to two stages agree with the published ones *)
Lemma ker_published : forall k x z, (k <= 2)%nat -> ker k x [] z = dr_kernel states eqX prop (published ll) k x [] z.
Proof.
  intros k x z Hk. destruct k as [|k]; [reflexivity|]. cbn [dr_kernel app]. apply sumR_ext_in. intros y _. rewrite code_first. f_equal. f_equal.
  destruct k as [|k]; [reflexivity|]. destruct k as [|k]; [|lia].
  destruct (Req_dec (published ll x [y]) 1) as [->|Hn]; [ring|]. apply rejected_lower in Hn. f_equal. cbn [dr_kernel app]. apply sumR_ext_in. intros y2 _.
  now rewrite code_second.
Qed.
Lemma K_reach : forall k x y, In y states -> 0 < prop x [] y -> 0 < ker (S k) x [] y.
Proof.
  intros k x y Hy H. eapply Rlt_le_trans; [|now apply ker_first]. apply Rmult_lt_0_compat; [exact H|]. cbn [app]. rewrite code_first. cbn. unfold alpha1.
  apply Rmin_glb_lt; [lra|]. apply Rdiv_lt_0_compat; apply exp_pos.
Qed.
Lemma K_beta : forall b k x y, 0 < b -> b <= prop x [] y -> In x states -> In y states -> b * p y <= ker (S k) x [] y.
Proof.
  intros b k x y Hb Hp Hx Hy. eapply Rle_trans; [|now apply ker_first]. cbn [app]. rewrite code_first. cbn [published].
  pose proof (p_pos ll states x Hx). pose proof (p_pos ll states y Hy). pose proof (t_le_1 ll states x Hx). pose proof (t_le_1 ll states y Hy).
  apply Rmult_le_compat; try lra. unfold alpha1. apply Rmin_glb; [lra|].
  assert (E : exp (ll y) / exp (ll x) = p y / p x).
  { unfold target. pose proof (exp_pos (ll x)). pose proof (sum_exp_pos ll states x Hx). field. lra. }
  rewrite E. apply Rmult_le_reg_r with (p x); [assumption|]. unfold Rdiv. rewrite Rmult_assoc, Rinv_l, Rmult_1_r by lra.
  rewrite <- (Rmult_1_r (p y)) at 2. apply Rmult_le_compat_l; lra.
Qed.

(** ** Balance *)
Local Notation pker := (dr_kernel states eqX prop (published ll)).
Lemma pker_off1 : forall x rj z, In z states -> x <> z -> pker 1 x rj z = prop x rj z * published ll x (rj ++ [z]).
Proof.
  intros x rj z Hz Hn. cbn [dr_kernel]. destruct (eqX x z); [contradiction|].
  rewrite (sumR_ext_in _ (fun y => if eqX y z then prop x rj y * published ll x (rj ++ [y]) else 0)) by (intros y _; destruct (eqX y z); ring).
  now apply (sumR_delta eqX (fun y => prop x rj y * published ll x (rj ++ [y]))).
Qed.
Lemma pker_off2 : forall x z, In z states -> x <> z ->
  pker 2 x [] z = prop x [] z * published ll x [z] + sumR (fun y => prop x [] y * (1 - published ll x [y]) * (prop x [y] z * published ll x [y; z])) states.
Proof.
  intros x z Hz Hn.
  assert (E : pker 2 x [] z = sumR (fun y => prop x [] y * (published ll x [y] * (if eqX y z then 1 else 0) + (1 - published ll x [y]) * pker 1 x [y] z)) states) by reflexivity.
  rewrite E. rewrite (sumR_ext_in _ (fun y => (if eqX y z then prop x [] y * published ll x [y] else 0) + prop x [] y * (1 - published ll x [y]) * (prop x [y] z * published ll x [y; z]))).
  - rewrite sumR_plus. f_equal. now apply (sumR_delta eqX (fun y => prop x [] y * published ll x [y])).
  - intros y _. rewrite pker_off1 by assumption. cbn [app]. destruct (eqX y z); ring.
Qed.
Hypothesis Hsym : forall x y, prop x [] y = prop y [] x.
Lemma first_balance : forall x z, exp (ll x) * (prop x [] z * published ll x [z]) = exp (ll z) * (prop z [] x * published ll z [x]).
Proof.
  intros x z. rewrite (Hsym z x). cbn [published]. pose proof (exp_pos (ll x)). pose proof (exp_pos (ll z)). unfold alpha1.
  assert (E : exp (ll x) * Rmin 1 (exp (ll z) / exp (ll x)) = exp (ll z) * Rmin 1 (exp (ll x) / exp (ll z))).
  { assert (Hd1 : forall a b, 0 < a -> a <= b -> 1 <= b / a).
    { intros a b Ha Hab. apply Rmult_le_reg_r with a; [exact Ha|]. unfold Rdiv. rewrite Rmult_assoc, Rinv_l by lra. lra. }
    assert (Hd2 : forall a b, 0 < a -> b <= a -> b / a <= 1).
    { intros a b Ha Hab. apply Rmult_le_reg_r with a; [exact Ha|]. unfold Rdiv. rewrite Rmult_assoc, Rinv_l by lra. lra. }
    destruct (Rle_dec (exp (ll x)) (exp (ll z))) as [Hc|Hc].
    - rewrite Rmin_left, Rmin_right by (auto using Rlt_le). field. lra.
    - rewrite Rmin_right, Rmin_left by (first [apply Hd1 | apply Hd2]; lra). field. lra. }
  replace (exp (ll x) * (prop x [] z * Rmin 1 (exp (ll z) / exp (ll x)))) with (prop x [] z * (exp (ll x) * Rmin 1 (exp (ll z) / exp (ll x)))) by ring.
  rewrite E. ring.
Qed.
Definition two_step (m : nat) : Prop := m = 0%nat \/ (m = 1%nat /\ forall x y1 y2, prop x [] y1 * prop x [y1] y2 = prop y2 [] y1 * prop y2 [y1] x).
Lemma balance : forall m, two_step m -> forall x z, In x states -> In z states -> p x * ker (m + 1) x [] z = p z * ker (m + 1) z [] x.
Proof.
  intros m Hm x z Hx Hz. destruct (eqX x z) as [->|Hn]; [reflexivity|].
  rewrite !ker_published by (destruct Hm as [-> | [-> _]]; cbn; lia).
  assert (G : exp (ll x) * pker (m + 1) x [] z = exp (ll z) * pker (m + 1) z [] x).
  { destruct Hm as [-> | [-> H2]]; cbn [Nat.add].
    - rewrite !pker_off1 by congruence. exact (first_balance x z).
    - rewrite !pker_off2 by congruence. rewrite !Rmult_plus_distr_l, first_balance. f_equal. rewrite <- !sumR_scal. apply sumR_ext_in. intros y _.
      replace (exp (ll x) * (prop x [] y * (1 - published ll x [y]) * (prop x [y] z * published ll x [y; z])))
        with (prop x [] y * prop x [y] z * (exp (ll x) * (1 - published ll x [y]) * published ll x [y; z])) by ring.
      cbn [published]. rewrite (H2 x y z), alpha2_balance by apply exp_pos. ring. }
  unfold target. pose proof (sum_exp_pos ll states x Hx).
  replace (exp (ll x) / sumR (fun y => exp (ll y)) states * pker (m + 1) x [] z) with (exp (ll x) * pker (m + 1) x [] z / sumR (fun y => exp (ll y)) states) by (field; lra).
  rewrite G. field. lra.
Qed.
Lemma stationary : forall m, two_step m -> forall y, In y states -> sumR (fun x => p x * ker (m + 1) x [] y) states = p y.
Proof.
  intros m Hm y Hy. rewrite (sumR_ext_in _ (fun x => p y * ker (m + 1) y [] x)) by (intros x Hx; now apply balance).
  rewrite sumR_scal, ker_sum; [ring|exact Hy|intros z []].
Qed.
End Kernel.
