(** Examples for the statistical error of means: two equally likely states and proposals that stay with probability 3/4, or never. *)
From Coq Require Import Reals Lra Lia.
From Coquelicot Require Import Coquelicot.
From Verif Require Import Prelude MHSpec MHProofs MHRunSpec MarkovFinite DEStat MHRun PipeSpec PipeProofs VarSpec VarProofs.
Import ListNotations.
Local Open Scope R_scope.
Local Open Scope list_scope.

Definition sticky (x y : bool) : R := if Bool.eqb x y then 3/4 else 1/4.
Definition zero_one (x : bool) : list R := [one_if x].
Lemma sticky_distribution : proposal_distribution both sticky.
Proof. constructor; intros; repeat match goal with x : bool |- _ => destruct x end; cbn [both sumR]; unfold sticky in *; cbn [Bool.eqb] in *; lra. Qed.
Lemma sticky_sampler : sampler Bool.bool_dec both (fun _ => 0) (mh_kernel both Bool.bool_dec (fun _ => 0) sticky) sticky (expectation (fun _ => 0) sticky both).
Proof. apply metropolis_hastings; [exact (fun _ => zero_nonzero)|exact sticky_distribution]. Qed.
Lemma sticky_mixing : mixing both sticky.
Proof. exists 1%nat. split; [lia|]. intros x y Hx Hy. exists y. split; [exact Hy|]. split; [destruct x, y; cbn; lra|reflexivity]. Qed.
Lemma sticky_kernel : forall x y, mh_kernel both Bool.bool_dec (fun _ => 0) sticky x y = sticky x y.
Proof.
  assert (H : forall x y, Rmin 1 (mh_ratio (fun _ : bool => 0) x y (sticky x y / sticky y x)) = 1).
  { intros x y. assert (E : mh_ratio (fun _ : bool => 0) x y (sticky x y / sticky y x) = 1); [|rewrite E; apply Rmin_left; lra].
    unfold mh_ratio. rewrite exp_0. destruct x, y; cbn; field. }
  intros x y. unfold mh_kernel, kernel. cbn [both sumR]. rewrite !H. destruct x, y; cbn; lra.
Qed.
Lemma half_mean : true_mean both (fun _ => 0) zero_one 0 = 1/2.
Proof. unfold true_mean, mean_in, target. cbn. rewrite exp_0. field. Qed.
Section Two.
Variables (K : bool -> bool -> R) (r : R).
Hypothesis K_same : forall x, K x x = (1 + r) / 2.
Hypothesis K_other : forall x, K x (negb x) = (1 - r) / 2.
Lemma two_it : forall k x, it both K k (fun y => nth 0 (zero_one y) 0 - 1/2) x = r ^ k * (one_if x - 1/2).
Proof.
  induction k as [|k IH]; intros x; [cbn; ring|]. cbn [it]. unfold P. cbn [both sumR]. rewrite !IH. pose proof (K_same true). pose proof (K_same false). pose proof (K_other true). pose proof (K_other false). cbn [negb] in *.
  destruct x; cbn [one_if pow]; rewrite ?H, ?H0, ?H1, ?H2; field.
Qed.
Lemma two_gamma : forall k, steady_autocovariance both (fun _ => 0) K zero_one 1 k = 1/4 * r ^ k.
Proof.
  intros k. unfold steady_autocovariance. cbn [seq sumR]. rewrite Rplus_0_r. unfold mean_in. cbn [both sumR]. rewrite half_mean, !after_it, !two_it. unfold target. cbn. rewrite exp_0. field.
Qed.
End Two.
Lemma sticky_gamma : forall k, steady_autocovariance both (fun _ => 0) (mh_kernel both Bool.bool_dec (fun _ => 0) sticky) zero_one 1 k = 1/4 * (1/2) ^ k.
Proof. apply two_gamma; intros x; rewrite sticky_kernel; destruct x; cbn; lra. Qed.
Lemma flip_gamma : forall k, steady_autocovariance both (fun _ => 0) (mh_kernel both Bool.bool_dec (fun _ => 0) flip) zero_one 1 k = 1/4 * (-1) ^ k.
Proof. apply two_gamma; intros x; rewrite flip_kernel; destruct x; cbn; lra. Qed.
Lemma sticky_lags : forall L, lags_up_to L (steady_autocovariance both (fun _ => 0) (mh_kernel both Bool.bool_dec (fun _ => 0) sticky) zero_one 1) = 3/4 - 1/2 * (1/2) ^ L.
Proof.
  intros L. unfold lags_up_to. rewrite sticky_gamma. induction L as [|L IH]; [cbn; lra|].
  rewrite seq_S, sumR_app. cbn [sumR]. rewrite sticky_gamma. cbn [Nat.add pow] in *. lra.
Qed.
Lemma sticky_limit : is_lim_seq (fun L => lags_up_to L (steady_autocovariance both (fun _ => 0) (mh_kernel both Bool.bool_dec (fun _ => 0) sticky) zero_one 1)) (3/4).
Proof.
  apply (is_lim_seq_ext (fun L => 3/4 - 1/2 * (1/2) ^ L)); [intros; symmetry; apply sticky_lags|].
  replace (3/4) with (3/4 - 1/2 * 0) at 1 by ring. apply is_lim_seq_minus'; [apply is_lim_seq_const|]. apply is_lim_seq_mult'; [apply is_lim_seq_const|]. apply is_lim_seq_geom. rewrite Rabs_pos_eq; lra.
Qed.
Lemma flip_lags : forall l, lags_up_to (2 * l) (steady_autocovariance both (fun _ => 0) (mh_kernel both Bool.bool_dec (fun _ => 0) flip) zero_one 1) = 1/4 /\
  lags_up_to (2 * l + 1) (steady_autocovariance both (fun _ => 0) (mh_kernel both Bool.bool_dec (fun _ => 0) flip) zero_one 1) = - (1/4).
Proof.
  set (g := steady_autocovariance both (fun _ => 0) (mh_kernel both Bool.bool_dec (fun _ => 0) flip) zero_one 1).
  assert (Hs : forall L, lags_up_to (S L) g = lags_up_to L g + 2 * g (S L)).
  { intros L. unfold lags_up_to. rewrite seq_S, sumR_app. cbn [sumR Nat.add]. ring. }
  assert (He : forall l, g (2 * l)%nat = 1/4) by (intros l; unfold g; rewrite flip_gamma, pow_1_even; ring).
  assert (Ho : forall l, g (S (2 * l)) = - (1/4)) by (intros l; unfold g; rewrite flip_gamma, pow_1_odd; ring).
  induction l as [|l [IH1 IH2]].
  - replace (2 * 0)%nat with 0%nat by lia. cbn [Nat.add]. rewrite Hs. change 1%nat with (S (2 * 0)). rewrite Ho. unfold lags_up_to. cbn [seq sumR]. change 0%nat with (2 * 0)%nat. rewrite He. lra.
  - assert (H1 : lags_up_to (2 * S l) g = 1/4). { replace (2 * S l)%nat with (S (2 * l + 1)) by lia. rewrite Hs, IH2. replace (S (2 * l + 1)) with (2 * (S l))%nat by lia. rewrite He. lra. }
    split; [exact H1|]. replace (2 * S l + 1)%nat with (S (2 * S l)) by lia. rewrite Hs, H1, Ho. lra.
Qed.
Lemma flip_no_limit : forall sigma2 : R, ~ is_lim_seq (fun L => lags_up_to L (steady_autocovariance both (fun _ => 0) (mh_kernel both Bool.bool_dec (fun _ => 0) flip) zero_one 1)) sigma2.
Proof.
  intros sigma2 H. set (u := fun L => lags_up_to L (steady_autocovariance both (fun _ => 0) (mh_kernel both Bool.bool_dec (fun _ => 0) flip) zero_one 1)) in H.
  assert (H0 : is_lim_seq (fun l => u (2 * l)%nat) sigma2) by (apply (is_lim_seq_subseq u (Finite sigma2) (fun l => 2 * l)%nat); [intros Q (N & HN); exists N; intros n Hn; apply HN; lia|exact H]).
  assert (H1 : is_lim_seq (fun l => u (2 * l + 1)%nat) sigma2) by (apply (is_lim_seq_subseq u (Finite sigma2) (fun l => 2 * l + 1)%nat); [intros Q (N & HN); exists N; intros n Hn; apply HN; lia|exact H]).
  apply (is_lim_seq_ext _ (fun _ => 1/4)) in H0; [|intros l; apply flip_lags]. apply (is_lim_seq_ext _ (fun _ => - (1/4))) in H1; [|intros l; apply flip_lags].
  apply is_lim_seq_unique in H0. apply is_lim_seq_unique in H1. rewrite Lim_seq_const in H0, H1. injection H0 as H0. injection H1 as H1. lra.
Qed.
