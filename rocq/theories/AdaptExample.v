(** Adaptive Metropolis: a strategy that satisfies the conditions, and one that adapts forever and misses the target distribution. *)
From Coq Require Import Reals Lra Lia.
From Coquelicot Require Import Coquelicot.
From Verif Require Import Prelude ConsumerModel ProducerModel ProducerSpec XReal MHSpec MHProofs StatsModel StatsSpec StatsInst MHRunSpec DEStat MarkovFinite MHRun AdaptSpec AdaptRun AdaptFinite AdaptMH AdaptCov.
Import ListNotations.
Local Open Scope R_scope.
Local Open Scope list_scope.
Local Notation length := List.length.

(** Flip a bool with probability a. *)
Definition flips (a : R) (x y : bool) : R := if Bool.eqb x y then 1 - a else a.
Lemma flips_distribution : forall a, 0 < a < 1 -> proposal_distribution both (flips a).
Proof. intros a Ha. constructor; [intros [] []; cbn; lra|intros [] _; cbn; lra|intros [] []; cbn; lra]. Qed.
Lemma flips_kernel : forall a x y, 0 < a < 1 -> mh_kernel both Bool.bool_dec (fun _ => 0) (flips a) x y = flips a x y.
Proof.
  intros a x y Ha.
  assert (HR : forall u v, mh_ratio (fun _ : bool => 0) u v (flips a u v / flips a v u) = 1).
  { intros u v. unfold mh_ratio. rewrite exp_0. assert (flips a u v = flips a v u) as -> by (destruct u, v; reflexivity). assert (0 < flips a v u) by (destruct u, v; cbn; lra). field. lra. }
  unfold mh_kernel, kernel. cbn [both sumR]. rewrite !HR, (Rmin_left 1 1) by lra. destruct (Bool.bool_dec x y) as [E|E]; destruct x, y; try discriminate E; try (exfalso; now apply E); cbn; lra.
Qed.
Lemma both_all : forall x, In x both.
Proof. intros []; cbn; auto. Qed.
Lemma both_path : forall x y, In x both -> In y both -> path both (fun _ _ => True) 1 x y.
Proof. intros x y _ Hy. exists y. repeat split; auto. Qed.

(** ** A strategy that adapts to the variance *)
Definition as_vector (x : bool) : list R := [if x then 1 else 0].
Definition rate (C : nat -> nat -> R) : R := / 4 + / 4 * Rmin 1 (Rmax 0 (C 0%nat 0%nat)).
Lemma rate_range : forall C, / 4 <= rate C <= / 2.
Proof. intros C. unfold rate, Rmin, Rmax. destruct (Rle_dec 0 (C 0%nat 0%nat)), (Rle_dec 1 _); lra. Qed.
Lemma example_adaptable : adaptable both as_vector 1 (flips (/ 2)) (fun C => flips (rate C)) (/ 4) 1 (fun _ _ => True) (/ 4).
Proof.
  assert (HL : forall a, / 4 <= a <= / 2 -> lively both (/ 4) (fun _ _ => True) (flips a)).
  { intros a Ha. split; [apply flips_distribution; lra|]. intros [] [] _ _ _; cbn; lra. }
  constructor.
  - reflexivity.
  - split; [lra|lia].
  - exact both_path.
  - apply HL. lra.
  - intros C _. apply HL, rate_range.
  - intros C C' e x y _ _ H. specialize (H 0%nat 0%nat ltac:(lia) ltac:(lia)). apply Rcomplements.Rabs_le_between in H.
    apply Rabs_le. unfold rate. destruct x, y; cbn; unfold Rmin, Rmax; destruct (Rle_dec 0 (C 0%nat 0%nat)), (Rle_dec 0 (C' 0%nat 0%nat));
    repeat match goal with |- context [Rle_dec 1 ?a] => destruct (Rle_dec 1 a) end; lra.
Qed.

(** ** A strategy that adapts forever *)
Definition restless (h : list bool) : bool -> bool -> R := flips (if last h true then / 2 else / 4).
Lemma restless_range : forall h, 0 < (if last h true then / 2 else / 4) < 1.
Proof. intros h. destruct (last h true); lra. Qed.
Lemma restless_distribution : adaptive_proposals both restless.
Proof. intros h _. apply flips_distribution, restless_range. Qed.
Lemma restless_lively : never_stuck both restless (/ 4) 1 (fun _ _ => True).
Proof.
  split; [lra|]. split; [lia|]. split; [|exact both_path]. intros h x y _ _ _ _. unfold restless. destruct (last h true), x, y; cbn; lra.
Qed.
Lemma restless_chain : forall n h, adaptive_chain both (adaptive_kernel both Bool.bool_dec (fun _ => 0) restless) n h (last h true) (ends_at Bool.bool_dec (last h true) true) =
  / 3 + (if last h true then 2 / 3 else - / 3) * (/ 4) ^ n.
Proof.
  induction n as [|n IH]; intros h.
  - unfold ends_at. cbn [adaptive_chain last]. destruct (last h true); cbn; lra.
  - cbn [adaptive_chain both sumR]. 
    assert (E : forall y, adaptive_chain both (adaptive_kernel both Bool.bool_dec (fun _ => 0) restless) n (h ++ [y]) y (fun l => ends_at Bool.bool_dec (last h true) true (y :: l))
      = / 3 + (if y then 2 / 3 else - / 3) * (/ 4) ^ n).
    { intros y. specialize (IH (h ++ [y])). rewrite last_last in IH. rewrite <- IH. apply achain_ext. intros l _. unfold ends_at. now rewrite last_cons. }
    change [true; false] with both. rewrite !E. unfold adaptive_kernel, restless. rewrite !flips_kernel by apply restless_range. destruct (last h true); cbn [flips Bool.eqb pow]; lra.
Qed.
Theorem restless_misses : forall n, aexpectation (fun _ => 0) restless both true n (ends_at Bool.bool_dec true true) (/ 3 + 2 / 3 * (/ 4) ^ n).
Proof.
  intros n. pose proof (restless_chain n []) as E. cbn [last] in E. rewrite <- E.
  apply (arun_law_all Bool.bool_dec); [exact both_nodup|intros _; exact zero_nonzero|exact restless_distribution|apply both_all].
Qed.
Lemma restless_target : target both (fun _ => 0) true = / 2.
Proof. unfold target. cbn [both sumR]. rewrite exp_0. lra. Qed.
Lemma restless_symmetric : forall h x y, restless h x y = restless h y x.
Proof. intros h [] []; reflexivity. Qed.
