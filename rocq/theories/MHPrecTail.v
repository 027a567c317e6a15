(** Unlikely states: a random number generator with finitely many values visits them too often. *)
From Coq Require Import Reals Lra Lia.
From Verif Require Import Prelude ProducerModel XReal MHSpec DEStat MHRunSpec MarkovFinite MHRun MHPrecSpec MHPrec.
Import ListNotations.
Local Open Scope R_scope.
Local Open Scope list_scope.
Local Notation length := List.length.

Section Tail.
Variables (Lv : R) (N : nat).
Hypothesis N_pos : (0 < N)%nat.
Hypothesis L_pos : 0 < Lv.
Hypothesis L_max : Lv <> dbl_max.
Hypothesis rare : INR N * exp (- Lv) < 1.
Definition rare_ll (x : bool) : xr := XFin (if x then 0 else - Lv).
Definition coin (x y : bool) : R := 1/2.
Definition coin_rho (x y : bool) : xr := XFin 1.
Local Notation us := (map XFin (grid N)).
Lemma xlog_1 : xlog (XFin 1) = XFin 0.
Proof. cbn. destruct (Rlt_dec 1 0); [lra|]. destruct (Req_EM_T 1 0); [lra|]. now rewrite ln_1. Qed.
Lemma rare_possible : forall x, possible xops rare_ll x = true.
Proof.
  intros x. unfold possible, rare_ll. cbn [d_eq d_nmax d_ninf xops xeq]. pose proof MHProofs.dbl_max_pos.
  destruct (Req_EM_T _ _) as [H0|H0]; [exfalso; destruct x; lra|reflexivity].
Qed.
Lemma up_decision : forall u, decision xops rare_ll coin_rho false true u = true.
Proof.
  intros u. unfold decision. rewrite rare_possible. cbn [d_gt d_sub d_log xops]. unfold coin_rho. rewrite xlog_1. unfold rare_ll. cbn [xsub xneg xadd xgt].
  destruct (Rlt_dec _ _); [reflexivity|lra].
Qed.
Lemma down_decision : forall u, decision xops rare_ll coin_rho true false (XFin u) = if Rle_dec u (exp (- Lv)) then true else false.
Proof.
  intros u. unfold decision. rewrite rare_possible. cbn [d_gt d_ge d_sub d_log d_div d_exp xops]. unfold coin_rho. rewrite xlog_1. unfold rare_ll. cbn [xsub xneg xadd xgt xexp xdiv].
  destruct (Rlt_dec _ _); [lra|]. destruct (Req_EM_T 1 0); [lra|]. replace (exp (- Lv + - 0) / 1) with (exp (- Lv)) by (rewrite Ropp_0, Rplus_0_r; field).
  now rewrite MHProofs.xge_fin.
Qed.
Local Notation A := (acceptance xops rare_ll coin_rho us Bool.bool_dec).
Lemma N_INR : 0 < INR N. Proof. now apply lt_0_INR. Qed.
Lemma us_length : INR (length us) = INR N.
Proof. unfold grid. now rewrite !map_length, seq_length. Qed.
Lemma A_up : A false true = 1.
Proof.
  unfold acceptance. rewrite (sumR_ext_in _ (fun _ => 1)).
  2:{ intros u _. rewrite current_one by apply rare_possible. unfold dnext. rewrite up_decision. destruct (Bool.bool_dec true true); congruence. }
  assert (Hc : forall l : list xr, sumR (fun _ => 1) l = INR (length l)) by (induction l as [|u l IH]; [reflexivity|]; cbn [sumR length]; rewrite IH, S_INR; ring).
  rewrite Hc. apply Rinv_r. rewrite us_length. pose proof N_INR. lra.
Qed.
Lemma A_down : A true false = / INR N.
Proof.
  unfold acceptance. rewrite us_length. unfold Rdiv. rewrite <- (Rmult_1_l (/ INR N)) at 2. f_equal.
  rewrite sumR_map.
  rewrite (sumR_ext_in _ (fun u => if Rle_dec u (exp (- Lv)) then 1 else 0)).
  2:{ intros u _. rewrite current_one by apply rare_possible. unfold dnext. rewrite down_decision. destruct (Rle_dec _ _).
      - destruct (Bool.bool_dec false false); congruence.
      - destruct (Bool.bool_dec true false); congruence. }
  unfold grid. rewrite sumR_map. pose proof N_INR as HI. pose proof (exp_pos (- Lv)).
  destruct N as [|M] eqn:EN; [lia|]. rewrite <- EN in *. replace (seq 0 N) with (0%nat :: seq 1 M) by (rewrite EN; reflexivity). cbn [sumR].
  rewrite (sumR_ext_in _ (fun _ => 0)), sumR_zero.
  - cbn [INR]. unfold Rdiv. rewrite Rmult_0_l. destruct (Rle_dec 0 _); lra.
  - intros k Hk. apply in_seq in Hk. destruct (Rle_dec _ _) as [Hle|]; [|reflexivity]. exfalso.
    assert (H1 : 1 <= INR k) by (change 1 with (INR 1); apply le_INR; lia).
    assert (INR k <= INR N * exp (- Lv)); [|lra]. replace (INR k) with (INR N * (INR k / INR N)) by (field; lra). apply Rmult_le_compat_l; lra.
Qed.
Local Notation K := (kernel Bool.bool_dec both coin A).
Lemma K_values : K true true = 1 - / (2 * INR N) /\ K true false = / (2 * INR N) /\ K false true = 1/2 /\ K false false = 1/2.
Proof.
  pose proof N_INR. unfold kernel, coin, both. cbn [sumR]. rewrite A_up, A_down.
  destruct (Bool.bool_dec true true), (Bool.bool_dec true false), (Bool.bool_dec false true), (Bool.bool_dec false false); try congruence.
  repeat split; field; lra.
Qed.
Theorem rare_visited : forall n,
  dexpectation xops rare_ll coin_rho coin us both true n (ends_at Bool.bool_dec true false) = / (INR N + 1) * (1 - ((INR N - 1) / (2 * INR N)) ^ n).
Proof.
  intros n. pose proof N_INR as HI.
  assert (Hf : filter (possible xops rare_ll) both = both) by (cbn [both filter]; now rewrite !rare_possible).
  assert (Hus : us <> []) by (intros H; apply (f_equal (@List.length xr)) in H; unfold grid in H; rewrite !map_length, seq_length in H; cbn in H; lia).
  rewrite (run_dlaw Bool.bool_dec xops rare_ll coin_rho coin us both Hus both_nodup ltac:(intros; cbn; unfold coin; lra) true ltac:(rewrite Hf; now left)).
  rewrite Hf. transitivity (it both K n (delta Bool.bool_dec false) true); [exact (markov_last both K n true (delta Bool.bool_dec false))|].
  set (la := (INR N - 1) / (2 * INR N)).
  enough (G : it both K n (delta Bool.bool_dec false) true = / (INR N + 1) * (1 - la ^ n) /\ it both K n (delta Bool.bool_dec false) false = / (INR N + 1) + INR N / (INR N + 1) * la ^ n) by apply G.
  destruct K_values as (Ktt & Ktf & Kft & Kff).
  induction n as [|n (IH1 & IH2)].
  - cbn [it pow]. unfold delta. destruct (Bool.bool_dec true false), (Bool.bool_dec false false); try congruence. split; field; lra.
  - cbn [it pow]. unfold P. cbn [both sumR]. rewrite IH1, IH2, Ktt, Ktf, Kft, Kff. set (t := la ^ n). unfold la. split; field; lra.
Qed.
End Tail.
