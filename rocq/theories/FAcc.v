(** AcceptanceRatio in double arithmetic. *)
From Coq Require Import Reals ZArith Lra Lia Psatz.
From Flocq Require Import Core BinarySingleNaN Relative.
From Verif Require Import Prelude ConsumerModel ConsumerSpec ConsumerProofs StatsModel HistFloat FloatSpec FloatBase FCosModel FCosProofs.
Local Open Scope R_scope.
Local Notation length := List.length.
Local Notation u := unit_roundoff.
Local Notation int n := (IZR (Z.of_N n)).

Lemma double_0 : is_double 0. Proof. apply generic_format_0. Qed.
Lemma double_1 : is_double 1. Proof. change 1 with (bpow radix2 0). apply bpow_double. lia. Qed.
Lemma rnd_mono x y : x <= y -> rnd x <= rnd y. Proof. apply round_le; [apply fexp_valid|apply valid_rnd_N]. Qed.

Lemma rnd_int n : (n <= 2 ^ 53)%N -> rnd (int n) = int n. Proof. intros H. apply round_generic; [apply valid_rnd_N|now apply int_double]. Qed.

Section A.
  Variables k n : N.
  Hypothesis Hk : (1 <= k <= n)%N.
  Hypothesis Hn : (n < 2 ^ 64)%N.
  Let r := kdiv b64_ops (kofN b64_ops k) (kofN b64_ops n).

  Lemma ints : 1 <= int k <= int n /\ int n < 18446744073709551616.
  Proof. split; [split; [apply (IZR_le 1)|apply IZR_le]; lia|]. apply (IZR_lt _ 18446744073709551616). lia. Qed.
  Lemma rints : 1 <= rnd (int k) <= rnd (int n).
  Proof. destruct ints as [[A B] _]. split; [apply rnd_ge; [apply double_1|exact A]|now apply rnd_mono]. Qed.
  Lemma ratio_bounds : 0 < rnd (int k) / rnd (int n) <= 1.
  Proof.
    pose proof rints as H. split; [apply Rdiv_lt_0_compat; lra|]. apply (Rmult_le_reg_r (rnd (int n))); [lra|]. unfold Rdiv. rewrite Rmult_assoc, Rinv_l by lra. lra.
  Qed.
  Lemma ratio_val : finite r /\ val r = rnd (rnd (int k) / rnd (int n)).
  Proof.
    destruct (ofN_ok k ltac:(lia)) as [Fk Vk]. destruct (ofN_ok n Hn) as [Fn Vn]. pose proof rints as HR. pose proof ratio_bounds as HB. pose proof big_max. pose proof big_1.
    destruct (div_ok (kofN b64_ops k) (kofN b64_ops n) Fk) as [F V]; [rewrite Vn; lra|rewrite Vk, Vn, Rabs_right; lra|]. split; [exact F|]. unfold r. now rewrite V, Vk, Vn.
  Qed.
  Lemma ratio_normal : bpow radix2 (-1022) <= rnd (int k) / rnd (int n).
  Proof.
    pose proof rints as HR. destruct ints as [_ Bn]. assert (B : rnd (int n) <= 18446744073709551616) by (apply rnd_le; [change 18446744073709551616 with (bpow radix2 64); apply bpow_double; lia|lra]).
    apply Rle_trans with (bpow radix2 (-64)); [apply bpow_le; lia|]. change (bpow radix2 (-64)) with (/ 18446744073709551616). apply (Rmult_le_reg_r (rnd (int n))); [lra|]. unfold Rdiv. rewrite Rmult_assoc, Rinv_l, Rmult_1_r by lra.
    apply Rle_trans with 1; [|lra]. apply (Rmult_le_reg_l 18446744073709551616); [lra|]. rewrite <- Rmult_assoc, Rinv_r by lra. lra.
  Qed.
  Lemma ratio_range : 0 < val r <= 1.
  Proof.
    destruct ratio_val as [_ ->]. pose proof ratio_normal as HN. pose proof ratio_bounds as HB. split.
    - apply Rlt_le_trans with (bpow radix2 (-1022)); [apply bpow_gt_0|]. apply rnd_ge; [apply bpow_double; lia|exact HN].
    - apply rnd_le; [apply double_1|lra].
  Qed.
  Lemma ratio_error : Rabs (val r - int k / int n) <= 4 * u * (int k / int n).
  Proof.
    destruct ratio_val as [_ ->]. destruct ints as [[A B] C]. pose proof rints as HR. pose proof (bpow_gt_0 radix2 (-1022)) as B6. assert (B1 : bpow radix2 (-1022) <= 1) by (change 1 with (bpow radix2 0); apply bpow_le; lia).
    destruct (rnd_normal (rnd (int k) / rnd (int n))) as (e3 & H3 & ->); [rewrite Rabs_right; [apply ratio_normal|pose proof ratio_bounds; lra]|].
    destruct (rnd_normal (int k)) as (e1 & H1 & ->); [rewrite Rabs_right; lra|]. destruct (rnd_normal (int n)) as (e2 & H2 & ->); [rewrite Rabs_right; lra|].
    pose proof u_pos as Hu. assert (Hu' : u <= / 1000) by (rewrite u_val; lra).
    assert (Q : 0 < int k / int n) by (apply Rdiv_lt_0_compat; lra). assert (P2 : 0 < 1 + e2) by (apply Rabs_le_inv in H2; lra).
    replace (int k * (1 + e1) / (int n * (1 + e2)) * (1 + e3) - int k / int n) with (((1 + e1) * (1 + e3) - (1 + e2)) / (1 + e2) * (int k / int n)) by (field; lra).
    rewrite Rabs_mult, (Rabs_right (int k / int n)) by lra. apply Rmult_le_compat_r; [lra|]. unfold Rdiv. rewrite Rabs_mult, (Rabs_right (/ (1 + e2))) by (apply Rle_ge, Rlt_le, Rinv_0_lt_compat, P2).
    apply (Rmult_le_reg_r (1 + e2)); [exact P2|]. rewrite Rmult_assoc, Rinv_l, Rmult_1_r by lra.
    apply Rle_trans with (3 * u + u * u).
    - replace ((1 + e1) * (1 + e3) - (1 + e2)) with (e1 + e3 - e2 + e1 * e3) by ring. eapply Rle_trans; [apply Rabs_triang|]. rewrite Rabs_mult. apply Rplus_le_compat; [|apply Rmult_le_compat; try apply Rabs_pos; assumption].
      apply Rabs_le_inv in H1. apply Rabs_le_inv in H2. apply Rabs_le_inv in H3. apply Rabs_le. lra.
    - apply Rabs_le_inv in H2. assert (u * u <= u * / 1000) by (apply Rmult_le_compat_l; lra). assert (4 * u * (1 - u) <= 4 * u * (1 + e2)) by (apply Rmult_le_compat_l; lra). lra.
  Qed.
  Hypothesis Hn53 : (n <= 2 ^ 53)%N.
  Lemma ratio_exact : val r = rnd (int k / int n).
  Proof. destruct ratio_val as [_ ->]. now rewrite (rnd_int k), (rnd_int n) by lia. Qed.
  Lemma ratio_error1 : Rabs (val r - int k / int n) <= u * (int k / int n).
  Proof.
    rewrite ratio_exact. destruct ints as [[A B] C]. pose proof ratio_normal as HN. rewrite (rnd_int k), (rnd_int n) in HN by lia.
    assert (Q : 0 < int k / int n) by (apply Rdiv_lt_0_compat; lra). destruct (rnd_normal (int k / int n)) as (e & He & ->); [rewrite Rabs_right; lra|].
    replace (int k / int n * (1 + e) - int k / int n) with (e * (int k / int n)) by ring. rewrite Rabs_mult, (Rabs_right (int k / int n)) by lra. apply Rmult_le_compat_r; lra.
  Qed.
  Lemma ratio_one : val r = 1 <-> k = n.
  Proof.
    rewrite ratio_exact. destruct ints as [[A B] C]. split.
    - intros H. destruct (N.eq_dec k n) as [E|E]; [exact E|]. exfalso.
      assert (K : int k <= int n - 1) by (rewrite <- minus_IZR; apply IZR_le; lia).
      assert (D : int n <= 9007199254740992) by (apply (IZR_le _ 9007199254740992); lia).
      assert (G : is_double (1 - / 9007199254740992)).
      { replace (1 - / 9007199254740992) with (F2R (Float radix2 9007199254740991 (-53))) by (unfold F2R; cbn -[IZR]; change (Z.pow_pos 2 53) with 9007199254740992%Z; field).
        apply generic_format_F2R. intros _. unfold cexp, fexp, FLT_exp. rewrite (mag_unique radix2 _ 0); [lia|]. change (bpow radix2 (0 - 1)) with (/ 2). change (bpow radix2 0) with 1.
        unfold F2R. cbn -[IZR]. change (Z.pow_pos 2 53) with 9007199254740992%Z. rewrite Rabs_right by lra. lra. }
      assert (L : int k / int n <= 1 - / 9007199254740992).
      { apply (Rmult_le_reg_r (int n)); [lra|]. unfold Rdiv. rewrite Rmult_assoc, Rinv_l, Rmult_1_r by lra. assert (int n * / 9007199254740992 <= 1) by lra. lra. }
      pose proof (rnd_le _ _ G L). lra.
    - intros ->. replace (int n / int n) with 1 by (field; lra). apply round_generic; [apply valid_rnd_N|apply double_1].
  Qed.
End A.

Theorem acceptance_double (X : Type) (same : X -> X -> bool) : (forall x y, same x y = true -> same y x = true) -> (forall x y z, same x y = true -> same y z = true -> same x z = true) ->
  forall (x : X) (xs : list X), (N.of_nat (length (x :: xs)) < 2 ^ 64)%N ->
  let k := INR (1 + changes same (x :: xs)) in let n := INR (length (x :: xs)) in
  exists s, run_consumer (acc_consume same) acc_init (x :: xs) = Ok s /\ let r := gacc_get b64_ops s in
    finite r /\ 0 < val r <= 1 /\ Rabs (val r - k / n) <= 4 * u * (k / n) /\
    ((N.of_nat (length (x :: xs)) <= 2 ^ 53)%N -> Rabs (val r - k / n) <= u * (k / n) /\ (val r = 1 <-> k = n)).
Proof.
  intros Hsym Htr x xs Hl k n. destruct (acc_run same Hsym Htr x xs Hl) as (s & Hr & En & Ea). exists s. split; [exact Hr|]. cbv zeta. unfold gacc_get. rewrite En, Ea.
  destruct (N.ltb_spec 0 (N.of_nat (length (x :: xs)))) as [_|Q]; [|cbn in Q; lia].
  assert (HK : (1 <= N.of_nat (1 + changes same (x :: xs)) <= N.of_nat (length (x :: xs)))%N).
  { pose proof (changes_le same Hsym Htr (x :: xs)) as C. cbn [length] in *. lia. }
  set (kk := N.of_nat (1 + changes same (x :: xs))) in *. set (nn := N.of_nat (length (x :: xs))) in *.
  assert (Ek : k = int kk) by (unfold k, kk; now rewrite nat_N_Z, INR_IZR_INZ). assert (Enn : n = int nn) by (unfold n, nn; now rewrite nat_N_Z, INR_IZR_INZ). rewrite Ek, Enn.
  split; [apply (ratio_val kk nn HK Hl)|]. split; [apply (ratio_range kk nn HK Hl)|]. split; [apply (ratio_error kk nn HK Hl)|]. intros H53. split; [now apply ratio_error1|].
  rewrite (ratio_one kk nn HK Hl H53). split; [now intros ->|]. intros H. apply eq_IZR in H. lia.
Qed.
