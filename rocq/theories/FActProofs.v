(** AutoCovarianceTrace in double arithmetic: the computation in doubles stays close to the one in real numbers. *)
From Coq Require Import Reals ZArith Lra Lia Psatz.
From Flocq Require Import Core BinarySingleNaN Relative.
From Verif Require Import Prelude ConsumerModel StatsModel StatsSpec StatsProofs StatsTop StatsInst HistFloat FloatSpec FloatBase FloatMean FCosModel FCosSpec FCosRun FCosProofs FApprox.
Local Open Scope R_scope.
Local Notation length := List.length.
Local Notation u := unit_roundoff.
Local Notation eta := half_denorm_min.

Lemma comp_val (x : list f64) i : comp R_ops (map val x) i = val (at_ i x).
Proof. unfold comp, at_. change (k0 R_ops) with (val (B754_zero false)). apply map_nth. Qed.
Lemma of_N_real m : INR (N.to_nat m) = IZR (Z.of_N m).
Proof. now rewrite INR_IZR_INZ, N_nat_Z. Qed.
Lemma at_vop f (a b : list f64) i : length a = length b -> (i < length a)%nat -> at_ i (vop f a b) = f (at_ i a) (at_ i b).
Proof. exact (comp_vop b64_ops f a b i). Qed.
Lemma at_map f (a : list f64) i : (i < length a)%nat -> at_ i (map f a) = f (at_ i a).
Proof. exact (comp_map b64_ops f a i). Qed.
Lemma lag_loop_two {A B} (f : nat -> A -> outcome A) (g : nat -> B -> outcome B) (P Q : nat -> A -> B -> Prop) : forall (da : list A) (db : list B) l, length da = length db ->
  (forall k a b, nth_error da k = Some a -> nth_error db k = Some b -> exists a' b', f (l + k)%nat a = Ok a' /\ g (l + k)%nat b = Ok b' /\ Q (l + k)%nat a' b') ->
  exists ra rb, lag_loop f l da = Ok ra /\ lag_loop g l db = Ok rb /\ length ra = length da /\ length rb = length da /\
    forall k a b, nth_error ra k = Some a -> nth_error rb k = Some b -> Q (l + k)%nat a b.
Proof.
  induction da as [|a da IH]; intros [|b db] l Hl H; try discriminate.
  - exists [], []. do 4 (split; [reflexivity|]). intros [|k] a b; discriminate.
  - destruct (H 0%nat a b eq_refl eq_refl) as (a' & b' & Ha & Hb & HQ). rewrite Nat.add_0_r in *.
    destruct (IH db (S l)) as (ra & rb & Ea & Eb & La & Lb & HQ').
    { now injection Hl. }
    { intros k x y Hx Hy. replace (S l + k)%nat with (l + S k)%nat by lia. now apply H. }
    exists (a' :: ra), (b' :: rb). cbn [lag_loop]. rewrite Ha, Hb. cbn [bind]. rewrite Ea, Eb. cbn [bind length]. do 2 (split; [reflexivity|]). split; [lia|]. split; [lia|].
    intros [|k] x y Hx Hy; cbn in Hx, Hy; [injection Hx as <-; injection Hy as <-; now rewrite Nat.add_0_r|].
    replace (l + S k)%nat with (S l + k)%nat by lia. now apply HQ'.
Qed.

Section Act.
Variable d : nat.
Variable e : Z.
Hypothesis He : (-400 <= e <= 400)%Z.
Hypothesis Hd : INR d <= 1048576.
Definition B := bpow radix2 e.
Definition B2 := B * B.
Definition W := (INR d + 1) * B2.
Lemma B_pos : 0 < B. Proof. apply bpow_gt_0. Qed.
Lemma B2_pos : 0 < B2. Proof. pose proof B_pos. unfold B2. nra. Qed.
Lemma d_pos : 0 <= INR d. Proof. apply pos_INR. Qed.
Lemma W_B2 : B2 <= W. Proof. pose proof B2_pos. pose proof d_pos. unfold W. nra. Qed.
Lemma W_d : INR d * B2 <= W. Proof. pose proof B2_pos. pose proof d_pos. unfold W. nra. Qed.
Lemma W_pos : 0 < W. Proof. pose proof B2_pos. pose proof W_B2. lra. Qed.
Lemma W_big : 100 * W <= big.
Proof.
  pose proof d_pos. apply Rle_trans with (bpow radix2 28 * (bpow radix2 400 * bpow radix2 400)).
  - unfold W. rewrite <- Rmult_assoc. assert (HB : B <= bpow radix2 400) by (apply bpow_le; lia). pose proof B_pos.
    apply Rmult_le_compat; [lra|pose proof B2_pos; lra|change (bpow radix2 28) with 268435456; lra|]. unfold B2. apply Rmult_le_compat; lra.
  - unfold big. rewrite <- !bpow_plus. apply bpow_le. lia.
Qed.
Lemma B_big : 100 * B <= big.
Proof.
  apply Rle_trans with (bpow radix2 7 * bpow radix2 400).
  - apply Rmult_le_compat; [lra|apply bpow_ge_0|change (bpow radix2 7) with 128; lra|]. apply bpow_le. lia.
  - unfold big. rewrite <- !bpow_plus. apply bpow_le. lia.
Qed.
Lemma eta_B : eta <= u * u * B.
Proof. unfold eta, B. change u with (bpow radix2 (-53)). rewrite <- !bpow_plus. apply bpow_le. lia. Qed.
Lemma eta_B2 : eta <= u * u * B2.
Proof. unfold eta, B2, B. change u with (bpow radix2 (-53)). rewrite <- !bpow_plus. apply bpow_le. lia. Qed.

Definition vok (x : list f64) : Prop := length x = d /\ forall i, (i < d)%nat -> finite (at_ i x) /\ Rabs (val (at_ i x)) <= B.

Lemma rdot_sdot : forall (l : list (f64 * f64)) r, fold_left (fun s p => s + fst p * snd p) (map (fun p => (val (fst p), val (snd p))) l) r = r + sdot l.
Proof. induction l as [|p l IH]; intros r; cbn [map fold_left sdot fst snd]; [ring|]. rewrite IH. ring. Qed.
Lemma combine_val : forall a b : list f64, combine (map val a) (map val b) = map (fun p => (val (fst p), val (snd p))) (combine a b).
Proof. induction a as [|x a IH]; intros [|y b]; cbn; try reflexivity. now rewrite IH. Qed.
Lemma rdot a b r : dot_add R_ops r (map val a) (map val b) = r + sdot (combine a b).
Proof. unfold dot_add. cbn [kadd kmul R_ops]. rewrite combine_val. apply rdot_sdot. Qed.
Lemma combine_at : forall (a b : list f64) p, In p (combine a b) -> exists i, (i < length a)%nat /\ (i < length b)%nat /\ fst p = at_ i a /\ snd p = at_ i b.
Proof.
  induction a as [|x a IH]; intros [|y b] p H; cbn in H; try easy. destruct H as [<-|H].
  - exists 0%nat. cbn. repeat split; lia.
  - destruct (IH b p H) as (i & H1 & H2 & H3 & H4). exists (S i). cbn. repeat split; try lia; assumption.
Qed.
Lemma combine_ok a b : vok a -> vok b -> Forall (fun p => (finite (fst p) /\ Rabs (val (fst p)) <= B) /\ (finite (snd p) /\ Rabs (val (snd p)) <= B)) (combine a b).
Proof.
  intros [La Ha] [Lb Hb]. apply Forall_forall. intros p Hp. destruct (combine_at a b p Hp) as (i & H1 & H2 & -> & ->). split; [apply Ha; lia|apply Hb; lia].
Qed.
Lemma combine_len a b : vok a -> vok b -> length (combine a b) = d.
Proof. intros [La _] [Lb _]. rewrite combine_length. lia. Qed.
Lemma sdot_bound : forall l : list (f64 * f64), Forall (fun p => (finite (fst p) /\ Rabs (val (fst p)) <= B) /\ (finite (snd p) /\ Rabs (val (snd p)) <= B)) l -> Rabs (sdot l) <= INR (length l) * B2.
Proof.
  induction l as [|p l IH]; intros H; [cbn; rewrite Rabs_R0; lra|]. inversion H as [|? ? [[_ H1] [_ H2]] H3]; subst. specialize (IH H3). cbn [sdot length]. rewrite S_INR.
  eapply Rle_trans; [apply Rabs_triang|]. rewrite Rabs_mult. assert (Rabs (val (fst p)) * Rabs (val (snd p)) <= B2) by (apply Rmult_le_compat; try apply Rabs_pos; assumption). lra.
Qed.
Lemma sdot_W a b : vok a -> vok b -> Rabs (sdot (combine a b)) <= W.
Proof. intros Ha Hb. eapply Rle_trans; [apply sdot_bound, combine_ok; assumption|]. rewrite combine_len by assumption. apply W_d. Qed.

Lemma ap_dot a b acc r E0 P0 : vok a -> vok b -> ap acc r E0 -> Rabs r + E0 <= P0 -> P0 <= 10 * W ->
  ap (dot_add b64_ops acc a b) (r + sdot (combine a b)) (E0 + 2 * u * W + 2 * INR d * u * (P0 + W)).
Proof.
  intros Va Vb Ha HP HW. pose proof u_pos as Hu. pose proof B2_pos as HB2. pose proof W_pos as HWp. pose proof W_big as HWb. pose proof d_pos as Hd0. pose proof B_pos as HBp.
  set (ts := map (fun p => (kmul b64_ops (fst p) (snd p), val (fst p) * val (snd p))) (combine a b)).
  assert (L : length ts = d) by (unfold ts; rewrite map_length; now apply combine_len).
  assert (Hu1 : u <= / 1000) by (rewrite u_val; lra).
  destruct (ap_sum (kadd b64_ops) 1 ap_plus_sum ltac:(rewrite Rabs_R1; lra) ts acc r E0 P0 ((1 + 2 * u) * B2) (2 * u * B2) Ha HP) as [H _].
  - unfold ts. apply Forall_map. eapply Forall_impl; [|exact (combine_ok a b Va Vb)]. intros p [[F1 H1] [F2 H2]]. cbn [fst snd].
    assert (HM : Rabs (val (fst p) * val (snd p)) <= B2) by (rewrite Rabs_mult; apply Rmult_le_compat; try apply Rabs_pos; assumption). pose proof eta_B2 as Ht. pose proof W_B2.
    split; [|lra]. eapply ap_weaken; [apply (ap_mul _ _ _ _ 0 0 B B B2 (ap_val _ F1) (ap_val _ F2) H1 H2 HM); lra|].
    assert (u * u * B2 <= u * B2) by (apply Rmult_le_compat_r; [lra|]; nra). lra.
  - rewrite L. rewrite u_val. lra.
  - apply Rmult_le_pos; lra.
  - rewrite L. pose proof W_d as Wd. assert (INR d * ((1 + 2 * u) * B2) <= 2 * W); [|lra]. replace (INR d * ((1 + 2 * u) * B2)) with ((1 + 2 * u) * (INR d * B2)) by ring. apply Rmult_le_compat; try lra. apply Rmult_le_pos; lra.
  - rewrite L in H. clear L.
    assert (E1 : fold_left (fun g t => kadd b64_ops g (fst t)) ts acc = dot_add b64_ops acc a b).
    { unfold ts, dot_add. generalize (combine a b). intros l. clear. revert acc. induction l as [|p l IH]; intros acc; cbn; [reflexivity|]. apply IH. }
    assert (E2 : fold_left (fun g t => g + 1 * snd t) ts r = r + sdot (combine a b)).
    { unfold ts. generalize (combine a b). intros l. clear. revert r. induction l as [|p l IH]; intros r; cbn [map fold_left sdot snd]; [ring|]. rewrite IH. ring. }
    rewrite E1, E2 in H. eapply ap_weaken; [exact H|].
    pose proof W_d as Wd. assert (X1 : INR d * (2 * u * B2) <= 2 * u * W) by (replace (INR d * (2 * u * B2)) with (2 * u * (INR d * B2)) by ring; apply Rmult_le_compat_l; lra).
    assert (X2 : INR d * ((1 + 2 * u) * B2) <= W).
    { unfold W. rewrite <- Rmult_assoc. apply Rmult_le_compat_r; [lra|]. assert (INR d * u <= / 2) by (rewrite u_val; lra). lra. }
    assert (2 * INR d * u * (P0 + INR d * ((1 + 2 * u) * B2)) <= 2 * INR d * u * (P0 + W)) by (apply Rmult_le_compat_l; [apply Rmult_le_pos; lra|lra]). lra.
Qed.

(** The errors after m = n-l-1 updates. *)
Definition Ea (x : R) : R := (8 * INR d + 2) * u * W + u * (3 * W) * (x + 7).
Definition Eb (x : R) : R := 10 * u * B + u * (5 * B) * (x + 7).
Lemma Ea_small x : x <= bpow radix2 50 -> Ea x <= W.
Proof.
  intros Hx. change (bpow radix2 50) with 1125899906842624 in Hx. pose proof W_pos as HW. unfold Ea. replace ((8 * INR d + 2) * u * W + u * (3 * W) * (x + 7)) with ((u * (8 * INR d + 2 + 3 * (x + 7))) * W) by ring.
  rewrite <- (Rmult_1_l W) at 2. apply Rmult_le_compat_r; [lra|]. rewrite u_val. lra.
Qed.
Lemma Eb_small x : x <= bpow radix2 50 -> Eb x <= B.
Proof.
  intros Hx. change (bpow radix2 50) with 1125899906842624 in Hx. pose proof B_pos as HW. unfold Eb. replace (10 * u * B + u * (5 * B) * (x + 7)) with ((u * (10 + 5 * (x + 7))) * B) by ring.
  rewrite <- (Rmult_1_l B) at 2. apply Rmult_le_compat_r; [lra|]. rewrite u_val. lra.
Qed.
Definition rel (n : N) (l : nat) (f : f64 * list f64) (r : R * list R) : Prop :=
  length (snd f) = d /\ length (snd r) = d /\
  if (n <=? N.of_nat l + 1)%N
  then fst f = B754_zero false /\ fst r = 0 /\ forall j, (j < d)%nat -> at_ j (snd f) = B754_zero false /\ comp R_ops (snd r) j = 0
  else let x := IZR (Z.of_N (n - N.of_nat l - 1)) in
    ap (fst f) (fst r) (Ea x) /\ Rabs (fst r) <= 2 * W /\
    forall j, (j < d)%nat -> ap (at_ j (snd f)) (comp R_ops (snd r) j) (Eb x) /\ Rabs (comp R_ops (snd r) j) <= 4 * B.

Lemma convex x a s Z : 1 <= x -> Rabs a <= Z -> Rabs s <= Z -> Rabs (a + (s - a) / x) <= Z.
Proof.
  intros Hx Ha Hs. assert (0 < / x <= 1) by (split; [apply Rinv_0_lt_compat; lra|rewrite <- Rinv_1; apply Rinv_le_contravar; lra]).
  replace (a + (s - a) / x) with ((1 - / x) * a + / x * s) by (field; lra). eapply Rle_trans; [apply Rabs_triang|]. rewrite !Rabs_mult, (Rabs_pos_eq (1 - / x)), (Rabs_pos_eq (/ x)) by lra.
  assert ((1 - / x) * Rabs a <= (1 - / x) * Z) by (apply Rmult_le_compat_l; lra). assert (/ x * Rabs s <= / x * Z) by (apply Rmult_le_compat_l; lra). lra.
Qed.

Lemma lag_sim n prev sample l f r : (1 <= n)%N -> (n + 1 <= 2 ^ 50)%N -> nth_error prev 0 = Some sample -> Forall vok prev ->
  ((n = N.of_nat l + 1)%N -> (l + 1 < length prev)%nat) -> ((N.of_nat l + 2 <= n)%N -> (l < length prev)%nat) ->
  rel n l f r ->
  exists f' r', act_lag b64_ops n prev sample l f = Ok f' /\ act_lag R_ops n (map (map val) prev) (map val sample) l r = Ok r' /\ rel (n + 1) l f' r'.
Proof.
  intros Hn1 Hn2 H0 Hv Hp1 Hp2 HR. destruct f as [af bf], r as [ar br]. unfold rel in HR. cbn [fst snd] in HR. destruct HR as (Lf & Lr & HR).
  pose proof u_pos as Hu. pose proof B_pos as HB. pose proof W_pos as HW. pose proof W_big as HWb. pose proof B_big as HBb. pose proof d_pos as Hd0.
  assert (Hu1 : u <= / 1000) by (rewrite u_val; lra).
  assert (V : forall k p, nth_error prev k = Some p -> vok p) by (intros k p Hk; rewrite Forall_forall in Hv; apply Hv; eapply nth_error_In; exact Hk).
  assert (Hdu : (8 * INR d + 4) * u <= / 100) by (rewrite u_val; lra).
  assert (HuW : 0 <= u * W) by (apply Rmult_le_pos; lra). assert (HuB : 0 <= u * B) by (apply Rmult_le_pos; lra).
  assert (HuB1 : u * B <= / 1000 * B) by (apply Rmult_le_compat_r; lra). assert (HuW1 : u * W <= / 1000 * W) by (apply Rmult_le_compat_r; lra).
  unfold act_lag. destruct (N.eqb_spec n (N.of_nat l + 1)) as [En|Nn].
  - specialize (Hp1 En). rewrite !nth_error_map, H0. cbn [option_map].
    destruct (nth_error prev l) as [pl|] eqn:El; [|apply nth_error_None in El; lia].
    destruct (nth_error prev 1) as [p1|] eqn:E1; [|apply nth_error_None in E1; lia].
    destruct (nth_error prev (l + 1)) as [pl1|] eqn:El1; [|apply nth_error_None in El1; lia]. cbn [option_map].
    pose proof (V _ _ H0) as V0. pose proof (V _ _ El) as Vl. pose proof (V _ _ E1) as V1. pose proof (V _ _ El1) as Vl1.
    eexists. eexists. split; [reflexivity|]. split; [reflexivity|]. unfold rel. cbn [fst snd].
    pose proof (proj1 V0) as L0. pose proof (proj2 V0) as V0'. pose proof (proj1 V1) as L1. pose proof (proj2 V1) as V1'. pose proof (proj1 Vl) as Ll. pose proof (proj2 Vl) as Vl'. pose proof (proj1 Vl1) as Ll1. pose proof (proj2 Vl1) as Vl1'.
    assert (M0 : length (vop (kadd b64_ops) sample p1) = d) by (rewrite vop_length; lia). assert (M1 : length (vop (kadd b64_ops) (vop (kadd b64_ops) sample p1) pl) = d) by (rewrite vop_length; lia).
    assert (N0 : length (vop (kadd R_ops) (map val sample) (map val p1)) = d) by (rewrite vop_length; rewrite ?map_length; lia). assert (N1 : length (vop (kadd R_ops) (vop (kadd R_ops) (map val sample) (map val p1)) (map val pl)) = d) by (rewrite vop_length; rewrite ?map_length; lia).
    split; [rewrite vop_length; lia|]. split; [rewrite vop_length; rewrite ?map_length; lia|].
    destruct (N.leb_spec (n + 1) (N.of_nat l + 1)) as [C|_]; [lia|]. cbv zeta.
    replace (IZR (Z.of_N (n + 1 - N.of_nat l - 1))) with 1 by (f_equal; lia).
    rewrite !rdot. cbn [k0 R_ops]. split; [|split].
    + pose proof (sdot_W _ _ V0 Vl) as S1. pose proof (sdot_W _ _ V1 Vl1) as S2.
      assert (Z0 : ap (k0 b64_ops) 0 0) by (split; [reflexivity|]; unfold val; cbn; rewrite Rminus_0_r, Rabs_R0; lra).
      pose proof (ap_dot _ _ _ _ _ 0 V0 Vl Z0 ltac:(rewrite Rabs_R0; lra) ltac:(lra)) as A1.
      assert (SB : 0 + 2 * u * W + 2 * INR d * u * (0 + W) <= W).
      { replace (0 + 2 * u * W + 2 * INR d * u * (0 + W)) with ((2 * INR d + 2) * u * W) by ring. rewrite <- (Rmult_1_l W) at 2. apply Rmult_le_compat_r; [lra|]. rewrite u_val. lra. }
      eapply ap_weaken; [apply (ap_dot _ _ _ _ _ (2 * W) V1 Vl1 A1); [rewrite Rplus_0_l; lra|lra]|]. unfold Ea. nra.
    + rewrite Rplus_0_l. eapply Rle_trans; [apply Rabs_triang|]. pose proof (sdot_W _ _ V0 Vl) as S1. pose proof (sdot_W _ _ V1 Vl1) as S2. lra.
    + intros j Hj. rewrite !at_vop by lia. rewrite !(comp_vop R_ops) by (rewrite ?map_length; lia). rewrite !comp_val. cbn [kadd R_ops].
      destruct (V0' j Hj) as [F0 A0]. destruct (V1' j Hj) as [F1 A1]. destruct (Vl' j Hj) as [F2 A2]. destruct (Vl1' j Hj) as [F3 A3].
      set (a0 := at_ j sample) in *. set (a1 := at_ j p1) in *. set (a2 := at_ j pl) in *. set (a3 := at_ j pl1) in *.
      assert (T1 : Rabs (val a0 + val a1) <= 2 * B) by (eapply Rle_trans; [apply Rabs_triang|]; lra).
      assert (T2 : Rabs (val a0 + val a1 + val a2) <= 3 * B) by (eapply Rle_trans; [apply Rabs_triang|]; lra).
      assert (T3 : Rabs (val a0 + val a1 + val a2 + val a3) <= 4 * B) by (eapply Rle_trans; [apply Rabs_triang|]; lra).
      split; [|exact T3].
      pose proof (ap_add _ _ _ _ _ _ (2 * B) (ap_val _ F0) (ap_val _ F1) ltac:(lra) ltac:(lra)) as X1.
      pose proof (ap_add _ _ _ _ _ _ (4 * B) X1 (ap_val _ F2) ltac:(lra) ltac:(lra)) as X2.
      eapply ap_weaken; [apply (ap_add _ _ _ _ _ _ (5 * B) X2 (ap_val _ F3)); lra|]. unfold Eb. lra.
  - destruct (N.leb_spec (N.of_nat l + 2) n) as [G|G].
    + specialize (Hp2 G). destruct (N.leb_spec n (N.of_nat l + 1)) as [C|_]; [lia|]. rewrite nth_error_map.
      destruct (nth_error prev l) as [pl|] eqn:El; [|apply nth_error_None in El; lia]. cbn [option_map].
      pose proof (V _ _ H0) as V0. pose proof (V _ _ El) as Vl. cbv zeta in HR. destruct HR as (HA & HAr & HBj).
      eexists. eexists. split; [reflexivity|]. split; [reflexivity|].
      pose proof (proj1 V0) as L0. pose proof (proj1 Vl) as Ll.
      assert (M0 : length (vop (kadd b64_ops) sample pl) = d) by (rewrite vop_length; lia). assert (M1 : length (vop (ksub b64_ops) (vop (kadd b64_ops) sample pl) bf) = d) by (rewrite vop_length; lia).
      assert (N0 : length (vop (kadd R_ops) (map val sample) (map val pl)) = d) by (rewrite vop_length; rewrite ?map_length; lia). assert (N1 : length (vop (ksub R_ops) (vop (kadd R_ops) (map val sample) (map val pl)) br) = d) by (rewrite vop_length; rewrite ?map_length; lia).
      unfold rel. cbn [fst snd]. split; [rewrite vop_length; rewrite ?map_length; lia|]. split; [rewrite vop_length; rewrite ?map_length; lia|].
      destruct (N.leb_spec (n + 1) (N.of_nat l + 1)) as [C|_]; [lia|]. cbv zeta.
      set (m := (n - N.of_nat l)%N) in *. assert (Hm : (2 <= m <= 2 ^ 50)%N) by lia.
      replace (n + 1 - N.of_nat l - 1)%N with m by lia. replace (IZR (Z.of_N (m - 1))) with (IZR (Z.of_N m) - 1) in HA, HBj by (rewrite <- minus_IZR; f_equal; lia).
      set (x := IZR (Z.of_N m)) in *. assert (Hx : 2 <= x <= bpow radix2 50).
      { unfold x. split; [apply (IZR_le 2); lia|]. change (bpow radix2 50) with (IZR (2 ^ 50)). apply IZR_le. lia. }
      cbn [kadd ksub kmul kdiv kopp k1 kofN R_ops] in N0, N1 |- *. rewrite (of_N_real m). fold x.
      assert (HaW : Rabs (val af) <= 3 * W) by (pose proof (ap_abs _ _ _ _ HA HAr); pose proof (Ea_small (x - 1) ltac:(lra)); lra).
      pose proof (sdot_W _ _ V0 Vl) as HS. set (sd := sdot (combine sample pl)) in *.
      split; [|split].
      * rewrite rdot. fold sd. replace (ar + (- ar + sd) * (1 / x)) with (ar + (sd - ar) / x) by (field; lra).
        assert (HV : ap (dot_add b64_ops (kopp b64_ops af) sample pl) (sd - val af) ((8 * INR d + 2) * u * W)).
        { replace (sd - val af) with (- val af + sd) by ring. eapply ap_weaken; [apply (ap_dot _ _ _ _ _ (3 * W) V0 Vl (ap_opp _ _ _ (ap_val _ (proj1 HA)))); [rewrite Rabs_Ropp; lra|lra]|]. nra. }
        unfold Ea. apply (avg_err af ar _ sd m (3 * W) ((8 * INR d + 2) * u * W) ((8 * INR d + 2) * u * W)); try lia; try lra; try exact HV; try exact HA.
        { replace ((8 * INR d + 2) * u * W) with (((8 * INR d + 2) * u) * W) by ring. assert ((8 * INR d + 2) * u * W <= / 100 * W) by (apply Rmult_le_compat_r; lra). lra. }
        { pose proof eta_B2. pose proof W_B2. pose proof B2_pos. assert (0 <= u * u) by nra. assert (u * u * B2 <= u * u * (3 * W)) by (apply Rmult_le_compat_l; lra). lra. }
      * rewrite rdot. fold sd. replace (ar + (- ar + sd) * (1 / x)) with (ar + (sd - ar) / x) by (field; lra). apply convex; lra.
      * intros j Hj. destruct (HBj j Hj) as [HB1 HB1r]. destruct (proj2 V0 j Hj) as [F0 A0]. destruct (proj2 Vl j Hj) as [F1 A1].
        rewrite at_vop by (rewrite ?map_length; lia). rewrite at_map by lia. rewrite !at_vop by lia.
        rewrite (comp_vop R_ops) by (rewrite ?map_length; lia). rewrite (comp_map R_ops) by lia. rewrite !(comp_vop R_ops) by (rewrite ?map_length; lia). rewrite !comp_val.
        set (a0 := at_ j sample) in *. set (a1 := at_ j pl) in *. set (b := at_ j bf) in *. set (rb := comp R_ops br j) in *.
        replace (rb + (val a0 + val a1 - rb) * (1 / x)) with (rb + (val a0 + val a1 - rb) / x) by (field; lra).
        assert (T1 : Rabs (val a0 + val a1) <= 2 * B) by (eapply Rle_trans; [apply Rabs_triang|]; lra).
        assert (Hb : Rabs (val b) <= 5 * B) by (pose proof (ap_abs _ _ _ _ HB1 HB1r); pose proof (Eb_small (x - 1) ltac:(lra)); lra).
        assert (T2 : Rabs (val a0 + val a1 - val b) <= 7 * B) by (unfold Rminus; eapply Rle_trans; [apply Rabs_triang|]; rewrite Rabs_Ropp; lra).
        split; [|apply convex; lra].
        pose proof (ap_add _ _ _ _ _ _ (2 * B) (ap_val _ F0) (ap_val _ F1) ltac:(lra) ltac:(lra)) as X1.
        assert (HV : ap (ksub b64_ops (kadd b64_ops a0 a1) b) (val a0 + val a1 - val b) (10 * u * B)).
        { eapply ap_weaken; [apply (ap_sub _ _ _ _ _ _ (8 * B) X1 (ap_val _ (proj1 HB1))); lra|]. lra. }
        unfold Eb. apply (avg_err b rb _ (val a0 + val a1) m (5 * B) (10 * u * B) (10 * u * B)); try lia; try lra; try exact HV; try exact HB1.
        pose proof eta_B. assert (0 <= u * u) by nra. assert (u * u * B <= u * u * (5 * B)) by (apply Rmult_le_compat_l; lra). lra.
    + eexists. eexists. split; [reflexivity|]. split; [reflexivity|]. unfold rel. cbn [fst snd]. split; [exact Lf|]. split; [exact Lr|].
      destruct (N.leb_spec n (N.of_nat l + 1)) as [_|C]; [|lia]. destruct (N.leb_spec (n + 1) (N.of_nat l + 1)) as [_|C]; [exact HR|lia].
Qed.

Lemma fmean_update (xs : list (list f64)) x m i : xs <> [] -> length x = d -> length m = d -> (i < d)%nat -> at_ i m = fmean (map (at_ i) xs) ->
  at_ i (mean_update b64_ops m x (N.of_nat (length (xs ++ [x])))) = fmean (map (at_ i) (xs ++ [x])).
Proof.
  intros Hne Lx Lm Hi Hm. assert (En : (N.of_nat (length xs) + 1)%N = N.of_nat (length (xs ++ [x]))) by (rewrite app_length; cbn; lia).
  rewrite map_app. cbn [map]. rewrite fmean_snoc by (destruct xs; [easy|discriminate]). rewrite map_length, En, <- Hm.
  assert (L1 : length (vop (ksub b64_ops) x m) = d) by (rewrite vop_length; congruence).
  unfold mean_update, fstep. rewrite at_vop by (rewrite ?map_length; lia). f_equal. rewrite at_map by lia. f_equal. apply at_vop; lia.
Qed.
Lemma update_length {K} (F : kops K) (m x : list K) n : length x = length m -> length (mean_update F m x n) = length m.
Proof. intros H. unfold mean_update. rewrite vop_length; [reflexivity|]. rewrite map_length, vop_length; congruence. Qed.

Lemma act_two M (xs : list (list f64)) : xs <> [] -> Forall vok xs -> (N.of_nat (length xs) <= 2 ^ 50)%N ->
  exists mf lf mr lr,
    run_consumer (act_consume b64_ops M) act_init xs = Ok {| lg_mean := Some mf; lg_lags := lf; lg_prev := firstn (M + 1) (rev xs); lg_n := N.of_nat (length xs) |} /\
    run_consumer (act_consume R_ops M) act_init (map (map val) xs) = Ok {| lg_mean := Some mr; lg_lags := lr; lg_prev := map (map val) (firstn (M + 1) (rev xs)); lg_n := N.of_nat (length xs) |} /\
    length mf = d /\ length mr = d /\ (forall i, (i < d)%nat -> at_ i mf = fmean (map (at_ i) xs)) /\ length lf = (M + 1)%nat /\ length lr = (M + 1)%nat /\
    forall l a b, nth_error lf l = Some a -> nth_error lr l = Some b -> rel (N.of_nat (length xs)) l a b.
Proof.
  induction xs as [|x xs IH] using rev_ind; [easy|]. intros _ HF Hn. apply Forall_snoc in HF. destruct HF as [HF Hx]. rewrite map_app. cbn [map]. rewrite !run_snoc. rewrite app_length in Hn. cbn [length] in Hn.
  pose proof (proj1 Hx) as Lx. destruct xs as [|y ys] eqn:Exs.
  - cbn [map run_consumer bind]. unfold act_consume, act_init. cbn [lg_n lg_prev]. rewrite N.eqb_refl. exists x. eexists. exists (map val x). eexists.
    cbn [app rev length]. rewrite firstn_all2 by (cbn; lia). split; [reflexivity|]. split; [reflexivity|]. split; [exact Lx|]. split; [rewrite map_length; exact Lx|].
    split; [reflexivity|]. split; [apply repeat_length|]. split; [apply repeat_length|].
    intros l a b Ha Hb. apply nth_error_In, repeat_spec in Ha. apply nth_error_In, repeat_spec in Hb. subst a b. unfold rel. cbn [fst snd]. rewrite !map_length. split; [exact Lx|]. split; [exact Lx|].
    destruct (N.leb_spec (N.of_nat 1) (N.of_nat l + 1)) as [_|C]; [|lia]. split; [reflexivity|]. split; [reflexivity|]. intros j Hj. split; [exact (comp_zeros b64_ops x j)|exact (comp_zeros R_ops (map val x) j)].
  - rewrite <- Exs in *. assert (Hne : xs <> []) by (subst; discriminate). assert (Hp : (1 <= length xs)%nat) by (subst xs; cbn; lia). clear Exs y ys.
    destruct (IH Hne HF ltac:(lia)) as (mf & lf & mr & lr & Ef & Er & Lf & Lr & Hm & L1 & L2 & HR). rewrite Ef, Er. cbn [bind]. unfold act_consume. cbn [lg_n lg_mean lg_prev lg_lags].
    destruct (N.eqb_spec (N.of_nat (length xs)) 0) as [C|_]; [lia|].
    rewrite !same_size_true by (rewrite ?map_length; congruence). rewrite !wrap_small by (unfold two64; lia).
    set (prev := x :: firstn (M + 1) (rev xs)).
    assert (Lp : length prev = S (Nat.min (M + 1) (length xs))) by (unfold prev; cbn [length]; rewrite firstn_length, rev_length; reflexivity).
    destruct (lag_loop_two (act_lag b64_ops (N.of_nat (length xs)) prev x) (act_lag R_ops (N.of_nat (length xs)) (map (map val) prev) (map val x)) (rel (N.of_nat (length xs))) (rel (N.of_nat (length xs) + 1)) lf lr 0%nat ltac:(lia)) as (ra & rb & Ea' & Eb' & La & Lb & HQ).
    { intros k a b Ha Hb. cbn [Nat.add]. assert (k < length lf)%nat by (apply nth_error_Some; congruence). apply lag_sim; [lia|lia|reflexivity| |lia|lia|now apply HR].
      unfold prev. constructor; [exact Hx|]. apply Forall_forall. intros z Hz. assert (In z xs). { rewrite in_rev. rewrite <- (firstn_skipn (M + 1) (rev xs)). apply in_or_app. now left. } rewrite Forall_forall in HF. now apply HF. }
    change (map val x :: map (map val) (firstn (M + 1) (rev xs))) with (map (map val) prev). rewrite Ea', Eb'. cbn [bind].
    replace (N.of_nat (length xs) + 1)%N with (N.of_nat (length (xs ++ [x]))) in * by (rewrite app_length; cbn; lia).
    exists (mean_update b64_ops mf x (N.of_nat (length (xs ++ [x])))), ra, (mean_update R_ops mr (map val x) (N.of_nat (length (xs ++ [x])))), rb.
    assert (ET : trim M prev = firstn (M + 1) (rev (xs ++ [x]))) by (unfold prev; apply trim_spec).
    split; [rewrite ET; reflexivity|]. split.
    { rewrite <- ET. f_equal. f_equal. unfold trim. rewrite map_length. destruct (M + 1 <? length prev)%nat; [|reflexivity]. clear. induction prev as [|p q IH]; [reflexivity|]. destruct q; [reflexivity|]. cbn [removelast map] in *. now rewrite IH. }
    split; [rewrite update_length; congruence|]. split; [rewrite update_length; [exact Lr|rewrite map_length; congruence]|].
    split; [intros i Hi; apply fmean_update; auto|]. split; [lia|]. split; [lia|]. exact HQ.
Qed.
Lemma fold_map {A C D} (f : D -> C -> D) (h : A -> C) : forall l g, fold_left f (map h l) g = fold_left (fun g x => f g (h x)) l g.
Proof. induction l as [|a l IH]; intros g; cbn; [reflexivity|]. apply IH. Qed.
Lemma list_seq {K} (F : kops K) : forall a : list K, a = map (comp F a) (seq 0 (length a)).
Proof. induction a as [|x a IH]; [reflexivity|]. cbn [length seq map]. rewrite <- seq_shift, map_map. f_equal. exact IH. Qed.
Lemma combine_map_seq {A K L} (f : A -> K) (g : A -> L) : forall l, combine (map f l) (map g l) = map (fun j => (f j, g j)) l.
Proof. induction l as [|a l IH]; cbn; [reflexivity|]. now rewrite IH. Qed.
Lemma fold_pairs {K} (F : kops K) (D : Type) (f : D -> K * K -> D) a b g : length a = d -> length b = d ->
  fold_left f (combine a b) g = fold_left (fun g j => f g (comp F a j, comp F b j)) (seq 0 d) g.
Proof. intros La Lb. rewrite (list_seq F a), (list_seq F b) at 1. rewrite La, Lb, combine_map_seq, fold_map. reflexivity. Qed.
Lemma fold_list {K} (F : kops K) (D : Type) (f : D -> K -> D) a g : length a = d ->
  fold_left f a g = fold_left (fun g j => f g (comp F a j)) (seq 0 d) g.
Proof. intros La. rewrite (list_seq F a) at 1. rewrite La, fold_map. reflexivity. Qed.

(** Sums over components. *)
Lemma ap_sum_seq (op : f64 -> f64 -> f64) (sg : R) (Hop : forall a b r s E1 E2 P, ap a r E1 -> ap b s E2 -> Rabs (r + sg * s) + E1 + E2 <= P -> P <= big -> ap (op a b) (r + sg * s) (E1 + E2 + u * P)) (Hsg : Rabs sg <= 1)
  (tf : nat -> f64) (tr : nat -> R) acc r E0 P0 T Et : ap acc r E0 -> Rabs r + E0 <= P0 -> (forall j, (j < d)%nat -> ap (tf j) (tr j) Et /\ Rabs (tr j) + Et <= T) -> 0 <= T -> 2 * (P0 + INR d * T) <= big ->
  ap (fold_left (fun g j => op g (tf j)) (seq 0 d) acc) (fold_left (fun g j => g + sg * tr j) (seq 0 d) r) (E0 + INR d * Et + 2 * INR d * u * (P0 + INR d * T)) /\
  Rabs (fold_left (fun g j => g + sg * tr j) (seq 0 d) r) + E0 + INR d * Et <= P0 + INR d * T.
Proof.
  intros Ha HP HF HT HB. set (ts := map (fun j => (tf j, tr j)) (seq 0 d)). assert (L : length ts = d) by (unfold ts; now rewrite map_length, seq_length).
  destruct (ap_sum op sg Hop Hsg ts acc r E0 P0 T Et Ha HP) as [H1 H2].
  - unfold ts. apply Forall_map, Forall_forall. intros j Hj. apply in_seq in Hj. cbn [fst snd]. apply HF. lia.
  - rewrite L, u_val. pose proof d_pos. lra.
  - exact HT.
  - now rewrite L.
  - rewrite L in H1, H2. unfold ts in H1, H2. rewrite !fold_map in H1. rewrite fold_map in H2. cbn [fst snd] in H1, H2. split; assumption.
Qed.
Lemma fold_ext {D} (f g : D -> nat -> D) : (forall a j, f a j = g a j) -> forall l a, fold_left f l a = fold_left g l a.
Proof. intros H l. induction l as [|j l IH]; intros a; cbn; [reflexivity|]. now rewrite H, IH. Qed.

Definition Em (x : R) : R := u * B * (x + 12).
Definition Eget (x : R) : R := (18 * x + 52 * INR d + 198) * u * W.
Lemma get_sim (sf : lagged (K:=f64) (f64 * list f64)) (sr : lagged (K:=R) (R * list R)) mf mr l f r n :
  lg_mean sf = Some mf -> lg_mean sr = Some mr -> nth_error (lg_lags sf) l = Some f -> nth_error (lg_lags sr) l = Some r -> lg_n sf = n -> lg_n sr = n -> (1 <= n <= 2 ^ 50)%N ->
  length mf = d -> length mr = d -> rel n l f r ->
  (forall j, (j < d)%nat -> ap (at_ j mf) (comp R_ops mr j) (Em (IZR (Z.of_N n))) /\ Rabs (val (at_ j mf)) <= B /\ Rabs (comp R_ops mr j) <= B) ->
  exists gf gr, act_get b64_ops sf l = Ok gf /\ act_get R_ops sr l = Ok gr /\ ap gf gr (if (n <=? N.of_nat l + 1)%N then 0 else Eget (IZR (Z.of_N n))).
Proof.
  intros M1 M2 L1 L2 N1 N2 Hn Lf Lr HR HM. unfold act_get. rewrite M1, M2, L1, L2, N1, N2. destruct f as [af bf], r as [ar br]. eexists. eexists. split; [reflexivity|]. split; [reflexivity|].
  unfold rel in HR. cbn [fst snd] in HR. destruct HR as (Lbf & Lbr & HR).
  pose proof u_pos as Hu. pose proof B_pos as HB. pose proof W_pos as HW. pose proof W_big as HWb. pose proof B_big as HBb. pose proof d_pos as Hd0. pose proof B2_pos as HB2. pose proof W_B2 as HWB. pose proof W_d as HWd.
  assert (Hu1 : u <= / 1000) by (rewrite u_val; lra). pose proof eta_pos as Ht0. pose proof eta_B as HtB. pose proof eta_B2 as HtB2.
  rewrite !(fold_pairs b64_ops) by assumption. rewrite !(fold_pairs R_ops) by assumption. rewrite (fold_list b64_ops) by assumption. rewrite (fold_list R_ops) by assumption. cbn [fst snd].
  change (comp b64_ops mf) with (fun j => at_ j mf). change (comp b64_ops bf) with (fun j => at_ j bf). cbv beta. cbn [ksub kmul kadd kdiv k1 kofN R_ops].
  set (S1 := fold_left (fun g j => g - comp R_ops mr j * comp R_ops br j) (seq 0 d) ar).
  assert (ES1 : S1 = fold_left (fun g j => g + -1 * (comp R_ops mr j * comp R_ops br j)) (seq 0 d) ar) by (apply fold_ext; intros; ring).
  assert (Hsg : Rabs (-1) <= 1) by (apply Rabs_le; lra).
  rewrite N.ltb_antisym. destruct (N.leb_spec n (N.of_nat l + 1)) as [C|C]; cbn [negb].
  - destruct HR as (-> & -> & HZ).
    destruct (ap_sum_seq (ksub b64_ops) (-1) ap_minus_sum Hsg (fun j => kmul b64_ops (at_ j mf) (at_ j bf)) (fun j => comp R_ops mr j * comp R_ops br j) (B754_zero false) 0 0 0 0 0) as [H _].
    + split; [reflexivity|]. unfold val. cbn. rewrite Rminus_0_r, Rabs_R0. lra.
    + rewrite Rabs_R0. lra.
    + intros j Hj. destruct (HZ j Hj) as [-> ->]. destruct (HM j Hj) as ([F _] & _ & _). rewrite Rmult_0_r, Rabs_R0. split; [|lra].
      assert (V0 : val (B754_zero false : f64) = 0) by reflexivity.
      destruct (mul_ok (at_ j mf) (B754_zero false) F eq_refl) as [F2 E2]; [rewrite V0, Rmult_0_r, Rabs_R0; pose proof max_ge; pose proof (bpow_gt_0 radix2 1023); lra|].
      split; [exact F2|]. rewrite E2, V0, Rmult_0_r. rewrite rnd_id by apply generic_format_0. rewrite Rminus_0_r, Rabs_R0. lra.
    + lra.
    + pose proof big_1. lra.
    + rewrite <- ES1 in H. eapply ap_weaken; [exact H|]. lra.
  - set (m := (n - N.of_nat l - 1)%N) in *. assert (Hm : (1 <= m)%N /\ (m <= n - 1)%N) by lia. set (x := IZR (Z.of_N m)) in *. set (y := IZR (Z.of_N n)) in *.
    assert (Hx : 1 <= x <= y - 1). { unfold x, y. split; [apply (IZR_le 1); lia|]. rewrite <- minus_IZR. apply IZR_le. lia. }
    assert (Hy : y <= 1125899906842624). { unfold y. apply IZR_le. lia. }
    assert (Hyu : y * u <= / 8) by (rewrite u_val; lra).
    destruct HR as (HA & HAr & HBj). pose proof (Ea_small x ltac:(change (bpow radix2 50) with 1125899906842624; lra)) as SA. pose proof (Eb_small x ltac:(change (bpow radix2 50) with 1125899906842624; lra)) as SB.
    assert (HuB2 : 0 <= u * B2) by (apply Rmult_le_pos; lra). assert (HuB : 0 <= u * B) by (apply Rmult_le_pos; lra). assert (HuW : 0 <= u * W) by (apply Rmult_le_pos; lra).
    assert (EmB : B * Em y = u * B2 * (y + 12)) by (unfold Em, B2; ring).
    assert (EbB : B * Eb x <= u * B2 * (5 * y + 40)).
    { unfold Eb, B2. replace (B * (10 * u * B + u * (5 * B) * (x + 7))) with (u * (B * B) * (5 * x + 45)) by ring. apply Rmult_le_compat_l; [unfold B2 in HuB2; lra|lra]. }
    assert (Em0 : 0 <= Em y) by (unfold Em; apply Rmult_le_pos; lra). assert (Eb0 : 0 <= Eb x) by (unfold Eb; assert (0 <= u * (5 * B) * (x + 7)) by (apply Rmult_le_pos; [lra|lra]); lra).
    assert (eta1 : eta <= u * B2) by (assert (u * u * B2 <= 1 * u * B2) by (apply Rmult_le_compat_r; [lra|apply Rmult_le_compat_r; lra]); lra).
    assert (eta2 : eta <= u * B) by (assert (u * u * B <= 1 * u * B) by (apply Rmult_le_compat_r; [lra|apply Rmult_le_compat_r; lra]); lra).
    assert (Et1 : u * B2 * (9 * y + 94) <= 2 * B2). { replace (u * B2 * (9 * y + 94)) with ((9 * (y * u) + 94 * u) * B2) by ring. apply Rmult_le_compat_r; lra. }
    assert (Et2 : u * B2 * (6 * y + 84) <= B2). { replace (u * B2 * (6 * y + 84)) with ((6 * (y * u) + 84 * u) * B2) by ring. rewrite <- (Rmult_1_l B2) at 2. apply Rmult_le_compat_r; lra. }
    destruct (ap_sum_seq (ksub b64_ops) (-1) ap_minus_sum Hsg (fun j => kmul b64_ops (at_ j mf) (at_ j bf)) (fun j => comp R_ops mr j * comp R_ops br j) af ar (Ea x) (3 * W) (6 * B2) (u * B2 * (9 * y + 94)) HA ltac:(lra)) as [Q1 Q2].
    { intros j Hj. destruct (HBj j Hj) as [HB1 HB1r]. destruct (HM j Hj) as (HM1 & HM2 & HM3). pose proof (ap_abs _ _ _ _ HB1 HB1r) as HbA.
      assert (HP : Rabs (val (at_ j mf) * val (at_ j bf)) <= 5 * B2). { rewrite Rabs_mult. replace (5 * B2) with (B * (5 * B)) by (unfold B2; ring). apply Rmult_le_compat; try apply Rabs_pos; lra. }
      split.
      - eapply ap_weaken; [apply (ap_mul _ _ _ _ _ _ B (4 * B) (5 * B2) HM1 HB1 HM2 HB1r HP); lra|]. replace (Em y * (4 * B)) with (4 * (B * Em y)) by ring. rewrite EmB. lra.
      - rewrite Rabs_mult. assert (Rabs (comp R_ops mr j) * Rabs (comp R_ops br j) <= B * (4 * B)) by (apply Rmult_le_compat; try apply Rabs_pos; assumption). unfold B2 in *. lra. }
    { lra. }
    { lra. }
    rewrite <- ES1 in Q1, Q2. rewrite (of_N_real m). fold x.
    set (F1 := fold_left (fun g j => ksub b64_ops g (kmul b64_ops (at_ j mf) (at_ j bf))) (seq 0 d) af) in *.
    set (E1 := Ea x + INR d * (u * B2 * (9 * y + 94)) + 2 * INR d * u * (3 * W + INR d * (6 * B2))) in *.
    assert (Hdu : INR d * u <= / 1000) by (rewrite u_val; lra). assert (Hdu0 : 0 <= INR d * u) by (apply Rmult_le_pos; lra).
    assert (Q3 : 2 * INR d * u * (3 * W + INR d * (6 * B2)) <= 18 * INR d * u * W). { replace (18 * INR d * u * W) with (2 * INR d * u * (9 * W)) by ring. apply Rmult_le_compat_l; lra. }
    assert (Q4 : Rabs S1 + E1 <= 10 * W). { assert (18 * INR d * u * W <= / 50 * W) by (apply Rmult_le_compat_r; lra). unfold E1. lra. }
    destruct (inv_ap m ltac:(lia)) as (Ff & ee & Hee & Ef). fold x in Ef. set (fi := kdiv b64_ops (k1 b64_ops) (kofN b64_ops m)) in *.
    assert (Hi : 0 < / x <= 1) by (split; [apply Rinv_0_lt_compat; lra|rewrite <- Rinv_1; apply Rinv_le_contravar; lra]).
    assert (Hfi : ap fi (1 / x) u).
    { split; [exact Ff|]. rewrite Ef. unfold Rdiv. rewrite Rmult_1_l. eapply Rle_trans; [apply rnd_rel; [exact Hee|lra]|]. rewrite (Rabs_pos_eq (/ x)) by lra. assert (u * / x <= u * 1) by (apply Rmult_le_compat_l; lra). lra. }
    assert (H1ap : ap (k1 b64_ops) 1 0) by (split; [reflexivity|]; assert (V1 : val (k1 b64_ops) = 1) by apply Bone_correct; rewrite V1, Rminus_diag_eq by reflexivity; rewrite Rabs_R0; lra).
    assert (Hcr : 1 <= 1 + 1 / x <= 2) by (unfold Rdiv; lra). pose proof big_1 as Hb1.
    assert (HB3 : 3 <= big). { unfold big. apply Rle_trans with (bpow radix2 2); [change (bpow radix2 2) with 4; lra|apply bpow_le; lia]. }
    pose proof (ap_add _ _ _ _ _ _ 3 H1ap Hfi ltac:(rewrite Rabs_pos_eq; lra) HB3) as Hc. set (cf := kadd b64_ops (k1 b64_ops) fi) in *. set (cr := 1 + 1 / x) in *.
    assert (Hcf : Rabs (val cf) <= 3) by (pose proof (ap_abs _ _ _ 2 Hc ltac:(rewrite Rabs_pos_eq; lra)); lra).
    set (S2 := fold_left (fun g j => g + cr * comp R_ops mr j * comp R_ops mr j) (seq 0 d) S1).
    assert (ES2 : S2 = fold_left (fun g j => g + 1 * (cr * comp R_ops mr j * comp R_ops mr j)) (seq 0 d) S1) by (apply fold_ext; intros; ring).
    destruct (ap_sum_seq (kadd b64_ops) 1 ap_plus_sum ltac:(rewrite Rabs_R1; lra) (fun j => kmul b64_ops (kmul b64_ops cf (at_ j mf)) (at_ j mf)) (fun j => cr * comp R_ops mr j * comp R_ops mr j) F1 S1 E1 (10 * W) (3 * B2) (u * B2 * (6 * y + 84)) Q1 Q4) as [Q5 _].
    { intros j Hj. destruct (HM j Hj) as (HM1 & HM2 & HM3). set (a := at_ j mf) in *. set (r := comp R_ops mr j) in *.
      assert (P1 : Rabs (val cf * val a) <= 3 * B) by (rewrite Rabs_mult; apply Rmult_le_compat; try apply Rabs_pos; assumption).
      pose proof (ap_mul _ _ _ _ _ _ 3 B (3 * B) Hc HM1 Hcf HM3 P1 ltac:(lra)) as X1. set (ca := kmul b64_ops cf a) in *.
      assert (X2 : ap ca (cr * r) (3 * Em y + 8 * (u * B))) by (eapply ap_weaken; [exact X1|lra]).
      assert (Hr : Rabs (cr * r) <= 2 * B) by (rewrite Rabs_mult; apply Rmult_le_compat; try apply Rabs_pos; [rewrite Rabs_pos_eq; lra|assumption]).
      assert (SE : 3 * Em y + 8 * (u * B) <= B). { unfold Em. replace (3 * (u * B * (y + 12)) + 8 * (u * B)) with ((3 * (y * u) + 44 * u) * B) by ring. rewrite <- (Rmult_1_l B) at 2. apply Rmult_le_compat_r; lra. }
      pose proof (ap_abs _ _ _ _ X2 Hr) as Hca.
      assert (P2 : Rabs (val ca * val a) <= 3 * B2) by (rewrite Rabs_mult; replace (3 * B2) with ((3 * B) * B) by (unfold B2; ring); apply Rmult_le_compat; try apply Rabs_pos; lra).
      split.
      - eapply ap_weaken; [apply (ap_mul _ _ _ _ _ _ (3 * B) B (3 * B2) X2 HM1 ltac:(lra) HM3 P2); lra|].
        replace (3 * B * Em y + (3 * Em y + 8 * (u * B)) * B) with (6 * (B * Em y) + 8 * (u * B2)) by (unfold B2; ring). rewrite EmB. lra.
      - rewrite Rabs_mult. assert (Rabs (cr * r) * Rabs r <= 2 * B * B) by (apply Rmult_le_compat; try apply Rabs_pos; assumption). unfold B2 in *. lra. }
    { lra. }
    { lra. }
    rewrite <- ES2 in Q5. eapply ap_weaken; [exact Q5|].
    assert (Q6 : 2 * INR d * u * (10 * W + INR d * (3 * B2)) <= 26 * INR d * u * W). { replace (26 * INR d * u * W) with (2 * INR d * u * (13 * W)) by ring. apply Rmult_le_compat_l; lra. }
    assert (Q7 : INR d * (u * B2 * (9 * y + 94)) + INR d * (u * B2 * (6 * y + 84)) <= u * W * (15 * y + 178)).
    { replace (INR d * (u * B2 * (9 * y + 94)) + INR d * (u * B2 * (6 * y + 84))) with (INR d * B2 * (u * (15 * y + 178))) by ring. replace (u * W * (15 * y + 178)) with (W * (u * (15 * y + 178))) by ring. apply Rmult_le_compat_r; [apply Rmult_le_pos; lra|lra]. }
    assert (Q8 : Ea x <= (8 * INR d + 2) * u * W + 3 * (u * W) * (y + 6)). { unfold Ea. replace (u * (3 * W) * (x + 7)) with (3 * (u * W) * (x + 7)) by ring. apply Rplus_le_compat_l, Rmult_le_compat_l; lra. }
    unfold Eget, E1. lra.
Qed.
End Act.
