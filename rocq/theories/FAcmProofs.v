(** AutoCovarianceMatrix in double arithmetic: the computation in doubles stays close to the one in real numbers. *)
From Coq Require Import Reals ZArith Lra Lia Psatz.
From Flocq Require Import Core BinarySingleNaN Relative.
From Verif Require Import Prelude ConsumerModel StatsModel StatsSpec StatsProofs StatsTop StatsInst HistFloat FloatSpec FloatBase FloatMean FCosModel FCosSpec FCosRun FCosProofs FApprox FActProofs.
Local Open Scope R_scope.
Local Notation length := List.length.
Local Notation u := unit_roundoff.
Local Notation eta := half_denorm_min.

Section Acm.
Variable d : nat.
Variable e : Z.
Hypothesis He : (-400 <= e <= 400)%Z.
Variable G : nat -> matrix f64.
Local Notation B := (B e).
Local Notation B2 := (B2 e).
Local Notation vok := (vok d e).
Definition gok (l i j : nat) : Prop := finite (G l i j) /\ Rabs (val (G l i j)) <= B2.
Lemma B2_big : 100 * B2 <= big.
Proof.
  assert (HB : B <= bpow radix2 400) by (apply bpow_le; lia). pose proof (B_pos e). apply Rle_trans with (bpow radix2 7 * (bpow radix2 400 * bpow radix2 400)).
  - apply Rmult_le_compat; [lra|pose proof (B2_pos e); lra|change (bpow radix2 7) with 128; lra|]. unfold FActProofs.B2. apply Rmult_le_compat; lra.
  - unfold big. rewrite <- !bpow_plus. apply bpow_le. lia.
Qed.
Lemma eta_uB : eta <= u * B.
Proof. pose proof (eta_B e He). pose proof u_pos. pose proof (B_pos e). assert (u * u * B <= 1 * u * B); [|lra]. apply Rmult_le_compat_r; [lra|]. apply Rmult_le_compat_r; [lra|]. rewrite u_val. lra. Qed.
Lemma eta_uB2 : eta <= u * B2.
Proof. pose proof (eta_B2 e He). pose proof u_pos. pose proof (B2_pos e). assert (u * u * B2 <= 1 * u * B2); [|lra]. apply Rmult_le_compat_r; [lra|]. apply Rmult_le_compat_r; [lra|]. rewrite u_val. lra. Qed.

(** A product of two components of samples. *)
Lemma ap_prod a b : finite a -> finite b -> Rabs (val a) <= B -> Rabs (val b) <= B -> ap (kmul b64_ops a b) (val a * val b) (2 * (u * B2)) /\ Rabs (val a * val b) <= B2.
Proof.
  intros Fa Fb Ha Hb. pose proof eta_uB2. pose proof B2_big. pose proof (B2_pos e). assert (HM : Rabs (val a * val b) <= B2) by (rewrite Rabs_mult; apply Rmult_le_compat; try apply Rabs_pos; assumption).
  split; [|exact HM]. eapply ap_weaken; [apply (ap_mul _ _ _ _ 0 0 B B B2 (ap_val _ Fa) (ap_val _ Fb) Ha Hb HM); lra|]. lra.
Qed.

Definition Fa (x : R) : R := 8 * (u * B2) + u * (4 * B2) * (x + 7).
Definition Fb (x : R) : R := 4 * (u * B) + u * (3 * B) * (x + 7).
Lemma Fa_small x : x <= bpow radix2 50 -> Fa x <= B2.
Proof.
  intros Hx. change (bpow radix2 50) with 1125899906842624 in Hx. pose proof (B2_pos e) as HW. unfold Fa. replace (8 * (u * B2) + u * (4 * B2) * (x + 7)) with ((u * (8 + 4 * (x + 7))) * B2) by ring.
  rewrite <- (Rmult_1_l B2) at 2. apply Rmult_le_compat_r; [lra|]. rewrite u_val. lra.
Qed.
Lemma Fb_small x : x <= bpow radix2 50 -> Fb x <= B.
Proof.
  intros Hx. change (bpow radix2 50) with 1125899906842624 in Hx. pose proof (B_pos e) as HW. unfold Fb. replace (4 * (u * B) + u * (3 * B) * (x + 7)) with ((u * (4 + 3 * (x + 7))) * B) by ring.
  rewrite <- (Rmult_1_l B) at 2. apply Rmult_le_compat_r; [lra|]. rewrite u_val. lra.
Qed.
Definition mrel (n : N) (l : nat) (f : matrix f64 * list f64 * list f64) (r : matrix R * list R * list R) : Prop :=
  let '(af, bf, ef) := f in let '(ar, br, er) := r in
  length bf = d /\ length br = d /\ length ef = d /\ length er = d /\
  if (n <=? N.of_nat l + 1)%N
  then (forall i j, (i < d)%nat -> (j < d)%nat -> af i j = G l i j /\ ar i j = val (G l i j)) /\
       forall j, (j < d)%nat -> at_ j bf = B754_zero false /\ comp R_ops br j = 0 /\ at_ j ef = B754_zero false /\ comp R_ops er j = 0
  else let x := IZR (Z.of_N (n - N.of_nat l - 1)) in
    (forall i j, (i < d)%nat -> (j < d)%nat -> gok l i j -> ap (af i j) (ar i j) (Fa x) /\ Rabs (ar i j) <= 3 * B2) /\
    forall j, (j < d)%nat -> (ap (at_ j bf) (comp R_ops br j) (Fb x) /\ Rabs (comp R_ops br j) <= 2 * B) /\ (ap (at_ j ef) (comp R_ops er j) (Fb x) /\ Rabs (comp R_ops er j) <= 2 * B).

Lemma upd_vec m b rb a x : (2 <= m <= 2 ^ 50)%N -> x = IZR (Z.of_N m) -> finite a -> Rabs (val a) <= B -> ap b rb (Fb (x - 1)) -> Rabs rb <= 2 * B ->
  ap (kadd b64_ops b (kmul b64_ops (ksub b64_ops a b) (kdiv b64_ops (k1 b64_ops) (kofN b64_ops m)))) (rb + (val a - rb) / x) (Fb x) /\ Rabs (rb + (val a - rb) / x) <= 2 * B.
Proof.
  intros Hm -> Fin A0 Hb Hrb. pose proof u_pos as Hu. pose proof (B_pos e) as HB. pose proof (B_big e He) as HBb. set (x := IZR (Z.of_N m)) in *.
  assert (Hx : 2 <= x <= bpow radix2 50). { unfold x. split; [apply (IZR_le 2); lia|]. change (bpow radix2 50) with (IZR (2 ^ 50)). apply IZR_le. lia. }
  assert (HuB1 : u * B <= / 1000 * B) by (apply Rmult_le_compat_r; [lra|rewrite u_val; lra]). assert (HuB : 0 <= u * B) by (apply Rmult_le_pos; lra).
  assert (Hbv : Rabs (val b) <= 3 * B) by (pose proof (ap_abs _ _ _ _ Hb Hrb); pose proof (Fb_small (x - 1) ltac:(lra)); lra).
  split; [|apply convex; lra].
  assert (T2 : Rabs (val a - val b) <= 4 * B) by (unfold Rminus; eapply Rle_trans; [apply Rabs_triang|]; rewrite Rabs_Ropp; lra).
  assert (HV : ap (ksub b64_ops a b) (val a - val b) (4 * (u * B))).
  { eapply ap_weaken; [apply (ap_sub _ _ _ _ _ _ (4 * B) (ap_val _ Fin) (ap_val _ (proj1 Hb))); lra|]. lra. }
  unfold Fb. apply (avg_err b rb _ (val a) m (3 * B) (4 * (u * B)) (4 * (u * B))); try lia; try lra; try exact HV; try exact Hb.
  pose proof (eta_B e He). assert (0 <= u * u) by nra. assert (u * u * B <= u * u * (3 * B)) by (apply Rmult_le_compat_l; lra). lra.
Qed.

Lemma acm_lag_sim n prev sample l f r : (1 <= n)%N -> (n + 1 <= 2 ^ 50)%N -> nth_error prev 0 = Some sample -> Forall vok prev ->
  ((n = N.of_nat l + 1)%N -> (l + 1 < length prev)%nat) -> ((N.of_nat l + 2 <= n)%N -> (l < length prev)%nat) ->
  mrel n l f r ->
  exists f' r', acm_lag b64_ops n prev sample l f = Ok f' /\ acm_lag R_ops n (map (map val) prev) (map val sample) l r = Ok r' /\ mrel (n + 1) l f' r'.
Proof.
  intros Hn1 Hn2 H0 Hv Hp1 Hp2 HR. destruct f as [[af bf] ef], r as [[ar br] er]. unfold mrel in HR. destruct HR as (Lf & Lr & Lef & Ler & HR).
  pose proof u_pos as Hu. pose proof (B_pos e) as HB. pose proof (B2_pos e) as HB2. pose proof (B_big e He) as HBb. pose proof B2_big as HB2b.
  assert (Hu1 : u <= / 1000) by (rewrite u_val; lra).
  assert (V : forall k p, nth_error prev k = Some p -> vok p) by (intros k p Hk; rewrite Forall_forall in Hv; apply Hv; eapply nth_error_In; exact Hk).
  assert (HuB : 0 <= u * B) by (apply Rmult_le_pos; lra). assert (HuB2 : 0 <= u * B2) by (apply Rmult_le_pos; lra).
  assert (HuB1 : u * B <= / 1000 * B) by (apply Rmult_le_compat_r; lra). assert (HuB21 : u * B2 <= / 1000 * B2) by (apply Rmult_le_compat_r; lra).
  assert (CA : forall (x : list f64) i, comp b64_ops x i = at_ i x) by reflexivity.
  unfold acm_lag. destruct (N.eqb_spec n (N.of_nat l + 1)) as [En|Nn].
  - specialize (Hp1 En). rewrite !nth_error_map, H0. cbn [option_map].
    destruct (nth_error prev l) as [pl|] eqn:El; [|apply nth_error_None in El; lia].
    destruct (nth_error prev 1) as [p1|] eqn:E1; [|apply nth_error_None in E1; lia].
    destruct (nth_error prev (l + 1)) as [pl1|] eqn:El1; [|apply nth_error_None in El1; lia]. cbn [option_map].
    destruct (V _ _ H0) as [L0 V0']. destruct (V _ _ El) as [Ll Vl']. destruct (V _ _ E1) as [L1 V1']. destruct (V _ _ El1) as [Ll1 Vl1'].
    eexists. eexists. split; [reflexivity|]. split; [reflexivity|]. unfold mrel.
    assert (M0 : length (vop (kadd b64_ops) ef pl) = d) by (rewrite vop_length; lia). assert (N0 : length (vop (kadd R_ops) er (map val pl)) = d) by (rewrite vop_length; rewrite ?map_length; lia).
    split; [rewrite vop_length; lia|]. split; [rewrite vop_length; rewrite ?map_length; lia|]. split; [rewrite vop_length; lia|]. split; [rewrite vop_length; rewrite ?map_length; lia|].
    destruct (N.leb_spec (n + 1) (N.of_nat l + 1)) as [C|_]; [lia|]. destruct (N.leb_spec n (N.of_nat l + 1)) as [_|C]; [|lia]. destruct HR as [HG HZ]. cbv zeta.
    replace (IZR (Z.of_N (n + 1 - N.of_nat l - 1))) with 1 by (f_equal; lia). split.
    + intros i j Hi Hj [Fg Bg]. rewrite !CA, !comp_val. cbn [kadd kmul R_ops]. destruct (HG i j Hi Hj) as [-> ->].
      destruct (ap_prod _ _ (proj1 (V0' i Hi)) (proj1 (Vl' j Hj)) (proj2 (V0' i Hi)) (proj2 (Vl' j Hj))) as [P1 Q1]. destruct (ap_prod _ _ (proj1 (V1' i Hi)) (proj1 (Vl1' j Hj)) (proj2 (V1' i Hi)) (proj2 (Vl1' j Hj))) as [P2 Q2].
      set (a := kmul b64_ops (at_ i sample) (at_ j pl)) in *. set (b := kmul b64_ops (at_ i p1) (at_ j pl1)) in *. set (a' := val (at_ i sample) * val (at_ j pl)) in *. set (b' := val (at_ i p1) * val (at_ j pl1)) in *. set (g := G l i j) in *.
      assert (T1 : Rabs (val g + a') <= 2 * B2) by (eapply Rle_trans; [apply Rabs_triang|]; lra). assert (T2 : Rabs (val g + a' + b') <= 3 * B2) by (eapply Rle_trans; [apply Rabs_triang|]; lra).
      split; [|exact T2]. pose proof (ap_add _ _ _ _ _ _ (3 * B2) (ap_val _ Fg) P1 ltac:(lra) ltac:(lra)) as X1.
      eapply ap_weaken; [apply (ap_add _ _ _ _ _ _ (4 * B2) X1 P2); lra|]. unfold Fa. lra.
    + intros j Hj. rewrite !at_vop by lia. rewrite !(comp_vop R_ops) by (rewrite ?map_length; lia). rewrite !comp_val. cbn [kadd R_ops].
      destruct (V0' j Hj) as [F0 A0]. destruct (V1' j Hj) as [F1 A1]. destruct (Vl' j Hj) as [F2 A2]. destruct (Vl1' j Hj) as [F3 A3]. destruct (HZ j Hj) as (_ & _ & -> & ->).
      set (a0 := at_ j sample) in *. set (a1 := at_ j p1) in *. set (a2 := at_ j pl) in *. set (a3 := at_ j pl1) in *.
      assert (T1 : Rabs (val a0 + val a1) <= 2 * B) by (eapply Rle_trans; [apply Rabs_triang|]; lra).
      assert (T2 : Rabs (0 + val a2) <= B) by (rewrite Rplus_0_l; lra). assert (T3 : Rabs (0 + val a2 + val a3) <= 2 * B) by (eapply Rle_trans; [apply Rabs_triang|]; lra).
      assert (Z0 : ap (B754_zero false) 0 0) by (split; [reflexivity|]; unfold val; cbn; rewrite Rminus_0_r, Rabs_R0; lra).
      split; (split; [|assumption]).
      * eapply ap_weaken; [apply (ap_add _ _ _ _ _ _ (2 * B) (ap_val _ F0) (ap_val _ F1)); lra|]. unfold Fb. lra.
      * pose proof (ap_add _ _ _ _ _ _ B Z0 (ap_val _ F2) ltac:(lra) ltac:(lra)) as X1. eapply ap_weaken; [apply (ap_add _ _ _ _ _ _ (3 * B) X1 (ap_val _ F3)); lra|]. unfold Fb. lra.
  - destruct (N.leb_spec (N.of_nat l + 2) n) as [GG|GG].
    + specialize (Hp2 GG). destruct (N.leb_spec n (N.of_nat l + 1)) as [C|_]; [lia|]. rewrite nth_error_map.
      destruct (nth_error prev l) as [pl|] eqn:El; [|apply nth_error_None in El; lia]. cbn [option_map].
      destruct (V _ _ H0) as [L0 V0']. destruct (V _ _ El) as [Ll Vl']. cbv zeta in HR. destruct HR as (HA & HBj).
      eexists. eexists. split; [reflexivity|]. split; [reflexivity|].
      assert (M0 : length (vop (ksub b64_ops) sample bf) = d) by (rewrite vop_length; lia). assert (M1 : length (vop (ksub b64_ops) pl ef) = d) by (rewrite vop_length; lia).
      assert (N0 : length (vop (ksub R_ops) (map val sample) br) = d) by (rewrite vop_length; rewrite ?map_length; lia). assert (N1 : length (vop (ksub R_ops) (map val pl) er) = d) by (rewrite vop_length; rewrite ?map_length; lia).
      unfold mrel. do 4 (split; [rewrite vop_length; rewrite ?map_length; lia|]).
      destruct (N.leb_spec (n + 1) (N.of_nat l + 1)) as [C|_]; [lia|]. cbv zeta.
      set (m := (n - N.of_nat l)%N) in *. assert (Hm : (2 <= m <= 2 ^ 50)%N) by lia.
      replace (n + 1 - N.of_nat l - 1)%N with m by lia. replace (IZR (Z.of_N (m - 1))) with (IZR (Z.of_N m) - 1) in HA, HBj by (rewrite <- minus_IZR; f_equal; lia).
      set (x := IZR (Z.of_N m)) in *. assert (Hx : 2 <= x <= bpow radix2 50).
      { unfold x. split; [apply (IZR_le 2); lia|]. change (bpow radix2 50) with (IZR (2 ^ 50)). apply IZR_le. lia. }
      cbn [kadd ksub kmul kdiv kopp k1 kofN R_ops] in N0, N1 |- *. rewrite (of_N_real m). fold x. split.
      * intros i j Hi Hj Hg. destruct (HA i j Hi Hj Hg) as [HA1 HA2]. rewrite !CA, !comp_val. destruct (V0' i Hi) as [F0 A0]. destruct (Vl' j Hj) as [F1 A1].
        destruct (ap_prod _ _ F0 F1 A0 A1) as [P1 Q1]. set (p := kmul b64_ops (at_ i sample) (at_ j pl)) in *. set (s := val (at_ i sample) * val (at_ j pl)) in *. set (a := af i j) in *. set (r := ar i j) in *.
        replace (r + (- r + s) * (1 / x)) with (r + (s - r) / x) by (field; lra).
        assert (HaW : Rabs (val a) <= 4 * B2) by (pose proof (ap_abs _ _ _ _ HA1 HA2); pose proof (Fa_small (x - 1) ltac:(lra)); lra).
        split; [|apply convex; lra].
        assert (HV : ap (kadd b64_ops (kopp b64_ops a) p) (s - val a) (8 * (u * B2))).
        { replace (s - val a) with (- val a + s) by ring. assert (Rabs (- val a + s) <= 5 * B2) by (eapply Rle_trans; [apply Rabs_triang|]; rewrite Rabs_Ropp; lra). eapply ap_weaken; [apply (ap_add _ _ _ _ _ _ (6 * B2) (ap_opp _ _ _ (ap_val _ (proj1 HA1))) P1); lra|]. lra. }
        unfold Fa. apply (avg_err a r _ s m (4 * B2) (8 * (u * B2)) (8 * (u * B2))); try lia; try lra; try exact HV; try exact HA1.
        pose proof (eta_B2 e He). assert (0 <= u * u) by nra. assert (u * u * B2 <= u * u * (4 * B2)) by (apply Rmult_le_compat_l; lra). lra.
      * intros j Hj. destruct (HBj j Hj) as [[HB1 HB1r] [HE1 HE1r]]. destruct (V0' j Hj) as [F0 A0]. destruct (Vl' j Hj) as [F1 A1].
        rewrite !at_vop by (rewrite ?map_length; lia). rewrite !at_map by lia. rewrite !at_vop by lia.
        rewrite !(comp_vop R_ops) by (rewrite ?map_length; lia). rewrite !(comp_map R_ops) by lia. rewrite !(comp_vop R_ops) by (rewrite ?map_length; lia). rewrite !comp_val.
        replace (comp R_ops br j + (val (at_ j sample) - comp R_ops br j) * (1 / x)) with (comp R_ops br j + (val (at_ j sample) - comp R_ops br j) / x) by (field; lra).
        replace (comp R_ops er j + (val (at_ j pl) - comp R_ops er j) * (1 / x)) with (comp R_ops er j + (val (at_ j pl) - comp R_ops er j) / x) by (field; lra).
        split; apply (upd_vec m); auto.
    + eexists. eexists. split; [reflexivity|]. split; [reflexivity|]. unfold mrel. do 4 (split; [assumption|]).
      destruct (N.leb_spec n (N.of_nat l + 1)) as [_|C]; [|lia]. destruct (N.leb_spec (n + 1) (N.of_nat l + 1)) as [_|C]; [exact HR|lia].
Qed.

Lemma acm_two M (xs : list (list f64)) : xs <> [] -> Forall vok xs -> (N.of_nat (length xs) <= 2 ^ 50)%N ->
  exists mf lf mr lr,
    run_consumer (acm_consume b64_ops G M) acm_init xs = Ok {| lg_mean := Some mf; lg_lags := lf; lg_prev := firstn (M + 1) (rev xs); lg_n := N.of_nat (length xs) |} /\
    run_consumer (acm_consume R_ops (fun l i j => val (G l i j)) M) acm_init (map (map val) xs) = Ok {| lg_mean := Some mr; lg_lags := lr; lg_prev := map (map val) (firstn (M + 1) (rev xs)); lg_n := N.of_nat (length xs) |} /\
    length mf = d /\ length mr = d /\ (forall i, (i < d)%nat -> at_ i mf = fmean (map (at_ i) xs)) /\ length lf = (M + 1)%nat /\ length lr = (M + 1)%nat /\
    forall l a b, nth_error lf l = Some a -> nth_error lr l = Some b -> mrel (N.of_nat (length xs)) l a b.
Proof.
  induction xs as [|x xs IH] using rev_ind; [easy|]. intros _ HF Hn. apply Forall_snoc in HF. destruct HF as [HF Hx]. rewrite map_app. cbn [map]. rewrite !run_snoc. rewrite app_length in Hn. cbn [length] in Hn.
  pose proof (proj1 Hx) as Lx. destruct xs as [|y ys] eqn:Exs.
  - cbn [map run_consumer bind]. unfold acm_consume, acm_init. cbn [lg_n lg_prev]. rewrite N.eqb_refl. exists x. eexists. exists (map val x). eexists.
    cbn [app rev length]. rewrite firstn_all2 by (cbn; lia). split; [reflexivity|]. split; [reflexivity|]. split; [exact Lx|]. split; [rewrite map_length; exact Lx|].
    split; [reflexivity|]. split; [now rewrite map_length, seq_length|]. split; [now rewrite map_length, seq_length|].
    intros l a b Ha Hb. assert (Hl : (l < M + 1)%nat). { rewrite <- (seq_length (M + 1) 0). erewrite <- map_length. apply nth_error_Some. rewrite Ha. discriminate. }
    rewrite nth_error_map, (nth_error_nth' _ 0%nat), seq_nth in Ha by (rewrite ?seq_length; lia). rewrite nth_error_map, (nth_error_nth' _ 0%nat), seq_nth in Hb by (rewrite ?seq_length; lia). cbn in Ha, Hb. injection Ha as <-. injection Hb as <-. unfold mrel. rewrite !map_length. do 4 (split; [exact Lx|]).
    destruct (N.leb_spec (N.of_nat 1) (N.of_nat l + 1)) as [_|C]; [|lia]. split; [split; reflexivity|]. intros j Hj. pose proof (comp_zeros b64_ops x j) as Z1. pose proof (comp_zeros R_ops (map val x) j) as Z2. repeat split; assumption.
  - rewrite <- Exs in *. assert (Hne : xs <> []) by (subst; discriminate). assert (Hp : (1 <= length xs)%nat) by (subst xs; cbn; lia). clear Exs y ys.
    destruct (IH Hne HF ltac:(lia)) as (mf & lf & mr & lr & Ef & Er & Lf & Lr & Hm & L1 & L2 & HR). rewrite Ef, Er. cbn [bind]. unfold acm_consume. cbn [lg_n lg_mean lg_prev lg_lags].
    destruct (N.eqb_spec (N.of_nat (length xs)) 0) as [C|_]; [lia|].
    rewrite !same_size_true by (rewrite ?map_length; congruence). rewrite !wrap_small by (unfold two64; lia).
    set (prev := x :: firstn (M + 1) (rev xs)).
    assert (Lp : length prev = S (Nat.min (M + 1) (length xs))) by (unfold prev; cbn [length]; rewrite firstn_length, rev_length; reflexivity).
    destruct (lag_loop_two (acm_lag b64_ops (N.of_nat (length xs)) prev x) (acm_lag R_ops (N.of_nat (length xs)) (map (map val) prev) (map val x)) (mrel (N.of_nat (length xs))) (mrel (N.of_nat (length xs) + 1)) lf lr 0%nat ltac:(lia)) as (ra & rb & Ea' & Eb' & La & Lb & HQ).
    { intros k a b Ha Hb. cbn [Nat.add]. assert (k < length lf)%nat by (apply nth_error_Some; congruence). apply acm_lag_sim; [lia|lia|reflexivity| |lia|lia|now apply HR].
      unfold prev. constructor; [exact Hx|]. apply Forall_forall. intros z Hz. assert (In z xs). { rewrite in_rev. rewrite <- (firstn_skipn (M + 1) (rev xs)). apply in_or_app. now left. } rewrite Forall_forall in HF. now apply HF. }
    change (map val x :: map (map val) (firstn (M + 1) (rev xs))) with (map (map val) prev). rewrite Ea', Eb'. cbn [bind].
    replace (N.of_nat (length xs) + 1)%N with (N.of_nat (length (xs ++ [x]))) in * by (rewrite app_length; cbn; lia).
    exists (mean_update b64_ops mf x (N.of_nat (length (xs ++ [x])))), ra, (mean_update R_ops mr (map val x) (N.of_nat (length (xs ++ [x])))), rb.
    assert (ET : trim M prev = firstn (M + 1) (rev (xs ++ [x]))) by (unfold prev; apply trim_spec).
    split; [rewrite ET; reflexivity|]. split.
    { rewrite <- ET. f_equal. f_equal. unfold trim. rewrite map_length. destruct (M + 1 <? length prev)%nat; [|reflexivity]. clear. induction prev as [|p q IH]; [reflexivity|]. destruct q; [reflexivity|]. cbn [removelast map] in *. now rewrite IH. }
    split; [rewrite update_length; congruence|]. split; [rewrite update_length; [exact Lr|rewrite map_length; congruence]|].
    split; [intros i Hi; apply (fmean_update d); auto|]. split; [lia|]. split; [lia|]. exact HQ.
Qed.

Local Notation Em := (Em e).
Definition Fget (x : R) : R := (21 * x + 260) * u * B2.
Lemma acm_get_sim (sf : lagged (K:=f64) (matrix f64 * list f64 * list f64)) (sr : lagged (K:=R) (matrix R * list R * list R)) mf mr l f r n i j :
  lg_mean sf = Some mf -> lg_mean sr = Some mr -> nth_error (lg_lags sf) l = Some f -> nth_error (lg_lags sr) l = Some r -> lg_n sf = n -> lg_n sr = n -> (1 <= n <= 2 ^ 50)%N ->
  length mf = d -> length mr = d -> mrel n l f r -> (i < d)%nat -> (j < d)%nat -> gok l i j ->
  (forall j, (j < d)%nat -> ap (at_ j mf) (comp R_ops mr j) (Em (IZR (Z.of_N n))) /\ Rabs (val (at_ j mf)) <= B /\ Rabs (comp R_ops mr j) <= B) ->
  exists gf gr, acm_get b64_ops sf l i j = Ok gf /\ acm_get R_ops sr l i j = Ok gr /\ ap gf gr (if (n <=? N.of_nat l + 1)%N then 0 else Fget (IZR (Z.of_N n))).
Proof.
  intros M1 M2 L1 L2 N1 N2 Hn Lf Lr HR Hi Hj Hg HM. unfold acm_get. rewrite M1, M2, L1, L2, N1, N2. destruct f as [[af bf] ef], r as [[ar br] er]. eexists. eexists. split; [reflexivity|]. split; [reflexivity|].
  unfold mrel in HR. destruct HR as (Lbf & Lbr & Lef & Ler & HR).
  pose proof u_pos as Hu. pose proof (B_pos e) as HB. pose proof (B2_pos e) as HB2. pose proof (B_big e He) as HBb. pose proof B2_big as HB2b.
  assert (Hu1 : u <= / 1000) by (rewrite u_val; lra). pose proof eta_pos as Ht0. pose proof eta_uB as HtB. pose proof eta_uB2 as HtB2.
  assert (CA : forall (x : list f64) i, comp b64_ops x i = at_ i x) by reflexivity. rewrite !CA. cbn [ksub kmul kadd kdiv k1 kofN R_ops].
  destruct (HM i Hi) as (MI1 & MI2 & MI3). destruct (HM j Hj) as (MJ1 & MJ2 & MJ3).
  rewrite N.ltb_antisym. destruct (N.leb_spec n (N.of_nat l + 1)) as [C|C]; cbn [negb].
  - destruct HR as [HA HZ]. destruct (HA i j Hi Hj) as [-> ->]. destruct (HZ i Hi) as (-> & -> & _). destruct (HZ j Hj) as (_ & _ & -> & ->). destruct Hg as [Fg Bg].
    assert (V0 : val (B754_zero false : f64) = 0) by reflexivity. pose proof max_ge as HMX. pose proof (bpow_gt_0 radix2 1023) as HMP.
    destruct (mul_ok (at_ i mf) (B754_zero false) (proj1 MI1) eq_refl) as [F2 E2]; [rewrite V0, Rmult_0_r, Rabs_R0; lra|]. rewrite V0, Rmult_0_r, rnd_id in E2 by apply generic_format_0.
    destruct (mul_ok (B754_zero false) (at_ j mf) eq_refl (proj1 MJ1)) as [F3 E3]; [rewrite V0, Rmult_0_l, Rabs_R0; lra|]. rewrite V0, Rmult_0_l, rnd_id in E3 by apply generic_format_0.
    destruct (sub_ok (G l i j) _ Fg F2) as [F4 E4]; [rewrite E2, Rminus_0_r; apply val_max|]. rewrite E2, Rminus_0_r, rnd_id in E4 by apply val_double.
    destruct (sub_ok _ _ F4 F3) as [F5 E5]; [rewrite E3, Rminus_0_r; apply val_max|]. rewrite E3, Rminus_0_r, rnd_id in E5 by apply val_double.
    split; [exact F5|]. rewrite E5, E4. replace (val (G l i j) - (val (G l i j) - comp R_ops mr i * 0 - 0 * comp R_ops mr j)) with 0 by ring. rewrite Rabs_R0. lra.
  - set (m := (n - N.of_nat l - 1)%N) in *. assert (Hm : (1 <= m)%N /\ (m <= n - 1)%N) by lia. set (x := IZR (Z.of_N m)) in *. set (y := IZR (Z.of_N n)) in *.
    assert (Hx : 1 <= x <= y - 1). { unfold x, y. split; [apply (IZR_le 1); lia|]. rewrite <- minus_IZR. apply IZR_le. lia. }
    assert (Hy : y <= 1125899906842624). { unfold y. apply IZR_le. lia. }
    assert (Hyu : y * u <= / 8) by (rewrite u_val; lra).
    destruct HR as (HA & HBj). destruct (HA i j Hi Hj Hg) as [HA1 HA2]. destruct (HBj i Hi) as [[HB1 HB1r] _]. destruct (HBj j Hj) as [_ [HE1 HE1r]].
    pose proof (Fa_small x ltac:(change (bpow radix2 50) with 1125899906842624; lra)) as SA. pose proof (Fb_small x ltac:(change (bpow radix2 50) with 1125899906842624; lra)) as SB.
    assert (HuB2 : 0 <= u * B2) by (apply Rmult_le_pos; lra). assert (HuB : 0 <= u * B) by (apply Rmult_le_pos; lra).
    assert (EmB : B * Em y = u * B2 * (y + 12)) by (unfold FActProofs.Em, FActProofs.B2; ring).
    assert (FbB : B * Fb x <= u * B2 * (3 * y + 22)).
    { unfold Fb, FActProofs.B2. replace (B * (4 * (u * B) + u * (3 * B) * (x + 7))) with (u * (B * B) * (3 * x + 25)) by ring. apply Rmult_le_compat_l; [unfold FActProofs.B2 in HuB2; lra|lra]. }
    assert (Em0 : 0 <= Em y) by (unfold FActProofs.Em; apply Rmult_le_pos; lra).
    assert (Et1 : u * B2 * (5 * y + 50) <= B2). { replace (u * B2 * (5 * y + 50)) with ((5 * (y * u) + 50 * u) * B2) by ring. rewrite <- (Rmult_1_l B2) at 2. apply Rmult_le_compat_r; lra. }
    assert (Et2 : u * B2 * (6 * y + 62) <= B2). { replace (u * B2 * (6 * y + 62)) with ((6 * (y * u) + 62 * u) * B2) by ring. rewrite <- (Rmult_1_l B2) at 2. apply Rmult_le_compat_r; lra. }
    assert (Et3 : u * B2 * (6 * y + 84) <= B2). { replace (u * B2 * (6 * y + 84)) with ((6 * (y * u) + 84 * u) * B2) by ring. rewrite <- (Rmult_1_l B2) at 2. apply Rmult_le_compat_r; lra. }
    set (mi := at_ i mf) in *. set (mj := at_ j mf) in *. set (ri := comp R_ops mr i) in *. set (rj := comp R_ops mr j) in *. set (bi := at_ i bf) in *. set (ej := at_ j ef) in *. set (rb := comp R_ops br i) in *. set (re := comp R_ops er j) in *. set (a := af i j) in *. set (ra := ar i j) in *.
    (* mean_i eta_j *)
    assert (T1 : ap (kmul b64_ops mi ej) (ri * re) (u * B2 * (5 * y + 50))).
    { pose proof (ap_abs _ _ _ _ HE1 HE1r) as HbA. assert (HP : Rabs (val mi * val ej) <= 3 * B2). { rewrite Rabs_mult. replace (3 * B2) with (B * (3 * B)) by (unfold FActProofs.B2; ring). apply Rmult_le_compat; try apply Rabs_pos; lra. }
      eapply ap_weaken; [apply (ap_mul _ _ _ _ _ _ B (2 * B) (3 * B2) MI1 HE1 MI2 HE1r HP); lra|]. replace (Em y * (2 * B)) with (2 * (B * Em y)) by ring. rewrite EmB. lra. }
    assert (T1r : Rabs (ri * re) <= 2 * B2). { rewrite Rabs_mult. replace (2 * B2) with (B * (2 * B)) by (unfold FActProofs.B2; ring). apply Rmult_le_compat; try apply Rabs_pos; assumption. }
    (* beta_i mean_j *)
    assert (T2 : ap (kmul b64_ops bi mj) (rb * rj) (u * B2 * (6 * y + 62))).
    { pose proof (ap_abs _ _ _ _ HB1 HB1r) as HbA. assert (HP : Rabs (val bi * val mj) <= 3 * B2). { rewrite Rabs_mult. replace (3 * B2) with ((3 * B) * B) by (unfold FActProofs.B2; ring). apply Rmult_le_compat; try apply Rabs_pos; lra. }
      eapply ap_weaken; [apply (ap_mul _ _ _ _ _ _ (3 * B) B (3 * B2) HB1 MJ1 ltac:(lra) MJ3 HP); lra|]. replace (3 * B * Em y) with (3 * (B * Em y)) by ring. rewrite EmB. lra. }
    assert (T2r : Rabs (rb * rj) <= 2 * B2). { rewrite Rabs_mult. replace (2 * B2) with ((2 * B) * B) by (unfold FActProofs.B2; ring). apply Rmult_le_compat; try apply Rabs_pos; assumption. }
    rewrite (of_N_real m). fold x.
    destruct (inv_ap m ltac:(lia)) as (Ff & ee & Hee & Ef). fold x in Ef. set (fi := kdiv b64_ops (k1 b64_ops) (kofN b64_ops m)) in *.
    assert (Hinv : 0 < / x <= 1) by (split; [apply Rinv_0_lt_compat; lra|rewrite <- Rinv_1; apply Rinv_le_contravar; lra]).
    assert (Hfi : ap fi (1 / x) u).
    { split; [exact Ff|]. rewrite Ef. unfold Rdiv. rewrite Rmult_1_l. eapply Rle_trans; [apply rnd_rel; [exact Hee|lra]|]. rewrite (Rabs_pos_eq (/ x)) by lra. assert (u * / x <= u * 1) by (apply Rmult_le_compat_l; lra). lra. }
    assert (H1ap : ap (k1 b64_ops) 1 0) by (split; [reflexivity|]; assert (V1 : val (k1 b64_ops) = 1) by apply Bone_correct; rewrite V1, Rminus_diag_eq by reflexivity; rewrite Rabs_R0; lra).
    assert (Hcr : 1 <= 1 + 1 / x <= 2) by (unfold Rdiv; lra). pose proof big_1 as Hb1.
    assert (HB3 : 3 <= big). { unfold big. apply Rle_trans with (bpow radix2 2); [change (bpow radix2 2) with 4; lra|apply bpow_le; lia]. }
    pose proof (ap_add _ _ _ _ _ _ 3 H1ap Hfi ltac:(rewrite Rabs_pos_eq; lra) HB3) as Hc. set (cf := kadd b64_ops (k1 b64_ops) fi) in *. set (cr := 1 + 1 / x) in *.
    assert (Hcf : Rabs (val cf) <= 3) by (pose proof (ap_abs _ _ _ 2 Hc ltac:(rewrite Rabs_pos_eq; lra)); lra).
    assert (T3 : ap (kmul b64_ops (kmul b64_ops cf mi) mj) (cr * ri * rj) (u * B2 * (6 * y + 84)) /\ Rabs (cr * ri * rj) <= 2 * B2).
    { assert (P1 : Rabs (val cf * val mi) <= 3 * B) by (rewrite Rabs_mult; apply Rmult_le_compat; try apply Rabs_pos; assumption).
      pose proof (ap_mul _ _ _ _ _ _ 3 B (3 * B) Hc MI1 Hcf MI3 P1 ltac:(lra)) as X1. set (ca := kmul b64_ops cf mi) in *.
      assert (X2 : ap ca (cr * ri) (3 * Em y + 8 * (u * B))) by (eapply ap_weaken; [exact X1|lra]).
      assert (Hr : Rabs (cr * ri) <= 2 * B) by (rewrite Rabs_mult; apply Rmult_le_compat; try apply Rabs_pos; [rewrite Rabs_pos_eq; lra|assumption]).
      assert (SE : 3 * Em y + 8 * (u * B) <= B). { unfold FActProofs.Em. replace (3 * (u * B * (y + 12)) + 8 * (u * B)) with ((3 * (y * u) + 44 * u) * B) by ring. rewrite <- (Rmult_1_l B) at 2. apply Rmult_le_compat_r; lra. }
      pose proof (ap_abs _ _ _ _ X2 Hr) as Hca.
      assert (P2 : Rabs (val ca * val mj) <= 3 * B2) by (rewrite Rabs_mult; replace (3 * B2) with ((3 * B) * B) by (unfold FActProofs.B2; ring); apply Rmult_le_compat; try apply Rabs_pos; lra).
      split.
      - eapply ap_weaken; [apply (ap_mul _ _ _ _ _ _ (3 * B) B (3 * B2) X2 MJ1 ltac:(lra) MJ3 P2); lra|].
        replace (3 * B * Em y + (3 * Em y + 8 * (u * B)) * B) with (6 * (B * Em y) + 8 * (u * B2)) by (unfold FActProofs.B2; ring). rewrite EmB. lra.
      - rewrite Rabs_mult. assert (Rabs (cr * ri) * Rabs rj <= 2 * B * B) by (apply Rmult_le_compat; try apply Rabs_pos; assumption). unfold FActProofs.B2 in *. lra. }
    destruct T3 as [T3 T3r].
    assert (R1 : Rabs (ra - ri * re) <= 5 * B2) by (unfold Rminus; eapply Rle_trans; [apply Rabs_triang|]; rewrite Rabs_Ropp; lra).
    assert (R2 : Rabs (ra - ri * re - rb * rj) <= 7 * B2) by (unfold Rminus at 1; eapply Rle_trans; [apply Rabs_triang|]; rewrite Rabs_Ropp; lra).
    assert (R3 : Rabs (ra - ri * re - rb * rj + cr * ri * rj) <= 9 * B2) by (eapply Rle_trans; [apply Rabs_triang|]; lra).
    assert (HuB21 : u * B2 <= / 1000 * B2) by (apply Rmult_le_compat_r; lra).
    pose proof (ap_sub _ _ _ _ _ _ (7 * B2) HA1 T1 ltac:(lra) ltac:(lra)) as G1.
    pose proof (ap_sub _ _ _ _ _ _ (11 * B2) G1 T2 ltac:(lra) ltac:(lra)) as G2.
    eapply ap_weaken; [apply (ap_add _ _ _ _ _ _ (14 * B2) G2 T3); lra|].
    assert (Q8 : Fa x <= u * B2 * (4 * y + 32)). { unfold Fa. replace (8 * (u * B2) + u * (4 * B2) * (x + 7)) with (u * B2 * (4 * x + 36)) by ring. apply Rmult_le_compat_l; lra. }
    unfold Fget. lra.
Qed.
End Acm.
