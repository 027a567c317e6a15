(** Results that settle (C70): the consumers. *)
From Coq Require Import Reals Lra Lia QArith Qreals.
From Coquelicot Require Import Coquelicot.
From Verif Require Import Prelude ConsumerModel ConsumerSpec ConsumerProofs HistModel HistSpec HistProofs HistTop StatsModel StatsSpec StatsProofs StatsTop StatsInst StatsCosModel StatsCosSpec StatsCosProofs MHSpec MHRunSpec MHProofs MHTop MHRun MarkovFinite MarkovTop MarkovStats MarkovThin DEStat PipeSpec PipeProofs VarProofs SettleSpec SettleProofs.
Import ListNotations.
Local Open Scope R_scope.
Local Open Scope list_scope.
Local Notation length := List.length.

Section Sampler.
Context {X : Type}.
Variables (eqX : forall x y : X, {x = y} + {x <> y}) (states : list X) (ll : X -> R).
Variables (K q : X -> X -> R) (E : X -> nat -> (list X -> R) -> R -> Prop).
Hypothesis states_nodup : NoDup states.
Hypothesis HS : sampler eqX states ll K q E.
Hypothesis Hc : connected states q.
Local Notation p := (target states ll).
Local Notation good := (good states).
Local Notation steady := (steady states).
Local Notation limited := (limited states).

Lemma finish : forall least limit code Z c, converges states least limit E code Z c -> steady Z -> (forall l, good l -> (least <= length l)%nat -> (N.of_nat (length l) < limit)%N -> code l = Z l) -> settles states least limit E code Z c.
Proof.
  intros least limit code Z c H HZ Hcode. apply (settle eqX states ll K q E states_nodup HS); [|exact HZ|exact Hcode]. exact (proj1 (down eqX states ll K q E states_nodup HS least limit code Z c H)).
Qed.
Lemma empty_settles : states = [] -> forall least limit code Z c, settles states least limit E code Z c.
Proof. intros Es least limit code Z c eps He. exists 0. intros x0 n m Hx. rewrite Es in Hx. destruct Hx. Qed.

Section Vectors.
Variables (phi : X -> list R) (d : nat).
Hypothesis phi_size : forall x, In x states -> length (phi x) = d.
Local Notation comp i := (fun x : X => nth i (phi x) 0).
Local Notation mu i := (mean_in states p (fun x : X => nth i (phi x) 0)).

Theorem mean_settles : forall i, (i < d)%nat -> settles states 1 two64 E (fun l => mean_value i (map phi l)) (fun l => the_mean R_ops (map phi l) i) (mu i).
Proof.
  intros i Hi. apply finish; [now apply (mean_converges eqX states ll K q E states_nodup HS Hc phi d phi_size)| |].
  - apply (st_ext states _ (fun l => sumR (comp i) l / INR (length l))); [apply st_average|intros l _; apply the_mean_avg].
  - intros l (Hne & Hin) _ Hl. unfold mean_value, report.
    destruct (top_mean R_ops R_exact None (map phi l) d) as (s & m & -> & -> & Hlen & Hm); [now apply map_nonempty|now apply (all_size_map states)|now rewrite map_length|].
    cbn [bind]. exact (Hm i Hi).
Qed.
Theorem covariance_settles : forall garbage i j, (i < d)%nat -> (j < d)%nat ->
  settles states 2 two64 E (fun l => covariance garbage i j (map phi l)) (fun l => the_covariance R_ops (map phi l) i j) (mean_in states p (fun x => (nth i (phi x) 0 - mu i) * (nth j (phi x) 0 - mu j))).
Proof.
  intros garbage i j Hi Hj. apply finish; [now apply (covariance_converges eqX states ll K q E states_nodup HS Hc phi d phi_size)| |].
  2:{ intros l (Hl0 & Hin) Hl2 Hl. unfold covariance, report. destruct (top_cov R_ops R_exact garbage (map phi l) d) as (s & -> & _ & _ & H2); [now apply map_nonempty|now apply (all_size_map states)|now rewrite map_length|].
      apply H2; rewrite ?map_length; first [lia|assumption]. }
  set (W := fun l : list X => - (sumR (comp i) l / INR (length l) * (sumR (comp j) l / INR (length l))) + sumR (fun x => nth i (phi x) 0 * nth j (phi x) 0) l / INR (length l)).
  apply (st_scale states _ W 1).
  - unfold W. apply (st_plus states (fun l => - (sumR (comp i) l / INR (length l) * (sumR (comp j) l / INR (length l))))); [|apply st_average].
    apply (st_opp states (fun l => sumR (comp i) l / INR (length l) * (sumR (comp j) l / INR (length l)))). apply (st_mul states (fun l => sumR (comp i) l / INR (length l))); try apply st_average; apply avg_bounded.
  - unfold W. apply (lim_plus states (fun l => - (sumR (comp i) l / INR (length l) * (sumR (comp j) l / INR (length l))))); [|apply avg_bounded].
    apply (lim_opp states (fun l => sumR (comp i) l / INR (length l) * (sumR (comp j) l / INR (length l)))). apply (lim_mul states (fun l => sumR (comp i) l / INR (length l))); apply avg_bounded.
  - intros l (Hl0 & Hin) Hlen. assert (Hl1 : length l = 1%nat) by (destruct l; [congruence|cbn in *; lia]).
    unfold the_covariance. cbn [R_ops kdiv kofN]. rewrite map_length, Hl1. change (N.to_nat (N.of_nat 1 - 1)) with 0%nat. cbn [INR]. unfold Rdiv. rewrite Rinv_0, Rmult_0_r. reflexivity.
  - intros l Hl Hlen. pose proof (good_INR states l Hl) as HI. destruct Hl as (Hl0 & Hin).
    unfold the_covariance. rewrite !the_mean_avg. cbn [R_ops kdiv kofN kmul ksub kconj]. rewrite map_length.
    replace (N.to_nat (N.of_nat (length l) - 1)) with (length l - 1)%nat by lia.
    assert (HI1 : 0 < INR (length l - 1)) by (apply lt_0_INR; lia).
    set (a := sumR (comp i) l / INR (length l)). set (b := sumR (comp j) l / INR (length l)).
    rewrite (suml_map (fun x => (nth i x 0 - a) * (nth j x 0 - b))).
    rewrite (MarkovFinite.sumR_ext_in _ (fun x => (nth i (phi x) 0 * nth j (phi x) 0 - nth i (phi x) 0 * b) - (nth j (phi x) 0 * a - a * b))) by (intros; ring).
    rewrite !sumR_minus.
    assert (Hconst : sumR (fun _ : X => a * b) l = INR (length l) * (a * b)).
    { clear. generalize (a * b) as c. intros c. induction l as [|y l IH]; [cbn; ring|]. cbn [sumR length]. rewrite S_INR, IH. ring. }
    rewrite Hconst, !sumR_mult_r. unfold W. fold a. fold b.
    assert (Ea : sumR (comp i) l = INR (length l) * a) by (unfold a; field; lra). assert (Eb : sumR (comp j) l = INR (length l) * b) by (unfold b; field; lra).
    rewrite Ea, Eb. field. lra.
Qed.
Lemma autocov_steady : forall k i j, states <> [] -> steady (fun l => the_autocovariance R_ops (map phi l) k i j).
Proof.
  intros k i j Hne. destruct states as [|z st] eqn:Es; [congruence|]. rewrite <- Es in *. assert (Hz : In z states) by (rewrite Es; now left). clear Es.
  set (A := fun i (l : list X) => sumR (comp i) l / INR (length l)). set (L := fun (F : X -> X -> R) (l : list X) => lagsum F k z l / INR (length l)).
  assert (SA : forall i, steady (A i)) by (intros; apply st_average). assert (SL : forall F, steady (L F)) by (intros; apply st_lag).
  assert (LA : forall i, limited (A i)) by (intros; apply avg_bounded). assert (LL : forall F, limited (L F)) by (intros; apply lag_lim).
  set (W := fun l => - A i l * L (fun x _ => nth j (phi x) 0) l + (- A j l * L (fun _ y => nth i (phi y) 0) l + (A i l * A j l * L (fun _ _ => 1) l + L (fun x y => nth j (phi x) 0 * nth i (phi y) 0) l))).
  apply (st_scale states _ W (k + 1)).
  - unfold W. apply (st_plus states (fun l => - A i l * L (fun x _ => nth j (phi x) 0) l)).
    + apply (st_mul states (fun l => - A i l)); [now apply st_opp|apply SL|now apply lim_opp|apply LL].
    + apply (st_plus states (fun l => - A j l * L (fun _ y => nth i (phi y) 0) l)); [apply (st_mul states (fun l => - A j l)); [now apply st_opp|apply SL|now apply lim_opp|apply LL]|].
      apply (st_plus states (fun l => A i l * A j l * L (fun _ _ => 1) l)); [|apply SL]. apply (st_mul states (fun l => A i l * A j l)); [now apply st_mul|apply SL|now apply lim_mul|apply LL].
  - unfold W. apply (lim_plus states (fun l => - A i l * L (fun x _ => nth j (phi x) 0) l)).
    + apply (lim_mul states (fun l => - A i l)); [now apply lim_opp|apply LL].
    + apply (lim_plus states (fun l => - A j l * L (fun _ y => nth i (phi y) 0) l)); [apply (lim_mul states (fun l => - A j l)); [now apply lim_opp|apply LL]|].
      apply (lim_plus states (fun l => A i l * A j l * L (fun _ _ => 1) l)); [|apply LL]. apply (lim_mul states (fun l => A i l * A j l)); [now apply lim_mul|apply LL].
  - intros l Hl Hlen. unfold the_autocovariance. cbn [R_ops kdiv kofN]. rewrite map_length. replace (N.to_nat (N.of_nat (length l) - N.of_nat k - 1)) with 0%nat by lia. cbn [INR]. unfold Rdiv. now rewrite Rinv_0, Rmult_0_r.
  - intros l Hl Hlen. now apply (autocov_lag eqX states ll K q E states_nodup HS phi d phi_size).
Qed.
Theorem trace_settles : forall max_lag k, (k <= max_lag)%nat ->
  settles states (k + 2) two64 E (fun l => autocovariance_trace max_lag k (map phi l)) (fun l => the_autocovariance_trace R_ops d (map phi l) k) (sumR (fun i => autocov_limit states ll K phi k i i) (seq 0 d)).
Proof.
  intros max_lag k Hk. destruct (list_eq_dec eqX states []) as [Es|Hne]; [now apply empty_settles|].
  apply finish; [now apply (trace_converges eqX states ll K q E states_nodup HS Hc phi d phi_size)| |].
  - apply (st_ext states _ (fun l => sumR (fun i => (fun i l => the_autocovariance R_ops (map phi l) k i i) i l) (seq 0 d))); [|intros l _; unfold the_autocovariance_trace; now rewrite sumn_seq].
    apply st_sum. intros i _. now apply autocov_steady.
  - intros l (Hl0 & Hin) Hlen Hl. unfold autocovariance_trace, report.
    destruct (top_act R_ops R_exact max_lag (map phi l) d) as (s & -> & Hs); [now apply map_nonempty|now apply (all_size_map states)|now rewrite map_length|].
    rewrite (Hs k Hk), map_length. destruct (length l <=? k + 1)%nat eqn:El; [apply Nat.leb_le in El; lia|reflexivity].
Qed.
Theorem cosine_settles : forall garbage1 garbage2 history_length k, (forall x, In x states -> StatsCosSpec.nonzero (phi x)) -> (0 < history_length < 2 ^ 32)%N -> (k < N.to_nat history_length)%nat ->
  settles states (k + 2) (2 ^ 32) E (fun l => average_cosine garbage1 garbage2 history_length k (map phi l)) (fun l => StatsCosSpec.average (cosines (map phi l) (k + 1))) (mean_in states p (fun x => after states K (k + 1) (fun y => cos_angle (phi y) (phi x)) x)).
Proof.
  intros garbage1 garbage2 hl k Hnz Hhl Hk. destruct states as [|z st] eqn:Es; [rewrite <- Es; now apply empty_settles|]. rewrite <- Es in *. assert (Hz : In z states) by (rewrite Es; now left). clear Es.
  apply finish; [now apply (cosine_converges eqX states ll K q E states_nodup HS Hc phi d phi_size)| |].
  - set (F := fun x y => cos_angle (phi y) (phi x)). set (W := fun l : list X => lagsum F (k + 1) z l / INR (length l)).
    assert (HZ : forall l, good l -> StatsCosSpec.average (cosines (map phi l) (k + 1)) = INR (length l) / INR (length l - (k + 1)) * W l).
    { intros l Hg. pose proof (good_INR states l Hg) as HI. unfold StatsCosSpec.average, cosines. rewrite !map_length, seq_length. unfold W.
      replace (INR (length l) / INR (length l - (k + 1)) * (lagsum F (k + 1) z l / INR (length l))) with (lagsum F (k + 1) z l / INR (length l - (k + 1))) by (unfold Rdiv; rewrite (Rmult_comm (INR (length l))), Rmult_assoc, <- (Rmult_assoc (INR (length l))), (Rmult_comm (INR (length l))), Rmult_assoc, Rinv_r, Rmult_1_r by lra; ring).
      f_equal. unfold lagsum.
      assert (G : forall ts, (forall t, In t ts -> (t + (k + 1) < length l)%nat) -> rsum (map (fun t => cos_angle (nth (t + (k + 1)) (map phi l) []) (nth t (map phi l) [])) ts) = sumR (fun t => F (nth t l z) (nth (t + (k + 1)) l z)) ts).
      { induction ts as [|t ts IH]; intros Ht; [reflexivity|]. cbn [map rsum sumR]. rewrite IH by (intros; apply Ht; now right). f_equal.
        specialize (Ht t (or_introl eq_refl)). unfold F. rewrite !(nth_indep (map phi l) [] (phi z)) by (rewrite map_length; lia). now rewrite !map_nth. }
      apply G. intros t Ht. apply in_seq in Ht. lia. }
    apply (st_scale states _ W (k + 1)); [apply st_lag|apply lag_lim| |].
    + intros l Hg Hl. rewrite (HZ l Hg). replace (length l - (k + 1))%nat with 0%nat by lia. cbn [INR]. unfold Rdiv at 1. now rewrite Rinv_0, Rmult_0_r, Rmult_0_l.
    + intros l Hg _. now apply HZ.
  - intros l (Hl0 & Hin) Hlen Hl. unfold average_cosine, report.
    destruct (cos_correct hl garbage1 garbage2 (map phi l) d) as (s & -> & _ & Hs).
    + now apply map_nonempty.
    + now apply (all_size_map states).
    + apply Forall_forall. intros x Hx. apply in_map_iff in Hx. destruct Hx as (y & <- & Hy). apply Hnz, Hin, Hy.
    + exact Hhl.
    + now rewrite map_length.
    + rewrite (proj1 (Hs k Hk)), map_length. destruct (length l <=? k + 1)%nat eqn:El; [apply Nat.leb_le in El; lia|reflexivity].
Qed.
End Vectors.
Theorem acceptance_settles : settles states 1 two64 E (acceptance_ratio eqX)
  (fun l => INR (1 + changes (fun x y => if eqX x y then true else false) l) / INR (length l)) (mean_in states p (fun x => 1 - K x x)).
Proof.
  destruct states as [|z st] eqn:Es; [rewrite <- Es; now apply empty_settles|]. rewrite <- Es in *. assert (Hz : In z states) by (rewrite Es; now left). clear Es.
  apply finish; [apply (acceptance_converges eqX states ll K q E states_nodup HS Hc)| |].
  - apply (st_near states _ (fun l => lagsum (fun x y => if eqX y x then 0 else 1) 1 z l / INR (length l)) 1); [apply st_lag|lra|].
    intros l Hg. pose proof (good_INR states l Hg) as HI. rewrite <- (changes_lag eqX states ll K q E states_nodup HS), plus_INR. cbn [INR]. set (n := INR (length l)) in *. set (c := INR (changes _ _)).
    replace ((1 + c) / n - c / n) with (1 / n) by (field; lra). rewrite Rabs_pos_eq; [lra|]. apply Rlt_le, Rdiv_lt_0_compat; lra.
  - intros l (Hl0 & Hin) _ Hl. destruct l as [|a l]; [congruence|]. assert (HI : 0 < INR (length (a :: l))) by (apply lt_0_INR; cbn; lia).
    unfold acceptance_ratio, report.
    destruct (acc_correct (fun x y => if eqX x y then true else false)) with (x := a) (xs := l) as (s & -> & Hs & _).
    + intros x y. destruct (eqX x y), (eqX y x); congruence.
    + intros x y w. destruct (eqX x y), (eqX y w), (eqX x w); congruence.
    + exact Hl.
    + rewrite (Qeq_eqR _ _ Hs). rewrite Q2R_div by (intros H0; unfold Qeq in H0; cbn in H0; lia).
      assert (Qn : forall n, Q2R (Z.of_nat n # 1) = INR n) by (intros n; unfold Q2R; cbn; rewrite <- INR_IZR_INZ; field).
      now rewrite !Qn.
Qed.
Theorem histogram_settles : forall (b : build) (phi : X -> dbl) pts n k, subdivision pts -> length pts = (n + 1)%nat -> (k < n)%nat -> (forall x, In x states -> phi x <> DNaN) ->
  settles states 1 two64 E (fun l => bin_frequency b pts n k (map phi l)) (sample_average (fun x => indicator (belongs pts k (phi x)))) (mean_in states p (fun x => indicator (belongs pts k (phi x)))).
Proof.
  intros b phi pts n k Hsub Hlen Hk Hnan. apply finish; [now apply (histogram_converges eqX states ll K q E states_nodup HS Hc)|exact (st_average states _)|].
  intros l (Hl0 & Hin) _ Hl. unfold bin_frequency, report, sample_average. rewrite map_length. f_equal.
  destruct (hist_total b pts n (map phi l) Hsub Hlen) as (s & rows & -> & -> & -> & _).
  - intros v Hv. apply in_map_iff in Hv. destruct Hv as (x & <- & Hx). apply Hnan, Hin, Hx.
  - now rewrite map_length.
  - cbn [bind]. rewrite (nth_indep _ _ ((fun k0 : nat => (nth k0 pts DNaN, nth (k0 + 1) pts DNaN, count (belongs pts k0) (map phi l))) n)) by (now rewrite map_length, seq_length).
    rewrite (map_nth (fun k0 : nat => (nth k0 pts DNaN, nth (k0 + 1) pts DNaN, count (belongs pts k0) (map phi l)))).
    rewrite seq_nth by exact Hk. cbn [snd Nat.add]. unfold count. rewrite Nat2N.id. clear. induction l as [|a l IH]; [reflexivity|]. cbn [map filter sumR]. unfold indicator at 1.
    destruct (belongs pts k (phi a)); [cbn [length]; rewrite S_INR, IH; ring|rewrite IH; ring].
Qed.
End Sampler.

(** ** Two states and proposals that never leave them *)
Definition stay (x y : bool) : R := if Bool.eqb x y then 1 else 0.
Definition zero_one_vector (x : bool) : list R := [if x then 1 else 0].
Lemma stay_distribution : proposal_distribution both stay.
Proof. constructor; intros; repeat match goal with x : bool |- _ => destruct x end; cbn [both sumR]; unfold stay in *; cbn [Bool.eqb] in *; lra. Qed.
Lemma stay_sampler : sampler Bool.bool_dec both (fun _ => 0) (mh_kernel both Bool.bool_dec (fun _ => 0) stay) stay (expectation (fun _ => 0) stay both).
Proof. apply metropolis_hastings; [exact (fun _ => zero_nonzero)|exact stay_distribution]. Qed.
Lemma stay_kernel : forall x y, mh_kernel both Bool.bool_dec (fun _ => 0) stay x y = stay x y.
Proof.
  assert (H : forall x, Rmin 1 (mh_ratio (fun _ : bool => 0) x x (stay x x / stay x x)) = 1).
  { intros x. unfold mh_ratio. replace (stay x x / stay x x) with 1 by (unfold stay; rewrite Bool.eqb_reflx; field). rewrite Rmin_left; [reflexivity|]. right. rewrite exp_0. field. }
  intros x y. unfold mh_kernel, kernel. cbn [both sumR]. pose proof (H true) as Ht. pose proof (H false) as Hf. destruct x, y;
    change (stay true false) with 0; change (stay false true) with 0; change (stay true true) with 1 in *; change (stay false false) with 1 in *; rewrite ?Ht, ?Hf; match goal with |- context [Bool.bool_dec ?a ?b] => destruct (Bool.bool_dec a b) end; try discriminate; try congruence; ring.
Qed.
Lemma stay_markov : forall n g, markov both (mh_kernel both Bool.bool_dec (fun _ => 0) stay) n true g = g (repeat true n).
Proof.
  induction n as [|n IH]; intros g; [reflexivity|]. cbn [markov both sumR repeat]. rewrite !stay_kernel. change (stay true true) with 1. change (stay true false) with 0. rewrite IH. ring.
Qed.
Theorem stay_not : ~ settles both 1 two64 (expectation (fun _ => 0) stay both) (fun l => mean_value 0 (map zero_one_vector l)) (fun l => the_mean R_ops (map zero_one_vector l) 0)
  (mean_in both (target both (fun _ => 0)) (fun x => nth 0 (zero_one_vector x) 0)).
Proof.
  intros H. destruct (H (1/4) ltac:(lra)) as (C & HC). clear H.
  assert (Hm : mean_in both (target both (fun _ => 0)) (fun x => nth 0 (zero_one_vector x) 0) = 1/2) by (unfold mean_in, target; cbn; rewrite exp_0; field). rewrite Hm in HC.
  destruct (archimed (Rmax 1 (4 * C ^ 2))) as [Ha _]. set (z := Z.to_nat (Rdefinitions.up (Rmax 1 (4 * C ^ 2)))).
  assert (Hz : Rmax 1 (4 * C ^ 2) < INR z). { unfold z. rewrite INR_IZR_INZ, Z2Nat.id; [exact Ha|]. apply le_IZR. pose proof (Rmax_l 1 (4 * C ^ 2)). lra. }
  pose proof (Rmax_l 1 (4 * C ^ 2)) as H1. pose proof (Rmax_r 1 (4 * C ^ 2)) as H2.
  assert (Hzn : (0 < z)%nat) by (apply INR_lt; cbn; lra).
  destruct (HC true z z (or_introl eq_refl) ltac:(lia)) as (v & [_ Hv] & Hv1 & _).
  pose proof (sampler_ok _ _ _ _ _ _ _ both_nodup stay_sampler) as F. rewrite (sf_unique F _ _ _ _ _ Hv1 (sf_law F true z _ (or_introl eq_refl))) in Hv. rewrite stay_markov in Hv.
  assert (Ef : ever_far (1/4) (1/2) (fun l => the_mean R_ops (map zero_one_vector l) 0) z z (repeat true z) = true).
  { unfold ever_far. apply existsb_exists. exists z. split; [apply in_seq; lia|]. unfold far. rewrite the_mean_avg. rewrite firstn_all2 by (rewrite repeat_length; lia).
    assert (Es : sumR (fun x => nth 0 (zero_one_vector x) 0) (repeat true z) = INR (length (repeat true z))).
    { clear. induction z as [|z IH]; [reflexivity|]. cbn [repeat sumR length]. rewrite S_INR, IH. cbn. ring. }
    rewrite Es, repeat_length. replace (INR z / INR z) with 1 by (field; lra). replace (1 - 1/2) with (1/2) by lra. rewrite Rabs_pos_eq by lra. destruct (Rle_dec (1/4) (1/2)); [reflexivity|lra]. }
  rewrite Ef in Hv. cbn [indicator] in Hv.
  assert (Hs : 0 < sqrt (INR z)) by (apply sqrt_lt_R0; lra). assert (Hs2 : sqrt (INR z) * sqrt (INR z) = INR z) by (apply sqrt_sqrt; lra).
  assert (Hle : sqrt (INR z) <= C). { apply Rmult_le_compat_r with (r := sqrt (INR z)) in Hv; [|lra]. unfold Rdiv in Hv. rewrite Rmult_assoc, Rinv_l in Hv by lra. lra. }
  nra.
Qed.
