(** Proofs about the statistical error of means. *)
From Coq Require Import Reals Lra Lia.
From Coquelicot Require Import Coquelicot.
From Verif Require Import Prelude MHSpec MHProofs MHTop DEStat StatsModel StatsSpec StatsInst StatsTop MHRunSpec DRRunSpec DRLaw DRStat DRTop MarkovFinite MarkovPerturb MHRun MarkovTop MarkovStats PipeSpec PipeProofs
  VarSpec MarkovVar.
Import ListNotations.
Local Open Scope R_scope.
Local Open Scope list_scope.
Local Notation length := List.length.

Lemma sumn_seqR : forall (f : nat -> R) n a, MarkovFinite.sumn (fun k => f (a + k)%nat) n = sumR f (seq a n).
Proof.
  intros f n a. induction n as [|n IH]; [reflexivity|]. rewrite seq_S, sumR_app. cbn [MarkovFinite.sumn sumR]. rewrite IH. ring.
Qed.
Lemma sumR_finite_choice : forall {Y} (P : nat -> Y -> Prop) (dflt : Y) n, (forall i, (i < n)%nat -> exists y, P i y) -> exists f, forall i, (i < n)%nat -> P i (f i).
Proof.
  intros Y P dflt n. induction n as [|n IH]; intros H; [exists (fun _ => dflt); intros; lia|].
  destruct IH as (f & Hf); [intros; apply H; lia|]. destruct (H n) as (y & Hy); [lia|]. exists (fun i => if Nat.eq_dec i n then y else f i).
  intros i Hi. destruct (Nat.eq_dec i n) as [->|Hn]; [exact Hy|]. apply Hf. lia.
Qed.
Lemma sumR_lim : forall (u : nat -> nat -> R) (l : nat -> R) L, (forall i, In i L -> is_lim_seq (u i) (l i)) -> is_lim_seq (fun n => sumR (fun i => u i n) L) (sumR l L).
Proof.
  intros u l L. induction L as [|i L IH]; intros H; cbn [sumR]; [apply is_lim_seq_const|]. apply is_lim_seq_plus'; [apply H; now left|apply IH; intros; apply H; now right].
Qed.
Lemma markov_sum_list : forall {X I} (states : list X) K (K_sum : forall x, In x states -> sumR (K x) states = 1) n x (F : I -> list X -> R) L, In x states ->
  markov states K n x (fun l => sumR (fun i => F i l) L) = sumR (fun i => markov states K n x (F i)) L.
Proof.
  intros X I states K K_sum n x F L Hx. induction L as [|i L IH]; cbn [sumR].
  - now apply markov_const.
  - rewrite <- IH, <- (Rmult_1_l (markov states K n x (F i))). rewrite <- markov_lin. apply markov_ext. intros. ring.
Qed.

Lemma norm_pos : forall {X} (states : list X) f, 0 <= norm states f.
Proof. intros X states f. unfold norm, lnorm. induction states as [|a t IH]; cbn [fold_right]; [lra|]. eapply Rle_trans; [exact IH|apply Rmax_r]. Qed.

Section Sampler.
Context {X : Type}.
Variables (eqX : forall x y : X, {x = y} + {x <> y}) (states : list X) (ll : X -> R).
Variables (K q : X -> X -> R) (E : X -> nat -> (list X -> R) -> R -> Prop).
Hypothesis states_nodup : NoDup states.
Hypothesis HS : sampler eqX states ll K q E.
Local Notation p := (target states ll).
Let facts := sampler_ok X eqX states ll K q E states_nodup HS.
Let K_nonneg := sf_nonneg facts.
Let K_sum := sf_sum facts.
Let p_stationary := sf_stationary facts.
Variables (phi : X -> list R) (d : nat).
Hypothesis phi_size : forall x, In x states -> length (phi x) = d.
Local Notation mu := (true_mean states ll phi).
Local Notation g i := (fun x : X => nth i (phi x) 0 - mu i).
Local Notation gam := (steady_autocovariance states ll K phi d).

Lemma reversible : forall x y, In x states -> In y states -> p x * K x y = p y * K y x.
Proof.
  intros x y Hx Hy. destruct HS as [q' Hnz Hp | prop ratio md Hd Hsym Hmd].
  - destruct (eqX x y) as [->|Hn]; [reflexivity|]. unfold mh_kernel, kernel. destruct (eqX x y) as [|_]; [contradiction|]. destruct (eqX y x) as [|_]; [congruence|]. rewrite !Rplus_0_r.
    unfold target. assert (HZ : 0 < sumR (fun z => exp (ll z)) states) by (now apply (sum_exp_pos ll states x)).
    replace (exp (ll x) / sumR (fun z => exp (ll z)) states * (q' x y * Rmin 1 (mh_ratio ll x y (q' x y / q' y x)))) with (exp (ll x) * (q' x y * Rmin 1 (mh_ratio ll x y (q' x y / q' y x))) / sumR (fun z => exp (ll z)) states) by (field; lra).
    rewrite (detailed_balance ll q'); [field; lra| |]; apply Hp.
  - assert (Hk : forall x y, dr_kernel states eqX prop (code_accepts ll) (md + 1) x [] y = dr_kernel states eqX prop (published ll) (md + 1) x [] y)
      by (intros; apply ker_published; lia).
    rewrite <- !Hk. apply balance; try assumption; [apply Hsym|].
    destruct md as [|[|md]]; [now left|right; split; [reflexivity|apply Hsym]|lia].
Qed.
Lemma after_it : forall k f x, after states K k f x = it states K k f x.
Proof. intros. unfold after. apply markov_last. Qed.
Lemma gam_sum : forall k, gam k = sumR (fun i => gamma states K p (g i) k) (seq 0 d).
Proof.
  intros k. unfold steady_autocovariance. apply sumR_ext_in. intros i _. unfold gamma, mean_in. apply sumR_ext_in. intros x _. now rewrite after_it.
Qed.
Lemma lags_s : forall L, lags_up_to L gam = sumR (fun i => s states K p (g i) L) (seq 0 d).
Proof.
  intros L. unfold lags_up_to. rewrite gam_sum. rewrite (sumR_ext_in (fun i => s states K p (g i) L) (fun i => gamma states K p (g i) 0 + 2 * sumR (gamma states K p (g i)) (seq 1 L))).
  - rewrite sumR_plus, sumR_scal. do 2 f_equal. rewrite sumR_swap. apply sumR_ext_in. intros k _. apply gam_sum.
  - intros i _. unfold s. do 2 f_equal. exact (sumn_seqR (gamma states K p (g i)) L 1).
Qed.
Lemma g_mean : states <> [] -> forall i, mean_in states p (g i) = 0.
Proof.
  intros Hne i. unfold true_mean. set (f := fun x => nth i (phi x) 0). unfold mean_in at 1. rewrite (sumR_ext_in _ (fun x => p x * f x - p x * mean_in states p f)) by (intros; unfold f; ring).
  rewrite sumR_minus, sumR_mult_r, t_sum by exact Hne. unfold mean_in. ring.
Qed.

Section Mixing.
Hypothesis Hmix : mixing states q.
Hypothesis Hne : states <> [].
Lemma rate : exists m e, (0 < m)%nat /\ 0 < e <= 1 /\ forall k f B, mean_in states p f = 0 -> within states B f -> within states ((1 - e) ^ (k / m) * B) (it states K k f).
Proof.
  destruct Hmix as (m & Hm & Hr).
  destruct (lower_bound (fun xy => step eqX states K m (fst xy) (snd xy)) (list_prod states states)) as (e & He & Hl).
  { intros [x y] Hxy. apply in_prod_iff in Hxy. destruct Hxy. cbn [fst snd]. apply (c_reaches_pos eqX states K K_nonneg q (sf_pos facts)); auto. }
  assert (Hmin : forall x y, In x states -> In y states -> e * p y <= step eqX states K m x y).
  { intros x y Hx Hy. eapply Rle_trans; [|apply (Hl (x, y)); apply in_prod; assumption].
    rewrite <- (Rmult_1_r e) at 2. apply Rmult_le_compat_l; [lra|now apply t_le_1]. }
  exists m, e. split; [exact Hm|]. split.
  - split; [exact He|]. destruct states as [|s0 st] eqn:Es; [congruence|]. rewrite <- Es in *. assert (Hs : In s0 states) by (rewrite Es; now left).
    rewrite <- (step_sum eqX states states_nodup K K_sum m s0 Hs).
    rewrite <- (Rmult_1_r e), <- (t_sum ll states Hne), <- sumR_scal. apply sumR_le_in. intros y Hy. now apply Hmin.
  - intros k f B Hf HB x Hx. pose proof (it_converges eqX states states_nodup K p K_nonneg K_sum (t_sum ll states Hne) p_stationary m e Hm Hmin k f B x Hx) as H.
    rewrite Hf, Rminus_0_r in H. apply H. intros y Hy. rewrite Rminus_0_r. now apply HB.
Qed.
Lemma pow_decr : forall m e k, (0 < m)%nat -> 0 < e <= 1 -> (1 - e) ^ (Datatypes.S k / m) <= (1 - e) ^ (k / m).
Proof.
  clear. intros m e k Hm He. assert (L : (k / m <= Datatypes.S k / m)%nat) by (apply Nat.div_le_mono; lia). set (a := (k / m)%nat) in *. set (b := (Datatypes.S k / m)%nat) in *. clearbody a b.
  replace b with (a + (b - a))%nat by lia. rewrite pow_add. rewrite <- (Rmult_1_r ((1 - e) ^ a)) at 2.
  apply Rmult_le_compat_l; [apply pow_le; lra|]. apply Rle_trans with (1 ^ (b - a)); [apply pow_incr; lra|rewrite pow1; lra].
Qed.
Lemma component : forall i, exists sigma2 : R, 0 <= sigma2 /\ is_lim_seq (s states K p (g i)) sigma2 /\
  (exists C, forall n x, In x states -> Rabs (V states K (g i) n x - INR n * sigma2) <= C).
Proof.
  intros i. destruct rate as (m & e & Hm & He & Hr).
  destruct (variance states K p K_nonneg K_sum (fun x Hx => Rlt_le _ _ (p_pos ll states x Hx)) (t_sum ll states Hne) p_stationary (fun k => (1 - e) ^ (k / m)) (INR m / e)) with (g := g i) (B := norm states (g i)) as (sigma2 & H0 & Hl & HV).
  - intros k. apply pow_le. lra.
  - intros k. now apply pow_decr.
  - intros n. apply Rmult_le_reg_l with e; [lra|]. replace (e * (INR m / e)) with (INR m) by (field; lra). now apply geometric_blocks.
  - exact Hr.
  - now apply g_mean.
  - apply norm_within.
  - apply norm_pos.
  - exists sigma2. split; [exact H0|]. split; [exact Hl|]. eexists. exact HV.
Qed.
Lemma component_rate : exists m e, (0 < m)%nat /\ 0 < e <= 1 /\ forall i, exists C, forall sigma2 : R, is_lim_seq (s states K p (g i)) sigma2 -> forall L, Rabs (s states K p (g i) L - sigma2) <= C * (1 - e) ^ (L / m).
Proof.
  destruct rate as (m & e & Hm & He & Hr). exists m, e. split; [exact Hm|]. split; [exact He|]. intros i.
  destruct (s_limit states K p K_nonneg K_sum (fun x Hx => Rlt_le _ _ (p_pos ll states x Hx)) (t_sum ll states Hne) p_stationary (fun k => (1 - e) ^ (k / m)) (INR m / e)) with (g := g i) (B := norm states (g i)) as (sigma2 & Hl & HV).
  - intros k. apply pow_le. lra.
  - intros k. now apply pow_decr.
  - intros n. apply Rmult_le_reg_l with e; [lra|]. replace (e * (INR m / e)) with (INR m) by (field; lra). now apply geometric_blocks.
  - exact Hr.
  - now apply g_mean.
  - apply norm_within.
  - apply norm_pos.
  - eexists. intros sg Hs. pose proof (is_lim_seq_unique _ _ Hs) as H1. pose proof (is_lim_seq_unique _ _ Hl) as H2. rewrite H1 in H2. injection H2 as ->. exact HV.
Qed.
Lemma error_square : forall i l n, length l = n -> (0 < n)%nat -> (the_mean R_ops (map phi l) i - mu i) ^ 2 = / INR n ^ 2 * total (g i) l ^ 2.
Proof.
  intros i l n Hl Hn. assert (0 < INR n) by (now apply lt_0_INR). rewrite the_mean_avg. unfold total. rewrite sumR_center, Hl. field. lra.
Qed.
Theorem the_error : exists sigma2 C, 0 <= sigma2 /\ is_lim_seq (fun L => lags_up_to L gam) sigma2 /\ decays (fun L => lags_up_to L gam - sigma2) /\
  forall x0 n, In x0 states -> (0 < n)%nat ->
  exists v, Rabs (INR n * v - sigma2) <= C / INR n /\
    E x0 n (fun l => squared_distance d (the_mean R_ops (map phi l)) mu) v /\
    ((N.of_nat n < two64)%N -> E x0 n (fun l => squared_distance d (fun i => mean_value i (map phi l)) mu) v).
Proof.
  destruct (sumR_finite_choice (fun i (sc : R * R) => 0 <= fst sc /\ is_lim_seq (s states K p (g i)) (fst sc) /\ forall n x, In x states -> Rabs (V states K (g i) n x - INR n * fst sc) <= snd sc) (0, 0) d) as (sc & Hsc).
  { intros i _. destruct (component i) as (sg & H0 & Hl & C & HC). exists (sg, C). auto. }
  set (sg := fun i => fst (sc i)). set (C := fun i => snd (sc i)).
  exists (sumR sg (seq 0 d)), (sumR C (seq 0 d)).
  assert (Hlim : is_lim_seq (fun L => lags_up_to L gam) (sumR sg (seq 0 d))).
  { apply (is_lim_seq_ext (fun L => sumR (fun i => s states K p (g i) L) (seq 0 d))); [intros L; symmetry; apply lags_s|]. apply sumR_lim. intros i Hi. apply in_seq in Hi. apply Hsc. lia. }
  split; [apply sumR_nonneg; intros i Hi; apply in_seq in Hi; apply Hsc; lia|]. split; [exact Hlim|]. split.
  - destruct component_rate as (m & e & Hm & He & HR).
    destruct (sumR_finite_choice (fun i c => forall L, Rabs (s states K p (g i) L - sg i) <= c * (1 - e) ^ (L / m)) 0 d) as (c & Hc).
    { intros i Hi. destruct (HR i) as (c & Hc). exists c. apply Hc. apply Hsc. exact Hi. }
    exists (sumR c (seq 0 d)), m, e. split; [exact Hm|]. split; [exact He|]. intros L. rewrite lags_s, <- sumR_minus. eapply Rle_trans; [apply sumR_abs|].
    rewrite <- sumR_mult_r. apply sumR_le_in. intros i Hi. apply in_seq in Hi. apply Hc. lia.
  - intros x0 n Hx0 Hn. assert (HI : 0 < INR n) by (now apply lt_0_INR).
    pose proof (sf_law facts x0 n (fun l => squared_distance d (the_mean R_ops (map phi l)) mu) Hx0) as HE. eexists. split; [|split; [exact HE|]].
    + unfold squared_distance. rewrite (markov_sum_list states K K_sum n x0 (fun i l => (the_mean R_ops (map phi l) i - mu i) ^ 2)) by exact Hx0.
      rewrite (sumR_ext_in _ (fun i => / INR n ^ 2 * V states K (g i) n x0)).
      2:{ intros i _. unfold V. transitivity (/ INR n ^ 2 * markov states K n x0 (fun l => total (g i) l ^ 2) + markov states K n x0 (fun _ => 0)); [|rewrite (markov_const states K K_sum) by exact Hx0; ring].
          rewrite <- markov_lin. apply markov_ext. intros l Hl. rewrite (error_square i l n Hl Hn). ring. }
      rewrite sumR_scal. replace (INR n * (/ INR n ^ 2 * sumR (fun i => V states K (g i) n x0) (seq 0 d))) with (sumR (fun i => V states K (g i) n x0) (seq 0 d) * / INR n) by (field; lra).
      rewrite <- sumR_mult_r, <- sumR_minus. eapply Rle_trans; [apply sumR_abs|]. unfold Rdiv. rewrite <- sumR_mult_r. apply sumR_le_in. intros i Hi. apply in_seq in Hi.
      replace (V states K (g i) n x0 * / INR n - sg i) with ((V states K (g i) n x0 - INR n * sg i) * / INR n) by (field; lra).
      rewrite Rabs_mult, (Rabs_pos_eq (/ INR n)) by (apply Rlt_le, Rinv_0_lt_compat, HI). apply Rmult_le_compat_r; [apply Rlt_le, Rinv_0_lt_compat, HI|]. apply Hsc; [lia|exact Hx0].
    + intros Hlim64. rewrite (markov_eq_in states K K_nonneg n x0 _ (fun l => squared_distance d (fun i => mean_value i (map phi l)) mu)); [now apply (sf_law facts)| |exact Hx0].
      intros l Hl Hin. unfold squared_distance. apply sumR_ext_in. intros i Hi. apply in_seq in Hi. do 2 f_equal. symmetry. unfold mean_value, report.
      assert (Hl0 : l <> []) by (intros ->; cbn in Hl; lia).
      destruct (top_mean R_ops R_exact None (map phi l) d) as (st & mm & -> & -> & Hlen & Hm'); [now apply map_nonempty|apply (all_size_map states); assumption|now rewrite map_length, Hl|].
      cbn [bind]. apply Hm'. lia.
Qed.
End Mixing.

Theorem too_small : forall sigma2 : R, is_lim_seq (fun L => lags_up_to L gam) sigma2 -> forall l, 0 <= gam (2 * l) /\ 0 <= gam (2 * l) + gam (2 * l + 1) /\ lags_up_to (2 * l + 1) gam <= sigma2.
Proof.
  assert (pnn : forall x, In x states -> 0 <= p x) by (intros; apply Rlt_le; now apply p_pos).
  intros sigma2 Hl l.
  assert (Hpair : forall l, 0 <= gam (2 * l) + gam (2 * l + 1)).
  { intros j. rewrite !gam_sum, <- sumR_plus. apply sumR_nonneg. intros i _. apply gamma_pairs; auto. exact reversible. }
  split; [rewrite gam_sum; apply sumR_nonneg; intros i _; apply gamma_even; auto; exact reversible|]. split; [apply Hpair|].
  assert (Mono : forall k, lags_up_to (2 * l + 1) gam <= lags_up_to (2 * (l + k) + 1) gam).
  { induction k as [|k IH]; [rewrite Nat.add_0_r; lra|]. eapply Rle_trans; [exact IH|]. pose proof (Hpair (l + k + 1)%nat) as HP.
    replace (2 * (l + Datatypes.S k) + 1)%nat with (Datatypes.S (Datatypes.S (2 * (l + k) + 1))) by lia. unfold lags_up_to. rewrite !seq_S, !sumR_app. cbn [sumR].
    replace (1 + Datatypes.S (2 * (l + k) + 1))%nat with (2 * (l + k + 1) + 1)%nat by lia. replace (1 + (2 * (l + k) + 1))%nat with (2 * (l + k + 1))%nat by lia. lra. }
  apply (is_lim_seq_le (fun _ => lags_up_to (2 * l + 1) gam) (fun k => lags_up_to (2 * (l + k) + 1) gam) (lags_up_to (2 * l + 1) gam) sigma2); [exact Mono|apply is_lim_seq_const|].
  apply (is_lim_seq_subseq (fun L => lags_up_to L gam) (Finite sigma2) (fun k => 2 * (l + k) + 1)%nat); [|exact Hl]. intros Q (N & HN). exists N. intros n Hn. apply HN. lia.
Qed.
Theorem estimated : connected states q -> forall max_lag L, (L <= max_lag)%nat ->
  converges states (L + 2) two64 E (fun l => lags_up_to L (fun k => autocovariance_trace max_lag k (map phi l))) (fun l => lags_up_to L (fun k => the_autocovariance_trace R_ops d (map phi l) k)) (lags_up_to L gam).
Proof.
  intros Hc max_lag L HL.
  assert (Hk : forall k, (k <= L)%nat -> converges states (k + 2) two64 E (fun l => autocovariance_trace max_lag k (map phi l)) (fun l => the_autocovariance_trace R_ops d (map phi l) k) (gam k)).
  { intros k Hk. apply (trace_converges eqX states ll K q E states_nodup HS Hc phi d phi_size max_lag k). lia. }
  apply (up eqX states ll K q E states_nodup HS).
  - assert (Hcons : forall k, (k <= L)%nat -> consistent states K (fun l => the_autocovariance_trace R_ops d (map phi l) k) (gam k)).
    { intros k HkL. exact (proj1 (down eqX states ll K q E states_nodup HS _ _ _ _ _ (Hk k HkL))). }
    unfold lags_up_to. apply (cons_ext states K K_nonneg K_sum _ (fun l => 2 * sumR (fun k => the_autocovariance_trace R_ops d (map phi l) k) (seq 1 L) + the_autocovariance_trace R_ops d (map phi l) 0)); [|intros; ring].
    rewrite Rplus_comm. apply (cons_lin states K K_nonneg K_sum); [|apply Hcons; lia].
    apply (cons_sum states K K_nonneg K_sum (seq 1 L) (fun k l => the_autocovariance_trace R_ops d (map phi l) k)). intros k Hi. apply in_seq in Hi. apply Hcons. lia.
  - intros l (Hl0 & Hin) Hlen Hl. assert (Heq : forall k, (k <= L)%nat -> autocovariance_trace max_lag k (map phi l) = the_autocovariance_trace R_ops d (map phi l) k).
    { intros k HkL. unfold autocovariance_trace, report.
      destruct (top_act R_ops R_exact max_lag (map phi l) d) as (st & -> & Hs); [now apply map_nonempty|apply (all_size_map states); assumption|now rewrite map_length|].
      rewrite (Hs k ltac:(lia)), map_length. destruct (length l <=? k + 1)%nat eqn:El; [apply Nat.leb_le in El; lia|reflexivity]. }
    unfold lags_up_to. rewrite Heq by lia. do 2 f_equal. apply sumR_ext_in. intros k Hk'. apply in_seq in Hk'. apply Heq. lia.
Qed.
End Sampler.
