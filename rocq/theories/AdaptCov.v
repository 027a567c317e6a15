(** Adaptive Metropolis as documented: the proposals look at the covariance of the samples so far. *)
From Coq Require Import Reals Lra Lia Field.
From Coquelicot Require Import Coquelicot.
From Verif Require StatsTop.
From Verif Require Import Prelude ConsumerModel ConsumerProofs ProducerModel ProducerSpec XReal MHSpec MHProofs StatsModel StatsSpec StatsInst MHRunSpec DEStat MarkovFinite MHRun AdaptSpec AdaptRun AdaptFinite AdaptMH.
Import ListNotations.
Local Open Scope R_scope.
Local Open Scope list_scope.
Local Notation length := List.length.

(** ** The covariance changes little with one more sample *)
Local Notation cmp := (comp R_ops).
Lemma suml_sumR : forall {A} (f : A -> R) l, suml R_ops f l = sumR f l.
Proof. intros A f l. induction l as [|x l IH]; [reflexivity|]. cbn [suml sumR]. rewrite IH. reflexivity. Qed.
Definition S1 (xs : list (list R)) i := sumR (fun x => cmp x i) xs.
Definition S2 (xs : list (list R)) i j := sumR (fun x => cmp x i * cmp x j) xs.
Lemma mean_S1 : forall xs i, the_mean R_ops xs i = S1 xs i / INR (length xs).
Proof. intros xs i. unfold the_mean. rewrite suml_sumR. cbn [kdiv kofN R_ops]. now rewrite Nat2N.id. Qed.
Lemma cov_S2 : forall xs i j, xs <> [] -> the_covariance R_ops xs i j = (S2 xs i j - S1 xs i * S1 xs j / INR (length xs)) / (INR (length xs) - 1).
Proof.
  intros xs i j Hne. unfold the_covariance. rewrite suml_sumR, !mean_S1. cbn [kdiv kofN kmul ksub kconj R_ops].
  assert (Hl : (0 < length xs)%nat) by (destruct xs; [congruence|cbn; lia]). assert (HI : 0 < INR (length xs)) by now apply lt_0_INR.
  replace (INR (N.to_nat (N.of_nat (length xs) - 1))) with (INR (length xs) - 1).
  2:{ rewrite N2Nat.inj_sub, Nat2N.id. rewrite minus_INR by (cbn; lia). reflexivity. }
  f_equal. set (mi := S1 xs i / INR (length xs)). set (mj := S1 xs j / INR (length xs)).
  rewrite (sumR_ext_in _ (fun x => (cmp x i * cmp x j - mj * cmp x i) - (mi * cmp x j - mi * mj))) by (intros; ring).
  rewrite !sumR_minus, (sumR_scal mj (fun x => cmp x i)), (sumR_scal mi (fun x => cmp x j)). fold (S1 xs i) (S1 xs j) (S2 xs i j).
  replace (sumR (fun _ => mi * mj) xs) with (INR (length xs) * (mi * mj)).
  2:{ clearbody mi mj. clear. induction xs as [|x xs IH]; [cbn; ring|]. cbn [length sumR]. rewrite S_INR. rewrite <- IH. ring. }
  unfold mi, mj. field. lra.
Qed.
Lemma cov_step : forall xs x i j, (2 <= length xs)%nat ->
  the_covariance R_ops (xs ++ [x]) i j - the_covariance R_ops xs i j =
  (cmp x i - the_mean R_ops xs i) * (cmp x j - the_mean R_ops xs j) / (INR (length xs) + 1) - the_covariance R_ops xs i j / INR (length xs).
Proof.
  intros xs x i j Hn. assert (Hne : xs <> []) by (intros ->; cbn in Hn; lia). assert (Hne' : xs ++ [x] <> []) by (intros E; apply app_eq_nil in E; destruct E; discriminate).
  rewrite !cov_S2, !mean_S1 by assumption. unfold S1, S2. rewrite !sumR_app, app_length. cbn [sumR length]. rewrite plus_INR. cbn [INR].
  assert (2 <= INR (length xs)) by (change 2 with (INR 2); now apply le_INR). field. repeat split; lra.
Qed.
Lemma mean_bound : forall B xs i, 0 <= B -> xs <> [] -> (forall x, In x xs -> Rabs (cmp x i) <= B) -> Rabs (the_mean R_ops xs i) <= B.
Proof.
  intros B xs i HB Hne H. rewrite mean_S1. assert (HI : 0 < INR (length xs)) by (apply lt_0_INR; destruct xs; [congruence|cbn; lia]).
  unfold Rdiv. rewrite Rabs_mult, (Rabs_pos_eq (/ _)) by (apply Rlt_le, Rinv_0_lt_compat, HI). apply Rmult_le_reg_r with (INR (length xs)); [exact HI|].
  rewrite Rmult_assoc, Rinv_l, Rmult_1_r by lra. rewrite Rmult_comm. eapply Rle_trans; [apply sumR_abs|]. now apply sumR_const_le.
Qed.
Lemma prod_bound : forall a b B, Rabs a <= B -> Rabs b <= B -> Rabs (a * b) <= B * B.
Proof. intros a b B H1 H2. rewrite Rabs_mult. apply Rmult_le_compat; auto using Rabs_pos. Qed.
Lemma cov_bound : forall B xs i j, 0 <= B -> (2 <= length xs)%nat -> (forall x k, In x xs -> Rabs (cmp x k) <= B) -> Rabs (the_covariance R_ops xs i j) <= 8 * (B * B).
Proof.
  intros B xs i j HB Hn H. assert (Hne : xs <> []) by (intros ->; cbn in Hn; lia). assert (HI : 2 <= INR (length xs)) by (change 2 with (INR 2); now apply le_INR).
  unfold the_covariance. rewrite suml_sumR. cbn [kdiv kofN kmul ksub kconj R_ops].
  replace (INR (N.to_nat (N.of_nat (length xs) - 1))) with (INR (length xs) - 1).
  2:{ rewrite N2Nat.inj_sub, Nat2N.id. rewrite minus_INR by (cbn; lia). reflexivity. }
  assert (Hd : forall x k, In x xs -> Rabs (cmp x k - the_mean R_ops xs k) <= 2 * B).
  { intros x k Hx. pose proof (H x k Hx). pose proof (mean_bound B xs k HB Hne (fun x Hx => H x k Hx)). unfold Rminus. eapply Rle_trans; [apply Rabs_triang|]. rewrite Rabs_Ropp. lra. }
  unfold Rdiv. rewrite Rabs_mult, (Rabs_pos_eq (/ _)) by (apply Rlt_le, Rinv_0_lt_compat; lra). apply Rmult_le_reg_r with (INR (length xs) - 1); [lra|].
  rewrite Rmult_assoc, Rinv_l, Rmult_1_r by lra. eapply Rle_trans; [apply sumR_abs|]. eapply Rle_trans; [apply (sumR_const_le _ xs (2 * B * (2 * B)))|].
  - intros x Hx. apply prod_bound; now apply Hd.
  - assert (0 <= B * B) by now apply Rmult_le_pos. nra.
Qed.
Lemma cov_change : forall B xs x i j, 0 <= B -> (2 <= length xs)%nat -> (forall x k, In x xs -> Rabs (cmp x k) <= B) -> (forall k, Rabs (cmp x k) <= B) ->
  Rabs (the_covariance R_ops (xs ++ [x]) i j - the_covariance R_ops xs i j) <= 20 * (B * B) / INR (S (length xs)).
Proof.
  intros B xs x i j HB Hn H Hx. rewrite cov_step by exact Hn. assert (Hne : xs <> []) by (intros ->; cbn in Hn; lia).
  assert (HI : 2 <= INR (length xs)) by (change 2 with (INR 2); now apply le_INR). rewrite S_INR. set (n := INR (length xs)) in *.
  assert (Hd : forall k, Rabs (cmp x k - the_mean R_ops xs k) <= 2 * B).
  { intros k. pose proof (Hx k). pose proof (mean_bound B xs k HB Hne (fun x Hx => H x k Hx)). unfold Rminus. eapply Rle_trans; [apply Rabs_triang|]. rewrite Rabs_Ropp. lra. }
  pose proof (prod_bound _ _ _ (Hd i) (Hd j)) as H1. pose proof (cov_bound B xs i j HB Hn H) as H2.
  set (u := (cmp x i - the_mean R_ops xs i) * (cmp x j - the_mean R_ops xs j)) in *. set (w := the_covariance R_ops xs i j) in *.
  assert (HBB : 0 <= B * B) by now apply Rmult_le_pos.
  assert (E1 : Rabs (u / (n + 1)) <= 4 * (B * B) / (n + 1)).
  { unfold Rdiv. rewrite Rabs_mult, (Rabs_pos_eq (/ _)) by (apply Rlt_le, Rinv_0_lt_compat; lra). apply Rmult_le_compat_r; [apply Rlt_le, Rinv_0_lt_compat; lra|lra]. }
  assert (E2 : Rabs (w / n) <= 16 * (B * B) / (n + 1)).
  { unfold Rdiv. rewrite Rabs_mult, (Rabs_pos_eq (/ n)) by (apply Rlt_le, Rinv_0_lt_compat; lra).
    apply Rle_trans with (8 * (B * B) * / n); [apply Rmult_le_compat_r; [apply Rlt_le, Rinv_0_lt_compat; lra|exact H2]|].
    replace (16 * (B * B) * / (n + 1)) with (8 * (B * B) * (2 * / (n + 1))) by ring. apply Rmult_le_compat_l; [lra|].
    apply Rmult_le_reg_l with n; [lra|]. rewrite Rinv_r by lra. apply Rmult_le_reg_r with (n + 1); [lra|]. replace (n * (2 * / (n + 1)) * (n + 1)) with (2 * n) by (field; lra). lra. }
  unfold Rminus. eapply Rle_trans; [apply Rabs_triang|]. rewrite Rabs_Ropp. replace (20 * (B * B) / (n + 1)) with (4 * (B * B) / (n + 1) + 16 * (B * B) / (n + 1)) by (field; lra). lra.
Qed.
(** Finitely many vectors are bounded. *)
Lemma vectors_bound : forall {X} (vect : X -> list R) states, exists B, 0 <= B /\ forall x k, In x states -> Rabs (cmp (vect x) k) <= B.
Proof.
  intros X vect states. induction states as [|x l IH]; [exists 0; split; [lra|contradiction]|]. destruct IH as (B & HB & H).
  assert (HV : exists B', 0 <= B' /\ forall k, Rabs (cmp (vect x) k) <= B').
  { generalize (vect x). intros v. induction v as [|a v IHv]; [exists 0; split; [lra|intros [|k]; cbn; rewrite Rabs_R0; lra]|]. destruct IHv as (B' & HB' & Hv).
    exists (Rmax (Rabs a) B'). split; [eapply Rle_trans; [exact HB'|apply Rmax_r]|]. intros [|k]; cbn; [apply Rmax_l|]. eapply Rle_trans; [exact (Hv k)|apply Rmax_r]. }
  destruct HV as (B' & HB' & HV). exists (Rmax B B'). split; [eapply Rle_trans; [exact HB|apply Rmax_l]|].
  intros y k [<-|Hy]; [eapply Rle_trans; [apply HV|apply Rmax_r]|eapply Rle_trans; [now apply H|apply Rmax_l]].
Qed.

Section Documented.
Context {X : Type}.
Variable eqX : forall x y : X, {x = y} + {x <> y}.
Variables (ll : X -> R) (states : list X).
Hypothesis states_nodup : NoDup states.
Hypothesis ll_nonzero : forall x, nonzero (ll x).
Variables (vect : X -> list R) (dim : nat) (garbage : nat -> nat -> R) (n0 : N) (simple : X -> X -> R) (adapted : (nat -> nat -> R) -> X -> X -> R).
Variables (b : R) (m : nat) (G : X -> X -> Prop) (L : R).
Hypothesis Hn0 : (2 <= n0)%N.
Hypothesis HA : adaptable states vect dim simple adapted b m G L.
Local Notation doc := (documented vect garbage n0 simple adapted).
Local Notation am := (adaptive_metropolis vect n0 simple adapted).

Lemma sizes : forall h, incl h states -> all_size dim (map vect h).
Proof. intros h Hh. apply Forall_forall. intros v Hv. apply in_map_iff in Hv. destruct Hv as (x & <- & Hx). apply (ad_dim _ _ _ _ _ _ _ _ _ HA). now apply Hh. Qed.
Lemma observable_cov : forall h, incl h states -> (2 <= length h)%nat -> observable states vect dim (the_covariance R_ops (map vect h)).
Proof. intros h H1 H2. now exists h. Qed.
(** The code's proposals are the textbook's. *)
Lemma documented_textbook : forall h x y, incl h states -> (N.of_nat (length h) < two64)%N -> doc h x y = am h x y.
Proof.
  clear eqX ll states_nodup ll_nonzero. intros h x y Hh Hl. unfold documented, adaptive_metropolis.
  destruct (count_correct h) as (s & -> & Hs). rewrite N.mod_small in Hs by exact Hl. rewrite Hs.
  destruct h as [|z h]; [cbn [length map run_consumer N.of_nat]; cbn; destruct (0 <? n0)%N eqn:E; [reflexivity|apply N.ltb_ge in E; lia]|].
  destruct (StatsTop.top_cov R_ops R_exact garbage (map vect (z :: h)) dim) as (s' & -> & _ & _ & Hc).
  - cbn. discriminate.
  - now apply sizes.
  - rewrite map_length. exact Hl.
  - destruct (N.of_nat (length (z :: h)) <? n0)%N eqn:E; [reflexivity|]. apply N.ltb_ge in E. clear Hl Hs.
    assert (H2 : (2 <= length (z :: h))%nat) by lia. rewrite map_length in Hc. specialize (Hc H2).
    assert (Hobs : observable states vect dim (the_covariance R_ops (map vect (z :: h)))) by (apply observable_cov; [exact Hh|exact H2]).
    assert (Hobs' : observable states vect dim (snd (cov_get s'))) by now exists (z :: h).
    pose proof (ad_lipschitz _ _ _ _ _ _ _ _ _ HA (snd (cov_get s')) _ 0 x y Hobs' Hobs) as HLip. rewrite Rmult_0_r in HLip.
    assert (Hz : Rabs (adapted (snd (cov_get s')) x y - adapted (the_covariance R_ops (map vect (z :: h))) x y) <= 0).
    { apply HLip. intros i j Hi Hj. rewrite (Hc i j Hi Hj). unfold Rminus. rewrite Rplus_opp_r, Rabs_R0. lra. }
    apply Rminus_diag_uniq. pose proof (Rabs_pos (adapted (snd (cov_get s')) x y - adapted (the_covariance R_ops (map vect (z :: h))) x y)).
    destruct (Req_dec (adapted (snd (cov_get s')) x y - adapted (the_covariance R_ops (map vect (z :: h))) x y) 0) as [E0|E0]; [exact E0|]. apply Rabs_pos_lt in E0. lra.
Qed.
Lemma am_lively : forall h, incl h states -> lively states b G (am h).
Proof.
  intros h Hh. unfold adaptive_metropolis. destruct (N.of_nat (length h) <? n0)%N eqn:E; [exact (ad_simple _ _ _ _ _ _ _ _ _ HA)|].
  apply (ad_adapted _ _ _ _ _ _ _ _ _ HA). apply observable_cov; [exact Hh|]. apply N.ltb_ge in E. lia.
Qed.
Lemma am_proposals : adaptive_proposals states am.
Proof. intros h Hh. exact (proj1 (am_lively h Hh)). Qed.
Lemma am_stuck : never_stuck states am b m G.
Proof.
  destruct (ad_positive _ _ _ _ _ _ _ _ _ HA) as [H1 H2]. split; [exact H1|]. split; [exact H2|]. split; [|exact (ad_paths _ _ _ _ _ _ _ _ _ HA)].
  intros h x y Hh. exact (proj2 (am_lively h Hh) x y).
Qed.
Lemma lively_range : forall q x y, lively states b G q -> In x states -> In y states -> 0 <= q x y <= 1.
Proof.
  intros q x y [H _] Hx Hy. split; [apply (pd_nonneg _ _ H)|]. rewrite <- (pd_sum _ _ H x Hx). apply sumR_member; [|exact Hy]. intros; apply (pd_nonneg _ _ H).
Qed.
Lemma am_diminishing : exists c, diminishing states am c.
Proof.
  destruct (vectors_bound vect states) as (B & HB & HV). exists (Rmax (Rabs L * (20 * (B * B))) (INR (N.to_nat n0))).
  intros h z x y Hh Hz Hx Hy. assert (Hh' : incl (h ++ [z]) states) by now apply incl_app1.
  assert (HI : 0 < INR (S (length h))) by (apply lt_0_INR; lia). assert (HI' : 0 < / INR (S (length h))) by now apply Rinv_0_lt_compat.
  assert (Hc1 : forall v, v <= INR (N.to_nat n0) / INR (S (length h)) -> v <= Rmax (Rabs L * (20 * (B * B))) (INR (N.to_nat n0)) / INR (S (length h))).
  { intros v Hv. eapply Rle_trans; [exact Hv|]. apply Rmult_le_compat_r; [lra|apply Rmax_r]. }
  assert (Hn0p : 0 <= INR (N.to_nat n0)) by apply pos_INR.
  destruct (le_lt_dec (N.to_nat n0) (length h)) as [Hge|Hlt].
  - unfold adaptive_metropolis. rewrite app_length. cbn [length].
    destruct (N.of_nat (length h + 1) <? n0)%N eqn:E1; [apply N.ltb_lt in E1; lia|]. destruct (N.of_nat (length h) <? n0)%N eqn:E2; [apply N.ltb_lt in E2; lia|].
    assert (H2 : (2 <= length h)%nat) by lia.
    eapply Rle_trans; [apply (ad_lipschitz _ _ _ _ _ _ _ _ _ HA) with (e := 20 * (B * B) / INR (S (length h)))|].
    + apply observable_cov; [exact Hh'|rewrite app_length; cbn; lia].
    + now apply observable_cov.
    + intros i j _ _. rewrite map_app. cbn [map]. rewrite <- (map_length vect h). apply cov_change; auto.
      * now rewrite map_length.
      * intros v k Hv. apply in_map_iff in Hv. destruct Hv as (w & <- & Hw). apply HV. now apply Hh.
    + apply Rle_trans with (Rabs L * (20 * (B * B)) / INR (S (length h))); [|apply Rmult_le_compat_r; [lra|apply Rmax_l]].
      assert (HBB : 0 <= B * B) by now apply Rmult_le_pos.
      replace (Rabs L * (20 * (B * B)) / INR (S (length h))) with (Rabs L * (20 * (B * B) / INR (S (length h)))) by (unfold Rdiv; ring).
      apply Rmult_le_compat_r; [|apply Rle_abs]. apply Rmult_le_pos; lra.
  - apply Hc1. apply Rle_trans with 1.
    + pose proof (lively_range _ x y (am_lively h Hh) Hx Hy). pose proof (lively_range _ x y (am_lively (h ++ [z]) Hh') Hx Hy). apply Rabs_le. lra.
    + apply Rmult_le_reg_r with (INR (S (length h))); [exact HI|]. unfold Rdiv. rewrite Rmult_assoc, Rinv_l, Rmult_1_r, Rmult_1_l by lra. apply le_INR. lia.
Qed.
(** The code's runs, as long as the counter does not wrap. *)
Lemma kernel_ext : forall (q q' : X -> X -> R) x y, (forall x y, q x y = q' x y) -> mh_kernel states eqX ll q x y = mh_kernel states eqX ll q' x y.
Proof.
  intros q q' x y H. unfold mh_kernel, kernel. rewrite !H. f_equal. destruct (eqX x y); [|reflexivity]. f_equal. apply sumR_ext_in. intros z _. now rewrite !H.
Qed.
Theorem documented_law : forall x0 n g v, In x0 states -> (N.of_nat n <= two64)%N ->
  aexpectation ll am states x0 n g v -> aexpectation ll doc states x0 n g v.
Proof.
  intros x0 n g v Hx0 Hn Hv.
  assert (Ev : v = adaptive_chain states (adaptive_kernel states eqX ll am) n [] x0 g).
  { exact (proj2 (arun_law_all eqX ll am states states_nodup ll_nonzero am_proposals x0 Hx0 n g) v (proj1 Hv)). }
  assert (Heq : forall h x y, incl h states -> (length h < n)%nat -> doc h x y = am h x y) by (intros h x y Hh Hlt; apply documented_textbook; [exact Hh|lia]).
  assert (HD : forall h, incl h states -> (length h < n)%nat -> proposal_distribution states (doc h)).
  { intros h Hh Hlt. pose proof (am_proposals h Hh) as HP. constructor.
    - intros x y. rewrite Heq by assumption. apply (pd_nonneg _ _ HP).
    - intros x Hx. rewrite <- (pd_sum _ _ HP x Hx). apply sumR_ext_in. intros y _. now apply Heq.
    - intros x y. rewrite !Heq by assumption. apply (pd_back _ _ HP). }
  rewrite Ev. rewrite (achain_kernel states (adaptive_kernel states eqX ll am) (adaptive_kernel states eqX ll doc) n [] x0 g).
  - apply (arun_law eqX); auto.
  - intros ? [].
  - exact Hx0.
  - intros h x y Hh _ _ Hlt. cbn [length Nat.add] in Hlt. apply kernel_ext. intros. symmetry. now apply Heq.
Qed.
Theorem documented_limit : forall eps, 0 < eps -> exists N, forall x0 y n, In x0 states -> In y states -> (N <= n)%nat ->
  exists v, Rabs (v - target states ll y) < eps /\ aexpectation ll am states x0 n (ends_at eqX x0 y) v /\
    ((N.of_nat n <= two64)%N -> aexpectation ll doc states x0 n (ends_at eqX x0 y) v).
Proof.
  intros eps He. destruct am_diminishing as (c & Hc).
  destruct (adaptive_limit eqX ll am states states_nodup ll_nonzero am_proposals b m G c am_stuck Hc eps He) as (N & H). exists N. intros x0 y n Hx0 Hy Hn.
  destruct (H x0 y n Hx0 Hy Hn) as (v & Hv & Hle). exists v. split; [exact Hle|]. split; [exact Hv|]. intros. now apply documented_law.
Qed.
Theorem documented_average : forall f, exists C, forall x0 n, In x0 states -> (0 < n)%nat ->
  exists v, v <= C / INR n /\ aexpectation ll am states x0 n (fun l => (sample_average f l - mean_in states (target states ll) f) ^ 2) v /\
    ((N.of_nat n < two64)%N -> aexpectation ll doc states x0 n (fun l => (estimate f l - mean_in states (target states ll) f) ^ 2) v).
Proof.
  intros f. destruct am_diminishing as (c & Hc).
  destruct (adaptive_average eqX ll am states states_nodup ll_nonzero am_proposals b m G c am_stuck Hc f) as (C & H). exists C. intros x0 n Hx0 Hn.
  destruct (H x0 n Hx0 Hn) as (v & Hle & Hv & He). exists v. split; [exact Hle|]. split; [exact Hv|]. intros Hl. apply documented_law; auto. lia.
Qed.
End Documented.
