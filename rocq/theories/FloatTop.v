(** Top-level statements about MeanValue and CovarianceMatrix in IEEE double arithmetic. *)
From Coq Require Import Reals ZArith Lra Lia Psatz Permutation.
From Flocq Require Import Core BinarySingleNaN.
From Verif Require Import Prelude ConsumerModel StatsModel StatsProofs HistFloat FloatSpec FloatBase FloatMean FloatCov.
Local Open Scope R_scope.

Lemma sized : forall d (xs : list (list f64)) (P : list f64 -> Prop), (forall x, In x xs -> length x = d /\ P x) -> Forall (fun x => length x = d) xs.
Proof. intros d xs P H. apply Forall_forall. intros x Hx. now apply (H x Hx). Qed.

Lemma top_range : forall dflt d (lo hi : nat -> R) (xs : list (list f64)), xs <> [] -> (N.of_nat (length xs) < 2 ^ 64)%N ->
  (forall x, In x xs -> length x = d /\ forall i, (i < d)%nat -> finite (at_ i x) /\ lo i <= val (at_ i x) <= hi i) ->
  (forall i, (i < d)%nat -> hi i - lo i <= DBL_MAX) ->
  exists s m, run_consumer (mean_consume b64_ops) (mean_init dflt) xs = Ok s /\ mean_get s = Ok m /\ length m = d /\
    forall i, (i < d)%nat -> finite (at_ i m) /\ lo i <= val (at_ i m) <= hi i.
Proof.
  intros dflt d lo hi xs Hne Hl HX HS. destruct (mean_run dflt d xs Hne (sized _ _ _ HX) Hl) as (m & E & Hm & Hi).
  eexists. exists m. split; [exact E|]. split; [reflexivity|]. split; [exact Hm|]. intros i Hd. rewrite (Hi i Hd).
  apply fmean_range; [destruct xs; [easy|discriminate]|rewrite map_length; exact Hl| |now apply HS].
  apply Forall_map, Forall_forall. intros x Hx. now apply HX.
Qed.
Lemma top_error : forall dflt d (M : nat -> R) (xs : list (list f64)), xs <> [] -> (N.of_nat (length xs) <= 2 ^ 53)%N ->
  (forall x, In x xs -> length x = d /\ forall i, (i < d)%nat -> finite (at_ i x) /\ Rabs (val (at_ i x)) <= M i) ->
  (forall i, (i < d)%nat -> 2 * M i <= DBL_MAX) ->
  exists s m, run_consumer (mean_consume b64_ops) (mean_init dflt) xs = Ok s /\ mean_get s = Ok m /\ length m = d /\
    forall i, (i < d)%nat -> finite (at_ i m) /\
      Rabs (val (at_ i m) - real_mean xs i) <= (INR (length xs) / 2 + 6) * (unit_roundoff * M i + half_denorm_min).
Proof.
  intros dflt d M xs Hne Hl HX HS. destruct (mean_run dflt d xs Hne (sized _ _ _ HX) ltac:(lia)) as (m & E & Hm & Hi).
  eexists. exists m. split; [exact E|]. split; [reflexivity|]. split; [exact Hm|]. intros i Hd. rewrite (Hi i Hd).
  assert (HF : Forall (fun a => finite a /\ Rabs (val a) <= M i) (map (at_ i) xs)) by (apply Forall_map, Forall_forall; intros x Hx; now apply HX).
  assert (Hn' : map (at_ i) xs <> []) by (destruct xs; [easy|discriminate]).
  split.
  - apply (fmean_range (- M i) (M i)); [exact Hn'|rewrite map_length; lia| |specialize (HS i Hd); lra].
    eapply Forall_impl; [|exact HF]. intros a [H1 H2]. split; [exact H1|]. now apply Rabs_le_inv in H2.
  - pose proof (fmean_error' (M i) (map (at_ i) xs) Hn' ltac:(rewrite map_length; exact Hl) HF (HS i Hd)) as H.
    rewrite map_length, rsum_map in H. exact H.
Qed.
Lemma real_mean_perm : forall xs ys i, Permutation xs ys -> real_mean xs i = real_mean ys i.
Proof. intros xs ys i H. rewrite !real_mean_psum, <- !rsum_map, (Permutation_length H). f_equal. apply rsum_perm. now apply Permutation_map. Qed.
Lemma top_order : forall dflt dflt' d (M : nat -> R) (xs ys : list (list f64)), xs <> [] -> (N.of_nat (length xs) <= 2 ^ 53)%N ->
  (forall x, In x xs -> length x = d /\ forall i, (i < d)%nat -> finite (at_ i x) /\ Rabs (val (at_ i x)) <= M i) ->
  (forall i, (i < d)%nat -> 2 * M i <= DBL_MAX) -> Permutation xs ys ->
  exists s m s' m', run_consumer (mean_consume b64_ops) (mean_init dflt) xs = Ok s /\ mean_get s = Ok m /\
    run_consumer (mean_consume b64_ops) (mean_init dflt') ys = Ok s' /\ mean_get s' = Ok m' /\
    forall i, (i < d)%nat -> Rabs (val (at_ i m) - val (at_ i m')) <= (INR (length xs) + 12) * (unit_roundoff * M i + half_denorm_min).
Proof.
  intros dflt dflt' d M xs ys Hne Hl HX HS HP.
  destruct (top_error dflt d M xs Hne Hl HX HS) as (s & m & E & Em & _ & H).
  assert (Hl' : (N.of_nat (length ys) <= 2 ^ 53)%N) by (rewrite <- (Permutation_length HP); exact Hl).
  assert (Hne' : ys <> []) by (intros ->; apply Permutation_sym, Permutation_nil in HP; easy).
  assert (HX' : forall x, In x ys -> length x = d /\ forall i, (i < d)%nat -> finite (at_ i x) /\ Rabs (val (at_ i x)) <= M i)
    by (intros x Hx; apply HX; eapply Permutation_in; [apply Permutation_sym; exact HP|exact Hx]).
  destruct (top_error dflt' d M ys Hne' Hl' HX' HS) as (s' & m' & E' & Em' & _ & H').
  exists s, m, s', m'. split; [exact E|]. split; [exact Em|]. split; [exact E'|]. split; [exact Em'|].
  intros i Hi. destruct (H i Hi) as [_ A]. destruct (H' i Hi) as [_ A']. rewrite <- (real_mean_perm _ _ i HP), <- (Permutation_length HP) in A'.
  apply Rabs_le_inv in A. apply Rabs_le_inv in A'. apply Rabs_le. lra.
Qed.
Lemma top_constant : forall dflt d (c : list f64) (xs : list (list f64)), xs <> [] -> (N.of_nat (length xs) < 2 ^ 64)%N ->
  length c = d -> (forall i, (i < d)%nat -> finite (at_ i c)) -> (forall x, In x xs -> x = c) ->
  exists s m, run_consumer (mean_consume b64_ops) (mean_init dflt) xs = Ok s /\ mean_get s = Ok m /\ length m = d /\
    forall i, (i < d)%nat -> finite (at_ i m) /\ val (at_ i m) = val (at_ i c).
Proof.
  intros dflt d c xs Hne Hl Hc Hf HX.
  destruct (top_range dflt d (fun i => val (at_ i c)) (fun i => val (at_ i c)) xs Hne Hl) as (s & m & E & Em & L & H).
  - intros x Hx. rewrite (HX x Hx). split; [exact Hc|]. intros i Hi. split; [now apply Hf|lra].
  - intros i Hi. pose proof max_ge. pose proof (bpow_gt_0 radix2 1023). lra.
  - exists s, m. split; [exact E|]. split; [exact Em|]. split; [exact L|]. intros i Hi. destruct (H i Hi). split; [assumption|lra].
Qed.

(** ** CovarianceMatrix *)
Lemma Bmult_comm : forall a b : f64, kmul b64_ops a b = kmul b64_ops b a.
Proof.
  intros a b. apply B2SF_inj. cbn [kmul b64_ops].
  destruct a as [sa|sa| |sa ma ea Ha], b as [sb|sb| |sb mb eb Hb]; cbn [Bmult B2SF]; try reflexivity; try (now rewrite xorb_comm).
  rewrite !B2SF_SF2B. rewrite (xorb_comm sa), (Pos.mul_comm ma), (Z.add_comm ea). reflexivity.
Qed.
Lemma top_symmetric : forall (G : matrix f64) (xs : list (list f64)) s, (forall i j, G i j = G j i) ->
  run_consumer (cov_consume b64_ops) (cov_init G) xs = Ok s -> forall i j, snd (cov_get s) i j = snd (cov_get s) j i.
Proof.
  intros G xs. induction xs as [|x xs IH] using rev_ind; intros s HG H.
  - cbn in H. injection H as <-. exact HG.
  - rewrite run_snoc in H. destruct (run_consumer _ _ xs) as [s0| | |] eqn:E; try discriminate. cbn [bind] in H.
    specialize (IH s0 HG eq_refl). unfold cov_consume in H. destruct (cv_n s0 =? 0)%N.
    + injection H as <-. exact IH.
    + destruct (cv_mean s0) as [m|]; [|discriminate]. destruct (same_size x m); [|discriminate]. injection H as <-.
      intros i j. cbn [cov_get snd cv_cov] in *. unfold cov_entry. rewrite (IH i j). cbn [kconj b64_ops]. now rewrite Bmult_comm.
Qed.
